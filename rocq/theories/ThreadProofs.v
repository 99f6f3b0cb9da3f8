(** * Proofs about threads: C55. *)

From Coq Require Import ZifyBool ZifyNat ZifyN.
From Verif Require Import Machine MachineFacts Layouts Memory Matrix MatMul Spec MatrixSpec ExprSpec ProductSpec.
From Verif Require Import LayoutFacts MemoryFacts AccessFacts AccessProofs ConstructorProofs BlockProofs.
From Verif Require Import ExprProofs ProductProofs Program HistorySpec HistoryProofs HistorySafety Borrow BorrowFacts BorrowProofs.
From Verif Require Import OwnerProofs AliasProofs Dealloc DeallocProofs Threads.
Local Open Scope N_scope.

Section Rename.
Context {T : Type} {SC : HScalar T} {St : Type}.
Notation heap := (@heap T).

(** ** Matrices with renamed allocations *)

Definition ren_region (f : nat -> nat) (r : region) : region := mkRegion (f (r_alloc r)) (r_lo r) (r_len r).
Definition ren_place (f : nat -> nat) (p : place) : place := mkPlace (f (pl_alloc p)) (pl_index p).
Definition ren_ptr (f : nat -> nat) (p : pointer) : pointer := mkPointer (ren_region f (p_region p)) (p_off p).
Definition ren_cont (f : nat -> nat) (c : container) : container := mkContainer (c_kind c) (ren_region f (c_region c)).
Definition ren_base (f : nat -> nat) (b : base_matrix) : base_matrix :=
  mkBase (ren_cont f (bm_data b)) (bm_layout b) (bm_rs b) (bm_cs b).
Fixpoint ren (f : nat -> nat) (x : matrix T) : matrix T :=
  match x with
  | MBase b => MBase (ren_base f b)
  | MRef x => MRef (ren f x)
  | MRefMut x => MRefMut (ren f x)
  | MScalarMult x s => MScalarMult (ren f x) s
  | MAddition x y l => MAddition (ren f x) (ren f y) l
  end.

Lemma ren_layout : forall f x, mat_layout (ren f x) = mat_layout x.
Proof. intros f x. induction x; cbn [ren mat_layout]; auto. Qed.
Lemma ren_size : forall f x, mat_size (ren f x) = mat_size x.
Proof. intros f x. induction x; cbn [ren mat_size]; auto. Qed.
Lemma ren_writable : forall f x, is_writable (ren f x) = is_writable x.
Proof. intros f x. induction x; cbn [ren is_writable]; auto. Qed.
Lemma ren_occupies : forall f x a i, occupies x (a, i) -> occupies (ren f x) (f a, i).
Proof.
  intros f x a i. induction x as [b | x IH | x IH | x IH s | x IHx y IHy l]; cbn [ren occupies]; auto; [|tauto].
  cbn. intros (-> & H). auto.
Qed.
Lemma ren_ext : forall f g x, (forall a, lives_in a x -> f a = g a) -> ren f x = ren g x.
Proof.
  intros f g x. induction x as [b | x IH | x IH | x IH s | x IHx y IHy l]; cbn [ren lives_in]; intros H.
  - unfold ren_base, ren_cont, ren_region. unfold allocation in H. now rewrite (H _ eq_refl).
  - now rewrite IH.
  - now rewrite IH.
  - now rewrite IH.
  - rewrite IHx, IHy; auto.
Qed.
Lemma ren_id : forall x, ren (fun a => a) x = x.
Proof.
  intros x. induction x as [b | x IH | x IH | x IH s | x IHx y IHy l]; cbn [ren]; try congruence.
  destruct b as [[k [a lo n]] l rs cs]. reflexivity.
Qed.
Lemma ren_wrap : forall f p x, ren f (wrap p x) = wrap p (ren f x).
Proof. intros f [] x; reflexivity. Qed.

(** Views of renamed matrices. *)
Definition renrel (f : nat -> nat) (b b' : base_matrix) : Prop := b' = ren_base f b.

Lemma ren_offset : forall f p d, orel (fun a b => b = ren_ptr f a) (ptr_offset p d) (ptr_offset (ren_ptr f p) d).
Proof. intros f p d. unfold ptr_offset. cbv zeta. cbn. destruct (_ && _)%bool; cbn; auto. Qed.
Lemma ren_raw_parts : forall f p n, orel (fun a b => b = ren_region f a) (from_raw_parts p n) (from_raw_parts (ren_ptr f p) n).
Proof. intros f p n. unfold from_raw_parts. cbv zeta. cbn. destruct (_ <=? _); cbn; auto. Qed.
Lemma ren_from_data : forall f m rs cs c l, orel (renrel f) (from_data m rs cs c l) (from_data m rs cs (ren_cont f c) l).
Proof.
  intros f m rs cs c l. unfold from_data. apply orel_same. intros n _. apply orel_same. intros _ _. reflexivity.
Qed.
Lemma ren_slice_container : forall f mut r, slice_container mut (ren_region f r) = ren_cont f (slice_container mut r).
Proof. intros f [] r; reflexivity. Qed.

Lemma ren_strided : forall f m mut o p d s,
  orel (renrel f) (from_pointer_strided m mut o p d s) (from_pointer_strided m mut o (ren_ptr f p) d s).
Proof.
  intros f m mut o p d s. unfold from_pointer_strided. cbv zeta. do 4 (apply orel_same; intros ? _).
  eapply orel_bind; [apply ren_raw_parts|]. intros r r' ->. rewrite ren_slice_container. apply ren_from_data.
Qed.
Lemma ren_dense : forall f m mut o p d,
  orel (renrel f) (from_pointer m mut o p d) (from_pointer m mut o (ren_ptr f p) d).
Proof.
  intros f m mut o p d. unfold from_pointer. apply orel_same. intros ? _.
  eapply orel_bind; [apply ren_raw_parts|]. intros r r' ->. rewrite ren_slice_container. apply ren_from_data.
Qed.
Lemma ren_get_pointer : forall f b, get_pointer (ren_base f b) = ren_ptr f (get_pointer b).
Proof. reflexivity. Qed.
Lemma ren_slice : forall f b i j, orel (fun a b => b = ren_region f a) (get_slice b i j) (get_slice (ren_base f b) i j).
Proof.
  intros f b i j. unfold get_slice, container_get_slice. do 2 (apply orel_same; intros ? _).
  eapply orel_bind; [apply (ren_offset f (get_pointer b))|]. intros p p' ->. apply ren_raw_parts.
Qed.
Lemma ren_slice_mut : forall f b i j,
  orel (fun a b => b = ren_region f a) (get_slice_mut b i j) (get_slice_mut (ren_base f b) i j).
Proof. intros f b i j. rewrite !get_slice_mut_eq. apply ren_slice. Qed.
Lemma ren_block : forall f m mut b tl d, orel (renrel f) (block m mut b tl d) (block m mut (ren_base f b) tl d).
Proof.
  intros f m mut b tl d. unfold block. cbn [ren_base bm_layout]. destruct (block_order _); cbn; auto.
  do 4 (apply orel_same; intros ? _).
  eapply orel_bind; [apply (ren_offset f (get_pointer b))|]. intros p p' ->. apply orel_same. intros s _. apply ren_strided.
Qed.

Definition four (x : base_matrix * base_matrix * base_matrix * base_matrix) : list base_matrix :=
  let '(b0, b1, b2, b3) := x in [b0; b1; b2; b3].
Lemma ren_split : forall f m b s,
  orel (fun x y => four y = map (ren_base f) (four x)) (split_in_four_mut m b s) (split_in_four_mut m (ren_base f b) s).
Proof.
  intros f m b s. unfold split_in_four_mut. cbv zeta. cbn [ren_base bm_layout]. do 9 (apply orel_same; intros ? _).
  do 4 (eapply orel_bind; [apply (ren_offset f (get_pointer b))|]; intros ? ? ->;
        eapply orel_bind; [apply ren_strided|]; intros ? ? ->).
  reflexivity.
Qed.

Lemma ren_base_mut : forall f m b r c, orel (fun a b => b = ren_place f a)
  (base_get_unchecked_mut m b r c) (base_get_unchecked_mut m (ren_base f b) r c).
Proof.
  intros f m b r c. unfold base_get_unchecked_mut. cbn [ren_base bm_layout]. apply orel_same. intros i _.
  unfold container_get_unchecked_mut, region_place. cbn. destruct (_ <? _); cbn; auto.
Qed.
Lemma ren_base_mut1d : forall f m b i, orel (fun a b => b = ren_place f a)
  (base_get1d_unchecked_mut m b i) (base_get1d_unchecked_mut m (ren_base f b) i).
Proof.
  intros f m b i. unfold base_get1d_unchecked_mut. cbn [ren_base bm_layout]. apply orel_same. intros j _.
  unfold container_get_unchecked_mut, region_place. cbn. destruct (_ <? _); cbn; auto.
Qed.
Lemma ren_mut : forall f m x r c, orel (fun a b => b = ren_place f a)
  (get_unchecked_mut m x r c) (get_unchecked_mut m (ren f x) r c).
Proof.
  intros f m x r c. induction x; cbn [ren get_unchecked_mut]; cbn [orel]; auto.
  cbn [ren_base bm_data]. unfold container_is_mut. cbn [ren_cont c_kind].
  destruct (c_kind (bm_data b)); cbn [orel]; auto using ren_base_mut.
Qed.
Lemma ren_mut1d : forall f m x i, orel (fun a b => b = ren_place f a)
  (get1d_unchecked_mut m x i) (get1d_unchecked_mut m (ren f x) i).
Proof.
  intros f m x i. induction x; cbn [ren get1d_unchecked_mut]; cbn [orel]; auto.
  cbn [ren_base bm_data]. unfold container_is_mut. cbn [ren_cont c_kind].
  destruct (c_kind (bm_data b)); cbn [orel]; auto using ren_base_mut1d.
Qed.

(** ** Two heaps that agree on the cells [D] *)

Record rel (f : nat -> nat) (D : nat * N -> Prop) (h h' : heap) : Prop := mkRel {
  rel_get : forall a i, D (a, i) -> hget h' (f a) i = hget h a i;
  rel_in : forall a, (a < length h)%nat -> (f a < length h')%nat;
  rel_inj : forall a b, (a < length h)%nat -> (b < length h)%nat -> f a = f b -> a = b;
  rel_dom : forall a i, D (a, i) -> (a < length h)%nat
}.

Definition covered (D : nat * N -> Prop) (x : matrix T) : Prop := forall q, occupies x q -> D q.

Lemma hset_length : forall (h : heap) a i v, length (hset h a i v) = length h.
Proof. intros h a i v. unfold hset. destruct (nth_error h a); auto using upd_length. Qed.

Lemma rel_hset : forall f D h h' a i v, rel f D h h' -> D (a, i) -> rel f D (hset h a i v) (hset h' (f a) i v).
Proof.
  intros f D h h' a i v R Ha. constructor; rewrite ?hset_length.
  - intros b j Hb. destruct (Nat.eq_dec a b) as [<-|Hab]; [destruct (N.eq_dec i j) as [<-|Hij]|].
    + destruct (hget h a i) as [w|] eqn:E.
      * rewrite (hget_hset_same h a i v w E). apply (hget_hset_same h' (f a) i v w).
        rewrite (rel_get _ _ _ _ R); auto.
      * assert (E' : hget h' (f a) i = None) by (rewrite (rel_get _ _ _ _ R); auto).
        assert (N1 : forall (g : heap) c k w, hget g c k = None -> hget (hset g c k w) c k = None).
        { clear. intros g c k w. unfold hget, hset. destruct (nth_error g c) as [l|] eqn:E.
          - intros H. rewrite nth_upd, Nat.eqb_refl, E, nth_upd, Nat.eqb_refl, H. reflexivity.
          - now rewrite E. }
        now rewrite !N1.
    + rewrite !hget_hset_other by congruence. now apply (rel_get _ _ _ _ R).
    + assert (f a <> f b) by (intros E; apply Hab; apply (rel_inj _ _ _ _ R); eauto using rel_dom).
      rewrite !hget_hset_other by congruence. now apply (rel_get _ _ _ _ R).
  - apply (rel_in _ _ _ _ R).
  - apply (rel_inj _ _ _ _ R).
  - apply (rel_dom _ _ _ _ R).
Qed.

Lemma rel_weaken : forall f (D D' : nat * N -> Prop) h h', (forall q, D' q -> D q) -> rel f D h h' -> rel f D' h h'.
Proof. intros f D D' h h' H [R1 R2 R3 R4]. constructor; eauto. Qed.

Lemma ren_read : forall f D h h' r i, rel f D h h' -> (forall q, in_region r q -> D q) ->
  region_read h' (ren_region f r) i = region_read h r i.
Proof.
  intros f D h h' r i R H. unfold region_read. cbn. destruct (N.ltb_spec i (r_len r)); auto.
  rewrite (rel_get _ _ _ _ R); auto. apply H. unfold in_region. cbn. lia.
Qed.
Lemma ren_place_read : forall f D h h' p, rel f D h h' -> D (pl_alloc p, pl_index p) ->
  place_read h' (ren_place f p) = place_read h p.
Proof. intros f D h h' p R H. unfold place_read. cbn. now rewrite (rel_get _ _ _ _ R). Qed.
Lemma ren_write : forall f D h h' p v, rel f D h h' -> D (pl_alloc p, pl_index p) ->
  orel (rel f D) (place_write h p v) (place_write h' (ren_place f p) v).
Proof.
  intros f D h h' p v R H. unfold place_write. cbn. rewrite (rel_get _ _ _ _ R) by auto.
  destruct (hget h (pl_alloc p) (pl_index p)); cbn; auto using rel_hset.
Qed.

Lemma covered_base : forall D b, covered D (@MBase T b) -> forall q, in_region (c_region (bm_data b)) q -> D q.
Proof. intros D b H q Hq. apply H. exact Hq. Qed.

Lemma ren_unchecked : forall f D m h h' x, rel f D h h' -> covered D x ->
  (forall r c, get_unchecked m h' (ren f x) r c = get_unchecked m h x r c) /\
  (forall i, get1d_unchecked m h' (ren f x) i = get1d_unchecked m h x i).
Proof.
  intros f D m h h' x R Hx. induction x as [b | x IH | x IH | x IH s | x IHx y IHy l]; cbn [ren get_unchecked get1d_unchecked].
  - pose proof (covered_base _ _ Hx) as Hb. unfold base_get_unchecked, base_get1d_unchecked, container_get_unchecked.
    cbn [ren_base bm_layout bm_data ren_cont c_region]. split; intros.
    + destruct (convert_2d_raw _ _ _ _); cbn [bind]; auto. eapply ren_read; eauto.
    + destruct (convert_1d_raw _ _ _); cbn [bind]; auto. eapply ren_read; eauto.
  - now apply IH.
  - now apply IH.
  - destruct (IH Hx) as [H1 H2]. split; intros; [now rewrite H1 | now rewrite H2].
  - destruct (IHx (fun q Hq => Hx q (or_introl Hq))) as [X1 X2].
    destruct (IHy (fun q Hq => Hx q (or_intror Hq))) as [Y1 Y2].
    split; intros; [now rewrite X1, Y1 | now rewrite X2, Y2].
Qed.

Lemma ren_get : forall f D m h h' x r c, rel f D h h' -> covered D x -> get m h' (ren f x) r c = get m h x r c.
Proof.
  intros f D m h h' x r c H Hx. unfold get. rewrite ren_layout. destruct (assert_dimension _ _ _); cbn [bind]; auto.
  now apply (ren_unchecked f D).
Qed.
Lemma ren_get1d : forall f D m h h' x i, rel f D h h' -> covered D x -> get1d m h' (ren f x) i = get1d m h x i.
Proof.
  intros f D m h h' x i H Hx. unfold get1d. rewrite ren_layout. destruct (number_of_elements _ _); cbn [bind]; auto.
  destruct (assert_dimension1d _ _); cbn [bind]; auto. now apply (ren_unchecked f D).
Qed.

Lemma ren_place_set : forall f D h h' v (o o' : outcome place), rel f D h h' ->
  orel (fun a b => b = ren_place f a) o o' ->
  (forall p, o = Ok p -> D (pl_alloc p, pl_index p)) ->
  orel (rel f D) (p <- o ;; place_write h p v) (p <- o' ;; place_write h' p v).
Proof.
  intros f D h h' v [p| |] [p'| |] R Ho Hp; cbn in *; auto; try contradiction. subst p'. apply ren_write; auto.
Qed.

Lemma ren_set : forall f D m h h' x r c v, rel f D h h' -> covered D x ->
  orel (rel f D) (set m h x r c v) (set m h' (ren f x) r c v).
Proof.
  intros f D m h h' x r c v R Hx. unfold set, get_mut. rewrite ren_layout. eapply ren_place_set; eauto.
  - apply orel_same. intros _ _. apply ren_mut.
  - intros p Ep. apply Hx. apply bind_ok in Ep. destruct Ep as (u & _ & Ep). eapply mut_in; eauto.
Qed.
Lemma ren_set1d : forall f D m h h' x i v, rel f D h h' -> covered D x ->
  orel (rel f D) (set1d m h x i v) (set1d m h' (ren f x) i v).
Proof.
  intros f D m h h' x i v R Hx. unfold set1d, get1d_mut. rewrite ren_layout. eapply ren_place_set; eauto.
  - apply orel_same. intros n _. apply orel_same. intros _ _. apply ren_mut1d.
  - intros p Ep. apply Hx. apply bind_ok in Ep. destruct Ep as (n & _ & Ep). apply bind_ok in Ep.
    destruct Ep as (u & _ & Ep). eapply mut1d_in; eauto.
Qed.

Definition lrel (f : nat -> nat) (D : nat * N -> Prop) {S : Type} (x y : heap * S * bool) : Prop :=
  rel f D (fst (fst x)) (fst (fst y)) /\ snd (fst x) = snd (fst y) /\ snd x = snd y.

Lemma ren_for_each : forall f D (S : Type) m h h' b (g : closure S) s, rel f D h h' -> covered D (MBase b) ->
  orel (lrel f D) (for_each m h b g s) (for_each m h' (ren_base f b) g s).
Proof.
  intros f D S m h h' b g s H Hb. unfold for_each. cbn [ren_base bm_layout]. apply orel_same. intros n _.
  generalize (N.to_nat n) 0 h h' s H. clear n s h h' H. induction n as [|n IH]; intros i h h' s H; cbn [for_each_loop].
  - split; auto.
  - apply orel_bind with (R := lrel f D).
    + unfold call_closure. pose proof (ren_base_mut1d f m b i) as Ep.
      change (mkBase (ren_cont f (bm_data b)) (bm_layout b) (bm_rs b) (bm_cs b)) with (ren_base f b).
      destruct (base_get1d_unchecked_mut m b i) as [p| |] eqn:E1,
        (base_get1d_unchecked_mut m (ren_base f b) i) as [p'| |]; cbn in Ep; try contradiction; cbn; auto.
      2:{ split; auto. }
      subst p'. assert (Hp : D (pl_alloc p, pl_index p)) by (apply Hb; now apply base_mut1d_in in E1).
      rewrite (ren_place_read f D h h') by auto. apply orel_same. intros v _. destruct (g s v) as [[s' v'] pn].
      apply orel_bind with (R := rel f D); [now apply ren_write|]. intros h1 h1' H1. split; auto.
    + intros [[h1 s1] pn1] [[h1' s1'] pn1'] (R1 & R2 & R3). cbn [fst snd] in *. subst s1' pn1'.
      destruct pn1; [split; auto|]. now apply IH.
Qed.

Lemma ren_ptr_read : forall f D h h' p d, rel f D h h' -> (forall q, in_region (p_region p) q -> D q) ->
  ptr_read h' (ren_ptr f p) d = ptr_read h p d.
Proof. intros f D h h' p d H Hp. unfold ptr_read. cbn. destruct (0 <=? _)%Z; auto. eapply ren_read; eauto. Qed.
Lemma ren_ptr_write : forall f D h h' p d v, rel f D h h' -> (forall q, in_region (p_region p) q -> D q) ->
  orel (rel f D) (ptr_write h p d v) (ptr_write h' (ren_ptr f p) d v).
Proof.
  intros f D h h' p d v H Hp. unfold ptr_write. cbn [ren_ptr p_off p_region]. destruct (0 <=? _)%Z; cbn [orel]; auto.
  eapply ren_place_set; eauto.
  - unfold region_place. cbn. destruct (_ <? _); cbn; auto.
  - intros q Eq. apply Hp. now apply region_place_in in Eq.
Qed.

Lemma ren_matmul : forall f D kern h h' alpha a b beta c, rel f D h h' ->
  covered D (MBase a) -> covered D (MBase b) -> covered D (MBase c) ->
  orel (rel f D) (matmul kern h alpha a b beta c)
    (matmul kern h' alpha (ren_base f a) (ren_base f b) beta (ren_base f c)).
Proof.
  intros f D kern h h' alpha a b beta c H Ha Hb Hc. unfold matmul. cbn [ren_base bm_layout].
  apply orel_same. intros _ _. apply orel_same. intros sa _. apply orel_same. intros sb _. apply orel_same. intros sc _.
  rewrite !ren_get_pointer.
  pose proof (covered_base _ _ Ha) as Ra. pose proof (covered_base _ _ Hb) as Rb. pose proof (covered_base _ _ Hc) as Rc.
  unfold gemm, for_range. apply orel_loop; auto. intros i t t' Ht. apply orel_loop; auto. intros j u u' Hu.
  unfold gemm_entry.
  match goal with |- orel _ (bind ?x _) (bind ?y _) => replace y with x end.
  2:{ apply collect_ext. intros l. rewrite !(ren_ptr_read f D u u') by auto. reflexivity. }
  apply orel_same. intros ps _. rewrite (ren_ptr_read f D u u') by auto. apply orel_same. intros old _.
  now apply ren_ptr_write.
Qed.

(** ** Allocation: the new allocations of the two heaps correspond. *)

Definition ext (f : nat -> nat) (n n' : nat) (a : nat) : nat := if Nat.eqb a n then n' else f a.
Definition also (D : nat * N -> Prop) (n : nat) (q : nat * N) : Prop := D q \/ fst q = n.

Lemma rel_app : forall f D h h' l, rel f D h h' ->
  rel (ext f (length h) (length h')) (also D (length h)) (h ++ [l]) (h' ++ [l]).
Proof.
  intros f D h h' l R. constructor.
  - intros a i [Ha|Ha]; unfold ext.
    + pose proof (rel_dom _ _ _ _ R a i Ha) as Hl. destruct (Nat.eqb_spec a (length h)); [lia|].
      pose proof (rel_in _ _ _ _ R a Hl). unfold hget. rewrite !nth_error_app1 by lia. now apply (rel_get _ _ _ _ R a i).
    + cbn in Ha. subst a. rewrite Nat.eqb_refl. unfold hget. rewrite !nth_error_app2 by lia.
      now rewrite !Nat.sub_diag.
  - intros a. rewrite !app_length. cbn. unfold ext. intros Ha. destruct (Nat.eqb_spec a (length h)); [lia|].
    assert (Hl : (a < length h)%nat) by lia. pose proof (rel_in _ _ _ _ R a Hl). lia.
  - intros a b. rewrite app_length. cbn. unfold ext. intros Ha Hb E.
    destruct (Nat.eqb_spec a (length h)), (Nat.eqb_spec b (length h)); try lia.
    + assert (Hl : (b < length h)%nat) by lia. pose proof (rel_in _ _ _ _ R b Hl). lia.
    + assert (Hl : (a < length h)%nat) by lia. pose proof (rel_in _ _ _ _ R a Hl). lia.
    + apply (rel_inj _ _ _ _ R); auto; lia.
  - intros a i [Ha|Ha]; rewrite app_length; cbn in *; [apply (rel_dom _ _ _ _ R) in Ha|]; lia.
Qed.

(** A new matrix in both heaps. *)
Definition nrel (f : nat -> nat) (D : nat * N -> Prop) (n n' : nat) (x y : heap * base_matrix) : Prop :=
  rel (ext f n n') (also D n) (fst x) (fst y) /\ snd y = ren_base (ext f n n') (snd x) /\ allocation (snd x) = n.
Definition crel (f : nat -> nat) (D : nat * N -> Prop) (n n' : nat) (x y : heap * container) : Prop :=
  rel (ext f n n') (also D n) (fst x) (fst y) /\ snd y = ren_cont (ext f n n') (snd x) /\ r_alloc (c_region (snd x)) = n.

Lemma ren_vector : forall f D h h' n, rel f D h h' ->
  orel (crel f D (length h) (length h')) (vector_container_new h n) (vector_container_new h' n).
Proof.
  intros f D h h' n R. unfold vector_container_new, alloc. destruct (_ <=? _); cbn; auto.
  split; [|split]; cbn; auto using rel_app.
  unfold ren_cont, ren_region, ext. cbn. now rewrite Nat.eqb_refl.
Qed.
Lemma ren_array : forall f D h h' n, rel f D h h' ->
  crel f D (length h) (length h') (array_container_new h n) (array_container_new h' n).
Proof.
  intros f D h h' n R. unfold array_container_new, alloc. cbn.
  split; [|split]; cbn; auto using rel_app.
  unfold ren_cont, ren_region, ext. cbn. now rewrite Nat.eqb_refl.
Qed.
Lemma ren_new_data : forall f D n n' m rs cs l x y, crel f D n n' x y ->
  orel (nrel f D n n') (b <- from_data m rs cs (snd x) l ;; Ok (fst x, b)) (b <- from_data m rs cs (snd y) l ;; Ok (fst y, b)).
Proof.
  intros f D n n' m rs cs l [h c] [h' c'] (R & E & Hc). cbn [fst snd] in *. subst c'.
  unfold from_data. cbn [container_number_of_elements ren_cont c_region ren_region r_len].
  unfold container_number_of_elements. cbn [c_region ren_region r_len].
  destruct (number_of_elements m l) as [k| |]; cbn; auto. destruct (assert_ _); cbn; auto.
  split; auto.
Qed.

Lemma ren_zeros : forall f D m h h' k rows cols, rel f D h h' ->
  orel (nrel f D (length h) (length h')) (zeros_from_dim m h k rows cols) (zeros_from_dim m h' k rows cols).
Proof.
  intros f D m h h' k rows cols R. unfold zeros_from_dim. apply orel_same. intros l _. apply orel_same. intros n _.
  eapply orel_bind; [apply ren_vector; exact R|]. intros [h1 c1] [h2 c2] C.
  apply orel_same. intros l' _. exact (ren_new_data f D _ _ m Dynamic Dynamic l' _ _ C).
Qed.
Lemma ren_row : forall f D m h h' n, rel f D h h' ->
  orel (nrel f D (length h) (length h')) (row_vector_zeros_from_length m h n) (row_vector_zeros_from_length m h' n).
Proof.
  intros f D m h h' n R. unfold row_vector_zeros_from_length.
  eapply orel_bind; [apply ren_vector; exact R|]. intros [h1 c1] [h2 c2] C. exact (ren_new_data f D _ _ m Fixed1 Dynamic _ _ _ C).
Qed.
Lemma ren_column : forall f D m h h' n, rel f D h h' ->
  orel (nrel f D (length h) (length h')) (column_vector_zeros_from_length m h n) (column_vector_zeros_from_length m h' n).
Proof.
  intros f D m h h' n R. unfold column_vector_zeros_from_length.
  eapply orel_bind; [apply ren_vector; exact R|]. intros [h1 c1] [h2 c2] C. exact (ren_new_data f D _ _ m Dynamic Fixed1 _ _ _ C).
Qed.
Lemma ren_row_dim : forall f D m h h' r c, rel f D h h' ->
  orel (nrel f D (length h) (length h')) (row_vector_zeros_from_dim m h r c) (row_vector_zeros_from_dim m h' r c).
Proof. intros f D m h h' r c H. apply orel_same. intros _ _. exact (ren_row f D m h h' c H). Qed.
Lemma ren_column_dim : forall f D m h h' r c, rel f D h h' ->
  orel (nrel f D (length h) (length h')) (column_vector_zeros_from_dim m h r c) (column_vector_zeros_from_dim m h' r c).
Proof. intros f D m h h' r c H. apply orel_same. intros _ _. exact (ren_column f D m h h' r H). Qed.
Lemma ren_fixed : forall f D m h h' k rs cs, rel f D h h' ->
  orel (nrel f D (length h) (length h')) (zeros_fixed m h k rs cs) (zeros_fixed m h' k rs cs).
Proof.
  intros f D m h h' k rs cs H. unfold zeros_fixed. pose proof (ren_array f D h h' (size_N rs * size_N cs) H) as R.
  destruct (array_container_new h _) as [h1 c1], (array_container_new h' _) as [h2 c2].
  apply orel_same. intros l _. exact (ren_new_data f D _ _ m rs cs l _ _ R).
Qed.
Lemma ren_fixed_vector : forall f D m h h' rs cs k n, rel f D h h' ->
  orel (nrel f D (length h) (length h')) (zeros_fixed_vector m h rs cs k n) (zeros_fixed_vector m h' rs cs k n).
Proof.
  intros f D m h h' rs cs k n H. unfold zeros_fixed_vector. pose proof (ren_array f D h h' n H) as R.
  destruct (array_container_new h _) as [h1 c1], (array_container_new h' _) as [h2 c2].
  destruct (from_length k n) as [l|]; [|exact I]. exact (ren_new_data f D _ _ m rs cs l _ _ R).
Qed.

Lemma ext_old : forall f n n' (x : matrix T), (forall a, lives_in a x -> (a < n)%nat) -> ren (ext f n n') x = ren f x.
Proof.
  intros f n n' x H. apply ren_ext. intros a Ha. apply H in Ha. unfold ext. destruct (Nat.eqb_spec a n); auto. lia.
Qed.
Lemma also_old : forall D n (x : matrix T), covered D x -> covered (also D n) x.
Proof. intros D n x H q Hq. left. auto. Qed.
Lemma also_new : forall D n b, allocation b = n -> covered (also D n) (@MBase T b).
Proof. intros D n b H q (Hq & _). right. unfold allocation in H. congruence. Qed.

Lemma ren_eval : forall f D m h h' x, rel f D h h' -> covered D x -> placed h x ->
  orel (nrel f D (length h) (length h')) (eval m h x) (eval m h' (ren f x)).
Proof.
  intros f D m h h' x R Hx Hp. unfold eval. rewrite ren_layout. eapply orel_bind; [apply ren_zeros; exact R|].
  intros [h1 b1] [h2 b2] (R1 & R2 & R3). cbn [fst snd] in *. subst b2. apply orel_same. intros n _.
  eapply orel_bind with (R := rel (ext f (length h) (length h')) (also D (length h))).
  - unfold for_range. apply orel_loop; auto. intros k t t' Ht.
    destruct (ren_unchecked _ _ m t t' x Ht (also_old _ _ _ Hx)) as [_ E]. rewrite (ext_old f) in E by exact Hp.
    rewrite E. apply orel_same. intros v _. eapply ren_place_set; eauto.
    + apply ren_base_mut1d.
    + intros p Ep. apply base_mut1d_in in Ep. apply (also_new D _ b1 R3). exact Ep.
  - intros h3 h4 R4. split; auto.
Qed.

Lemma ren_dot : forall f D shape kern m h h' a b, rel f D h h' ->
  covered D (MBase a) -> placed h (MBase a) -> covered D (MBase b) -> placed h (MBase b) ->
  orel (nrel f D (length h) (length h')) (dot shape kern m h a b) (dot shape kern m h' (ren_base f a) (ren_base f b)).
Proof.
  intros f D shape kern m h h' a b R Ha Pa Hb Pb.
  assert (Ea : ren_base (ext f (length h) (length h')) a = ren_base f a) by (pose proof (ext_old f _ (length h') _ Pa) as E; cbn [ren] in E; congruence).
  assert (Eb : ren_base (ext f (length h) (length h')) b = ren_base f b) by (pose proof (ext_old f _ (length h') _ Pb) as E; cbn [ren] in E; congruence).
  destruct shape; cbn [dot]; unfold dot_mat_mat, dot_row_mat, dot_mat_col;
    (eapply orel_bind; [first [apply ren_zeros | apply ren_row_dim | apply ren_column_dim]; exact R|]);
    intros [h1 b1] [h2 b2] (R1 & R2 & R3); cbn [fst snd] in *; subst b2; rewrite <- Ea, <- Eb;
    (eapply orel_bind; [apply ren_matmul; eauto using also_old, also_new|]); intros h3 h4 R4; split; auto.
Qed.

(** ** Calls *)

Definition held (ms : list (matrix T)) (q : nat * N) : Prop := exists x, In x ms /\ occupies x q.

(** The new matrices of a call lie in the operands or in fresh memory. *)
Definition news (st : state T) (v : matrix T) : Prop :=
  (forall q, occupies v q -> (length (st_heap st) <= fst q)%nat) \/
  ((forall q, occupies v q -> held (st_mats st) q) /\
   (is_writable v = true -> exists w, In w (st_mats st) /\ is_writable w = true /\ forall q, occupies v q -> occupies w q)).

Lemma view_news : forall (st : state T) mut x b v, lookup_block st mut x = Some b ->
  within (c_region (bm_data v)) (c_region (bm_data b)) -> container_is_mut (bm_data v) = mut -> news st (MBase v).
Proof.
  intros st mut x b v H W C. apply lookup_block_cases in H. destruct H as [H1 H2].
  assert (Hi : In (MBase b) (st_mats st)) by (eapply nth_error_In; exact H1).
  right. split.
  - intros q Hq. exists (MBase b). split; auto. eapply within_occupies; eauto.
  - intros Hw. exists (MBase b). cbn [is_writable] in Hw. splits; auto; [apply H2; congruence|].
    intros q Hq. eapply within_occupies; eauto.
Qed.

Lemma from_pointer_within : forall m mut o p d b, from_pointer m mut o p d = Ok b ->
  within (c_region (bm_data b)) (p_region p) /\ container_is_mut (bm_data b) = mut.
Proof.
  intros m mut o p d b H. unfold from_pointer in H.
  apply bind_ok in H. destruct H as (n & _ & H). apply bind_ok in H. destruct H as (r & E & H).
  apply from_data_data in H. subst b. cbn [bm_data]. rewrite slice_container_region, slice_container_mut_is.
  split; auto. eapply raw_parts_within; eauto.
Qed.

Lemma step_news : forall kern m st (o : call T St) st' r, step kern m st o = Ok (st', r) ->
  exists new, st_mats st' = st_mats st ++ new /\ Forall (news st) new.
Proof.
  intros kern m st o st' r H.
  assert (P : (no_pointers (Do o)) \/
    (exists mut x b p, lookup_block st mut x = Some b /\ p_region p = c_region (bm_data b) /\
       ((exists q d, exec kern m st o = Some (new_view st (p' <- Ok p ;; from_pointer m mut q p' d))) \/
        (exists q d s, exec kern m st o = Some (new_view st (p' <- Ok p ;; from_pointer_strided m mut q p' d s))))) \/
    (st_mats st' = st_mats st)).
  { destruct o; try (left; exact I); right; cbn [exec] in *; unfold step in H; cbn [exec] in H; unfold typed in *;
      destruct (lookup_block st mut x) as [b|] eqn:E; try (right; injection H as <- _; reflexivity);
      unfold ptr_add in *; destruct (ptr_offset (get_pointer b) (Z.of_N off)) as [p| |] eqn:Ep; cbn [bind] in *;
      try (right; unfold new_view in H; cbn [bind] in H; try discriminate H; injection H as <- _; reflexivity).
    all: left; exists mut, x, b, p; splits; auto; [apply ptr_offset_region in Ep; exact Ep|];
      first [left; do 2 eexists; reflexivity | right; do 3 eexists; reflexivity]. }
  destruct P as [P|[(mut & x & b & p & Hb & Hr & P)|P]].
  - destruct (step_kinds kern m st o st' r P H) as [r Hr E | b E Ha Hl Ho Hn | v E Eh Hn Hd | x at_ b b0 b1 b2 b3 -> Hb HD Hs Eh E].
    + exists []. rewrite app_nil_r. auto.
    + exists [MBase b]. split; auto. constructor; auto. left. intros q (Hq & _). unfold allocation in Ha. lia.
    + exists [v]. split; auto. constructor; auto. apply derives_borrows in Hd. destruct Hd as (D1 & D2 & _). right. split.
      * intros q Hq. destruct (D1 q Hq) as (x & a & w & _ & Hw & Hw'). exists w. split; auto. eapply nth_error_In; exact Hw.
      * intros Hv. destruct (D2 Hv) as (x & w & Eu & Hw & Ww). exists w. splits; auto; [eapply nth_error_In; exact Hw|].
        intros q Hq. destruct (D1 q Hq) as (x' & a' & w' & Hi & Hw' & Ho). rewrite Eu in Hi. destruct Hi as [Hi|[]].
        injection Hi as -> _. rewrite Hw in Hw'. injection Hw' as ->. exact Ho.
    + eexists. split; [exact E|]. apply split_within in Hs.
      assert (A : forall v, within (c_region (bm_data v)) (c_region (bm_data b)) /\ container_is_mut (bm_data v) = true ->
         news st (MBase v)).
      { intros v [V1 V2]. eapply (view_news st true x b); eauto. }
      inversion Hs as [|? ? S0 Hs1]; subst. inversion Hs1 as [|? ? S1 Hs2]; subst.
      inversion Hs2 as [|? ? S2 Hs3]; subst. inversion Hs3 as [|? ? S3 Hs4]; subst. repeat (apply Forall_cons; [apply A; auto|]). constructor.
  - assert (A : forall f : outcome base_matrix, exec kern m st o = Some (new_view st f) ->
       (forall v, f = Ok v -> news st (MBase v)) ->
       exists new, st_mats st' = st_mats st ++ new /\ Forall (news st) new).
    { intros f E Hf. unfold step in H. rewrite E in H. unfold new_view in H. destruct f as [v| |]; cbn [bind] in H; try discriminate H;
        injection H as <- <-; [exists [MBase v]; split; auto | exists []; rewrite app_nil_r; auto]. }
    destruct P as [(q & d & P)|(q & d & s & P)]; apply (A _ P); intros v Hv; cbn [bind] in Hv.
    + apply from_pointer_within in Hv. destruct Hv as [V1 V2]. rewrite Hr in V1. eapply view_news; eauto.
    + apply from_pointer_strided_within in Hv. destruct Hv as [V1 V2]. rewrite Hr in V1. eapply view_news; eauto.
  - exists []. rewrite app_nil_r. auto.
Qed.

(** What related states return. *)
Definition out (f : nat -> nat) (D : nat * N -> Prop) (st st' : state T) (x y : state T * result T St) : Prop :=
  snd x = snd y /\ exists f', st_mats (fst y) = map (ren f') (st_mats (fst x)) /\
    ((rel f' D (st_heap (fst x)) (st_heap (fst y)) /\
      (length (st_heap (fst x)) = length (st_heap st) \/ st_mats (fst x) = st_mats st)) \/
     rel f' (also D (length (st_heap st))) (st_heap (fst x)) (st_heap (fst y))).

Lemma ren_exec : forall f D kern m st st' (o : call T St), all_placed st ->
  (forall x, In x (st_mats st) -> covered D x) ->
  st_mats st' = map (ren f) (st_mats st) -> rel f D (st_heap st) (st_heap st') ->
  optrel (orel (out f D st st')) (exec kern m st o) (exec kern m st' o).
Proof.
  intros f D kern m [h ms] [h' ms'] o Hp Hc E R. cbn [st_mats st_heap] in *. subst ms'.
  assert (LK : forall x, lookup (mkState h' (map (ren f) ms)) x = option_map (ren f) (lookup (mkState h ms) x)).
  { intros x. unfold lookup. cbn [st_mats]. apply nth_error_map. }
  assert (LB : forall x, lookup_base (mkState h' (map (ren f) ms)) x = option_map (ren_base f) (lookup_base (mkState h ms) x)).
  { intros x. unfold lookup_base. rewrite LK. destruct (lookup _ x) as [[]|]; reflexivity. }
  assert (LM : forall x, lookup_mut (mkState h' (map (ren f) ms)) x = option_map (ren_base f) (lookup_mut (mkState h ms) x)).
  { intros x. unfold lookup_mut. rewrite LB. destruct (lookup_base _ x) as [b|]; cbn; auto.
    unfold container_is_mut. cbn. destruct (c_kind (bm_data b)); reflexivity. }
  assert (LV : forall mu x, lookup_block (mkState h' (map (ren f) ms)) mu x = option_map (ren_base f) (lookup_block (mkState h ms) mu x)).
  { intros [] x; cbn [lookup_block]; auto. }
  assert (AV : forall x w, lookup (mkState h ms) x = Some w -> covered D w /\ placed h w).
  { intros x w Hw. split; [apply Hc; eapply nth_error_In; exact Hw|]. exact (lookup_placed _ _ _ Hp Hw). }
  assert (AB : forall x b, lookup_base (mkState h ms) x = Some b -> covered D (MBase b) /\ placed h (MBase b)).
  { intros x b Hb. apply lookup_base_inv in Hb. eauto. }
  assert (AM : forall x b, lookup_mut (mkState h ms) x = Some b -> covered D (MBase b) /\ placed h (MBase b)).
  { intros x b Hb. apply lookup_mut_writable in Hb. destruct Hb. eauto. }
  set (S1 := mkState h ms) in *. set (S2 := mkState h' (map (ren f) ms)) in *.
  assert (NEW1 : forall g g', orel (nrel f D (length h) (length h')) g g' ->
     orel (out f D S1 S2) (new1 S1 g) (new1 S2 g')).
  { intros g g' Q. eapply orel_bind; [exact Q|]. intros [h1 b1] [h2 b2] (R1 & R2 & R3). cbn [fst snd] in *. subst b2.
    split; auto. exists (ext f (length h) (length h')). cbn [st_mats st_heap fst]. split; [|right; exact R1]. unfold S1, S2. cbn [st_mats].
    rewrite map_app. cbn [map ren]. f_equal. apply map_ext_in. intros x Hx. symmetry. apply ext_old.
    unfold all_placed in Hp. rewrite Forall_forall in Hp. exact (Hp x Hx). }
  assert (SAME : forall r, out f D S1 S2 (S1, r) (S2, r)).
  { intros r. split; auto. exists f. split; auto. }
  assert (VIEW : forall g g', orel (renrel f) g g' -> orel (out f D S1 S2) (new_view S1 g) (new_view S2 g')).
  { intros g g' Q. eapply orel_bind; [exact Q|]. intros b b' ->. split; auto. exists f. cbn [st_mats st_heap fst].
    split; [now rewrite map_app|]. left. split; auto. }
  assert (EXPR : forall g g', orel (fun x y => y = ren f x) g g' -> orel (out f D S1 S2) (new_expr S1 g) (new_expr S2 g')).
  { intros g g' Q. eapply orel_bind; [exact Q|]. intros b b' ->. split; auto. exists f. cbn [st_mats st_heap fst].
    split; [now rewrite map_app|]. left. split; auto. }
  assert (ITEM : forall g g', g' = g -> orel (out f D S1 S2) (item S1 g) (item S2 g')).
  { intros g g' ->. apply orel_same. intros b _. apply SAME. }
  assert (DONE : forall g g', orel (rel f D) g g' -> orel (out f D S1 S2) (done S1 g) (done S2 g')).
  { intros g g' Q. eapply orel_bind; [exact Q|]. intros h1 h2 R1. split; auto. exists f. split; auto. }
  assert (LOOP : forall g g', orel (lrel f D) g g' -> orel (out f D S1 S2) (looped S1 g) (looped S2 g')).
  { intros g g' Q. eapply orel_bind; [exact Q|]. intros [[h1 s1] p1] [[h2 s2] p2] (R1 & R2 & R3). cbn [fst snd] in *. subst s2 p2.
    split; auto. exists f. split; auto. }
  destruct o; cbn [exec]; cbv zeta; cbn [st_heap]; rewrite ?LK, ?LB, ?LM, ?LV; unfold typed, when; cbn [option_map];
    repeat match goal with
      | |- optrel _ (match ?x with _ => _ end) (match option_map _ ?x with _ => _ end) =>
          destruct x eqn:?; cbn [option_map optrel]; auto
      end;
    rewrite ?ren_writable, ?ren_layout, ?ren_size; unfold mat_length, mat_dim; rewrite ?ren_layout, ?ren_size.
  all: change (st_heap S1) with h; change (st_heap S2) with h'.
  all: repeat match goal with
      | |- optrel _ (if ?x then _ else _) (if ?x then _ else _) => destruct x eqn:?; cbn [optrel]; auto
      end; cbn [optrel].
  all: try (apply NEW1; first [now apply ren_zeros | now apply ren_fixed | now apply ren_fixed_vector | now apply ren_row |
    now apply ren_column | now apply ren_row_dim | now apply ren_column_dim]).
  all: repeat match goal with
      | H : lookup _ _ = Some _ |- _ => apply AV in H; destruct H
      | H : lookup_base _ _ = Some _ |- _ => apply AB in H; destruct H
      | H : lookup_mut _ _ = Some _ |- _ => apply AM in H; destruct H
      end.
  all: try (apply ITEM; first [eapply ren_get; eauto | eapply ren_get1d; eauto | eapply ren_unchecked; eauto]; fail).
  - apply NEW1. eapply orel_bind; [apply ren_vector; exact R|]. intros [h1 c1] [h2 c2] Q. exact (ren_new_data f D _ _ m rs cs l _ _ Q).
  - apply NEW1. pose proof (ren_array f D h h' n R) as Q.
    destruct (array_container_new h _) as [h1 c1], (array_container_new h' _) as [h2 c2]. exact (ren_new_data f D _ _ m rs cs l _ _ Q).
  - apply VIEW. eapply orel_bind; [destruct mut; [apply ren_slice_mut|apply ren_slice]|].
    intros r r' ->. rewrite ren_slice_container. apply ren_from_data.
  - apply VIEW. eapply orel_bind; [apply (ren_offset f (get_pointer b))|]. intros p p' ->. apply ren_dense.
  - apply VIEW. eapply orel_bind; [apply (ren_offset f (get_pointer b))|]. intros p p' ->. apply ren_strided.
  - apply DONE. now apply ren_set.
  - apply DONE. now apply ren_set1d.
  - apply DONE. eapply ren_place_set; eauto; [apply ren_mut|]. intros p Ep. apply mut_in in Ep. auto.
  - apply DONE. eapply ren_place_set; eauto; [apply ren_mut1d|]. intros p Ep. apply mut1d_in in Ep. auto.
  - apply ITEM. pose proof (ren_slice f b first last) as Q.
    destruct (get_slice b first last) as [rg| |] eqn:Eg, (get_slice (ren_base f b) first last) as [rg'| |]; cbn in Q; try contradiction; auto.
    subst rg'. cbn [bind]. unfold slice_read. cbn [ren_region r_len]. destruct (assert_ _); cbn [bind]; auto.
    eapply ren_read; eauto. intros q Hq. apply H. apply slice_within in Eg. eapply within_in; eauto.
  - apply DONE. rewrite !get_slice_mut_eq. pose proof (ren_slice f b first last) as Q.
    destruct (get_slice b first last) as [rg| |] eqn:Eg, (get_slice (ren_base f b) first last) as [rg'| |]; cbn in Q; try contradiction; cbn; auto.
    subst rg'. unfold slice_write. cbn [ren_region r_len]. apply orel_same. intros _ _. eapply ren_place_set; eauto.
    + unfold region_place. cbn. destruct (_ <? _); cbn; auto.
    + intros p Ep. apply H. apply region_place_in in Ep. apply slice_within in Eg. eapply within_in; eauto.
  - apply SAME.
  - destruct (mat_size m0) as [[] []]; cbn [optrel]; auto; apply SAME.
  - cbn [ren_base bm_layout]. unfold base_sizes. cbn [bm_rs bm_cs]. destruct (is_dynamic _); cbn [optrel]; auto.
    destruct (block_order (bm_layout b)); cbn [optrel]; auto. apply VIEW, ren_block.
  - unfold base_sizes. cbn [ren_base bm_rs bm_cs bm_layout]. destruct (is_dynamic _); cbn [optrel]; auto.
    change (mkBase (ren_cont f (bm_data b)) (bm_layout b) (bm_rs b) (bm_cs b)) with (ren_base f b).
    destruct (bm_layout b) as [D0|D0|n0|n0|D0 s|D0 s|n0 s|n0 s|n0]; cbn [optrel]; auto.
    eapply orel_bind; [apply ren_split|]. intros [[[b0 b1] b2] b3] [[[c0 c1] c2] c3] Q. cbn [four map] in Q.
    injection Q as -> -> -> ->. split; auto. exists f. cbn [st_mats st_heap fst]. split; [rewrite map_app; reflexivity|].
    left. split; auto.
  - apply EXPR. reflexivity.
  - apply EXPR. reflexivity.
  - apply EXPR. rewrite !scalar_times_eq. cbn [orel ren]. now rewrite ren_wrap.
  - apply EXPR. rewrite !times_scalar_eq. cbn [orel ren]. now rewrite ren_wrap.
  - apply EXPR. rewrite !plus_eq. rewrite !ren_layout. destruct (dim_eqb _ _); cbn [orel]; auto. cbn [ren]. now rewrite !ren_wrap.
  - apply NEW1, ren_eval; auto.
  - apply LOOP, ren_for_each; auto.
  - apply LOOP, ren_for_each; auto.
  - unfold matmul_typed, base_sizes. cbn [ren_base bm_layout bm_rs bm_cs].
    destruct (_ && _)%bool; cbn [optrel]; auto. apply DONE, ren_matmul; auto.
  - unfold dot_typed, base_sizes. cbn [ren_base bm_layout bm_rs bm_cs].
    destruct (_ && _)%bool; cbn [optrel]; auto. apply NEW1, ren_dot; auto.
Qed.
Definition srel (f : nat -> nat) (st st' : state T) : Prop :=
  all_placed st /\ st_mats st' = map (ren f) (st_mats st) /\ rel f (held (st_mats st)) (st_heap st) (st_heap st').

Definition rrel (x y : state T * result T St) : Prop := snd x = snd y /\ exists f, srel f (fst x) (fst y).

Lemma held_fresh : forall st new q, Forall (news st) new -> held (st_mats st ++ new) q ->
  held (st_mats st) q \/ (held new q /\ (length (st_heap st) <= fst q)%nat).
Proof.
  intros st new q Hn (x & Hx & Hq). apply in_app_or in Hx. destruct Hx as [Hx|Hx]; [left; now exists x|].
  rewrite Forall_forall in Hn. destruct (Hn x Hx) as [H|[H _]]; [right|left]; auto. split; auto. now exists x.
Qed.

Lemma ren_step : forall f kern m st st' (o : call T St), srel f st st' ->
  orel rrel (step kern m st o) (step kern m st' o).
Proof.
  intros f kern m st st' o (Hp & E & R).
  assert (Hc : forall x, In x (st_mats st) -> covered (held (st_mats st)) x).
  { intros x Hx q Hq. now exists x. }
  pose proof (ren_exec f (held (st_mats st)) kern m st st' o Hp Hc E R) as X. unfold step.
  assert (SAME : forall r, rrel (st, r) (st', r)).
  { intros r. split; auto. exists f. split; auto. }
  destruct (exec kern m st o) as [[[s1 r1]| |]|] eqn:E1, (exec kern m st' o) as [[[s2 r2]| |]|]; cbn [optrel orel] in *;
    try contradiction; auto.
  assert (ST : step kern m st o = Ok (s1, r1)) by (unfold step; now rewrite E1).
  destruct (step_effect _ _ _ _ _ _ Hp ST) as (Ht & _ & Hp'). destruct (step_news _ _ _ _ _ _ ST) as (new & En & Hn).
  destruct X as (Er & f' & Em & X). cbn [fst snd] in *. subst r2. split; auto. exists f'. cbn [fst]. unfold srel. split; [exact Hp'|]. split; [exact Em|].
  assert (FR : forall q, held (st_mats s1) q -> held (st_mats st) q \/
    ((length (st_heap st) <= fst q)%nat /\ (fst q < length (st_heap s1))%nat /\ st_mats s1 <> st_mats st)).
  { intros q Hq. pose proof Hq as (x & Hx & Hxq). rewrite En in Hq. destruct (held_fresh _ _ _ Hn Hq) as [H|[H1 H2]]; auto.
    right. splits; auto.
    - unfold all_placed in Hp'. rewrite Forall_forall in Hp'. apply (Hp' x Hx). now apply occupies_lives.
    - intros Hs. rewrite En in Hs. destruct H1 as (y & Hy & _).
      apply (f_equal (@length _)) in Hs. rewrite app_length in Hs. destruct new; [destruct Hy|cbn in Hs; lia]. }
  destruct X as [[X [L|L]]|X].
  - eapply rel_weaken; [|exact X]. intros q Hq. destruct (FR q Hq) as [H|(H1 & H2 & _)]; auto. lia.
  - eapply rel_weaken; [|exact X]. intros q Hq. destruct (FR q Hq) as [H|(_ & _ & H)]; auto. now elim H.
  - constructor; try apply X.
    + intros a i Hq. destruct (FR _ Hq) as [H|(H1 & H2 & _)]; [apply X; now left|].
      cbn [fst] in *. apply X. right. cbn [fst]. apply step_lengths in ST. destruct r1; try destruct (allocates o); lia.
    + intros a i Hq. destruct (FR _ Hq) as [H|(H1 & H2 & _)]; [exact (rel_dom _ _ _ _ X a i (or_introl H))|]. exact H2.
Qed.

(** ** Pools *)

Definition pool_ok (p : pool T) : Prop := in_memory p /\ apart p.

Lemma placed_view : forall (p : pool T) k, in_memory p -> all_placed (view p k).
Proof. intros p k H. apply Forall_forall. intros x Hx a Ha. exact (H k x a Hx Ha). Qed.

Lemma target_writable : forall kern m st (o : call T St) q, writes_over st o q ->
  (exists x, In x (st_mats st) /\ is_writable x = true /\ occupies x q) \/ exec kern m st o = None.
Proof.
  intros kern m st o q (x & Ht & Hq).
  assert (TM : forall n, nth_error (st_mats st) n = Some x -> lookup_mut st n = None \/
     (exists x, In x (st_mats st) /\ is_writable x = true /\ occupies x q)).
  { intros n Hn. destruct (lookup_mut st n) as [b|] eqn:E; auto. right. apply lookup_mut_writable in E. destruct E as [E1 E2].
    exists x. splits; auto; [eapply nth_error_In; exact Hn|]. unfold lookup in E1. congruence. }
  assert (TW : forall n, nth_error (st_mats st) n = Some x -> is_writable x = false \/
     (exists x, In x (st_mats st) /\ is_writable x = true /\ occupies x q)).
  { intros n Hn. destruct (is_writable x) eqn:E; auto. right. exists x. splits; auto. eapply nth_error_In; exact Hn. }
  destruct o; cbn [target] in Ht; try discriminate Ht; cbn [exec]; unfold typed, when.
  1-4: destruct (TW _ Ht) as [W|W]; auto; unfold lookup; rewrite Ht, W; now right.
  1-3: destruct (TM _ Ht) as [W|W]; auto; rewrite W; now right.
  destruct (TM _ Ht) as [W|W]; auto. rewrite W. destruct (lookup_base st a), (lookup_base st b); now right.
Qed.

Lemma pstep_inv : forall kern m (p : pool T) k (o : call T St) p' r, pstep kern m p k o = Ok (p', r) ->
  exists st, step kern m (view p k) o = Ok (st, r) /\ p_heap p' = st_heap st /\
    p_tabs p' k = st_mats st /\ forall j, j <> k -> p_tabs p' j = p_tabs p j.
Proof.
  intros kern m p k o p' r H. unfold pstep in H. apply bind_ok in H. destruct H as ((st, r1) & E & H).
  injection H as <- <-. exists st. cbn [p_heap p_tabs]. rewrite Nat.eqb_refl. splits; auto.
  intros j Hj. destruct (Nat.eqb_spec j k); congruence.
Qed.

Lemma pstep_view : forall kern m (p : pool T) k (o : call T St) p' st r, pstep kern m p k o = Ok (p', r) ->
  step kern m (view p k) o = Ok (st, r) -> view p' k = st.
Proof.
  intros kern m p k o p' st r H E. apply pstep_inv in H. destruct H as (st1 & E1 & Eh & Et & _).
  rewrite E in E1. injection E1 as <-. unfold view. rewrite Eh, Et. now destruct st.
Qed.

Lemma pstep_ok : forall kern m (p : pool T) k (o : call T St) p' r, pool_ok p -> pstep kern m p k o = Ok (p', r) -> pool_ok p'.
Proof.
  intros kern m p k o p' r [Hm Ha] H. apply pstep_inv in H. destruct H as (st & E & Eh & Et & Eo).
  destruct (step_effect _ _ _ _ _ _ (placed_view p k Hm) E) as ([Hx _] & _ & Hp). apply extends_length in Hx. cbn [view st_heap] in Hx.
  destruct (step_news _ _ _ _ _ _ E) as (new & En & Hn). cbn [view st_mats] in En.
  assert (M : in_memory p').
  { intros j x a Hi Hl. rewrite Eh. destruct (Nat.eq_dec j k) as [->|Hj].
    - rewrite Et in Hi. unfold all_placed in Hp. rewrite Forall_forall in Hp. exact (Hp x Hi a Hl).
    - rewrite Eo in Hi by auto. specialize (Hm j x a Hi Hl). lia. }
  split; [exact M|].
  assert (NW : forall x, In x (p_tabs p' k) ->
     (forall q, occupies x q -> (length (p_heap p) <= fst q)%nat) \/
     ((forall q, occupies x q -> held (p_tabs p k) q) /\
      (is_writable x = true -> exists w, In w (p_tabs p k) /\ is_writable w = true /\ forall q, occupies x q -> occupies w q))).
  { intros x Hi. rewrite Et, En in Hi. apply in_app_or in Hi. destruct Hi as [Hi|Hi].
    - right. split; [intros q Hq; now exists x|]. intros Hw. exists x. auto.
    - rewrite Forall_forall in Hn. exact (Hn x Hi). }
  intros i j x y q Hd Hi Hj Hw Ox Oy.
  destruct (Nat.eq_dec i k) as [->|Hik]; [|destruct (Nat.eq_dec j k) as [->|Hjk]].
  - rewrite Eo in Hj by auto. destruct (NW x Hi) as [N1|[_ N1]].
    + apply N1 in Ox. pose proof (Hm j y (fst q) Hj (occupies_lives _ _ Oy)). lia.
    + destruct (N1 Hw) as (w & Hi' & Ww & Ow). exact (Ha k j w y q Hd Hi' Hj Ww (Ow q Ox) Oy).
  - rewrite Eo in Hi by auto. destruct (NW y Hj) as [N1|[N1 _]].
    + apply N1 in Oy. pose proof (Hm i x (fst q) Hi (occupies_lives _ _ Ox)). lia.
    + destruct (N1 q Oy) as (w & Hi' & Ow). exact (Ha i k x w q Hd Hi Hi' Hw Ox Ow).
  - rewrite Eo in Hi, Hj by auto. exact (Ha i j x y q Hd Hi Hj Hw Ox Oy).
Qed.

Lemma occupies_dec : forall (x : matrix T) q, occupies x q \/ ~ occupies x q.
Proof.
  intros x q. induction x as [b | x IH | x IH | x IH s | x IHx y IHy l]; cbn [occupies]; auto; [cbv zeta; lia|tauto].
Qed.
Lemma writes_over_dec : forall (st : state T) (o : call T St) q, writes_over st o q \/ ~ writes_over st o q.
Proof.
  intros st o q. destruct (target st o) as [x|] eqn:E.
  - destruct (occupies_dec x q) as [H|H]; [left; now exists x|]. right. intros (y & Ey & Hy). congruence.
  - right. intros (y & Ey & _). congruence.
Qed.

(** The steps of other threads do not matter. *)
Lemma pstep_other : forall kern m (p : pool T) k (o : call T St) p' r j f st, pool_ok p ->
  pstep kern m p k o = Ok (p', r) -> j <> k -> srel f st (view p j) -> srel f st (view p' j).
Proof.
  intros kern m p k o p' r j f st [Hm Ha] H Hj (Sp & Sm & R). apply pstep_inv in H. destruct H as (st1 & E & Eh & Et & Eo).
  destruct (step_effect _ _ _ _ _ _ (placed_view p k Hm) E) as ([Hx Ht] & _ & _). apply extends_length in Hx. cbn [view st_heap] in *.
  unfold srel, view. cbn [st_mats st_heap]. rewrite Eo, Eh by auto. splits; auto. cbn [st_mats] in Sm. constructor.
  - intros a i Hq. rewrite <- (rel_get _ _ _ _ R a i Hq). pose proof (rel_dom _ _ _ _ R a i Hq) as Hd.
    apply (rel_in _ _ _ _ R) in Hd. cbn [view st_heap] in Hd.
    destruct Hq as (x & Hi & Ho). apply (ren_occupies f) in Ho.
    assert (Hi' : In (ren f x) (p_tabs p j)) by (change (p_tabs p j) with (st_mats (view p j)); rewrite Sm; now apply in_map).
    destruct (writes_over_dec (view p k) o (f a, i)) as [W|W]; [|now apply Ht].
    destruct (target_writable kern m _ _ _ W) as [(w & Hw & Ww & Ow)|W'];
      [|unfold step in E; rewrite W' in E; now injection E as <- _].
    elim (Ha k j w (ren f x) (f a, i) (not_eq_sym Hj) Hw Hi' Ww Ow Ho).
  - intros a Hl. apply (rel_in _ _ _ _ R) in Hl. cbn [view st_heap] in Hl. lia.
  - apply R.
  - apply R.
Qed.

(** Each thread and the same calls made alone. *)
Definition alongside (p : pool T) (solo : nat -> state T) : Prop := forall k, exists f, srel f (solo k) (view p k).

Definition settle (solo : nat -> state T) (k : nat) (st : state T) (j : nat) : state T := if Nat.eqb j k then st else solo j.

Lemma alongside_step : forall kern m (p : pool T) k (o : call T St) p' r solo st, pool_ok p -> alongside p solo ->
  pstep kern m p k o = Ok (p', r) -> step kern m (solo k) o = Ok (st, r) -> alongside p' (settle solo k st).
Proof.
  intros kern m p k o p' r solo st Hp Ha H Hs j. unfold settle. destruct (Nat.eqb_spec j k) as [->|Hj].
  - destruct (Ha k) as (f & Hf). pose proof (ren_step f kern m _ _ o Hf) as X. rewrite Hs in X.
    destruct (step kern m (view p k) o) as [[st2 r2]| |] eqn:E; cbn in X; try contradiction.
    destruct X as (X1 & X2). cbn in X1. subst r2. now rewrite (pstep_view _ _ _ _ _ _ _ _ H E).
  - destruct (Ha j) as (f & Hf). exists f. eapply pstep_other; eauto.
Qed.

Lemma of_thread_cons : forall (A : Type) k j (e : A) l,
  of_thread j ((k, e) :: l) = if Nat.eqb k j then e :: of_thread j l else of_thread j l.
Proof. intros A k j e l. unfold of_thread. cbn [filter fst]. destruct (Nat.eqb k j); reflexivity. Qed.

Lemma prun_solo : forall kern m (sched : list (nat * call T St)) (p : pool T) solo p' tr, pool_ok p -> alongside p solo ->
  prun kern m p sched = Ok (p', tr) ->
  pool_ok p' /\
  forall k, exists st, run kern m (solo k) (of_thread k sched) = Ok (st, of_thread k tr) /\ exists f, srel f st (view p' k).
Proof.
  intros kern m sched. induction sched as [|[k o] sched IH]; intros p solo p' tr Hp Ha H; cbn [prun] in H.
  - injection H as <- <-. split; auto. intros k. destruct (Ha k) as (f & Hf). exists (solo k). split; eauto.
  - apply bind_ok in H. destruct H as ((p1, r) & E & H). apply bind_ok in H. destruct H as ((p2, rs) & E2 & H).
    injection H as <- <-.
    assert (S1 : exists st, step kern m (solo k) o = Ok (st, r)).
    { destruct (Ha k) as (f & Hf). pose proof (ren_step f kern m _ _ o Hf) as X.
      apply pstep_inv in E. destruct E as (st2 & E & _). rewrite E in X.
      destruct (step kern m (solo k) o) as [[st1 r1]| |]; cbn in X; try contradiction. exists st1.
      destruct X as (X & _). cbn in X. now subst. }
    destruct S1 as (st1 & S1). pose proof (pstep_ok _ _ _ _ _ _ _ Hp E) as Hp1.
    pose proof (alongside_step _ _ _ _ _ _ _ _ _ Hp Ha E S1) as Ha1.
    destruct (IH p1 _ p2 rs Hp1 Ha1 E2) as [Hp2 IHk]. split; auto. intros j. destruct (IHk j) as (st & R & F).
    exists st. split; auto. rewrite !of_thread_cons. unfold settle in R. rewrite (Nat.eqb_sym k j).
    destruct (Nat.eqb_spec j k) as [->|Hj]; auto. cbn [run]. rewrite S1. cbn [bind]. now rewrite R.
Qed.

Lemma solo_prun : forall kern m (sched : list (nat * call T St)) (p : pool T) solo, pool_ok p -> alongside p solo ->
  (forall k, exists x, run kern m (solo k) (of_thread k sched) = Ok x) -> exists x, prun kern m p sched = Ok x.
Proof.
  intros kern m sched. induction sched as [|[k o] sched IH]; intros p solo Hp Ha H; cbn [prun]; eauto.
  assert (S1 : exists st r, step kern m (solo k) o = Ok (st, r) /\ exists x, run kern m st (of_thread k sched) = Ok x).
  { destruct (H k) as (x & Hx). rewrite of_thread_cons, Nat.eqb_refl in Hx. cbn [run] in Hx.
    apply bind_ok in Hx. destruct Hx as ((st, r) & E & Hx). apply bind_ok in Hx. destruct Hx as ((st2, rs) & E2 & Hx). eauto 6. }
  destruct S1 as (st & r & S1 & Sr).
  assert (E : exists p1, pstep kern m p k o = Ok (p1, r)).
  { destruct (Ha k) as (f & Hf). pose proof (ren_step f kern m _ _ o Hf) as X. rewrite S1 in X.
    destruct (step kern m (view p k) o) as [[st2 r2]| |] eqn:E2; cbn in X; try contradiction.
    destruct X as (X & _). cbn in X. subst r2. unfold pstep. rewrite E2. cbn [bind]. eauto. }
  destruct E as (p1 & E). rewrite E. cbn [bind].
  destruct (IH p1 (settle solo k st)) as ((p2, rs) & E2).
  - eapply pstep_ok; eauto.
  - eapply alongside_step; eauto.
  - intros j. unfold settle. destruct (Nat.eqb_spec j k) as [->|Hj]; auto.
    destruct (H j) as (x & Hx). rewrite of_thread_cons in Hx. destruct (Nat.eqb_spec k j); [congruence|]. eauto.
  - rewrite E2. cbn [bind]. eauto.
Qed.

Lemma alongside_start : forall (p : pool T), pool_ok p -> alongside p (view p).
Proof.
  intros p [Hm Ha] k. exists (fun a => a). unfold srel. splits.
  - now apply placed_view.
  - symmetry. rewrite <- map_id. apply map_ext. intros x. apply ren_id.
  - constructor; auto. intros a i (x & Hx & Ho). exact (Hm k x a Hx (occupies_lives _ _ Ho)).
Qed.

Lemma srel_same : forall f (st st' : state T), srel f st st' ->
  Forall2 (fun x y => same_matrix (st_heap st) x (st_heap st') y) (st_mats st) (st_mats st').
Proof.
  intros f st st' (_ & Em & R). rewrite Em.
  assert (A : forall ms, (forall x, In x ms -> In x (st_mats st)) ->
     Forall2 (fun x y => same_matrix (st_heap st) x (st_heap st') y) ms (map (ren f) ms)).
  { induction ms as [|x ms IH]; intros Hi; constructor.
    - unfold same_matrix, mat_dim. rewrite ren_layout, ren_size, ren_writable. splits; auto. intros m.
      assert (C : covered (held (st_mats st)) x) by (intros q Hq; exists x; split; auto; apply Hi; now left).
      split; intros; [eapply ren_get; eauto | eapply ren_get1d; eauto].
    - apply IH. intros y Hy. apply Hi. now right. }
  now apply A.
Qed.

Lemma c55_alone : forall kern m (p : pool T) (sched : list (nat * call T St)) p' tr, in_memory p -> apart p ->
  prun kern m p sched = Ok (p', tr) ->
  forall k, exists st, run kern m (view p k) (of_thread k sched) = Ok (st, of_thread k tr) /\
    Forall2 (fun x y => same_matrix (st_heap st) x (p_heap p') y) (st_mats st) (p_tabs p' k).
Proof.
  intros kern m p sched p' tr Hm Ha H k.
  destruct (prun_solo kern m sched p (view p) p' tr (conj Hm Ha) (alongside_start p (conj Hm Ha)) H) as [_ X].
  destruct (X k) as (st & R & f & F). exists st. split; auto. exact (srel_same _ _ _ F).
Qed.

Lemma c55_ub : forall kern m (p : pool T) (sched : list (nat * call T St)), in_memory p -> apart p ->
  (forall k, exists x, run kern m (view p k) (of_thread k sched) = Ok x) <-> exists x, prun kern m p sched = Ok x.
Proof.
  intros kern m p sched Hm Ha. split.
  - intros H. eapply solo_prun; eauto; [now split|]. now apply alongside_start.
  - intros ((p', tr) & H) k. destruct (c55_alone _ _ _ _ _ _ Hm Ha H k) as (st & R & _). eauto.
Qed.

Lemma c55_order : forall kern m (p : pool T) (s1 s2 : list (nat * call T St)) p1 tr1 p2 tr2, in_memory p -> apart p ->
  (forall k, of_thread k s1 = of_thread k s2) ->
  prun kern m p s1 = Ok (p1, tr1) -> prun kern m p s2 = Ok (p2, tr2) ->
  forall k, of_thread k tr1 = of_thread k tr2 /\
    Forall2 (fun x y => same_matrix (p_heap p1) x (p_heap p2) y) (p_tabs p1 k) (p_tabs p2 k).
Proof.
  intros kern m p s1 s2 p1 tr1 p2 tr2 Hm Ha Hs H1 H2 k.
  destruct (c55_alone _ _ _ _ _ _ Hm Ha H1 k) as (st1 & R1 & F1).
  destruct (c55_alone _ _ _ _ _ _ Hm Ha H2 k) as (st2 & R2 & F2).
  rewrite Hs in R1. rewrite R1 in R2. injection R2 as <- ->. split; auto.
  clear R1. revert F2. generalize (p_tabs p2 k). induction F1 as [|x y xs ys (A1 & A2 & A3 & A4) F1 IH]; intros zs F2; inversion F2; subst; constructor; auto.
  match goal with H : same_matrix _ _ _ _ |- _ => destruct H as (B1 & B2 & B3 & B4) end.
  unfold same_matrix. splits; try congruence. intros m0. destruct (A4 m0) as [A5 A6], (B4 m0) as [B5 B6].
  split; intros; [rewrite B5, A5 | rewrite B6, A6]; auto.
Qed.

Lemma writes_reads : forall (st : state T) (o : call T St) q, writes_over st o q -> reads_over st o q.
Proof.
  intros st o q (x & Ht & Hq). destruct o; cbn [target] in Ht; try discriminate Ht;
    (do 3 eexists; split; [|split; [exact Ht|exact Hq]]); cbn; eauto.
Qed.

Lemma c55_apart : forall kern m (p : pool T) (sched : list (nat * call T St)) p' tr, in_memory p -> apart p ->
  prun kern m p sched = Ok (p', tr) -> in_memory p' /\ apart p'.
Proof.
  intros kern m p sched p' tr Hm Ha H.
  exact (proj1 (prun_solo kern m sched p (view p) p' tr (conj Hm Ha) (alongside_start p (conj Hm Ha)) H)).
Qed.

Lemma no_conflict_apart : forall kern m (p : pool T) j k (o o' : call T St), apart p -> j <> k ->
  step kern m (view p j) o <> Ok (view p j, RSkipped) -> step kern m (view p k) o' <> Ok (view p k, RSkipped) ->
  ~ conflicting p j k o o'.
Proof.
  intros kern m p j k o o' Ha Hd Ho Ho' (q & C).
  assert (A : forall i l (c c' : call T St), i <> l -> step kern m (view p i) c <> Ok (view p i, RSkipped) ->
     writes_over (view p i) c q -> reads_over (view p l) c' q -> False).
  { intros i l c c' Hil Hc W (x & a & w & _ & Hw & Ow).
    destruct (target_writable kern m _ _ _ W) as [(v & Hv & Wv & Ov)|W'].
    - exact (Ha i l v w q Hil Hv (nth_error_In _ _ Hw) Wv Ov Ow).
    - apply Hc. unfold step. now rewrite W'. }
  destruct C as [[C1 C2]|[C1 C2]]; [exact (A j k o o' Hd Ho C1 C2) | exact (A k j o' o (not_eq_sym Hd) Ho' C1 C2)].
Qed.

Lemma c55_races : forall kern m (p : pool T) (sched : list (nat * call T St)) p' tr, in_memory p -> apart p ->
  prun kern m p sched = Ok (p', tr) ->
  forall j k (o o' : call T St), j <> k -> step kern m (view p' j) o <> Ok (view p' j, RSkipped) ->
    step kern m (view p' k) o' <> Ok (view p' k, RSkipped) -> ~ conflicting p' j k o o'.
Proof.
  intros kern m p sched p' tr Hm Ha H j k o o' Hd Ho Ho'. destruct (c55_apart _ _ _ _ _ _ Hm Ha H) as [_ Ha'].
  eapply no_conflict_apart; eauto.
Qed.

Lemma in_handed : forall (bs : bstate T) who k w, In w (p_tabs (handed bs who) k) ->
  exists x, In x (who k) /\ nth_error (st_mats (b_state bs)) x = Some w.
Proof.
  intros bs who k w H. cbn [handed p_tabs] in H. apply in_flat_map in H. destruct H as (x & Hx & Hw).
  destruct (nth_error _ x) eqn:E; [|contradiction]. destruct Hw as [<-|[]]. eauto.
Qed.

Lemma c55_handed : forall kern m (acts : list (action T St)) bs rs who, Forall no_pointers acts -> Forall no_split acts ->
  brun kern m binitial acts = Some (Ok (bs, rs)) -> lends_apart bs who ->
  in_memory (handed bs who) /\ apart (handed bs who).
Proof.
  intros kern m acts bs rs who Hn Hs H (Hl & Hd). split.
  - intros k x a Hx Ha. apply in_handed in Hx. destruct Hx as (n & _ & Hx).
    destruct (plain_state kern m acts bs rs Hn Hs H) as (_ & P). unfold all_placed in P. rewrite Forall_forall in P. exact (P x (nth_error_In _ _ Hx) a Ha).
  - intros j k x y q Hjk Hx Hy Wx Ox Oy. apply in_handed in Hx, Hy.
    destruct Hx as (nx & Ix & Ex), Hy as (ny & Iy & Ey).
    destruct (Hd j k nx ny x Hjk Ix Iy Ex Wx) as [N1 N2].
    destruct (Nat.eq_dec nx ny) as [->|Hne]; [apply N1; constructor|].
    destruct (plain_disjoint kern m acts bs rs Hn Hs H nx ny x y q) as [B|B];
      auto; split; eauto.
Qed.
End Rename.
