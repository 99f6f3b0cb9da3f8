(** * Proofs about freed memory. *)

From Coq Require Import ZifyBool ZifyNat ZifyN.
From Verif Require Import Machine MachineFacts Layouts Memory Matrix MatMul Spec MatrixSpec ExprSpec ProductSpec.
From Verif Require Import LayoutFacts MemoryFacts AccessFacts AccessProofs ConstructorProofs BlockProofs.
From Verif Require Import ExprProofs ProductProofs Program HistorySpec HistoryProofs HistorySafety Borrow BorrowFacts BorrowProofs OwnerProofs Dealloc.
Local Open Scope N_scope.

(** ** Operations on memory of which parts were freed *)

Definition orel {A B : Type} (R : A -> B -> Prop) (o : outcome A) (o' : outcome B) : Prop :=
  match o, o' with
  | Ok a, Ok b => R a b
  | Panic, Panic | UB, UB => True
  | _, _ => False
  end.

Lemma orel_bind : forall (A B A' B' : Type) (R : A -> B -> Prop) (Q : A' -> B' -> Prop) o o' k k',
  orel R o o' -> (forall a b, R a b -> orel Q (k a) (k' b)) -> orel Q (bind o k) (bind o' k').
Proof. intros A B A' B' R Q [a| |] [b| |] k k' H Hk; cbn in *; auto; destruct H. Qed.

Lemma orel_eq : forall (A : Type) (R : A -> A -> Prop) (o : outcome A), (forall a, R a a) -> orel R o o.
Proof. intros A R [a| |] H; cbn; auto. Qed.

Lemma orel_same : forall (A B A' : Type) (Q : A -> B -> Prop) (o : outcome A') k k',
  (forall a, o = Ok a -> orel Q (k a) (k' a)) -> orel Q (bind o k) (bind o k').
Proof. intros A B A' Q [a| |] k k' H; cbn; auto. Qed.

Lemma orel_loop : forall (S S' : Type) (R : S -> S' -> Prop) f f' n i s s', R s s' ->
  (forall k t t', R t t' -> orel R (f k t) (f' k t')) -> orel R (loop n i f s) (loop n i f' s').
Proof.
  intros S S' R f f' n. induction n as [|n IH]; intros i s s' Hs Hf; cbn [loop]; [exact Hs|].
  eapply orel_bind; [now apply Hf|]. intros a b Hab. now apply IH.
Qed.

Section Dealloc.
Context {T : Type} {SC : HScalar T} {St : Type}.
Notation heap := (@heap T).

Definition hrel (F : list nat) (h h' : heap) : Prop := same_but F h h' /\ forall a, In a F -> (a < length h)%nat.
Definition avoids (F : list nat) (x : matrix T) : Prop := forall a, lives_in a x -> ~ In a F.

Lemma hrel_hget : forall F h h' a i, hrel F h h' -> ~ In a F -> hget h' a i = hget h a i.
Proof. intros F h h' a i [[_ H] _] Ha. unfold hget. now rewrite H. Qed.

Lemma nth_upd : forall (A : Type) (l : list A) i j v,
  nth_error (upd l i v) j = if Nat.eqb i j then match nth_error l j with Some _ => Some v | None => None end else nth_error l j.
Proof.
  induction l as [|x l IH]; intros [|i] [|j] v; cbn; auto. now destruct (Nat.eqb i j).
Qed.

Lemma upd_length : forall (A : Type) (l : list A) i v, length (upd l i v) = length l.
Proof. induction l as [|x l IH]; intros [|i] v; cbn; auto. Qed.

Lemma hrel_hset : forall F h h' a i v, hrel F h h' -> ~ In a F -> hrel F (hset h a i v) (hset h' a i v).
Proof.
  intros F h h' a i v [[Hl H] HF] Ha. unfold hset. rewrite (H a Ha).
  destruct (nth_error h a) as [l|]; [|split; [split|]; auto].
  split; [split|].
  - now rewrite !upd_length.
  - intros b Hb. rewrite !nth_upd. now rewrite (H b Hb).
  - intros b Hb. rewrite upd_length. auto.
Qed.

Lemma hrel_app : forall F h h' l, hrel F h h' -> hrel F (h ++ [l]) (h' ++ [l]).
Proof.
  intros F h h' l [[Hl H] HF]. split; [split|].
  - rewrite !app_length. lia.
  - intros a Ha. destruct (Nat.lt_ge_cases a (length h)).
    + rewrite !nth_error_app1 by lia. auto.
    + rewrite !nth_error_app2 by lia. now rewrite Hl.
  - intros a Ha. rewrite app_length. apply HF in Ha. lia.
Qed.

Lemma sim_read : forall F h h' r i, hrel F h h' -> ~ In (r_alloc r) F -> region_read h' r i = region_read h r i.
Proof. intros F h h' r i H Hr. unfold region_read. now rewrite (hrel_hget F h h'). Qed.

Lemma sim_place_read : forall F h h' p, hrel F h h' -> ~ In (pl_alloc p) F -> place_read h' p = place_read h p.
Proof. intros F h h' p H Hr. unfold place_read. now rewrite (hrel_hget F h h'). Qed.

Lemma sim_write : forall F h h' p v, hrel F h h' -> ~ In (pl_alloc p) F ->
  orel (hrel F) (place_write h p v) (place_write h' p v).
Proof.
  intros F h h' p v H Hr. unfold place_write. rewrite (hrel_hget F h h') by auto.
  destruct (hget h (pl_alloc p) (pl_index p)); cbn; auto using hrel_hset.
Qed.

Lemma place_alloc : forall r i p, region_place r i = Ok p -> pl_alloc p = r_alloc r.
Proof. intros r i p H. unfold region_place in H. destruct (i <? r_len r); [|discriminate]. now injection H as <-. Qed.

Lemma sim_base_read : forall F m h h' b r c, hrel F h h' -> ~ In (allocation b) F ->
  base_get_unchecked m h' b r c = base_get_unchecked m h b r c.
Proof.
  intros F m h h' b r c H Hb. unfold base_get_unchecked. destruct (convert_2d_raw _ _ _ _); cbn [bind]; auto.
  now apply (sim_read F).
Qed.
Lemma sim_base_read1d : forall F m h h' b i, hrel F h h' -> ~ In (allocation b) F ->
  base_get1d_unchecked m h' b i = base_get1d_unchecked m h b i.
Proof.
  intros F m h h' b i H Hb. unfold base_get1d_unchecked. destruct (convert_1d_raw _ _ _); cbn [bind]; auto.
  now apply (sim_read F).
Qed.

Lemma sim_unchecked : forall F m h h' x, hrel F h h' -> avoids F x ->
  (forall r c, get_unchecked m h' x r c = get_unchecked m h x r c) /\
  (forall i, get1d_unchecked m h' x i = get1d_unchecked m h x i).
Proof.
  intros F m h h' x H Hx. induction x as [b | x IH | x IH | x IH s | x IHx y IHy l]; cbn [get_unchecked get1d_unchecked].
  - specialize (Hx _ eq_refl). split; intros; [eapply sim_base_read; eauto | eapply sim_base_read1d; eauto].
  - now apply IH.
  - now apply IH.
  - destruct (IH Hx) as [H1 H2]. split; intros; [now rewrite H1 | now rewrite H2].
  - destruct (IHx (fun a Ha => Hx a (or_introl Ha))) as [X1 X2].
    destruct (IHy (fun a Ha => Hx a (or_intror Ha))) as [Y1 Y2].
    split; intros; [now rewrite X1, Y1 | now rewrite X2, Y2].
Qed.

Lemma sim_get : forall F m h h' x r c, hrel F h h' -> avoids F x -> get m h' x r c = get m h x r c.
Proof.
  intros F m h h' x r c H Hx. unfold get. destruct (assert_dimension _ _ _); cbn [bind]; auto.
  now apply (sim_unchecked F).
Qed.
Lemma sim_get1d : forall F m h h' x i, hrel F h h' -> avoids F x -> get1d m h' x i = get1d m h x i.
Proof.
  intros F m h h' x i H Hx. unfold get1d. destruct (number_of_elements _ _); cbn [bind]; auto.
  destruct (assert_dimension1d _ _); cbn [bind]; auto. now apply (sim_unchecked F).
Qed.

(** Writes through places of the matrix. *)
Lemma occupies_avoids : forall F (x : matrix T) q, avoids F x -> occupies x q -> ~ In (fst q) F.
Proof. intros F x q Hx Hq. apply Hx. now apply occupies_lives. Qed.

Lemma sim_place : forall F h h' x v (o : outcome place), hrel F h h' -> avoids F x ->
  (forall p, o = Ok p -> occupies x (pl_alloc p, pl_index p)) ->
  orel (hrel F) (p <- o ;; place_write h p v) (p <- o ;; place_write h' p v).
Proof.
  intros F h h' x v o H Hx Ho. apply orel_same. intros p Ep. apply sim_write; auto.
  apply (occupies_avoids F x (pl_alloc p, pl_index p)); auto.
Qed.

Lemma sim_set : forall F m h h' x r c v, hrel F h h' -> avoids F x ->
  orel (hrel F) (set m h x r c v) (set m h' x r c v).
Proof.
  intros F m h h' x r c v H Hx. unfold set. eapply sim_place; eauto. intros p Ep. unfold get_mut in Ep.
  apply bind_ok in Ep. destruct Ep as (u & _ & Ep). eapply mut_in; eauto.
Qed.
Lemma sim_set1d : forall F m h h' x i v, hrel F h h' -> avoids F x ->
  orel (hrel F) (set1d m h x i v) (set1d m h' x i v).
Proof.
  intros F m h h' x i v H Hx. unfold set1d. eapply sim_place; eauto. intros p Ep. unfold get1d_mut in Ep.
  apply bind_ok in Ep. destruct Ep as (n & _ & Ep). apply bind_ok in Ep. destruct Ep as (u & _ & Ep).
  eapply mut1d_in; eauto.
Qed.

Definition looprel (F : list nat) {S : Type} (x y : heap * S * bool) : Prop :=
  hrel F (fst (fst x)) (fst (fst y)) /\ snd (fst x) = snd (fst y) /\ snd x = snd y.

Lemma sim_for_each : forall F (S : Type) m h h' b (f : closure S) s, hrel F h h' -> ~ In (allocation b) F ->
  orel (looprel F) (for_each m h b f s) (for_each m h' b f s).
Proof.
  intros F S m h h' b f s H Hb. unfold for_each. apply orel_same. intros n _.
  generalize (N.to_nat n) 0 h h' s H. clear n s h h' H. induction n as [|n IH]; intros i h h' s H; cbn [for_each_loop].
  - split; auto.
  - apply orel_bind with (R := looprel F).
    + unfold call_closure. destruct (base_get1d_unchecked_mut m b i) as [p| |] eqn:Ep; cbn; auto.
      2:{ split; auto. }
      assert (Hp : ~ In (pl_alloc p) F).
      { apply base_mut1d_in in Ep. destruct Ep as [Ep _]. cbn in Ep. now rewrite Ep. }
      rewrite (sim_place_read F h h') by auto. apply orel_same. intros v _. destruct (f s v) as [[s' v'] pn].
      apply orel_bind with (R := hrel F); [now apply sim_write|]. intros h1 h1' H1. split; auto.
    + intros [[h1 s1] pn1] [[h1' s1'] pn1'] (R1 & R2 & R3). cbn [fst snd] in *. subst s1' pn1'.
      destruct pn1; [split; auto|]. now apply IH.
Qed.

Lemma sim_ptr_read : forall F h h' p d, hrel F h h' -> ~ In (r_alloc (p_region p)) F -> ptr_read h' p d = ptr_read h p d.
Proof. intros F h h' p d H Hp. unfold ptr_read. destruct (0 <=? _)%Z; auto. now apply (sim_read F). Qed.
Lemma sim_ptr_write : forall F h h' p d v, hrel F h h' -> ~ In (r_alloc (p_region p)) F ->
  orel (hrel F) (ptr_write h p d v) (ptr_write h' p d v).
Proof.
  intros F h h' p d v H Hp. unfold ptr_write. destruct (0 <=? _)%Z; cbn; auto. apply orel_same. intros q Eq.
  apply sim_write; auto. apply place_alloc in Eq. now rewrite Eq.
Qed.

Lemma collect_ext : forall (A : Type) (f g : N -> outcome A) n i, (forall k, f k = g k) -> collect n i f = collect n i g.
Proof. intros A f g n. induction n as [|n IH]; intros i H; cbn [collect]; auto. now rewrite H, IH. Qed.

Lemma sim_matmul : forall F kern h h' alpha a b beta c, hrel F h h' ->
  ~ In (allocation a) F -> ~ In (allocation b) F -> ~ In (allocation c) F ->
  orel (hrel F) (matmul kern h alpha a b beta c) (matmul kern h' alpha a b beta c).
Proof.
  intros F kern h h' alpha a b beta c H Ha Hb Hc. unfold matmul.
  apply orel_same. intros _ _. apply orel_same. intros sa _. apply orel_same. intros sb _. apply orel_same. intros sc _.
  unfold gemm, for_range. apply orel_loop; auto. intros i t t' Ht. apply orel_loop; auto. intros j u u' Hu.
  unfold gemm_entry.
  match goal with |- orel _ (bind ?x _) (bind ?y _) => replace y with x end.
  2:{ apply collect_ext. intros l. rewrite (sim_ptr_read F u u') by auto. apply f_equal2; auto.
      now rewrite (sim_ptr_read F u u'). }
  apply orel_same. intros ps _. rewrite (sim_ptr_read F u u') by auto. apply orel_same. intros old _.
  now apply sim_ptr_write.
Qed.

(** New matrices. *)
Definition newrel (F : list nat) (x y : heap * base_matrix) : Prop :=
  hrel F (fst x) (fst y) /\ snd x = snd y /\ ~ In (allocation (snd x)) F.

Definition contrel (F : list nat) (x y : heap * container) : Prop :=
  hrel F (fst x) (fst y) /\ snd x = snd y /\ ~ In (r_alloc (c_region (snd x))) F.

Lemma fresh_not_freed : forall F h h', hrel F h h' -> ~ In (length h) F.
Proof. intros F h h' [_ H] Hi. apply H in Hi. lia. Qed.

Lemma sim_vector : forall F h h' n, hrel F h h' -> orel (contrel F) (vector_container_new h n) (vector_container_new h' n).
Proof.
  intros F h h' n H. pose proof (fresh_not_freed _ _ _ H). unfold vector_container_new, alloc. destruct (_ <=? _); cbn; auto.
  split; [|split]; auto; cbn.
  - now apply hrel_app.
  - destruct H as [[-> _] _]. reflexivity.
Qed.
Lemma sim_array : forall F h h' n, hrel F h h' -> contrel F (array_container_new h n) (array_container_new h' n).
Proof.
  intros F h h' n H. pose proof (fresh_not_freed _ _ _ H). unfold array_container_new, alloc. cbn.
  split; [|split]; auto; cbn.
  - now apply hrel_app.
  - destruct H as [[-> _] _]. reflexivity.
Qed.

Lemma sim_from_data : forall F m rs cs l x y, contrel F x y ->
  orel (newrel F) (b <- from_data m rs cs (snd x) l ;; Ok (fst x, b)) (b <- from_data m rs cs (snd y) l ;; Ok (fst y, b)).
Proof.
  intros F m rs cs l [h c] [h' c'] (H & E & Hc). cbn [fst snd] in *. subst c'. apply orel_same. intros b Eb.
  apply from_data_data in Eb. subst b. split; auto.
Qed.

Lemma sim_zeros : forall F m h h' k rows cols, hrel F h h' ->
  orel (newrel F) (zeros_from_dim m h k rows cols) (zeros_from_dim m h' k rows cols).
Proof.
  intros F m h h' k rows cols H. unfold zeros_from_dim. apply orel_same. intros l _. apply orel_same. intros n _.
  eapply orel_bind; [apply sim_vector; exact H|]. intros [h1 c1] [h2 c2] R.
  apply orel_same. intros l' _. exact (sim_from_data F m Dynamic Dynamic l' _ _ R).
Qed.

Lemma sim_row : forall F m h h' n, hrel F h h' ->
  orel (newrel F) (row_vector_zeros_from_length m h n) (row_vector_zeros_from_length m h' n).
Proof.
  intros F m h h' n H. unfold row_vector_zeros_from_length.
  eapply orel_bind; [apply sim_vector; exact H|]. intros [h1 c1] [h2 c2] R. exact (sim_from_data F m Fixed1 Dynamic _ _ _ R).
Qed.
Lemma sim_column : forall F m h h' n, hrel F h h' ->
  orel (newrel F) (column_vector_zeros_from_length m h n) (column_vector_zeros_from_length m h' n).
Proof.
  intros F m h h' n H. unfold column_vector_zeros_from_length.
  eapply orel_bind; [apply sim_vector; exact H|]. intros [h1 c1] [h2 c2] R. exact (sim_from_data F m Dynamic Fixed1 _ _ _ R).
Qed.
Lemma sim_row_dim : forall F m h h' r c, hrel F h h' ->
  orel (newrel F) (row_vector_zeros_from_dim m h r c) (row_vector_zeros_from_dim m h' r c).
Proof. intros F m h h' r c H. apply orel_same. intros _ _. exact (sim_row F m h h' c H). Qed.
Lemma sim_column_dim : forall F m h h' r c, hrel F h h' ->
  orel (newrel F) (column_vector_zeros_from_dim m h r c) (column_vector_zeros_from_dim m h' r c).
Proof. intros F m h h' r c H. apply orel_same. intros _ _. exact (sim_column F m h h' r H). Qed.

Lemma sim_fixed : forall F m h h' k rs cs, hrel F h h' ->
  orel (newrel F) (zeros_fixed m h k rs cs) (zeros_fixed m h' k rs cs).
Proof.
  intros F m h h' k rs cs H. unfold zeros_fixed. pose proof (sim_array F h h' (size_N rs * size_N cs) H) as R.
  destruct (array_container_new h _) as [h1 c1], (array_container_new h' _) as [h2 c2].
  apply orel_same. intros l _. exact (sim_from_data F m rs cs l _ _ R).
Qed.
Lemma sim_fixed_vector : forall F m h h' rs cs k n, hrel F h h' ->
  orel (newrel F) (zeros_fixed_vector m h rs cs k n) (zeros_fixed_vector m h' rs cs k n).
Proof.
  intros F m h h' rs cs k n H. unfold zeros_fixed_vector. pose proof (sim_array F h h' n H) as R.
  destruct (array_container_new h _) as [h1 c1], (array_container_new h' _) as [h2 c2].
  destruct (from_length k n) as [l|]; [|exact I]. exact (sim_from_data F m rs cs l _ _ R).
Qed.

Lemma sim_eval : forall F m h h' x, hrel F h h' -> avoids F x -> orel (newrel F) (eval m h x) (eval m h' x).
Proof.
  intros F m h h' x H Hx. unfold eval. eapply orel_bind; [apply sim_zeros; exact H|].
  intros [h1 b1] [h2 b2] (R1 & R2 & R3). cbn [fst snd] in *. subst b2. apply orel_same. intros n _.
  eapply orel_bind with (R := hrel F).
  - unfold for_range. apply orel_loop; auto. intros k t t' Ht.
    destruct (sim_unchecked F m t t' x Ht Hx) as [_ E]. rewrite E. apply orel_same. intros v _.
    eapply (sim_place F t t' (MBase b1)); auto.
    + intros a Ha. cbn in Ha. now subst a.
    + intros p Ep. apply base_mut1d_in in Ep. exact Ep.
  - intros h3 h4 R. split; auto.
Qed.

Lemma sim_dot : forall F shape kern m h h' a b, hrel F h h' -> ~ In (allocation a) F -> ~ In (allocation b) F ->
  orel (newrel F) (dot shape kern m h a b) (dot shape kern m h' a b).
Proof.
  intros F shape kern m h h' a b H Ha Hb.
  destruct shape; cbn [dot]; unfold dot_mat_mat, dot_row_mat, dot_mat_col;
    (eapply orel_bind; [first [apply sim_zeros | apply sim_row_dim | apply sim_column_dim]; exact H|]);
    intros [h1 b1] [h2 b2] (R1 & R2 & R3); cbn [fst snd] in *; subst b2;
    (eapply orel_bind; [apply sim_matmul; eauto|]); intros h3 h4 R; split; auto.
Qed.

(** ** Calls *)

Definition strel (F : list nat) (st st' : state T) : Prop :=
  st_mats st' = st_mats st /\ hrel F (st_heap st) (st_heap st').
Definition resrel (F : list nat) (x y : state T * result T St) : Prop :=
  strel F (fst x) (fst y) /\ snd x = snd y.

Definition optrel {A B : Type} (R : A -> B -> Prop) (x : option A) (y : option B) : Prop :=
  match x, y with Some a, Some b => R a b | None, None => True | _, _ => False end.

Lemma sim_exec : forall F kern m st st' (o : call T St), strel F st st' ->
  (forall x w, In x (map fst (uses o)) -> nth_error (st_mats st) x = Some w -> avoids F w) ->
  optrel (orel (resrel F)) (exec kern m st o) (exec kern m st' o).
Proof.
  intros F kern m [h ms] [h' ms'] o [E H] Hu. cbn [st_mats st_heap] in *. subst ms'.
  assert (LK : forall x, lookup (mkState h' ms) x = lookup (mkState h ms) x) by reflexivity.
  assert (LB : forall x, lookup_base (mkState h' ms) x = lookup_base (mkState h ms) x) by reflexivity.
  assert (LM : forall x, lookup_mut (mkState h' ms) x = lookup_mut (mkState h ms) x) by reflexivity.
  assert (LV : forall mu x, lookup_block (mkState h' ms) mu x = lookup_block (mkState h ms) mu x) by reflexivity.
  assert (AV : forall x w, In x (map fst (uses o)) -> lookup (mkState h ms) x = Some w -> avoids F w) by exact Hu.
  assert (AB : forall x b, In x (map fst (uses o)) -> lookup_base (mkState h ms) x = Some b -> ~ In (allocation b) F).
  { intros x b Hx Hb. apply lookup_base_inv in Hb. exact (AV x _ Hx Hb _ eq_refl). }
  assert (AM : forall x b, In x (map fst (uses o)) -> lookup_mut (mkState h ms) x = Some b -> ~ In (allocation b) F).
  { intros x b Hx Hb. apply lookup_mut_writable in Hb. exact (AV x _ Hx (proj1 Hb) _ eq_refl). }
  assert (NEW1 : forall f f', orel (newrel F) f f' ->
     orel (resrel F) (new1 (St := St) (mkState h ms) f) (new1 (mkState h' ms) f')).
  { intros f f' R. eapply orel_bind; [exact R|]. intros [h1 b1] [h2 b2] (R1 & R2 & _). cbn in *. subst b2.
    split; auto. split; auto. }
  assert (VIEW : forall f, orel (resrel F) (new_view (St := St) (mkState h ms) f) (new_view (mkState h' ms) f)).
  { intros f. apply orel_same. intros b _. repeat split; auto; apply H. }
  assert (EXPR : forall f, orel (resrel F) (new_expr (St := St) (mkState h ms) f) (new_expr (mkState h' ms) f)).
  { intros f. apply orel_same. intros b _. repeat split; auto; apply H. }
  assert (ITEM : forall f f', f' = f -> orel (resrel F) (item (St := St) (mkState h ms) f) (item (mkState h' ms) f')).
  { intros f f' ->. apply orel_same. intros b _. repeat split; auto; apply H. }
  assert (DONE : forall f f', orel (hrel F) f f' ->
     orel (resrel F) (done (St := St) (mkState h ms) f) (done (mkState h' ms) f')).
  { intros f f' R. eapply orel_bind; [exact R|]. intros h1 h2 R1. split; auto. split; auto. }
  assert (LOOP : forall f f', orel (looprel F) f f' ->
     orel (resrel F) (looped (St := St) (mkState h ms) f) (looped (mkState h' ms) f')).
  { intros f f' R. eapply orel_bind; [exact R|]. intros [[h1 s1] p1] [[h2 s2] p2] (R1 & R2 & R3). cbn in *. subst s2 p2.
    split; auto. split; auto. }
  destruct o; cbn [exec]; cbv zeta; cbn [st_heap]; rewrite ?LK, ?LB, ?LM, ?LV; unfold typed, when;
    repeat match goal with
      | |- optrel _ (match ?x with _ => _ end) (match ?x with _ => _ end) => destruct x eqn:?; cbn [optrel]; auto
      end; cbn [optrel].
  all: try (first [apply VIEW | apply EXPR]).
  all: try (apply NEW1; first [now apply sim_zeros | now apply sim_fixed | now apply sim_fixed_vector | now apply sim_row |
    now apply sim_column | now apply sim_row_dim | now apply sim_column_dim]).
  all: try (repeat split; auto; apply H).
  all: try (apply ITEM; first [eapply sim_get; eauto; eapply AV; eauto; now left | eapply sim_get1d; eauto; eapply AV; eauto; now left
     | eapply sim_unchecked; eauto; eapply AV; eauto; now left]).
  - apply NEW1. eapply orel_bind; [apply sim_vector; exact H|]. intros [h1 c1] [h2 c2] R. exact (sim_from_data F m rs cs l _ _ R).
  - apply NEW1. pose proof (sim_array F h h' n H) as R.
    destruct (array_container_new h _) as [h1 c1], (array_container_new h' _) as [h2 c2]. exact (sim_from_data F m rs cs l _ _ R).
  - apply DONE, sim_set; auto. eapply AV; eauto. now left.
  - apply DONE, sim_set1d; auto. eapply AV; eauto. now left.
  - apply DONE. eapply sim_place; eauto; [eapply AV; eauto; now left|]. intros p Ep. eapply mut_in; eauto.
  - apply DONE. eapply sim_place; eauto; [eapply AV; eauto; now left|]. intros p Ep. eapply mut1d_in; eauto.
  - apply ITEM. destruct (get_slice b first last) as [rg| |] eqn:Eg; auto. cbn [bind]. unfold slice_read.
    destruct (assert_ _); cbn [bind]; auto. apply (sim_read F); auto. apply slice_alloc in Eg. rewrite Eg.
    apply (AB x); auto. now left.
  - apply DONE. apply orel_same. intros rg Eg. unfold slice_write. apply orel_same. intros _ _. apply orel_same. intros p Ep.
    apply sim_write; auto. apply place_alloc in Ep. rewrite Ep. rewrite get_slice_mut_eq in Eg. apply slice_alloc in Eg. rewrite Eg.
    apply (AM x); auto. now left.
  - apply orel_same. intros [[[b0 b1] b2] b3] _. repeat split; auto; apply H.
  - apply NEW1, sim_eval; auto. eapply AV; eauto. now left.
  - apply LOOP, sim_for_each; auto. apply (AM x); auto. now left.
  - apply LOOP, sim_for_each; auto. apply (AM x); auto. now left.
  - apply DONE, sim_matmul; auto; [apply (AB a)|apply (AB b)|apply (AM c)]; cbn; auto.
  - apply NEW1, sim_dot; auto; [apply (AB a)|apply (AB b)]; cbn; auto.
Qed.

Lemma sim_step : forall F kern m st st' (o : call T St), strel F st st' ->
  (forall x w, In x (map fst (uses o)) -> nth_error (st_mats st) x = Some w -> avoids F w) ->
  orel (resrel F) (step kern m st o) (step kern m st' o).
Proof.
  intros F kern m st st' o H Hu. pose proof (sim_exec F kern m st st' o H Hu) as E. unfold step.
  destruct (exec kern m st o) as [[x| |]|], (exec kern m st' o) as [[y| |]|]; cbn in E; try contradiction; cbn; auto;
    split; auto.
Qed.

(** ** Allocations *)

Lemma write_length : forall (h : heap) p v h', place_write h p v = Ok h' -> length h' = length h.
Proof.
  intros h p v h' H. unfold place_write in H. destruct (hget _ _ _); [|discriminate]. injection H as <-.
  unfold hset. destruct (nth_error h _); auto. apply upd_length.
Qed.

Lemma loop_length : forall (f : N -> heap -> outcome heap) n i h h',
  (forall k t t', f k t = Ok t' -> length t' = length t) -> loop n i f h = Ok h' -> length h' = length h.
Proof.
  intros f n. induction n as [|n IH]; intros i h h' Hf H; cbn [loop] in H; [now injection H as <-|].
  apply bind_ok in H. destruct H as (h1 & E & H). apply IH in H; auto. apply Hf in E. lia.
Qed.

Lemma for_each_length : forall (S : Type) m (h : heap) b (f : closure S) s h' s' pn,
  for_each m h b f s = Ok (h', s', pn) -> length h' = length h.
Proof.
  intros S m h b f s h' s' pn H. unfold for_each in H. apply bind_ok in H. destruct H as (n & _ & H).
  revert H. generalize (N.to_nat n) 0 h s. clear n h s. induction n as [|n IH]; intros i h s H; cbn [for_each_loop] in H.
  - now injection H as <- _ _.
  - apply bind_ok in H. destruct H as ([[h1 s1] pn1] & E & H). unfold call_closure in E.
    destruct (base_get1d_unchecked_mut m b i) as [p| |]; [|injection E as <- <- <-; now injection H as <- _ _|discriminate].
    apply bind_ok in E. destruct E as (v & _ & E). destruct (f s v) as [[s2 v2] pn2].
    apply bind_ok in E. destruct E as (h2 & E & E2). injection E2 as -> -> ->. apply write_length in E.
    destruct pn1; [injection H as <- _ _; auto|]. apply IH in H. lia.
Qed.

Lemma ptr_write_length : forall (h : heap) p d v h', ptr_write h p d v = Ok h' -> length h' = length h.
Proof.
  intros h p d v h' H. unfold ptr_write in H. destruct (0 <=? _)%Z; [|discriminate].
  apply bind_ok in H. destruct H as (q & _ & H). eapply write_length; eauto.
Qed.

Lemma matmul_length : forall kern (h : heap) alpha a b beta c h', matmul kern h alpha a b beta c = Ok h' -> length h' = length h.
Proof.
  intros kern h alpha a b beta c h' H. unfold matmul, gemm, for_range in H.
  do 4 (apply bind_ok in H; destruct H as (? & _ & H)).
  revert H. apply loop_length. intros i t t'. apply loop_length. intros j u u' H. unfold gemm_entry in H.
  do 2 (apply bind_ok in H; destruct H as (? & _ & H)). eapply ptr_write_length; eauto.
Qed.

Lemma appended_length : forall (h h' : heap) b, appended h h' b -> length h' = S (length h).
Proof. intros h h' b (l & -> & _). rewrite app_length. cbn. lia. Qed.

Lemma eval_length : forall m (h : heap) x h' b, eval m h x = Ok (h', b) -> length h' = S (length h).
Proof.
  intros m h x h' b H. unfold eval in H. apply bind_ok in H. destruct H as ((h1, b1) & E & H).
  apply bind_ok in H. destruct H as (n & _ & H). apply bind_ok in H. destruct H as (h2 & El & H). injection H as <- <-.
  apply zeros_appended, appended_length in E. unfold for_range in El. apply loop_length in El; [lia|].
  intros k t t' H. apply bind_ok in H. destruct H as (v & _ & H). apply bind_ok in H. destruct H as (p & _ & H).
  eapply write_length; eauto.
Qed.

Lemma dot_length : forall shape kern m (h : heap) a b h' r, dot shape kern m h a b = Ok (h', r) -> length h' = S (length h).
Proof.
  intros shape kern m h a b h' r H.
  destruct shape; cbn [dot] in H; unfold dot_mat_mat, dot_row_mat, dot_mat_col in H;
    apply bind_ok in H; destruct H as ((h1, b1) & E & H);
    apply bind_ok in H; destruct H as (h2 & Em & H); injection H as <- <-;
    apply matmul_length in Em; rewrite Em;
    first [apply zeros_appended in E | apply row_dim_appended in E | apply column_dim_appended in E];
    eapply appended_length; eauto.
Qed.

Lemma step_lengths : forall kern m st (o : call T St) st' r, step kern m st o = Ok (st', r) ->
  length (st_heap st') = ((match r with RNew => if allocates o then 1 else 0 | _ => 0 end) + length (st_heap st))%nat.
Proof.
  intros kern m st o st' r H. unfold step in H.
  destruct (exec kern m st o) as [[[st1 r1]| |]|] eqn:E; try discriminate H; injection H as <- <-; try reflexivity.
  assert (NEW1 : forall f : outcome (heap * base_matrix), allocates o = true ->
     (forall h' b, f = Ok (h', b) -> length h' = S (length (st_heap st))) -> new1 st f = Ok (st1, r1) ->
     length (st_heap st1) = ((match r1 with RNew => if allocates o then 1 else 0 | _ => 0 end) + length (st_heap st))%nat).
  { intros f Ho Hf E1. unfold new1 in E1. apply bind_ok in E1. destruct E1 as ((h', b) & Ef & E1).
    injection E1 as <- <-. rewrite Ho. cbn. eauto. }
  assert (APP : forall f : outcome (heap * base_matrix), allocates o = true ->
     (forall h' b, f = Ok (h', b) -> appended (st_heap st) h' b) -> new1 st f = Ok (st1, r1) ->
     length (st_heap st1) = ((match r1 with RNew => if allocates o then 1 else 0 | _ => 0 end) + length (st_heap st))%nat).
  { intros f Ho Hf. apply NEW1; auto. intros h' b Ef. eapply appended_length; eauto. }
  assert (VIEW : forall f : outcome base_matrix, allocates o = false -> new_view st f = Ok (st1, r1) ->
     length (st_heap st1) = ((match r1 with RNew => if allocates o then 1 else 0 | _ => 0 end) + length (st_heap st))%nat).
  { intros f Ho E1. unfold new_view in E1. apply bind_ok in E1. destruct E1 as (b & Ef & E1). injection E1 as <- <-. now rewrite Ho. }
  assert (EXPR : forall f : outcome (matrix T), allocates o = false -> new_expr st f = Ok (st1, r1) ->
     length (st_heap st1) = ((match r1 with RNew => if allocates o then 1 else 0 | _ => 0 end) + length (st_heap st))%nat).
  { intros f Ho E1. unfold new_expr in E1. apply bind_ok in E1. destruct E1 as (b & Ef & E1). injection E1 as <- <-. now rewrite Ho. }
  assert (ITEM : forall f : outcome T, item st f = Ok (st1, r1) ->
     length (st_heap st1) = ((match r1 with RNew => if allocates o then 1 else 0 | _ => 0 end) + length (st_heap st))%nat).
  { intros f E1. unfold item in E1. apply bind_ok in E1. destruct E1 as (v & _ & E1). now injection E1 as <- <-. }
  assert (DONE : forall f : outcome heap, (forall h', f = Ok h' -> length h' = length (st_heap st)) -> done st f = Ok (st1, r1) ->
     length (st_heap st1) = ((match r1 with RNew => if allocates o then 1 else 0 | _ => 0 end) + length (st_heap st))%nat).
  { intros f Hf E1. unfold done in E1. apply bind_ok in E1. destruct E1 as (v & Ev & E1). injection E1 as <- <-. cbn. auto. }
  assert (LOOP : forall f : outcome (heap * St * bool), (forall h' s' pn, f = Ok (h', s', pn) -> length h' = length (st_heap st)) ->
     looped st f = Ok (st1, r1) ->
     length (st_heap st1) = ((match r1 with RNew => if allocates o then 1 else 0 | _ => 0 end) + length (st_heap st))%nat).
  { intros f Hf E1. unfold looped in E1. apply bind_ok in E1. destruct E1 as (((h', s'), pn) & Ev & E1).
    injection E1 as <- <-. cbn. eauto. }
  assert (PLACE : forall (f : outcome place) v h', (p <- f ;; place_write (st_heap st) p v) = Ok h' -> length h' = length (st_heap st)).
  { intros f v h' H. apply bind_ok in H. destruct H as (p & _ & H). eapply write_length; eauto. }
  destruct o; cbn [exec] in E; unfold typed, when in E;
    repeat match type of E with
      | match ?x with _ => _ end = Some _ => destruct x eqn:?; try discriminate E
      end;
    try (apply some_inj in E); try (revert E; first [apply ITEM | apply VIEW; reflexivity | apply EXPR; reflexivity]);
    try (injection E as <- <-; reflexivity).
  - revert E. apply APP; auto. intros. eapply zeros_appended; eauto.
  - revert E. apply APP; auto. intros. eapply fixed_appended; eauto.
  - revert E. apply APP; auto. intros. eapply fixed_vector_appended; eauto.
  - revert E. apply APP; auto. intros. eapply row_appended; eauto.
  - revert E. apply APP; auto. intros. eapply column_appended; eauto.
  - revert E. apply APP; auto. intros. eapply row_dim_appended; eauto.
  - revert E. apply APP; auto. intros. eapply column_dim_appended; eauto.
  - revert E. apply NEW1; auto. intros h' b H. apply bind_ok in H. destruct H as ((h1, c) & Ev & H).
    apply bind_ok in H. destruct H as (b' & Eb & H). injection H as <- <-.
    apply vector_new_inv in Ev. destruct Ev as (-> & _). rewrite app_length. cbn. lia.
  - revert E. apply NEW1; auto. intros h' b H. unfold array_container_new, alloc in H.
    apply bind_ok in H. destruct H as (b' & Eb & H). injection H as <- <-. rewrite app_length. cbn. lia.
  - revert E. apply DONE. intros h' H. eapply PLACE; eauto.
  - revert E. apply DONE. intros h' H. eapply PLACE; eauto.
  - revert E. apply DONE. intros h' H. eapply PLACE; eauto.
  - revert E. apply DONE. intros h' H. eapply PLACE; eauto.
  - revert E. apply DONE. intros h' H. apply bind_ok in H. destruct H as (rg & _ & H). unfold slice_write in H.
    apply bind_ok in H. destruct H as (u & _ & H). eapply PLACE; eauto.
  - apply bind_ok in E. destruct E as ((((b0, b1), b2), b3) & _ & E). injection E as <- <-. reflexivity.
  - revert E. apply NEW1; auto. intros. eapply eval_length; eauto.
  - revert E. apply LOOP. intros. eapply for_each_length; eauto.
  - revert E. apply LOOP. intros. eapply for_each_length; eauto.
  - revert E. apply DONE. intros. eapply matmul_length; eauto.
  - revert E. apply NEW1; auto. intros. eapply dot_length; eauto.
Qed.

End Dealloc.

(** ** Owners *)
Section Owned.
Context {T : Type} {SC : HScalar T} {St : Type}.
Variable kern : kernel T.
Notation heap := (@heap T).
Notation bstate := (bstate T).
Notation fstate := (fstate T).
Notation action := (action T St).
Notation faction := (faction T St).

Lemma mem_in : forall l x, mem l x = true <-> In x l.
Proof.
  intros l x. unfold mem. rewrite existsb_exists. split.
  - intros (y & Hy & E). apply Nat.eqb_eq in E. now subst.
  - intros H. exists x. rewrite Nat.eqb_refl. auto.
Qed.
Lemma mem_out : forall l x, mem l x = false <-> ~ In x l.
Proof. intros l x. rewrite <- mem_in. now destruct (mem l x). Qed.

Lemma owned_owners : forall a (x : matrix T), count_occ Nat.eq_dec (owned x) a = owners a x.
Proof.
  intros a x. induction x; cbn [owned owners]; auto.
  - unfold allocation. destruct (c_kind (bm_data b)); cbn [count_occ]; auto;
      destruct (Nat.eq_dec _ _) as [E|E]; [rewrite E, Nat.eqb_refl | apply Nat.eqb_neq in E; rewrite E | rewrite E, Nat.eqb_refl | apply Nat.eqb_neq in E; rewrite E]; auto.
  - now rewrite count_occ_app, IHx1, IHx2.
Qed.

Lemma owned_in : forall a (x : matrix T), In a (owned x) <-> (0 < owners a x)%nat.
Proof. intros a x. rewrite <- owned_owners. apply (count_occ_In Nat.eq_dec). Qed.

Lemma so_app : forall g (l1 l2 : list (matrix T)) n a,
  still_owned g n (l1 ++ l2) a = (still_owned g n l1 a + still_owned g (n + length l1) l2 a)%nat.
Proof.
  intros g l1. induction l1 as [|x l1 IH]; intros l2 n a; cbn [app still_owned length].
  - now rewrite Nat.add_0_r.
  - rewrite IH. replace (S n + length l1)%nat with (n + S (length l1))%nat by lia. lia.
Qed.

Lemma so_same : forall g g' (l : list (matrix T)) n a, (forall k, (n <= k < n + length l)%nat -> mem g' k = mem g k) ->
  still_owned g' n l a = still_owned g n l a.
Proof.
  intros g g' l. induction l as [|x l IH]; intros n a H; cbn [still_owned length] in *; auto.
  rewrite (H n) by lia. rewrite IH; auto. intros k Hk. apply H. lia.
Qed.

Lemma so_gone : forall g (l : list (matrix T)) k v n a, nth_error l k = Some v -> mem g (n + k) = false ->
  still_owned g n l a = (owners a v + still_owned ((n + k)%nat :: g) n l a)%nat.
Proof.
  intros g l. induction l as [|x l IH]; intros [|k] v n a Hk Hm; cbn in Hk; try discriminate; cbn [still_owned].
  - injection Hk as ->. rewrite Nat.add_0_r in *. rewrite Hm. unfold mem at 1. cbn [existsb]. rewrite Nat.eqb_refl. cbn [orb].
    rewrite (so_same g (n :: g)); [lia|]. intros k Hk. unfold mem. cbn [existsb]. replace (Nat.eqb k n) with false by lia. auto.
  - replace (n + S k)%nat with (S n + k)%nat in * by lia. rewrite (IH k v (S n) a Hk Hm).
    replace (mem ((S n + k)%nat :: g) n) with (mem g n); [lia|]. unfold mem. cbn [existsb]. now replace (Nat.eqb n (S n + k)) with false by lia.
Qed.

Lemma free_all_ok : forall l (fs : fstate), NoDup l -> (forall a, In a l -> ~ In a (f_freed fs)) ->
  exists h', free_all fs l = Ok (mkFState (set_heap (f_state fs) h') (f_gone fs) (rev l ++ f_freed fs)) /\
    length h' = length (st_heap (b_state (f_state fs))) /\
    forall a, ~ In a l -> nth_error h' a = nth_error (st_heap (b_state (f_state fs))) a.
Proof.
  induction l as [|x l IH]; intros fs Hd Hf; cbn [free_all].
  - exists (st_heap (b_state (f_state fs))). destruct fs as [[[h ms] bt] g fr]. cbn. auto.
  - inversion Hd as [|? ? Hx Hd']; subst. unfold free. rewrite (proj2 (mem_out (f_freed fs) x)) by (apply Hf; now left). cbn [bind].
    set (fs1 := mkFState (T := T) _ _ _).
    destruct (IH fs1) as (h' & E & Hl & Hh); auto.
    { intros a Ha Ha'. cbn in Ha'. destruct Ha' as [->|Ha']; [contradiction|]. exact (Hf a (or_intror Ha) Ha'). }
    exists h'. splits.
    + rewrite E. cbn [rev]. rewrite <- app_assoc. reflexivity.
    + rewrite Hl. cbn. apply upd_length.
    + intros a Ha. rewrite Hh by (intros H; apply Ha; now right). cbn. rewrite nth_upd.
      destruct (Nat.eqb x a) eqn:E2; auto. apply Nat.eqb_eq in E2. elim Ha. now left.
Qed.

Lemma nodup_app : forall (l l' : list nat), NoDup l -> NoDup l' -> (forall a, In a l -> ~ In a l') -> NoDup (l ++ l').
Proof.
  induction l as [|x l IH]; intros l' H H' Hd; cbn [app]; auto. inversion H; subst. constructor.
  - rewrite in_app_iff. intros [?|?]; [contradiction|]. now apply (Hd x (or_introl eq_refl)).
  - apply IH; auto. intros a Ha. apply Hd. now right.
Qed.

(** The machine that frees memory and the one that does not. *)
Record frel (fs : fstate) (bs : bstate) : Prop := {
  r_mats : st_mats (b_state (f_state fs)) = st_mats (b_state bs);
  r_heap : hrel (f_freed fs) (st_heap (b_state bs)) (st_heap (b_state (f_state fs)));
  r_count : forall a, (a < length (st_heap (b_state bs)))%nat ->
    (still_owned (f_gone fs) 0 (st_mats (b_state bs)) a + (if mem (f_freed fs) a then 1 else 0) = 1)%nat;
  r_gone : forall x, In x (f_gone fs) -> (x < length (st_mats (b_state bs)))%nat;
  r_once : NoDup (f_freed fs)
}.

(** Destroying a value that exists. *)
Lemma destroy_ok : forall fs bs x v, frel fs bs -> all_placed (b_state bs) ->
  nth_error (st_mats (b_state bs)) x = Some v -> ~ In x (f_gone fs) ->
  exists fs', destroy fs x = Ok fs' /\ frel fs' bs /\ b_slots (f_state fs') = b_slots (f_state fs) /\ f_gone fs' = x :: f_gone fs.
Proof.
  intros fs bs x v [Rm Rh Rc Rg Rn] P Hv Hx. unfold destroy. rewrite Rm, Hv.
  assert (HP : forall a, (0 < owners a v)%nat -> (a < length (st_heap (b_state bs)))%nat).
  { intros a Ha. apply owns_owners, owns_lives in Ha. eapply lookup_placed; eauto. }
  assert (HC : forall a, (a < length (st_heap (b_state bs)))%nat ->
     (owners a v + still_owned (x :: f_gone fs) 0 (st_mats (b_state bs)) a + (if mem (f_freed fs) a then 1 else 0) = 1)%nat).
  { intros a Ha. pose proof (Rc a Ha) as R. rewrite (so_gone (f_gone fs) _ x v 0 a Hv) in R by (now apply mem_out). exact R. }
  assert (ND : NoDup (owned v)).
  { apply (NoDup_count_occ Nat.eq_dec). intros a. rewrite owned_owners.
    destruct (Nat.eq_dec (owners a v) 0) as [E|E]; [lia|]. specialize (HC a (HP a ltac:(lia))). lia. }
  assert (NF : forall a, In a (owned v) -> ~ In a (f_freed fs)).
  { intros a Ha Hf. apply owned_in in Ha. specialize (HC a (HP a Ha)). apply mem_in in Hf. rewrite Hf in HC. lia. }
  destruct (free_all_ok (owned v) (mkFState (f_state fs) (x :: f_gone fs) (f_freed fs)) ND NF) as (h' & E & Hl & Hh).
  - rewrite E. eexists. split; [reflexivity|]. cbn [f_state f_gone f_freed] in *. splits; auto.
    destruct Rh as [[R1 R2] R3]. constructor; cbn [f_state f_gone f_freed set_heap b_state st_mats st_heap]; auto.
    + split; [split|].
      * now rewrite Hl.
      * intros a Ha. rewrite in_app_iff, <- in_rev in Ha. rewrite Hh by tauto. apply R2. tauto.
      * intros a Ha. rewrite in_app_iff, <- in_rev in Ha. destruct Ha as [Ha|Ha]; auto. apply HP. now apply owned_in.
    + intros a Ha. specialize (HC a Ha).
      assert (M : mem (rev (owned v) ++ f_freed fs) a = mem (owned v) a || mem (f_freed fs) a).
      { apply Bool.eq_iff_eq_true. rewrite Bool.orb_true_iff, !mem_in, in_app_iff, <- in_rev. reflexivity. }
      rewrite M. destruct (mem (owned v) a) eqn:M1; cbn [orb].
      * apply mem_in, owned_in in M1. lia.
      * apply mem_out in M1. rewrite owned_in in M1. lia.
    + intros y [<-|Hy]; auto. apply nth_error_Some. congruence.
    + apply nodup_app; auto.
      * now apply NoDup_rev.
      * intros a Ha. apply NF. now apply in_rev.
Qed.

Lemma destroy_all_ok : forall xs fs bs, frel fs bs -> all_placed (b_state bs) -> NoDup xs ->
  (forall x, In x xs -> (x < length (st_mats (b_state bs)))%nat /\ ~ In x (f_gone fs)) ->
  exists fs', destroy_all fs xs = Ok fs' /\ frel fs' bs /\ b_slots (f_state fs') = b_slots (f_state fs) /\
    f_gone fs' = rev xs ++ f_gone fs.
Proof.
  induction xs as [|x xs IH]; intros fs bs R P Hd Hx; cbn [destroy_all].
  - exists fs. auto.
  - inversion Hd as [|? ? Hn Hd']; subst. destruct (Hx x (or_introl eq_refl)) as [Hl Hg].
    destruct (nth_error (st_mats (b_state bs)) x) as [v|] eqn:Ev; [|apply nth_error_None in Ev; lia].
    destruct (destroy_ok fs bs x v R P Ev Hg) as (fs1 & E1 & R1 & S1 & G1). rewrite E1. cbn [bind].
    destruct (IH fs1 bs R1 P Hd') as (fs2 & E2 & R2 & S2 & G2).
    { intros y Hy. destruct (Hx y (or_intror Hy)) as [A B]. split; auto. rewrite G1. intros [<-|]; auto. }
    exists fs2. splits; auto.
    + congruence.
    + rewrite G2, G1. cbn [rev]. now rewrite <- app_assoc.
Qed.

Definition msum (l : list (matrix T)) (xs : list nat) (a : nat) : nat :=
  list_sum (map (fun x => match nth_error l x with Some v => owners a v | None => 0%nat end) xs).

Lemma so_gone_all : forall xs g (l : list (matrix T)) a, NoDup xs ->
  (forall x, In x xs -> (x < length l)%nat /\ ~ In x g) ->
  still_owned g 0 l a = (msum l xs a + still_owned (xs ++ g) 0 l a)%nat.
Proof.
  induction xs as [|x xs IH]; intros g l a Hd Hx; [reflexivity|].
  inversion Hd as [|? ? Hn Hd']; subst. rewrite (IH g l a Hd') by (intros y Hy; apply Hx; now right).
  destruct (Hx x (or_introl eq_refl)) as [Hl Hg]. destruct (nth_error l x) as [v|] eqn:Ev; [|apply nth_error_None in Ev; lia].
  rewrite (so_gone (xs ++ g) l x v 0 a Ev) by (apply mem_out; rewrite in_app_iff; tauto).
  unfold msum. cbn [map app]. rewrite Ev. cbn [list_sum fold_right]. change (0 + x)%nat with x. unfold list_sum. cbn [fold_right]. lia.
Qed.

Lemma so_new : forall g (l : list (matrix T)) n a, (forall x, In x g -> (x < n)%nat) ->
  still_owned g n l a = list_sum (map (owners a) l).
Proof.
  intros g l. induction l as [|x l IH]; intros n a H; cbn [still_owned map list_sum fold_right]; auto.
  rewrite (proj2 (mem_out g n)) by (intros Hn; apply H in Hn; lia). rewrite IH; auto. intros y Hy. apply H in Hy. lia.
Qed.

Lemma so_zero : forall g (st : state T) a, all_placed st -> (length (st_heap st) <= a)%nat -> still_owned g 0 (st_mats st) a = 0%nat.
Proof.
  intros g [h ms] a P Ha. unfold all_placed in P. cbn [st_mats st_heap] in *.
  assert (G : forall n, still_owned g n ms a = 0%nat); [|apply G].
  induction ms as [|x l IH]; intros n; [reflexivity|]. cbn [still_owned].
  inversion P as [|? ? Px P']; subst. rewrite IH by auto. destruct (owners a x) eqn:E; [now destruct (mem g n)|].
  assert (L : lives_in a x) by (apply owns_lives, owns_owners; lia). apply Px in L. lia.
Qed.

Record finv (fs : fstate) (bs : bstate) : Prop := {
  v_rel : frel fs bs;
  v_own : oinv bs;
  v_slots : b_slots (f_state fs) = b_slots bs;
  v_live : forall x, is_live (b_slots bs) x = true -> ~ In x (f_gone fs)
}.

(** What can be used was not freed. *)
Lemma usable_avoids : forall fs bs y w, finv fs bs -> usable bs y w -> avoids (f_freed fs) w.
Proof.
  intros fs bs y w [R O S V] Hy a Ha Hf. destruct (owner_exists bs O y w a Hy Ha) as (x & v & [Hx Ev] & _ & Ho).
  pose proof (lookup_placed _ _ _ (o_placed _ O) (proj2 Hy) _ Ha) as Hp.
  pose proof (r_count _ _ R a Hp) as C. apply mem_in in Hf. rewrite Hf in C.
  rewrite (so_gone (f_gone fs) _ x v 0 a Ev) in C by (apply mem_out; auto). lia.
Qed.

Lemma moved_in : forall us x, In x (moved_operands us) <-> In (x, Moved) us.
Proof.
  intros us x. unfold moved_operands. rewrite in_flat_map. split.
  - intros ([y a] & Hy & H). cbn in H. destruct a; cbn in H; try contradiction. destruct H as [->|[]]. exact Hy.
  - intros H. exists (x, Moved). split; auto. now left.
Qed.

Lemma moved_nodup : forall us, no_conflict us = true -> NoDup (moved_operands us).
Proof.
  induction us as [|[x a] us IH]; intros H; [constructor|]. cbn [no_conflict] in H. apply andb_true_iff in H. destruct H as [H1 H2].
  change (moved_operands ((x, a) :: us)) with ((match a with Moved => [x] | _ => [] end) ++ moved_operands us).
  destruct a; cbn [app]; auto. constructor; auto. rewrite moved_in. intros Hx.
  rewrite forallb_forall in H1. specialize (H1 _ Hx). cbn in H1. rewrite Nat.eqb_refl in H1. discriminate.
Qed.

Lemma admit_no_conflict : forall bt us bt', admit_uses bt us = Some bt' -> no_conflict us = true.
Proof. intros bt us bt' H. unfold admit_uses in H. cbv zeta in H. destruct (no_conflict us); auto. discriminate. Qed.

(** A new expression owns what was moved into it. *)
Lemma derives_sum : forall m st (o : call T St) v a, derives m st o v ->
  msum (st_mats st) (moved_operands (uses o)) a = owners a v.
Proof.
  assert (SL : forall b a, c_kind (bm_data b) = SliceContainer \/ c_kind (bm_data b) = SliceContainerMut -> owners a (@MBase T b) = 0%nat).
  { intros b a H. pose proof (slice_owns_nothing (T := T) a b H) as N0. rewrite owns_owners in N0. lia. }
  intros m st o v a Hd. destruct Hd as [mut x first last rs cs l b rg v Hb Hs Hf | mut x tl d b v Hb Hv | x y Hy | x y Hy | s p x y Hy | s p x y Hy
    | p q x y u v l Hu Hv]; cbn [uses].
  - rewrite SL; [now destruct mut|]. apply from_data_data in Hf. subst v. cbn [bm_data]. apply slice_container_kind.
  - rewrite SL; [now destruct mut|]. eapply block_kind; eauto.
  - reflexivity.
  - reflexivity.
  - destruct p; [|reflexivity]. unfold msum. cbn. unfold lookup in Hy. rewrite Hy. lia.
  - destruct p; [|reflexivity]. unfold msum. cbn. unfold lookup in Hy. rewrite Hy. lia.
  - unfold lookup in *. destruct p, q; unfold msum; cbn; rewrite ?Hu, ?Hv; lia.
Qed.

Definition steprel (x : fstate * list (result T St)) (y : bstate * result T St) : Prop :=
  finv (fst x) (fst y) /\ snd x = [snd y].

Lemma sim_act : forall m fs bs (a : action), finv fs bs -> no_pointers a ->
  optrel (orel steprel) (fstep kern m fs (Act a)) (bstep kern m bs a).
Proof.
  intros m fs bs a I Hn. pose proof I as [R O S V]. destruct R as [Rm Rh Rc Rg Rn].
  pose proof (o_placed _ O) as P. pose proof (inv_closed _ _ _ (o_inv _ O)) as C0.
  assert (DESTROY : forall st1 st1' bt us (r : result T St),
     st_mats st1 = st_mats (b_state bs) -> st_mats st1' = st_mats (b_state bs) ->
     length (st_heap st1) = length (st_heap (b_state bs)) -> hrel (f_freed fs) (st_heap st1) (st_heap st1') ->
     admit_uses (b_slots bs) us = Some bt -> oinv (mkBState st1 bt) ->
     orel steprel (fs' <- destroy_all (mkFState (mkBState st1' bt) (f_gone fs) (f_freed fs)) (moved_operands us) ;; Ok (fs', [r]))
       (Ok (mkBState st1 bt, r))).
  { intros st1 st1' bt us r E1 E1' El Hh Ha O1.
    destruct (admit_spec _ _ _ C0 Ha) as (L & C & Hu & Hl & Hm).
    destruct (destroy_all_ok (moved_operands us) (mkFState (mkBState st1' bt) (f_gone fs) (f_freed fs)) (mkBState st1 bt))
      as (fs' & E & R' & S' & G').
    - constructor; cbn [f_state b_state f_freed f_gone]; auto.
      + congruence.
      + intros b Hb. rewrite E1. apply Rc. lia.
      + rewrite E1. auto.
    - apply (o_placed _ O1).
    - apply moved_nodup. eapply admit_no_conflict; eauto.
    - intros x Hx. apply moved_in in Hx. destruct (Hu _ _ Hx) as [Hx' _]. cbn [b_state f_gone]. rewrite E1. split; [|auto].
      apply is_live_bound in Hx'. now rewrite <- (inv_length _ _ _ (o_inv _ O)).
    - rewrite E. cbn [bind orel]. split; auto. cbn [fst]. constructor; auto.
      cbn [b_slots]. intros x Hx Hg. rewrite G' in Hg. cbn [f_gone] in Hg. apply in_app_iff in Hg. destruct Hg as [Hg|Hg].
      + apply in_rev in Hg. apply moved_in in Hg. rewrite (Hm _ Hg) in Hx. discriminate.
      + destruct L as (_ & _ & _ & Lv). apply (V x); auto. }
  destruct a as [o|x]; cbn [fstep bstep]; rewrite S.
  2:{ destruct (admit_uses (b_slots bs) [(x, Moved)]) as [bt|] eqn:Ha; [|exact Logic.I]. cbn [optrel bind].
      apply (DESTROY (b_state bs) (b_state (f_state fs)) bt [(x, Moved)]); auto.
      destruct (admit_spec _ _ _ C0 Ha) as (L & C & _). apply (oinv_later bs); auto. }
  destruct (admit_uses (b_slots bs) (uses o)) as [bt|] eqn:Ha; [|exact Logic.I]. cbn [optrel].
  destruct (admit_spec _ _ _ C0 Ha) as (L & C & Hu & Hl & Hm).
  assert (Sim : orel (resrel (f_freed fs)) (step kern m (b_state bs) o) (step kern m (b_state (f_state fs)) o)).
  { apply sim_step; [split; auto|]. intros x w Hx Hw. apply in_map_iff in Hx. destruct Hx as ([y c] & <- & Hx).
    destruct (Hu _ _ Hx) as [Hy _]. apply (usable_avoids fs bs y w I). split; auto. }
  destruct (step kern m (b_state bs) o) as [[st1 r]| |] eqn:Es, (step kern m (b_state (f_state fs)) o) as [[st1' r']| |];
    cbn [orel] in Sim; try contradiction; try exact Logic.I.
  destruct Sim as [[Em Hh] Er]. cbn [fst snd] in *. subst r'. cbn [bind].
  assert (O1 : oinv (mkBState st1 (match r with RNew => bt ++ returned (b_slots bs) o | _ => bt end))).
  { apply (step_oinv kern m bs (Do o) _ r O Hn). cbn [bstep]. rewrite Ha, Es. reflexivity. }
  pose proof (step_kinds _ _ _ _ _ _ Hn Es) as K. pose proof (step_lengths _ _ _ _ _ _ Es) as Len.
  assert (Hr : r = RNew \/ r <> RNew) by (destruct r; [right|right|right|left|right|right|right|right]; congruence).
  destruct Hr as [Hr|Hr].
  2:{ assert (E1 : st_mats st1 = st_mats (b_state bs)) by (destruct K; congruence).
      destruct r; try (exact (False_ind _ (Hr eq_refl)));
        (apply (DESTROY st1 st1' bt (uses o)); auto; congruence). }
  subst r. cbn [moved].
  assert (MV : forall x, In x (moved_operands (uses o)) -> (x < length (st_mats (b_state bs)))%nat /\ ~ In x (f_gone fs)).
  { intros x Hx. apply moved_in in Hx. destruct (Hu _ _ Hx) as [Hx' _]. split; [|auto].
    apply is_live_bound in Hx'. now rewrite <- (inv_length _ _ _ (o_inv _ O)). }
  assert (ND : NoDup (moved_operands (uses o))) by (apply moved_nodup; eapply admit_no_conflict; eauto).
  assert (GN : forall x, In x (moved_operands (uses o) ++ f_gone fs) -> (x < length (st_mats (b_state bs)))%nat).
  { intros x Hx. apply in_app_iff in Hx. destruct Hx as [Hx|Hx]; auto. now apply MV. }
  split; [|reflexivity]. cbn [fst].
  assert (FIN : forall news, st_mats st1 = st_mats (b_state bs) ++ news ->
     (forall a, (a < length (st_heap st1))%nat ->
        list_sum (map (owners a) news) = (msum (st_mats (b_state bs)) (moved_operands (uses o)) a +
          (if Nat.ltb a (length (st_heap (b_state bs))) then 0 else 1))%nat) ->
     finv (mkFState (mkBState st1' (bt ++ returned (b_slots bs) o)) (moved_operands (uses o) ++ f_gone fs) (f_freed fs))
       (mkBState st1 (bt ++ returned (b_slots bs) o))).
  { intros news E Hs. constructor; auto.
    - constructor; cbn [f_state b_state f_freed f_gone]; auto.
      + intros a La. rewrite E, so_app. cbn [Nat.add]. rewrite (so_new _ news) by auto. rewrite (Hs a La).
        destruct (Nat.ltb_spec a (length (st_heap (b_state bs)))) as [Hb|Hb].
        * pose proof (Rc a Hb) as Ca. rewrite (so_gone_all _ _ _ a ND MV) in Ca. lia.
        * rewrite (so_zero _ _ a P Hb). rewrite (proj2 (mem_out (f_freed fs) a)).
          2:{ intros Hf. apply Rh in Hf. lia. }
          pose proof (so_gone_all _ (f_gone fs) _ a ND MV) as Z. rewrite (so_zero _ _ a P Hb) in Z. lia.
      + intros x Hx. rewrite E, app_length. apply GN in Hx. lia.
    - cbn [b_slots f_gone]. intros x Hx Hg. pose proof (GN x Hg) as Hb.
      rewrite live_app_old in Hx by (destruct L as (L1 & _); rewrite L1, (inv_length _ _ _ (o_inv _ O)); exact Hb).
      apply in_app_iff in Hg. destruct Hg as [Hg|Hg].
      + apply moved_in in Hg. rewrite (Hm _ Hg) in Hx. discriminate.
      + apply (V x); auto. destruct L as (_ & _ & _ & Lv). auto. }
  inversion K as [r Hr E | b E Eb Hlen Ho Hrt | v E Eh Hrt Hd | x at_ b b0 b1 b2 b3 Eo Hb _ Hsp Hh' E]; subst.
  - congruence.
  - apply (FIN [MBase b] E). intros a La. cbn [map list_sum fold_right].
    assert (U0 : moved_operands (uses o) = []).
    { destruct (allocates o) eqn:Ho'; [|cbn in Len; lia]. destruct o; try discriminate Ho'; reflexivity. }
    rewrite U0. unfold msum. cbn [map list_sum fold_right]. cbn in Len. destruct (allocates o); [|lia].
    unfold owned_container in Ho. cbn [owners]. rewrite Eb.
    destruct (Nat.ltb_spec a (length (st_heap (b_state bs)))).
    + replace (Nat.eqb (length (st_heap (b_state bs))) a) with false by lia. destruct (c_kind (bm_data b)); lia.
    + replace (Nat.eqb (length (st_heap (b_state bs))) a) with true by lia.
      destruct (c_kind (bm_data b)); try lia; destruct Ho; discriminate.
  - apply (FIN [v] E). intros a La. rewrite Eh in La. replace (Nat.ltb a (length (st_heap (b_state bs)))) with true by lia.
    cbn [map list_sum fold_right]. rewrite (derives_sum m (b_state bs) o v a Hd). lia.
  - apply (FIN [MBase b0; MBase b1; MBase b2; MBase b3] E). intros a La. rewrite Hh' in La.
    replace (Nat.ltb a (length (st_heap (b_state bs)))) with true by lia. cbn [uses moved_operands flat_map app].
    pose proof (split_kind _ _ _ _ _ _ _ Hsp) as SK. rewrite Forall_forall in SK.
    assert (Z : forall v, In v [b0; b1; b2; b3] -> owners a (@MBase T v) = 0%nat).
    { intros v Hv. pose proof (slice_owns_nothing (T := T) a v (SK v Hv)) as N0. rewrite owns_owners in N0. lia. }
    unfold msum. cbn [map list_sum fold_right]. rewrite !Z; cbn; auto 6.
Qed.

Lemma finitial_finv : finv (@finitial T) (@binitial T).
Proof.
  constructor; [constructor| apply binitial_oinv | reflexivity |].
  - reflexivity.
  - split; [split|]; auto. intros a [].
  - intros a Ha. cbn in Ha. lia.
  - intros x [].
  - constructor.
  - intros x _ [].
Qed.

(** The end of a scope is not visible to the machine that frees nothing. *)
Lemma sim_scope : forall fs bs x v, finv fs bs -> nth_error (st_mats (b_state bs)) x = Some v ->
  is_live (b_slots bs) x = false -> ~ In x (f_gone fs) ->
  exists fs', destroy fs x = Ok fs' /\ finv fs' bs /\ f_gone fs' = x :: f_gone fs.
Proof.
  intros fs bs x v [R O S V] Hv Hl Hg.
  destruct (destroy_ok fs bs x v R (o_placed _ O) Hv Hg) as (fs' & E & R' & S' & G'). exists fs'. splits; auto.
  constructor; auto.
  - congruence.
  - intros y Hy. rewrite G'. intros [<-|H]; [congruence|]. exact (V y Hy H).
Qed.

Definition runrel (x : fstate * list (result T St)) (y : bstate * list (result T St)) : Prop :=
  finv (fst x) (fst y) /\ snd x = snd y.

Lemma sim_run : forall m (acts : list faction) fs bs, finv fs bs -> Forall no_pointers (kept acts) ->
  match frun kern m fs acts with
  | None => True
  | Some o => exists o', brun kern m bs (kept acts) = Some o' /\ orel runrel o o'
  end.
Proof.
  intros m acts. induction acts as [|fa acts IH]; intros fs bs I Hn; cbn [frun].
  { eexists. split; [reflexivity|]. now split. }
  destruct fa as [a|x].
  - change (kept (Act a :: acts)) with (a :: kept acts) in *. inversion Hn as [|? ? Ha Hn']; subst.
    pose proof (sim_act m fs bs a I Ha) as S. cbn [brun].
    destruct (fstep kern m fs (Act a)) as [[[fs1 r]| |]|], (bstep kern m bs a) as [[[bs1 r']| |]|]; cbn in S; try contradiction; auto;
      try (eexists; split; [reflexivity|exact Logic.I]).
    destruct S as [I1 E1]. cbn [fst snd] in *. subst r. specialize (IH fs1 bs1 I1 Hn').
    destruct (frun kern m fs1 acts) as [o|]; auto. destruct IH as (o' & E' & R'). rewrite E'. eexists. split; [reflexivity|].
    destruct o as [[fs2 rs]| |], o' as [[bs2 rs']| |]; cbn in R' |- *; try contradiction; auto.
    destruct R' as [I2 E2]. cbn [fst snd] in *. subst rs'. now split.
  - change (kept (ScopeEnd x :: acts)) with (kept acts) in *. cbn [fstep].
    destruct (Nat.ltb x (length (st_mats (b_state (f_state fs)))) && negb (is_live (b_slots (f_state fs)) x) && negb (mem (f_gone fs) x)) eqn:C; auto.
    apply andb_true_iff in C. destruct C as [C C3]. apply andb_true_iff in C. destruct C as [C1 C2].
    apply Nat.ltb_lt in C1. apply negb_true_iff in C2, C3. apply mem_out in C3.
    rewrite (v_slots _ _ I) in C2. rewrite (r_mats _ _ (v_rel _ _ I)) in C1.
    destruct (nth_error (st_mats (b_state bs)) x) as [v|] eqn:Ev; [|apply nth_error_None in Ev; lia].
    destruct (sim_scope fs bs x v I Ev C2 C3) as (fs' & E & I' & _). rewrite E. cbn [bind].
    specialize (IH fs' bs I' Hn). destruct (frun kern m fs' acts) as [o|]; auto. destruct IH as (o' & E' & R').
    exists o'. split; auto. destruct o as [[fs2 rs]| |]; auto.
Qed.

(** Histories without ends of scopes are admitted by both or by none. *)
Lemma sim_run_acts : forall m (acts : list action) fs bs, finv fs bs -> Forall no_pointers acts ->
  optrel (orel runrel) (frun kern m fs (map Act acts)) (brun kern m bs acts).
Proof.
  intros m acts. induction acts as [|a acts IH]; intros fs bs I Hn; cbn [frun brun map].
  { split; auto. }
  inversion Hn as [|? ? Ha Hn']; subst. pose proof (sim_act m fs bs a I Ha) as S.
  destruct (fstep kern m fs (Act a)) as [[[fs1 r]| |]|], (bstep kern m bs a) as [[[bs1 r']| |]|]; cbn in S; try contradiction; try exact Logic.I.
  destruct S as [I1 E1]. cbn [fst snd] in *. subst r. specialize (IH fs1 bs1 I1 Hn').
  destruct (frun kern m fs1 (map Act acts)) as [[[fs2 rs]| |]|], (brun kern m bs1 acts) as [[[bs2 rs']| |]|]; cbn in IH |- *; try contradiction; auto.
  destruct IH as [I2 E2]. cbn [fst snd] in *. subst rs'. now split.
Qed.

Lemma runrel_same : forall o o', orel runrel o o' -> same_outcome o o'.
Proof.
  intros [[fs rs]| |] [[bs rs']| |] H; cbn in *; auto. destruct H as [[R O S V] E]. cbn [fst snd] in *. splits; auto; apply R.
Qed.

Lemma c54_same : forall m (acts : list faction), Forall no_pointers (kept acts) ->
  (forall o, frun kern m finitial acts = Some o ->
     exists o', brun kern m binitial (kept acts) = Some o' /\ same_outcome o o') /\
  (forall acts' o', acts = map Act acts' -> brun kern m binitial acts' = Some o' ->
     exists o, frun kern m finitial acts = Some o).
Proof.
  intros m acts Hn. split.
  - intros o H. pose proof (sim_run m acts _ _ finitial_finv Hn) as S. rewrite H in S. destruct S as (o' & E & R).
    exists o'. split; auto. now apply runrel_same.
  - intros acts' o' -> H. assert (K : kept (map Act acts') = acts').
    { clear. induction acts' as [|a l IH]; cbn; auto. unfold kept in IH. now rewrite IH. }
    rewrite K in Hn. pose proof (sim_run_acts m acts' _ _ finitial_finv Hn) as S. rewrite H in S.
    destruct (frun kern m finitial (map Act acts')) as [o|]; [eauto|contradiction].
Qed.

Lemma run_finv : forall m (acts : list faction) fs rs, Forall no_pointers (kept acts) ->
  frun kern m finitial acts = Some (Ok (fs, rs)) -> exists bs, finv fs bs.
Proof.
  intros m acts fs rs Hn H. pose proof (sim_run m acts _ _ finitial_finv Hn) as S. rewrite H in S.
  destruct S as ([[bs rs']| |] & _ & R); cbn in R; try contradiction. destruct R as [I _]. eauto.
Qed.

Lemma so_none : forall g (l : list (matrix T)) n a, (forall k, (n <= k < n + length l)%nat -> In k g) -> still_owned g n l a = 0%nat.
Proof.
  intros g l. induction l as [|x l IH]; intros n a H; cbn [still_owned length] in *; auto.
  rewrite (proj2 (mem_in g n)) by (apply H; lia). rewrite IH; auto. intros k Hk. apply H. lia.
Qed.

Lemma c54_freed : forall m (acts : list faction) fs rs, Forall no_pointers (kept acts) ->
  frun kern m finitial acts = Some (Ok (fs, rs)) ->
  let st := b_state (f_state fs) in
  NoDup (f_freed fs) /\
  (forall a, (a < length (st_heap st))%nat ->
     In a (f_freed fs) /\ still_owned (f_gone fs) 0 (st_mats st) a = 0%nat \/
     ~ In a (f_freed fs) /\ still_owned (f_gone fs) 0 (st_mats st) a = 1%nat) /\
  (forall y w a, usable (f_state fs) y w -> lives_in a w -> ~ In a (f_freed fs)) /\
  ((forall x, (x < length (st_mats st))%nat -> In x (f_gone fs)) ->
     forall a, (a < length (st_heap st))%nat -> In a (f_freed fs)).
Proof.
  intros m acts fs rs Hn H. destruct (run_finv m acts fs rs Hn H) as (bs & I). pose proof I as [R O S V]. cbv zeta.
  assert (L : length (st_heap (b_state (f_state fs))) = length (st_heap (b_state bs))) by apply R.
  assert (C : forall a, (a < length (st_heap (b_state (f_state fs))))%nat ->
     In a (f_freed fs) /\ still_owned (f_gone fs) 0 (st_mats (b_state (f_state fs))) a = 0%nat \/
     ~ In a (f_freed fs) /\ still_owned (f_gone fs) 0 (st_mats (b_state (f_state fs))) a = 1%nat).
  { intros a Ha. rewrite L in Ha. pose proof (r_count _ _ R a Ha) as C. rewrite (r_mats _ _ R).
    destruct (mem (f_freed fs) a) eqn:M; [left; apply mem_in in M | right; apply mem_out in M]; split; auto; lia. }
  splits.
  - apply R.
  - exact C.
  - intros y w a [Hy Hw] Ha. apply (usable_avoids fs bs y w I); auto. rewrite S in Hy. rewrite (r_mats _ _ R) in Hw. now split.
  - intros G a Ha. destruct (C a Ha) as [[F _]|[_ C1]]; auto. rewrite so_none in C1; [discriminate|]. intros k Hk. apply G. lia.
Qed.

(** A value that may be used can be dropped. *)
Lemma use_keeps : forall bt x, closed bt -> (forall y p e, In (p, e) (loans_of bt y) -> (p < y)%nat) ->
  forall y, (y <= x)%nat -> is_live bt y = true -> is_live (use bt (x, Moved)) y = true.
Proof.
  intros bt x C Ho. unfold use. cbn [fst snd]. destruct (use_from_spec x Moved bt []) as (bt' & E & L & H). rewrite E. cbn [app] in *. clear E.
  intros y. induction y as [y IH] using (well_founded_induction lt_wf). intros Hy Hl.
  unfold is_live. rewrite H. destruct (nth_error bt y) as [s|] eqn:Es; [|unfold is_live in Hl; now rewrite Es in Hl].
  cbn [live]. unfold survives. assert (Hls : live s = true) by (unfold is_live in Hl; now rewrite Es in Hl). rewrite Hls. cbn [andb].
  apply forallb_forall. intros [p e] Hp. cbn [fst snd].
  assert (Hp' : In (p, e) (loans_of bt y)) by (unfold loans_of; now rewrite Es).
  pose proof (Ho _ _ _ Hp') as Hlt. apply andb_true_iff. split.
  - assert (Hlp : is_live bt' p = true) by (apply IH; [auto | lia | eauto]).
    unfold is_live in *. rewrite <- (firstn_skipn y bt') in Hlp.
    rewrite nth_error_app1 in Hlp; auto. rewrite firstn_length, L. apply Nat.min_glb_lt; [exact Hlt|].
    assert ((y < length bt)%nat) by (apply nth_error_Some; congruence). lia.
  - replace (Nat.eqb p x) with false by (symmetry; apply Nat.eqb_neq; lia). reflexivity.
Qed.

Lemma drop_admitted : forall (bs : bstate) x, oinv bs -> is_live (b_slots bs) x = true -> exists bt, admit_uses (b_slots bs) [(x, Moved)] = Some bt.
Proof.
  intros bs x O Hl. unfold admit_uses. cbn [no_conflict fold_left forallb fst andb].
  rewrite (use_keeps (b_slots bs) x (inv_closed _ _ _ (o_inv _ O)) (inv_order _ _ _ (o_inv _ O)) x (le_n x) Hl). cbn. eauto.
Qed.

Lemma frun_app : forall m (acts acts' : list faction) fs fs1 rs1, frun kern m fs acts = Some (Ok (fs1, rs1)) ->
  frun kern m fs (acts ++ acts') = match frun kern m fs1 acts' with None => None | Some o => Some ('(fs2, rs2) <- o ;; Ok (fs2, rs1 ++ rs2)) end.
Proof.
  intros m acts. induction acts as [|a acts IH]; intros acts' fs fs1 rs1 H; cbn [frun app] in *.
  - injection H as <- <-. destruct (frun kern m fs acts') as [[[fs2 rs2]| |]|]; reflexivity.
  - destruct (fstep kern m fs a) as [[[fs2 r]| |]|]; try discriminate.
    destruct (frun kern m fs2 acts) as [[[fs3 rs3]| |]|] eqn:E; try discriminate. cbn in H. injection H as <- <-.
    rewrite (IH acts' fs2 fs3 rs3 E). destruct (frun kern m fs3 acts') as [[[fs4 rs4]| |]|]; cbn; auto. now rewrite app_assoc.
Qed.

Lemma kept_app : forall acts acts' : list faction, kept (acts ++ acts') = kept acts ++ kept acts'.
Proof. intros. apply flat_map_app. Qed.

(** The end of a program destroys what still exists. *)
Lemma close_one : forall m fs bs x, finv fs bs -> (x < length (st_mats (b_state bs)))%nat ->
  exists (acts : list faction) fs' bs' rs, Forall ending acts /\ frun kern m fs acts = Some (Ok (fs', rs)) /\ finv fs' bs' /\
    length (st_mats (b_state bs')) = length (st_mats (b_state bs)) /\
    length (st_heap (b_state bs')) = length (st_heap (b_state bs)) /\ In x (f_gone fs') /\ incl (f_gone fs) (f_gone fs').
Proof.
  intros m fs bs x I Hx. pose proof I as [R O S V].
  destruct (mem (f_gone fs) x) eqn:M.
  { exists [], fs, bs, []. splits; auto; [now apply mem_in | apply incl_refl]. }
  destruct (is_live (b_slots bs) x) eqn:Hl.
  - destruct (drop_admitted bs x O Hl) as (bt & Ha). pose proof (sim_act m fs bs (Drop x) I Logic.I) as Sim.
    assert (G : forall fs' (r : list (result T St)), fstep kern m fs (Act (Drop x)) = Some (Ok (fs', r)) -> In x (f_gone fs') /\ incl (f_gone fs) (f_gone fs')).
    { intros fs' r E. cbn [fstep bstep] in E. rewrite S, Ha in E. cbn [bind moved destroy_all] in E.
      unfold destroy in E. cbn [f_state b_state] in E. rewrite (r_mats _ _ R) in E.
      destruct (nth_error (st_mats (b_state bs)) x) as [v|] eqn:Ev; [|apply nth_error_None in Ev; lia].
      assert (FA : forall l f0 f', free_all (T := T) f0 l = Ok f' -> f_gone f' = f_gone f0).
      { clear. induction l as [|a l IH]; intros f0 f' E; cbn [free_all] in E; [congruence|]. unfold free in E.
        destruct (mem (f_freed f0) a); [discriminate|]. cbn [bind] in E. apply IH in E. exact E. }
      destruct (free_all _ _) as [f1| |] eqn:Ef in E; cbn [bind] in E; try discriminate. injection E as <- <-.
      apply FA in Ef. rewrite Ef. cbn [f_gone]. split; [now left | apply incl_tl, incl_refl]. }
    cbn [bstep] in Sim. rewrite Ha in Sim. destruct (fstep kern m fs (Act (Drop x))) as [[[fs' r]| |]|] eqn:E; cbn in Sim; try contradiction.
    destruct Sim as [I' Er]. cbn [fst snd] in *. destruct (G fs' r eq_refl) as [G1 G2].
    exists [Act (Drop x)], fs', (mkBState (b_state bs) bt), (r ++ []). splits; auto.
    + repeat constructor.
    + cbn [frun]. rewrite E. reflexivity.
  - destruct (nth_error (st_mats (b_state bs)) x) as [v|] eqn:Ev; [|apply nth_error_None in Ev; lia].
    apply mem_out in M. destruct (sim_scope fs bs x v I Ev Hl M) as (fs' & E & I' & G').
    exists [ScopeEnd x], fs', bs, []. splits; auto.
    + repeat constructor.
    + cbn [frun fstep]. rewrite (r_mats _ _ R), S, Hl, (proj2 (mem_out _ _) M).
      replace (Nat.ltb x (length (st_mats (b_state bs)))) with true by (symmetry; now apply Nat.ltb_lt). cbn [andb negb]. rewrite E. reflexivity.
    + rewrite G'. now left.
    + rewrite G'. apply incl_tl, incl_refl.
Qed.

Lemma close_some : forall m n fs bs, finv fs bs -> (n <= length (st_mats (b_state bs)))%nat ->
  exists (acts : list faction) fs' bs' rs, Forall ending acts /\ frun kern m fs acts = Some (Ok (fs', rs)) /\ finv fs' bs' /\
    length (st_mats (b_state bs')) = length (st_mats (b_state bs)) /\
    length (st_heap (b_state bs')) = length (st_heap (b_state bs)) /\ forall x, (x < n)%nat -> In x (f_gone fs').
Proof.
  intros m n. induction n as [|n IH]; intros fs bs I Hn.
  { exists [], fs, bs, []. splits; auto. intros x Hx. lia. }
  destruct (IH fs bs I ltac:(lia)) as (l1 & fs1 & bs1 & r1 & N1 & E1 & I1 & L1 & H1 & G1).
  destruct (close_one m fs1 bs1 n I1 ltac:(lia)) as (l2 & fs2 & bs2 & r2 & N2 & E2 & I2 & L2 & H2 & G2 & G3).
  exists (l1 ++ l2), fs2, bs2, (r1 ++ r2). splits; auto; try congruence.
  - now apply Forall_app.
  - rewrite (frun_app m l1 l2 fs fs1 r1 E1), E2. reflexivity.
  - intros x Hx. destruct (Nat.eq_dec x n) as [->|]; auto. apply G3, G1. lia.
Qed.

Lemma c54_leak : forall m (acts : list faction) fs rs, Forall no_pointers (kept acts) ->
  frun kern m finitial acts = Some (Ok (fs, rs)) ->
  exists acts' fs' rs', Forall ending acts' /\ frun kern m finitial (acts ++ acts') = Some (Ok (fs', rs')) /\
    length (st_heap (b_state (f_state fs'))) = length (st_heap (b_state (f_state fs))) /\
    forall a, (a < length (st_heap (b_state (f_state fs))))%nat -> In a (f_freed fs').
Proof.
  intros m acts fs rs Hn H. destruct (run_finv m acts fs rs Hn H) as (bs & I).
  destruct (close_some m _ fs bs I (le_n _)) as (l & fs' & bs' & r' & N & E & I' & L & Lh & G).
  assert (A : frun kern m finitial (acts ++ l) = Some (Ok (fs', rs ++ r'))).
  { rewrite (frun_app m acts l _ _ _ H), E. reflexivity. }
  assert (Hn' : Forall no_pointers (kept (acts ++ l))).
  { rewrite kept_app. apply Forall_app. split; auto. clear - N. induction N as [|a l Ha _ IH]; [constructor|].
    destruct a as [[o|y]|y]; [destruct Ha | constructor; [exact Logic.I | exact IH] | exact IH]. }
  pose proof (c54_freed m _ _ _ Hn' A) as (_ & _ & _ & C). cbv zeta in C.
  assert (E1 : length (st_heap (b_state (f_state fs))) = length (st_heap (b_state bs))) by apply (v_rel _ _ I).
  assert (E2 : length (st_heap (b_state (f_state fs'))) = length (st_heap (b_state bs'))) by apply (v_rel _ _ I').
  exists l, fs', (rs ++ r'). splits; auto; [congruence|]. intros a Ha. apply C; [|congruence].
  intros x Hx. apply G. rewrite (r_mats _ _ (v_rel _ _ I')) in Hx. congruence.
Qed.

(** Safe histories. *)
Lemma brun_safe : forall m (acts : list faction) (bs : bstate), sound m (b_state bs) ->
  Forall safe_call (calls acts) -> m = Checked \/ no_wrap_history kern m (b_state bs) (calls acts) ->
  forall o', brun kern m bs (kept acts) = Some o' -> exists bs' rs, o' = Ok (bs', rs).
Proof.
  intros m acts. induction acts as [|a acts IH]; intros bs Hs Hc Hm o' H.
  { cbn in H. injection H as <-. eauto. }
  destruct a as [[o|x]|x].
  - change (kept (Act (Do o) :: acts)) with (Do o :: kept acts) in H. change (calls (Act (Do o) :: acts)) with (o :: calls acts) in *.
    inversion Hc as [|? ? Ho Hc']; subst. cbn [brun bstep] in H. destruct (admit_uses (b_slots bs) (uses o)) as [bt|]; [|discriminate].
    assert (Hm1 : m = Checked \/ no_wrap_call (b_state bs) o) by (destruct Hm as [->|[Hm _]]; auto).
    destruct (step_safe kern m (b_state bs) o Hs (safe_within _ _ Ho) Hm1) as (st' & r & E & Hs').
    rewrite E in H. cbn [bind] in H. set (bs1 := mkBState _ _) in H.
    destruct (brun kern m bs1 (kept acts)) as [o1|] eqn:E1; [|discriminate].
    destruct (IH bs1 Hs' Hc' ltac:(destruct Hm as [->|[_ Hm]]; [now left|right; exact (Hm _ _ E)]) o1 E1) as (bs' & rs & ->).
    cbn in H. injection H as <-. eauto.
  - change (kept (Act (Drop x) :: acts)) with (Drop x :: kept acts) in H. change (calls (Act (Drop x) :: acts)) with (calls acts) in *.
    cbn [brun bstep] in H. destruct (admit_uses (b_slots bs) [(x, Moved)]) as [bt|]; [|discriminate].
    destruct (brun kern m (mkBState (b_state bs) bt) (kept acts)) as [o1|] eqn:E1; [|discriminate].
    destruct (IH (mkBState (b_state bs) bt) Hs Hc Hm o1 E1) as (bs' & rs & ->). cbn in H. injection H as <-. eauto.
  - exact (IH bs Hs Hc Hm o' H).
Qed.

Lemma safe_kept : forall acts : list faction, Forall safe_call (calls acts) -> Forall no_pointers (kept acts).
Proof.
  induction acts as [|a acts IH]; intros H; [constructor|]. destruct a as [[o|x]|x].
  - change (kept (Act (Do o) :: acts)) with (Do o :: kept acts). change (calls (Act (Do o) :: acts)) with (o :: calls acts) in H.
    inversion H; subst. constructor; auto. now apply safe_no_pointers.
  - constructor; [exact Logic.I | apply IH; exact H].
  - apply IH. exact H.
Qed.

Lemma c54_safe : forall m (acts : list faction), Forall safe_call (calls acts) ->
  m = Checked \/ no_wrap_history kern m (@initial T) (calls acts) ->
  forall o, frun kern m finitial acts = Some o -> exists fs rs, o = Ok (fs, rs).
Proof.
  intros m acts Hs Hm o H. destruct (proj1 (c54_same m acts (safe_kept acts Hs)) o H) as (o' & E & S).
  destruct (brun_safe m acts binitial (initial_sound _) Hs Hm o' E) as (bs & rs & ->).
  destruct o as [[fs rs']| |]; cbn in S; try contradiction. eauto.
Qed.
End Owned.
