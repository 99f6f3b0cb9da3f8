(** * Proofs about [Flat]. *)

From Coq Require Import Lia ZifyBool ZifyNat ZifyN.
From Verif Require Import Machine MachineFacts Layouts Memory MemoryFacts Matrix MatMul Spec MatrixSpec ExprSpec ProductSpec.
From Verif Require Import Program HistorySpec HistoryProofs Borrow Dealloc DeallocProofs Threads Interleave InterleaveProofs Flat.
Local Open Scope N_scope.

Section FlatProofs.
Context {T : Type} {SC : HScalar T} {St : Type} {B : Type}.
Variable encode : T -> list B.
Variable decode : list B -> T.
Hypothesis coding : faithful encode decode.
Variable choose : nat -> nat.
Notation heap := (@heap T).
Notation load := (load decode).
Notation store := (store encode).
Notation store_all := (store_all encode).
Notation perform := (perform encode decode choose).

(** ** Bytes *)

Lemma size_pos : 0 < item_size.
Proof. unfold item_size. lia. Qed.

Lemma store_out : forall (M : N -> B) a v x, ~ (a <= x < a + item_size) -> store M a v x = M x.
Proof.
  intros M a v x H. unfold Flat.store. destruct (N.leb_spec a x); auto.
  assert (E : nth_error (encode v) (N.to_nat (x - a)) = None).
  { apply nth_error_None. rewrite (proj1 (coding v)). lia. }
  now rewrite E.
Qed.

Lemma load_ext : forall (M M' : N -> B) a, (forall x, a <= x < a + item_size -> M x = M' x) -> load M a = load M' a.
Proof.
  intros M M' a H. unfold Flat.load. f_equal. apply map_ext_in. intros k Hk. apply in_seq in Hk. apply H. lia.
Qed.

Lemma nth_error_ext : forall (A : Type) (l l' : list A), (forall i, nth_error l i = nth_error l' i) -> l = l'.
Proof.
  intros A l. induction l as [|x l IH]; intros [|x' l'] H; auto.
  - discriminate (H 0%nat).
  - discriminate (H 0%nat).
  - f_equal; [|apply IH; intros i; apply (H (S i))]. specialize (H 0%nat). cbn in H. congruence.
Qed.

Lemma load_store : forall (M : N -> B) a v, load (store M a v) a = v.
Proof.
  intros M a v. unfold Flat.load. transitivity (decode (encode v)); [f_equal|apply coding].
  apply nth_error_ext. intros i. destruct (coding v) as [L _].
  destruct (Nat.ltb_spec i (N.to_nat item_size)).
  - rewrite nth_error_map. rewrite (nth_error_nth' (seq 0 (N.to_nat item_size)) 0%nat) by (rewrite seq_length; lia).
    rewrite seq_nth by lia. cbn [option_map]. unfold Flat.store. destruct (N.leb_spec a (a + N.of_nat (0 + i))); [|lia].
    replace (N.to_nat (a + N.of_nat (0 + i) - a)) with i by lia.
    destruct (nth_error (encode v) i) eqn:E; auto. apply nth_error_None in E. lia.
  - transitivity (@None B); [|symmetry]; apply nth_error_None; [rewrite map_length, seq_length|rewrite L]; lia.
Qed.

Lemma load_store_out : forall (M : N -> B) a v a', a' + item_size <= a \/ a + item_size <= a' -> load (store M a v) a' = load M a'.
Proof. intros M a v a' H. apply load_ext. intros x Hx. apply store_out. lia. Qed.

Lemma store_all_out : forall l (M : N -> B) a x, ~ (a <= x < a + N.of_nat (length l) * item_size) -> store_all M a l x = M x.
Proof.
  induction l as [|v l IH]; intros M a x H; cbn [Flat.store_all length] in *; auto.
  rewrite IH by lia. apply store_out. pose proof size_pos. lia.
Qed.

Lemma load_store_all : forall l (M : N -> B) a i v, nth_error l i = Some v ->
  load (store_all M a l) (a + N.of_nat i * item_size) = v.
Proof.
  induction l as [|w l IH]; intros M a [|i] v H; cbn [nth_error Flat.store_all] in *; try discriminate.
  - injection H as ->. transitivity (load (store M a v) a); [|apply load_store].
    replace (a + N.of_nat 0 * item_size) with a by lia. apply load_ext. intros x Hx. apply store_all_out. lia.
  - rewrite <- (IH (store M a w) (a + item_size) i v H). f_equal. lia.
Qed.

(** ** The relation *)

(** The bytes at some earlier time. *)
Variable before : N -> B.
Definition outside (Y : bytes B) (x : N) : Prop := forall b, In b (y_blocks Y) -> ~ in_block b x.

Record rep (rho : nat -> nat) (h : heap) (Y : bytes B) : Prop := {
  rep_items : forall a i v, hget h a i = Some v -> load (y_mem Y) (address (mkPlace (rho a) i)) = v;
  rep_blocks : forall b, In b (y_blocks Y) <->
    exists a l, nth_error h a = Some l /\ l <> [] /\ b = (rho a, N.of_nat (length l));
  rep_apart : forall a a' l l', nth_error h a = Some l -> nth_error h a' = Some l' -> l <> [] -> l' <> [] -> a <> a' ->
    blocks_apart (rho a, N.of_nat (length l)) (rho a', N.of_nat (length l')) = true;
  rep_nodup : NoDup (y_blocks Y);
  rep_next : forall j, rho (length h + j)%nat = choose (y_count Y + j);
  rep_frame : forall x, outside Y x -> y_mem Y x = before x
}.

Definition mplace (rho : nat -> nat) (p : place) : place := mkPlace (rho (pl_alloc p)) (pl_index p).

Lemma hget_inv : forall (h : heap) a i v, hget h a i = Some v ->
  exists l, nth_error h a = Some l /\ l <> [] /\ nth_error l (N.to_nat i) = Some v /\ i < N.of_nat (length l).
Proof.
  intros h a i v H. unfold hget in H. destruct (nth_error h a) as [l|] eqn:E; [|discriminate]. exists l.
  assert (nth_error l (N.to_nat i) <> None) by congruence. apply nth_error_Some in H0.
  repeat split; auto; [|lia]. intros ->. destruct (N.to_nat i); discriminate.
Qed.

(** Distinct items have no common byte. *)
Lemma items_apart : forall rho h Y a i v a' i' v', rep rho h Y -> hget h a i = Some v -> hget h a' i' = Some v' ->
  (a, i) <> (a', i') ->
  address (mkPlace (rho a) i) + item_size <= address (mkPlace (rho a') i') \/
  address (mkPlace (rho a') i') + item_size <= address (mkPlace (rho a) i).
Proof.
  intros rho h Y a i v a' i' v' H E E' D. apply hget_inv in E. destruct E as (l & E & Hl & _ & Li).
  apply hget_inv in E'. destruct E' as (l' & E' & Hl' & _ & Li'). unfold address. cbn [pl_alloc pl_index].
  pose proof size_pos. destruct (Nat.eq_dec a a') as [->|Ha].
  - assert (i <> i') by congruence. assert (i < i' \/ i' < i) as [L|L] by lia; [left|right]; nia.
  - pose proof (rep_apart _ _ _ H a a' l l' E E' Hl Hl' Ha) as A. unfold blocks_apart in A. cbn [fst snd] in A.
    apply Bool.orb_true_iff in A. rewrite !N.leb_le in A. destruct A as [A|A]; [left|right]; nia.
Qed.

Lemma hset_nth : forall (h : heap) a i v a' l', nth_error (hset h a i v) a' = Some l' ->
  exists l, nth_error h a' = Some l /\ length l' = length l.
Proof.
  intros h a i v a' l'. unfold hset. destruct (nth_error h a) as [l|] eqn:E; [|eauto].
  rewrite nth_upd. destruct (Nat.eqb_spec a a') as [<-|D]; [|eauto]. rewrite E. intros H. injection H as <-.
  exists l. split; auto. apply upd_length.
Qed.
Lemma nth_hset : forall (h : heap) a i v a' l, nth_error h a' = Some l ->
  exists l', nth_error (hset h a i v) a' = Some l' /\ length l' = length l.
Proof.
  intros h a i v a' l E. unfold hset. destruct (nth_error h a) as [k|] eqn:K; [|eauto].
  rewrite nth_upd. destruct (Nat.eqb_spec a a') as [<-|D]; [|eauto]. rewrite E. eexists. split; [reflexivity|].
  rewrite upd_length. congruence.
Qed.
Lemma hset_length : forall (h : heap) a i v, length (hset h a i v) = length h.
Proof. intros h a i v. unfold hset. destruct (nth_error h a); auto. apply upd_length. Qed.
Lemma nonempty_length : forall (l l' : list T), length l = length l' -> l <> [] -> l' <> [].
Proof. intros [|x l] [|x' l']; cbn; congruence. Qed.

(** A heap with allocations of the same sizes. *)
Definition alike (h h' : heap) : Prop :=
  length h' = length h /\ forall a l, nth_error h a = Some l -> exists l', nth_error h' a = Some l' /\ length l' = length l.
Lemma alike_back : forall h h', alike h h' -> alike h' h.
Proof.
  intros h h' [L H]. split; auto. intros a l' E.
  destruct (nth_error h a) as [l|] eqn:F.
  - destruct (H a l F) as (l2 & E2 & E3). exists l. split; auto. congruence.
  - apply nth_error_None in F. assert (nth_error h' a <> None) by congruence. apply nth_error_Some in H0. lia.
Qed.
Lemma alike_hset : forall h a i v, alike h (hset h a i v).
Proof. intros h a i v. split; [apply hset_length|]. intros b l E. now apply nth_hset. Qed.

(** The items and blocks are all that matters. *)
Lemma rep_alike : forall rho h h' Y M, rep rho h Y -> alike h h' ->
  (forall a i v, hget h' a i = Some v -> load M (address (mkPlace (rho a) i)) = v) ->
  (forall x, outside Y x -> M x = before x) ->
  rep rho h' (mkBytes M (y_blocks Y) (y_log Y)).
Proof.
  intros rho h h' Y M H S HI HF. pose proof (alike_back _ _ S) as S'. constructor; cbn [y_mem y_blocks y_log].
  - exact HI.
  - intros b. rewrite (rep_blocks _ _ _ H b). split.
    + intros (a & l & E & Hl & ->). destruct (proj2 S a l E) as (l' & E' & L). exists a, l'. rewrite L. repeat split; auto.
      now apply (nonempty_length l l').
    + intros (a & l & E & Hl & ->). destruct (proj2 S' a l E) as (l' & E' & L). exists a, l'. rewrite L. repeat split; auto.
      now apply (nonempty_length l l').
  - intros a a' l l' E E' Hl Hl' D. destruct (proj2 S' a l E) as (k & F & L). destruct (proj2 S' a' l' E') as (k' & F' & L').
    rewrite <- L, <- L'. apply (rep_apart _ _ _ H); auto; [now apply (nonempty_length l)|now apply (nonempty_length l')].
  - apply H.
  - intros j. rewrite (proj1 S). apply H.
  - exact HF.
Qed.

(** An item is in a block. *)
Lemma item_inside : forall rho h Y a i v x, rep rho h Y -> hget h a i = Some v -> outside Y x ->
  ~ (address (mkPlace (rho a) i) <= x < address (mkPlace (rho a) i) + item_size).
Proof.
  intros rho h Y a i v x H E O. apply hget_inv in E. destruct E as (l & E & Hl & _ & Li).
  assert (I : In (rho a, N.of_nat (length l)) (y_blocks Y)) by (apply (rep_blocks _ _ _ H); exists a, l; auto).
  specialize (O _ I). unfold in_block in O. cbn [fst snd] in O. unfold address. cbn [pl_alloc pl_index]. nia.
Qed.

Lemma rep_store : forall rho h Y p v h', rep rho h Y -> place_write h p v = Ok h' ->
  rep rho h' (mkBytes (store (y_mem Y) (address (mplace rho p)) v) (y_blocks Y) (y_log Y)).
Proof.
  intros rho h Y p v h' H E. unfold place_write in E. destruct (hget h (pl_alloc p) (pl_index p)) as [w|] eqn:W; [|discriminate].
  injection E as <-. apply (rep_alike rho h); auto using alike_hset; [intros a i x Hx|].
  2: { intros x Hx. rewrite store_out; [now apply (rep_frame _ _ _ H)|]. unfold mplace. eapply item_inside; eauto. }
  destruct (Nat.eq_dec a (pl_alloc p)) as [Ea|Ea]; [destruct (N.eq_dec i (pl_index p)) as [Ei|Ei]|].
  - subst a i. rewrite (hget_hset_same _ _ _ _ _ W) in Hx. injection Hx as <-. apply load_store.
  - rewrite hget_hset_other in Hx by congruence. rewrite load_store_out; [now apply (rep_items _ _ _ H)|].
    unfold mplace. destruct p as [pa pi]. cbn [pl_alloc pl_index] in *. eapply (items_apart rho h Y a i x pa pi w); eauto. congruence.
  - rewrite hget_hset_other in Hx by congruence. rewrite load_store_out; [now apply (rep_items _ _ _ H)|].
    unfold mplace. destruct p as [pa pi]. cbn [pl_alloc pl_index] in *. eapply (items_apart rho h Y a i x pa pi w); eauto. congruence.
Qed.

Lemma rep_take : forall rho h Y l, rep rho h Y ->
  let b := (choose (y_count Y), N.of_nat (length l)) in
  grants Y b = true -> rep rho (h ++ [l]) (take encode Y b l).
Proof.
  intros rho h Y l H b G. subst b. unfold take, grants in *. cbn [fst snd] in *.
  assert (R0 : rho (length h) = choose (y_count Y)).
  { rewrite <- (Nat.add_0_r (y_count Y)). rewrite <- (rep_next _ _ _ H). f_equal. lia. }
  assert (NE : l <> [] -> N.of_nat (length l) =? 0 = false) by (destruct l; [congruence|intros _; cbn [length]; lia]).
  assert (AP : l <> [] -> forall a k, nth_error h a = Some k -> k <> [] ->
     blocks_apart (rho (length h), N.of_nat (length l)) (rho a, N.of_nat (length k)) = true).
  { intros Hl a k E Hk. rewrite (NE Hl) in G. cbn [orb] in G. apply Bool.andb_true_iff in G. destruct G as [_ G].
    rewrite forallb_forall in G. rewrite R0. apply G. apply (rep_blocks _ _ _ H). eauto. }
  assert (NTH : forall a k, nth_error (h ++ [l]) a = Some k -> nth_error h a = Some k \/ a = length h /\ k = l).
  { intros a k E. destruct (Nat.ltb_spec a (length h)) as [L|L].
    - rewrite nth_error_app1 in E by auto. auto.
    - rewrite nth_error_app2 in E by auto. destruct (a - length h)%nat as [|n] eqn:Z; cbn in E; [|destruct n; discriminate].
      injection E as <-. right. split; auto. lia. }
  constructor; cbn [y_mem y_blocks y_log].
  - intros a i v E. apply hget_inv in E. destruct E as (k & E & Hk & Ei & Li). apply NTH in E. destruct E as [E|[-> ->]].
    + rewrite <- (rep_items _ _ _ H a i v) by (unfold hget; now rewrite E).
      apply load_ext. intros x Hx. apply store_all_out. unfold address in Hx. cbn [pl_alloc pl_index] in Hx.
      destruct l as [|v0 l0] eqn:El; [cbn [length]; lia|]. rewrite <- El in *.
      assert (Hl : l <> []) by congruence. specialize (AP Hl a k E Hk). unfold blocks_apart in AP. cbn [fst snd] in AP.
      rewrite Bool.orb_true_iff, !N.leb_le in AP. rewrite R0 in AP. pose proof size_pos. nia.
    + rewrite R0. unfold address. cbn [pl_alloc pl_index]. replace i with (N.of_nat (N.to_nat i)) by lia.
      now apply load_store_all.
  - intros x. destruct (l) as [|v0 l0] eqn:El.
    + cbn [length N.of_nat N.eqb]. rewrite (rep_blocks _ _ _ H x). split.
      * intros (a & k & E & Hk & ->). exists a, k. split; [|auto]. rewrite nth_error_app1; auto. apply nth_error_Some. congruence.
      * intros (a & k & E & Hk & ->). apply NTH in E. destruct E as [E|[-> ->]]; [eauto|congruence].
    + rewrite <- El in *. assert (Hl : l <> []) by congruence. rewrite (NE Hl). cbn [In]. rewrite (rep_blocks _ _ _ H x). split.
      * intros [<-|(a & k & E & Hk & ->)].
        -- exists (length h), l. rewrite R0. split; [|split; [exact Hl|now rewrite El]]. rewrite nth_error_app2 by lia. now rewrite Nat.sub_diag.
        -- exists a, k. split; [|auto]. rewrite nth_error_app1; auto. apply nth_error_Some. congruence.
      * intros (a & k & E & Hk & ->). apply NTH in E. destruct E as [E|[-> ->]]; [right; exists a, k; auto|left; rewrite R0; now rewrite El].
  - intros a a' k k' E E' Hk Hk' D. apply NTH in E. apply NTH in E'. destruct E as [E|[-> ->]], E' as [E'|[-> ->]].
    + now apply (rep_apart _ _ _ H).
    + specialize (AP Hk' a k E Hk). unfold blocks_apart in *. now rewrite Bool.orb_comm.
    + now apply AP.
    + congruence.
  - destruct (N.of_nat (length l) =? 0) eqn:Z; [apply H|]. constructor; [|apply H]. intros I.
    apply (rep_blocks _ _ _ H) in I. destruct I as (a & k & E & Hk & Eb). injection Eb as E1 E2. apply Nat2N.inj in E2.
    assert (Hl : l <> []) by (intros ->; discriminate Z). specialize (AP Hl a k E Hk). unfold blocks_apart in AP. cbn [fst snd] in AP.
    rewrite Bool.orb_true_iff, !N.leb_le in AP. rewrite R0, <- E1, <- E2 in AP. pose proof size_pos. destruct l; [congruence|]. cbn [length] in *. nia.
  - intros j. rewrite app_length. cbn [length]. replace (length h + 1 + j)%nat with (length h + S j)%nat by lia.
    rewrite (rep_next _ _ _ H). f_equal. unfold y_count. cbn [y_log length]. lia.
  - intros x O. unfold outside in O. cbn [y_blocks] in O. destruct l as [|v0 l0]; [cbn [Flat.store_all]; now apply (rep_frame _ _ _ H)|].
    rewrite (NE ltac:(congruence)) in O. rewrite store_all_out.
    + apply (rep_frame _ _ _ H). intros b I. apply O. now right.
    + intros X. apply (O _ (or_introl eq_refl)). unfold in_block. cbn [fst snd]. lia.
Qed.

(** ** Programs *)

Fixpoint full {A : Type} (c : prog T A) (h : heap) : outcome A * heap :=
  match c with
  | Stop o => (o, h)
  | Load p k => match place_read h p with Ok v => full (k v) h | _ => (UB, h) end
  | Store p v k => match place_write h p v with Ok h' => full k h' | _ => (UB, h) end
  | Alloc l k => let '(h', r) := alloc h l in full (k r) h'
  end.

Lemma full_complete : forall A (c : prog T A) h, complete c h =
  match full c h with (Ok a, h') => Ok (h', a) | (Panic, _) => Panic | (UB, _) => UB end.
Proof.
  intros A c. induction c as [[a| |]|p k IH|p v k IH|l k IH]; intros h; cbn [full complete bind]; auto.
  - unfold place_read. destruct (hget h _ _); cbn [bind]; auto.
  - unfold place_write. destruct (hget h _ _); cbn [bind]; auto.
  - unfold alloc. apply IH.
Qed.

Lemma full_bind : forall A C (c : prog T A) (f : A -> prog T C) h, full (pbind c f) h =
  match full c h with (Ok a, h') => full (f a) h' | (Panic, h') => (Panic, h') | (UB, h') => (UB, h') end.
Proof.
  intros A C c f. induction c as [[a| |]|p k IH|p v k IH|l k IH]; intros h; cbn [full pbind]; auto.
  - destruct (place_read h p); auto.
  - destruct (place_write h p v); auto.
  - apply IH.
Qed.

Lemma perform_bind : forall A C (c : prog T A) (f : A -> prog T C) Y, perform (pbind c f) Y =
  match perform c Y with
  | None => None
  | Some (Ok a, Y') => perform (f a) Y' | Some (Panic, Y') => Some (Panic, Y') | Some (UB, Y') => Some (UB, Y')
  end.
Proof.
  intros A C c f. induction c as [[a| |]|p k IH|p v k IH|l k IH]; intros Y; cbn [Flat.perform pbind]; auto.
  destruct (grants _ _); auto.
Qed.

(** Allocations keep their sizes. *)
Notation visits := (visits encode decode choose).
Lemma visits_bind : forall A C (c : prog T A) (f : A -> prog T C) Y, visits (pbind c f) Y =
  visits c Y ++ match perform c Y with Some (Ok a, Y') => visits (f a) Y' | _ => [] end.
Proof.
  intros A C c f. induction c as [[a| |]|p k IH|p v k IH|l k IH]; intros Y; cbn [Flat.perform Flat.visits pbind app]; auto.
  - now rewrite IH.
  - now rewrite IH.
  - destruct (grants Y _); auto.
Qed.
Definition sound {A : Type} (c : prog T A) (Y : bytes B) : Prop := forall a bs, In (a, bs) (visits c Y) -> item_of bs a.
Lemma sound_bind : forall A C (c : prog T A) (f : A -> prog T C) Y, sound c Y ->
  (forall a Y', perform c Y = Some (Ok a, Y') -> sound (f a) Y') -> sound (pbind c f) Y.
Proof.
  intros A C c f Y H F a bs I. rewrite visits_bind in I. apply in_app_or in I. destruct I as [I|I]; [now apply H|].
  destruct (perform c Y) as [[[x| |] Y']|]; try contradiction. now apply (F x Y').
Qed.
Lemma rep_item : forall rho h Y p v, rep rho h Y -> hget h (pl_alloc p) (pl_index p) = Some v ->
  item_of (y_blocks Y) (address (mplace rho p)).
Proof.
  intros rho h Y p v H E. apply hget_inv in E. destruct E as (l & E & Hl & _ & Li).
  exists (rho (pl_alloc p), N.of_nat (length l)), (pl_index p). split; [|split; [exact Li|reflexivity]].
  apply (rep_blocks _ _ _ H). eauto.
Qed.

Definition grown (h h' : heap) : Prop :=
  (length h <= length h')%nat /\ forall a l, nth_error h a = Some l -> exists l', nth_error h' a = Some l' /\ length l' = length l.
Lemma grown_trans : forall h1 h2 h3, grown h1 h2 -> grown h2 h3 -> grown h1 h3.
Proof.
  intros h1 h2 h3 [L1 H1] [L2 H2]. split; [lia|]. intros a l E. destruct (H1 a l E) as (l2 & E2 & F2).
  destruct (H2 a l2 E2) as (l3 & E3 & F3). exists l3. split; auto. congruence.
Qed.
Lemma full_grown : forall A (c : prog T A) h o h', full c h = (o, h') -> grown h h'.
Proof.
  intros A c. induction c as [o|p k IH|p v k IH|l k IH]; intros h o' h' E; cbn [full] in E.
  - injection E as _ <-. split; eauto.
  - destruct (place_read h p); [eauto| |]; injection E as _ <-; split; eauto.
  - destruct (place_write h p v) as [h1| |] eqn:W; [|injection E as _ <-; split; eauto..].
    eapply grown_trans; [|eauto]. unfold place_write in W. destruct (hget h _ _); [|discriminate]. injection W as <-.
    split; [rewrite hset_length; lia|]. intros a l0 E0. now apply nth_hset.
  - unfold alloc in E. eapply grown_trans; [|eauto]. split; [rewrite app_length; cbn; lia|].
    intros a l0 E0. exists l0. split; auto. rewrite nth_error_app1; auto. apply nth_error_Some. congruence.
Qed.


(** ** Simulation *)

Section Sim.
Variable rho : nat -> nat.     (* names to addresses *)
Variable sigma : nat -> N.     (* names to sizes *)

Definition sized (h h' : heap) : Prop :=
  forall a l, (length h <= a)%nat -> nth_error h' a = Some l -> sigma a = N.of_nat (length l).

(** What the first program does on the heap, the second does on the bytes. *)
Definition sem {A A' : Type} (R : A -> A' -> Prop) (c : prog T A) (c' : prog T A') : Prop :=
  forall h Y o h', rep rho h Y -> full c h = (o, h') -> o <> UB -> sized h h' ->
    sound c' Y /\
    (perform c' Y = None \/
     exists o' Y', perform c' Y = Some (o', Y') /\ orel R o o' /\ rep rho h' Y').

Lemma sem_stop : forall A A' (R : A -> A' -> Prop) o o', orel R o o' -> sem R (Stop o) (Stop o').
Proof.
  intros A A' R o o' H h Y o1 h' Hr E _ _. cbn [full] in E. injection E as <- <-. split; [intros a bs []|]. right. exists o', Y. auto.
Qed.

Lemma sem_bind : forall A A' C C' (R : A -> A' -> Prop) (Q : C -> C' -> Prop) c c' f f',
  sem R c c' -> (forall a a', R a a' -> sem Q (f a) (f' a')) -> sem Q (pbind c f) (pbind c' f').
Proof.
  intros A A' C C' R Q c c' f f' H F h Y o h' Hr E Ho Hs. rewrite full_bind in E. rewrite perform_bind.
  destruct (full c h) as [oc h1] eqn:Ec. assert (Oc : oc <> UB) by (intros ->; injection E as <- _; congruence).
  assert (G1 : grown h h1) by (eapply full_grown; eauto).
  assert (G2 : grown h1 h'). { destruct oc as [a| |]; [eapply full_grown; eauto| |]; injection E as _ <-; split; eauto. }
  assert (S1 : sized h h1).
  { intros a l La El. destruct (proj2 G2 a l El) as (l' & El' & Ll). rewrite <- Ll. now apply (Hs a l'). }
  destruct (H h Y oc h1 Hr Ec Oc S1) as [SO [N|(o' & Y' & P & R' & Hr')]].
  { split; [|left; now rewrite N]. apply sound_bind; auto. rewrite N. discriminate. }
  rewrite P. destruct oc as [a| |], o' as [a'| |]; cbn [orel] in R'; try contradiction.
  - destruct (F a a' R' h1 Y' o h' Hr' E Ho) as [SO' X]. { intros b l Lb El. apply Hs; auto. destruct G1. lia. }
    split; auto. apply sound_bind; auto. intros a2 Y2 E2. rewrite P in E2. injection E2 as <- <-. exact SO'.
  - injection E as <- <-. split; [|right; exists Panic, Y'; auto]. apply sound_bind; auto. rewrite P. discriminate.
Qed.

Lemma sem_load : forall A A' (R : A -> A' -> Prop) p p' k k', p' = mplace rho p ->
  (forall v, sem R (k v) (k' v)) -> sem R (Load p k) (Load p' k').
Proof.
  intros A A' R p p' k k' -> H h Y o h' Hr E Ho Hs. cbn [full Flat.perform] in *. unfold place_read in E.
  destruct (hget h (pl_alloc p) (pl_index p)) as [v|] eqn:G; [|injection E as <- _; congruence].
  pose proof (rep_item _ _ _ _ _ Hr G) as IT. unfold sound. cbn [Flat.visits].
  replace (load (y_mem Y) (address (mplace rho p))) with v by (symmetry; apply (rep_items _ _ _ Hr _ _ _ G)).
  destruct (H v h Y o h') as [SO X]; auto. split; auto. intros a bs [I|I]; [injection I as <- <-; exact IT|now apply SO].
Qed.

Lemma sem_store : forall A A' (R : A -> A' -> Prop) p p' v k k', p' = mplace rho p -> sem R k k' ->
  sem R (Store p v k) (Store p' v k').
Proof.
  intros A A' R p p' v k k' -> H h Y o h' Hr E Ho Hs. cbn [full Flat.perform] in *.
  destruct (place_write h p v) as [h1| |] eqn:W; [|injection E as <- _; congruence..].
  assert (IT : item_of (y_blocks Y) (address (mplace rho p))).
  { unfold place_write in W. destruct (hget h _ _) as [w|] eqn:G; [|discriminate]. now apply (rep_item _ h Y p w). }
  unfold sound. cbn [Flat.visits].
  destruct (H h1 (mkBytes (store (y_mem Y) (address (mplace rho p)) v) (y_blocks Y) (y_log Y)) o h') as [SO X]; auto.
  - now apply (rep_store rho h).
  - intros a l La El. apply Hs; auto. unfold place_write in W. destruct (hget h _ _); [|discriminate]. injection W as <-.
    now rewrite hset_length in La.
  - split; auto. intros a bs [I|I]; [injection I as <- <-; exact IT|now apply SO].
Qed.

Lemma sem_alloc : forall A A' (R : A -> A' -> Prop) l k k',
  (forall a, sigma a = N.of_nat (length l) ->
     sem R (k (mkRegion a 0 (N.of_nat (length l)))) (k' (mkRegion (rho a) 0 (N.of_nat (length l))))) ->
  sem R (Alloc l k) (Alloc l k').
Proof.
  intros A A' R l k k' H h Y o h' Hr E Ho Hs. cbn [full Flat.perform] in *. unfold alloc in E.
  unfold sound. cbn [Flat.visits].
  destruct (grants Y (choose (y_count Y), N.of_nat (length l))) eqn:G; [|split; [intros a bs []|now left]]. cbn [fst snd].
  assert (R0 : choose (y_count Y) = rho (length h)).
  { rewrite <- (Nat.add_0_r (y_count Y)). rewrite <- (rep_next _ _ _ Hr). f_equal. lia. }
  pose proof (rep_take rho h Y l Hr G) as Hr'. cbv zeta in Hr'. rewrite R0 in *.
  apply (H (length h)) with (h := h ++ [l]) (o := o) (h' := h'); auto.
  - assert (Gr : grown (h ++ [l]) h') by (eapply full_grown; eauto).
    destruct (proj2 Gr (length h) l) as (l' & E' & L').
    { rewrite nth_error_app2 by lia. now rewrite Nat.sub_diag. }
    rewrite <- L'. now apply Hs.
  - intros a l0 La. rewrite app_length in La. cbn in La. apply Hs. lia.
Qed.

Lemma sem_weaken : forall A A' (R Q : A -> A' -> Prop) c c', sem R c c' -> (forall a a', R a a' -> Q a a') -> sem Q c c'.
Proof.
  intros A A' R Q c c' H HQ h Y o h' Hr E Ho Hs. destruct (H h Y o h' Hr E Ho Hs) as [SO [N|(o' & Y' & P & R' & Hr')]]; (split; [exact SO|]); [now left|].
  right. exists o', Y'. split; [exact P|]. split; [|exact Hr']. destruct o, o'; cbn in *; auto.
Qed.

(** Results of functions without access to the memory. *)
Lemma sem_pure : forall A A' C C' (R : A -> A' -> Prop) (Q : C -> C' -> Prop) o o' f f',
  orel R o o' -> (forall a a', R a a' -> sem Q (f a) (f' a')) -> sem Q (pbind (Stop o) f) (pbind (Stop o') f').
Proof. intros. eapply sem_bind; [apply sem_stop; eassumption|assumption]. Qed.
Lemma sem_same : forall A C C' (Q : C -> C' -> Prop) (o : outcome A) f f',
  (forall a, sem Q (f a) (f' a)) -> sem Q (pbind (Stop o) f) (pbind (Stop o) f').
Proof. intros. apply (sem_pure _ _ _ _ eq); [now apply orel_eq|]. intros a a' <-. auto. Qed.
Lemma sem_ok : forall A A' (R : A -> A' -> Prop) a a', R a a' -> sem R (Stop (Ok a)) (Stop (Ok a')).
Proof. intros. now apply sem_stop. Qed.

(** ** The methods *)

Definition known (r : region) : Prop := r_len r = sigma (r_alloc r).
Definition crel (c c' : container) : Prop :=
  c' = mkContainer (c_kind c) (move_region rho (c_region c)) /\
  match c_kind c with VectorContainer | ArrayContainer => known (c_region c) | _ => True end.
Definition brel (b b' : base_matrix) : Prop :=
  b' = move_base rho b /\ crel (bm_data b) (bm_data b').
Definition owns_known (x : matrix T) : Prop := forall b, In b (owned_blocks x) -> snd b = sigma (fst b).
Definition mrel (x x' : matrix T) : Prop := x' = move_matrix rho x /\ owns_known x.
Definition prel (p p' : place) : Prop := p' = mplace rho p.
Definition rrel (r r' : region) : Prop := r' = move_region rho r.

Lemma brel_mrel : forall b b', brel b b' -> mrel (MBase b) (MBase b').
Proof.
  intros b b' [-> [_ H]]. split; auto. intros k. cbn [owned_blocks]. destruct (c_kind (bm_data b)); cbn [In]; try tauto;
    intros [<-|[]]; exact H.
Qed.
Lemma mrel_brel : forall b x', mrel (MBase b) x' -> exists b', x' = MBase b' /\ brel b b'.
Proof.
  intros b x' [-> H]. exists (move_base rho b). split; auto. split; auto. split; auto.
  unfold owns_known in H. cbn [owned_blocks] in H. destruct (c_kind (bm_data b)); auto; apply (H _ (or_introl eq_refl)).
Qed.

Lemma sem_region_read : forall r i, sem eq (p_region_read r i) (p_region_read (move_region rho r) i).
Proof.
  intros r i. unfold p_region_read. cbn [move_region r_len r_alloc r_lo]. destruct (i <? r_len r).
  - apply sem_load; [reflexivity|]. intros v. now apply sem_ok.
  - now apply sem_stop.
Qed.

Lemma sem_base_get : forall m b r c, sem eq (p_base_get_unchecked m b r c) (p_base_get_unchecked m (move_base rho b) r c).
Proof. intros m b r c. unfold p_base_get_unchecked. cbn [move_base bm_layout bm_data c_region]. apply sem_same. intros i. apply sem_region_read. Qed.
Lemma sem_base_get1d : forall m b i, sem eq (p_base_get1d_unchecked m b i) (p_base_get1d_unchecked m (move_base rho b) i).
Proof. intros m b i. unfold p_base_get1d_unchecked. cbn [move_base bm_layout bm_data c_region]. apply sem_same. intros k. apply sem_region_read. Qed.

Lemma move_layout : forall x : matrix T, mat_layout (move_matrix rho x) = mat_layout x.
Proof. induction x; cbn [move_matrix mat_layout]; auto. Qed.
Lemma move_size : forall x : matrix T, mat_size (move_matrix rho x) = mat_size x.
Proof. induction x; cbn [move_matrix mat_size]; auto. Qed.
Lemma move_writable : forall x : matrix T, is_writable (move_matrix rho x) = is_writable x.
Proof. induction x; cbn [move_matrix is_writable]; auto. Qed.

Lemma sem_get_unchecked : forall m x r c, sem eq (p_get_unchecked m x r c) (p_get_unchecked m (move_matrix rho x) r c).
Proof.
  intros m x r c. induction x; cbn [move_matrix p_get_unchecked]; auto using sem_base_get.
  - apply (sem_bind _ _ _ _ eq); auto. intros v v' <-. now apply sem_ok.
  - apply (sem_bind _ _ _ _ eq); auto. intros v v' <-. apply (sem_bind _ _ _ _ eq); auto. intros w w' <-. now apply sem_ok.
Qed.
Lemma sem_get1d_unchecked : forall m x i, sem eq (p_get1d_unchecked m x i) (p_get1d_unchecked m (move_matrix rho x) i).
Proof.
  intros m x i. induction x; cbn [move_matrix p_get1d_unchecked]; auto using sem_base_get1d.
  - apply (sem_bind _ _ _ _ eq); auto. intros v v' <-. now apply sem_ok.
  - apply (sem_bind _ _ _ _ eq); auto. intros v v' <-. apply (sem_bind _ _ _ _ eq); auto. intros w w' <-. now apply sem_ok.
Qed.
Lemma sem_get : forall m x r c, sem eq (p_get m x r c) (p_get m (move_matrix rho x) r c).
Proof. intros m x r c. unfold p_get. rewrite move_layout. apply sem_same. intros _. apply sem_get_unchecked. Qed.
Lemma sem_get1d : forall m x i, sem eq (p_get1d m x i) (p_get1d m (move_matrix rho x) i).
Proof. intros m x i. unfold p_get1d. rewrite move_layout. apply sem_same. intros n. apply sem_same. intros _. apply sem_get1d_unchecked. Qed.

Lemma place_rel : forall r i, orel prel (region_place r i) (region_place (move_region rho r) i).
Proof. intros r i. unfold region_place. cbn [move_region r_len]. destruct (i <? r_len r); cbn [orel]; auto. reflexivity. Qed.
Lemma base_mut_rel : forall m b r c, orel prel (base_get_unchecked_mut m b r c) (base_get_unchecked_mut m (move_base rho b) r c).
Proof. intros m b r c. unfold base_get_unchecked_mut. cbn [move_base bm_layout bm_data]. apply orel_same. intros i _. apply place_rel. Qed.
Lemma base_mut1d_rel : forall m b i, orel prel (base_get1d_unchecked_mut m b i) (base_get1d_unchecked_mut m (move_base rho b) i).
Proof. intros m b i. unfold base_get1d_unchecked_mut. cbn [move_base bm_layout bm_data]. apply orel_same. intros k _. apply place_rel. Qed.
Lemma unchecked_mut_rel : forall m (x : matrix T) r c, orel prel (get_unchecked_mut m x r c) (get_unchecked_mut m (move_matrix rho x) r c).
Proof.
  intros m x r c. induction x; cbn [move_matrix get_unchecked_mut]; auto; try exact I.
  cbn [move_base bm_data container_is_mut c_kind]. change (container_is_mut (mkContainer (c_kind (bm_data b)) (move_region rho (c_region (bm_data b))))) with (container_is_mut (bm_data b)).
  destruct (container_is_mut (bm_data b)); [apply base_mut_rel|exact I].
Qed.
Lemma unchecked_mut1d_rel : forall m (x : matrix T) i, orel prel (get1d_unchecked_mut m x i) (get1d_unchecked_mut m (move_matrix rho x) i).
Proof.
  intros m x i. induction x; cbn [move_matrix get1d_unchecked_mut]; auto; try exact I.
  cbn [move_base bm_data]. change (container_is_mut (mkContainer (c_kind (bm_data b)) (move_region rho (c_region (bm_data b))))) with (container_is_mut (bm_data b)).
  destruct (container_is_mut (bm_data b)); [apply base_mut1d_rel|exact I].
Qed.
Lemma get_mut_rel : forall m (x : matrix T) r c, orel prel (get_mut m x r c) (get_mut m (move_matrix rho x) r c).
Proof. intros m x r c. unfold get_mut. rewrite move_layout. apply orel_same. intros ? _. apply unchecked_mut_rel. Qed.
Lemma get1d_mut_rel : forall m (x : matrix T) i, orel prel (get1d_mut m x i) (get1d_mut m (move_matrix rho x) i).
Proof. intros m x i. unfold get1d_mut. rewrite move_layout. apply orel_same. intros n _. apply orel_same. intros ? _. apply unchecked_mut1d_rel. Qed.

Lemma sem_write : forall p p' v, prel p p' -> sem eq (p_write p v) (p_write p' v).
Proof. intros p p' v ->. unfold p_write. apply sem_store; [reflexivity|]. now apply sem_ok. Qed.
Lemma sem_set : forall (o o' : outcome place) v, orel prel o o' ->
  sem eq (pbind (Stop o) (fun p => p_write p v)) (pbind (Stop o') (fun p => p_write p v)).
Proof. intros o o' v H. apply (sem_pure _ _ _ _ prel); auto. intros p p' Hp. now apply sem_write. Qed.

(** Constructors. *)
Lemma sem_vector : forall n, sem crel (p_vector_container_new n) (p_vector_container_new n).
Proof.
  intros n. unfold p_vector_container_new. destruct (_ <=? isize_max); [|now apply sem_stop].
  apply sem_alloc. intros a Ha. apply sem_ok. split; [reflexivity|]. cbn [c_kind c_region]. unfold known. now cbn [r_len r_alloc].
Qed.
Lemma sem_array : forall n, sem crel (p_array_container_new n) (p_array_container_new n).
Proof.
  intros n. unfold p_array_container_new. apply sem_alloc. intros a Ha. apply sem_ok. split; [reflexivity|].
  cbn [c_kind c_region]. unfold known. now cbn [r_len r_alloc].
Qed.
Lemma from_data_rel : forall m rs cs c c' l, crel c c' -> orel brel (from_data m rs cs c l) (from_data m rs cs c' l).
Proof.
  intros m rs cs c c' l H. unfold from_data. apply orel_same. intros n _.
  replace (container_number_of_elements c') with (container_number_of_elements c) by (destruct H as [-> _]; reflexivity).
  apply orel_same. intros ? _. cbn [orel]. destruct H as [-> H]. split; [reflexivity|]. split; auto.
Qed.
Lemma sem_from_data : forall m rs cs c c' l, crel c c' -> sem brel (Stop (from_data m rs cs c l)) (Stop (from_data m rs cs c' l)).
Proof. intros. now apply sem_stop, from_data_rel. Qed.
Lemma sem_zeros : forall m k r c, sem brel (p_zeros_from_dim m k r c) (p_zeros_from_dim m k r c).
Proof.
  intros m k r c. unfold p_zeros_from_dim. apply sem_same. intros l. apply sem_same. intros n.
  apply (sem_bind _ _ _ _ crel); [apply sem_vector|]. intros x x' H. apply sem_same. intros l'. now apply sem_from_data.
Qed.
Lemma sem_zeros_fixed : forall m k rs cs, sem brel (p_zeros_fixed m k rs cs) (p_zeros_fixed m k rs cs).
Proof.
  intros m k rs cs. unfold p_zeros_fixed.
  apply (sem_bind _ _ _ _ crel); [apply sem_array|]. intros x x' H. apply sem_same. intros l'. now apply sem_from_data.
Qed.
Lemma sem_zeros_fixed_vector : forall m rs cs k n, sem brel (p_zeros_fixed_vector m rs cs k n) (p_zeros_fixed_vector m rs cs k n).
Proof.
  intros m rs cs k n. unfold p_zeros_fixed_vector.
  apply (sem_bind _ _ _ _ crel); [apply sem_array|]. intros x x' H. apply sem_stop. destruct (from_length k n); [|exact I]. now apply from_data_rel.
Qed.
Lemma sem_row : forall m n, sem brel (p_row_zeros m n) (p_row_zeros m n).
Proof. intros m n. unfold p_row_zeros. apply (sem_bind _ _ _ _ crel); [apply sem_vector|]. intros x x' H. now apply sem_from_data. Qed.
Lemma sem_row_dim : forall m r c, sem brel (p_row_zeros_dim m r c) (p_row_zeros_dim m r c).
Proof. intros m r c. unfold p_row_zeros_dim. apply sem_same. intros _. apply sem_row. Qed.
Lemma sem_column : forall m n, sem brel (p_column_zeros m n) (p_column_zeros m n).
Proof. intros m n. unfold p_column_zeros. apply (sem_bind _ _ _ _ crel); [apply sem_vector|]. intros x x' H. now apply sem_from_data. Qed.
Lemma sem_column_dim : forall m r c, sem brel (p_column_zeros_dim m r c) (p_column_zeros_dim m r c).
Proof. intros m r c. unfold p_column_zeros_dim. apply sem_same. intros _. apply sem_column. Qed.

(** Loops. *)
Lemma sem_loop : forall n i (f f' : N -> prog T unit), (forall k, sem eq (f k) (f' k)) -> sem eq (p_loop n i f) (p_loop n i f').
Proof.
  induction n as [|n IH]; intros i f f' H; cbn [p_loop]; [now apply sem_ok|].
  apply (sem_bind _ _ _ _ eq); auto.
Qed.
Lemma sem_eval : forall m x, sem brel (p_eval m x) (p_eval m (move_matrix rho x)).
Proof.
  intros m x. unfold p_eval. rewrite move_layout. cbv zeta. apply (sem_bind _ _ _ _ brel); [apply sem_zeros|].
  intros b b' Hb. apply sem_same. intros n. apply (sem_bind _ _ _ _ eq); [|intros _ _ _; now apply sem_ok].
  apply sem_loop. intros k. apply (sem_bind _ _ _ _ eq); [apply sem_get1d_unchecked|]. intros v v' <-.
  apply sem_set. destruct Hb as [-> _]. apply base_mut1d_rel.
Qed.
Lemma sem_for_each_loop : forall (S : Type) m b (f : closure (T := T) S) n i s,
  sem eq (p_for_each_loop m b f n i s) (p_for_each_loop m (move_base rho b) f n i s).
Proof.
  intros S m b f n. induction n as [|n IH]; intros i s; cbn [p_for_each_loop]; [now apply sem_ok|].
  apply (sem_bind _ _ _ _ eq).
  - unfold p_call_closure. pose proof (base_mut1d_rel m b i) as H.
    destruct (base_get1d_unchecked_mut m b i) as [p| |], (base_get1d_unchecked_mut m (move_base rho b) i) as [p'| |]; cbn [orel] in H; try contradiction.
    + apply sem_load; [exact H|]. intros v. destruct (f s v) as [[s' v'] pn]. apply sem_store; [exact H|]. now apply sem_ok.
    + now apply sem_ok.
    + now apply sem_stop.
  - intros [s' pn] a' <-. destruct pn; [now apply sem_ok|apply IH].
Qed.
Lemma sem_for_each : forall (S : Type) m b (f : closure (T := T) S) s, sem eq (p_for_each m b f s) (p_for_each m (move_base rho b) f s).
Proof. intros S m b f s. unfold p_for_each. cbn [move_base bm_layout]. apply sem_same. intros n. apply sem_for_each_loop. Qed.

(** Slices and views. *)
Definition ptrel (p p' : pointer) : Prop := p' = mkPointer (move_region rho (p_region p)) (p_off p).
Lemma ptr_add_rel : forall p p' n, ptrel p p' -> orel ptrel (ptr_add p n) (ptr_add p' n).
Proof. intros p p' n ->. unfold ptr_add, ptr_offset. cbn [p_off p_region move_region r_len]. destruct (_ && _)%bool; cbn; auto. reflexivity. Qed.
Lemma ptr_offset_rel : forall p p' n, ptrel p p' -> orel ptrel (ptr_offset p n) (ptr_offset p' n).
Proof. intros p p' n ->. unfold ptr_offset. cbn [p_off p_region move_region r_len]. destruct (_ && _)%bool; cbn; auto. reflexivity. Qed.
Lemma raw_parts_rel : forall p p' n, ptrel p p' -> orel rrel (from_raw_parts p n) (from_raw_parts p' n).
Proof. intros p p' n ->. unfold from_raw_parts. cbn [p_off p_region move_region r_len r_lo r_alloc]. destruct (_ <=? _); cbn; auto. reflexivity. Qed.
Lemma get_pointer_rel : forall b, ptrel (get_pointer b) (get_pointer (move_base rho b)).
Proof. intros b. reflexivity. Qed.
Lemma slice_rel : forall b first last, orel rrel (get_slice b first last) (get_slice (move_base rho b) first last).
Proof.
  intros b first last. unfold get_slice, container_get_slice.
  change (container_number_of_elements (bm_data (move_base rho b))) with (container_number_of_elements (bm_data b)).
  do 2 (apply orel_same; intros ? _). apply (orel_bind _ _ _ _ ptrel).
  - apply (ptr_add_rel _ _ first (get_pointer_rel b)).
  - intros p p' Hp. now apply raw_parts_rel.
Qed.
Lemma slice_mut_rel : forall b first last, orel rrel (get_slice_mut b first last) (get_slice_mut (move_base rho b) first last).
Proof.
  intros b first last. unfold get_slice_mut, container_get_slice_mut.
  change (container_number_of_elements (bm_data (move_base rho b))) with (container_number_of_elements (bm_data b)).
  do 3 (apply orel_same; intros ? _). apply (orel_bind _ _ _ _ ptrel).
  - apply (ptr_add_rel _ _ first (get_pointer_rel b)).
  - intros p p' Hp. now apply raw_parts_rel.
Qed.
Lemma slice_container_rel : forall mut r r', rrel r r' -> crel (slice_container mut r) (slice_container mut r').
Proof. intros [] r r' ->; split; try reflexivity; exact I. Qed.
Lemma from_pointer_strided_rel : forall m mut o p p' d s, ptrel p p' -> orel brel (from_pointer_strided m mut o p d s) (from_pointer_strided m mut o p' d s).
Proof.
  intros m mut o p p' d s H. unfold from_pointer_strided. cbv zeta. do 4 (apply orel_same; intros ? _).
  apply (orel_bind _ _ _ _ rrel); [now apply raw_parts_rel|]. intros r r' Hr. now apply from_data_rel, slice_container_rel.
Qed.
Lemma from_pointer_rel : forall m mut o p p' d, ptrel p p' -> orel brel (from_pointer m mut o p d) (from_pointer m mut o p' d).
Proof.
  intros m mut o p p' d H. unfold from_pointer. apply orel_same; intros ? _.
  apply (orel_bind _ _ _ _ rrel); [now apply raw_parts_rel|]. intros r r' Hr. now apply from_data_rel, slice_container_rel.
Qed.
Lemma block_rel : forall m mut b tl d, orel brel (block m mut b tl d) (block m mut (move_base rho b) tl d).
Proof.
  intros m mut b tl d. unfold block. cbn [move_base bm_layout]. destruct (block_order (bm_layout b)); [|exact I].
  do 4 (apply orel_same; intros ? _). apply (orel_bind _ _ _ _ ptrel); [apply (ptr_add_rel _ _ _ (get_pointer_rel b))|].
  intros p p' Hp. apply orel_same. intros s _. now apply from_pointer_strided_rel.
Qed.
Definition four (x y : base_matrix * base_matrix * base_matrix * base_matrix) : Prop :=
  let '(b0, b1, b2, b3) := x in let '(c0, c1, c2, c3) := y in brel b0 c0 /\ brel b1 c1 /\ brel b2 c2 /\ brel b3 c3.
Lemma split_rel : forall m b at_, orel four (split_in_four_mut m b at_) (split_in_four_mut m (move_base rho b) at_).
Proof.
  intros m b at_. unfold split_in_four_mut. cbn [move_base bm_layout]. cbv zeta. do 9 (apply orel_same; intros ? _).
  assert (P : forall z d s (Q : base_matrix * base_matrix * base_matrix * base_matrix -> base_matrix * base_matrix * base_matrix * base_matrix -> Prop) k k',
     (forall c c', brel c c' -> orel Q (k c) (k' c')) ->
     orel Q (p <- ptr_offset (get_pointer b) z ;; c <- from_pointer_strided m true ByRow p d s ;; k c)
            (p <- ptr_offset (get_pointer (move_base rho b)) z ;; c <- from_pointer_strided m true ByRow p d s ;; k' c)).
  { intros z d s Q k k' Hk. apply (orel_bind _ _ _ _ ptrel); [apply (ptr_offset_rel _ _ _ (get_pointer_rel b))|]. intros p p' Hp.
    apply (orel_bind _ _ _ _ brel); [now apply from_pointer_strided_rel|]. exact Hk. }
  apply P. intros c0 c0' H0. apply P. intros c1 c1' H1. apply P. intros c2 c2' H2. apply P. intros c3 c3' H3. cbn. auto.
Qed.
Lemma sem_slice_read : forall (o o' : outcome region) i, orel rrel o o' ->
  sem eq (pbind (Stop o) (fun r => p_slice_read r i)) (pbind (Stop o') (fun r => p_slice_read r i)).
Proof.
  intros o o' i H. apply (sem_pure _ _ _ _ rrel); auto. intros r r' ->. unfold p_slice_read. cbn [move_region r_len].
  apply sem_same. intros _. apply sem_region_read.
Qed.
Lemma sem_slice_write : forall (o o' : outcome region) i v, orel rrel o o' ->
  sem eq (pbind (Stop o) (fun r => p_slice_write r i v)) (pbind (Stop o') (fun r => p_slice_write r i v)).
Proof.
  intros o o' i v H. apply (sem_pure _ _ _ _ rrel); auto. intros r r' ->. unfold p_slice_write. cbn [move_region r_len].
  apply sem_same. intros _. apply sem_set, place_rel.
Qed.

(** Expressions. *)
Lemma owns_ref : forall x, owns_known (MRef x).
Proof. intros x b []. Qed.
Lemma plus_rel : forall p q x y x' y', mrel x x' -> mrel y y' -> orel mrel (plus p q x y) (plus p q x' y').
Proof.
  intros p q x y x' y' [-> Hx] [-> Hy].
  assert (A : forall u v, owns_known u -> owns_known v -> orel mrel (addition_new u v) (addition_new (move_matrix rho u) (move_matrix rho v))).
  { intros u v Hu Hv. unfold addition_new. rewrite !move_layout. apply orel_same. intros ? _. cbn [orel]. split; [reflexivity|].
    intros b. cbn [owned_blocks]. rewrite in_app_iff. intros [I|I]; auto. }
  destruct p, q; cbn [plus]; first [apply (A x y)|apply (A x (MRef y))|apply (A (MRef x) y)|apply (A (MRef x) (MRef y))]; auto using owns_ref.
Qed.
Lemma scalar_times_rel : forall s p x x', mrel x x' -> mrel (scalar_times s p x) (scalar_times s p x').
Proof. intros s p x x' [-> H]. destruct p; split; try reflexivity; try exact H. intros b []. Qed.
Lemma times_scalar_rel : forall p x x' s, mrel x x' -> mrel (times_scalar p x s) (times_scalar p x' s).
Proof. intros p x x' s [-> H]. destruct p; split; try reflexivity; try exact H. intros b []. Qed.

(** ** Products *)

Definition cell (h : heap) (q : nat * N) : Prop := exists v, hget h (fst q) (snd q) = Some v.
Definition move_cell (q : nat * N) : nat * N := (rho (fst q), snd q).
Definition same_cells (h h' : heap) : Prop := forall q, cell h q <-> cell h' q.

Lemma cells_hset : forall h a i v, same_cells h (hset h a i v).
Proof.
  intros h a i v [b j]. unfold cell. cbn [fst snd]. destruct (hget h a i) as [w|] eqn:E.
  - destruct (Nat.eq_dec a b) as [<-|D]; [destruct (N.eq_dec i j) as [<-|D]|].
    + rewrite (hget_hset_same _ _ _ _ _ E). split; eauto.
    + rewrite hget_hset_other by congruence. tauto.
    + rewrite hget_hset_other by congruence. tauto.
  - destruct (Nat.eq_dec a b) as [<-|D]; [destruct (N.eq_dec i j) as [<-|D]|].
    + rewrite E. split; [intros [? F]; discriminate F|]. intros [w F]. exfalso. unfold hset in F. unfold hget in *.
      destruct (nth_error h a) as [l|] eqn:A; [|rewrite A in F; discriminate].
      rewrite nth_upd, Nat.eqb_refl, A in F. apply nth_error_None in E.
      assert (nth_error (upd l (N.to_nat i) v) (N.to_nat i) <> None) by congruence. apply nth_error_Some in H. rewrite upd_length in H. lia.
    + rewrite hget_hset_other by congruence. tauto.
    + rewrite hget_hset_other by congruence. tauto.
Qed.
Lemma same_trans : forall h1 h2 h3, same_cells h1 h2 -> same_cells h2 h3 -> same_cells h1 h3.
Proof. intros h1 h2 h3 H1 H2 q. rewrite (H1 q). apply H2. Qed.

(** The second heap has the items of the first one, at the names changed by [rho]. *)
Record shadow (h k : heap) : Prop := {
  sh_items : forall a i v, hget h a i = Some v -> hget k (rho a) i = Some v;
  sh_inj : forall q q', cell h q -> cell h q' -> move_cell q = move_cell q' -> q = q'
}.

Lemma shadow_hset : forall h k a i v, shadow h k -> cell h (a, i) -> shadow (hset h a i v) (hset k (rho a) i v).
Proof.
  intros h k a i v H [w Hw]. cbn [fst snd] in Hw. constructor.
  - intros b j x Hx. destruct (Nat.eq_dec a b) as [<-|D]; [destruct (N.eq_dec i j) as [<-|D]|].
    + rewrite (hget_hset_same _ _ _ _ _ Hw) in Hx. injection Hx as <-. apply hget_hset_same with (w := w). now apply (sh_items _ _ H).
    + rewrite hget_hset_other in Hx by congruence. rewrite hget_hset_other by congruence. now apply (sh_items _ _ H).
    + rewrite hget_hset_other in Hx by congruence. rewrite hget_hset_other; [now apply (sh_items _ _ H)|].
      intros E. assert (Q : (a, i) = (b, j)) by (apply (sh_inj _ _ H); [exists w; exact Hw|exists x; exact Hx|exact E]). congruence.
  - intros q q' Q Q'. apply (sh_inj _ _ H); now apply (cells_hset h a i v).
Qed.

Definition move_ptr (p : pointer) : pointer := mkPointer (move_region rho (p_region p)) (p_off p).
Definition move_args (g : gemm_args T) : gemm_args T :=
  mkArgs (ga_shape g) (ga_alpha g) (move_ptr (ga_a g)) (move_ptr (ga_b g)) (ga_beta g) (move_ptr (ga_c g)).

Definition at_offset (p : pointer) (d : Z) : nat * N :=
  (r_alloc (p_region p), r_lo (p_region p) + Z.to_N (Z.of_N (p_off p) + d)).
Lemma ptr_read_cell : forall h p d v, ptr_read h p d = Ok v -> cell h (at_offset p d) /\ (0 <= Z.of_N (p_off p) + d)%Z.
Proof.
  intros h p d v E. unfold ptr_read in E. cbv zeta in E. destruct (0 <=? _)%Z eqn:Z; [|discriminate]. unfold region_read in E.
  destruct (_ <? _); [|discriminate]. destruct (hget _ _ _) eqn:G; [|discriminate]. split; [|lia]. exists t. exact G.
Qed.
Lemma ptr_read_shadow : forall h k p d v, shadow h k -> ptr_read h p d = Ok v -> ptr_read k (move_ptr p) d = Ok v.
Proof.
  intros h k p d v H E. unfold ptr_read in *. cbn [move_ptr p_off p_region] in *. cbv zeta in *.
  destruct (0 <=? _)%Z; [|discriminate]. unfold region_read in *. cbn [move_region r_len r_alloc r_lo]. destruct (_ <? _); [|discriminate].
  destruct (hget h _ _) eqn:G; [|discriminate]. now rewrite (sh_items _ _ H _ _ _ G).
Qed.
Lemma ptr_write_shadow : forall h k p d v h', shadow h k -> ptr_write h p d v = Ok h' ->
  same_cells h h' /\ alike h h' /\ exists k', ptr_write k (move_ptr p) d v = Ok k' /\ shadow h' k'.
Proof.
  intros h k p d v h' H E. unfold ptr_write in *. cbn [move_ptr p_off p_region] in *. cbv zeta in *.
  destruct (0 <=? _)%Z; [|discriminate]. unfold region_place in *. cbn [move_region r_len r_alloc r_lo]. destruct (_ <? _); [|discriminate].
  cbn [bind] in *. unfold place_write in *. cbn [pl_alloc pl_index] in *.
  destruct (hget h _ _) eqn:G; [|discriminate]. injection E as <-. rewrite (sh_items _ _ H _ _ _ G).
  split; [apply cells_hset|]. split; [apply alike_hset|]. eexists. split; [reflexivity|]. apply shadow_hset; auto. exists t. exact G.
Qed.

Lemma collect_shadow : forall A (f f' : N -> outcome A), (forall i x, f i = Ok x -> f' i = Ok x) ->
  forall n i l, collect n i f = Ok l -> collect n i f' = Ok l.
Proof.
  intros A f f' H n. induction n as [|n IH]; intros i l E; cbn [collect] in *; auto.
  destruct (f i) eqn:Ef; cbn [bind] in E; try discriminate. rewrite (H _ _ Ef). cbn [bind].
  destruct (collect n (i + 1) f) eqn:Ec; cbn [bind] in E; try discriminate. rewrite (IH _ _ Ec). exact E.
Qed.
Lemma collect_each : forall A (f : N -> outcome A) n i l, collect n i f = Ok l ->
  forall k, i <= k < i + N.of_nat n -> exists x, f k = Ok x.
Proof.
  intros A f n. induction n as [|n IH]; intros i l E k Hk; cbn [collect] in E; [lia|].
  destruct (f i) eqn:Ef; cbn [bind] in E; try discriminate.
  destruct (collect n (i + 1) f) eqn:Ec; cbn [bind] in E; try discriminate.
  destruct (N.eq_dec k i) as [->|D]; [eauto|]. apply (IH _ _ Ec). lia.
Qed.

Lemma loop_each : forall (S S' : Type) (R : S -> S' -> Prop) (Q : N -> Prop) f f',
  (forall k s s' t, R s s' -> f k s = Ok t -> Q k /\ exists t', f' k s' = Ok t' /\ R t t') ->
  forall n i s s' t, R s s' -> loop n i f s = Ok t ->
  (forall k, i <= k < i + N.of_nat n -> Q k) /\ exists t', loop n i f' s' = Ok t' /\ R t t'.
Proof.
  intros S S' R Q f f' H n. induction n as [|n IH]; intros i s s' t HR E; cbn [loop] in *.
  - injection E as <-. split; [lia|eauto].
  - destruct (f i s) as [u| |] eqn:Ef; cbn [bind] in E; try discriminate. destruct (H _ _ _ _ HR Ef) as (Qi & u' & Eu & Ru).
    rewrite Eu. cbn [bind]. destruct (IH _ _ _ _ Ru E) as (Qn & t' & Et & Rt). split; [|eauto].
    intros k Hk. destruct (N.eq_dec k i) as [->|D]; auto. apply Qn. lia.
Qed.

Definition run_gemm (kern : kernel T) (g : gemm_args T) (h : heap) : outcome heap :=
  let sh := ga_shape g in
  gemm kern (g_m sh) (g_k sh) (g_n sh) (ga_alpha g) (ga_a g) (fst (g_sa sh)) (snd (g_sa sh))
    (ga_b g) (fst (g_sb sh)) (snd (g_sb sh)) (ga_beta g) (ga_c g) (fst (g_sc sh)) (snd (g_sc sh)) h.

Lemma gemm_shadow : forall kern g h k h', shadow h k -> run_gemm kern g h = Ok h' ->
  (forall i j, i < g_m (ga_shape g) -> j < g_n (ga_shape g) ->
     (forall l, l < g_k (ga_shape g) -> cell h (at_offset (ga_a g) (gemm_offset (g_sa (ga_shape g)) i l)) /\
                                        cell h (at_offset (ga_b g) (gemm_offset (g_sb (ga_shape g)) l j))) /\
     cell h (at_offset (ga_c g) (gemm_offset (g_sc (ga_shape g)) i j))) /\
  exists k', run_gemm kern (move_args g) k = Ok k' /\ shadow h' k' /\ alike h h'.
Proof.
  intros kern [[mm kk nn [a1 a2] [b1 b2] [c1 c2]] al pa pb be pc] h k h' H E. unfold run_gemm in *.
  cbn [move_args ga_shape ga_alpha ga_a ga_b ga_beta ga_c g_m g_k g_n g_sa g_sb g_sc fst snd] in *. unfold gemm, for_range in *.
  set (sh := mkShape mm kk nn (a1, a2) (b1, b2) (c1, c2)) in *.
  set (R := fun s s' : heap => shadow s s' /\ same_cells h s /\ alike h s).
  set (G := fun i j => (forall l, l < kk -> cell h (at_offset pa (gemm_offset (a1, a2) i l)) /\ cell h (at_offset pb (gemm_offset (b1, b2) l j))) /\
                       cell h (at_offset pc (gemm_offset (c1, c2) i j))).
  assert (ENT : forall i j s s' t, R s s' -> gemm_entry kern sh al pa pb be pc i j s = Ok t ->
     G i j /\ exists t', gemm_entry kern sh al (move_ptr pa) (move_ptr pb) be (move_ptr pc) i j s' = Ok t' /\ R t t').
  { intros i j s s' t (Rs & Rc & Ra) Et. unfold gemm_entry in *.
    destruct (collect _ _ _) as [l| |] eqn:C; cbn [bind] in Et; try discriminate.
    destruct (ptr_read s pc _) as [old| |] eqn:O; cbn [bind] in Et; try discriminate.
    split.
    - split.
      + intros l0 Hl. destruct (collect_each _ _ _ _ _ C l0) as ([x y] & Ex); [cbn [sh g_k]; lia|].
        destruct (ptr_read s pa _) eqn:PA; cbn [bind] in Ex; try discriminate. destruct (ptr_read s pb _) eqn:PB; cbn [bind] in Ex; try discriminate.
        apply ptr_read_cell in PA, PB. split; apply (Rc _); [apply PA|apply PB].
      + apply (Rc _). apply ptr_read_cell in O. apply O.
    - assert (C' : collect (N.to_nat (g_k sh)) 0 (fun l => x <- ptr_read s' (move_ptr pa) (gemm_offset (g_sa sh) i l) ;;
                     y <- ptr_read s' (move_ptr pb) (gemm_offset (g_sb sh) l j) ;; Ok (x, y)) = Ok l).
      { revert C. apply collect_shadow. intros n [x y] Ex.
        destruct (ptr_read s pa _) eqn:PA; cbn [bind] in Ex; try discriminate. destruct (ptr_read s pb _) eqn:PB; cbn [bind] in Ex; try discriminate.
        rewrite (ptr_read_shadow _ _ _ _ _ Rs PA), (ptr_read_shadow _ _ _ _ _ Rs PB). exact Ex. }
      rewrite C'. cbn [bind]. rewrite (ptr_read_shadow _ _ _ _ _ Rs O). cbn [bind].
      destruct (ptr_write_shadow _ _ _ _ _ _ Rs Et) as (SC' & AL & k' & Ek & Sk). exists k'. split; auto. split; auto. split; [eapply same_trans; eauto|].
      destruct Ra as [L1 F1], AL as [L2 F2]. split; [congruence|]. intros a0 l0 E0. destruct (F1 _ _ E0) as (l1 & E1 & G1).
      destruct (F2 _ _ E1) as (l2 & E2 & G2). exists l2. split; auto. congruence. }
  assert (HR : R h k). { split; auto. split; [intros q; tauto|]. split; eauto. }
  destruct (loop_each heap heap R (fun i => forall j, j < nn -> G i j)
     (fun i h => loop (N.to_nat nn) 0 (fun j h => gemm_entry kern sh al pa pb be pc i j h) h)
     (fun i h => loop (N.to_nat nn) 0 (fun j h => gemm_entry kern sh al (move_ptr pa) (move_ptr pb) be (move_ptr pc) i j h) h)) with (2 := HR) (3 := E) as (Q & k' & Ek & Rk).
  { intros i s s' t Rs Et. destruct (loop_each heap heap R (fun j => G i j) _ _ (ENT i) _ _ _ _ _ Rs Et) as (Qi & t' & Et' & Rt').
    split; [|eauto]. intros j Hj. apply Qi. lia. }
  split; [|exists k'; repeat split; auto; apply Rk].
  intros i j Hi Hj. apply Q; auto. lia.
Qed.

(** Arguments without aliasing stay so. *)
Lemma plain_move : forall kern g h k h', shadow h k -> run_gemm kern g h = Ok h' -> plain_args g -> plain_args (move_args g).
Proof.
  intros kern g h k h' H E [P1 P2]. destruct (gemm_shadow _ _ _ _ _ H E) as [CELLS _]. split; [|exact P2].
  assert (AT : forall p s rows cols q, at_entry (move_ptr p) s rows cols q ->
     exists i j, i < rows /\ j < cols /\ at_entry p s rows cols (at_offset p (gemm_offset s i j)) /\ q = move_cell (at_offset p (gemm_offset s i j))).
  { intros p s rows cols q (i & j & z & Hi & Hj & -> & Hz & Hl & ->). exists i, j. repeat split; auto.
    exists i, j, (Z.of_N (p_off p) + gemm_offset s i j)%Z. cbn in Hl, Hz. repeat split; auto. }
  intros q C. apply (AT (ga_c g) (g_sc (ga_shape g)) (g_m (ga_shape g)) (g_n (ga_shape g))) in C. destruct C as (i & j & Hi & Hj & C & ->).
  destruct (CELLS i j Hi Hj) as [_ Cc].
  split; intros A.
  - apply (AT (ga_a g) (g_sa (ga_shape g)) (g_m (ga_shape g)) (g_k (ga_shape g))) in A; destruct A as (i' & j' & Hi' & Hj' & A & Eq).
    destruct (CELLS i' j Hi' Hj) as [Ca _]. destruct (Ca j' Hj') as [Ca' _].
    apply (sh_inj _ _ H _ _ Cc Ca') in Eq. rewrite <- Eq in A. exact (proj1 (P1 _ C) A).
  - apply (AT (ga_b g) (g_sb (ga_shape g)) (g_k (ga_shape g)) (g_n (ga_shape g))) in A; destruct A as (i' & j' & Hi' & Hj' & A & Eq).
    destruct (CELLS i j' Hi Hj') as [Cb _]. destruct (Cb i' Hi') as [_ Cb'].
    apply (sh_inj _ _ H _ _ Cc Cb') in Eq. rewrite <- Eq in A. exact (proj2 (P1 _ C) A).
Qed.

(** A heap whose names are addresses. *)
Definition at_address (h : heap) (a : nat) : list T :=
  match find (fun id => Nat.eqb (rho id) a && match nth id h [] with [] => false | _ => true end) (seq 0 (length h)) with
  | Some id => nth id h []
  | None => []
  end.
Definition by_address (h : heap) : heap := map (at_address h) (seq 0 (S (list_max (map rho (seq 0 (length h)))))).

Lemma by_address_nth : forall h a l, nth_error (by_address h) a = Some l -> l <> [] -> exists id, rho id = a /\ nth_error h id = Some l.
Proof.
  intros h a l E Hl. unfold by_address in E. rewrite nth_error_map in E. destruct (nth_error (seq 0 _) a) as [a'|] eqn:S; [|discriminate].
  assert (a' = a). { assert (L : (a < length (seq 0 (Datatypes.S (list_max (map rho (seq 0 (length h)))))))%nat) by (apply nth_error_Some; congruence).
    rewrite seq_length in L. rewrite (nth_error_nth' _ 0%nat) in S by now rewrite seq_length. rewrite seq_nth in S by auto. cbn in S. congruence. }
  subst a'. cbn [option_map] in E. injection E as E. unfold at_address in E. destruct (find _ _) as [id|] eqn:F; [|congruence].
  apply find_some in F. destruct F as [I F]. apply in_seq in I. exists id. apply Bool.andb_true_iff in F. split; [apply Nat.eqb_eq; apply F|].
  rewrite <- E. apply nth_error_nth'. lia.
Qed.
Lemma nth_by_address : forall h Y id l, rep rho h Y -> nth_error h id = Some l -> l <> [] -> nth_error (by_address h) (rho id) = Some l.
Proof.
  intros h Y id l H E Hl. unfold by_address. assert (L : (id < length h)%nat) by (apply nth_error_Some; congruence).
  assert (M : (rho id <= list_max (map rho (seq 0 (length h))))%nat).
  { pose proof (proj1 (list_max_le (map rho (seq 0 (length h))) _) (le_n _)) as F. rewrite Forall_forall in F. apply F. apply in_map, in_seq. lia. }
  rewrite nth_error_map. rewrite (nth_error_nth' _ 0%nat) by (rewrite seq_length; lia). rewrite seq_nth by lia. cbn [option_map Nat.add]. f_equal.
  unfold at_address. destruct (find _ _) as [id'|] eqn:F.
  - apply find_some in F. destruct F as [I F]. apply in_seq in I. apply Bool.andb_true_iff in F. destruct F as [F1 F2]. apply Nat.eqb_eq in F1.
    assert (E' : nth_error h id' = Some (nth id' h [])) by (apply nth_error_nth'; lia).
    destruct (Nat.eq_dec id' id) as [->|D]; [congruence|]. exfalso.
    assert (Hl' : nth id' h [] <> []) by (intros Z; rewrite Z in F2; discriminate).
    pose proof (rep_apart _ _ _ H _ _ _ _ E' E Hl' Hl D) as A. unfold blocks_apart in A. cbn [fst snd] in A. rewrite F1 in A.
    rewrite Bool.orb_true_iff, !N.leb_le in A. pose proof size_pos. destruct l; [congruence|]. destruct (nth id' h []); [congruence|]. cbn [length] in A. nia.
  - exfalso. assert (IN : In id (seq 0 (length h))) by (apply in_seq; lia). assert (N := find_none _ _ F id IN). cbn beta in N. rewrite Nat.eqb_refl in N.
    rewrite (nth_error_nth h id [] E) in N. destruct l; [congruence|discriminate].
Qed.

Lemma shadow_by_address : forall h Y, rep rho h Y -> shadow h (by_address h).
Proof.
  intros h Y H. constructor.
  - intros a i v E. pose proof (hget_inv _ _ _ _ E) as (l & El & Hl & En & _). unfold hget. now rewrite (nth_by_address h Y a l H El Hl).
  - intros [a i] [b j] [v Hv] [w Hw] Eq. destruct (Nat.eq_dec a b) as [->|D]; [unfold move_cell in Eq; cbn in Eq; congruence|].
    exfalso. cbn [fst snd] in *. unfold move_cell in Eq. cbn [fst snd] in Eq. injection Eq as E1 E2. 
    pose proof (items_apart rho h Y a i v b j w H Hv Hw) as A. rewrite E1, E2 in A. pose proof size_pos. destruct A; [congruence|lia..].
Qed.

(** Items of a heap in the bytes, by address. *)
Record flat (k : heap) (M : N -> B) : Prop := {
  fl_items : forall a i v, hget k a i = Some v -> load M (address (mkPlace a i)) = v;
  fl_apart : forall q q', cell k q -> cell k q' -> q <> q' ->
    address (mkPlace (fst q) (snd q)) + item_size <= address (mkPlace (fst q') (snd q')) \/
    address (mkPlace (fst q') (snd q')) + item_size <= address (mkPlace (fst q) (snd q))
}.
Lemma flat_by_address : forall h Y, rep rho h Y -> flat (by_address h) (y_mem Y).
Proof.
  intros h Y H.
  assert (BACK : forall a i v, hget (by_address h) a i = Some v -> exists id, rho id = a /\ hget h id i = Some v).
  { intros a i v E. apply hget_inv in E. destruct E as (l & E & Hl & En & _). destruct (by_address_nth _ _ _ E Hl) as (id & <- & F).
    exists id. split; auto. unfold hget. now rewrite F. }
  constructor.
  - intros a i v E. apply BACK in E. destruct E as (id & <- & E). now apply (rep_items _ _ _ H).
  - intros [a i] [b j] [v Hv] [w Hw] D. cbn [fst snd] in *. apply BACK in Hv, Hw. destruct Hv as (id & <- & Hv), Hw as (id' & <- & Hw).
    apply (items_apart rho h Y id i v id' j w H Hv Hw). congruence.
Qed.
Lemma flat_store : forall k M p v, flat k M -> cell k (pl_alloc p, pl_index p) -> flat (hset k (pl_alloc p) (pl_index p) v) (store M (address p) v).
Proof.
  intros k M [a i] v H [w Hw]. cbn [fst snd pl_alloc pl_index] in *. constructor.
  - intros b j x Hx. destruct (Nat.eq_dec a b) as [<-|D]; [destruct (N.eq_dec i j) as [<-|D]|].
    + rewrite (hget_hset_same _ _ _ _ _ Hw) in Hx. injection Hx as <-. apply load_store.
    + rewrite hget_hset_other in Hx by congruence. rewrite load_store_out; [now apply (fl_items _ _ H)|].
      apply (fl_apart _ _ H (a, j) (a, i)); [exists x; exact Hx|exists w; exact Hw|congruence].
    + rewrite hget_hset_other in Hx by congruence. rewrite load_store_out; [now apply (fl_items _ _ H)|].
      apply (fl_apart _ _ H (b, j) (a, i)); [exists x; exact Hx|exists w; exact Hw|congruence].
  - intros q q' Q Q'. apply (fl_apart _ _ H); now apply (cells_hset k a i v).
Qed.

Lemma perform_flat : forall A (R W : nat * N -> Prop) (c : prog T A), only_accesses R W c -> forall k k' a Y, complete c k = Ok (k', a) -> flat k (y_mem Y) ->
  exists M', perform c Y = Some (Ok a, mkBytes M' (y_blocks Y) (y_log Y)) /\ flat k' M' /\
    (forall x, (forall q, cell k q -> ~ (address (mkPlace (fst q) (snd q)) <= x < address (mkPlace (fst q) (snd q)) + item_size)) -> M' x = y_mem Y x) /\
    forall a bs, In (a, bs) (visits c Y) -> bs = y_blocks Y /\ exists q, cell k q /\ a = address (mkPlace (fst q) (snd q)).
Proof.
  intros A R W c. induction c as [o|p f IH|p v f IH|l f IH]; intros O k k' a Y E F; cbn [complete only_accesses Flat.perform Flat.visits] in *.
  - destruct o as [x| |]; cbn [bind] in E; try discriminate. injection E as <- <-. exists (y_mem Y). split; [now destruct Y|]. split; auto. split; auto. intros ? ? [].
  - unfold place_read in E. destruct (hget k _ _) as [v|] eqn:G; cbn [bind] in E; [|discriminate].
    pose proof (fl_items _ _ F _ _ _ G) as L. destruct p as [pa pi]. cbn [pl_alloc pl_index] in *. rewrite L.
    destruct (IH v (proj2 O v) k k' a Y E F) as (M' & P & F' & X' & V). exists M'. split; auto. split; auto. split; auto.
    intros a1 bs [I|I]; [|now apply V]. injection I as <- <-. split; auto. exists (pa, pi). split; auto. exists v. exact G.
  - unfold place_write in E. destruct (hget k _ _) as [w|] eqn:G; cbn [bind] in E; [|discriminate].
    destruct (IH (proj2 O) _ k' a (mkBytes (store (y_mem Y) (address p) v) (y_blocks Y) (y_log Y)) E) as (M' & P & F' & X' & V).
    { cbn [y_mem]. apply flat_store; auto. exists w. exact G. }
    exists M'. split; [exact P|]. split; [exact F'|]. split.
    + intros x Hx. rewrite X'; cbn [y_mem].
      * apply store_out. destruct p as [pa pi]. apply (Hx (pa, pi)). exists w. exact G.
      * intros q Q. apply Hx. apply (cells_hset k (pl_alloc p) (pl_index p) v). exact Q.
    + intros a1 bs [I|I].
      * injection I as <- <-. split; auto. destruct p as [pa pi]. exists (pa, pi). split; auto. exists w. exact G.
      * apply V in I. destruct I as (E1 & q & Q & E2). split; auto. exists q. split; auto. apply (cells_hset k (pl_alloc p) (pl_index p) v). exact Q.
  - contradiction.
Qed.

Lemma sem_code : forall kern code g, implements code kern -> plain_args g -> sem eq (code g) (code (move_args g)).
Proof.
  intros kern code g I P h Y o h' H E Ho _. pose proof (full_complete _ (code g) h) as C. rewrite E in C.
  pose proof (proj2 (I g) P h) as C2. rewrite C in C2. fold (run_gemm kern g h) in C2. cbv zeta in C2.
  change (match o with Ok a => Ok (h', a) | Panic => Panic | UB => UB end = bind (run_gemm kern g h) (fun h' => Ok (h', tt))) in C2.
  assert (NP : o <> Panic).
  { assert (NPG : forall A R W (c : prog T A), only_accesses R W c -> forall h, fst (full c h) <> Panic).
    { intros A R W c. induction c as [o1|p f IH|p v f IH|l f IH]; intros O h1; cbn [full only_accesses] in *.
      - exact O.
      - destruct (place_read h1 p); cbn [fst]; try discriminate. apply IH, O.
      - destruct (place_write h1 p v); cbn [fst]; try discriminate. apply IH, O.
      - contradiction. }
    pose proof (NPG _ _ _ _ (proj1 (I g)) h) as X. rewrite E in X. exact X. }
  destruct o as [[]| |]; try congruence. destruct (run_gemm kern g h) as [h1| |] eqn:G; cbn [bind] in C2; try discriminate. injection C2 as ->.
  pose proof (shadow_by_address h Y H) as SH. destruct (gemm_shadow _ _ _ _ _ SH G) as [_ (k' & Gk & Sk & AL)].
  pose proof (plain_move _ _ _ _ _ SH G P) as P'. pose proof (proj2 (I (move_args g)) P' (by_address h)) as C'.
  change (complete (code (move_args g)) (by_address h) = bind (run_gemm kern (move_args g) (by_address h)) (fun h' => Ok (h', tt))) in C'.
  rewrite Gk in C'. cbn [bind] in C'.
  destruct (perform_flat _ _ _ _ (proj1 (I (move_args g))) _ _ _ Y C' (flat_by_address h Y H)) as (M' & PF & FL & FR & VI).
  split.
  { intros a bs In1. apply VI in In1. destruct In1 as (-> & [a1 i1] & [v Hv] & ->). cbn [fst snd] in *.
    apply hget_inv in Hv. destruct Hv as (l & E' & Hl & En & Li). destruct (by_address_nth _ _ _ E' Hl) as (id & <- & F).
    apply (rep_item rho h Y (mkPlace id i1) v H). unfold hget. cbn [pl_alloc pl_index]. now rewrite F. }
  right.
  exists (Ok tt), (mkBytes M' (y_blocks Y) (y_log Y)). split; [exact PF|]. split; [reflexivity|].
  apply (rep_alike rho h); auto.
  - intros a i v Hv. apply (fl_items _ _ FL). now apply (sh_items _ _ Sk).
  - intros x O. rewrite FR; [now apply (rep_frame _ _ _ H)|]. intros [a i] [v Hv]. cbn [fst snd] in *.
    apply hget_inv in Hv. destruct Hv as (l & E' & Hl & En & Li). destruct (by_address_nth _ _ _ E' Hl) as (id & <- & F).
    apply (item_inside rho h Y id i v x H); auto. unfold hget. now rewrite F.
Qed.

Lemma matmul_args_rel : forall alpha a b beta c, orel (fun g g' => g' = move_args g) (matmul_args alpha a b beta c)
  (matmul_args alpha (move_base rho a) (move_base rho b) beta (move_base rho c)).
Proof. intros alpha a b beta c. unfold matmul_args. cbn [move_base bm_layout]. cbv zeta. do 4 (apply orel_same; intros ? _). reflexivity. Qed.

Lemma sem_matmul : forall kern code alpha a b beta c, implements code kern ->
  (forall g, matmul_args alpha a b beta c = Ok g -> plain_args g) ->
  sem eq (p_matmul code alpha a b beta c) (p_matmul code alpha (move_base rho a) (move_base rho b) beta (move_base rho c)).
Proof.
  intros kern code alpha a b beta c I P. unfold p_matmul. pose proof (matmul_args_rel alpha a b beta c) as H.
  destruct (matmul_args alpha a b beta c) as [g| |], (matmul_args alpha (move_base rho a) _ _ _) as [g'| |]; cbn [orel] in H; try contradiction.
  - subst g'. cbn [pbind]. apply (sem_code kern); auto.
  - now apply sem_stop.
  - now apply sem_stop.
Qed.

(** The result of [dot] is fresh. *)
Lemma dot_result : forall shape m a b h h1 (res : base_matrix),
  complete (match shape with
            | MatrixMatrix => p_zeros_from_dim m KRowMajor (fst (dim (bm_layout a))) (snd (dim (bm_layout b)))
            | RowMatrix => p_row_zeros_dim m (fst (dim (bm_layout a))) (snd (dim (bm_layout b)))
            | MatrixColumn => p_column_zeros_dim m (fst (dim (bm_layout a))) (snd (dim (bm_layout b)))
            end : prog T base_matrix) h = Ok (h1, res) ->
  allocation res = length h /\ r_len (c_region (bm_data res)) <= isize_max /\ simple_layout (bm_layout res).
Proof.
  intros shape m a b h h1 res H.
  assert (V : forall n h1 c, vector_container_new h n = Ok (h1, c) -> r_alloc (c_region c) = length h /\ r_len (c_region c) <= isize_max).
  { intros n h2 c. unfold vector_container_new. destruct (N.leb_spec (n * Npos ssize) isize_max); [|discriminate].
    cbn [alloc]. intros H1; injection H1 as <- <-. cbn [c_region r_alloc r_len]. rewrite repeat_length, N2Nat.id. split; auto. nia. }
  destruct shape.
  - rewrite complete_zeros in H. unfold zeros_from_dim in H. cbn [from_dimension bind] in H. apply bind_ok in H. destruct H as (n & _ & H).
    apply bind_ok in H. destruct H as ((h2, c) & E & H). cbn [bind] in H. apply bind_ok in H. destruct H as (r & F & H). injection H as <- <-.
    apply from_data_data in F. subst r. cbn [bm_data bm_layout]. unfold allocation. cbn [bm_data]. apply V in E. split; [|split]; try apply E. exact I.
  - rewrite complete_row_dim in H. unfold row_vector_zeros_from_dim in H. apply bind_ok in H. destruct H as (n & _ & H).
    apply bind_ok in H. destruct H as ((h2, c) & E & H). apply bind_ok in H. destruct H as (r & F & H). injection H as <- <-.
    apply from_data_data in F. subst r. cbn [bm_data bm_layout]. unfold allocation. cbn [bm_data]. apply V in E. split; [|split]; try apply E. exact I.
  - rewrite complete_column_dim in H. unfold column_vector_zeros_from_dim in H. apply bind_ok in H. destruct H as (n & _ & H).
    apply bind_ok in H. destruct H as ((h2, c) & E & H). apply bind_ok in H. destruct H as (r & F & H). injection H as <- <-.
    apply from_data_data in F. subst r. cbn [bm_data bm_layout]. unfold allocation. cbn [bm_data]. apply V in E. split; [|split]; try apply E. exact I.
Qed.

(** A simulation for one heap. *)
Definition sem_at (h : heap) {A A' : Type} (R : A -> A' -> Prop) (c : prog T A) (c' : prog T A') : Prop :=
  forall Y o h', rep rho h Y -> full c h = (o, h') -> o <> UB -> sized h h' ->
    sound c' Y /\
    (perform c' Y = None \/
     exists o' Y', perform c' Y = Some (o', Y') /\ orel R o o' /\ rep rho h' Y').
Lemma sem_at_any : forall h A A' (R : A -> A' -> Prop) c c', sem R c c' -> sem_at h R c c'.
Proof. intros h A A' R c c' H Y o h'. apply H. Qed.
Lemma sem_at_bind : forall h A A' C C' (R : A -> A' -> Prop) (Q : C -> C' -> Prop) c c' f f',
  sem_at h R c c' -> (forall a a' h1, full c h = (Ok a, h1) -> R a a' -> sem_at h1 Q (f a) (f' a')) -> sem_at h Q (pbind c f) (pbind c' f').
Proof.
  intros h A A' C C' R Q c c' f f' H F Y o h' Hr E Ho Hs. rewrite full_bind in E. rewrite perform_bind.
  destruct (full c h) as [oc h1] eqn:Ec. assert (Oc : oc <> UB) by (intros ->; injection E as <- _; congruence).
  assert (G1 : grown h h1) by (eapply full_grown; eauto).
  assert (G2 : grown h1 h'). { destruct oc as [a| |]; [eapply full_grown; eauto| |]; injection E as _ <-; split; eauto. }
  assert (S1 : sized h h1).
  { intros a l La El. destruct (proj2 G2 a l El) as (l' & El' & Ll). rewrite <- Ll. now apply (Hs a l'). }
  destruct (H Y oc h1 Hr Ec Oc S1) as [SO [N|(o' & Y' & P & R' & Hr')]].
  { split; [|left; now rewrite N]. apply sound_bind; auto. rewrite N. discriminate. }
  rewrite P. destruct oc as [a| |], o' as [a'| |]; cbn [orel] in R'; try contradiction.
  - destruct (F a a' h1 eq_refl R' Y' o h' Hr' E Ho) as [SO' X]. { intros b l Lb El. apply Hs; auto. destruct G1. lia. }
    split; auto. apply sound_bind; auto. intros a2 Y2 E2. rewrite P in E2. injection E2 as <- <-. exact SO'.
  - injection E as <- <-. split; [|right; exists Panic, Y'; auto]. apply sound_bind; auto. rewrite P. discriminate.
Qed.

Lemma sem_dot : forall kern code shape m a b h, implements code kern -> placed h (MBase a) -> placed h (MBase b) ->
  sem_at h brel (p_dot code shape m a b) (p_dot code shape m (move_base rho a) (move_base rho b)).
Proof.
  intros kern code shape m a b h I Pa Pb. unfold p_dot. cbv zeta. cbn [move_base bm_layout].
  apply (sem_at_bind _ _ _ _ _ brel).
  - apply sem_at_any. destruct shape; [apply sem_zeros|apply sem_row_dim|apply sem_column_dim].
  - intros res res' h1 E Hres. apply sem_at_any. apply (sem_bind _ _ _ _ eq); [|intros _ _ _; now apply sem_ok].
    pose proof (dot_result shape m a b h h1 res) as D. rewrite full_complete, E in D. specialize (D eq_refl). destruct D as (D1 & D2 & D3).
    destruct Hres as [-> _]. change (mkBase (mkContainer (c_kind (bm_data a)) (move_region rho (c_region (bm_data a)))) (bm_layout a) (bm_rs a) (bm_cs a)) with (move_base rho a).
    change (mkBase (mkContainer (c_kind (bm_data b)) (move_region rho (c_region (bm_data b)))) (bm_layout b) (bm_rs b) (bm_cs b)) with (move_base rho b).
    apply (sem_matmul kern); auto. intros g Hg. eapply fresh_plain; eauto; intros X; [specialize (Pa _ X)|specialize (Pb _ X)]; lia.
Qed.

(** ** Calls *)

Definition ends (x x' : list (matrix T) * result T St) : Prop := Forall2 mrel (fst x) (fst x') /\ snd x = snd x'.
Lemma sem_new : forall h c c', sem_at h brel c c' -> sem_at h ends (ends_new c) (ends_new c').
Proof.
  intros h c c' H. apply (sem_at_bind _ _ _ _ _ brel); auto. intros b b' h1 E1 Hb. apply sem_at_any, sem_ok. split; auto. constructor; auto. now apply brel_mrel.
Qed.
Lemma sem_item : forall h c c', sem eq c c' -> sem_at h ends (ends_item c) (ends_item c').
Proof. intros h c c' H. apply sem_at_any. apply (sem_bind _ _ _ _ eq); auto. intros v v' <-. apply sem_ok. split; [constructor|reflexivity]. Qed.
Lemma sem_done : forall h c c', sem eq c c' -> sem_at h ends (ends_done c) (ends_done c').
Proof. intros h c c' H. apply sem_at_any. apply (sem_bind _ _ _ _ eq); auto. intros v v' <-. apply sem_ok. split; [constructor|reflexivity]. Qed.
Lemma sem_looped : forall h c c', sem eq c c' -> sem_at h ends (ends_loop c) (ends_loop c').
Proof. intros h c c' H. apply sem_at_any. apply (sem_bind _ _ _ _ eq); auto. intros [s pn] v' <-. apply sem_ok. split; [constructor|reflexivity]. Qed.

Definition moved_table (ms ms' : list (matrix T)) : Prop := ms' = map (move_matrix rho) ms.
Lemma lookup_moved : forall (h h' : heap) (ms : list (matrix T)) x, lookup (mkState h' (map (move_matrix rho) ms)) x = option_map (move_matrix rho) (lookup (mkState h ms) x).
Proof. intros h h' ms x. unfold lookup. cbn [st_mats]. apply nth_error_map. Qed.
Lemma lookup_base_moved : forall (h h' : heap) (ms : list (matrix T)) x, lookup_base (mkState h' (map (move_matrix rho) ms)) x = option_map (move_base rho) (lookup_base (mkState h ms) x).
Proof. intros h h' ms x. unfold lookup_base. rewrite (lookup_moved h h'). destruct (lookup _ x) as [[]|]; reflexivity. Qed.
Lemma lookup_mut_moved : forall (h h' : heap) (ms : list (matrix T)) x, lookup_mut (mkState h' (map (move_matrix rho) ms)) x = option_map (move_base rho) (lookup_mut (mkState h ms) x).
Proof.
  intros h h' ms x. unfold lookup_mut. rewrite (lookup_base_moved h h'). destruct (lookup_base _ x) as [b|]; cbn [option_map]; auto.
  change (container_is_mut (bm_data (move_base rho b))) with (container_is_mut (bm_data b)). destruct (container_is_mut (bm_data b)); reflexivity.
Qed.
Lemma lookup_block_moved : forall (h h' : heap) (ms : list (matrix T)) mut x, lookup_block (mkState h' (map (move_matrix rho) ms)) mut x = option_map (move_base rho) (lookup_block (mkState h ms) mut x).
Proof. intros h h' ms [] x; unfold lookup_block; [apply lookup_mut_moved|apply lookup_base_moved]. Qed.

Lemma sem_view : forall h (o o' : outcome base_matrix), orel brel o o' -> sem_at h brel (Stop o) (Stop o').
Proof. intros h o o' H. apply sem_at_any. now apply sem_stop. Qed.
Lemma sem_ret : forall h (x x' : matrix T) r, mrel x x' -> sem_at h ends (Stop (Ok ([x], r))) (Stop (Ok ([x'], r))).
Proof. intros h x x' r H. apply sem_at_any, sem_ok. split; [|reflexivity]. constructor; [exact H|constructor]. Qed.

Definition same_program (h : heap) (p p' : option (prog T (list (matrix T) * result T St))) : Prop :=
  match p, p' with Some c, Some c' => sem_at h ends c c' | None, None => True | _, _ => False end.

Lemma sem_program : forall kern code m ms o h, implements code kern -> Forall (placed h) ms -> Forall owns_known ms ->
  plain_call (mkState h ms) o -> same_program h (program code m ms o) (program code m (map (move_matrix rho) ms) o).
Proof.
  intros kern code m ms o h impl PL OK PC.
  assert (KN : forall x w, lookup (mkState [] ms) x = Some w -> mrel w (move_matrix rho w)).
  { intros x w E. split; auto. rewrite Forall_forall in OK. apply OK. eapply nth_error_In, E. }
  assert (PLB : forall x w, lookup_base (mkState [] ms) x = Some w -> placed h (MBase w)).
  { intros x w E. rewrite Forall_forall in PL. apply PL. unfold lookup_base in E. destruct (lookup _ x) as [[]|] eqn:L; try discriminate.
    injection E as ->. eapply nth_error_In, L. }
  destruct o; cbn [program]; rewrite ?(lookup_moved [] []), ?(lookup_base_moved [] []), ?(lookup_mut_moved [] []), ?(lookup_block_moved [] []); unfold typed, when.
  all: repeat match goal with
       | |- context [option_map _ (lookup ?st ?x)] => destruct (lookup st x) eqn:?; cbn [option_map]; [|exact I]
       | |- context [option_map _ (lookup_base ?st ?x)] => destruct (lookup_base st x) eqn:?; cbn [option_map]; [|exact I]
       | |- context [option_map _ (lookup_mut ?st ?x)] => destruct (lookup_mut st x) eqn:?; cbn [option_map]; [|exact I]
       | |- context [option_map _ (lookup_block ?st ?mut ?x)] => destruct (lookup_block st mut x) eqn:?; cbn [option_map]; [|exact I]
       end.
  all: rewrite ?move_layout, ?move_size, ?move_writable.
  all: try match goal with |- context [if ?b then Some _ else None] => destruct b eqn:?; [|exact I] end; cbn [same_program].
  - apply sem_new, sem_at_any, sem_zeros.
  - apply sem_new, sem_at_any, sem_zeros_fixed.
  - apply sem_new, sem_at_any, sem_zeros_fixed_vector.
  - apply sem_new, sem_at_any, sem_row.
  - apply sem_new, sem_at_any, sem_column.
  - apply sem_new, sem_at_any, sem_row_dim.
  - apply sem_new, sem_at_any, sem_column_dim.
  - apply sem_new, sem_at_any. apply (sem_bind _ _ _ _ crel); [apply sem_vector|]. intros c c' Hc. now apply sem_from_data.
  - apply sem_new, sem_at_any. apply (sem_bind _ _ _ _ crel); [apply sem_array|]. intros c c' Hc. now apply sem_from_data.
  - apply sem_new, sem_view. apply (orel_bind _ _ _ _ rrel).
    + destruct mut; [apply slice_mut_rel|apply slice_rel].
    + intros r r' Hr. now apply from_data_rel, slice_container_rel.
  - apply sem_new, sem_view. apply (orel_bind _ _ _ _ ptrel); [apply ptr_add_rel, get_pointer_rel|]. intros p p' Hp. now apply from_pointer_rel.
  - apply sem_new, sem_view. apply (orel_bind _ _ _ _ ptrel); [apply ptr_add_rel, get_pointer_rel|]. intros p p' Hp. now apply from_pointer_strided_rel.
  - apply sem_item, sem_get.
  - apply sem_item, sem_get1d.
  - apply sem_done, sem_set, get_mut_rel.
  - apply sem_done, sem_set, get1d_mut_rel.
  - apply sem_item, sem_get_unchecked.
  - apply sem_item, sem_get1d_unchecked.
  - apply sem_done, sem_set, unchecked_mut_rel.
  - apply sem_done, sem_set, unchecked_mut1d_rel.
  - apply sem_item, sem_slice_read, slice_rel.
  - apply sem_done, sem_slice_write, slice_mut_rel.
  - unfold mat_dim. rewrite move_layout. apply sem_at_any, sem_ok. split; [constructor|reflexivity].
  - unfold mat_length. rewrite move_layout, move_size. destruct (mat_size m0) as [[] []]; cbn [same_program]; auto;
      apply sem_at_any, sem_ok; split; try constructor; reflexivity.
  - change (bm_layout (move_base rho b)) with (bm_layout b). change (base_sizes (move_base rho b)) with (base_sizes b).
    destruct (is_dynamic (base_sizes b)); [|exact I]. destruct (block_order (bm_layout b)); cbn [same_program]; auto.
    apply sem_new, sem_view, block_rel.
  - change (bm_layout (move_base rho b)) with (bm_layout b). change (base_sizes (move_base rho b)) with (base_sizes b).
    destruct (is_dynamic (base_sizes b)); [|exact I]. destruct (bm_layout b); cbn [same_program]; auto.
    apply sem_at_any. apply (sem_pure _ _ _ _ four); [apply split_rel|]. intros [[[b0 b1] b2] b3] [[[c0 c1] c2] c3] (H0 & H1 & H2 & H3).
    apply sem_ok. split; [|reflexivity]. repeat (constructor; [now apply brel_mrel|]). constructor.
  - apply sem_ret. split; [reflexivity|]. apply owns_ref.
  - apply sem_ret. split; [reflexivity|]. intros b [].
  - apply sem_ret. apply scalar_times_rel. eauto.
  - apply sem_ret. apply times_scalar_rel. eauto.
  - apply sem_at_any. apply (sem_pure _ _ _ _ mrel); [apply plus_rel; eauto|]. intros z z' Hz. apply sem_ok. split; [|reflexivity]. constructor; [exact Hz|constructor].
  - apply sem_new, sem_at_any, sem_eval.
  - apply sem_looped, sem_for_each.
  - apply sem_looped. apply sem_for_each.
  - change (matmul_typed (move_base rho b0) (move_base rho b1) (move_base rho b2)) with (matmul_typed b0 b1 b2).
    destruct (matmul_typed b0 b1 b2); [|exact I]. cbn [same_program]. apply sem_done, (sem_matmul kern); auto.
    intros g Hg. eapply PC; eauto.
  - change (dot_typed shape (move_base rho b0) (move_base rho b1)) with (dot_typed shape b0 b1).
    destruct (dot_typed shape b0 b1); [|exact I]. cbn [same_program]. apply sem_new, (sem_dot kern); eauto.
Qed.

End Sim.

End FlatProofs.
