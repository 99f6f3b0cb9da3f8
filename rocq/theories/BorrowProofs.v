(** * Proofs about histories that respect ownership. *)

From Coq Require Import ZifyBool ZifyNat ZifyN.
From Verif Require Import Machine MachineFacts Layouts Memory Matrix MatMul Spec MatrixSpec ExprSpec ProductSpec.
From Verif Require Import LayoutFacts MemoryFacts AccessFacts AccessProofs ConstructorProofs BlockProofs.
From Verif Require Import ExprProofs ProductProofs Program HistorySpec HistoryProofs HistorySafety Borrow BorrowFacts.
Local Open Scope N_scope.

Section Returned.
Context {T : Type} {SC : HScalar T} {St : Type}.
Notation heap := (@heap T).

(** Regions of views. *)
Lemma raw_parts_within : forall p n r, from_raw_parts p n = Ok r -> within r (p_region p).
Proof.
  intros p n r H. unfold from_raw_parts in H. destruct (N.leb_spec (p_off p + n) (r_len (p_region p))); [|discriminate].
  injection H as <-. unfold within. cbn. lia.
Qed.

Lemma from_pointer_strided_within : forall m mut o p d s b, from_pointer_strided m mut o p d s = Ok b ->
  within (c_region (bm_data b)) (p_region p) /\ container_is_mut (bm_data b) = mut.
Proof.
  intros m mut o p d s b H. unfold from_pointer_strided in H. cbv zeta in H.
  do 4 (apply bind_ok in H; destruct H as (? & _ & H)). apply bind_ok in H. destruct H as (r & E & H).
  apply from_data_data in H. subst b. cbn [bm_data]. rewrite slice_container_region, slice_container_mut_is.
  split; auto. eapply raw_parts_within; eauto.
Qed.

Lemma block_within : forall m mut b tl d v, block m mut b tl d = Ok v ->
  within (c_region (bm_data v)) (c_region (bm_data b)) /\ container_is_mut (bm_data v) = mut.
Proof.
  intros m mut b tl d v H. unfold block in H. destruct (block_order _); [|discriminate].
  do 4 (apply bind_ok in H; destruct H as (? & _ & H)). apply bind_ok in H. destruct H as (p & E & H).
  apply bind_ok in H; destruct H as (? & _ & H).
  apply from_pointer_strided_within in H. apply ptr_offset_region in E. rewrite E in H. exact H.
Qed.

Lemma split_within : forall m b s b0 b1 b2 b3, split_in_four_mut m b s = Ok (b0, b1, b2, b3) ->
  Forall (fun v => within (c_region (bm_data v)) (c_region (bm_data b)) /\ container_is_mut (bm_data v) = true)
    [b0; b1; b2; b3].
Proof.
  intros m b s b0 b1 b2 b3 H. unfold split_in_four_mut in H. cbv zeta in H.
  do 9 (apply bind_ok in H; destruct H as (? & _ & H)).
  assert (A : forall p off d s' v, ptr_offset (get_pointer b) off = Ok p ->
     from_pointer_strided m true ByRow p d s' = Ok v ->
     within (c_region (bm_data v)) (c_region (bm_data b)) /\ container_is_mut (bm_data v) = true).
  { intros p off d s' v Hp Hv. apply from_pointer_strided_within in Hv. apply ptr_offset_region in Hp.
    rewrite Hp in Hv. exact Hv. }
  apply bind_ok in H. destruct H as (p0 & P0 & H). apply bind_ok in H. destruct H as (v0 & V0 & H).
  apply bind_ok in H. destruct H as (p1 & P1 & H). apply bind_ok in H. destruct H as (v1 & V1 & H).
  apply bind_ok in H. destruct H as (p2 & P2 & H). apply bind_ok in H. destruct H as (v2 & V2 & H).
  apply bind_ok in H. destruct H as (p3 & P3 & H). apply bind_ok in H. destruct H as (v3 & V3 & H).
  injection H as <- <- <- <-. repeat (constructor; [eauto|]). constructor.
Qed.

Lemma slice_within : forall b first last r, get_slice b first last = Ok r -> within r (c_region (bm_data b)).
Proof.
  intros b first last r H. unfold get_slice, container_get_slice in H. cbv zeta in H.
  do 2 (apply bind_ok in H; destruct H as (? & _ & H)). apply bind_ok in H. destruct H as (p & E & H).
  apply ptr_offset_region in E. apply raw_parts_within in H. now rewrite E in H.
Qed.

Lemma within_in : forall r1 r2 q, within r1 r2 -> in_region r1 q -> in_region r2 q.
Proof. intros r1 r2 q (E & H1 & H2) (H3 & H4 & H5). unfold in_region. rewrite H3. splits; auto; lia. Qed.

Lemma within_occupies : forall v b q, within (c_region (bm_data v)) (c_region (bm_data b)) ->
  occupies (@MBase T v) q -> occupies (@MBase T b) q.
Proof. intros v b q H. apply within_in. exact H. Qed.

Lemma wrap_occupies : forall p (x : matrix T) q, occupies (wrap p x) q <-> occupies x q.
Proof. intros [] x q; cbn; tauto. Qed.

(** The memory of the allocation [a] is freed with [x]. *)
Fixpoint owns (a : nat) (x : matrix T) : Prop :=
  match x with
  | MBase b =>
      allocation b = a /\
      match c_kind (bm_data b) with VectorContainer | ArrayContainer => True | _ => False end
  | MRef _ | MRefMut _ => False
  | MScalarMult x _ => owns a x
  | MAddition x y _ => owns a x \/ owns a y
  end.

Lemma owns_owners : forall a x, owns a x <-> (0 < owners a x)%nat.
Proof.
  intros a x. induction x as [b | x IH | x IH | x IH s | x IHx y IHy l]; cbn [owns owners]; try lia; try tauto.
  - destruct (c_kind (bm_data b)); try (split; [tauto|lia]); destruct (Nat.eqb_spec (allocation b) a); split; try tauto; lia.
  - rewrite IHx, IHy. lia.
Qed.

Lemma wrap_owns : forall p a (x : matrix T), owns a (wrap p x) -> p = ByValue /\ owns a x.
Proof. intros [] a x; cbn; tauto. Qed.

Lemma lookup_mut_writable : forall (st : state T) x b, lookup_mut st x = Some b ->
  lookup st x = Some (MBase b) /\ is_writable (@MBase T b) = true.
Proof. intros st x b H. apply lookup_mut_inv in H. destruct H as [H1 H2]. apply lookup_base_inv in H1. auto. Qed.

(** The new matrices of a call that borrow. *)
Inductive derives (m : mode) (st : state T) : call T St -> matrix T -> Prop :=
| derives_slice : forall mut x first last rs cs l b rg v, lookup_block st mut x = Some b ->
    get_slice b first last = Ok rg -> from_data m rs cs (slice_container mut rg) l = Ok v ->
    derives m st (CFromSlice mut x first last rs cs l) (MBase v)
| derives_block : forall mut x tl d b v, lookup_block st mut x = Some b -> block m mut b tl d = Ok v ->
    derives m st (CBlock mut x tl d) (MBase v)
| derives_ref : forall x y, lookup st x = Some y -> derives m st (CFromRef x) (MRef y)
| derives_mut : forall x y, lookup st x = Some y -> derives m st (CRefMut x) (MRefMut y)
| derives_scalar : forall s p x y, lookup st x = Some y ->
    derives m st (CScalarTimes s p x) (MScalarMult (wrap p y) s)
| derives_scalar' : forall s p x y, lookup st x = Some y ->
    derives m st (CTimesScalar p x s) (MScalarMult (wrap p y) s)
| derives_plus : forall p q x y u v l, lookup st x = Some u -> lookup st y = Some v ->
    derives m st (CPlus p q x y) (MAddition (wrap p u) (wrap q v) l).

Inductive step_kind (m : mode) (st : state T) (o : call T St) (st' : state T) : result T St -> Prop :=
| kind_same : forall r, r <> RNew -> st_mats st' = st_mats st -> step_kind m st o st' r
| kind_fresh : forall b, st_mats st' = st_mats st ++ [MBase b] -> allocation b = length (st_heap st) ->
    (length (st_heap st) < length (st_heap st'))%nat ->
    owned_container b -> (forall bt, returned bt o = [mkSlot true [] false]) -> step_kind m st o st' RNew
| kind_derived : forall v, st_mats st' = st_mats st ++ [v] -> st_heap st' = st_heap st ->
    (forall bt, returned bt o = [borrowing bt (uses o)]) -> derives m st o v -> step_kind m st o st' RNew
| kind_split : forall x at_ b b0 b1 b2 b3, o = CSplit x at_ -> lookup_mut st x = Some b ->
    (exists D, bm_layout b = RowMajor D) ->
    split_in_four_mut m b at_ = Ok (b0, b1, b2, b3) -> st_heap st' = st_heap st ->
    st_mats st' = st_mats st ++ [MBase b0; MBase b1; MBase b2; MBase b3] -> step_kind m st o st' RNew.

Lemma step_kinds : forall kern m st (o : call T St) st' r, no_pointers (Do o) ->
  step kern m st o = Ok (st', r) -> step_kind m st o st' r.
Proof.
  intros kern m st o st' r Hn H. unfold step in H.
  destruct (exec kern m st o) as [[[st1 r1]| |]|] eqn:E; try discriminate H;
    injection H as <- <-; try (apply kind_same; [discriminate|reflexivity]).
  assert (NEW1 : forall f : outcome (heap * base_matrix),
     (forall bt, returned bt o = [mkSlot true [] false]) ->
     (forall h' b, f = Ok (h', b) -> allocation b = length (st_heap st) /\ owned_container b /\
       (length (st_heap st) < length h')%nat) ->
     new1 st f = Ok (st1, r1) -> step_kind m st o st1 r1).
  { intros f Hr Hf E1. unfold new1 in E1. apply bind_ok in E1. destruct E1 as ((h', b) & Ef & E1).
    injection E1 as <- <-. destruct (Hf _ _ Ef) as (Ha & Hc & Hl). eapply kind_fresh; eauto. reflexivity. }
  assert (APP : forall f : outcome (heap * base_matrix),
     (forall bt, returned bt o = [mkSlot true [] false]) ->
     (forall h' b, f = Ok (h', b) -> appended (st_heap st) h' b) ->
     new1 st f = Ok (st1, r1) -> step_kind m st o st1 r1).
  { intros f Hr Hf. apply NEW1; auto. intros h' b Eb. apply Hf in Eb.
    destruct Eb as (l & -> & Ha & Hc). splits; auto. rewrite app_length. cbn. lia. }
  assert (VIEW : forall f : outcome base_matrix, (forall bt, returned bt o = [borrowing bt (uses o)]) ->
     (forall b, f = Ok b -> derives m st o (MBase b)) -> new_view st f = Ok (st1, r1) -> step_kind m st o st1 r1).
  { intros f Hr Hf E1. unfold new_view in E1. apply bind_ok in E1. destruct E1 as (b & Ef & E1).
    injection E1 as <- <-. eapply kind_derived; eauto; reflexivity. }
  assert (EXPR : forall f : outcome (matrix T), (forall bt, returned bt o = [borrowing bt (uses o)]) ->
     (forall x, f = Ok x -> derives m st o x) -> new_expr st f = Ok (st1, r1) -> step_kind m st o st1 r1).
  { intros f Hr Hf E1. unfold new_expr in E1. apply bind_ok in E1. destruct E1 as (b & Ef & E1).
    injection E1 as <- <-. eapply kind_derived; eauto; reflexivity. }
  assert (ITEM : forall f : outcome T, item st f = Ok (st1, r1) -> step_kind m st o st1 r1).
  { intros f E1. unfold item in E1. apply bind_ok in E1. destruct E1 as (v & _ & E1).
    injection E1 as <- <-. apply kind_same; [discriminate|reflexivity]. }
  assert (DONE : forall f : outcome heap, done st f = Ok (st1, r1) -> step_kind m st o st1 r1).
  { intros f E1. unfold done in E1. apply bind_ok in E1. destruct E1 as (v & _ & E1).
    injection E1 as <- <-. apply kind_same; [discriminate|reflexivity]. }
  assert (LOOP : forall f : outcome (heap * St * bool), looped st f = Ok (st1, r1) -> step_kind m st o st1 r1).
  { intros f E1. unfold looped in E1. apply bind_ok in E1. destruct E1 as (((h', s'), pn) & _ & E1).
    injection E1 as <- <-. apply kind_same; [discriminate|reflexivity]. }
  destruct o; cbn [exec] in E; unfold typed, when in E;
    repeat match type of E with
      | match ?x with _ => _ end = Some _ => destruct x eqn:?; try discriminate E
      end;
    try (apply some_inj in E);
    try (revert E; first [apply ITEM | apply DONE | apply LOOP]);
    try (destruct Hn);
    try (injection E as <- <-; apply kind_same; [discriminate|reflexivity]).
  - revert E. apply APP; auto. intros. eapply zeros_appended; eauto.
  - revert E. apply APP; auto. intros. eapply fixed_appended; eauto.
  - revert E. apply APP; auto. intros. eapply fixed_vector_appended; eauto.
  - revert E. apply APP; auto. intros. eapply row_appended; eauto.
  - revert E. apply APP; auto. intros. eapply column_appended; eauto.
  - revert E. apply APP; auto. intros. eapply row_dim_appended; eauto.
  - revert E. apply APP; auto. intros. eapply column_dim_appended; eauto.
  - revert E. apply APP; auto. intros h' b H. apply bind_ok in H. destruct H as ((h1, c) & Ev & H).
    apply bind_ok in H. destruct H as (b' & Eb & H). injection H as <- <-.
    apply vector_new_inv in Ev. destruct Ev as (-> & -> & _). apply from_data_data in Eb. subst b'.
    eexists. repeat split.
  - revert E. apply APP; auto. intros h' b H. unfold array_container_new, alloc in H.
    apply bind_ok in H. destruct H as (b' & Eb & H). injection H as <- <-.
    apply from_data_data in Eb. subst b'. eexists. repeat split.
  - revert E. apply VIEW; auto. intros v H. apply bind_ok in H. destruct H as (rg & Er & H).
    rewrite get_slice_mut_eq in Er. eapply derives_slice; eauto. now destruct mut.
  - revert E. apply VIEW; auto. intros v H. eapply derives_block; eauto.
  - apply bind_ok in E. destruct E as ((((b0, b1), b2), b3) & Es & E). injection E as <- <-.
    eapply kind_split; eauto.
  - revert E. apply EXPR; auto. intros v H. injection H as <-. now apply derives_ref.
  - revert E. apply EXPR; auto. intros v H. injection H as <-. now apply derives_mut.
  - revert E. apply EXPR; auto. intros v H. injection H as <-. rewrite scalar_times_eq. now apply derives_scalar.
  - revert E. apply EXPR; auto. intros v H. injection H as <-. rewrite times_scalar_eq. now apply derives_scalar'.
  - revert E. apply EXPR; auto. intros v H. rewrite plus_eq in H. destruct (dim_eqb _ _); [|discriminate].
    injection H as <-. now apply derives_plus.
  - revert E. apply NEW1; auto. intros h' b H. apply eval_appended in H. destruct H as (_ & H). exact H.
  - revert E. apply NEW1; auto. intros h' w H. apply dot_appended in H. destruct H as (_ & H). exact H.
Qed.

Definition borrows_from (st : state T) (us : list (nat * access)) (v : matrix T) : Prop :=
  (forall q, occupies v q -> exists x a w, In (x, a) us /\ lookup st x = Some w /\ occupies w q) /\
  (is_writable v = true -> exists x w, us = [(x, Exclusive)] /\ lookup st x = Some w /\ is_writable w = true) /\
  (forall a, lives_in a v -> exists x c w, In (x, c) us /\ lookup st x = Some w /\ lives_in a w /\
     (c = Moved -> owns a w -> owns a v)) /\
  (forall a, owns a v -> exists x w, In (x, Moved) us /\ lookup st x = Some w /\ owns a w).

Lemma lookup_block_cases : forall (st : state T) mut x b, lookup_block st mut x = Some b ->
  lookup st x = Some (MBase b) /\ (mut = true -> is_writable (@MBase T b) = true).
Proof.
  intros st [] x b H; cbn [lookup_block] in H.
  - apply lookup_mut_writable in H. tauto.
  - apply lookup_base_inv in H. split; [exact H|discriminate].
Qed.

Lemma view_borrows : forall st mut x b v, lookup_block st mut x = Some b ->
  within (c_region (bm_data v)) (c_region (bm_data b)) -> c_kind (bm_data v) = SliceContainer \/ c_kind (bm_data v) = SliceContainerMut ->
  container_is_mut (bm_data v) = mut -> borrows_from st [(x, mut_access mut)] (MBase v).
Proof.
  intros st mut x b v H W K C. apply lookup_block_cases in H. destruct H as [H1 H2]. unfold borrows_from. splits.
  - intros q Hq. exists x, (mut_access mut), (MBase b). splits; [now left|auto|]. eapply within_occupies; eauto.
  - intros Hw. cbn [is_writable] in Hw. rewrite C in Hw. subst mut. rewrite Hw in *. exists x, (MBase b). auto.
  - intros a Ha. exists x, (mut_access mut), (MBase b). splits; [now left|auto| |].
    + cbn in *. unfold allocation in *. destruct W as [W _]. congruence.
    + destruct mut; discriminate.
  - intros a Ha. cbn [owns] in Ha. destruct K as [K|K]; rewrite K in Ha; tauto.
Qed.

Lemma slice_container_kind : forall mut r,
  c_kind (slice_container mut r) = SliceContainer \/ c_kind (slice_container mut r) = SliceContainerMut.
Proof. intros []; cbn; auto. Qed.

Lemma from_pointer_strided_kind : forall m mut o p d s b, from_pointer_strided m mut o p d s = Ok b ->
  c_kind (bm_data b) = SliceContainer \/ c_kind (bm_data b) = SliceContainerMut.
Proof.
  intros m mut o p d s b H. unfold from_pointer_strided in H. cbv zeta in H.
  do 4 (apply bind_ok in H; destruct H as (? & _ & H)). apply bind_ok in H. destruct H as (r & E & H).
  apply from_data_data in H. subst b. apply slice_container_kind.
Qed.

Lemma block_kind : forall m mut b tl d v, block m mut b tl d = Ok v ->
  c_kind (bm_data v) = SliceContainer \/ c_kind (bm_data v) = SliceContainerMut.
Proof.
  intros m mut b tl d v H. unfold block in H. destruct (block_order _); [|discriminate].
  do 4 (apply bind_ok in H; destruct H as (? & _ & H)). apply bind_ok in H. destruct H as (p & E & H).
  apply bind_ok in H; destruct H as (? & _ & H). eapply from_pointer_strided_kind; eauto.
Qed.

Lemma split_kind : forall m b s b0 b1 b2 b3, split_in_four_mut m b s = Ok (b0, b1, b2, b3) ->
  Forall (fun v => c_kind (bm_data v) = SliceContainer \/ c_kind (bm_data v) = SliceContainerMut) [b0; b1; b2; b3].
Proof.
  intros m b s b0 b1 b2 b3 H. unfold split_in_four_mut in H. cbv zeta in H.
  do 9 (apply bind_ok in H; destruct H as (? & _ & H)).
  do 4 (apply bind_ok in H; destruct H as (? & _ & H); apply bind_ok in H; destruct H as (? & ? & H)).
  injection H as <- <- <- <-. repeat (constructor; [eapply from_pointer_strided_kind; eauto|]). constructor.
Qed.

Lemma derives_borrows : forall m st (o : call T St) v, derives m st o v -> borrows_from st (uses o) v.
Proof.
  intros m st o v H. destruct H as
    [mut x first last rs cs l b rg v E Er Ev | mut x tl d b v E Ev | x y E | x y E | s p x y E | s p x y E
    | p q x y u v l E1 E2]; cbn [uses].
  - apply from_data_data in Ev. subst v. apply slice_within in Er.
    eapply view_borrows; eauto; cbn [bm_data].
    + now rewrite slice_container_region.
    + apply slice_container_kind.
    + apply slice_container_mut_is.
  - eapply view_borrows; eauto; [apply block_within in Ev; tauto | eapply block_kind; eauto | apply block_within in Ev; tauto].
  - unfold borrows_from. splits; try discriminate.
    + intros q Hq. exists x, Shared, y. splits; auto. now left.
    + intros a Ha. exists x, Shared, y. splits; auto; [now left | discriminate].
    + intros a [].
  - unfold borrows_from. splits.
    + intros q Hq. exists x, Exclusive, y. splits; auto. now left.
    + intros Hw. exists x, y. auto.
    + intros a Ha. exists x, Exclusive, y. splits; auto; [now left | discriminate].
    + intros a [].
  - unfold borrows_from. splits; try discriminate.
    + intros q Hq. cbn [occupies] in Hq. apply wrap_occupies in Hq. exists x, (passed_access p), y. splits; auto. now left.
    + intros a Ha. cbn [lives_in] in Ha. apply wrap_lives in Ha. exists x, (passed_access p), y.
      splits; auto; [now left | now destruct p].
    + intros a Ha. cbn [owns] in Ha. apply wrap_owns in Ha. destruct Ha as [-> Ha]. exists x, y. splits; auto. now left.
  - unfold borrows_from. splits; try discriminate.
    + intros q Hq. cbn [occupies] in Hq. apply wrap_occupies in Hq. exists x, (passed_access p), y. splits; auto. now left.
    + intros a Ha. cbn [lives_in] in Ha. apply wrap_lives in Ha. exists x, (passed_access p), y.
      splits; auto; [now left | now destruct p].
    + intros a Ha. cbn [owns] in Ha. apply wrap_owns in Ha. destruct Ha as [-> Ha]. exists x, y. splits; auto. now left.
  - unfold borrows_from. splits; try discriminate.
    + intros c Hq. cbn [occupies] in Hq. rewrite !wrap_occupies in Hq. destruct Hq.
      * exists x, (passed_access p), u. splits; auto. now left.
      * exists y, (passed_access q), v. splits; auto. right. now left.
    + intros a Ha. cbn [lives_in] in Ha. rewrite !wrap_lives in Ha. destruct Ha.
      * exists x, (passed_access p), u. splits; auto; [now left|]. destruct p; [cbn; auto|discriminate].
      * exists y, (passed_access q), v. splits; auto; [right; now left|]. destruct q; [cbn; auto|discriminate].
    + intros a Ha. cbn [owns] in Ha. destruct Ha as [Ha|Ha]; apply wrap_owns in Ha; destruct Ha as [-> Ha].
      * exists x, u. splits; auto. now left.
      * exists y, v. splits; auto. right. now left.
Qed.
End Returned.

(** ** The invariant *)

Section Invariant.
Context {T : Type} {SC : HScalar T} {St : Type}.
Notation heap := (@heap T).

(** The cells of a matrix that count: [fp] says which, for a part of a split and
    for others. *)
Variable fp : bool -> matrix T -> nat * N -> Prop.

Definition foot (mats : list (matrix T)) (bt : list slot) (x : nat) (q : nat * N) : Prop :=
  exists w, nth_error mats x = Some w /\ fp (is_part bt x) w q.

Definition writer (mats : list (matrix T)) (x : nat) : Prop :=
  exists w, nth_error mats x = Some w /\ is_writable w = true.

Record inv (mats : list (matrix T)) (bt : list slot) : Prop := {
  inv_length : length bt = length mats;
  inv_closed : closed bt;
  inv_order : forall y p e, In (p, e) (loans_of bt y) -> (p < y)%nat;
  inv_write : forall y p e, is_live bt y = true -> writer mats y -> In (p, e) (loans_of bt y) ->
    e = true /\ writer mats p;
  inv_share : forall x y q, is_live bt x = true -> is_live bt y = true -> x <> y -> writer mats x ->
    foot mats bt x q -> foot mats bt y q -> below bt x y \/ below bt y x
}.

Lemma inv_later : forall mats bt bt', later bt bt' -> closed bt' -> inv mats bt -> inv mats bt'.
Proof.
  intros mats bt bt' L C [Il Ic Io Iw Is]. destruct L as (Ll & Ln & Lp & Lv). constructor; auto.
  - congruence.
  - intros y p e H. rewrite Ln in H. eauto.
  - intros y p e Hy Hw H. rewrite Ln in H. eauto.
  - intros x y q Hx Hy Hn Hw Fx Fy.
    assert (B : forall u v, below bt u v -> below bt' u v).
    { intros u v. apply below_mono. intros z l. now rewrite Ln. }
    unfold foot in *. rewrite Lp in *. destruct (Is x y q); auto.
Qed.

(** A chain of loans from a live writable matrix is exclusive. *)
Lemma chain_writers : forall mats bt y x, inv mats bt -> is_live bt y = true -> writer mats y -> below bt y x ->
  writer mats x.
Proof.
  intros mats bt y x I Hy Hw B. induction B as [|x z e B IH Hz]; auto.
  destruct (inv_write _ _ I z x e) as [_ H]; auto. eapply below_live; eauto. apply I.
Qed.

(** A live writable matrix below a used one is the used one. *)
Lemma writer_ends : forall mats bt x a y, inv mats bt -> calm bt x a -> is_live bt y = true -> writer mats y ->
  below bt y x -> y = x.
Proof.
  intros mats bt x a y I K Hy Hw B. destruct (below_last _ _ _ _ (inv_closed _ _ I) K Hy B) as [|(z & e & Bz & Hz & He)]; auto.
  destruct (inv_write _ _ I z x e) as [-> _]; auto.
  - eapply below_live; eauto. apply I.
  - eapply chain_writers; eauto.
  - discriminate He.
Qed.

(** What a matrix made from used operands shares with others. *)
Lemma made_shares : forall mats bt us bt' (Fv : nat * N -> Prop) (Wv : Prop), inv mats bt ->
  admit_uses bt us = Some bt' ->
  (forall q, Fv q -> exists x a, In (x, a) us /\ foot mats bt x q) ->
  (Wv -> exists x, us = [(x, Exclusive)] /\ writer mats x) ->
  forall y q, is_live bt' y = true -> foot mats bt y q -> Fv q -> Wv \/ writer mats y ->
  exists p e, In (p, e) (flat_map (lent bt) us) /\ below bt p y.
Proof.
  intros mats bt us bt' Fv Wv I Ha Hf Hw y q Hy Fy Hq Hc.
  destruct (admit_spec _ _ _ (inv_closed _ _ I) Ha) as (L & C & Hu & Hl & Hm).
  pose proof (inv_later _ _ _ L C I) as I'.
  assert (LEND : forall x a p e, In (x, a) us -> In (p, e) (lent bt (x, a)) -> below bt p y ->
     exists p e, In (p, e) (flat_map (lent bt) us) /\ below bt p y).
  { intros x a p e H1 H2 H3. exists p, e. split; auto. apply in_flat_map. eauto. }
  destruct (Hf q Hq) as (x & a & Hx & Fx). destruct (Hu x a Hx) as [Lx K].
  assert (Ly : is_live bt y = true) by now apply L.
  assert (ENDS : below bt y x -> y = x).
  { intros B. apply (later_below _ _ _ _ L) in B. destruct Hc as [HW|HW].
    - destruct (Hw HW) as (x' & E & _). subst us. destruct Hx as [E|[]]. injection E as <- <-.
      eapply exclusive_ends; eauto. discriminate.
    - eapply writer_ends; eauto. }
  destruct (Nat.eq_dec y x) as [->|Hn].
  - (* the operand itself, not moved *)
    destruct a; try (eapply LEND; [exact Hx | now left | constructor]).
    rewrite (Hm x Hx) in Hy. discriminate.
  - assert (B : below bt x y).
    { destruct Hc as [HW|HW].
      - destruct (Hw HW) as (x' & E & Wx). subst us. destruct Hx as [E|[]]. injection E as <- <-.
        destruct (inv_share _ _ I x' y q) as [B|B]; auto. now elim Hn; apply ENDS.
      - destruct (inv_share _ _ I y x q) as [B|B]; auto. now elim Hn; apply ENDS. }
    destruct a; try (eapply LEND; [exact Hx | now left | exact B]).
    apply below_first in B. destruct B as [|(p & e & Hp & B)]; [congruence|].
    eapply LEND; [exact Hx | exact Hp | exact B].
Qed.

Lemma nth_new : forall (A : Type) (l new : list A) x w, nth_error (l ++ new) x = Some w ->
  nth_error l x = Some w \/ exists k, x = (length l + k)%nat /\ nth_error new k = Some w.
Proof.
  intros A l new x w H. destruct (Nat.lt_ge_cases x (length l)) as [Hx|Hx].
  - rewrite nth_error_app1 in H by auto. auto.
  - right. exists (x - length l)%nat. rewrite nth_error_app2 in H by auto. split; [lia|auto].
Qed.

(** The slots and matrices grow. *)
Lemma inv_append : forall mats bt news nslots, inv mats bt -> length news = length nslots ->
  (forall k s, nth_error nslots k = Some s -> live s = true) ->
  (forall k p e, In (p, e) (loans_of nslots k) -> is_live bt p = true) ->
  (forall k w p e, nth_error news k = Some w -> is_writable w = true -> In (p, e) (loans_of nslots k) ->
     e = true /\ writer mats p) ->
  (forall k w y q, nth_error news k = Some w -> fp (is_part nslots k) w q -> is_live bt y = true ->
     foot mats bt y q -> is_writable w = true \/ writer mats y ->
     exists p e, In (p, e) (loans_of nslots k) /\ below bt p y) ->
  (forall j k v w q, j <> k -> nth_error news j = Some v -> nth_error news k = Some w ->
     is_writable v = true -> fp (is_part nslots j) v q -> fp (is_part nslots k) w q -> False) ->
  inv (mats ++ news) (bt ++ nslots).
Proof.
  intros mats bt news nslots I Hl Hlive Hlen Hw Hs Hd. pose proof (inv_length _ _ I) as Il.
  assert (WO : forall x, writer mats x -> writer (mats ++ news) x).
  { intros x (w & Hx & Hm). exists w. split; auto. rewrite nth_error_app1; auto. apply nth_error_Some. congruence. }
  assert (OLD : forall x, (x < length bt)%nat -> writer (mats ++ news) x -> writer mats x).
  { intros x Hx (w & E & Hm). exists w. rewrite nth_error_app1 in E by lia. auto. }
  assert (FOLD : forall x q, (x < length bt)%nat -> foot (mats ++ news) (bt ++ nslots) x q -> foot mats bt x q).
  { intros x q Hx (w & E & Hm). exists w. rewrite nth_error_app1 in E by lia. rewrite part_app_old in Hm by lia. auto. }
  assert (CASE : forall x, (x < length bt)%nat \/ exists k, x = (length bt + k)%nat).
  { intros x. destruct (Nat.lt_ge_cases x (length bt)); auto. right. exists (x - length bt)%nat. lia. }
  assert (NEW : forall k w, nth_error (mats ++ news) (length bt + k) = Some w -> nth_error news k = Some w).
  { intros k w E. rewrite nth_error_app2 in E by lia. now replace (length bt + k - length mats)%nat with k in E by lia. }
  constructor.
  - rewrite !app_length. lia.
  - intros y p e Hy He. destruct (CASE y) as [Hb|(k & ->)].
    + rewrite loans_app_old in He by auto. rewrite live_app_old in Hy by auto.
      rewrite live_app_old; [|eapply is_live_bound]; eapply inv_closed; eauto.
    + rewrite loans_app_new in He. rewrite live_app_old; [|eapply is_live_bound]; eapply Hlen; eauto.
  - intros y p e He. destruct (CASE y) as [Hb|(k & ->)].
    + rewrite loans_app_old in He by auto. eapply inv_order; eauto.
    + rewrite loans_app_new in He. apply Hlen in He. apply is_live_bound in He. lia.
  - intros y p e Hy HW He. destruct (CASE y) as [Hb|(k & ->)].
    + rewrite loans_app_old in He by auto. rewrite live_app_old in Hy by auto.
      destruct (inv_write _ _ I y p e); auto.
    + rewrite loans_app_new in He. destruct HW as (w & E & Hm). apply NEW in E.
      destruct (Hw k w p e); auto.
  - intros x y q Hx Hy Hn HW Fx Fy. destruct (CASE x) as [Bx|(j & ->)], (CASE y) as [By|(k & ->)].
    + rewrite live_app_old in * by auto. destruct (inv_share _ _ I x y q); auto using below_app.
    + right. rewrite live_app_old in Hx by auto. destruct Fy as (w & E & Hq). apply NEW in E. rewrite part_app_new in Hq.
      destruct (Hs k w x q) as (p & e & Hp & B); auto.
      eapply below_step; [rewrite loans_app_new; exact Hp | now apply below_app].
    + left. rewrite live_app_old in Hy by auto. destruct Fx as (w & E & Hq). apply NEW in E. rewrite part_app_new in Hq.
      destruct HW as (w' & E' & Hm). apply NEW in E'. assert (w' = w) by congruence. subst w'.
      destruct (Hs j w y q) as (p & e & Hp & B); auto.
      eapply below_step; [rewrite loans_app_new; exact Hp | now apply below_app].
    + exfalso. destruct Fx as (w & E & Hq), Fy as (v & Ev & Hqv). apply NEW in E. apply NEW in Ev. rewrite part_app_new in *.
      destruct HW as (w' & E' & Hm). apply NEW in E'. assert (w' = w) by congruence. subst w'.
      apply (Hd j k w v q); auto.
Qed.

(** A new matrix that borrows from used operands. *)
Lemma inv_borrow : forall st us bt bt' v, inv (st_mats st) bt -> admit_uses bt us = Some bt' ->
  (forall q, fp (existsb (fun u => is_part bt (fst u)) us) v q ->
     exists x a, In (x, a) us /\ foot (st_mats st) bt x q) ->
  borrows_from st us v ->
  inv (st_mats st ++ [v]) (bt' ++ [borrowing bt us]).
Proof.
  intros st us bt bt' v I Ha Hf (_ & Hw & _ & _).
  destruct (admit_spec _ _ _ (inv_closed _ _ I) Ha) as (L & C & Hu & Hl & Hm).
  pose proof (inv_later _ _ _ L C I) as I'. pose proof L as (Ll & Ln & Lp & Lv).
  assert (W : is_writable v = true -> exists x, us = [(x, Exclusive)] /\ writer (st_mats st) x).
  { intros H. destruct (Hw H) as (x & w & E & Hx & Hm'). exists x. split; auto. exists w. auto. }
  assert (K0 : forall k w, nth_error [v] k = Some w -> k = O /\ w = v).
  { intros [|[|k]] w E; cbn in E; try discriminate. injection E as <-. auto. }
  apply inv_append; auto.
  - intros [|[|k]] s E; cbn in E; try discriminate. now injection E as <-.
  - intros [|[|k]] p e H; cbn in H; try contradiction. apply in_flat_map in H. destruct H as ([x a] & Hx & H).
    destruct a; cbn in H.
    + destruct H as [E|[]]. injection E as <- <-. apply (Hl x Shared); auto. discriminate.
    + destruct H as [E|[]]. injection E as <- <-. apply (Hl x Exclusive); auto. discriminate.
    + (* lenders of a moved operand *)
      destruct (Hu x Moved Hx) as [Hx' Kx].
      unfold admit_uses in Ha. cbv zeta in Ha. destruct (no_conflict us) eqn:Hc; [|discriminate]. cbn [andb] in Ha.
      destruct (forallb _ us) eqn:Hfa; [|discriminate]. injection Ha as <-.
      rewrite forallb_forall in Hfa. pose proof (Hfa _ Hx) as Hx2. cbn [fst] in Hx2.
      destruct (use_all_spec us bt (inv_closed _ _ I)) as (L2 & C2 & K2).
      pose proof L2 as (_ & N2 & _ & V2).
      assert (P2 : is_live (fold_left use us bt) p = true).
      { apply (C2 x p e); auto. rewrite N2. exact H. }
      apply end_all_spec. split; auto. intros Hpm.
      pose proof (K2 p Moved Hpm x e Hx2) as Q. rewrite N2 in Q. specialize (Q H). destruct e; discriminate Q.
  - intros k w p e E Hww H. apply K0 in E. destruct E as [-> ->]. cbn in H.
    destruct (W Hww) as (x & -> & Hx). cbn in H. destruct H as [E|[]]. now injection E as <- <-.
  - intros k w y q E Hq Hy Fy HW. apply K0 in E. destruct E as [-> ->].
    assert (Fy' : foot (st_mats st) bt y q) by (unfold foot in *; now rewrite Lp in Fy).
    destruct (made_shares (st_mats st) bt us bt' (fp (existsb (fun u => is_part bt (fst u)) us) v)
      (is_writable v = true) I Ha Hf W y q Hy Fy' Hq HW) as (p & e & Hp & B).
    exists p, e. split; [exact Hp|]. now apply (later_below _ _ _ _ L).
  - intros j k u w q Hn Hj Hk. apply K0 in Hj. apply K0 in Hk. lia.
Qed.

Lemma inv_fresh : forall mats bt v, inv mats bt ->
  (forall y q, fp false v q -> foot mats bt y q -> False) ->
  inv (mats ++ [v]) (bt ++ [mkSlot true [] false]).
Proof.
  intros mats bt v I Hd. assert (K0 : forall k w, nth_error [v] k = Some w -> k = O /\ w = v).
  { intros [|[|k]] w E; cbn in E; try discriminate. injection E as <-. auto. }
  assert (L0 : forall k, loans_of [mkSlot true [] false] k = []) by (intros [|[|k]]; reflexivity).
  apply inv_append; auto.
  - intros [|[|k]] s E; cbn in E; try discriminate. now injection E as <-.
  - intros k p e H. rewrite L0 in H. destruct H.
  - intros k w p e _ _ H. rewrite L0 in H. destruct H.
  - intros k w y q E Hq Hy Fy _. apply K0 in E. destruct E as [-> ->]. destruct (Hd y q Hq Fy).
  - intros j k u w q Hn Hj Hk. apply K0 in Hj. apply K0 in Hk. lia.
Qed.

(** The parts of a split. *)
Lemma inv_parts : forall mats bt bt' x news, inv mats bt -> admit_uses bt [(x, Exclusive)] = Some bt' ->
  writer mats x -> (forall v q, In v news -> fp true v q -> foot mats bt x q) ->
  (forall j k v w q, j <> k -> nth_error news j = Some v -> nth_error news k = Some w ->
     fp true v q -> fp true w q -> False) ->
  inv (mats ++ news) (bt' ++ repeat (mkSlot true [(x, true)] true) (length news)).
Proof.
  intros mats bt bt' x news I Ha Wx Hf Hd.
  destruct (admit_spec _ _ _ (inv_closed _ _ I) Ha) as (L & C & Hu & Hl & Hm).
  pose proof (inv_later _ _ _ L C I) as I'. pose proof L as (Ll & Ln & Lp & Lv).
  assert (S : forall k s, nth_error (repeat (mkSlot true [(x, true)] true) (length news)) k = Some s ->
     s = mkSlot true [(x, true)] true).
  { intros k s E. apply nth_error_In, repeat_spec in E. exact E. }
  assert (LO : forall k p e, In (p, e) (loans_of (repeat (mkSlot true [(x, true)] true) (length news)) k) ->
     p = x /\ e = true).
  { intros k p e H. unfold loans_of in H. destruct (nth_error _ k) eqn:E; [|destruct H]. apply S in E. subst.
    destruct H as [H|[]]. now injection H as <- <-. }
  assert (NW : forall k w, nth_error news k = Some w ->
     nth_error (repeat (mkSlot true [(x, true)] true) (length news)) k = Some (mkSlot true [(x, true)] true)).
  { intros k w E. destruct (nth_error (repeat _ _) k) eqn:E'; [now apply S in E'; subst|].
    apply nth_error_None in E'. rewrite repeat_length in E'. apply nth_error_None in E'. congruence. }
  assert (PW : forall k w, nth_error news k = Some w ->
     is_part (repeat (mkSlot true [(x, true)] true) (length news)) k = true).
  { intros k w E. unfold is_part. now rewrite (NW k w E). }
  apply inv_append; auto.
  - now rewrite repeat_length.
  - intros k s E. apply S in E. now subst.
  - intros k p e H. apply LO in H. destruct H as [-> ->]. apply (Hl x Exclusive); [now left|discriminate].
  - intros k w p e _ _ H. apply LO in H. destruct H as [-> ->]. auto.
  - intros k w y q E Hq Hy Fy _. rewrite (PW k w E) in Hq. pose proof (nth_error_In _ _ E) as Hin.
    assert (Fy' : foot mats bt y q) by (unfold foot in *; now rewrite Lp in Fy).
    destruct (made_shares mats bt [(x, Exclusive)] bt' (foot mats bt x) True I Ha) with (y := y) (q := q)
      as (p & e & Hp & B); eauto.
    { intros q' Hq'. exists x, Exclusive. split; [now left|auto]. }
    exists p, e. split; [|now apply (later_below _ _ _ _ L)].
    unfold loans_of. rewrite (NW k w E). exact Hp.
  - intros j k v w q Hn Hj Hk _ Hqv Hqw. rewrite (PW j v Hj) in Hqv. rewrite (PW k w Hk) in Hqw. eauto.
Qed.

(** What is written through [x] is not seen by matrices that [x] does not borrow from. *)
Lemma written_unseen : forall mats bt us bt' x y q, inv mats bt -> admit_uses bt us = Some bt' ->
  In (x, Exclusive) us -> writer mats x -> is_live bt' y = true -> ~ below bt x y ->
  foot mats bt x q -> foot mats bt y q -> False.
Proof.
  intros mats bt us bt' x y q I Ha Hx Wx Hy Hn Fx Fy.
  destruct (admit_spec _ _ _ (inv_closed _ _ I) Ha) as (L & C & Hu & Hl & Hm).
  destruct (Hu x Exclusive Hx) as [Lx K]. assert (Ly : is_live bt y = true) by now apply L.
  assert (Hd : x <> y) by (intros ->; apply Hn; constructor).
  destruct (inv_share _ _ I x y q) as [B|B]; auto.
  apply (later_below _ _ _ _ L) in B. apply Hd. symmetry. eapply exclusive_ends; eauto. discriminate.
Qed.

(** Nothing is written to live matrices that are read-only. *)
Lemma read_only_above : forall mats bt x y, inv mats bt -> is_live bt x = true -> writer mats x -> ~ writer mats y ->
  ~ below bt x y.
Proof. intros mats bt x y I Hx Wx Hn B. apply Hn. eapply chain_writers; eauto. Qed.
End Invariant.

(** ** Entries *)

Section Entries.
Context {T : Type} {SC : HScalar T} {St : Type}.
Notation heap := (@heap T).

Lemma has_cell_lives : forall (x : matrix T) q, has_cell x q -> lives_in (fst q) x.
Proof.
  intros x q. induction x; cbn [has_cell lives_in]; auto; [|tauto]. intros (p & _ & ->). reflexivity.
Qed.

Lemma has_cell_occupies : forall (h : heap) x q, valid h x -> has_cell x q -> occupies x q.
Proof.
  intros h x q. induction x as [b | x IH | x IH | x IH s | x IHx y IHy l]; cbn [valid has_cell occupies]; auto.
  - intros (_ & _ & Hc) (p & Hp & ->). specialize (Hc p Hp). unfold entry_cell, cell_of_region. cbn [fst snd]. lia.
  - intros (Hx & Hy & _). tauto.
Qed.

Lemma wrap_has_cell : forall p (x : matrix T) q, has_cell (wrap p x) q <-> has_cell x q.
Proof. intros [] x q; cbn; tauto. Qed.

(** Reads depend on the cells of the entries only. *)
Lemma entry_stored : forall (h h' : heap) x, valid h x ->
  (forall q, has_cell x q -> hget h' (fst q) (snd q) = hget h (fst q) (snd q)) ->
  forall p, stored (mat_layout x) p -> entry h' x p = entry h x p.
Proof.
  intros h h' x. unfold entry.
  induction x as [b | x IH | x IH | x IH s | x IHx y IHy l]; cbn [valid has_cell mat_layout value]; auto.
  - intros _ H p Hp. apply H. eauto.
  - intros Hv H p Hp. now rewrite IH.
  - intros (Hx & Hy & Hd & Hk & ->) H p Hp.
    apply (proj1 (index_layout_stored _ _)) in Hp.
    assert (Hp' : stored (mat_layout y) p) by (apply (same_kind_stored (mat_layout x)); auto).
    rewrite (IHx Hx (fun q Hq => H q (or_introl Hq)) p Hp), (IHy Hy (fun q Hq => H q (or_intror Hq)) p Hp'). reflexivity.
Qed.

Lemma reads_entries : forall (h h' : heap) x, valid h x -> valid h' x ->
  (forall q, has_cell x q -> hget h' (fst q) (snd q) = hget h (fst q) (snd q)) -> reads_same h h' x.
Proof.
  intros h h' x Hv Hv' H m. pose proof (entry_stored h h' x Hv H) as E. split.
  - intros r c. destruct (stored_dec (mat_layout x) (r, c)) as [Hp|Hp].
    + destruct (get_stored m h x r c Hv Hp) as (v & -> & Ev). destruct (get_stored m h' x r c Hv' Hp) as (v' & -> & Ev').
      rewrite E in Ev' by auto. congruence.
    + rewrite !get_not_stored by auto. reflexivity.
  - intros i. destruct (N.ltb_spec i (entry_count (mat_layout x))) as [Hi|Hi].
    + destruct (get1d_stored m h x i Hv Hi) as (v & -> & Ev). destruct (get1d_stored m h' x i Hv' Hi) as (v' & -> & Ev').
      rewrite E in Ev' by now apply pos_spec. congruence.
    + rewrite !get1d_not_stored by auto. reflexivity.
Qed.

(** A block of a part, by the true strides or of one row. *)
Lemma block_cells : forall m (h : heap) mut b tl d v D s q, base_valid h b ->
  bm_layout b = ArbitraryStrideRowMajor D s -> row_strides (bm_layout b) ->
  nonempty d -> m = Checked \/ (fst tl + fst d < usize_mod /\ snd tl + snd d < usize_mod) ->
  fst d = 1 \/ true_strides (bm_layout b) ->
  block m mut b tl d = Ok v -> has_cell (@MBase T v) q -> has_cell (@MBase T b) q.
Proof.
  intros m h mut b tl d v D s q Hv Hl Hr Hn Hm Ht E (p & Hp & ->).
  assert (Ho : block_order (bm_layout b) = Some ByRow) by now rewrite Hl.
  pose proof (row_strides_chain _ _ Hr Ho) as Hc.
  destruct (inside_dec (dim (bm_layout b)) tl d) as [Hi|Hi].
  - destruct (block_ok m h mut b tl d Hv Hc Hn Hi) as (E' & _ & _). rewrite E in E'. injection E' as ->.
    assert (Hd : in_range d p). { destruct Hp as [Hp _]. now rewrite block_view_dim in Hp. }
    assert (Hq : stored (bm_layout b) (shift tl p)).
    { rewrite Hl in Hi |- *. split; [|discriminate]. destruct Hi, Hd. cbn [dim fst snd] in *. split; cbn [dim shift fst snd]; lia. }
    exists (shift tl p). split; auto. rewrite block_view_cell. unfold entry_cell. f_equal.
    destruct Ht as [Ht|Ht].
    + rewrite Hl in Hr |- *. cbn [row_strides] in Hr. destruct Hr as [Hs _]. destruct Hd as [Hd _].
      destruct s as [s1 s2], p as [p1 p2], tl as [t1 t2]. unfold shift, told_stride. cbn [cell block_order true_stride dim fst snd] in *.
      subst s2. replace p1 with 0 by lia. lia.
    + destruct Ht as (s' & Es & Ht). rewrite Hl in Es, Ht, Hi, Hq. cbn [stride] in Es. injection Es as <-.
      cbn [dim] in Ht. rewrite Hl. destruct Hd as [H1 H2], Hi as [H3 H4], Hn. cbn [dim] in *.
      pose proof (Ht tl) as T1. pose proof (Ht (shift tl p)) as T2.
      cbn [told_stride block_order dim fst snd]. unfold shift in *. cbn [fst snd] in *.
      rewrite T1 by (split; cbn [fst snd]; lia). rewrite T2 by (split; cbn [fst snd]; lia). lia.
  - exfalso. rewrite (block_outside_panics m mut b tl d ByRow) in E; auto; discriminate.
Qed.

(** The writes of a loop with a bound. *)
Lemma loop_touches_bound : forall P (f : N -> heap -> outcome heap) n h h',
  (forall k h1 h2, k < n -> extends h h1 -> f k h1 = Ok h2 -> touches P h1 h2) -> for_range n f h = Ok h' -> touches P h h'.
Proof.
  intros P f n h h' Hf. unfold for_range.
  assert (G : forall k i h1, i + N.of_nat k <= n -> extends h h1 -> loop k i f h1 = Ok h' -> touches P h1 h').
  { intros k. induction k as [|k IH]; intros i h1 Hi He H; cbn [loop] in H.
    - injection H as <-. apply touches_refl.
    - apply bind_ok in H. destruct H as (h2 & E & H). assert (W : touches P h1 h2) by (apply (Hf i); auto; lia).
      eapply touches_trans; [exact W|]. eapply IH; [|eapply extends_trans; [exact He|apply W]|exact H]. lia. }
  intros H. apply (G (N.to_nat n) 0); auto; [lia|]. apply extends_refl.
Qed.

(** A product writes to the entries of its target. *)
Lemma matmul_entries : forall kern (h : heap) alpha a b beta c h', base_valid h c -> true_strides (bm_layout c) ->
  matmul kern h alpha a b beta c = Ok h' -> touches (has_cell (@MBase T c)) h h'.
Proof.
  intros kern h alpha a b beta c h' Hv Ht H. unfold matmul, gemm in H.
  apply bind_ok in H. destruct H as (u & Hd & H). unfold assert_ in Hd.
  destruct (matmul_dims_ok _ _ _) eqn:Hdim; [|discriminate]. clear Hd.
  apply bind_ok in H. destruct H as (sa & _ & H). apply bind_ok in H. destruct H as (sb & _ & H).
  apply bind_ok in H. destruct H as (sc & Ec & H).
  destruct (true_told h c Hv Ht) as (s & Es & Hok & Hcell). assert (s = sc) by congruence. subst s. clear Es.
  pose proof (true_strided_type _ Ht) as Hty.
  eapply loop_touches_bound; [|exact H]. intros i h1 h2 Hi He1 H1. cbv beta in H1.
  eapply loop_touches_bound; [|exact H1]. intros j h3 h4 Hj He2 H2. cbv beta in H2. unfold gemm_entry in H2.
  apply bind_ok in H2. destruct H2 as (ps & _ & H2). apply bind_ok in H2. destruct H2 as (old & _ & H2).
  cbn [g_sc] in H2. unfold matmul_dims_ok in Hdim.
  assert (Hp : in_range (dim (bm_layout c)) (i, j)) by (split; cbn [fst snd]; lia).
  assert (Hok3 : told_ok h3 c sc) by (eapply told_ok_extends; [|exact Hok]; eapply extends_trans; eauto).
  change (as_isize (fst sc), as_isize (snd sc)) with (isizes sc) in H2.
  rewrite (write_told h3 c sc i j _ Hok3 Hp) in H2. injection H2 as <-.
  split; [apply extends_hset|]. intros x k _ E. apply hget_hset_other. intros Eq. apply E. exists (i, j). split.
  - now apply strided_stored.
  - rewrite <- Hcell by auto. rewrite <- Eq. apply surjective_pairing.
Qed.
End Entries.

(** ** Steps *)

Section Steps.
Context {T : Type} {SC : HScalar T} {St : Type}.
Variable kern : kernel T.
Notation heap := (@heap T).
Notation bstate := (bstate T).
Notation action := (action T St).

Lemma bstep_inv : forall m (bs : bstate) (a : action) bs' r, bstep kern m bs a = Some (Ok (bs', r)) ->
  (exists o bt st', a = Do o /\ admit_uses (b_slots bs) (uses o) = Some bt /\
     step kern m (b_state bs) o = Ok (st', r) /\
     bs' = mkBState st' (match r with RNew => bt ++ returned (b_slots bs) o | _ => bt end)) \/
  (exists x bt, a = Drop x /\ admit_uses (b_slots bs) [(x, Moved)] = Some bt /\
     bs' = mkBState (b_state bs) bt /\ r = RDone).
Proof.
  intros m bs [o|x] bs' r H; cbn [bstep] in H.
  - left. destruct (admit_uses _ _) as [bt|] eqn:E; [|discriminate]. apply some_inj in H.
    apply bind_ok in H. destruct H as ((st', r') & Es & H). injection H as <- <-. exists o, bt, st'. auto.
  - right. destruct (admit_uses _ _) as [bt|] eqn:E; [|discriminate]. apply some_inj in H. injection H as <- <-.
    exists x, bt. auto.
Qed.

Lemma written_uses : forall (o : call T St) x, written (Do o) = Some x -> In (x, Exclusive) (uses o).
Proof. intros o x H. destruct o; try discriminate H; cbn in H; injection H as <-; cbn; auto. Qed.

Lemma written_target : forall (st : state T) (o : call T St) w, target st o = Some w ->
  exists x, written (Do o) = Some x /\ nth_error (st_mats st) x = Some w.
Proof. intros st o w H. destruct o; try discriminate H; cbn in H; cbn; eauto. Qed.

Lemma step_writer : forall m st (o : call T St) x st' r, written (Do o) = Some x ->
  step kern m st o = Ok (st', r) -> st' = st \/ writer (st_mats st) x.
Proof.
  intros m st o x st' r Hw H. unfold step in H.
  assert (G : exec kern m st o = None \/ writer (st_mats st) x).
  { assert (B : forall y b, lookup_mut st y = Some b -> writer (st_mats st) y).
    { intros y b Hb. apply lookup_mut_writable in Hb. exists (MBase b). exact Hb. }
    destruct o; try discriminate Hw; cbn in Hw; injection Hw as <-; cbn [exec]; unfold typed, when;
      repeat match goal with
        | |- context [lookup ?s ?n] => destruct (lookup s n) eqn:?
        | |- context [lookup_mut ?s ?n] => destruct (lookup_mut s n) eqn:?
        | |- context [lookup_base ?s ?n] => destruct (lookup_base s n) eqn:?
        end; auto; try (right; eapply B; eauto; fail);
      match goal with |- context [is_writable ?y] => destruct (is_writable y) eqn:? end; auto;
      right; eexists; split; eauto. }
  destruct G as [G|G]; auto. rewrite G in H. injection H as <- _. auto.
Qed.

(** The cells a matrix reads that nobody wrote to. *)
Lemma frame : forall fp m (bs : bstate) (o : call T St) bt st' r y w,
  inv fp (st_mats (b_state bs)) (b_slots bs) ->
  admit_uses (b_slots bs) (uses o) = Some bt -> step kern m (b_state bs) o = Ok (st', r) ->
  (forall x w', written (Do o) = Some x -> nth_error (st_mats (b_state bs)) x = Some w' ->
     touches (fp (is_part (b_slots bs) x) w') (st_heap (b_state bs)) (st_heap st')) ->
  (written (Do o) = None -> touches (fun _ => False) (st_heap (b_state bs)) (st_heap st')) ->
  placed (st_heap (b_state bs)) w ->
  is_live bt y = true -> nth_error (st_mats (b_state bs)) y = Some w ->
  (forall x, written (Do o) = Some x -> ~ below (b_slots bs) x y) ->
  forall q, fp (is_part (b_slots bs) y) w q -> (fst q < length (st_heap (b_state bs)))%nat ->
    hget (st_heap st') (fst q) (snd q) = hget (st_heap (b_state bs)) (fst q) (snd q).
Proof.
  intros fp m bs o bt st' r y w I Ha Hs Ht Ht0 Hp Hy Hw Hn [a i] Hq Hl. cbn [fst snd] in *.
  destruct (written (Do o)) as [x|] eqn:Ew.
  - destruct (step_writer m _ _ _ _ _ Ew Hs) as [->|(w' & Hx & Hm)]; auto.
    destruct (Ht x w' eq_refl Hx) as [_ G]. apply G; auto. intros Hq'.
    refine (written_unseen fp _ _ _ _ x y (a, i) I Ha (written_uses _ _ Ew) _ Hy (Hn x eq_refl) _ _).
    + exists w'. auto.
    + exists w'. auto.
    + exists w. auto.
  - destruct (Ht0 eq_refl) as [_ G]. now apply G.
Qed.

(** Calls that write to no matrix. *)
Lemma unwritten_touches : forall m st (o : call T St) st' r, all_placed st -> step kern m st o = Ok (st', r) ->
  written (Do o) = None -> touches (fun _ => False) (st_heap st) (st_heap st').
Proof.
  intros m st o st' r Hp H Hw. apply step_effect in H; auto. destruct H as (Ht & _).
  eapply touches_weaken; [|exact Ht]. intros a i _ (w & Hx & _). apply written_target in Hx.
  destruct Hx as (x & E & _). congruence.
Qed.

(** *** Without splits: the cells of the containers *)

Definition region_foot (_ : bool) (w : matrix T) (q : nat * N) : Prop := occupies w q.

Definition binv (bs : bstate) : Prop :=
  inv region_foot (st_mats (b_state bs)) (b_slots bs) /\ all_placed (b_state bs).

Lemma binitial_inv : forall fp, inv fp (st_mats (b_state (@binitial T))) (b_slots (@binitial T)).
Proof.
  intros fp. cbn. constructor; try reflexivity.
  - intros y p e H. destruct y; discriminate.
  - intros y p e H. destruct y; destruct H.
  - intros y p e H. destruct y; discriminate.
  - intros x y q H. destruct x; discriminate.
Qed.

Lemma unborrowed_kind : forall (r : result T St) (bt l : list slot), r <> RNew ->
  (match r with RNew => bt ++ l | _ => bt end) = bt.
Proof. intros [] bt l H; auto. now elim H. Qed.

Lemma step_inv : forall m (bs : bstate) (a : action) bs' r, no_pointers a -> no_split a -> binv bs ->
  bstep kern m bs a = Some (Ok (bs', r)) -> binv bs'.
Proof.
  intros m bs a bs' r Hn Hsp [I P] H. apply bstep_inv in H.
  destruct H as [(o & bt & st' & -> & Ha & Hs & ->)|(x & bt & -> & Ha & -> & _)].
  2:{ destruct (admit_spec _ _ _ (inv_closed _ _ _ I) Ha) as (L & C & _). split; auto. cbn. eapply inv_later; eauto. }
  pose proof (step_effect _ _ _ _ _ _ P Hs) as (_ & _ & P'). split; auto. cbn [b_state b_slots].
  pose proof (step_kinds _ _ _ _ _ _ Hn Hs) as K.
  destruct (admit_spec _ _ _ (inv_closed _ _ _ I) Ha) as (L & C & _).
  pose proof (inv_later _ _ _ _ L C I) as I'.
  destruct K as [r Hr E | b E Eb Hl Ho Hr | v E Eh Hr Hd | x at_ b b0 b1 b2 b3 -> _ _ _ _ _].
  - rewrite unborrowed_kind by auto. rewrite E. exact I'.
  - rewrite Hr, E. apply inv_fresh; auto. intros y q Hq (w & Ew & Hw). apply occupies_lives in Hq, Hw.
    pose proof (lookup_placed _ _ _ P Ew _ Hw) as Hlt. cbn in Hq. lia.
  - rewrite Hr, E. apply derives_borrows in Hd. apply inv_borrow; auto.
    intros q Hq. destruct Hd as (Ho & _). destruct (Ho q Hq) as (x & a & w & Hx & Ew & Hw).
    exists x, a. split; auto. exists w. auto.
  - destruct Hsp.
Qed.

Lemma step_reads : forall m (bs : bstate) (a : action) bs' r, no_pointers a -> no_split a -> binv bs ->
  bstep kern m bs a = Some (Ok (bs', r)) ->
  forall y w, usable bs y w -> is_live (b_slots bs') y = true ->
    nth_error (st_mats (b_state bs')) y = Some w /\
    ((forall x, written a = Some x -> ~ below (b_slots bs) x y) ->
     reads_same (st_heap (b_state bs)) (st_heap (b_state bs')) w).
Proof.
  intros m bs a bs' r Hn Hsp [I P] H y w [Hy Hw] Hy'. apply bstep_inv in H.
  destruct H as [(o & bt & st' & -> & Ha & Hs & ->)|(x & bt & -> & Ha & -> & _)]; cbn [b_state b_slots] in *.
  2:{ split; auto. intros _ m'. split; reflexivity. }
  destruct (admit_spec _ _ _ (inv_closed _ _ _ I) Ha) as (L & C & _).
  assert (Hb : (y < length bt)%nat). { destruct L as (-> & _). now apply is_live_bound. }
  assert (Ly : is_live bt y = true). { destruct r; auto. now rewrite live_app_old in Hy'. }
  destruct (step_effect _ _ _ _ _ _ P Hs) as (Ht & (new & En) & P').
  split.
  - rewrite En, nth_error_app1; auto. apply nth_error_Some. congruence.
  - intros Hnb. apply reads_occupied. intros q Hq.
    apply (frame region_foot m bs o bt st' r y w); auto.
    + intros x w' Ew Hx. eapply touches_weaken; [|exact Ht]. intros a i _ (w2 & Ht2 & Ho).
      apply written_target in Ht2. destruct Ht2 as (x2 & E2 & Hx2). assert (x2 = x) by congruence. subst x2.
      unfold region_foot. congruence.
    + eapply unwritten_touches; eauto.
    + eapply lookup_placed; eauto.
    + eapply lookup_placed; [exact P|exact Hw|]. now apply occupies_lives.
Qed.

(** *** Histories *)

Lemma brun_cons : forall m bs (a : action) acts bs' rs, brun kern m bs (a :: acts) = Some (Ok (bs', rs)) ->
  exists bs1 r rs1, bstep kern m bs a = Some (Ok (bs1, r)) /\ brun kern m bs1 acts = Some (Ok (bs', rs1)) /\ rs = r :: rs1.
Proof.
  intros m bs a acts bs' rs H. cbn [brun] in H.
  destruct (bstep kern m bs a) as [[[bs1 r]| |]|] eqn:E; try discriminate.
  destruct (brun kern m bs1 acts) as [o|] eqn:E2; [|discriminate]. apply some_inj in H.
  apply bind_ok in H. destruct H as ((bs2, rs2) & -> & H). injection H as <- <-. exists bs1, r, rs2. auto.
Qed.

Lemma run_inv : forall m (acts : list action) bs bs' rs,
  Forall no_pointers acts -> Forall no_split acts -> binv bs -> brun kern m bs acts = Some (Ok (bs', rs)) -> binv bs'.
Proof.
  intros m acts. induction acts as [|a acts IH]; intros bs bs' rs Hn Hs I H.
  - cbn in H. injection H as <- <-. exact I.
  - apply brun_cons in H. destruct H as (bs1 & r & rs1 & E & H & ->). inversion Hn; inversion Hs; subst.
    apply (IH bs1 bs' rs1); auto. eapply step_inv; eauto.
Qed.

(** The dead stay dead. *)
Lemma step_live : forall m (bs : bstate) (a : action) bs' r y, closed (b_slots bs) ->
  bstep kern m bs a = Some (Ok (bs', r)) -> (y < length (b_slots bs))%nat ->
  is_live (b_slots bs') y = true -> is_live (b_slots bs) y = true.
Proof.
  intros m bs a bs' r y C H Hy Hl. apply bstep_inv in H.
  destruct H as [(o & bt & st' & -> & Ha & Hs & ->)|(x & bt & -> & Ha & -> & _)]; cbn [b_state b_slots] in *;
    destruct (admit_spec _ _ _ C Ha) as (L & _); pose proof L as (Ll & _ & _ & Lv); apply Lv; auto.
  destruct r; auto. rewrite live_app_old in Hl; auto. lia.
Qed.

Lemma step_length : forall m (bs : bstate) (a : action) bs' r, closed (b_slots bs) ->
  bstep kern m bs a = Some (Ok (bs', r)) -> (length (b_slots bs) <= length (b_slots bs'))%nat.
Proof.
  intros m bs a bs' r C H. apply bstep_inv in H.
  destruct H as [(o & bt & st' & -> & Ha & Hs & ->)|(x & bt & -> & Ha & -> & _)]; cbn [b_state b_slots] in *;
    destruct (admit_spec _ _ _ C Ha) as (L & _); pose proof L as (Ll & _); [|lia].
  destruct r; rewrite ?app_length; lia.
Qed.

(** Read-only matrices read the same while they live. *)
Lemma step_stable : forall m (bs : bstate) (a : action) bs' r, no_pointers a -> no_split a -> binv bs ->
  bstep kern m bs a = Some (Ok (bs', r)) ->
  forall y w, usable bs y w -> is_live (b_slots bs') y = true -> is_writable w = false ->
    reads_same (st_heap (b_state bs)) (st_heap (b_state bs')) w.
Proof.
  intros m bs a bs' r Hn Hsp I H y w Hy Hy' Hm.
  destruct (step_reads m bs a bs' r Hn Hsp I H y w Hy Hy') as [_ G].
  destruct a as [o|x].
  2:{ apply G. discriminate. }
  destruct (written (Do o)) as [x|] eqn:Ew.
  2:{ apply G. intros x E. congruence. }
  apply bstep_inv in H. destruct H as [(o' & bt & st' & E & Ha & Hs & ->)|(x' & bt & E & _)]; [|discriminate].
  injection E as <-. cbn [b_state b_slots] in *. destruct I as [I P], Hy as [Hy Hw].
  destruct (step_writer m _ _ _ _ _ Ew Hs) as [->|Wx].
  { intros m'. split; reflexivity. }
  apply G. intros x' E B. injection E as <-.
  destruct (admit_spec _ _ _ (inv_closed _ _ _ I) Ha) as (_ & _ & Hu & _).
  destruct (Hu x Exclusive (written_uses _ _ Ew)) as [Lx _].
  destruct (chain_writers _ _ _ _ _ I Lx Wx B) as (w' & E & Hm'). congruence.
Qed.

(** *** With splits: the cells of the entries *)

Definition part_foot (pt : bool) (w : matrix T) (q : nat * N) : Prop :=
  if pt then has_cell w q else occupies w q.

Definition pinv (m : mode) (bs : bstate) : Prop :=
  inv part_foot (st_mats (b_state bs)) (b_slots bs) /\ sound m (b_state bs) /\
  forall y b, is_part (b_slots bs) y = true -> nth_error (st_mats (b_state bs)) y = Some (MBase b) ->
    exists D s, bm_layout b = ArbitraryStrideRowMajor D s.

Lemma has_cell_base : forall (w : matrix T) b q, writes_to w = Some b -> has_cell (@MBase T b) q -> has_cell w q.
Proof.
  intros w b q. induction w as [b' | x IH | x IH | x IH s | x IHx y IHy l]; cbn [writes_to has_cell]; try discriminate; auto.
  destruct (container_is_mut _); [|discriminate]. intros E. injection E as <-. auto.
Qed.

Lemma visit_cells_touches : forall (S : Type) (f : closure (T := T) S) (P : nat * N -> Prop) qs (h : heap) s h' s' pn,
  (forall q, In q qs -> P q) -> visit_cells f h s qs = Some (h', s', pn) -> touches P h h'.
Proof.
  intros S f P qs. induction qs as [|[a i] qs IH]; intros h s h' s' pn HP H; cbn [visit_cells] in H.
  - injection H as <- <- <-. apply touches_refl.
  - destruct (hget h a i) as [v|]; [|discriminate]. destruct (f s v) as [[s1 v1] pn1].
    assert (W : touches P h (hset h a i v1)).
    { split; [apply extends_hset|]. intros b j _ Hn. apply hget_hset_other. intros E. apply Hn. rewrite <- E.
      apply HP. now left. }
    destruct pn1.
    + injection H as <- <- <-. exact W.
    + eapply touches_trans; [exact W|]. eapply IH; [|exact H]. intros q' Hq'. apply HP. now right.
Qed.

Lemma listed_cells : forall b qs q, lists_cells b qs -> In q qs -> has_cell (@MBase T b) q.
Proof.
  intros b qs q [Hl Hn] Hq. apply In_nth_error in Hq. destruct Hq as (k & Hk).
  assert (Hb : (k < length qs)%nat) by (apply nth_error_Some; congruence).
  destruct (pos_spec (bm_layout b) (N.of_nat k)) as [Hp _]; [lia|].
  assert (En : number (bm_layout b) (pos (bm_layout b) (N.of_nat k)) = N.of_nat k) by (apply number_pos; lia).
  exists (pos (bm_layout b) (N.of_nat k)). split; auto. specialize (Hn _ Hp). rewrite En, Nat2N.id in Hn. congruence.
Qed.

Lemma for_each_entries : forall (S : Type) m (h : heap) b (f : closure (T := T) S) s h' s' pn, base_valid h b ->
  for_each m h b f s = Ok (h', s', pn) -> touches (has_cell (@MBase T b)) h h'.
Proof.
  intros S m h b f s h' s' pn Hv H. destruct (c30_cells S m h b f s Hv) as (qs & h1 & s1 & p1 & Hl & Hc & E).
  rewrite E in H. injection H as <- <- <-. eapply visit_cells_touches; [|exact Hc]. intros q. now apply listed_cells.
Qed.

Lemma set_entries : forall m (h : heap) w r c v h', valid h w -> is_writable w = true -> set m h w r c v = Ok h' ->
  touches (has_cell w) h h'.
Proof.
  intros m h w r c v h' Hv Hm H. apply writable_base in Hm. destruct Hm as (b & Hb).
  destruct (stored_dec (mat_layout w) (r, c)) as [Hp|Hp].
  - destruct (set_stored m h w b r c v Hv Hb Hp) as (h1 & E & -> & _). rewrite E in H. injection H as <-.
    split; [apply extends_hset|]. intros a i _ Hn. apply hget_hset_other. intros Eq. apply Hn.
    replace (a, i) with (entry_cell b (r, c)) by (rewrite <- Eq; apply surjective_pairing).
    eapply has_cell_base; eauto. exists (r, c). split; auto.
    now rewrite <- (writes_to_layout _ _ Hb).
  - destruct (set_not_stored m h w b r c v Hv Hb Hp) as [E _]. congruence.
Qed.

Lemma set1d_entries : forall m (h : heap) w i v h', valid h w -> is_writable w = true -> set1d m h w i v = Ok h' ->
  touches (has_cell w) h h'.
Proof.
  intros m h w i v h' Hv Hm H. pose proof Hm as Hm'. apply writable_base in Hm'. destruct Hm' as (b & Hb).
  destruct (N.ltb_spec i (entry_count (mat_layout w))) as [Hi|Hi].
  - rewrite (set1d_stored m h w b i v Hv Hb Hi) in H. eapply set_entries; eauto.
  - exfalso. enough (set1d m h w i v = Panic) by congruence. now apply set1d_not_stored.
Qed.

(** What safe calls write to a part. *)
Lemma part_touches : forall m st (o : call T St) x w st' r, sound m st -> safe_call o ->
  written (Do o) = Some x -> lookup st x = Some w ->
  (match o with
   | CSliceWrite _ _ _ _ _ => False
   | CMatmul _ _ _ _ _ => forall b, w = MBase b -> true_strides (bm_layout b)
   | _ => True
   end) ->
  step kern m st o = Ok (st', r) -> touches (has_cell w) (st_heap st) (st_heap st').
Proof.
  intros m st o x w st' r S Hs Hw Hx Hr H. unfold step in H.
  destruct (exec kern m st o) as [[[st1 r1]| |]|] eqn:E; try discriminate H;
    injection H as <- <-; try apply touches_refl.
  destruct (lookup_sound _ _ _ _ S Hx) as (Hv & _).
  destruct o; try discriminate Hw; try destruct Hr; cbn [safe_call] in Hs; try contradiction;
    cbn in Hw; injection Hw as <-; cbn [exec] in E; unfold typed, when in E;
    repeat match type of E with
      | match ?x with _ => _ end = Some _ => destruct x eqn:?; try discriminate E
      end;
    apply some_inj in E.
  - assert (m0 = w) by congruence. subst m0. unfold done in E. apply bind_ok in E. destruct E as (h' & E1 & E).
    injection E as <- <-. cbn [st_heap]. eapply set_entries; eauto.
  - assert (m0 = w) by congruence. subst m0. unfold done in E. apply bind_ok in E. destruct E as (h' & E1 & E).
    injection E as <- <-. cbn [st_heap]. eapply set1d_entries; eauto.
  - apply lookup_mut_writable in Heqo. destruct Heqo as [Hb _]. assert (w = MBase b) by congruence. subst w.
    unfold looped in E. apply bind_ok in E. destruct E as (((h', s'), pn) & E1 & E). injection E as <- <-.
    cbn [st_heap]. eapply for_each_entries; eauto.
  - apply lookup_mut_writable in Heqo. destruct Heqo as [Hb _]. assert (w = MBase b) by congruence. subst w.
    unfold looped in E. apply bind_ok in E. destruct E as (((h', s'), pn) & E1 & E). injection E as <- <-.
    cbn [st_heap]. eapply for_each_entries; eauto.
  - apply lookup_mut_writable in Heqo1. destruct Heqo1 as [Hb _]. assert (w = MBase b2) by congruence. subst w.
    unfold done in E. apply bind_ok in E. destruct E as (h' & E1 & E).
    injection E as <- <-. cbn [st_heap]. eapply matmul_entries; eauto.
Qed.

Lemma safe_no_pointers : forall o : call T St, safe_call o -> no_pointers (Do o).
Proof. intros []; cbn; auto. Qed.

Lemma sound_valid : forall m (st : state T) x w, sound m st -> nth_error (st_mats st) x = Some w -> valid (st_heap st) w.
Proof. intros m st x w S Hx. destruct (lookup_sound _ _ _ _ S Hx) as (Hv & _). exact Hv. Qed.

Lemma foot_placed : forall m (st : state T) bt x q, sound m st -> foot part_foot (st_mats st) bt x q ->
  (fst q < length (st_heap st))%nat.
Proof.
  intros m st bt x q S (w & Ew & Hq). pose proof (sound_placed _ _ S) as P.
  apply (lookup_placed _ _ _ P Ew). unfold part_foot in Hq. destruct (is_part bt x); [now apply has_cell_lives | now apply occupies_lives].
Qed.

(** The cells of a new matrix are cells of the operands. *)
Lemma derives_foot : forall m (bs : bstate) (o : call T St) v q, pinv m bs -> safe_call o ->
  m = Checked \/ no_wrap_call (b_state bs) o -> respects_parts bs o -> derives m (b_state bs) o v ->
  part_foot (existsb (fun u => is_part (b_slots bs) (fst u)) (uses o)) v q ->
  exists x a, In (x, a) (uses o) /\ foot part_foot (st_mats (b_state bs)) (b_slots bs) x q.
Proof.
  intros m bs o v q (I & S & PL) Hs Hm Hr Hd Hq.
  destruct (existsb _ _) eqn:Ex.
  2:{ apply derives_borrows in Hd. destruct Hd as (Ho & _). destruct (Ho q Hq) as (x & a & w & Hx & Ew & Hw).
      exists x, a. split; auto. exists w. split; auto. unfold part_foot.
      destruct (is_part (b_slots bs) x) eqn:Ep; auto. exfalso.
      enough (existsb (fun u => is_part (b_slots bs) (fst u)) (uses o) = true) by congruence.
      apply existsb_exists. exists (x, a). auto. }
  cbn [part_foot] in Hq.
  assert (OP : forall x w, nth_error (st_mats (b_state bs)) x = Some w -> has_cell w q ->
     foot part_foot (st_mats (b_state bs)) (b_slots bs) x q).
  { intros x w Ew Hw. exists w. split; auto. unfold part_foot. destruct (is_part (b_slots bs) x); auto.
    eapply has_cell_occupies; eauto. eapply sound_valid; eauto. }
  destruct Hd as
    [mut x first last rs cs l b rg v E Er Ev | mut x tl d b v E Ev | x y E | x y E | s p x y E | s p x y E
    | p p' x y u v l E1 E2]; cbn [uses existsb fst orb] in *.
  - rewrite orb_false_r in Ex. cbn in Hr. contradiction.
  - rewrite orb_false_r in Ex. cbn in Hr. apply lookup_block_inv in E. specialize (Hr Ex b E).
    apply lookup_base_inv in E. exists x, (mut_access mut). split; [now left|]. apply (OP x (MBase b) E).
    destruct (PL x b Ex E) as (D & s & Hl). destruct (lookup_sound _ _ _ _ S E) as (Hv & Ht).
    cbn in Hs, Hv, Ht. eapply (block_cells m (st_heap (b_state bs)) mut b tl d v D s); eauto.
    destruct Hm as [|(H1 & H2 & _)]; auto.
  - exists x, Shared. split; [now left|]. now apply (OP x y).
  - exists x, Exclusive. split; [now left|]. now apply (OP x y).
  - exists x, (passed_access p). split; [now left|]. apply (OP x y); auto. cbn [has_cell] in Hq. now apply wrap_has_cell in Hq.
  - exists x, (passed_access p). split; [now left|]. apply (OP x y); auto. cbn [has_cell] in Hq. now apply wrap_has_cell in Hq.
  - cbn [has_cell] in Hq. rewrite !wrap_has_cell in Hq. destruct Hq.
    + exists x, (passed_access p). split; [now left|]. now apply (OP x u).
    + exists y, (passed_access p'). split; [right; now left|]. now apply (OP y v).
Qed.

Lemma derives_layout : forall m (bs : bstate) (o : call T St) b, pinv m bs -> respects_parts bs o ->
  derives m (b_state bs) o (MBase b) -> existsb (fun u => is_part (b_slots bs) (fst u)) (uses o) = true ->
  exists D s, bm_layout b = ArbitraryStrideRowMajor D s.
Proof.
  intros m bs o b (I & S & PL) Hr Hd Ex. inversion Hd; subst; cbn [uses existsb fst] in Ex; rewrite orb_false_r in Ex.
  - cbn in Hr. contradiction.
  - match goal with H : lookup_block _ _ _ = Some _ |- _ => apply lookup_block_inv, lookup_base_inv in H; rename H into E end.
    match goal with H : block _ _ _ _ _ = Ok _ |- _ => rename H into Eb end.
    destruct (PL _ _ Ex E) as (D & s & Hl). unfold block in Eb. rewrite Hl in Eb. cbn [block_order] in Eb.
    do 4 (apply bind_ok in Eb; destruct Eb as (? & _ & Eb)). apply bind_ok in Eb. destruct Eb as (p & _ & Eb).
    apply bind_ok in Eb. destruct Eb as (? & _ & Eb).
    unfold from_pointer_strided in Eb. cbv zeta in Eb.
    do 4 (apply bind_ok in Eb; destruct Eb as (? & _ & Eb)). apply bind_ok in Eb. destruct Eb as (r & _ & Eb).
    apply from_data_data in Eb. subst b. cbn [bm_layout strided_layout]. eauto.
Qed.

Lemma quarter_nth : forall b s j v,
  nth_error [MBase (T := T) (pick (quarters b s) Q0); MBase (pick (quarters b s) Q1);
             MBase (pick (quarters b s) Q2); MBase (pick (quarters b s) Q3)] j = Some v ->
  exists k, v = MBase (pick (quarters b s) k) /\
    j = match k with Q0 => 0%nat | Q1 => 1%nat | Q2 => 2%nat | Q3 => 3%nat end.
Proof.
  intros b s [|[|[|[|j]]]] v H; cbn [nth_error] in H; try (injection H as <-).
  - exists Q0. auto.
  - exists Q1. auto.
  - exists Q2. auto.
  - exists Q3. auto.
  - destruct j; discriminate H.
Qed.

Lemma step_pinv : forall m (bs : bstate) (o : call T St) bs' r, pinv m bs -> safe_call o ->
  m = Checked \/ no_wrap_call (b_state bs) o -> respects_parts bs o ->
  bstep kern m bs (Do o) = Some (Ok (bs', r)) -> pinv m bs'.
Proof.
  intros m bs o bs' r HI Hsafe Hm Hr H. pose proof HI as (I & S & PL). apply bstep_inv in H.
  destruct H as [(o' & bt & st' & E & Ha & Hs & ->)|(x & bt & E & _)]; [injection E as <-|discriminate].
  pose proof (sound_placed _ _ S) as P.
  assert (S' : sound m st').
  { destruct (step_safe kern m (b_state bs) o S (safe_within _ _ Hsafe) Hm) as (st2 & r2 & E & S2).
    rewrite Hs in E. injection E as <- <-. exact S2. }
  pose proof (step_kinds _ _ _ _ _ _ (safe_no_pointers _ Hsafe) Hs) as K.
  destruct (admit_spec _ _ _ (inv_closed _ _ _ I) Ha) as (L & C & _).
  pose proof (inv_later _ _ _ _ L C I) as I'. pose proof L as (Ll & Ln & Lp & Lv).
  pose proof (inv_length _ _ _ I) as IL.
  unfold pinv. cbn [b_state b_slots].
  destruct K as [r Hne E | b E Eb Hl Ho Hret | v E Eh Hret Hd | x at_ b b0 b1 b2 b3 -> Hb (D & HD) Hsplit Hh E].
  - rewrite unborrowed_kind by auto. rewrite E. splits; auto. intros y b Hy. rewrite Lp in Hy. eauto.
  - rewrite Hret, E. splits; auto.
    + apply inv_fresh; auto. intros y q Hq Hw. apply (foot_placed m) in Hw; auto. cbn [part_foot] in Hq.
      apply occupies_lives in Hq. cbn in Hq. lia.
    + intros y b' Hy Hn. apply nth_new in Hn. destruct Hn as [Hn|(k & -> & Hn)].
      * rewrite part_app_old, Lp in Hy by (rewrite Ll, IL; apply nth_error_Some; congruence). eauto.
      * replace (length (st_mats (b_state bs))) with (length bt) in Hy by lia. rewrite part_app_new in Hy.
        destruct k as [|[|k]]; discriminate.
  - rewrite Hret, E. splits; auto.
    + apply inv_borrow; auto. 2: eapply derives_borrows; eauto. intros q Hq. eapply derives_foot; eauto.
    + intros y b' Hy Hn. apply nth_new in Hn. destruct Hn as [Hn|(k & -> & Hn)].
      * rewrite part_app_old, Lp in Hy by (rewrite Ll, IL; apply nth_error_Some; congruence). eauto.
      * replace (length (st_mats (b_state bs))) with (length bt) in Hy by lia. rewrite part_app_new in Hy.
        destruct k as [|[|k]]; try discriminate. cbn in Hn. injection Hn as ->.
        eapply derives_layout; eauto.
  - apply lookup_mut_writable in Hb. destruct Hb as [Hb Hbm].
    destruct (lookup_sound _ _ _ _ S Hb) as (Hv & Ht). cbn [valid row_strided mat_layout] in Hv, Ht.
    assert (Hi : interior D at_).
    { destruct Hm as [->|Hm].
      - assert (Hdec : interior D at_ \/ ~ interior D at_) by (unfold interior; lia).
        destruct Hdec as [|Hdec]; auto. rewrite (split_outside _ _ _ _ Hv HD Hdec) in Hsplit. discriminate.
      - cbn in Hm. specialize (Hm b). unfold lookup_base in Hm. rewrite Hb in Hm. specialize (Hm eq_refl).
        now rewrite HD in Hm. }
    destruct (split_ok m _ _ _ _ Hv HD Hi) as [Es _]. rewrite Hsplit in Es.
    assert (EQ : [MBase (T := T) b0; MBase b1; MBase b2; MBase b3] =
       [MBase (T := T) (pick (quarters b at_) Q0); MBase (pick (quarters b at_) Q1);
        MBase (pick (quarters b at_) Q2); MBase (pick (quarters b at_) Q3)]).
    { unfold quarters in Es. cbv zeta in Es. injection Es as -> -> -> ->. rewrite !pick_quarters. reflexivity. }
    clear Es.
    assert (NP : is_part (b_slots bs) x = false).
    { destruct (is_part (b_slots bs) x) eqn:Ep; auto. destruct (PL x b Ep Hb) as (D' & s' & El). congruence. }
    rewrite E, EQ. cbn [returned]. splits; auto.
    + apply (inv_parts part_foot (st_mats (b_state bs)) (b_slots bs) bt x
        [MBase (pick (quarters b at_) Q0); MBase (pick (quarters b at_) Q1);
         MBase (pick (quarters b at_) Q2); MBase (pick (quarters b at_) Q3)]); auto.
      * exists (MBase b). auto.
      * intros v q Hin Hq. apply In_nth_error in Hin. destruct Hin as (j & Hj). apply quarter_nth in Hj.
        destruct Hj as (k & -> & _). exists (MBase b). split; auto. rewrite NP. cbn [part_foot] in *.
        destruct (quarter_window m _ b D at_ k Hv HD Hi) as (_ & (Wd & _ & Wc) & _ & _ & Hins).
        destruct Hq as (p & Hp & ->). apply (has_cell_occupies (st_heap (b_state bs))); auto.
        destruct Hp as [Hp _]. rewrite Wd in Hp. exists (shift (quarter_origin at_ k) p). split; auto.
        rewrite HD in Hins |- *. split; [|discriminate]. destruct Hins, Hp. cbn [dim] in *.
        split; unfold shift; cbn [fst snd dim]; lia.
      * intros j k v w q Hn Hj Hk Hqv Hqw. apply quarter_nth in Hj, Hk. destruct Hj as (kj & -> & ->), Hk as (kk & -> & ->).
        cbn [part_foot] in *.
        destruct (quarter_window m _ b D at_ kj Hv HD Hi) as (_ & (Wd & _ & Wc) & _ & _ & Hins).
        destruct (quarter_window m _ b D at_ kk Hv HD Hi) as (_ & (Wd' & _ & Wc') & _ & _ & Hins').
        destruct Hqv as (p & Hp & ->), Hqw as (p' & Hp' & Ec).
        destruct Hp as [Hp _], Hp' as [Hp' _]. rewrite Wd in Hp. rewrite Wd' in Hp'.
        rewrite Wc, Wc' in Ec by auto. apply entry_cell_inj in Ec.
        -- apply quarter_unique with (D := D) in Ec; auto. destruct Ec as [-> _]. now apply Hn.
        -- apply distinct_no_aliasing. rewrite HD. discriminate.
        -- rewrite HD in Hins |- *. split; [|discriminate]. destruct Hins, Hp. cbn [dim] in *.
           split; unfold shift; cbn [fst snd dim]; lia.
        -- rewrite HD in Hins' |- *. split; [|discriminate]. destruct Hins', Hp'. cbn [dim] in *.
           split; unfold shift; cbn [fst snd dim]; lia.
    + intros y b' Hy Hn. apply nth_new in Hn. destruct Hn as [Hn|(k & -> & Hn)].
      * rewrite part_app_old, Lp in Hy by (rewrite Ll, IL; apply nth_error_Some; congruence). eauto.
      * apply quarter_nth in Hn. destruct Hn as (kk & En & _).
        assert (En' : b' = pick (quarters b at_) kk) by congruence. rewrite En', pick_quarters.
        unfold block_view, view, order_of. rewrite HD. cbn [bm_layout block_order strided_layout]. eauto.
Qed.

Lemma drop_pinv : forall m (bs : bstate) x bs' r, pinv m bs -> bstep kern m bs (@Drop T St x) = Some (Ok (bs', r)) -> pinv m bs'.
Proof.
  intros m bs x bs' r (I & S & PL) H. apply bstep_inv in H.
  destruct H as [(o' & bt & st' & E & Ha & Hs & ->)|(y & bt & E & Ha & -> & _)]; [discriminate|].
  destruct (admit_spec _ _ _ (inv_closed _ _ _ I) Ha) as (L & C & _). unfold pinv. cbn [b_state b_slots].
  splits; auto; [eapply inv_later; eauto|]. intros y' b Hy. destruct L as (_ & _ & Lp & _). rewrite Lp in Hy. eauto.
Qed.

Definition step_ok (m : mode) (bs : bstate) (a : action) : Prop :=
  match a with
  | Do o => safe_call o /\ (m = Checked \/ no_wrap_call (b_state bs) o) /\ respects_parts bs o
  | Drop _ => True
  end.

Lemma ok_pinv : forall m (bs : bstate) (a : action) bs' r, pinv m bs -> step_ok m bs a ->
  bstep kern m bs a = Some (Ok (bs', r)) -> pinv m bs'.
Proof.
  intros m bs [o|x] bs' r HI Hok H; [|eapply drop_pinv; eauto]. destruct Hok as (H1 & H2 & H3). eapply step_pinv; eauto.
Qed.

Lemma ok_reads : forall m (bs : bstate) (a : action) bs' r, pinv m bs -> step_ok m bs a ->
  bstep kern m bs a = Some (Ok (bs', r)) ->
  forall y w, usable bs y w -> is_live (b_slots bs') y = true ->
    nth_error (st_mats (b_state bs')) y = Some w /\
    ((forall x, written a = Some x -> ~ below (b_slots bs) x y) ->
     reads_same (st_heap (b_state bs)) (st_heap (b_state bs')) w).
Proof.
  intros m bs a bs' r HI Hok H y w [Hy Hw] Hy'. pose proof (ok_pinv _ _ _ _ _ HI Hok H) as HI'.
  pose proof HI as (I & S & PL). apply bstep_inv in H.
  destruct H as [(o & bt & st' & -> & Ha & Hs & ->)|(x & bt & -> & Ha & -> & _)]; cbn [b_state b_slots] in *.
  2:{ split; auto. intros _ m'. split; reflexivity. }
  destruct Hok as (Hsafe & Hm & Hr). pose proof (sound_placed _ _ S) as P.
  destruct (admit_spec _ _ _ (inv_closed _ _ _ I) Ha) as (L & C & _).
  assert (Hb : (y < length bt)%nat). { destruct L as (-> & _). now apply is_live_bound. }
  assert (Ly : is_live bt y = true). { destruct r; auto. now rewrite live_app_old in Hy'. }
  destruct (step_effect _ _ _ _ _ _ P Hs) as (Ht & (new & En) & P').
  assert (Hw' : nth_error (st_mats st') y = Some w).
  { rewrite En, nth_error_app1; auto. apply nth_error_Some. congruence. }
  split; auto. intros Hnb.
  assert (FR : forall q, part_foot (is_part (b_slots bs) y) w q ->
     hget (st_heap st') (fst q) (snd q) = hget (st_heap (b_state bs)) (fst q) (snd q)).
  { intros q Hq. apply (frame part_foot m bs o bt st' r y w); auto.
    - intros x w' Ew Hx. unfold part_foot. destruct (is_part (b_slots bs) x) eqn:Ep.
      + eapply (part_touches m (b_state bs) o x w'); eauto. destruct o; auto; cbn in Hr, Ew; injection Ew as ->; auto.
        intros b2 ->. apply Hr; auto. unfold lookup_base, lookup. now rewrite Hx.
      + eapply touches_weaken; [|exact Ht]. intros a i _ (w2 & Ht2 & Ho).
        apply written_target in Ht2. destruct Ht2 as (x2 & E2 & Hx2). assert (x2 = x) by congruence. subst x2. congruence.
    - eapply unwritten_touches; eauto.
    - eapply lookup_placed; eauto.
    - apply (foot_placed m (b_state bs) (b_slots bs) y); auto. exists w. auto. }
  destruct HI' as (_ & S' & _). cbn [b_state] in S'. unfold part_foot in FR. destruct (is_part (b_slots bs) y).
  - apply reads_entries; auto; eapply sound_valid; eauto.
  - now apply reads_occupied.
Qed.
End Steps.

(** ** Histories *)

Section Histories.
Context {T : Type} {SC : HScalar T} {St : Type}.
Variable kern : kernel T.
Notation heap := (@heap T).
Notation bstate := (bstate T).
Notation action := (action T St).

Lemma reads_trans : forall (h1 h2 h3 : heap) (w : matrix T), reads_same h1 h2 w -> reads_same h2 h3 w -> reads_same h1 h3 w.
Proof.
  intros h1 h2 h3 w H1 H2 m. destruct (H1 m) as [A1 B1], (H2 m) as [A2 B2]. split; intros; [now rewrite A2 | now rewrite B2].
Qed.

Lemma reads_refl : forall (h : heap) (w : matrix T), reads_same h h w.
Proof. intros h w m. split; reflexivity. Qed.

Section Generic.
Variable m : mode.
Variable fp : bool -> matrix T -> nat * N -> Prop.
Variable Inv : bstate -> Prop.
Variable ok : bstate -> action -> Prop.

Hypothesis inv_has : forall bs, Inv bs -> inv fp (st_mats (b_state bs)) (b_slots bs).
Hypothesis inv_step : forall bs a bs' r, Inv bs -> ok bs a -> bstep kern m bs a = Some (Ok (bs', r)) -> Inv bs'.
Hypothesis inv_reads : forall bs a bs' r, Inv bs -> ok bs a -> bstep kern m bs a = Some (Ok (bs', r)) ->
  forall y w, usable bs y w -> is_live (b_slots bs') y = true ->
    nth_error (st_mats (b_state bs')) y = Some w /\
    ((forall x, written a = Some x -> ~ below (b_slots bs) x y) ->
     reads_same (st_heap (b_state bs)) (st_heap (b_state bs')) w).

Fixpoint all_ok (bs : bstate) (acts : list action) : Prop :=
  match acts with
  | [] => True
  | a :: acts' => ok bs a /\ forall bs' r, bstep kern m bs a = Some (Ok (bs', r)) -> all_ok bs' acts'
  end.

Lemma gen_inv : forall acts bs bs' rs, Inv bs -> all_ok bs acts -> brun kern m bs acts = Some (Ok (bs', rs)) -> Inv bs'.
Proof.
  intros acts. induction acts as [|a acts IH]; intros bs bs' rs I Hok H.
  - cbn in H. injection H as <- <-. exact I.
  - apply brun_cons in H. destruct H as (bs1 & r & rs1 & E & H & ->). destruct Hok as [Ha Hok].
    apply (IH bs1 bs' rs1); eauto.
Qed.

Lemma gen_live : forall acts bs bs' rs y, Inv bs -> all_ok bs acts -> brun kern m bs acts = Some (Ok (bs', rs)) ->
  (y < length (b_slots bs))%nat -> is_live (b_slots bs') y = true -> is_live (b_slots bs) y = true.
Proof.
  intros acts. induction acts as [|a acts IH]; intros bs bs' rs y I Hok H Hy Hl.
  - cbn in H. injection H as <- <-. exact Hl.
  - apply brun_cons in H. destruct H as (bs1 & r & rs1 & E & H & ->). destruct Hok as [Ha Hok].
    pose proof (inv_closed _ _ _ (inv_has bs I)) as C.
    eapply step_live; eauto. apply (IH bs1 bs' rs1); eauto.
    pose proof (step_length kern m bs a bs1 r C E). lia.
Qed.

Lemma gen_reads : forall acts bs bs' rs y w, Inv bs -> all_ok bs acts -> brun kern m bs acts = Some (Ok (bs', rs)) ->
  usable bs y w -> is_live (b_slots bs') y = true ->
  nth_error (st_mats (b_state bs')) y = Some w /\
  (~ history_writes_below kern m bs acts y -> reads_same (st_heap (b_state bs)) (st_heap (b_state bs')) w).
Proof.
  intros acts. induction acts as [|a acts IH]; intros bs bs' rs y w I Hok H Hy Hl.
  - cbn in H. injection H as <- <-. split; [apply Hy|]. intros _. apply reads_refl.
  - apply brun_cons in H. destruct H as (bs1 & r & rs1 & E & H & ->). destruct Hok as [Ha Hok].
    pose proof (inv_step _ _ _ _ I Ha E) as I1. pose proof (inv_closed _ _ _ (inv_has bs I)) as C.
    assert (L1 : is_live (b_slots bs1) y = true).
    { apply (gen_live acts bs1 bs' rs1); eauto. destruct Hy as [Hy _]. apply is_live_bound in Hy.
      pose proof (step_length kern m bs a bs1 r C E). lia. }
    destruct (inv_reads _ _ _ _ I Ha E y w Hy L1) as [N1 R1].
    destruct (IH bs1 bs' rs1 y w I1 (Hok _ _ E) H (conj L1 N1) Hl) as [N2 R2]. split; auto.
    intros Hn. cbn [history_writes_below] in Hn. rewrite E in Hn. eapply reads_trans; [apply R1 | apply R2]; [|tauto].
    intros x Hx B. apply Hn. left. eauto.
Qed.

Lemma gen_stable_step : forall bs (a : action) bs' r, Inv bs -> ok bs a ->
  bstep kern m bs a = Some (Ok (bs', r)) ->
  forall y w, usable bs y w -> is_live (b_slots bs') y = true -> is_writable w = false ->
    reads_same (st_heap (b_state bs)) (st_heap (b_state bs')) w.
Proof.
  intros bs a bs' r I Hok H y w Hy Hy' Hm.
  destruct (inv_reads _ _ _ _ I Hok H y w Hy Hy') as [_ G]. pose proof (inv_has _ I) as I0.
  destruct a as [o|x].
  2:{ apply G. discriminate. }
  destruct (written (Do o)) as [x|] eqn:Ew.
  2:{ apply G. intros x E. congruence. }
  apply bstep_inv in H. destruct H as [(o' & bt & st' & E & Ha & Hs & ->)|(x' & bt & E & _)]; [|discriminate].
  injection E as <-. cbn [b_state b_slots] in *. destruct Hy as [Hy Hw].
  destruct (step_writer kern m _ _ _ _ _ Ew Hs) as [->|Wx]; [apply reads_refl|].
  apply G. intros x' E B. injection E as <-.
  destruct (admit_spec _ _ _ (inv_closed _ _ _ I0) Ha) as (_ & _ & Hu & _).
  destruct (Hu x Exclusive (written_uses _ _ Ew)) as [Lx _].
  destruct (chain_writers _ _ _ _ _ I0 Lx Wx B) as (w' & E & Hm'). congruence.
Qed.

Lemma gen_stable : forall acts bs bs' rs y w, Inv bs -> all_ok bs acts -> brun kern m bs acts = Some (Ok (bs', rs)) ->
  usable bs y w -> is_live (b_slots bs') y = true -> is_writable w = false ->
  reads_same (st_heap (b_state bs)) (st_heap (b_state bs')) w.
Proof.
  intros acts. induction acts as [|a acts IH]; intros bs bs' rs y w I Hok H Hy Hl Hm.
  - cbn in H. injection H as <- <-. apply reads_refl.
  - apply brun_cons in H. destruct H as (bs1 & r & rs1 & E & H & ->). destruct Hok as [Ha Hok].
    pose proof (inv_step _ _ _ _ I Ha E) as I1. pose proof (inv_closed _ _ _ (inv_has bs I)) as C.
    assert (L1 : is_live (b_slots bs1) y = true).
    { apply (gen_live acts bs1 bs' rs1); eauto. destruct Hy as [Hy _]. apply is_live_bound in Hy.
      pose proof (step_length kern m bs a bs1 r C E). lia. }
    destruct (inv_reads _ _ _ _ I Ha E y w Hy L1) as [N1 _].
    eapply reads_trans; [eapply gen_stable_step; eauto|]. apply (IH bs1 bs' rs1 y w I1 (Hok _ _ E) H (conj L1 N1) Hl Hm).
Qed.
End Generic.

(** *** Without splits *)
Definition plain (_ : bstate) (a : action) : Prop := no_pointers a /\ no_split a.

Lemma plain_all : forall m acts bs, Forall no_pointers acts -> Forall no_split acts -> all_ok m plain bs acts.
Proof.
  intros m acts. induction acts as [|a acts IH]; intros bs H1 H2; cbn; auto. inversion H1; inversion H2; subst.
  split; [split; auto|auto].
Qed.

Lemma binitial_binv : binv (@binitial T).
Proof. split; [apply binitial_inv | constructor]. Qed.

Lemma plain_inv_step : forall m bs a bs' r, binv bs -> plain bs a -> bstep kern m bs a = Some (Ok (bs', r)) -> binv bs'.
Proof. intros m bs a bs' r I [H1 H2] H. eapply step_inv; eauto. Qed.

Lemma plain_reads_step : forall m bs a bs' r, binv bs -> plain bs a -> bstep kern m bs a = Some (Ok (bs', r)) ->
  forall y w, usable bs y w -> is_live (b_slots bs') y = true ->
    nth_error (st_mats (b_state bs')) y = Some w /\
    ((forall x, written a = Some x -> ~ below (b_slots bs) x y) ->
     reads_same (st_heap (b_state bs)) (st_heap (b_state bs')) w).
Proof. intros m bs a bs' r I [H1 H2] H. eapply step_reads; eauto. Qed.

Lemma brun_app : forall m (acts1 acts2 : list action) bs bs' rs, brun kern m bs (acts1 ++ acts2) = Some (Ok (bs', rs)) ->
  exists bs1 rs1 rs2, brun kern m bs acts1 = Some (Ok (bs1, rs1)) /\ brun kern m bs1 acts2 = Some (Ok (bs', rs2)) /\
    rs = rs1 ++ rs2.
Proof.
  intros m acts1. induction acts1 as [|a acts1 IH]; intros acts2 bs bs' rs H; cbn [app] in H.
  - exists bs, [], rs. auto.
  - apply brun_cons in H. destruct H as (bs1 & r & rs1 & E & H & ->).
    apply IH in H. destruct H as (bs2 & rs2 & rs3 & H1 & H2 & ->). exists bs2, (r :: rs2), rs3. splits; auto.
    cbn [brun]. rewrite E, H1. reflexivity.
Qed.

Lemma plain_reads : forall m (acts acts' : list action) bs rs bs' rs',
  Forall no_pointers acts -> Forall no_split acts -> Forall no_pointers acts' -> Forall no_split acts' ->
  brun kern m (@binitial T) acts = Some (Ok (bs, rs)) -> brun kern m bs acts' = Some (Ok (bs', rs')) ->
  forall y w, usable bs y w -> is_live (b_slots bs') y = true ->
    usable bs' y w /\
    (~ history_writes_below kern m bs acts' y -> reads_same (st_heap (b_state bs)) (st_heap (b_state bs')) w) /\
    (is_writable w = false -> reads_same (st_heap (b_state bs)) (st_heap (b_state bs')) w).
Proof.
  intros m acts acts' bs rs bs' rs' N1 S1 N2 S2 H H' y w Hy Hl.
  assert (I : binv bs).
  { apply (gen_inv m binv plain (plain_inv_step m) acts binitial bs rs); [apply binitial_binv | now apply plain_all | exact H]. }
  assert (HI : forall bs : bstate, binv bs -> inv region_foot (st_mats (b_state bs)) (b_slots bs)) by (intros b Hb; apply Hb).
  destruct (gen_reads m region_foot binv plain HI (plain_inv_step m) (plain_reads_step m) acts' bs bs' rs' y w I
    (plain_all m acts' bs N2 S2) H' Hy Hl) as [A B].
  splits; auto; [split; auto|].
  intros Hm. exact (gen_stable m region_foot binv plain HI (plain_inv_step m) (plain_reads_step m) acts' bs bs' rs' y w I
    (plain_all m acts' bs N2 S2) H' Hy Hl Hm).
Qed.

(** *** With splits *)
Lemma well_all : forall m acts bs, well_behaved kern m bs acts -> all_ok m (step_ok m) bs acts.
Proof.
  intros m acts. induction acts as [|a acts IH]; intros bs H; cbn [all_ok well_behaved] in *; auto.
  destruct H as [H1 H2]. split; eauto.
Qed.

Lemma binitial_pinv : forall m, pinv m (@binitial T).
Proof. intros m. split; [apply binitial_inv|]. split; [constructor|]. intros y b H. destruct y; discriminate. Qed.

Lemma well_reads : forall m (acts acts' : list action) bs rs bs' rs',
  well_behaved kern m (@binitial T) acts -> well_behaved kern m bs acts' ->
  brun kern m (@binitial T) acts = Some (Ok (bs, rs)) -> brun kern m bs acts' = Some (Ok (bs', rs')) ->
  forall y w, usable bs y w -> is_live (b_slots bs') y = true ->
    usable bs' y w /\
    (~ history_writes_below kern m bs acts' y -> reads_same (st_heap (b_state bs)) (st_heap (b_state bs')) w) /\
    (is_writable w = false -> reads_same (st_heap (b_state bs)) (st_heap (b_state bs')) w).
Proof.
  intros m acts acts' bs rs bs' rs' W1 W2 H H' y w Hy Hl.
  assert (STEP : forall bs (a : action) bs' r, pinv m bs -> step_ok m bs a -> bstep kern m bs a = Some (Ok (bs', r)) -> pinv m bs').
  { intros. eapply ok_pinv; eauto. }
  assert (I : pinv m bs).
  { apply (gen_inv m (pinv m) (step_ok m) STEP acts binitial bs rs); [apply binitial_pinv | now apply well_all | exact H]. }
  assert (HI : forall bs : bstate, pinv m bs -> inv part_foot (st_mats (b_state bs)) (b_slots bs)) by (intros b Hb; apply Hb).
  assert (READ := ok_reads (St := St) kern m).
  destruct (gen_reads m part_foot (pinv m) (step_ok m) HI STEP READ acts' bs bs' rs' y w I
    (well_all m acts' bs W2) H' Hy Hl) as [A B].
  splits; auto; [split; auto|].
  intros Hm. exact (gen_stable m part_foot (pinv m) (step_ok m) HI STEP READ acts' bs bs' rs' y w I
    (well_all m acts' bs W2) H' Hy Hl Hm).
Qed.
End Histories.
