(** * FlatDropOwners: what the matrices that a call returns own. *)

From Coq Require Import Lia ZifyBool ZifyNat ZifyN.
From Verif Require Import Machine MachineFacts Layouts Memory MemoryFacts Matrix MatMul Spec MatrixSpec ExprSpec ProductSpec.
From Verif Require Import Program HistorySpec HistoryProofs Borrow BorrowProofs Threads Interleave InterleaveProofs Flat.
Local Open Scope N_scope.

Section Owners.
Context {T : Type} {SC : HScalar T} {St : Type}.

(** The program ends in [Q], with the blocks [new] that it allocated so far. *)
Fixpoint yields {A : Type} (new : list (nat * N)) (c : prog T A) (Q : list (nat * N) -> A -> Prop) : Prop :=
  match c with
  | Stop (Ok a) => Q new a
  | Stop _ => True
  | Load p k => forall v, yields new (k v) Q
  | Store p v k => yields new k Q
  | Alloc l k => forall a, yields ((a, N.of_nat (length l)) :: new) (k (mkRegion a 0 (N.of_nat (length l)))) Q
  end.

Lemma yields_any : forall A (c : prog T A) new (Q : list (nat * N) -> A -> Prop),
  (forall new' a, (forall b, In b new -> In b new') -> Q new' a) -> yields new c Q.
Proof.
  intros A c. induction c as [[a| |]|p k IH|p v k IH|l k IH]; intros new Q H; cbn [yields]; auto.
  intros a. apply IH. intros new' x S. apply H. intros b I. apply S. now right.
Qed.
Lemma yields_bind : forall A C (c : prog T A) (f : A -> prog T C) new (Q : list (nat * N) -> C -> Prop),
  yields new c (fun new a => yields new (f a) Q) -> yields new (pbind c f) Q.
Proof. intros A C c f. induction c as [[a| |]|p k IH|p v k IH|l k IH]; intros new Q H; cbn [yields pbind] in *; auto. Qed.
Lemma yields_pure : forall A (o : outcome A) new (Q : list (nat * N) -> A -> Prop), (forall a, o = Ok a -> Q new a) -> yields new (Stop o) Q.
Proof. intros A [a| |] new Q H; cbn [yields]; auto. Qed.

(** A container whose memory, if it owns any, is new. *)
Definition new_container (new : list (nat * N)) (c : container) : Prop := In (r_alloc (c_region c), r_len (c_region c)) new.
Definition new_base (new : list (nat * N)) (b : base_matrix) : Prop := new_container new (bm_data b).

Lemma yields_vector : forall k new (Q : list (nat * N) -> container -> Prop), (forall new' c, new_container new' c -> Q new' c) ->
  yields new (p_vector_container_new k) Q.
Proof. intros k new Q H. unfold p_vector_container_new. destruct (_ <=? _); cbn [yields]; auto. intros a. apply H. now left. Qed.
Lemma yields_array : forall k new (Q : list (nat * N) -> container -> Prop), (forall new' c, new_container new' c -> Q new' c) ->
  yields new (p_array_container_new k) Q.
Proof. intros k new Q H. unfold p_array_container_new. cbn [yields]. intros a. apply H. now left. Qed.
Lemma yields_from_data : forall m rs cs c l new (Q : list (nat * N) -> base_matrix -> Prop), new_container new c -> (forall b, new_base new b -> Q new b) ->
  yields new (Stop (from_data m rs cs c l)) Q.
Proof. intros m rs cs c l new Q Hc H. apply yields_pure. intros b Hb. apply H. apply from_data_data in Hb. now subst b. Qed.

Definition makes (c : prog T base_matrix) : Prop :=
  forall new (Q : list (nat * N) -> base_matrix -> Prop), (forall new' b, new_base new' b -> Q new' b) -> yields new c Q.

Ltac yield :=
  repeat first
    [ apply yields_bind
    | apply yields_vector; intros ? ? ?
    | apply yields_array; intros ? ? ?
    | apply yields_from_data; [assumption|]; intros ? ?
    | apply yields_pure; intros ? _ ]; auto.

Lemma makes_zeros : forall m k r c, makes (p_zeros_from_dim m k r c).
Proof. intros m k r c new Q H. unfold p_zeros_from_dim. yield. Qed.
Lemma makes_zeros_fixed : forall m k r c, makes (p_zeros_fixed m k r c).
Proof. intros m k r c new Q H. unfold p_zeros_fixed. yield. Qed.
Lemma makes_zeros_fixed_vector : forall m rs cs k i, makes (p_zeros_fixed_vector m rs cs k i).
Proof.
  intros m rs cs k i new Q H. unfold p_zeros_fixed_vector. apply yields_bind, yields_array. intros new' c Hc.
  destruct (from_length k i); [|exact I]. apply yields_from_data; auto.
Qed.
Lemma makes_row : forall m i, makes (p_row_zeros m i).
Proof. intros m i new Q H. unfold p_row_zeros. yield. Qed.
Lemma makes_column : forall m i, makes (p_column_zeros m i).
Proof. intros m i new Q H. unfold p_column_zeros. yield. Qed.
Lemma makes_row_dim : forall m r c, makes (p_row_zeros_dim m r c).
Proof. intros m r c new Q H. unfold p_row_zeros_dim. apply yields_bind, yields_pure. intros [] _. now apply makes_row. Qed.
Lemma makes_column_dim : forall m r c, makes (p_column_zeros_dim m r c).
Proof. intros m r c new Q H. unfold p_column_zeros_dim. apply yields_bind, yields_pure. intros [] _. now apply makes_column. Qed.
Lemma makes_eval : forall m x, makes (p_eval m x).
Proof.
  intros m x new Q H. unfold p_eval. cbv zeta. apply yields_bind, makes_zeros. intros new' b Hb. apply yields_bind, yields_pure. intros k _.
  apply yields_bind, yields_any. intros new2 [] S. cbn [yields]. apply H, S, Hb.
Qed.
Lemma makes_dot : forall code shape m a b, makes (p_dot code shape m a b).
Proof.
  intros code shape m a b new Q H. unfold p_dot. cbv zeta. apply yields_bind.
  assert (A : forall new' c, new_base new' c -> yields new' (pbind (p_matmul code sone a b szero c) (fun _ => Stop (Ok c))) Q).
  { intros new' c Hc. apply yields_bind, yields_any. intros new2 [] S. cbn [yields]. apply H, S, Hc. }
  destruct shape; [apply makes_zeros|apply makes_row_dim|apply makes_column_dim]; exact A.
Qed.

(** The returned matrices own what the matrices of the table own, or what is new. *)
Definition owns_in (ms : list (matrix T)) (new : list (nat * N)) (x : list (matrix T) * result T St) : Prop :=
  forall y b, In y (fst x) -> In b (owned_blocks y) -> In b new \/ exists z, In z ms /\ In b (owned_blocks z).

Lemma owns_made : forall ms new b r, new_base new b -> owns_in ms new ([MBase b], r).
Proof.
  intros ms new b r H y k [<-|[]] I. left. cbn [owned_blocks] in I.
  destruct (c_kind (bm_data b)); try (now destruct I); destruct I as [<-|[]]; exact H.
Qed.
Lemma slice_owned : forall b, c_kind (bm_data b) = SliceContainer \/ c_kind (bm_data b) = SliceContainerMut -> owned_blocks (@MBase T b) = [].
Proof. intros b [H|H]; cbn [owned_blocks]; now rewrite H. Qed.
Lemma owns_view : forall ms new b r, c_kind (bm_data b) = SliceContainer \/ c_kind (bm_data b) = SliceContainerMut -> owns_in ms new ([MBase b], r).
Proof. intros ms new b r H y k [<-|[]] I. rewrite slice_owned in I by auto. destruct I. Qed.
Lemma makes_ends : forall ms new c, makes c -> yields new (ends_new c) (owns_in ms).
Proof. intros ms new c H. unfold ends_new. apply yields_bind, H. intros new' b Hb. cbn [yields]. now apply owns_made. Qed.
Lemma owns_none : forall ms new A (c : prog T A) (f : A -> result T St), yields new (pbind c (fun a => Stop (Ok ([], f a)))) (owns_in ms).
Proof. intros ms new A c f. apply yields_bind, yields_any. intros new' a _. cbn [yields]. intros y b []. Qed.
Lemma owns_loop : forall ms new (c : prog T (St * bool)), yields new (ends_loop c) (owns_in ms).
Proof. intros ms new c. unfold ends_loop. apply yields_bind, yields_any. intros new' [s p] _. cbn [yields]. intros y b []. Qed.

Lemma owns_program : forall code m ms (o : call T St) c, program code m ms o = Some c -> yields [] c (owns_in ms).
Proof.
  intros code m ms o c H.
  assert (INJ : forall (x y : prog T (list (matrix T) * result T St)), Some x = Some y -> x = y) by congruence.
  assert (ONE : forall x w r new, lookup (mkState [] ms) x = Some w -> forall z, (forall b, In b (owned_blocks z) -> In b (owned_blocks w)) ->
     owns_in ms new ([z], r)).
  { intros x w r new E z S y b [<-|[]] I. right. exists w. split; auto. eapply nth_error_In, E. }
  destruct o; cbn [program] in H; unfold typed, when in H.
  all: repeat (match type of H with
       | (match ?b with Some _ => _ | None => _ end) = _ => destruct b eqn:?; [|discriminate H]
       | (if ?b then _ else None) = _ => destruct b eqn:?; [|discriminate H]
       end).
  all: try (apply INJ in H; subst c).
  all: try apply owns_loop.
  all: try (unfold ends_item, ends_done; match goal with |- yields _ (pbind _ _) _ => idtac end; apply owns_none).
  - apply makes_ends, makes_zeros.
  - apply makes_ends, makes_zeros_fixed.
  - apply makes_ends, makes_zeros_fixed_vector.
  - apply makes_ends, makes_row.
  - apply makes_ends, makes_column.
  - apply makes_ends, makes_row_dim.
  - apply makes_ends, makes_column_dim.
  - apply makes_ends. intros new Q HQ. yield.
  - apply makes_ends. intros new Q HQ. yield.
  - unfold ends_new. apply yields_bind, yields_pure. intros v Hv. cbn [yields]. apply bind_ok in Hv. destruct Hv as (rg & _ & Hv).
    apply from_data_data in Hv. subst v. apply owns_view. apply slice_container_kind.
  - unfold ends_new. apply yields_bind, yields_pure. intros v Hv. cbn [yields]. apply bind_ok in Hv. destruct Hv as (q & _ & Hv).
    unfold from_pointer in Hv. apply bind_ok in Hv. destruct Hv as (? & _ & Hv). apply bind_ok in Hv. destruct Hv as (? & _ & Hv).
    apply from_data_data in Hv. subst v. apply owns_view. apply slice_container_kind.
  - unfold ends_new. apply yields_bind, yields_pure. intros v Hv. cbn [yields]. apply bind_ok in Hv. destruct Hv as (q & _ & Hv).
    apply owns_view. eapply from_pointer_strided_kind; eauto.
  - cbn [yields]. intros y b [].
  - cbn [yields]. intros y b [].
  - unfold ends_new. apply yields_bind, yields_pure. intros v Hv. cbn [yields]. apply owns_view. eapply block_kind; eauto.
  - destruct (bm_layout b); try discriminate H. apply INJ in H. subst c. apply yields_bind, yields_pure. intros [[[b0 b1] b2] b3] Hs.
    cbn [yields]. apply split_kind in Hs. rewrite Forall_forall in Hs. intros y k I Ik. cbn [fst In] in I.
    assert (E : exists v, In v [b0; b1; b2; b3] /\ y = MBase v) by (destruct I as [<-|[<-|[<-|[<-|[]]]]]; eexists; (split; [|reflexivity]); cbn; auto).
    destruct E as (v & Iv & ->). rewrite slice_owned in Ik by auto. destruct Ik.
  - cbn [yields]. intros y b [<-|[]] [].
  - cbn [yields]. intros y b [<-|[]] [].
  - cbn [yields]. eapply ONE; [eassumption|]. intros b I. destruct p; cbn in I; auto; destruct I.
  - cbn [yields]. eapply ONE; [eassumption|]. intros b I. destruct p; cbn in I; auto; destruct I.
  - apply yields_bind, yields_pure. intros z Hz. cbn [yields].
    assert (Z : forall b, In b (owned_blocks z) -> In b (owned_blocks m0) \/ In b (owned_blocks m1)).
    { destruct p, q; cbn [plus] in Hz; unfold add_mat_mat, add_mat_ref, add_ref_mat, add_ref_ref, addition_new in Hz;
        apply bind_ok in Hz; destruct Hz as (? & _ & Hz); injection Hz as <-; cbn [owned_blocks from_ref]; intros b I;
        try apply in_app_or in I; cbn [In owned_blocks from_ref] in *; tauto. }
    intros y1 b [<-|[]] I. right. destruct (Z b I); [exists m0|exists m1]; (split; [eapply nth_error_In; eassumption|auto]).
  - apply makes_ends, makes_eval.
  - apply makes_ends, makes_dot.
Qed.
End Owners.
