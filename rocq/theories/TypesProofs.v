(** * TypesProofs: histories that type check. *)

From Verif Require Import Machine Layouts Memory Matrix MatMul ExprSpec ProductSpec Program Types.
From Verif Require Import MachineFacts AccessFacts.
Local Open Scope N_scope.

Section TypesProofs.
Context {T : Type} {SC : HScalar T} {St : Type}.
Variable kern : kernel T.
Notation heap := (@heap T).

Ltac open_ok H :=
  match type of H with
  | bind _ _ = Ok _ => apply bind_ok in H; let a := fresh "a" in let Ha := fresh "Ha" in destruct H as (a & Ha & H);
      try (match type of a with prod _ _ => destruct a end); cbn beta iota in H; open_ok H
  | Ok _ = Ok _ => injection H; clear H; intros; subst
  | _ => idtac
  end.

(** ** What the constructors return: the type and the layout *)

Definition made (b : base_matrix) (t : matrix_type) (l : layout) : Prop :=
  type_of_base b = t /\ bm_layout b = l.

Lemma from_data_type : forall m rs cs c l b, from_data m rs cs c l = Ok b ->
  made b (TBase (type_of_container c) (type_of_layout l) rs cs) l.
Proof. intros m rs cs c l b H. unfold from_data in H. open_ok H. split; reflexivity. Qed.

Lemma vector_container_type : forall (h : heap) n h' c, vector_container_new h n = Ok (h', c) -> type_of_container c = TVector.
Proof.
  intros h n h' c H. unfold vector_container_new in H.
  destruct (n * Npos ssize <=? isize_max); [|discriminate].
  destruct (alloc h _) eqn:E. open_ok H. reflexivity.
Qed.

Lemma array_container_type : forall (h : heap) n h' c, array_container_new h n = (h', c) -> type_of_container c = TArray n.
Proof.
  intros h n h' c H. unfold array_container_new, alloc in H. injection H as _ <-.
  unfold type_of_container. cbn [c_kind c_region r_len]. now rewrite repeat_length, N2Nat.id.
Qed.

Lemma slice_container_type : forall mut r, type_of_container (slice_container mut r) = slice_type mut.
Proof. intros [] r; reflexivity. Qed.

Lemma from_dimension_type : forall k d l, from_dimension k d = Ok l -> type_of_layout l = kind_type k.
Proof. intros k d l H. destruct k; cbn [from_dimension] in H; open_ok H; reflexivity. Qed.

Lemma zeros_type : forall m (h : heap) k r c h' b, zeros_from_dim m h k r c = Ok (h', b) ->
  type_of_base b = TBase TVector (kind_type k) Dynamic Dynamic.
Proof.
  intros m h k r c h' b H. unfold zeros_from_dim in H. open_ok H.
  apply from_data_type in Ha3. destruct Ha3 as [-> _].
  apply vector_container_type in Ha1. apply from_dimension_type in Ha2. now rewrite Ha1, Ha2.
Qed.

Lemma row_zeros_type : forall m (h : heap) n h' b, row_vector_zeros_from_length m h n = Ok (h', b) ->
  made b (TBase TVector TRowVector Fixed1 Dynamic) (RowVector n).
Proof.
  intros m h n h' b H. unfold row_vector_zeros_from_length in H. open_ok H.
  apply from_data_type in Ha0. apply vector_container_type in Ha. rewrite Ha in Ha0. exact Ha0.
Qed.

Lemma column_zeros_type : forall m (h : heap) n h' b, column_vector_zeros_from_length m h n = Ok (h', b) ->
  made b (TBase TVector TColumnVector Dynamic Fixed1) (ColumnVector n).
Proof.
  intros m h n h' b H. unfold column_vector_zeros_from_length in H. open_ok H.
  apply from_data_type in Ha0. apply vector_container_type in Ha. rewrite Ha in Ha0. exact Ha0.
Qed.

Lemma row_zeros_dim_type : forall m (h : heap) r n h' b, row_vector_zeros_from_dim m h r n = Ok (h', b) ->
  made b (TBase TVector TRowVector Fixed1 Dynamic) (RowVector n).
Proof.
  intros m h r n h' b H. unfold row_vector_zeros_from_dim in H. open_ok H.
  apply from_data_type in Ha1. apply vector_container_type in Ha0. rewrite Ha0 in Ha1. exact Ha1.
Qed.

Lemma column_zeros_dim_type : forall m (h : heap) n c h' b, column_vector_zeros_from_dim m h n c = Ok (h', b) ->
  made b (TBase TVector TColumnVector Dynamic Fixed1) (ColumnVector n).
Proof.
  intros m h n c h' b H. unfold column_vector_zeros_from_dim in H. open_ok H.
  apply from_data_type in Ha1. apply vector_container_type in Ha0. rewrite Ha0 in Ha1. exact Ha1.
Qed.

Definition base_fits (b : base_matrix) : Prop :=
  fits (bm_rs b) (fst (dim (bm_layout b))) /\ fits (bm_cs b) (snd (dim (bm_layout b))).

Lemma made_fits : forall b c lt rs cs l, made b (TBase c lt rs cs) l ->
  fits rs (fst (dim l)) -> fits cs (snd (dim l)) -> base_fits b.
Proof.
  intros b c lt rs cs l [H <-] Hr Hc. unfold type_of_base in H. injection H as _ _ <- <-. split; assumption.
Qed.

Lemma existsb_cases : forall (A : Type) (f : A -> bool) l, existsb f l = true -> exists x, In x l /\ f x = true.
Proof. intros A f l. apply existsb_exists. Qed.

Lemma size_eqb_eq : forall a b, size_eqb a b = true -> a = b.
Proof. now intros [] []. Qed.
Lemma kind_eqb_eq : forall a b, kind_eqb a b = true -> a = b.
Proof. now intros [] []. Qed.

Lemma zeros_fixed_type : forall m (h : heap) k rs cs h' b, is_fixed_instance rs cs k = true ->
  zeros_fixed m h k rs cs = Ok (h', b) ->
  type_of_base b = TBase (TArray (size_N rs * size_N cs)) (kind_type k) rs cs /\ base_fits b.
Proof.
  intros m h k rs cs h' b Hi H. unfold zeros_fixed in H.
  destruct (array_container_new h (size_N rs * size_N cs)) as [h1 c] eqn:E. apply array_container_type in E.
  open_ok H. pose proof (from_data_type _ _ _ _ _ _ Ha0) as M. rewrite E in M.
  rewrite (from_dimension_type _ _ _ Ha) in M. split; [apply M|].
  eapply made_fits; [exact M | |];
    unfold is_fixed_instance in Hi; apply existsb_cases in Hi; destruct Hi as (((r', c'), k') & Hin & Hi);
    apply andb_prop in Hi; destruct Hi as [Hi Hk]; apply andb_prop in Hi; destruct Hi as [Hr Hc];
    apply size_eqb_eq in Hr, Hc; apply kind_eqb_eq in Hk; subst r' c' k';
    cbn [fixed_instances In] in Hin; repeat destruct Hin as [Hin | Hin]; try contradiction;
    injection Hin as <- <- <-; cbn [from_dimension] in Ha; open_ok Ha; reflexivity.
Qed.

Lemma zeros_fixed_vector_type : forall m (h : heap) k rs cs n h' b, is_fixed_vector_instance rs cs k n = true ->
  zeros_fixed_vector m h rs cs k n = Ok (h', b) ->
  type_of_base b = TBase (TArray n) (kind_type k) rs cs /\ base_fits b.
Proof.
  intros m h k rs cs n h' b Hi H. unfold zeros_fixed_vector in H.
  destruct (array_container_new h n) as [h1 c] eqn:E. apply array_container_type in E.
  unfold is_fixed_vector_instance in Hi. apply existsb_cases in Hi. destruct Hi as ((((r', c'), k'), n') & Hin & Hi).
  apply andb_prop in Hi; destruct Hi as [Hi Hn]; apply andb_prop in Hi; destruct Hi as [Hi Hk];
    apply andb_prop in Hi; destruct Hi as [Hr Hc].
  apply size_eqb_eq in Hr, Hc; apply kind_eqb_eq in Hk; apply N.eqb_eq in Hn; subst r' c' k' n'.
  cbn [fixed_vector_instances In] in Hin; repeat destruct Hin as [Hin | Hin]; try contradiction;
    injection Hin as <- <- <- <-; cbn [from_length] in H; open_ok H;
    pose proof (from_data_type _ _ _ _ _ _ Ha) as M; rewrite E in M;
    (split; [apply M | eapply made_fits; [exact M | reflexivity | reflexivity]]).
Qed.

Lemma from_pointer_type : forall m mut o p d b, from_pointer m mut o p d = Ok b ->
  type_of_base b = TBase (slice_type mut) (order_type o) Dynamic Dynamic.
Proof.
  intros m mut o p d b H. unfold from_pointer in H. open_ok H.
  apply from_data_type in H. destruct H as [-> _]. rewrite slice_container_type. now destruct o.
Qed.

Lemma from_pointer_strided_type : forall m mut o p d s b, from_pointer_strided m mut o p d s = Ok b ->
  type_of_base b = TBase (slice_type mut) (stride_order_type o) Dynamic Dynamic.
Proof.
  intros m mut o p d s b H. unfold from_pointer_strided in H. open_ok H.
  apply from_data_type in H. destruct H as [-> _]. rewrite slice_container_type. now destruct o.
Qed.

Lemma block_type_ok : forall m mut b tl d v, block m mut b tl d = Ok v ->
  exists l, block_type (type_of_layout (bm_layout b)) = Some l /\ type_of_base v = TBase (slice_type mut) l Dynamic Dynamic.
Proof.
  intros m mut b tl d v H. unfold block in H.
  destruct (bm_layout b) eqn:El; cbn [block_order] in H; try discriminate; open_ok H;
    apply from_pointer_strided_type in H; eexists; (split; [reflexivity | exact H]).
Qed.

Lemma block_type_order : forall l, block_type (type_of_layout l) = None <-> block_order l = None.
Proof. intros []; cbn; split; congruence. Qed.

Lemma split_type : forall m b s b0 b1 b2 b3, split_in_four_mut m b s = Ok (b0, b1, b2, b3) ->
  map type_of_base [b0; b1; b2; b3] = repeat (TBase TSliceMut TStrideRowMajor Dynamic Dynamic) 4.
Proof.
  intros m b s b0 b1 b2 b3 H. unfold split_in_four_mut in H. open_ok H.
  repeat match goal with E : from_pointer_strided _ _ _ _ _ _ = Ok _ |- _ => apply from_pointer_strided_type in E end.
  cbn [map repeat]. repeat match goal with E : type_of_base _ = _ |- _ => rewrite E end. reflexivity.
Qed.

(** ** Operands *)

Lemma mat_size_type : forall x : matrix T, mat_size x = sizes_of (type_of x).
Proof. induction x; cbn [mat_size sizes_of type_of type_of_base]; auto. Qed.

Lemma mat_layout_type : forall x : matrix T, type_of_layout (mat_layout x) = layout_of (type_of x).
Proof. induction x; cbn [mat_layout layout_of type_of type_of_base]; auto. Qed.

Lemma writable_types : forall x : matrix T, is_writable x = writable_type (type_of x).
Proof.
  induction x; cbn [is_writable writable_type type_of type_of_base]; auto.
  unfold container_is_mut, type_of_container. now destruct (c_kind (bm_data b)).
Qed.

Lemma index_types : forall l, type_of_layout (index_layout l) = index_type (type_of_layout l).
Proof. now intros []. Qed.

Lemma index_kind_type : forall l, kind_type (index_kind l) = index_type (type_of_layout l).
Proof. now intros []. Qed.

Lemma same_index : forall l l', kind_eqb (index_kind l) (index_kind l') =
  layout_type_eqb (index_type (type_of_layout l)) (index_type (type_of_layout l')).
Proof. now intros [] []. Qed.

Lemma strided_types : forall l, strided_type l = strided_layout_type (type_of_layout l).
Proof. now intros []. Qed.

Lemma mutable_types : forall c, container_is_mut c = mutable_container (type_of_container c).
Proof. intros c. unfold container_is_mut, type_of_container. now destruct (c_kind c). Qed.

Lemma operand_types : forall (st : state T) x, nth_error (types st) x = option_map type_of (lookup st x).
Proof. intros st x. unfold types, lookup. apply nth_error_map. Qed.

Lemma base_types : forall (st : state T) mut x, base_type (types st) mut x =
  option_map (fun b => (type_of_layout (bm_layout b), base_sizes b)) (lookup_block st mut x).
Proof.
  intros st mut x. unfold base_type. rewrite operand_types. unfold lookup_block, lookup_mut, lookup_base.
  destruct (lookup st x) as [[b | | | |]|]; cbn [option_map type_of type_of_base]; try now destruct mut.
  destruct mut; cbn [negb orb]; [|reflexivity]. rewrite <- mutable_types. now destruct (container_is_mut (bm_data b)).
Qed.

Lemma base_types_mut : forall (st : state T) x, base_type (types st) true x =
  option_map (fun b => (type_of_layout (bm_layout b), base_sizes b)) (lookup_mut st x).
Proof. intros st x. exact (base_types st true x). Qed.
Lemma base_types_shared : forall (st : state T) x, base_type (types st) false x =
  option_map (fun b => (type_of_layout (bm_layout b), base_sizes b)) (lookup_base st x).
Proof. intros st x. exact (base_types st false x). Qed.

(** ** One call *)

(** The call exists exactly if it has a signature, and returns what the signature says. *)
Definition agrees (st : state T) (s : option return_type) (e : option (outcome (state T * result T St))) : Prop :=
  match s, e with
  | None, None => True
  | Some r, Some out => forall st' res, out = Ok (st', res) -> of_type res r /\ types st' = types st ++ returned r
  | _, _ => False
  end.

Lemma agrees_new1 : forall st r t, (forall h b, r = Ok (h, b) -> type_of_base b = t) ->
  agrees st (Some (TMatrices [t])) (Some (new1 (St := St) st r)).
Proof.
  intros st r t H st' res E. unfold new1 in E. destruct r as [[h b] | |]; try discriminate.
  injection E as <- <-. rewrite <- (H _ _ eq_refl). split; [exact I|].
  unfold types. cbn [st_mats]. now rewrite map_app.
Qed.

Lemma agrees_view : forall st r t, (forall b, r = Ok b -> type_of_base b = t) ->
  agrees st (Some (TMatrices [t])) (Some (new_view (St := St) st r)).
Proof.
  intros st r t H st' res E. unfold new_view in E. destruct r as [b | |]; try discriminate.
  injection E as <- <-. rewrite <- (H _ eq_refl). split; [exact I|].
  unfold types. cbn [st_mats]. now rewrite map_app.
Qed.

Lemma agrees_expr : forall st r t, (forall x, r = Ok x -> type_of x = t) ->
  agrees st (Some (TMatrices [t])) (Some (new_expr (St := St) st r)).
Proof.
  intros st r t H st' res E. unfold new_expr in E. destruct r as [b | |]; try discriminate.
  injection E as <- <-. rewrite <- (H _ eq_refl). split; [exact I|].
  unfold types. cbn [st_mats]. now rewrite map_app.
Qed.

Lemma agrees_item : forall st r, agrees st (Some TItem) (Some (item (St := St) st r)).
Proof. intros st r st' res E. unfold item in E. open_ok E. split; [exact I | symmetry; apply app_nil_r]. Qed.

Lemma agrees_done : forall st r, agrees st (Some TUnit) (Some (done (St := St) st r)).
Proof. intros st r st' res E. unfold done in E. open_ok E. split; [exact I | symmetry; apply app_nil_r]. Qed.

Lemma agrees_looped : forall st r, agrees st (Some TLoop) (Some (looped (St := St) st r)).
Proof.
  intros st r st' res E. unfold looped in E. apply bind_ok in E. destruct E as ([[h s] p] & _ & E).
  open_ok E. split; [exact I | symmetry; apply app_nil_r].
Qed.

Lemma plus_type : forall p q (u v : matrix T) x, plus p q u v = Ok x ->
  type_of x = TAddition (index_type (layout_of (type_of u))) (passed_type p (type_of u)) (passed_type q (type_of v)).
Proof.
  intros p q u v x H. destruct p, q; unfold plus, add_mat_mat, add_mat_ref, add_ref_mat, add_ref_ref, addition_new in H;
    open_ok H; cbn [type_of passed_type from_ref mat_layout]; now rewrite index_types, mat_layout_type.
Qed.

Lemma dot_made : forall shape m (h : heap) a b h' c, dot shape kern m h a b = Ok (h', c) ->
  type_of_base c = snd (dot_type shape) /\ base_fits c.
Proof.
  intros shape m h a b h' c H. destruct shape; unfold dot, dot_mat_mat, dot_row_mat, dot_mat_col in H; open_ok H.
  - apply zeros_type in Ha. split; [exact Ha|]. unfold type_of_base in Ha. injection Ha as _ _ Hr Hc.
    unfold base_fits. rewrite Hr, Hc. split; exact I.
  - apply row_zeros_dim_type in Ha. split; [apply Ha|]. eapply made_fits; [exact Ha | reflexivity | exact I].
  - apply column_zeros_dim_type in Ha. split; [apply Ha|]. eapply made_fits; [exact Ha | exact I | reflexivity].
Qed.

Lemma exec_agrees : forall m (st : state T) (o : call T St), agrees st (signature (types st) o) (exec kern m st o).
Proof.
  intros m st o.
  destruct o; cbn [signature exec]; rewrite ?operand_types, ?base_types_mut, ?base_types_shared, ?base_types.
  - apply agrees_new1. intros h b. apply zeros_type.
  - destruct (is_fixed_instance rs cs k) eqn:E; [|exact I]. apply agrees_new1. intros h b H.
    now apply (zeros_fixed_type _ _ _ _ _ _ _ E H).
  - destruct (is_fixed_vector_instance rs cs k n) eqn:E; [|exact I]. apply agrees_new1. intros h b H.
    now apply (zeros_fixed_vector_type _ _ _ _ _ _ _ _ E H).
  - apply agrees_new1. intros h b H. apply (row_zeros_type _ _ _ _ _ H).
  - apply agrees_new1. intros h b H. apply (column_zeros_type _ _ _ _ _ H).
  - apply agrees_new1. intros h b H. apply (row_zeros_dim_type _ _ _ _ _ _ H).
  - apply agrees_new1. intros h b H. apply (column_zeros_dim_type _ _ _ _ _ _ H).
  - apply agrees_new1. intros h b H. open_ok H. apply vector_container_type in Ha. apply from_data_type in Ha0.
    destruct Ha0 as [-> _]. now rewrite Ha.
  - destruct (n * Npos ssize <=? isize_max); [|exact I]. apply agrees_new1. intros h b H.
    destruct (array_container_new (st_heap st) n) as [h1 c] eqn:E. apply array_container_type in E. open_ok H.
    apply from_data_type in Ha. destruct Ha as [-> _]. now rewrite E.
  - destruct (lookup_block st mut x) as [b|]; cbn [option_map typed]; [|exact I]. apply agrees_view. intros v H.
    open_ok H. apply from_data_type in H. destruct H as [-> _]. now rewrite slice_container_type.
  - destruct (lookup_block st mut x) as [b|]; cbn [option_map typed]; [|exact I]. apply agrees_view. intros v H.
    open_ok H. apply (from_pointer_type _ _ _ _ _ _ H).
  - destruct (lookup_block st mut x) as [b|]; cbn [option_map typed]; [|exact I]. apply agrees_view. intros v H.
    open_ok H. apply (from_pointer_strided_type _ _ _ _ _ _ _ H).
  - destruct (lookup st x); [apply agrees_item | exact I].
  - destruct (lookup st x); [apply agrees_item | exact I].
  - destruct (lookup st x) as [y|]; [|exact I]. cbn [option_map typed]. rewrite writable_types.
    destruct (writable_type (type_of y)); [apply agrees_done | exact I].
  - destruct (lookup st x) as [y|]; [|exact I]. cbn [option_map typed]. rewrite writable_types.
    destruct (writable_type (type_of y)); [apply agrees_done | exact I].
  - destruct (lookup st x); [apply agrees_item | exact I].
  - destruct (lookup st x); [apply agrees_item | exact I].
  - destruct (lookup st x) as [y|]; [|exact I]. cbn [option_map typed]. rewrite writable_types.
    destruct (writable_type (type_of y)); [apply agrees_done | exact I].
  - destruct (lookup st x) as [y|]; [|exact I]. cbn [option_map typed]. rewrite writable_types.
    destruct (writable_type (type_of y)); [apply agrees_done | exact I].
  - destruct (lookup_base st x); [apply agrees_item | exact I].
  - destruct (lookup_mut st x); [apply agrees_done | exact I].
  - destruct (lookup st x); [|exact I]. cbn [option_map typed agrees]. intros st' res H. injection H as <- <-.
    split; [exact I | symmetry; apply app_nil_r].
  - destruct (lookup st x) as [y|]; [|exact I]. cbn [option_map typed]. unfold mat_length. rewrite mat_size_type.
    destruct (sizes_of (type_of y)) as [[] []]; cbn [sizes_eqb size_eqb fst snd andb orb when typed]; try exact I;
      cbn [agrees]; intros st' res H; injection H as <- <-; (split; [exact I | symmetry; apply app_nil_r]).
  - destruct (lookup_block st mut x) as [b|]; cbn [option_map typed]; [|exact I]. unfold is_dynamic.
    destruct (sizes_eqb (base_sizes b) (Dynamic, Dynamic)); cbn [when]; [|exact I].
    destruct (block_order (bm_layout b)) eqn:Eo.
    + destruct (block_type (type_of_layout (bm_layout b))) eqn:Et; [|apply block_type_order in Et; congruence].
      cbn [typed]. apply agrees_view. intros v H. apply block_type_ok in H. destruct H as (l' & El & H). congruence.
    + apply block_type_order in Eo. rewrite Eo. exact I.
  - destruct (lookup_mut st x) as [b|]; cbn [option_map typed]; [|exact I]. unfold is_dynamic.
    destruct (sizes_eqb (base_sizes b) (Dynamic, Dynamic)); cbn [when andb]; [|exact I].
    destruct (bm_layout b); cbn [type_of_layout layout_type_eqb when agrees]; try exact I.
    intros st' res H. apply bind_ok in H. destruct H as ([[[b0 b1] b2] b3] & Hs & H). injection H as <- <-.
    split; [exact I|]. unfold types. cbn [st_mats returned]. rewrite map_app. f_equal. exact (split_type _ _ _ _ _ _ _ Hs).
  - destruct (lookup st x) as [y|]; [|exact I]. cbn [option_map typed]. apply agrees_expr. intros v H.
    injection H as <-. reflexivity.
  - destruct (lookup st x) as [y|]; [|exact I]. cbn [option_map typed]. apply agrees_expr. intros v H.
    injection H as <-. reflexivity.
  - destruct (lookup st x) as [y|]; [|exact I]. cbn [option_map typed]. apply agrees_expr. intros v H.
    injection H as <-. now destruct p.
  - destruct (lookup st x) as [y|]; [|exact I]. cbn [option_map typed]. apply agrees_expr. intros v H.
    injection H as <-. now destruct p.
  - destruct (lookup st x) as [u|]; [|exact I]. destruct (lookup st y) as [v|]; [|exact I]. cbn [option_map typed].
    rewrite same_index, !mat_layout_type, !mat_size_type.
    destruct (layout_type_eqb _ _ && sizes_eqb _ _); cbn [when]; [|exact I]. apply agrees_expr. intros z H.
    now apply plus_type.
  - destruct (lookup st x) as [y|]; [|exact I]. cbn [option_map typed]. unfold is_dynamic. rewrite mat_size_type.
    destruct (sizes_eqb _ _); cbn [when]; [|exact I]. apply agrees_new1. intros h b H. unfold eval in H. open_ok H.
    apply zeros_type in Ha. rewrite Ha. now rewrite index_kind_type, mat_layout_type.
  - destruct (lookup_mut st x); [apply agrees_looped | exact I].
  - destruct (lookup_mut st x); [apply agrees_looped | exact I].
  - destruct (lookup_base st a) as [ma|]; [|exact I]. destruct (lookup_base st b) as [mb|]; [|exact I].
    destruct (lookup_mut st c) as [mc|]; [|exact I]. cbn [option_map typed]. unfold matmul_typed. rewrite !strided_types.
    match goal with |- agrees _ (when ?u _) (when ?v _) => change v with u; destruct u end; cbn [when];
      [apply agrees_done | exact I].
  - destruct (lookup_base st a) as [ma|]; [|exact I]. destruct (lookup_base st b) as [mb|]; [|exact I].
    cbn [option_map typed]. unfold dot_typed. rewrite !strided_types.
    destruct (dot_type shape) as [[s1 s2] t] eqn:Es.
    replace (match shape with
             | MatrixMatrix => _ | RowMatrix => _ | MatrixColumn => _ end)
      with (sizes_eqb (base_sizes ma) s1 && sizes_eqb (base_sizes mb) s2)
      by (destruct shape; injection Es as <- <- <-; reflexivity).
    rewrite <- !andb_assoc. destruct (strided_layout_type _ && _); cbn [when]; [|exact I].
    apply agrees_new1. intros h b' H. apply dot_made in H. rewrite Es in H. apply H.
Qed.

Lemma exec_none : forall m (st : state T) (o : call T St), exec kern m st o = None <-> signature (types st) o = None.
Proof.
  intros m st o. pose proof (exec_agrees m st o) as H. unfold agrees in H.
  destruct (signature (types st) o), (exec kern m st o); split; intros E; try discriminate; try contradiction; reflexivity.
Qed.

Lemma exec_returns : forall m (st : state T) (o : call T St) st' r, exec kern m st o = Some (Ok (st', r)) ->
  exists t, signature (types st) o = Some t /\ of_type r t /\ types st' = types st ++ returned t.
Proof.
  intros m st o st' r E. pose proof (exec_agrees m st o) as H. rewrite E in H. unfold agrees in H.
  destruct (signature (types st) o) as [t|]; [|contradiction]. exists t. split; [reflexivity|]. now apply H.
Qed.

(** ** Histories *)

Lemma exec_seen : forall m (st : state T) (o : call T St) st' r, exec kern m st o = Some (Ok (st', r)) ->
  r <> RPanicked /\ r <> RSkipped.
Proof.
  intros m st o st' r E. apply exec_returns in E. destruct E as (t & _ & E & _).
  destruct r; cbn in E; try contradiction; split; discriminate.
Qed.

Lemma step_cases : forall m (st : state T) (o : call T St) st' r, step kern m st o = Ok (st', r) ->
  exec kern m st o = Some (Ok (st', r)) \/
  (st' = st /\ r = RPanicked /\ exec kern m st o = Some Panic) \/
  (st' = st /\ r = RSkipped /\ exec kern m st o = None).
Proof.
  intros m st o st' r H. unfold step in H. destruct (exec kern m st o) as [[v| |]|] eqn:E.
  - injection H as ->. auto.
  - injection H as <- <-. auto.
  - discriminate.
  - injection H as <- <-. auto.
Qed.

Lemma run_typed : forall m (os : list (call T St)) (st : state T) ts st' rs,
  check (types st) os = Some ts -> run kern m st os = Ok (st', rs) -> ~ In RPanicked rs ->
  ~ In RSkipped rs /\ types st' = ts.
Proof.
  intros m os. induction os as [|o os IH]; intros st ts st' rs C H Hp.
  - cbn in C, H. injection C as <-. injection H as <- <-. split; [intros [] | reflexivity].
  - cbn [check] in C. destruct (signature (types st) o) as [t|] eqn:S; [cbn [typed] in C | discriminate].
    cbn [run] in H. apply bind_ok in H. destruct H as ([st1 r] & H1 & H). apply bind_ok in H.
    destruct H as ([st2 rs2] & H2 & H). injection H as <- <-.
    apply step_cases in H1. destruct H1 as [H1 | [(_ & -> & _) | (_ & -> & H1)]].
    + pose proof (exec_seen _ _ _ _ _ H1) as [_ Hs]. apply exec_returns in H1. destruct H1 as (t' & S' & _ & Et).
      rewrite S in S'. injection S' as <-. rewrite <- Et in C.
      destruct (IH _ _ _ _ C H2) as [I1 I2]; [intros Hin; apply Hp; now right|].
      split; [|exact I2]. intros [Hin | Hin]; [now apply Hs | now apply I1].
    + exfalso. apply Hp. now left.
    + apply exec_none in H1. congruence.
Qed.

Lemma run_seen : forall m (os : list (call T St)) (st : state T) st' rs,
  run kern m st os = Ok (st', rs) -> ~ In RPanicked rs -> ~ In RSkipped rs ->
  check (types st) os = Some (types st').
Proof.
  intros m os. induction os as [|o os IH]; intros st st' rs H Hp Hs.
  - cbn in H. injection H as <- <-. reflexivity.
  - cbn [run] in H. apply bind_ok in H. destruct H as ([st1 r] & H1 & H). apply bind_ok in H.
    destruct H as ([st2 rs2] & H2 & H). injection H as <- <-.
    apply step_cases in H1. destruct H1 as [H1 | [(_ & -> & _) | (_ & -> & H1)]].
    + apply exec_returns in H1. destruct H1 as (t & S & _ & Et). cbn [check]. rewrite S. cbn [typed]. rewrite <- Et.
      apply (IH _ _ _ H2); intros Hin; [apply Hp | apply Hs]; now right.
    + exfalso. apply Hp. now left.
    + exfalso. apply Hs. now left.
Qed.

Lemma run_first : forall m (os : list (call T St)) (st : state T) ts st' rs,
  check (types st) os = Some ts -> run kern m st os = Ok (st', rs) ->
  forall before after, rs = before ++ RSkipped :: after -> In RPanicked before.
Proof.
  intros m os. induction os as [|o os IH]; intros st ts st' rs C H before after Ers.
  - cbn in H. injection H as <- <-. now destruct before.
  - cbn [check] in C. destruct (signature (types st) o) as [t|] eqn:S; [cbn [typed] in C | discriminate].
    cbn [run] in H. apply bind_ok in H. destruct H as ([st1 r] & H1 & H). apply bind_ok in H.
    destruct H as ([st2 rs2] & H2 & H). injection H as <- Ers'. rewrite Ers in Ers'. clear Ers.
    apply step_cases in H1. destruct H1 as [H1 | [(_ & -> & _) | (_ & _ & H1)]].
    + pose proof (exec_seen _ _ _ _ _ H1) as [_ Hs]. apply exec_returns in H1. destruct H1 as (t' & S' & _ & Et).
      rewrite S in S'. injection S' as <-. rewrite <- Et in C.
      destruct before as [|r0 before]; cbn [app] in Ers'; injection Ers' as E0 E1; [now subst r|].
      right. apply (IH _ _ _ _ C H2 before after). now symmetry.
    + destruct before as [|r0 before]; cbn [app] in Ers'; injection Ers' as E0 E1; [discriminate|]. now left.
    + apply exec_none in H1. congruence.
Qed.

(** ** Sizes *)

Lemma truthful_base : forall b, truthful (@MBase T b) <-> base_fits b.
Proof. intros b. reflexivity. Qed.

Lemma dynamic_fits : forall b c l, type_of_base b = TBase c l Dynamic Dynamic -> base_fits b.
Proof. intros b c l H. unfold type_of_base in H. injection H as _ _ Hr Hc. unfold base_fits. rewrite Hr, Hc. split; exact I. Qed.

(** What a call adds to the table, and that it is truthful if the call supplies fitting data. *)
Definition adds (st st' : state T) (o : call T St) (r : result T St) : Prop :=
  exists new, st_mats st' = st_mats st ++ new /\ (Forall truthful (st_mats st) ->
    (Forall truthful new <-> (r = RNew -> fitting_data o))).

Lemma adds_base : forall st h b o, (base_fits b <-> fitting_data o) -> adds st (mkState h (st_mats st ++ [MBase b])) o RNew.
Proof.
  intros st h b o H. exists [MBase b]. split; [reflexivity|]. intros _. split.
  - intros F _. inversion_clear F as [|? ? F1 _]. now apply H.
  - intros F. constructor; [|constructor]. apply truthful_base, H. now apply F.
Qed.

Lemma adds_nothing : forall st h o r, r <> RNew -> adds st (mkState h (st_mats st)) o r.
Proof.
  intros st h o r Hr. exists []. split; [symmetry; apply app_nil_r|]. intros _. split; [now intros _ ? | constructor].
Qed.

Lemma adds_expr : forall st h x o, fitting_data o -> (Forall truthful (st_mats st) -> truthful x) ->
  adds st (mkState h (st_mats st ++ [x])) o RNew.
Proof.
  intros st h x o Ho Hx. exists [x]. split; [reflexivity|]. intros F. split; [now intros _ _|].
  intros _. constructor; [now apply Hx | constructor].
Qed.

Lemma fits_iff : forall b c lt rs cs l, made b (TBase c lt rs cs) l ->
  base_fits b <-> fits rs (fst (dim l)) /\ fits cs (snd (dim l)).
Proof. intros b c lt rs cs l [H <-]. unfold type_of_base in H. injection H as _ _ <- <-. reflexivity. Qed.

Lemma lookup_truthful : forall (st : state T) x y, lookup st x = Some y -> Forall truthful (st_mats st) -> truthful y.
Proof. intros st x y H F. rewrite Forall_forall in F. apply F. now apply nth_error_In in H. Qed.

Lemma scaled_truthful : forall p (x : matrix T) s, truthful x -> truthful (scalar_times s p x) /\ truthful (times_scalar p x s).
Proof. intros [] x s H; split; exact H. Qed.

Lemma plus_truthful : forall p q (u v : matrix T) x, plus p q u v = Ok x -> truthful u -> truthful x.
Proof.
  intros p q u v x H Hu. unfold truthful, mat_dim in *.
  destruct p, q; unfold plus, add_mat_mat, add_mat_ref, add_ref_mat, add_ref_ref, addition_new in H;
    open_ok H; cbn [type_of sizes_of mat_layout from_ref]; rewrite index_layout_dim; exact Hu.
Qed.

Lemma some_inj : forall (A : Type) (a b : A), Some a = Some b -> a = b.
Proof. intros A a b H. now injection H. Qed.

Ltac known := match goal with
  | H : typed ?x _ = Some _ |- _ => destruct x eqn:?; cbn [typed] in H; [known | discriminate]
  | H : when ?x _ = Some _ |- _ => destruct x eqn:?; cbn [when] in H; [known | discriminate]
  | H : Some _ = Some _ |- _ => apply some_inj in H
  end.

Lemma exec_adds : forall m (st : state T) (o : call T St) st' r, exec kern m st o = Some (Ok (st', r)) -> adds st st' o r.
Proof.
  intros m st o st' r H.
  destruct o; cbn [exec] in H; try known;
    unfold new1, new_view, new_expr, item, done, looped in H;
    try (apply bind_ok in H; destruct H as (z & Hv & H)).
  (* constructors *)
  - destruct z as [h b']. injection H as <- <-. apply adds_base. split; [intros _; exact I | intros _].
    eapply dynamic_fits, zeros_type, Hv.
  - destruct z as [h b']. injection H as <- <-. apply adds_base. split; [intros _; exact I | intros _].
    eapply zeros_fixed_type; eassumption.
  - destruct z as [h b']. injection H as <- <-. apply adds_base. split; [intros _; exact I | intros _].
    eapply zeros_fixed_vector_type; eassumption.
  - destruct z as [h b']. injection H as <- <-. apply adds_base. split; [intros _; exact I | intros _].
    apply row_zeros_type in Hv. eapply made_fits; [exact Hv | reflexivity | exact I].
  - destruct z as [h b']. injection H as <- <-. apply adds_base. split; [intros _; exact I | intros _].
    apply column_zeros_type in Hv. eapply made_fits; [exact Hv | exact I | reflexivity].
  - destruct z as [h b']. injection H as <- <-. apply adds_base. split; [intros _; exact I | intros _].
    apply row_zeros_dim_type in Hv. eapply made_fits; [exact Hv | reflexivity | exact I].
  - destruct z as [h b']. injection H as <- <-. apply adds_base. split; [intros _; exact I | intros _].
    apply column_zeros_dim_type in Hv. eapply made_fits; [exact Hv | exact I | reflexivity].
  - destruct z as [h b']. injection H as <- <-. apply adds_base. open_ok Hv. cbn [fitting_data].
    eapply fits_iff, from_data_type. eassumption.
  - destruct z as [h b']. injection H as <- <-. apply adds_base.
    destruct (array_container_new (st_heap st) n) as [h1 c]. open_ok Hv. cbn [fitting_data].
    eapply fits_iff, from_data_type. eassumption.
  - injection H as <- <-. apply adds_base. open_ok Hv. cbn [fitting_data].
    eapply fits_iff, from_data_type. eassumption.
  - injection H as <- <-. apply adds_base. split; [intros _; exact I | intros _]. open_ok Hv.
    eapply dynamic_fits, from_pointer_type. eassumption.
  - injection H as <- <-. apply adds_base. split; [intros _; exact I | intros _]. open_ok Hv.
    eapply dynamic_fits, from_pointer_strided_type. eassumption.
  (* access *)
  - injection H as <- <-. destruct st; now apply adds_nothing.
  - injection H as <- <-. destruct st; now apply adds_nothing.
  - injection H as <- <-. now apply adds_nothing.
  - injection H as <- <-. now apply adds_nothing.
  - injection H as <- <-. destruct st; now apply adds_nothing.
  - injection H as <- <-. destruct st; now apply adds_nothing.
  - injection H as <- <-. now apply adds_nothing.
  - injection H as <- <-. now apply adds_nothing.
  - injection H as <- <-. destruct st; now apply adds_nothing.
  - injection H as <- <-. now apply adds_nothing.
  - injection H as <- <-. destruct st; now apply adds_nothing.
  - injection H as <- <-. destruct st; now apply adds_nothing.
  (* views and expressions *)
  - injection H as <- <-. apply adds_base. split; [intros _; exact I | intros _].
    apply block_type_ok in Hv. destruct Hv as (l & _ & Hv). eapply dynamic_fits, Hv.
  - destruct (lookup_mut st x) as [b|] eqn:?; cbn [typed] in H; [|discriminate].
    destruct (is_dynamic (base_sizes b)); cbn [when] in H; [|discriminate].
    destruct (bm_layout b); try discriminate. injection H as H. apply bind_ok in H.
    destruct H as ([[[b0 b1] b2] b3] & Hv & H). injection H as <- <-.
    exists [MBase b0; MBase b1; MBase b2; MBase b3]. split; [reflexivity|]. intros _. split; [now intros _ _ | intros _].
    apply split_type in Hv. cbn [map repeat] in Hv. injection Hv as E0 E1 E2 E3.
    repeat (constructor; [apply truthful_base; unfold base_fits; repeat match goal with E : _ = Dynamic |- _ => rewrite E; clear E end; split; exact I|]).
    constructor.
  - injection H as <- <-. injection Hv as <-. apply adds_expr; [exact I|]. intros F.
    match goal with E : lookup _ _ = Some ?y |- _ => exact (lookup_truthful _ _ y E F) end.
  - injection H as <- <-. injection Hv as <-. apply adds_expr; [exact I|]. intros F.
    match goal with E : lookup _ _ = Some ?y |- _ => exact (lookup_truthful _ _ y E F) end.
  - injection H as <- <-. injection Hv as <-. apply adds_expr; [exact I|]. intros F. apply scaled_truthful.
    eapply lookup_truthful; eassumption.
  - injection H as <- <-. injection Hv as <-. apply adds_expr; [exact I|]. intros F. apply scaled_truthful.
    eapply lookup_truthful; eassumption.
  - injection H as <- <-. apply adds_expr; [exact I|]. intros F. eapply plus_truthful; [exact Hv|].
    eapply lookup_truthful; eassumption.
  (* computations *)
  - destruct z as [h b']. injection H as <- <-. apply adds_base. split; [intros _; exact I | intros _].
    unfold eval in Hv. open_ok Hv. eapply dynamic_fits, zeros_type. eassumption.
  - destruct z as [[h z] p']. injection H as <- <-. now apply adds_nothing.
  - destruct z as [[h z] p']. injection H as <- <-. now apply adds_nothing.
  - injection H as <- <-. now apply adds_nothing.
  - destruct z as [h z]. injection H as <- <-. apply adds_base. split; [intros _; exact I | intros _].
    eapply dot_made. eassumption.
Qed.

Lemma run_truthful : forall m (os : list (call T St)) (st st' : state T) rs, run kern m st os = Ok (st', rs) ->
  Forall truthful (st_mats st') <->
  Forall truthful (st_mats st) /\ forall o, In (o, RNew) (combine os rs) -> fitting_data o.
Proof.
  intros m os. induction os as [|o os IH]; intros st st' rs H.
  - cbn in H. injection H as <- <-. cbn [combine In]. tauto.
  - cbn [run] in H. apply bind_ok in H. destruct H as ([st1 r] & H1 & H). apply bind_ok in H.
    destruct H as ([st2 rs2] & H2 & H). injection H as <- <-. rewrite (IH _ _ _ H2). cbn [combine In].
    assert (A : adds st st1 o r).
    { apply step_cases in H1. destruct H1 as [H1 | [(-> & -> & _) | (-> & -> & _)]].
      - now apply exec_adds with m.
      - destruct st; now apply adds_nothing.
      - destruct st; now apply adds_nothing. }
    destruct A as (new & -> & A). rewrite Forall_app. split.
    + intros [[F Fn] G]. split; [exact F|]. intros o' [E | E]; [|now apply G].
      injection E as <- E. now apply (proj1 (A F) Fn).
    + intros [F G]. split; [split; [exact F|] |].
      * apply (A F). intros ->. apply G. now left.
      * intros o' E. apply G. now right.
Qed.

Lemma initial_truthful : forall m (os : list (call T St)) st' rs, run kern m initial os = Ok (st', rs) ->
  Forall truthful (st_mats st') <-> forall o, In (o, RNew) (combine os rs) -> fitting_data o.
Proof.
  intros m os st' rs H. rewrite (run_truthful _ _ _ _ _ H). split; [tauto|]. intros F. split; [constructor | exact F].
Qed.

Lemma vector_lengths : forall m (os : list (call T St)) st' rs, run kern m initial os = Ok (st', rs) ->
  (forall o, In (o, RNew) (combine os rs) -> fitting_data o) ->
  forall x n, In x (st_mats st') -> mat_length x = Some n -> mat_dim x = (1, n) \/ mat_dim x = (n, 1).
Proof.
  intros m os st' rs H F x n Hx L. apply (initial_truthful _ _ _ _ H) in F. rewrite Forall_forall in F.
  specialize (F x Hx). destruct F as [F1 F2]. unfold mat_length in L. rewrite mat_size_type in L.
  destruct (sizes_of (type_of x)) as [[] []]; try discriminate; injection L as <-; cbn [fst snd fits] in F1, F2;
    unfold mat_dim in *; destruct (dim (mat_layout x)); cbn [fst snd] in *; subst; auto.
Qed.

End TypesProofs.

Lemma same_types_same_methods : forall (T : Type) (SC : HScalar T) (St : Type) kern kern' m m'
  (st st' : state T) (o : call T St), types st = types st' ->
  exec kern m st o = None <-> exec kern' m' st' o = None.
Proof. intros T SC St kern kern' m m' st st' o E. rewrite !exec_none, E. reflexivity. Qed.
