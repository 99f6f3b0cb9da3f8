(** * InterleaveProofs: lemmas for C60. *)

From Coq Require Import Lia ZifyBool ZifyNat ZifyN.
From Verif Require Import Machine MachineFacts Layouts Memory Matrix MatMul Spec MatrixSpec ExprSpec ProductSpec Program HistorySpec HistoryProofs.
From Verif Require Import AccessProofs ProductProofs Borrow BorrowProofs Threads ThreadProofs Interleave.
Local Open Scope N_scope.

Section InterleaveProofs.
Context {T : Type} {SC : HScalar T} {St : Type}.
Notation heap := (@heap T).
Implicit Types h : heap.

(** ** Programs without interruption *)

Lemma complete_bind : forall A B (c : prog T A) (f : A -> prog T B) h,
  complete (pbind c f) h = ('(h', a) <- complete c h ;; complete (f a) h').
Proof.
  intros A B c f. induction c as [o|p k IH|p v k IH|l k IH]; intros h; cbn [pbind complete].
  - destruct o; reflexivity.
  - destruct (place_read h p); cbn [bind]; auto.
  - destruct (place_write h p v); cbn [bind]; auto.
  - destruct (alloc h l) as [h' r]. auto.
Qed.

Lemma complete_pure : forall A (o : outcome A) h, complete (Stop o) h = (a <- o ;; Ok (h, a)).
Proof. reflexivity. Qed.

Lemma bind_pure : forall A B (o : outcome A) (f : A -> prog T B) h,
  complete (pbind (Stop o) f) h = (a <- o ;; complete (f a) h).
Proof. intros A B [a| |] f h; reflexivity. Qed.

(** Reads. *)
Lemma complete_region_read : forall r i h, complete (p_region_read r i) h = (v <- region_read h r i ;; Ok (h, v)).
Proof.
  intros r i h. unfold p_region_read, region_read. destruct (i <? r_len r); reflexivity.
Qed.

Lemma complete_unchecked : forall m x h,
  (forall r c, complete (p_get_unchecked m x r c) h = (v <- get_unchecked m h x r c ;; Ok (h, v))) /\
  (forall i, complete (p_get1d_unchecked m x i) h = (v <- get1d_unchecked m h x i ;; Ok (h, v))).
Proof.
  intros m x h. induction x as [b | x IH | x IH | x IH s | x IHx y IHy l];
    cbn [p_get_unchecked p_get1d_unchecked get_unchecked get1d_unchecked]; auto.
  - split; intros; unfold p_base_get_unchecked, p_base_get1d_unchecked, base_get_unchecked, base_get1d_unchecked, container_get_unchecked;
      rewrite bind_pure.
    + destruct (convert_2d_raw m (bm_layout b) r c); cbn [bind]; auto. apply complete_region_read.
    + destruct (convert_1d_raw m (bm_layout b) i); cbn [bind]; auto. apply complete_region_read.
  - destruct IH as [IH1 IH2]. split; intros; rewrite complete_bind, ?IH1, ?IH2.
    + destruct (get_unchecked m h x r c); reflexivity.
    + destruct (get1d_unchecked m h x i); reflexivity.
  - destruct IHx as [X1 X2], IHy as [Y1 Y2]. split; intros; rewrite complete_bind, ?X1, ?X2.
    + destruct (get_unchecked m h x r c); cbn [bind]; auto. rewrite complete_bind, Y1.
      destruct (get_unchecked m h y r c); reflexivity.
    + destruct (get1d_unchecked m h x i); cbn [bind]; auto. rewrite complete_bind, Y2.
      destruct (get1d_unchecked m h y i); reflexivity.
Qed.

Lemma complete_get : forall m x r c h, complete (p_get m x r c) h = (v <- get m h x r c ;; Ok (h, v)).
Proof.
  intros m x r c h. unfold p_get, get. rewrite bind_pure. destruct (assert_dimension _ _ _); cbn [bind]; auto.
  apply complete_unchecked.
Qed.

Lemma complete_get1d : forall m x i h, complete (p_get1d m x i) h = (v <- get1d m h x i ;; Ok (h, v)).
Proof.
  intros m x i h. unfold p_get1d, get1d. rewrite bind_pure. destruct (number_of_elements _ _); cbn [bind]; auto.
  rewrite bind_pure. destruct (assert_dimension1d _ _); cbn [bind]; auto. apply complete_unchecked.
Qed.

(** Writes. *)
Lemma complete_write : forall p v h, complete (p_write p v) h = (h' <- place_write h p v ;; Ok (h', tt)).
Proof. reflexivity. Qed.

(** Constructors. *)
Lemma complete_vector : forall n h, complete (p_vector_container_new n) h = vector_container_new h n.
Proof. intros n h. unfold p_vector_container_new, vector_container_new. destruct (_ <=? _); reflexivity. Qed.

Lemma complete_array : forall n h, complete (p_array_container_new n) h = Ok (array_container_new h n).
Proof. reflexivity. Qed.

Lemma complete_zeros : forall m k r c h, complete (p_zeros_from_dim m k r c) h = zeros_from_dim m h k r c.
Proof.
  intros m k r c h. unfold p_zeros_from_dim, zeros_from_dim. rewrite bind_pure.
  destruct (from_dimension k (r, c)) as [l| |]; cbn [bind]; auto. rewrite bind_pure.
  destruct (number_of_elements m l) as [n| |]; cbn [bind]; auto. rewrite complete_bind, complete_vector.
  destruct (vector_container_new h n) as [[h' c']| |]; cbn [bind]; auto.
Qed.

Lemma complete_zeros_fixed : forall m k rs cs h, complete (p_zeros_fixed m k rs cs) h = zeros_fixed m h k rs cs.
Proof.
  intros m k rs cs h. unfold p_zeros_fixed, zeros_fixed. rewrite complete_bind, complete_array. cbn [bind].
  destruct (array_container_new h _) as [h' c']. rewrite bind_pure. destruct (from_dimension _ _); cbn [bind]; auto.
Qed.

Lemma complete_zeros_fixed_vector : forall m rs cs k n h,
  complete (p_zeros_fixed_vector m rs cs k n) h = zeros_fixed_vector m h rs cs k n.
Proof.
  intros m rs cs k n h. unfold p_zeros_fixed_vector, zeros_fixed_vector. rewrite complete_bind, complete_array. cbn [bind].
  destruct (array_container_new h _) as [h' c']. rewrite complete_pure. destruct (from_length k n); auto.
Qed.

Lemma complete_row : forall m n h, complete (p_row_zeros m n) h = row_vector_zeros_from_length m h n.
Proof.
  intros m n h. unfold p_row_zeros, row_vector_zeros_from_length. rewrite complete_bind, complete_vector.
  destruct (vector_container_new h n) as [[h' c]| |]; reflexivity.
Qed.

Lemma complete_column : forall m n h, complete (p_column_zeros m n) h = column_vector_zeros_from_length m h n.
Proof.
  intros m n h. unfold p_column_zeros, column_vector_zeros_from_length. rewrite complete_bind, complete_vector.
  destruct (vector_container_new h n) as [[h' c]| |]; reflexivity.
Qed.

Lemma complete_row_dim : forall m r c h, complete (p_row_zeros_dim m r c) h = row_vector_zeros_from_dim m h r c.
Proof.
  intros m r c h. unfold p_row_zeros_dim, row_vector_zeros_from_dim. rewrite bind_pure.
  destruct (assert_ _); cbn [bind]; auto. apply complete_row.
Qed.

Lemma complete_column_dim : forall m r c h, complete (p_column_zeros_dim m r c) h = column_vector_zeros_from_dim m h r c.
Proof.
  intros m r c h. unfold p_column_zeros_dim, column_vector_zeros_from_dim. rewrite bind_pure.
  destruct (assert_ _); cbn [bind]; auto. apply complete_column.
Qed.

(** Loops. *)
Lemma complete_loop : forall (body : N -> prog T unit) (f : N -> heap -> outcome heap) n i h,
  (forall i h, complete (body i) h = (h' <- f i h ;; Ok (h', tt))) ->
  complete (p_loop n i body) h = (h' <- loop n i f h ;; Ok (h', tt)).
Proof.
  intros body f n. induction n as [|n IH]; intros i h H; cbn [p_loop loop]; [reflexivity|].
  rewrite complete_bind, H. destruct (f i h) as [h'| |]; cbn [bind]; auto.
Qed.

Lemma complete_eval : forall m x h, complete (p_eval m x) h = eval m h x.
Proof.
  intros m x h. unfold p_eval, eval. cbv zeta. rewrite complete_bind, complete_zeros.
  destruct (zeros_from_dim _ _ _ _ _) as [[h1 res]| |]; cbn [bind]; auto. rewrite bind_pure.
  destruct (number_of_elements _ _) as [n| |]; cbn [bind]; auto. rewrite complete_bind. unfold for_range.
  erewrite complete_loop.
  2:{ intros i h0. rewrite complete_bind. rewrite (proj2 (complete_unchecked m x h0)).
      instantiate (1 := fun i h0 => v <- get1d_unchecked m h0 x i ;; p <- base_get1d_unchecked_mut m res i ;; place_write h0 p v).
      cbv beta. destruct (get1d_unchecked m h0 x i) as [v| |]; cbn [bind]; auto. rewrite bind_pure.
      destruct (base_get1d_unchecked_mut m res i) as [p| |]; cbn [bind]; auto. }
  destruct (loop _ _ _ _); reflexivity.
Qed.

Lemma complete_for_each_loop : forall S m b (f : closure (T := T) S) n i s h,
  complete (p_for_each_loop m b f n i s) h =
  ('(h', s', pn) <- for_each_loop m b f n i (h, s) ;; Ok (h', (s', pn))).
Proof.
  intros S m b f n. induction n as [|n IH]; intros i s h; cbn [p_for_each_loop for_each_loop]; [reflexivity|].
  rewrite complete_bind. unfold p_call_closure, call_closure.
  destruct (base_get1d_unchecked_mut m b i) as [p| |]; cbn [complete bind]; auto.
  destruct (place_read h p) as [v| |]; cbn [bind]; auto. destruct (f s v) as [[s' v'] pn]. cbn [complete].
  destruct (place_write h p v') as [h'| |]; cbn [complete bind]; auto. destruct pn; auto.
Qed.

Lemma complete_for_each : forall S m b (f : closure (T := T) S) s h,
  complete (p_for_each m b f s) h = ('(h', s', pn) <- for_each m h b f s ;; Ok (h', (s', pn))).
Proof.
  intros S m b f s h. unfold p_for_each, for_each. rewrite bind_pure.
  destruct (number_of_elements _ _); cbn [bind]; auto. apply complete_for_each_loop.
Qed.

(** Slices. *)
Lemma complete_slice_read : forall r i h, complete (p_slice_read r i) h = (v <- slice_read h r i ;; Ok (h, v)).
Proof.
  intros r i h. unfold p_slice_read, slice_read. rewrite bind_pure. destruct (assert_ _); cbn [bind]; auto.
  apply complete_region_read.
Qed.

Lemma complete_slice_write : forall r i v h, complete (p_slice_write r i v) h = (h' <- slice_write h r i v ;; Ok (h', tt)).
Proof.
  intros r i v h. unfold p_slice_write, slice_write. rewrite bind_pure. destruct (assert_ _); cbn [bind]; auto.
  rewrite bind_pure. destruct (region_place r i); cbn [bind]; auto.
Qed.

(** Products. *)
Section Code.
Variable code : gemm_args T -> prog T unit.
Variable kern : kernel T.
Hypothesis impl : implements code kern.

Lemma complete_matmul : forall (alpha : T) a b beta c h,
  (forall g, matmul_args alpha a b beta c = Ok g -> plain_args g) ->
  complete (p_matmul code alpha a b beta c) h = (h' <- matmul kern h alpha a b beta c ;; Ok (h', tt)).
Proof.
  intros alpha a b beta c h Hp. unfold p_matmul. rewrite bind_pure. unfold matmul_args, matmul in *. cbv zeta in *.
  destruct (assert_ _); cbn [bind] in *; auto. destruct (stride (bm_layout a)) as [sa| |]; cbn [bind] in *; auto.
  destruct (stride (bm_layout b)) as [sb| |]; cbn [bind] in *; auto. destruct (stride (bm_layout c)) as [sc| |]; cbn [bind] in *; auto.
  rewrite (proj2 (impl _) (Hp _ eq_refl)). reflexivity.
Qed.

(** The result of [dot] is plain: a fresh matrix without repeated cells. *)
Lemma fresh_plain : forall (alpha : T) a b beta c g, matmul_args alpha a b beta c = Ok g ->
  allocation a <> allocation c -> allocation b <> allocation c -> r_len (c_region (bm_data c)) <= isize_max ->
  match bm_layout c with RowMajor _ | RowVector _ | ColumnVector _ => True | _ => False end -> plain_args g.
Proof.
  intros alpha a b beta c g H Ha Hb Hl Hk. unfold matmul_args in H. cbv zeta in H.
  apply bind_ok in H. destruct H as (u & E & H). apply bind_ok in H. destruct H as (sa & _ & H).
  apply bind_ok in H. destruct H as (sb & _ & H). apply bind_ok in H. destruct H as (sc & Ec & H). injection H as <-.
  unfold plain_args, a_cells, b_cells, c_cells, at_entry, c_in_range. cbn [ga_shape ga_a ga_b ga_c g_m g_n g_k g_sa g_sb g_sc get_pointer container_get_pointer p_region p_off].
  split.
  - intros q (i & j & z & _ & _ & _ & _ & _ & ->). unfold allocation in *. split; intros (i' & j' & z' & _ & _ & _ & _ & _ & E'); injection E' as E' _; congruence.
  - intros F i j i' j' Hi Hj Hi' Hj' Eo.
    unfold assert_ in E. destruct (matmul_dims_ok _ _ _) eqn:Ed; [|discriminate].
    unfold matmul_dims_ok in Ed. rewrite !Bool.andb_true_iff, !N.eqb_eq in Ed. destruct Ed as ((E1 & E2) & E3).
    unfold gemm_offset in *. cbn [fst snd] in *.
    destruct (bm_layout c) as [D|D|n0|n0|D s|D s|n0 s|n0 s|n0]; try destruct Hk; cbn [stride] in Ec; injection Ec as <-;
      cbn [dim fst snd] in *.
    + assert (C : snd D <= isize_max).
      { specialize (F 0 (snd D - 1)). cbn [as_isize] in F. change (as_isize 1) with 1%Z in F. lia. }
      rewrite (as_isize_small (snd D)) in * by exact C. change (as_isize 1) with 1%Z in *.
      assert (Z.of_N (snd D) * (Z.of_N i - Z.of_N i') = Z.of_N j' - Z.of_N j)%Z by lia.
      assert (Z.of_N i = Z.of_N i') by nia. split; nia.
    + change (as_isize 1) with 1%Z in *. lia.
    + change (as_isize 1) with 1%Z in *. lia.
Qed.

Definition simple_layout (l : layout) : Prop :=
  match l with RowMajor _ | RowVector _ | ColumnVector _ => True | _ => False end.

Lemma complete_dot : forall shape m a b h, placed h (MBase a) -> placed h (MBase b) ->
  complete (p_dot code shape m a b) h = dot shape kern m h a b.
Proof.
  intros shape m a b h Pa Pb.
  assert (A : forall (c : prog T base_matrix) r, complete c h = r ->
     (forall h1 res, r = Ok (h1, res) -> allocation res = length h /\ r_len (c_region (bm_data res)) <= isize_max /\ simple_layout (bm_layout res)) ->
     complete (pbind c (fun res => pbind (p_matmul code sone a b szero res) (fun _ => Stop (Ok res)))) h =
     ('(h1, res) <- r ;; h2 <- matmul kern h1 sone a b szero res ;; Ok (h2, res))).
  { intros c r <- Hr. rewrite complete_bind. destruct (complete c h) as [[h1 res]| |]; cbn [bind]; auto.
    destruct (Hr _ _ eq_refl) as (R1 & R2 & R3). rewrite complete_bind, complete_matmul.
    - destruct (matmul _ _ _ _ _ _ _); reflexivity.
    - intros g Hg. eapply fresh_plain; eauto; intros E; [specialize (Pa _ E)|specialize (Pb _ E)]; lia. }
  assert (V : forall n h1 c, vector_container_new h n = Ok (h1, c) -> r_alloc (c_region c) = length h /\ r_len (c_region c) <= isize_max).
  { intros n h1 c. unfold vector_container_new. destruct (N.leb_spec (n * Npos ssize) isize_max); [|discriminate].
    cbn [alloc]. intros H1; injection H1 as <- <-. cbn [c_region r_alloc r_len]. rewrite repeat_length, N2Nat.id. split; auto. nia. }
  unfold p_dot. cbv zeta. destruct shape; cbn [dot]; apply A.
  - apply complete_zeros.
  - intros h1 res H. unfold zeros_from_dim in H. cbn [from_dimension bind] in H. apply bind_ok in H. destruct H as (n & _ & H).
    apply bind_ok in H. destruct H as ((h2, c) & E & H). cbn [bind] in H. apply bind_ok in H. destruct H as (r & F & H). injection H as <- <-.
    apply from_data_data in F. subst r. cbn [bm_data bm_layout]. unfold allocation. cbn [bm_data]. apply V in E. split; [|split]; try apply E. exact I.
  - apply complete_row_dim.
  - intros h1 res H. unfold row_vector_zeros_from_dim in H. apply bind_ok in H. destruct H as (n & _ & H).
    apply bind_ok in H. destruct H as ((h2, c) & E & H). apply bind_ok in H. destruct H as (r & F & H). injection H as <- <-.
    apply from_data_data in F. subst r. cbn [bm_data bm_layout]. unfold allocation. cbn [bm_data]. apply V in E. split; [|split]; try apply E. exact I.
  - apply complete_column_dim.
  - intros h1 res H. unfold column_vector_zeros_from_dim in H. apply bind_ok in H. destruct H as (n & _ & H).
    apply bind_ok in H. destruct H as ((h2, c) & E & H). apply bind_ok in H. destruct H as (r & F & H). injection H as <- <-.
    apply from_data_data in F. subst r. cbn [bm_data bm_layout]. unfold allocation. cbn [bm_data]. apply V in E. split; [|split]; try apply E. exact I.
Qed.

(** ** Calls *)

(** What a program that ran to its end means for the state of its thread. *)
Definition continues (st : state T) (r : outcome (heap * (list (matrix T) * result T St))) : outcome (state T * result T St) :=
  '(h', (new, r)) <- r ;; Ok (mkState h' (st_mats st ++ new), r).

Lemma cont_new : forall st (c : prog T base_matrix) r, complete c (st_heap st) = r ->
  continues st (complete (ends_new c) (st_heap st)) = new1 st r.
Proof.
  intros st c r <-. unfold ends_new, new1, continues. rewrite complete_bind.
  destruct (complete c (st_heap st)) as [[h b]| |]; reflexivity.
Qed.

Lemma cont_view : forall st (o : outcome base_matrix),
  continues st (complete (ends_new (Stop o)) (st_heap st)) = new_view st o.
Proof. intros st [b| |]; reflexivity. Qed.

Lemma cont_item : forall st (c : prog T T) r, complete c (st_heap st) = (v <- r ;; Ok (st_heap st, v)) ->
  continues st (complete (ends_item c) (st_heap st)) = item st r.
Proof.
  intros st c r H. unfold ends_item, item, continues. rewrite complete_bind, H.
  destruct r as [v| |]; cbn [bind complete]; auto. rewrite app_nil_r. now destruct st.
Qed.

Lemma cont_done : forall st (c : prog T unit) r, complete c (st_heap st) = (h' <- r ;; Ok (h', tt)) ->
  continues st (complete (ends_done c) (st_heap st)) = done st r.
Proof.
  intros st c r H. unfold ends_done, done, continues. rewrite complete_bind, H.
  destruct r as [v| |]; cbn [bind complete]; auto. now rewrite app_nil_r.
Qed.

Lemma cont_loop : forall st (c : prog T (St * bool)) r,
  complete c (st_heap st) = ('(h', s, pn) <- r ;; Ok (h', (s, pn))) ->
  continues st (complete (ends_loop c) (st_heap st)) = looped st r.
Proof.
  intros st c r H. unfold ends_loop, looped, continues. rewrite complete_bind, H.
  destruct r as [[[h' s] pn]| |]; cbn [bind complete]; auto. now rewrite app_nil_r.
Qed.

Lemma exec_program : forall m st (o : call T St), all_placed st -> plain_call st o ->
  exec kern m st o = option_map (fun c => continues st (complete c (st_heap st))) (program code m (st_mats st) o).
Proof.
  intros m [h ms] o Hp Hc.
  assert (L : forall x, lookup (mkState [] ms) x = lookup (mkState h ms) x) by reflexivity.
  assert (LB : forall x, lookup_base (mkState [] ms) x = lookup_base (mkState h ms) x) by reflexivity.
  assert (LM : forall x, lookup_mut (mkState [] ms) x = lookup_mut (mkState h ms) x) by reflexivity.
  assert (LK : forall mut x, lookup_block (mkState [] ms) mut x = lookup_block (mkState h ms) mut x) by reflexivity.
  assert (NIL : mkState h (ms ++ []) = mkState h ms) by now rewrite app_nil_r.
  destruct o; cbn [exec program st_mats st_heap]; rewrite ?L, ?LB, ?LM, ?LK; unfold typed, when.
  all: repeat (match goal with |- context [match ?b with Some _ => _ | None => _ end] => destruct b eqn:?; cbn [option_map]; auto end).
  all: try (match goal with |- context [if ?b then _ else None] => destruct b eqn:?; cbn [option_map]; auto end).
  all: cbn [option_map]; try match goal with
       | |- Some (new1 _ _) = _ => f_equal; symmetry; apply (cont_new (mkState h ms)); cbn [st_heap]
       | |- Some (new_view _ _) = _ => f_equal; symmetry; apply (cont_view (mkState h ms))
       | |- Some (item _ _) = _ => f_equal; symmetry; apply (cont_item (mkState h ms)); cbn [st_heap]
       | |- Some (done _ _) = _ => f_equal; symmetry; apply (cont_done (mkState h ms)); cbn [st_heap]
       | |- Some (looped _ _) = _ => f_equal; symmetry; apply (cont_loop (mkState h ms)); cbn [st_heap]
       end.
  - apply complete_zeros.
  - apply complete_zeros_fixed.
  - apply complete_zeros_fixed_vector.
  - apply complete_row.
  - apply complete_column.
  - apply complete_row_dim.
  - apply complete_column_dim.
  - rewrite complete_bind, complete_vector. destruct (vector_container_new _ _) as [[h' c]| |]; reflexivity.
  - rewrite complete_bind, complete_array. reflexivity.
  - apply complete_get.
  - apply complete_get1d.
  - unfold set. destruct (get_mut _ _ _ _); reflexivity.
  - unfold set1d. destruct (get1d_mut _ _ _); reflexivity.
  - apply complete_unchecked.
  - apply complete_unchecked.
  - destruct (get_unchecked_mut _ _ _ _); reflexivity.
  - destruct (get1d_unchecked_mut _ _ _); reflexivity.
  - destruct (get_slice _ _ _); cbn [bind pbind complete]; auto. apply complete_slice_read.
  - destruct (get_slice_mut _ _ _); cbn [bind pbind complete]; auto. apply complete_slice_write.
  - unfold continues. cbn [complete bind st_mats]. now rewrite NIL.
  - unfold continues. cbn [complete bind st_mats]. now rewrite NIL.
  - destruct (bm_layout b); auto. cbn [option_map]. f_equal. destruct (split_in_four_mut m b at_) as [[[[b0 b1] b2] b3]| |]; reflexivity.
  - f_equal. destruct (plus p q m0 m1); reflexivity.
  - apply complete_eval.
  - apply complete_for_each.
  - apply complete_for_each.
  - apply complete_matmul. intros g Hg. cbn [plain_call] in Hc. eapply Hc; eauto.
  - apply complete_dot; (eapply (lookup_placed (mkState h ms)); [exact Hp|]); eapply lookup_base_inv; eauto.
Qed.

(** The same as [step]. *)
Lemma step_program : forall m st (o : call T St), all_placed st -> plain_call st o ->
  step kern m st o =
  match program code m (st_mats st) o with
  | None => Ok (st, RSkipped)
  | Some c => match complete c (st_heap st) with
              | Ok (h', (new, r)) => Ok (mkState h' (st_mats st ++ new), r)
              | Panic => Ok (st, RPanicked)
              | UB => UB
              end
  end.
Proof.
  intros m st o Hp Hc. unfold step. rewrite exec_program by auto.
  destruct (program _ _ _ _) as [c|]; cbn [option_map]; auto. unfold continues.
  destruct (complete c (st_heap st)) as [[h' [new r]]| |]; reflexivity.
Qed.

End Code.

(** ** Footprints *)

(** The program loads in [R] and stores in [W] only. It was begun when there were [n] allocations;
    [d] says whether it already stored to one of these, in which case it no longer panics. The
    values it can end with, and that flag, satisfy [Q]. *)
Fixpoint fits {A : Type} (n : nat) (R W : nat * N -> Prop) (d : bool) (c : prog T A) (Q : bool -> A -> Prop) : Prop :=
  match c with
  | Stop (Ok a) => Q d a
  | Stop Panic => d = false
  | Stop UB => True
  | Load p k => R (pl_alloc p, pl_index p) /\ forall v, fits n R W d (k v) Q
  | Store p v k => W (pl_alloc p, pl_index p) /\ fits n R W (d || (pl_alloc p <? n)%nat) k Q
  | Alloc l k => forall r, (n <= r_alloc r)%nat -> fits n R W d (k r) Q
  end.

Lemma fits_weaken : forall A n R W (c : prog T A) d (Q Q' : bool -> A -> Prop),
  fits n R W d c Q -> (forall d a, Q d a -> Q' d a) -> fits n R W d c Q'.
Proof.
  intros A n R W c. induction c as [[a| |]|p k IH|p v k IH|l k IH]; intros d Q Q' H HQ; cbn [fits] in *; auto.
  - destruct H as [H1 H2]. split; eauto.
  - destruct H as [H1 H2]. split; eauto.
  - intros r Hr. eauto.
Qed.

Lemma fits_bind : forall A B n R W (c : prog T A) (f : A -> prog T B) d (Q : bool -> B -> Prop),
  fits n R W d c (fun d a => fits n R W d (f a) Q) -> fits n R W d (pbind c f) Q.
Proof.
  intros A B n R W c f. induction c as [[a| |]|p k IH|p v k IH|l k IH]; intros d Q H; cbn [fits pbind] in *; auto.
  - destruct H as [H1 H2]. split; auto.
  - destruct H as [H1 H2]. split; auto.
Qed.

Lemma fits_pure : forall A n R W (o : outcome A) (Q : bool -> A -> Prop),
  (forall a, o = Ok a -> Q false a) -> fits n R W false (Stop o) Q.
Proof. intros A n R W [a| |] Q H; cbn [fits]; auto. Qed.

Lemma fits_only : forall A n (R R' W W' : nat * N -> Prop) (c : prog T A) d (Q : bool -> A -> Prop), only_accesses R W c ->
  (forall q, R q -> R' q) -> (forall q, W q -> W' q) -> (forall d a, Q d a) -> fits n R' W' d c Q.
Proof.
  intros A n R R' W W' c. induction c as [[a| |]|p k IH|p v k IH|l k IH]; intros d Q H HR HW HQ; cbn [fits only_accesses] in *; auto.
  - now destruct H.
  - destruct H. split; auto.
  - destruct H. split; auto.
  - destruct H.
Qed.

Section Footprints.
Variables (n : nat) (R W : nat * N -> Prop).
Hypothesis fresh : forall q, (n <= fst q)%nat -> R q /\ W q.

Lemma fits_region_read : forall r i d (Q : bool -> T -> Prop), (forall q, in_region r q -> R q) -> (forall v, Q d v) ->
  fits n R W d (p_region_read r i) Q.
Proof.
  intros r i d Q H HQ. unfold p_region_read. destruct (N.ltb_spec i (r_len r)); cbn [fits]; auto. split; auto.
  apply H. unfold in_region. cbn. lia.
Qed.

Lemma fits_unchecked : forall m x (Q : bool -> T -> Prop), covered R x -> (forall v, Q false v) ->
  (forall r c, fits n R W false (p_get_unchecked m x r c) Q) /\ (forall i, fits n R W false (p_get1d_unchecked m x i) Q).
Proof.
  intros m x. induction x as [b | x IH | x IH | x IH s | x IHx y IHy l]; intros Q H HQ;
    cbn [p_get_unchecked p_get1d_unchecked].
  - pose proof (covered_base _ _ H) as Hb. split; intros; unfold p_base_get_unchecked, p_base_get1d_unchecked;
      apply fits_bind, fits_pure; intros a _; apply fits_region_read; auto.
  - apply IH; auto.
  - apply IH; auto.
  - split; intros; apply fits_bind; apply IH; cbn [fits]; auto.
  - assert (Hx : covered R x) by (intros q Hq; apply H; now left).
    assert (Hy : covered R y) by (intros q Hq; apply H; now right).
    split; intros; apply fits_bind; apply IHx; auto; intros v; apply fits_bind; apply IHy; cbn [fits]; auto.
Qed.

Lemma fits_get : forall m x r c (Q : bool -> T -> Prop), covered R x -> (forall v, Q false v) -> fits n R W false (p_get m x r c) Q.
Proof. intros. unfold p_get. apply fits_bind, fits_pure. intros a _. now apply fits_unchecked. Qed.

Lemma fits_get1d : forall m x i (Q : bool -> T -> Prop), covered R x -> (forall v, Q false v) -> fits n R W false (p_get1d m x i) Q.
Proof.
  intros. unfold p_get1d. apply fits_bind, fits_pure. intros a _. apply fits_bind, fits_pure. intros [] _.
  now apply fits_unchecked.
Qed.

(** A container that is part of a new allocation. *)
Definition new_container (c : container) : Prop := (n <= r_alloc (c_region c))%nat.
Definition new_base (b : base_matrix) : Prop := new_container (bm_data b).

Lemma fits_vector : forall k (Q : bool -> container -> Prop), (forall c, new_container c -> Q false c) ->
  fits n R W false (p_vector_container_new k) Q.
Proof. intros k Q H. unfold p_vector_container_new. destruct (_ <=? _); cbn [fits]; auto. Qed.

Lemma fits_array : forall k (Q : bool -> container -> Prop), (forall c, new_container c -> Q false c) ->
  fits n R W false (p_array_container_new k) Q.
Proof. intros k Q H. unfold p_array_container_new. cbn [fits]; auto. Qed.

Lemma fits_from_data : forall m rs cs c l (Q : bool -> base_matrix -> Prop), new_container c -> (forall b, new_base b -> Q false b) ->
  fits n R W false (Stop (from_data m rs cs c l)) Q.
Proof. intros m rs cs c l Q Hc H. apply fits_pure. intros b Hb. apply H. apply from_data_data in Hb. now subst b. Qed.

Ltac fit :=
  repeat first
    [ apply fits_bind
    | apply fits_vector; intros ? ?
    | apply fits_array; intros ? ?
    | apply fits_from_data; [assumption|]; intros ? ?
    | apply fits_pure; intros ? _ ].

Lemma fits_zeros : forall m k r c (Q : bool -> base_matrix -> Prop), (forall b, new_base b -> Q false b) ->
  fits n R W false (p_zeros_from_dim m k r c) Q.
Proof. intros m k r c Q H. unfold p_zeros_from_dim. fit. auto. Qed.

Lemma fits_zeros_fixed : forall m k r c (Q : bool -> base_matrix -> Prop), (forall b, new_base b -> Q false b) ->
  fits n R W false (p_zeros_fixed m k r c) Q.
Proof. intros m k r c Q H. unfold p_zeros_fixed. fit. auto. Qed.

Lemma fits_zeros_fixed_vector : forall m rs cs k i (Q : bool -> base_matrix -> Prop), (forall b, new_base b -> Q false b) ->
  fits n R W false (p_zeros_fixed_vector m rs cs k i) Q.
Proof.
  intros m rs cs k i Q H. unfold p_zeros_fixed_vector. apply fits_bind, fits_array. intros c Hc.
  destruct (from_length k i); [|exact I]. apply fits_from_data; auto.
Qed.

Lemma fits_row : forall m i (Q : bool -> base_matrix -> Prop), (forall b, new_base b -> Q false b) -> fits n R W false (p_row_zeros m i) Q.
Proof. intros m i Q H. unfold p_row_zeros. fit. auto. Qed.
Lemma fits_column : forall m i (Q : bool -> base_matrix -> Prop), (forall b, new_base b -> Q false b) -> fits n R W false (p_column_zeros m i) Q.
Proof. intros m i Q H. unfold p_column_zeros. fit. auto. Qed.
Lemma fits_row_dim : forall m r c (Q : bool -> base_matrix -> Prop), (forall b, new_base b -> Q false b) -> fits n R W false (p_row_zeros_dim m r c) Q.
Proof. intros m r c Q H. unfold p_row_zeros_dim. apply fits_bind, fits_pure. intros [] _. now apply fits_row. Qed.
Lemma fits_column_dim : forall m r c (Q : bool -> base_matrix -> Prop), (forall b, new_base b -> Q false b) -> fits n R W false (p_column_zeros_dim m r c) Q.
Proof. intros m r c Q H. unfold p_column_zeros_dim. apply fits_bind, fits_pure. intros [] _. now apply fits_column. Qed.

(** Stores to new memory leave the flag as it is. *)
Lemma fits_new_write : forall b m i (Q : bool -> unit -> Prop) v, new_base b -> Q false tt ->
  fits n R W false (pbind (Stop (base_get1d_unchecked_mut m b i)) (fun p => p_write p v)) Q.
Proof.
  intros b m i Q v Hb HQ. apply fits_bind, fits_pure. intros p Hp. apply base_mut1d_in in Hp. unfold in_region in Hp. cbn [fst] in Hp.
  unfold new_base, new_container in Hb. cbn [p_write fits]. split.
  - apply fresh. cbn [fst]. lia.
  - replace (pl_alloc p <? n)%nat with false by (symmetry; apply Nat.ltb_ge; lia). exact HQ.
Qed.

Lemma fits_loop : forall k i body (Q : bool -> unit -> Prop), (forall i (P : bool -> unit -> Prop), P false tt -> fits n R W false (body i) P) ->
  Q false tt -> fits n R W false (p_loop k i body) Q.
Proof.
  intros k. induction k as [|k IH]; intros i body Q H HQ; cbn [p_loop fits]; auto.
  apply fits_bind. apply H. now apply IH.
Qed.

Lemma fits_eval : forall m x (Q : bool -> base_matrix -> Prop), covered R x -> (forall b, new_base b -> Q false b) ->
  fits n R W false (p_eval m x) Q.
Proof.
  intros m x Q Hx HQ. unfold p_eval. cbv zeta. apply fits_bind, fits_zeros. intros b Hb. apply fits_bind, fits_pure. intros k _.
  apply fits_bind. apply fits_loop.
  - intros i P HP. apply fits_bind. apply fits_unchecked; auto. intros v. now apply fits_new_write.
  - cbn [fits]. auto.
Qed.

Lemma fits_for_each_loop : forall S m b (f : closure (T := T) S) k i s d (Q : bool -> S * bool -> Prop),
  (forall q, in_region (c_region (bm_data b)) q -> R q /\ W q) -> (forall d a, Q d a) ->
  fits n R W d (p_for_each_loop m b f k i s) Q.
Proof.
  intros S m b f k. induction k as [|k IH]; intros i s d Q H HQ; cbn [p_for_each_loop fits]; auto.
  apply fits_bind. unfold p_call_closure. destruct (base_get1d_unchecked_mut m b i) as [p| |] eqn:Ep; cbn [fits]; auto.
  apply base_mut1d_in in Ep. split; [now apply H|]. intros v. destruct (f s v) as [[s' v'] pn]. cbn [fits]. split; [now apply H|].
  destruct pn; cbn [fits]; auto.
Qed.

Lemma fits_for_each : forall S m b (f : closure (T := T) S) s (Q : bool -> S * bool -> Prop),
  (forall q, in_region (c_region (bm_data b)) q -> R q /\ W q) -> (forall d a, Q d a) ->
  fits n R W false (p_for_each m b f s) Q.
Proof. intros. unfold p_for_each. apply fits_bind, fits_pure. intros k _. now apply fits_for_each_loop. Qed.

Lemma fits_slice_read : forall b first last i (Q : bool -> T -> Prop), covered R (MBase (T := T) b) -> (forall v, Q false v) ->
  fits n R W false (pbind (Stop (get_slice b first last)) (fun r => p_slice_read r i)) Q.
Proof.
  intros b first last i Q Hb HQ. apply fits_bind, fits_pure. intros r Hr. unfold p_slice_read. apply fits_bind, fits_pure. intros [] _.
  apply fits_region_read; auto. intros q Hq. apply Hb. apply slice_within in Hr.
  destruct Hr as (E & L1 & L2). unfold in_region in Hq. cbn [occupies]. rewrite <- E. lia.
Qed.

Lemma fits_write : forall p v (Q : bool -> unit -> Prop), W (pl_alloc p, pl_index p) -> (forall d, Q d tt) ->
  fits n R W false (p_write p v) Q.
Proof. intros. cbn [p_write fits]. split; auto. Qed.

End Footprints.

Lemma at_entry_region : forall p s rows cols q, at_entry p s rows cols q -> in_region (p_region p) q.
Proof. intros p s rows cols q (i & j & z & _ & _ & _ & Hz & Hl & ->). unfold in_region. cbn [fst snd]. lia. Qed.

Lemma fits_matmul : forall n (R W : nat * N -> Prop) code kern (alpha : T) a b beta c (Q : bool -> unit -> Prop), implements code kern ->
  covered R (MBase (T := T) a) -> covered R (MBase (T := T) b) -> covered R (MBase (T := T) c) -> covered W (MBase (T := T) c) ->
  (forall d, Q d tt) -> fits n R W false (p_matmul code alpha a b beta c) Q.
Proof.
  intros n R W code kern alpha a b beta c Q impl Ha Hb Hc Hw HQ. unfold p_matmul. apply fits_bind, fits_pure. intros g Hg.
  assert (E : ga_a g = get_pointer a /\ ga_b g = get_pointer b /\ ga_c g = get_pointer c).
  { unfold matmul_args in Hg. cbv zeta in Hg. do 4 (apply bind_ok in Hg; destruct Hg as (? & _ & Hg)). injection Hg as <-. auto. }
  destruct E as (Ea & Eb & Ec). eapply fits_only; [apply (proj1 (impl g))| | |].
  - intros q [Hq|[Hq|Hq]]; unfold a_cells, b_cells, c_cells in Hq; rewrite ?Ea, ?Eb, ?Ec in Hq; apply at_entry_region in Hq.
    + now apply (covered_base _ _ Ha).
    + now apply (covered_base _ _ Hb).
    + now apply (covered_base _ _ Hc).
  - intros q Hq; unfold c_cells in Hq; rewrite ?Ec in Hq; apply at_entry_region in Hq. now apply (covered_base _ _ Hw).
  - intros d []. auto.
Qed.

Lemma fits_dot : forall n (R W : nat * N -> Prop) code kern shape m a b (Q : bool -> base_matrix -> Prop), implements code kern ->
  (forall q, (n <= fst q)%nat -> R q /\ W q) ->
  covered R (MBase (T := T) a) -> covered R (MBase (T := T) b) -> (forall d c, Q d c) -> fits n R W false (p_dot code shape m a b) Q.
Proof.
  intros n R W code kern shape m a b Q impl fresh Ha Hb HQ. unfold p_dot. cbv zeta. apply fits_bind.
  assert (A : forall c, new_base n c -> fits n R W false (pbind (p_matmul code sone a b szero c) (fun _ => Stop (Ok c))) Q).
  { intros c Hc. apply fits_bind. eapply fits_matmul; eauto; try (intros q (Hq & _); apply fresh; unfold new_base, new_container in Hc; lia).
    intros d. cbn [fits]. auto. }
  destruct shape; [apply fits_zeros | apply fits_row_dim | apply fits_column_dim]; exact A.
Qed.

Ltac fit_end := first [exact I | intros; exact I | intros; cbn [fits]; exact I | intros ? ?; cbn [fits]; exact I | intros ? [? ?]; cbn [fits]; exact I].

Lemma fits_program : forall n (R W : nat * N -> Prop) code kern m ms (o : call T St) c, implements code kern ->
  (forall q, (n <= fst q)%nat -> R q /\ W q) -> (forall q, W q -> R q) ->
  (forall x, In x ms -> covered R x) -> (forall x, In x ms -> is_writable x = true -> covered W x) ->
  program code m ms o = Some c -> fits n R W false c (fun _ _ => True).
Proof.
  intros n R W code kern m ms o c impl fresh WR HR HW H.
  assert (LV : forall x w, lookup (mkState [] ms) x = Some w -> covered R w).
  { intros x w E. eapply HR, nth_error_In, E. }
  assert (LW : forall x w, lookup (mkState [] ms) x = Some w -> is_writable w = true -> covered W w).
  { intros x w E. eapply HW, nth_error_In, E. }
  assert (LB : forall x b, lookup_base (mkState [] ms) x = Some b -> covered R (MBase (T := T) b)).
  { intros x b E. apply lookup_base_inv in E. eauto. }
  assert (LM : forall x b, lookup_mut (mkState [] ms) x = Some b -> covered W (MBase (T := T) b)).
  { intros x b E. apply lookup_mut_inv in E. destruct E as [E C]. apply lookup_base_inv in E. eauto. }
  assert (INJ : forall (x y : prog T (list (matrix T) * result T St)), Some x = Some y -> x = y) by congruence.
  destruct o; cbn [program] in H; unfold typed, when in H.
  all: repeat (match type of H with
       | (match ?b with Some _ => _ | None => _ end) = _ => destruct b eqn:?; [|discriminate H]
       | (if ?b then _ else None) = _ => destruct b eqn:?; [|discriminate H]
       end).
  all: try (apply INJ in H; subst c).
  all: unfold ends_new, ends_item, ends_done, ends_loop; try apply fits_bind.
  - apply fits_zeros; fit_end.
  - apply fits_zeros_fixed; fit_end.
  - apply fits_zeros_fixed_vector; fit_end.
  - apply fits_row; fit_end.
  - apply fits_column; fit_end.
  - apply fits_row_dim; fit_end.
  - apply fits_column_dim; fit_end.
  - apply fits_bind, fits_vector. intros c Hc. apply fits_pure. fit_end.
  - apply fits_bind, fits_array. intros c Hc. apply fits_pure. fit_end.
  - apply fits_pure. fit_end.
  - apply fits_pure. fit_end.
  - apply fits_pure. fit_end.
  - apply fits_get; eauto; fit_end.
  - apply fits_get1d; eauto; fit_end.
  - apply fits_bind, fits_pure. intros q Hq. unfold get_mut in Hq. apply bind_ok in Hq. destruct Hq as (u & _ & Hq).
    apply mut_in in Hq. apply fits_write; [eapply LW; eauto|fit_end].
  - apply fits_bind, fits_pure. intros q Hq. unfold get1d_mut in Hq. apply bind_ok in Hq. destruct Hq as (u & _ & Hq).
    apply bind_ok in Hq. destruct Hq as (u' & _ & Hq). apply mut1d_in in Hq. apply fits_write; [eapply LW; eauto|fit_end].
  - apply fits_unchecked; eauto; fit_end.
  - apply fits_unchecked; eauto; fit_end.
  - apply fits_bind, fits_pure. intros q Hq. apply mut_in in Hq. apply fits_write; [eapply LW; eauto|fit_end].
  - apply fits_bind, fits_pure. intros q Hq. apply mut1d_in in Hq. apply fits_write; [eapply LW; eauto|fit_end].
  - apply fits_slice_read; eauto; fit_end.
  - apply fits_bind, fits_pure. intros r Hr. unfold p_slice_write. apply fits_bind, fits_pure. intros [] _.
    apply fits_bind, fits_pure. intros q Hq. rewrite get_slice_mut_eq in Hr. apply fits_write; [|fit_end].
    eapply LM; eauto. eapply slice_region_in; eauto.
  - exact I.
  - exact I.
  - apply fits_pure. fit_end.
  - destruct (bm_layout b); try discriminate H. apply INJ in H. subst c. apply fits_bind, fits_pure. intros [[[b0 b1] b2] b3] _. exact I.
  - exact I.
  - exact I.
  - exact I.
  - exact I.
  - apply fits_pure. fit_end.
  - apply fits_eval; eauto; fit_end.
  - apply fits_for_each; [|fit_end]. intros q Hq. pose proof (covered_base _ _ (LM _ _ Heqo)). auto.
  - apply fits_for_each; [|fit_end]. intros q Hq. pose proof (covered_base _ _ (LM _ _ Heqo)). auto.
  - pose proof (lookup_mut_inv _ _ _ Heqo1) as [E _]. eapply fits_matmul; eauto. fit_end.
  - eapply fits_dot; eauto. fit_end.
Qed.

End InterleaveProofs.
