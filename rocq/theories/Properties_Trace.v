(** * Property C69: which memory a call accesses, and in which order.

    [trace] lists the loads, stores and allocations of a program of [Interleave] that runs
    without interruption; C60_sequential says that these programs do what the functions
    of the other files do. *)

From Coq Require Import List Permutation.
From Verif Require Import Machine Layouts Memory Matrix MatMul Spec MatrixSpec ExprSpec ProductSpec Program.
From Verif Require Import Interleave InterleaveOrders TraceSpec TraceProofs ZScalar.
From Verif Require Import Properties_Access Properties_Expr Properties_Products.
Import ListNotations.
Local Open Scope N_scope.

(** Views and expressions are lazy: making them touches no memory at all. *)
Theorem C69_lazy : forall (T : Type) (SC : HScalar T) (St : Type) (code : gemm_args T -> prog T unit) m ms
    (o : call T St) c (h : @heap T),
  lazy_call o = true -> program code m ms o = Some c -> trace c h = [].
Proof. exact @c69_lazy. Qed.
Print Assumptions C69_lazy.

(** Reading an entry loads the entries of the matrices of the expression, from left to
    right, each once, and does nothing else. A refused read touches no memory. *)
Theorem C69_get : forall (T : Type) (SC : HScalar T) m (h : @heap T) x r c, valid h x ->
  (stored (mat_layout x) (r, c) -> trace (p_get m x r c) h = reads_entry x (r, c)) /\
  (~ stored (mat_layout x) (r, c) -> trace (p_get m x r c) h = []).
Proof. exact @c69_get. Qed.
Print Assumptions C69_get.

Theorem C69_get1d : forall (T : Type) (SC : HScalar T) m (h : @heap T) x, valid h x ->
  (forall p, stored (mat_layout x) p -> trace (p_get1d m x (number (mat_layout x) p)) h = reads_entry x p) /\
  (forall i, entry_count (mat_layout x) <= i -> trace (p_get1d m x i) h = []).
Proof. exact @c69_get1d. Qed.
Print Assumptions C69_get1d.

Theorem C69_unchecked : forall (T : Type) (SC : HScalar T) m (h : @heap T) x p, valid h x -> stored (mat_layout x) p ->
  trace (p_get_unchecked m x (fst p) (snd p)) h = reads_entry x p /\
  trace (p_get1d_unchecked m x (number (mat_layout x) p)) h = reads_entry x p.
Proof. exact @c69_unchecked. Qed.
Print Assumptions C69_unchecked.

(** Writing an entry is one store; a refused write touches no memory. *)
Theorem C69_set : forall (T : Type) (SC : HScalar T) (St : Type) (code : gemm_args T -> prog T unit) m ms k
    (h : @heap T) x b v, nth_error ms k = Some x -> valid h x -> writes_to x = Some b ->
  (forall r c prg, program (St := St) code m ms (CSet k r c v) = Some prg ->
     (stored (mat_layout x) (r, c) -> trace prg h = [Writes (entry_cell b (r, c)) v]) /\
     (~ stored (mat_layout x) (r, c) -> trace prg h = [])) /\
  (forall i prg, program (St := St) code m ms (CSet1d k i v) = Some prg ->
     (forall p, stored (mat_layout x) p -> number (mat_layout x) p = i -> trace prg h = [Writes (entry_cell b p) v]) /\
     (entry_count (mat_layout x) <= i -> trace prg h = [])).
Proof. exact @c69_set. Qed.
Print Assumptions C69_set.

(** [eval] makes one allocation; then it goes through the entries once, in 1d order, loads
    what [get1d] loads and stores the value. There is no temporary matrix, and no entry is
    computed twice. *)
Theorem C69_eval : forall (T : Type) (SC : HScalar T) m (h : @heap T) x, valid h x ->
  (column_vector_like (mat_layout x) = true -> fst (mat_dim x) = 1) ->
  entry_count (mat_layout x) * Npos ssize <= isize_max ->
  exists h' b ps vs, eval m h x = Ok (h', b) /\ complete (p_eval m x) h = Ok (h', b) /\
    lists_positions (mat_layout x) ps /\ values h x ps vs /\
    trace (p_eval m x) h = Allocates (repeat szero (N.to_nat (entry_count (mat_layout x)))) :: copies x b ps vs.
Proof. exact @c69_eval. Qed.
Print Assumptions C69_eval.

(** If it panics, then before any access. *)
Theorem C69_eval_rejected : forall (T : Type) (SC : HScalar T) m (h : @heap T) x,
  valid h x -> panics (eval m h x) -> trace (p_eval m x) h = [].
Proof. exact @c69_eval_rejected. Qed.
Print Assumptions C69_eval_rejected.

(** In numbers. *)
Theorem C69_counts : forall (T : Type) (SC : HScalar T) m (h : @heap T) x, valid h x ->
  (forall r c, stored (mat_layout x) (r, c) ->
     loads (trace (p_get m x r c) h) = N.of_nat (length (leaves x)) /\
     stores (trace (p_get m x r c) h) = 0 /\ allocations (trace (p_get m x r c) h) = 0) /\
  (forall h' b, eval m h x = Ok (h', b) ->
     loads (trace (p_eval m x) h) = entry_count (mat_layout x) * N.of_nat (length (leaves x)) /\
     stores (trace (p_eval m x) h) = entry_count (mat_layout x) /\ allocations (trace (p_eval m x) h) = 1).
Proof. exact @c69_counts. Qed.
Print Assumptions C69_counts.

(** [for_each] loads and stores every entry once, in 1d order, up to the call in which the
    closure panics. *)
Theorem C69_for_each : forall (T : Type) (S : Type) m (h : @heap T) b (f : closure S) s,
  base_valid h b -> no_aliasing (bm_layout b) ->
  exists ps vs, lists_positions (bm_layout b) ps /\ lists_entries h b vs /\
    trace (p_for_each m b f s) h = updates b ps (left_by f s vs).
Proof. exact @c69_for_each. Qed.
Print Assumptions C69_for_each.

(** Products load only entries of their operands and of the result and store only entries
    of the result. If the dimensions do not fit they touch no memory. *)
Theorem C69_matmul : forall (T : Type) (code : gemm_args T -> prog T unit) kern, implements code kern ->
  forall (h : @heap T) alpha a b beta c,
  base_valid h a -> base_valid h b -> base_valid h c ->
  true_strides (bm_layout a) -> true_strides (bm_layout b) -> true_strides (bm_layout c) ->
  Forall (of_product a b c) (trace (p_matmul code alpha a b beta c) h) /\
  (~ compatible (dim (bm_layout a)) (dim (bm_layout b)) (dim (bm_layout c)) ->
   trace (p_matmul code alpha a b beta c) h = []).
Proof. exact @c69_matmul. Qed.
Print Assumptions C69_matmul.

(** [dot] first allocates its result. It does so even if the dimensions do not fit; then
    nothing follows. *)
Theorem C69_dot : forall (T : Type) (SC : HScalar T) (code : gemm_args T -> prog T unit) kern, implements code kern ->
  forall shape m (h : @heap T) a b,
  base_valid h a -> base_valid h b -> true_strides (bm_layout a) -> true_strides (bm_layout b) ->
  shape_fits shape (dim (bm_layout a)) (dim (bm_layout b)) ->
  fst (dim (bm_layout a)) * snd (dim (bm_layout b)) * Npos ssize <= isize_max ->
  exists r es,
    trace (p_dot code shape m a b) h =
      Allocates (repeat szero (N.to_nat (fst (dim (bm_layout a)) * snd (dim (bm_layout b))))) :: es /\
    Forall (of_product a b r) es /\
    (snd (dim (bm_layout a)) <> fst (dim (bm_layout b)) -> es = []) /\
    (forall h' r', dot shape kern m h a b = Ok (h', r') -> r' = r).
Proof. exact @c69_dot. Qed.
Print Assumptions C69_dot.

(** No call allocates but those that make a matrix of their own; these allocate once. *)
Theorem C69_allocations : forall (T : Type) (SC : HScalar T) (St : Type) (code : gemm_args T -> prog T unit) kern m ms
    (o : call T St) c (h : @heap T), implements code kern ->
  program code m ms o = Some c ->
  (owning_call o = false -> allocations (trace c h) = 0) /\
  (owning_call o = true -> allocations (trace c h) <= 1 /\
     (forall h' r, complete c h = Ok (h', r) -> allocations (trace c h) = 1)).
Proof. exact @c69_allocations. Qed.
Print Assumptions C69_allocations.

(** What is said of the methods holds of the calls. *)
Theorem C69_calls : forall (T : Type) (SC : HScalar T) (St : Type) (code : gemm_args T -> prog T unit) m ms k
    (h : @heap T) x, nth_error ms k = Some x ->
  let same (o : call T St) (A : Type) (c : prog T A) :=
    forall prg, program code m ms o = Some prg -> trace prg h = trace c h in
  (forall r c, same (CGet k r c) T (p_get m x r c)) /\
  (forall i, same (CGet1d k i) T (p_get1d m x i)) /\
  (forall r c, same (CGetUnchecked k r c) T (p_get_unchecked m x r c)) /\
  (forall i, same (CGet1dUnchecked k i) T (p_get1d_unchecked m x i)) /\
  same (CEval k) base_matrix (p_eval m x) /\
  (forall b f s, x = MBase b -> same (CForEach k f s) (St * bool)%type (p_for_each m b f s)) /\
  (forall shape j a b, x = MBase a -> nth_error ms j = Some (MBase b) ->
     same (CDot shape k j) base_matrix (p_dot code shape m a b)) /\
  (forall alpha i j a b beta c, x = MBase a -> nth_error ms i = Some (MBase b) -> nth_error ms j = Some (MBase c) ->
     same (CMatmul alpha k i beta j) unit (p_matmul code alpha a b beta c)).
Proof. exact @c69_calls. Qed.
Print Assumptions C69_calls.

(** 10 * A + B, A dense, B with strides (5, 2): the entry (1, 2) takes two loads; evaluating
    it is one allocation, twelve loads and six stores. A closure that panics at its fifth call
    makes five updates. *)
Definition ex_orders : gemm_args Z -> prog Z unit := by_rows ex_kernel.
Example C69_example :
  valid ex_heap ex_sum /\ stored (mat_layout ex_sum) (1, 2) /\ ~ stored (mat_layout ex_sum) (2, 0) /\
  trace (p_get Checked ex_sum 1 2) ex_heap = [Reads (1%nat, 5); Reads (0%nat, 11)] /\
  trace (p_get Checked ex_sum 2 0) ex_heap = [] /\
  trace (p_get1d Wrapping ex_sum 5) ex_heap = [Reads (1%nat, 5); Reads (0%nat, 11)] /\
  firstn 4 (trace (p_eval Checked ex_sum) ex_heap) =
    [Allocates [0; 0; 0; 0; 0; 0]%Z; Reads (1%nat, 0); Reads (0%nat, 2); Writes (2%nat, 0) 2102%Z] /\
  loads (trace (p_eval Checked ex_sum) ex_heap) = 12 /\ stores (trace (p_eval Checked ex_sum) ex_heap) = 6 /\
  panics (eval Checked ex_heap (MBase ex_column)) /\ trace (p_eval Checked (MBase ex_column)) ex_heap = [] /\
  base_valid ex_heap ex_strided /\ no_aliasing (bm_layout ex_strided) /\
  trace (p_for_each Checked ex_strided ex_closure 0) ex_heap =
    flat_map (fun qv => [Reads (0%nat, fst qv); Writes (0%nat, fst qv) (snd qv)])
      [(2, 102%Z); (4, 1104%Z); (6, 2106%Z); (7, 3107%Z); (9, 4109%Z)].
Proof.
  split; [exact ex_sum_valid|]. split; [repeat split; discriminate|].
  split; [intros [[H _] _]; revert H; discriminate|]. do 8 (split; [vm_compute; reflexivity|]).
  split; [exact ex_strided_valid|]. split; [|vm_compute; reflexivity].
  exact (proj1 (proj2 C30_example)).
Qed.

Example C69_products_example :
  implements ex_orders ex_kernel /\
  (base_valid ex_product_heap ex_a /\ base_valid ex_product_heap ex_b /\ base_valid ex_product_heap ex_c) /\
  true_strides (bm_layout ex_a) /\ true_strides (bm_layout ex_b) /\ true_strides (bm_layout ex_c) /\
  loads (trace (p_matmul ex_orders 1%Z ex_a ex_b 0%Z ex_c) ex_product_heap) = 28 /\
  stores (trace (p_matmul ex_orders 1%Z ex_a ex_b 0%Z ex_c) ex_product_heap) = 4 /\
  trace (p_matmul ex_orders 1%Z ex_a ex_a 0%Z ex_c) ex_product_heap = [] /\
  firstn 3 (trace (p_dot ex_orders MatrixMatrix Checked ex_a ex_b) ex_product_heap) =
    [Allocates [0; 0; 0; 0]%Z; Reads (0%nat, 0); Reads (1%nat, 0)] /\
  trace (p_dot ex_orders MatrixMatrix Checked ex_a ex_a) ex_product_heap = [Allocates [0; 0; 0; 0; 0; 0]%Z].
Proof.
  split; [apply c60_orders; intros g; apply Permutation_refl|]. split; [exact ex_operands_valid|].
  split; [now apply C32_operands|]. split; [now apply C32_operands|]. split; [now apply C32_operands|].
  do 4 (split; [vm_compute; reflexivity|]). vm_compute. reflexivity.
Qed.

(** The table holds 10 * A + B; its reference, its block and its multiple cost nothing. *)
Example C69_calls_example : forall (h : @heap Z),
  let ms := [ex_sum; MBase ex_strided; MBase ex_dense] in
  let free (o : call Z nat) := exists c, program ex_orders Checked ms o = Some c /\ trace c h = [] in
  free (CFromRef 0) /\ free (CScalarTimes 2%Z ByReference 0) /\ free (CPlus ByValue ByReference 0 0) /\
  free (CBlock true 2 (1, 1) (2, 2)) /\ free (CSplit 2 (1, 2)) /\ free (CDim 0) /\
  exists c, program (St := nat) ex_orders Checked ms (CZeros KRowMajor 2 2) = Some c /\ allocations (trace c h) = 1.
Proof.
  intros h ms free. subst ms free. cbv beta zeta.
  repeat split; eexists; (split; [reflexivity|]); vm_compute; reflexivity.
Qed.
