(** * AlgebraSpec: computations that nest sums, scalar products, evaluations and
    matrix products, and the laws of matrix algebra. *)

From Verif Require Import Machine Layouts Memory Matrix MatMul Spec MatrixSpec ExprSpec ProductSpec.
Local Open Scope N_scope.

(** A computation as a user writes it, such as
    [(3.0 * &a.dot(&b) + &c).eval().dot(&d)]: a matrix in memory, a product, or
    the evaluation of a lazy expression over such computations. *)
Inductive term (T : Type) :=
| Var (b : base_matrix)
| Dot (shape : dot_shape) (t u : term T)
| Evaluated (z : lazy T)
with lazy (T : Type) :=
| Use (t : term T)
| Sum (p : passed) (z : lazy T) (q : passed) (w : lazy T)
| Scaled (s : T) (p : passed) (z : lazy T).
Arguments Var {T} b.
Arguments Dot {T} shape t u.
Arguments Evaluated {T} z.
Arguments Use {T} t.
Arguments Sum {T} p z q w.
Arguments Scaled {T} s p z.

Section AlgebraSpec.
Context {T : Type} {SC : HScalar T}.
Notation heap := (@heap T).

(** Running it with the functions of the library, operands from left to right. *)
Fixpoint run_term (kern : kernel T) (m : mode) (h : heap) (t : term T) : outcome (heap * base_matrix) :=
  match t with
  | Var b => Ok (h, b)
  | Dot shape t u =>
      '(h1, a) <- run_term kern m h t ;; '(h2, b) <- run_term kern m h1 u ;; dot shape kern m h2 a b
  | Evaluated z => '(h1, x) <- run_lazy kern m h z ;; eval m h1 x
  end
with run_lazy (kern : kernel T) (m : mode) (h : heap) (z : lazy T) : outcome (heap * matrix T) :=
  match z with
  | Use t => '(h1, b) <- run_term kern m h t ;; Ok (h1, MBase b)
  | Sum p z q w =>
      '(h1, x) <- run_lazy kern m h z ;; '(h2, y) <- run_lazy kern m h1 w ;;
      e <- plus p q x y ;; Ok (h2, e)
  | Scaled s p z => '(h1, x) <- run_lazy kern m h z ;; Ok (h1, scalar_times s p x)
  end.

(** The dimension of the result. *)
Fixpoint term_dim (t : term T) : N * N :=
  match t with
  | Var b => dim (bm_layout b)
  | Dot _ t u => (fst (term_dim t), snd (term_dim u))
  | Evaluated z => lazy_dim z
  end
with lazy_dim (z : lazy T) : N * N :=
  match z with
  | Use t => term_dim t
  | Sum _ z _ _ => lazy_dim z
  | Scaled _ _ z => lazy_dim z
  end.

(** Its entries in matrix algebra; [F] gives the entries of the variables. *)
Fixpoint term_value (F : base_matrix -> N -> N -> T) (t : term T) (i j : N) : T :=
  match t with
  | Var b => F b i j
  | Dot _ t u =>
      sum_below (N.to_nat (snd (term_dim t))) (fun l => smul (term_value F t i l) (term_value F u l j))
  | Evaluated z => lazy_value F z i j
  end
with lazy_value (F : base_matrix -> N -> N -> T) (z : lazy T) (i j : N) : T :=
  match z with
  | Use t => term_value F t i j
  | Sum _ z _ w => sadd (lazy_value F z i j) (lazy_value F w i j)
  | Scaled s _ z => smul s (lazy_value F z i j)
  end.

(** Its entries in the arithmetic of the machine, with products as the gemm routine
    computes them from a row and a column. *)
Fixpoint term_bits (kern : kernel T) (F : base_matrix -> N -> N -> T) (t : term T) (i j : N) : T :=
  match t with
  | Var b => F b i j
  | Dot _ t u =>
      let k := snd (term_dim t) in
      kern (mkShape (fst (term_dim t)) k (snd (term_dim u)) (0, 0)%Z (0, 0)%Z (0, 0)%Z) i j
        sone (row_and_column k (term_bits kern F t) (term_bits kern F u) i j) szero szero
  | Evaluated z => lazy_bits kern F z i j
  end
with lazy_bits (kern : kernel T) (F : base_matrix -> N -> N -> T) (z : lazy T) (i j : N) : T :=
  match z with
  | Use t => term_bits kern F t i j
  | Sum _ z _ w => sadd (lazy_bits kern F z i j) (lazy_bits kern F w i j)
  | Scaled s _ z => smul s (lazy_bits kern F z i j)
  end.

(** The traversal order (a part of the type) of the result. *)
Fixpoint term_kind (t : term T) : base_kind :=
  match t with
  | Var b => index_kind (bm_layout b)
  | Dot MatrixMatrix _ _ => KRowMajor
  | Dot RowMatrix _ _ => KRowVector
  | Dot MatrixColumn _ _ => KColumnVector
  | Evaluated z => lazy_kind z
  end
with lazy_kind (z : lazy T) : base_kind :=
  match z with
  | Use t => term_kind t
  | Sum _ z _ _ => lazy_kind z
  | Scaled _ _ z => lazy_kind z
  end.

(** The bytes of a result can be allocated. *)
Definition allocatable (d : N * N) : Prop := fst d * snd d * Npos ssize <= isize_max.

(** The dimensions fit and results can be allocated; variables that are operands
    of a product report true strides (see C34); column vectors of more than one
    entry are not evaluated (see C26). *)
Definition operand_ok (t : term T) : Prop :=
  match t with Var b => true_strides (bm_layout b) | _ => True end.
Fixpoint term_ok (h : heap) (t : term T) : Prop :=
  match t with
  | Var b => base_valid h b /\ strided_type (bm_layout b) = true
  | Dot shape t u =>
      term_ok h t /\ term_ok h u /\ operand_ok t /\ operand_ok u /\
      snd (term_dim t) = fst (term_dim u) /\ shape_fits shape (term_dim t) (term_dim u) /\
      allocatable (fst (term_dim t), snd (term_dim u))
  | Evaluated z =>
      lazy_ok h z /\ allocatable (lazy_dim z) /\ (lazy_kind z = KColumnVector -> fst (lazy_dim z) = 1)
  end
with lazy_ok (h : heap) (z : lazy T) : Prop :=
  match z with
  | Use t => term_ok h t
  | Sum _ z _ w =>
      lazy_ok h z /\ lazy_ok h w /\ lazy_dim z = lazy_dim w /\ lazy_kind z = lazy_kind w
  | Scaled _ _ z => lazy_ok h z
  end.

(** The entry of a variable in a heap. *)
Definition in_heap (h : heap) (b : base_matrix) (i j : N) : T :=
  match base_entry h b (i, j) with Some v => v | None => szero end.

(** Exact arithmetic: a commutative semiring. *)
Record semiring_laws : Prop := {
  add_comm : forall x y : T, sadd x y = sadd y x;
  add_assoc : forall x y z : T, sadd x (sadd y z) = sadd (sadd x y) z;
  add_zero : forall x : T, sadd szero x = x;
  mul_comm : forall x y : T, smul x y = smul y x;
  mul_assoc : forall x y z : T, smul x (smul y z) = smul (smul x y) z;
  mul_one : forall x : T, smul sone x = x;
  mul_zero : forall x : T, smul szero x = szero;
  mul_add : forall x y z : T, smul x (sadd y z) = sadd (smul x y) (smul x z)
}.

(** The laws of matrix algebra, applied anywhere in a computation. *)
Inductive term_law : term T -> term T -> Prop :=
| law_refl t : term_law t t
| law_sym t u : term_law t u -> term_law u t
| law_trans t u v : term_law t u -> term_law u v -> term_law t v
| law_dot s s' t t' u u' : term_law t t' -> term_law u u' -> term_law (Dot s t u) (Dot s' t' u')
| law_eval z z' : lazy_law z z' -> term_law (Evaluated z) (Evaluated z')
| law_eval_var t : term_law (Evaluated (Use t)) t
| law_assoc s1 s2 s3 s4 t u v : term_law (Dot s1 (Dot s2 t u) v) (Dot s3 t (Dot s4 u v))
| law_left_add s s1 s2 p q t u v : term_dim t = term_dim u ->
    term_law (Dot s (Evaluated (Sum p (Use t) q (Use u))) v)
             (Evaluated (Sum p (Use (Dot s1 t v)) q (Use (Dot s2 u v))))
| law_right_add s s1 s2 p q t u v : term_dim u = term_dim v ->
    term_law (Dot s t (Evaluated (Sum p (Use u) q (Use v))))
             (Evaluated (Sum p (Use (Dot s1 t u)) q (Use (Dot s2 t v))))
| law_left_scale s s1 c p t u :
    term_law (Dot s (Evaluated (Scaled c p (Use t))) u) (Evaluated (Scaled c p (Use (Dot s1 t u))))
| law_right_scale s s1 c p t u :
    term_law (Dot s t (Evaluated (Scaled c p (Use u)))) (Evaluated (Scaled c p (Use (Dot s1 t u))))
with lazy_law : lazy T -> lazy T -> Prop :=
| lazy_refl z : lazy_law z z
| lazy_sym z w : lazy_law z w -> lazy_law w z
| lazy_trans z w v : lazy_law z w -> lazy_law w v -> lazy_law z v
| law_use t t' : term_law t t' -> lazy_law (Use t) (Use t')
| law_use_eval z : lazy_law (Use (Evaluated z)) z
| law_sum p q p' q' z z' w w' : lazy_law z z' -> lazy_law w w' -> lazy_law (Sum p z q w) (Sum p' z' q' w')
| law_scaled c p p' z z' : lazy_law z z' -> lazy_law (Scaled c p z) (Scaled c p' z')
| law_add_comm p q z w : lazy_dim z = lazy_dim w -> lazy_law (Sum p z q w) (Sum q w p z)
| law_add_assoc p q r s z w v : lazy_law (Sum p z q (Sum r w s v)) (Sum q (Sum p z r w) s v)
| law_scale_add c p q r s z w :
    lazy_law (Scaled c p (Sum q z r w)) (Sum s (Scaled c q z) s (Scaled c r w))
| law_scale_scale c d p q z : lazy_law (Scaled c p (Scaled d q z)) (Scaled (smul c d) q z)
| law_scale_one p z : lazy_law (Scaled sone p z) z.

(** The laws that rounding respects: where a computation is evaluated, and the order of the
    operands of a sum, do not matter; with [unit], neither does a factor one. *)
Inductive term_bit_law (unit : bool) : term T -> term T -> Prop :=
| bit_refl t : term_bit_law unit t t
| bit_sym t u : term_bit_law unit t u -> term_bit_law unit u t
| bit_trans t u v : term_bit_law unit t u -> term_bit_law unit u v -> term_bit_law unit t v
| bit_dot s s' t t' u u' : term_bit_law unit t t' -> term_bit_law unit u u' ->
    term_bit_law unit (Dot s t u) (Dot s' t' u')
| bit_eval z z' : lazy_bit_law unit z z' -> term_bit_law unit (Evaluated z) (Evaluated z')
| bit_eval_var t : term_bit_law unit (Evaluated (Use t)) t
with lazy_bit_law (unit : bool) : lazy T -> lazy T -> Prop :=
| lazy_bit_refl z : lazy_bit_law unit z z
| lazy_bit_sym z w : lazy_bit_law unit z w -> lazy_bit_law unit w z
| lazy_bit_trans z w v : lazy_bit_law unit z w -> lazy_bit_law unit w v -> lazy_bit_law unit z v
| bit_use t t' : term_bit_law unit t t' -> lazy_bit_law unit (Use t) (Use t')
| bit_use_eval z : lazy_bit_law unit (Use (Evaluated z)) z
| bit_sum p q p' q' z z' w w' : lazy_bit_law unit z z' -> lazy_bit_law unit w w' ->
    lazy_bit_law unit (Sum p z q w) (Sum p' z' q' w')
| bit_scaled c p p' z z' : lazy_bit_law unit z z' -> lazy_bit_law unit (Scaled c p z) (Scaled c p' z')
| bit_add_comm p q z w : lazy_dim z = lazy_dim w -> lazy_bit_law unit (Sum p z q w) (Sum q w p z)
| bit_scale_one p z : unit = true -> lazy_bit_law unit (Scaled sone p z) z.
End AlgebraSpec.
