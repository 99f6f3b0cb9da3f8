(** * Property C52: nested computations obey the laws of matrix algebra. *)

From Coq Require Import ZArith Lia.
From Verif Require Import Machine Layouts Memory Matrix MatMul Spec MatrixSpec ExprSpec ProductSpec AlgebraSpec.
From Verif Require Import ZScalar ProductProofs AlgebraProofs Properties_Products.
Local Open Scope N_scope.

(** C52: any nesting of sums, scalar products, evaluations and matrix products
    completes, leaves all existing memory unchanged and returns the matrix that
    matrix algebra says, computed in the order written. *)
Theorem C52_computations : forall (T : Type) (SC : HScalar T) kern m (h : @heap T) t,
  computes kern -> exact_sums (T := T) -> term_ok h t ->
  exists h' r, run_term kern m h t = Ok (h', r) /\ only_allocates h h' /\ base_valid h' r /\
    dim (bm_layout r) = term_dim t /\ entries_are h' r (term_value (in_heap h) t).
Proof. exact @c52. Qed.
Print Assumptions C52_computations.

(** Over exact arithmetic, computations that the laws of matrix algebra identify
    give matrices of equal dimension and entries, in any builds. *)
Theorem C52_laws : forall (T : Type) (SC : HScalar T) kern m m' (h : @heap T) t u,
  computes kern -> semiring_laws -> term_ok h t -> term_ok h u -> term_law t u ->
  exists h1 r1 h2 r2, run_term kern m h t = Ok (h1, r1) /\ run_term kern m' h u = Ok (h2, r2) /\
    same_entries h1 r1 h2 r2.
Proof. exact @c52_laws. Qed.
Print Assumptions C52_laws.

Lemma z_semiring : @semiring_laws Z ZScalar.
Proof. split; intros; cbn [sadd smul szero sone ZScalar]; lia. Qed.

(** [(2 * a.dot(&b) + &c).eval().dot(&c)] and
    [(2 * a.dot(&b.dot(&c)) + &c.dot(&c)).eval()] with A 2 x 3 by rows, B 3 x 2 by
    columns, C 2 x 2. *)
Definition ex_term1 : term Z :=
  Dot MatrixMatrix
    (Evaluated (Sum ByReference (Scaled 2%Z ByReference (Use (Dot MatrixMatrix (Var ex_a) (Var ex_b))))
               ByReference (Use (Var ex_c)))) (Var ex_c).
Definition ex_term2 : term Z :=
  Evaluated (Sum ByReference
         (Scaled 2%Z ByReference (Use (Dot MatrixMatrix (Var ex_a) (Dot MatrixMatrix (Var ex_b) (Var ex_c)))))
         ByReference (Use (Dot MatrixMatrix (Var ex_c) (Var ex_c)))).

Lemma ex_terms_ok : term_ok ex_product_heap ex_term1 /\ term_ok ex_product_heap ex_term2.
Proof.
  destruct ex_operands_valid as (Va & Vb & Vc).
  assert (Sa : true_strides (bm_layout ex_a)) by (apply operand_true; reflexivity).
  assert (Sb : true_strides (bm_layout ex_b)) by (apply operand_true; reflexivity).
  assert (Sc : true_strides (bm_layout ex_c)) by (apply operand_true; reflexivity).
  cbn [ex_term1 ex_term2 term_ok lazy_ok operand_ok shape_fits].
  repeat match goal with |- _ /\ _ => split end; try assumption; try exact I; try reflexivity; discriminate.
Qed.

Lemma ex_terms_law : term_law ex_term1 ex_term2.
Proof.
  unfold ex_term1, ex_term2.
  eapply law_trans.
  { eapply law_dot; [|apply law_refl]. apply law_eval. apply law_sum; [|apply lazy_refl].
    apply lazy_sym. apply law_use_eval. }
  eapply law_trans; [eapply law_left_add; reflexivity|].
  apply law_eval. apply law_sum; [|apply lazy_refl].
  eapply lazy_trans.
  { apply law_use. eapply law_trans; [apply law_left_scale|]. apply law_refl. }
  eapply lazy_trans; [apply law_use_eval|]. apply law_scaled. apply law_use. apply law_assoc.
  Unshelve. all: first [exact MatrixMatrix | exact ByReference].
Qed.

Example C52_example :
  computes ex_kernel /\ @semiring_laws Z ZScalar /\ term_ok ex_product_heap ex_term1 /\
  term_ok ex_product_heap ex_term2 /\ term_law ex_term1 ex_term2 /\
  ('(h, r) <- run_term ex_kernel Checked ex_product_heap ex_term1 ;; get Checked h (MBase r) 1 0) =
    Ok (2 * (122 + 167) + 2)%Z /\
  ('(h, r) <- run_term ex_kernel Checked ex_product_heap ex_term2 ;; get Checked h (MBase r) 1 0) =
    Ok (2 * (122 + 167) + 2)%Z.
Proof.
  split; [exact ex_kernel_computes|]. split; [exact z_semiring|]. split; [apply ex_terms_ok|].
  split; [apply ex_terms_ok|]. split; [exact ex_terms_law|].
  split; vm_compute; reflexivity.
Qed.

(** Exact arithmetic is needed: with a product that rounds, as that of
    floating point numbers does, the two ways to multiply three 1 x 1 matrices
    differ. *)
Definition rounding_scalar : HScalar Z :=
  {| szero := 0%Z; sone := 2%Z; sadd := Z.add; smul := fun x y => (x * y / 2)%Z; ssize := 8%positive |}.
Definition rounding_kernel : kernel Z := fun _ _ _ alpha pairs beta old =>
  (alpha * fold_left (fun acc p => acc + fst p * snd p / 2) pairs 0 / 2 + beta * old / 2)%Z.
Definition ex_unit (a : nat) : base_matrix :=
  mkBase (mkContainer VectorContainer (mkRegion a 0 1)) (RowMajor (1, 1)) Dynamic Dynamic.
Definition ex_triple (left : bool) : term Z :=
  if left then Dot MatrixMatrix (Dot MatrixMatrix (Var (ex_unit 0)) (Var (ex_unit 1))) (Var (ex_unit 2))
  else Dot MatrixMatrix (Var (ex_unit 0)) (Dot MatrixMatrix (Var (ex_unit 1)) (Var (ex_unit 2))).

Theorem C52_exact_needed :
  let h := [[3]; [3]; [4]]%Z in
  @computes Z rounding_scalar rounding_kernel /\
  (forall x : Z, let S := rounding_scalar in
     @sadd Z S (@smul Z S (@sone Z S) x) (@smul Z S (@szero Z S) (@szero Z S)) = x) /\
  term_law (SC := rounding_scalar) (ex_triple true) (ex_triple false) /\
  ('(h1, r) <- run_term (SC := rounding_scalar) rounding_kernel Checked h (ex_triple true) ;;
   get (SC := rounding_scalar) Checked h1 (MBase r) 0 0) = Ok 8%Z /\
  ('(h1, r) <- run_term (SC := rounding_scalar) rounding_kernel Checked h (ex_triple false) ;;
   get (SC := rounding_scalar) Checked h1 (MBase r) 0 0) = Ok 9%Z.
Proof.
  cbn zeta. split; [intros sh i j alpha pairs beta old; reflexivity|]. split.
  { intros x. cbn zeta. cbn [sadd smul sone szero rounding_scalar]. rewrite (Z.mul_comm 2 x), Z.div_mul by discriminate.
    rewrite Z.mul_0_l. cbn. apply Z.add_0_r. }
  split; [apply law_assoc|]. split; vm_compute; reflexivity.
Qed.
Print Assumptions C52_exact_needed.
