(** * Property C64: which laws of matrix algebra hold bit for bit in floating point.

    C52 says what nested computations give, and that all laws hold, in exact arithmetic.
    Here the scalars are those of the library, rounding included, and the gemm routine is
    arbitrary: it may sum in any order and with any roundings. *)

From Coq Require Import Floats.SpecFloat.
From Verif Require Import Machine Layouts Memory Matrix MatMul Spec MatrixSpec ExprSpec ProductSpec AlgebraSpec.
From Verif Require Import AccessProofs ProductProofs AlgebraProofs Floats FloatProofs Properties_Algebra.
Local Open Scope N_scope.

(** The entries of every computation in the arithmetic of the machine, for any scalars and
    any gemm routine whose results depend on sizes and data only. *)
Theorem C64_computations : forall (T : Type) (SC : HScalar T) kern m (h : @heap T) t,
  ignores_strides kern -> term_ok h t ->
  exists h' r, run_term kern m h t = Ok (h', r) /\ only_allocates h h' /\ base_valid h' r /\
    dim (bm_layout r) = term_dim t /\ entries_are h' r (term_bits kern (in_heap h) t).
Proof. exact @c64_bits. Qed.
Print Assumptions C64_computations.

(** With f32 and f64, [eval] may be inserted and omitted anywhere, the operands of sums may
    be exchanged and factors one omitted: the results have the same bits, in any builds. *)
Theorem C64_float_laws :
  (forall kern m m' (h : @heap real32) t u,
     ignores_strides kern -> term_ok h t -> term_ok h u -> term_bit_law true t u ->
     exists h1 r1 h2 r2, run_term kern m h t = Ok (h1, r1) /\ run_term kern m' h u = Ok (h2, r2) /\
       same_entries h1 r1 h2 r2) /\
  (forall kern m m' (h : @heap real64) t u,
     ignores_strides kern -> term_ok h t -> term_ok h u -> term_bit_law true t u ->
     exists h1 r1 h2 r2, run_term kern m h t = Ok (h1, r1) /\ run_term kern m' h u = Ok (h2, r2) /\
       same_entries h1 r1 h2 r2).
Proof. exact c64_float_laws. Qed.
Print Assumptions C64_float_laws.

(** With c32 and c64 too, except for the factor one. *)
Theorem C64_complex_laws :
  (forall kern m m' (h : @heap complex32) t u,
     ignores_strides kern -> term_ok h t -> term_ok h u -> term_bit_law false t u ->
     exists h1 r1 h2 r2, run_term kern m h t = Ok (h1, r1) /\ run_term kern m' h u = Ok (h2, r2) /\
       same_entries h1 r1 h2 r2) /\
  (forall kern m m' (h : @heap complex64) t u,
     ignores_strides kern -> term_ok h t -> term_ok h u -> term_bit_law false t u ->
     exists h1 r1 h2 r2, run_term kern m h t = Ok (h1, r1) /\ run_term kern m' h u = Ok (h2, r2) /\
       same_entries h1 r1 h2 r2).
Proof. exact c64_complex_laws. Qed.
Print Assumptions C64_complex_laws.

(** The condition of C35 and C52 on the scalars holds for f32 and f64: the factor one and
    the zero matrix with which [dot] calls gemm add no rounding and no change of sign. *)
Theorem C64_exact_sums : exact_sums (T := real32) /\ exact_sums (T := real64).
Proof. exact c64_exact_sums. Qed.
Print Assumptions C64_exact_sums.

(** Examples: 1 x 1 matrices; a routine that computes the documented formula in order. *)
Definition ordered_kernel {T : Type} {SC : HScalar T} : kernel T := fun _ _ _ alpha pairs beta old =>
  sadd (smul alpha (fold_left (fun acc p => sadd acc (smul (fst p) (snd p))) pairs szero)) (smul beta old).

Definition shown (h : @heap real64) (t : term real64) : option spec_float :=
  match ('(h1, r) <- run_term ordered_kernel Checked h t ;; get Checked h1 (MBase r) 0 0) with
  | Ok x => Some (bits x)
  | _ => None
  end.

Definition x0 : term real64 := Var (ex_unit 0).
Definition x1 : term real64 := Var (ex_unit 1).
Definition x2 : term real64 := Var (ex_unit 2).
Definition dot_ (t u : term real64) : term real64 := Dot MatrixMatrix t u.
Definition plus_ (z w : lazy real64) : lazy real64 := Sum ByReference z ByReference w.
Definition scaled (c : real64) (z : lazy real64) : lazy real64 := Scaled c ByReference z.

(** 1, 2^-53, 2^-53 and 2^600, -2^600, 2^500. *)
Definition heap_small : @heap real64 := [[d64 1 0]; [d64 1 (-53)]; [d64 1 (-53)]].
Definition heap_large : @heap real64 := [[d64 1 600]; [d64 (-1) 600]; [d64 1 500]].

(** [(x0 + x1 + x2).eval()] and [((1 * x2) + (x1 + x0).eval()).eval()] are both 1. *)
Definition ex_bits1 : term real64 := Evaluated (plus_ (plus_ (Use x0) (Use x1)) (Use x2)).
Definition ex_bits2 : term real64 :=
  Evaluated (plus_ (scaled sone (Use x2)) (Use (Evaluated (plus_ (Use x1) (Use x0))))).

Lemma unit_ok : forall (T : Type) (SC : HScalar T) (h : @heap T) a v,
  nth_error h a = Some [v] -> term_ok h (Var (ex_unit a)).
Proof.
  intros T SC h a v H. split; [|reflexivity].
  apply dense_base_valid with (l := RowMajor (1, 1)); try reflexivity; try discriminate.
  split; [|discriminate]. exists [v]. split; [exact H|discriminate].
Qed.

Ltac units_ok :=
  repeat match goal with |- _ /\ _ => split end; cbn [operand_ok]; try exact I; try reflexivity; try discriminate;
  solve [refine (proj1 (unit_ok _ _ _ _ _ _)); reflexivity |
         apply operand_true; reflexivity].

Example C64_example :
  ignores_strides (@ordered_kernel real64 _) /\ computes (@ordered_kernel real64 _) /\
  term_ok heap_small ex_bits1 /\ term_ok heap_small ex_bits2 /\
  term_bit_law true ex_bits1 ex_bits2 /\
  shown heap_small ex_bits1 = Some (bits (d64 1 0)) /\ shown heap_small ex_bits2 = Some (bits (d64 1 0)).
Proof.
  split; [intros sh sh' _ _ _ i j alpha pairs beta old; reflexivity|].
  split; [intros sh i j alpha pairs beta old; reflexivity|].
  split; [unfold ex_bits1, plus_, x0, x1, x2; cbn [term_ok lazy_ok]; units_ok|].
  split; [unfold ex_bits2, plus_, scaled, x0, x1, x2; cbn [term_ok lazy_ok]; units_ok|].
  split.
  { apply bit_eval. eapply lazy_bit_trans; [apply bit_add_comm; reflexivity|].
    apply bit_sum; [apply lazy_bit_sym, bit_scale_one; reflexivity|].
    eapply lazy_bit_trans; [apply bit_add_comm; reflexivity|]. apply lazy_bit_sym, bit_use_eval. }
  split; vm_compute; reflexivity.
Qed.

Lemma complex_bits : forall prec emax (z w : complex (float prec emax)),
  bits (re z) = bits (re w) -> bits (im z) = bits (im w) -> z = w.
Proof. intros prec emax [a b] [c d] H K. f_equal; now apply float_eq. Qed.

(** The types: bytes of an item, the rounding of [1 + 2^-24] and [1 + 2^-53] (ties to even),
    the largest exponents, and [(1 + 2i) (3 + 4i) = -5 + 10i]. *)
Example C64_types_example :
  (@ssize real32 _ = 4 /\ @ssize real64 _ = 8 /\ @ssize complex32 _ = 8 /\ @ssize complex64 _ = 16)%positive /\
  sadd (f32 1 0) (f32 1 (-24)) = f32 1 0 /\ bits (sadd (f32 1 0) (f32 1 (-23))) = S754_finite false 8388609 (-23) /\
  sadd (d64 1 0) (d64 1 (-53)) = d64 1 0 /\
  bits (sadd (d64 1 0) (d64 1 (-52))) = S754_finite false 4503599627370497 (-52) /\
  bits (smul (f32 1 64) (f32 1 63)) = bits (f32 1 127) /\ bits (smul (f32 1 64) (f32 1 64)) = S754_infinity false /\
  bits (smul (d64 1 512) (d64 1 511)) = bits (d64 1 1023) /\ bits (smul (d64 1 512) (d64 1 512)) = S754_infinity false /\
  smul (mkComplex (f32 1 0) (f32 2 0) : complex32) (mkComplex (f32 3 0) (f32 4 0)) = mkComplex (f32 (-5) 0) (f32 10 0) /\
  smul (mkComplex (d64 1 0) (d64 2 0) : complex64) (mkComplex (d64 3 0) (d64 4 0)) = mkComplex (d64 (-5) 0) (d64 10 0) /\
  feqb _ _ (d64 0 0) (smul (d64 (-1) 0) (d64 0 0)) = true /\ bits (smul (d64 (-1) 0) (d64 0 0)) = S754_zero true /\
  (let nan := smul (d64 0 0) (d64 1 1024) in feqb _ _ nan nan = false).
Proof.
  repeat match goal with |- _ /\ _ => split end;
  lazymatch goal with
  | |- @eq positive _ _ => reflexivity
  | |- @eq spec_float _ _ => vm_compute; reflexivity
  | |- @eq real32 _ _ => apply float_eq; vm_compute; reflexivity
  | |- @eq real64 _ _ => apply float_eq; vm_compute; reflexivity
  | |- @eq complex32 _ _ => apply complex_bits; vm_compute; reflexivity
  | |- @eq complex64 _ _ => apply complex_bits; vm_compute; reflexivity
  | |- _ => cbn zeta; vm_compute; reflexivity
  end.
Qed.

(** No other law of C52 holds: for each a pair of computations with f64 that it identifies
    and that give different bits; for the factor one with c64. *)
Definition differ (h : @heap real64) (t u : term real64) : Prop :=
  term_ok h t /\ term_ok h u /\ term_law t u /\ shown h t <> shown h u.

Ltac differ_by law :=
  split; [cbn [term_ok lazy_ok]; units_ok|]; split; [cbn [term_ok lazy_ok]; units_ok|];
  split; [law|vm_compute; discriminate].

Theorem C64_other_laws_needed :
  differ heap_small (Evaluated (plus_ (Use x0) (plus_ (Use x1) (Use x2))))
                    (Evaluated (plus_ (plus_ (Use x0) (Use x1)) (Use x2))) /\
  differ heap_large (Evaluated (scaled (d64 1 600) (plus_ (Use x0) (Use x1))))
                    (Evaluated (plus_ (scaled (d64 1 600) (Use x0)) (scaled (d64 1 600) (Use x1)))) /\
  differ heap_small (Evaluated (scaled (d64 1 1000) (scaled (d64 1 1000) (scaled (d64 1 (-1000)) (Use x0)))))
                    (Evaluated (scaled (smul (d64 1 1000) (d64 1 1000)) (scaled (d64 1 (-1000)) (Use x0)))) /\
  differ [[d64 1 600]; [d64 1 600]; [d64 1 (-600)]] (dot_ (dot_ x0 x1) x2) (dot_ x0 (dot_ x1 x2)) /\
  differ heap_large (dot_ (Evaluated (plus_ (Use x0) (Use x1))) x2)
                    (Evaluated (plus_ (Use (dot_ x0 x2)) (Use (dot_ x1 x2)))) /\
  differ heap_large (dot_ x2 (Evaluated (plus_ (Use x0) (Use x1))))
                    (Evaluated (plus_ (Use (dot_ x2 x0)) (Use (dot_ x2 x1)))) /\
  differ heap_large (dot_ (Evaluated (scaled (d64 1 (-600)) (Use x0))) x1)
                    (Evaluated (scaled (d64 1 (-600)) (Use (dot_ x0 x1)))) /\
  differ heap_large (dot_ x1 (Evaluated (scaled (d64 1 (-600)) (Use x0))))
                    (Evaluated (scaled (d64 1 (-600)) (Use (dot_ x1 x0)))) /\
  (let one_and_infinity : complex64 := mkComplex (d64 1 1024) (d64 0 0) in
   bits (re one_and_infinity) = S754_infinity false /\
   bits (im (smul (sone : complex64) one_and_infinity)) = S754_nan).
Proof.
  unfold plus_, dot_, scaled, x0, x1, x2.
  split; [differ_by ltac:(apply law_eval, law_add_assoc)|].
  split; [differ_by ltac:(apply law_eval, law_scale_add)|].
  split; [differ_by ltac:(apply law_eval, law_scale_scale)|].
  split; [differ_by ltac:(apply law_assoc)|].
  split; [differ_by ltac:(apply law_left_add; reflexivity)|].
  split; [differ_by ltac:(apply law_right_add; reflexivity)|].
  split; [differ_by ltac:(apply law_left_scale)|].
  split; [differ_by ltac:(apply law_right_scale)|].
  cbn zeta. split; vm_compute; reflexivity.
Qed.
Print Assumptions C64_other_laws_needed.
