(** * Proofs about the floating point scalars (C64). *)

From Coq Require Import ZArith Bool Eqdep_dec Lia.
From Coq Require Import Floats.SpecFloat.
From Verif Require Import Machine Layouts Memory Matrix MatMul Spec MatrixSpec ExprSpec ProductSpec AlgebraSpec.
From Verif Require Import FloatFacts Floats ProductProofs AlgebraProofs.

Section Format.
Variables prec emax : Z.
Hypothesis prec_pos : (1 < prec)%Z.
Hypothesis prec_emax : (prec < emax)%Z.
Notation float := (float prec emax).
Notation fadd := (fadd prec emax prec_pos).
Notation fsub := (fsub prec emax prec_pos).
Notation fmul := (fmul prec emax prec_pos prec_emax).

Lemma float_eq : forall x y : float, bits x = bits y -> x = y.
Proof.
  intros [x Hx] [y Hy] H. cbn in H. subst y. f_equal. apply UIP_dec. apply bool_dec.
Qed.

Lemma fadd_comm : forall x y, fadd x y = fadd y x.
Proof. intros x y. apply float_eq. apply add_comm. Qed.

Lemma fmul_comm : forall x y, fmul x y = fmul y x.
Proof. intros x y. apply float_eq. apply mul_comm. Qed.

Hypothesis one_is : bits (fof prec emax prec_pos 1 0) = one prec.

Lemma fmul_one : forall x, fmul (fof prec emax prec_pos 1 0) x = x.
Proof. intros x. apply float_eq. cbn [bits Floats.fmul]. rewrite one_is. apply mul_one; auto using canonical. Qed.

Lemma not_minus : forall x y : float, bits x <> S754_zero true -> bits (fadd x y) <> S754_zero true.
Proof. intros x y H. apply add_not_minus; auto using canonical. Qed.

Lemma float_exact_sums : forall size, @exact_sums float (float_scalar prec emax prec_pos prec_emax size).
Proof.
  intros size n f. cbn [sadd smul sone szero float_scalar].
  assert (H : bits (@sum_below _ (float_scalar prec emax prec_pos prec_emax size) n f) <> S754_zero true).
  { induction n as [|n IH]; [discriminate|]. now apply not_minus. }
  rewrite fmul_one. apply float_eq. now apply add_zero.
Qed.

(** [x == x] fails for NaN only. *)
Lemma feqb_self : forall x : float, feqb prec emax x x = true <-> bits x <> S754_nan.
Proof.
  intros [b C]. unfold feqb, SFeqb. cbn [bits]. destruct b as [[]|[]| |[] p e]; cbn [SFcompare];
    rewrite ?Z.compare_refl; split; intros H; try congruence; auto; try (now destruct H);
    unfold Pos.compare; rewrite ?Pos.compare_cont_refl; auto.
Qed.

Lemma complex_add_comm : forall size (x y : complex float),
  @sadd _ (complex_scalar (float_ops prec emax prec_pos prec_emax) size) x y =
  @sadd _ (complex_scalar (float_ops prec emax prec_pos prec_emax) size) y x.
Proof. intros size [a b] [c d]. cbn. now rewrite (fadd_comm a c), (fadd_comm b d). Qed.
End Format.

Lemma c64_float_laws :
  (forall kern m m' (h : @heap real32) t u, ignores_strides kern -> term_ok h t -> term_ok h u -> term_bit_law true t u ->
     exists h1 r1 h2 r2, run_term kern m h t = Ok (h1, r1) /\ run_term kern m' h u = Ok (h2, r2) /\ same_entries h1 r1 h2 r2) /\
  (forall kern m m' (h : @heap real64) t u, ignores_strides kern -> term_ok h t -> term_ok h u -> term_bit_law true t u ->
     exists h1 r1 h2 r2, run_term kern m h t = Ok (h1, r1) /\ run_term kern m' h u = Ok (h2, r2) /\ same_entries h1 r1 h2 r2).
Proof.
  split; intros kern m m' h t u Hk Ht Hu Hl; apply (c64_laws true); auto.
  1,3: apply fadd_comm.
  all: intros _ x; apply fmul_one; vm_compute; reflexivity.
Qed.

Lemma c64_complex_laws :
  (forall kern m m' (h : @heap complex32) t u, ignores_strides kern -> term_ok h t -> term_ok h u -> term_bit_law false t u ->
     exists h1 r1 h2 r2, run_term kern m h t = Ok (h1, r1) /\ run_term kern m' h u = Ok (h2, r2) /\ same_entries h1 r1 h2 r2) /\
  (forall kern m m' (h : @heap complex64) t u, ignores_strides kern -> term_ok h t -> term_ok h u -> term_bit_law false t u ->
     exists h1 r1 h2 r2, run_term kern m h t = Ok (h1, r1) /\ run_term kern m' h u = Ok (h2, r2) /\ same_entries h1 r1 h2 r2).
Proof.
  split; intros kern m m' h t u Hk Ht Hu Hl; apply (c64_laws false); auto; try discriminate;
    apply complex_add_comm.
Qed.

Lemma c64_exact_sums : exact_sums (T := real32) /\ exact_sums (T := real64).
Proof. split; apply float_exact_sums; vm_compute; reflexivity. Qed.
