(** * Floats: the scalar types f32, f64, c32 and c64.

    Models the instances of [HScalar] in /repo/src/types.rs:21-50 with the standard
    library's executable specification of IEEE-754 arithmetic (round to nearest, ties to
    even). All NaNs are identified: Rust leaves their bits unspecified. *)

From Coq Require Import ZArith Bool Eqdep_dec.
From Coq Require Import Floats.SpecFloat.
From Verif Require Import Machine Memory MatMul ProductSpec FloatFacts.

(** The numbers of a format: those of the specification in canonical form. *)
Record float (prec emax : Z) := mkFloat {
  bits : spec_float;
  canonical : valid_binary prec emax bits = true
}.
Arguments mkFloat {prec emax} bits canonical.
Arguments bits {prec emax} _.
Arguments canonical {prec emax} _.

Section Format.
Variables prec emax : Z.
Hypothesis prec_pos : (1 < prec)%Z.
Hypothesis prec_emax : (prec < emax)%Z.
Notation float := (float prec emax).

(** [+], [-] and [*] of the type. *)
Definition fadd (x y : float) : float :=
  mkFloat (SFadd prec emax (bits x) (bits y)) (add_valid _ _ prec_pos _ _ (canonical x) (canonical y)).
Definition fsub (x y : float) : float :=
  mkFloat (SFsub prec emax (bits x) (bits y)) (sub_valid _ _ prec_pos _ _ (canonical x) (canonical y)).
Definition fmul (x y : float) : float :=
  mkFloat (SFmul prec emax (bits x) (bits y)) (mul_valid _ _ prec_pos prec_emax _ _ (canonical x) (canonical y)).

(** [num::cast(0.0)] (data_container.rs:104, 112, matrix_multiply.rs:85, 114, 148) and [num::cast(1.0)]
    (matrix_multiply.rs:82, 111, 145); in
    general the float nearest to [m * 2^e]. *)
Definition fof (m e : Z) : float :=
  mkFloat (binary_normalize prec emax m e false) (normalize_valid _ _ prec_pos m e false).

Definition float_scalar (size : positive) : HScalar float :=
  {| szero := fof 0 0; sone := fof 1 0; sadd := fadd; smul := fmul; ssize := size |}.

Definition float_ops : real_ops float :=
  {| rzero := fof 0 0; rone := fof 1 0; radd := fadd; rsub := fsub; rmul := fmul |}.

(** [==]: false for NaN, and minus zero equals plus zero. *)
Definition feqb (x y : float) : bool := SFeqb (bits x) (bits y).
End Format.

(** types.rs:21-27, 29-35: f32 and f64. *)
Definition real32 : Type := float 24 128.
Definition real64 : Type := float 53 1024.
#[export] Instance scalar_f32 : HScalar real32 := float_scalar 24 128 eq_refl eq_refl 4.
#[export] Instance scalar_f64 : HScalar real64 := float_scalar 53 1024 eq_refl eq_refl 8.

(** types.rs:37-50: c32 and c64 with the arithmetic of [num::Complex]. *)
Definition complex32 : Type := complex real32.
Definition complex64 : Type := complex real64.
#[export] Instance scalar_c32 : HScalar complex32 := complex_scalar (float_ops 24 128 eq_refl eq_refl) 4.
#[export] Instance scalar_c64 : HScalar complex64 := complex_scalar (float_ops 53 1024 eq_refl eq_refl) 8.

(** The f32 and the f64 nearest to [m * 2^e]. *)
Definition f32 (m e : Z) : real32 := fof 24 128 eq_refl m e.
Definition d64 (m e : Z) : real64 := fof 53 1024 eq_refl m e.
