(** * F64: the floating point part of [UpperTriangular::convert_1d_2d].

    Models /repo/src/layouts/upper_triangular.rs:26-27 with the standard
    library's executable specification of IEEE-754 arithmetic
    ([Coq.Floats.SpecFloat]: round to nearest, ties to even), at binary64
    (53 bit precision, maximal exponent 1024). *)

From Coq Require Import ZArith NArith.
From Coq Require Import Floats.SpecFloat.
From Verif Require Import Machine.

(** f64 values; all NaNs are identified. *)
Definition f64 : Type := spec_float.

(** [+], [*] and [f64::sqrt] on f64. *)
Definition f64_add (x y : f64) : f64 := SFadd 53 1024 x y.
Definition f64_mul (x y : f64) : f64 := SFmul 53 1024 x y.
Definition f64_sqrt (x : f64) : f64 := SFsqrt 53 1024 x.

(** The float nearest to [m * 2^e]: used for literals and integer casts. *)
Definition f64_of (m e : Z) : f64 := binary_normalize 53 1024 m e false.

(** [index as f64] for an unsigned integer: round to nearest even. *)
Definition f64_of_usize (x : N) : f64 := f64_of (Z.of_N x) 0.

(** The literals 0.25, 2.0 and -0.5. *)
Definition f64_quarter : f64 := f64_of 1 (-2).
Definition f64_two : f64 := f64_of 2 0.
Definition f64_minus_half : f64 := f64_of (-1) (-1).

(** Integer part (towards minus infinity) of [(-1)^s * m * 2^e]. *)
Definition floor_finite (s : bool) (m : positive) (e : Z) : Z :=
  let v := cond_Zopp s (Zpos m) in
  if (0 <=? e)%Z then (v * 2 ^ e)%Z else (v / 2 ^ (- e))%Z.

(** Saturation of an integer to the range of usize. *)
Definition saturate_usize (z : Z) : N :=
  if (z <? 0)%Z then 0%N
  else if (Z.of_N usize_mod <=? z)%Z then (usize_mod - 1)%N else Z.to_N z.

(** [f64::floor(x) as usize]: Rust's float to integer cast saturates and sends
    NaN to 0. Simplification: the two steps are one, since the floor of a finite
    f64 is an integer that f64 represents exactly. *)
Definition f64_floor_as_usize (x : f64) : N :=
  match x with
  | S754_nan => 0%N
  | S754_zero _ => 0%N
  | S754_infinity s => if s then 0%N else (usize_mod - 1)%N
  | S754_finite s m e => saturate_usize (floor_finite s m e)
  end.

(** upper_triangular.rs:26-27:
    [let p = -0.5 + f64::sqrt(0.25 + 2.0 * (index as f64));
     let p = f64::floor(p) as IndexType;] *)
Definition ut_p (index : N) : N :=
  f64_floor_as_usize
    (f64_add f64_minus_half
       (f64_sqrt (f64_add f64_quarter (f64_mul f64_two (f64_of_usize index))))).
