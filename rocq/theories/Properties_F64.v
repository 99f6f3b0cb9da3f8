(** * Property C04: the floating point index computation of upper triangular
    layouts.

    The full statement is [bijective ...] below for every [n]. It holds exactly for
    n < 2^27 (C04_exact_partial), and for every larger matrix a counterexample is
    given (C04_large_refuted). [f64] operations round to nearest even. *)

From Coq Require Import SpecFloat.
From Verif Require Import Machine F64 Layouts Spec F64Proofs.
Local Open Scope N_scope.

Theorem C04_exact_partial : forall m n, fits (UpperTriangular n) ->
  (bijective (n * (n + 1) / 2) (fun p => fst p <= snd p /\ snd p < n)
     (convert_1d_2d m (UpperTriangular n))
     (fun p => convert_2d_1d m (UpperTriangular n) (fst p) (snd p)) <-> n < 2 ^ 27).
Proof. exact c04_exact. Qed.
Print Assumptions C04_exact_partial.

(** In a matrix of any size the indices below 2^53 are converted correctly. *)
Theorem C04_index_partial : forall m n i, small (UpperTriangular n) -> i < n * (n + 1) / 2 -> i < 2 ^ 53 ->
  exists row col, convert_1d_2d m (UpperTriangular n) i = Ok (row, col) /\ row <= col /\ col < n /\
    convert_2d_1d m (UpperTriangular n) row col = Ok i.
Proof. exact c04_index. Qed.
Print Assumptions C04_index_partial.

Example C04_example :
  fits (UpperTriangular 134217727) /\ 134217727 < 2 ^ 27 /\
  convert_1d_2d Checked (UpperTriangular 134217727) 9007199187632127 = Ok (0, 134217726) /\
  convert_1d_2d Checked (UpperTriangular 3000000000) 9007199254740991 = Ok (2865782272, 2932891135) /\
  convert_2d_1d Checked (UpperTriangular 3000000000) 2865782272 2932891135 = Ok 9007199254740991.
Proof. vm_compute. intuition congruence. Qed.

(** The row is wrong for index 2^53 + 2^26 - 1, which exists in every upper
    triangular matrix with 2^27 or more rows. *)
Theorem C04_large_refuted : forall m n, 2 ^ 27 <= n -> fits (UpperTriangular n) ->
  exists row col, row <= col /\ col < n /\
    convert_2d_1d m (UpperTriangular n) row col = Ok (2 ^ 53 + 2 ^ 26 - 1) /\
    convert_1d_2d m (UpperTriangular n) (2 ^ 53 + 2 ^ 26 - 1) <> Ok (row, col).
Proof. exact c04_large. Qed.
Print Assumptions C04_large_refuted.

Theorem C04_witness_refuted :
  fits (UpperTriangular 134217728) /\ fits (UpperTriangular 134217730) /\
  convert_1d_2d Checked (UpperTriangular 134217728) 9007199321849855 = Panic /\
  convert_2d_1d Checked (UpperTriangular 134217730) 2 134217729 = Ok 9007199321849855 /\
  convert_1d_2d Checked (UpperTriangular 134217730) 9007199321849855 = Ok (1, 0).
Proof. vm_compute. intuition congruence. Qed.
Print Assumptions C04_witness_refuted.

(** The cast of the language that the computation ends with: rounded down, then moved into
    the range of usize; NaN gives 0. Stated for (-1)^s * m * 2^e with integers. *)
Theorem C04_cast_partial :
  f64_floor_as_usize S754_nan = 0 /\ (forall s, f64_floor_as_usize (S754_zero s) = 0) /\
  f64_floor_as_usize (S754_infinity true) = 0 /\ f64_floor_as_usize (S754_infinity false) = 2 ^ 64 - 1 /\
  forall (s : bool) (m : positive) (e z : Z),
    (let v := if s then Z.neg m else Z.pos m in
     (0 <= e /\ z = v * 2 ^ e \/ e < 0 /\ z * 2 ^ (- e) <= v < (z + 1) * 2 ^ (- e))%Z) ->
    Z.of_N (f64_floor_as_usize (S754_finite s m e)) = Z.max 0 (Z.min z (2 ^ 64 - 1)).
Proof. exact c04_cast. Qed.
Print Assumptions C04_cast_partial.

Example C04_cast_example :
  f64_floor_as_usize (S754_finite false 7 (-1)) = 3 /\ f64_floor_as_usize (S754_finite true 7 (-1)) = 0 /\
  f64_floor_as_usize (S754_finite false 1 70) = 2 ^ 64 - 1.
Proof. vm_compute. intuition congruence. Qed.
