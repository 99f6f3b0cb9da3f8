(** * Property C65: the code blocks of the documentation, for all sizes, positions and numbers.

    The documentation (examples.rs) shows them for fixed ones, which [cargo test] runs. Here,
    for any scalar type with any [==], any generator and both builds: exactly when they run to
    the end; otherwise they panic, as the documentation says. *)

From Coq Require Import Floats.SpecFloat.
From Verif Require Import Machine Layouts Memory Matrix MatMul Spec MatrixSpec ExprSpec ProductSpec.
From Verif Require Import Floats FloatProofs Documentation DocumentationProofs Properties_Floats.
Local Open Scope N_scope.

(** examples.rs:47-67: "the methods get and get_mut perform an assertion check". *)
Theorem C65_access : forall (T : Type) (SC : HScalar T) eqb m (h : @heap T) d p v,
  fst d * snd d * Npos ssize <= isize_max ->
  runs_iff (doc_access eqb m h d p v) (in_range d p /\ eqb v v = true) /\
  runs_iff (doc_write m h d p v) (in_range d p) /\ runs_iff (doc_read m h d p) (in_range d p).
Proof. exact @c65_access. Qed.
Print Assumptions C65_access.

(** examples.rs:70-77. Outside of the dimensions the code still runs if the offset names
    another entry, and has undefined behaviour if it does not. *)
Theorem C65_unchecked : forall (T : Type) (SC : HScalar T) eqb m (h : @heap T) d p v,
  fst d * snd d * Npos ssize <= isize_max -> fst p * snd d + snd p < usize_mod ->
  (fst p * snd d + snd p < fst d * snd d -> runs_iff (doc_unchecked eqb m h d p v) (eqb v v = true)) /\
  (fst d * snd d <= fst p * snd d + snd p -> doc_unchecked eqb m h d p v = UB).
Proof. exact @c65_unchecked. Qed.
Print Assumptions C65_unchecked.

(** examples.rs:81-87; [e] is the entry of the sum. *)
Theorem C65_sum : forall (T : Type) (SC : HScalar T) (G : Type) eqb (random_scalar : G -> T * G) m (h : @heap T) g d1 d2 s p,
  fst d1 * snd d1 * Npos ssize <= isize_max -> fst d2 * snd d2 * Npos ssize <= isize_max ->
  let e := sadd (smul s (drawn_entry random_scalar g d1 p))
                (drawn_entry random_scalar (later random_scalar (N.to_nat (fst d1 * snd d1)) g) d2 p) in
  runs_iff (doc_sum eqb random_scalar m h g d1 d2 s p) (d1 = d2 /\ in_range d1 p /\ eqb e e = true).
Proof. exact @c65_sum. Qed.
Print Assumptions C65_sum.

(** examples.rs:98-105, with the entries of the results for a gemm routine that computes its
    formula; C64_exact_sums shows that f32 and f64 meet the condition on the scalars. *)
Theorem C65_products : forall (T : Type) (SC : HScalar T) (G : Type) (random_scalar : G -> T * G)
    kern m (h : @heap T) g d n1 n2,
  fst d * snd d * Npos ssize <= isize_max -> fst d * Npos ssize <= isize_max ->
  n1 * Npos ssize <= isize_max -> n2 * Npos ssize <= isize_max ->
  let g1 := later random_scalar (N.to_nat (fst d * snd d)) g in
  let g2 := later random_scalar (N.to_nat n1) g1 in
  (n1 = snd d /\ n2 = fst d -> exists h' r1 r2,
     doc_products random_scalar kern m h g d n1 n2 = Ok (h', r1, r2) /\
     dim (bm_layout r1) = (fst d, 1) /\ dim (bm_layout r2) = (1, snd d) /\
     base_valid h' r1 /\ base_valid h' r2 /\
     (computes kern -> exact_sums (T := T) ->
      entries_are h' r1 (fun i _ => sum_below (N.to_nat (snd d)) (fun l =>
        smul (drawn_entry random_scalar g d (i, l)) (drawn random_scalar (N.to_nat l) g1))) /\
      entries_are h' r2 (fun _ j => sum_below (N.to_nat (fst d)) (fun l =>
        smul (drawn random_scalar (N.to_nat l) g2) (drawn_entry random_scalar g d (l, j)))))) /\
  (~ (n1 = snd d /\ n2 = fst d) -> doc_products random_scalar kern m h g d n1 n2 = Panic).
Proof. exact (fun T SC G => @c65_products T SC G (fun _ _ => true)). Qed.
Print Assumptions C65_products.

(** examples.rs:109-114. Empty blocks are excluded (C20). *)
Theorem C65_block : forall (T : Type) (SC : HScalar T) (G : Type) eqb (random_scalar : G -> T * G) m (h : @heap T) g D tl d p,
  fst D * snd D * Npos ssize <= isize_max -> nonempty d ->
  fst tl + fst d < usize_mod -> snd tl + snd d < usize_mod ->
  let e := drawn_entry random_scalar g D (shift tl p) in
  runs_iff (doc_block eqb random_scalar m h g D tl d p) (inside D tl d /\ in_range d p /\ eqb e e = true).
Proof. exact @c65_block. Qed.
Print Assumptions C65_block.

(** examples.rs:122-138: "all 4 matrices are independently accessible". *)
Theorem C65_split : forall (T : Type) (SC : HScalar T) (G : Type) eqb (random_scalar : G -> T * G) m (h : @heap T) g D s
    p1 p2 p3 p4 v1 v2 v3 v4,
  fst D * snd D * Npos ssize <= isize_max -> interior D s ->
  runs_iff (doc_split eqb random_scalar m h g D s p1 p2 p3 p4 v1 v2 v3 v4)
    ((in_range (quarter_dim D s Q0) p1 /\ in_range (quarter_dim D s Q1) p2 /\
      in_range (quarter_dim D s Q2) p3 /\ in_range (quarter_dim D s Q3) p4) /\
     eqb v1 v1 = true /\ eqb v2 v2 = true /\ eqb v3 v3 = true /\ eqb v4 v4 = true).
Proof. exact @c65_split. Qed.
Print Assumptions C65_split.

(** For f32 and f64 the conditions [eqb x x = true] say that [x] is not NaN. *)
Theorem C65_equality :
  (forall x : real32, feqb 24 128 x x = true <-> bits x <> S754_nan) /\
  (forall x : real64, feqb 53 1024 x x = true <-> bits x <> S754_nan).
Proof. exact (conj (feqb_self 24 128) (feqb_self 53 1024)). Qed.
Print Assumptions C65_equality.

(** The code blocks with the numbers of the documentation, in f64; a generator of the
    numbers 1/8, 2/8, ... *)
Definition eighths (g : Z) : real64 * Z := (d64 g (-3), g + 1)%Z.
Definition eq64 : real64 -> real64 -> bool := feqb 53 1024.

Example C65_example :
  (5 * 3 * Npos (@ssize real64 _) <= isize_max /\ interior (10, 10) (5, 5) /\ nonempty (3, 5) /\ inside (10, 10) (2, 2) (3, 5)) /\
  forall m,
  doc_access eq64 m [] (3, 5) (2, 3) (d64 4 0) = Ok tt /\
  doc_write m ([] : @heap real64) (3, 5) (3, 5) (d64 4 0) = Panic /\
  doc_read m ([] : @heap real64) (3, 5) (3, 5) = Panic /\
  doc_unchecked eq64 m [] (3, 5) (2, 3) (d64 4 0) = Ok tt /\
  doc_sum eq64 eighths m [] 1%Z (3, 5) (3, 5) (d64 3 0) (2, 4) = Ok tt /\
  returns (doc_products eighths ordered_kernel m [] 1%Z (3, 5) 5 3) /\
  doc_block eq64 eighths m [] 1%Z (10, 10) (2, 2) (3, 5) (2, 4) = Ok tt /\
  doc_split eq64 eighths m [] 1%Z (10, 10) (5, 5) (1, 0) (3, 4) (2, 1) (4, 2) (d64 2 0) (d64 3 0) (d64 4 0) (d64 5 0) = Ok tt.
Proof.
  split; [repeat split; discriminate|].
  intros []; repeat split; try (vm_compute; reflexivity); eexists; vm_compute; reflexivity.
Qed.

(** The positions must be in range for unchecked access: (0, 15) is beyond the end of a
    3 x 5 matrix, (1, 7) outside of its dimensions but a cell of the matrix. And the numbers
    must not be NaN: infinity times 0. *)
Theorem C65_conditions_needed : forall m,
  doc_unchecked eq64 m [] (3, 5) (0, 15) (d64 4 0) = UB /\
  doc_unchecked eq64 m [] (3, 5) (1, 7) (d64 4 0) = Ok tt /\
  doc_sum eq64 eighths m [] 0%Z (1, 1) (1, 1) (d64 1 1024) (0, 0) = Panic.
Proof. intros []; vm_compute; auto. Qed.
Print Assumptions C65_conditions_needed.
