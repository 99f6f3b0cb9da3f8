(** * Documentation: the code blocks of the documentation (/repo/src/examples.rs).

    Each block runs there with fixed sizes, positions and numbers. Here these are
    arguments; [eqb] is the [==] of the scalar type and [random_scalar] the generator
    behind [rand_mat!]. Blocks that only create a matrix (examples.rs:8-35) are the macros
    themselves. *)

From Verif Require Import Machine Layouts Memory Matrix MatMul ExprSpec ProductSpec.
Local Open Scope N_scope.

Section Documentation.
Context {T : Type} {SC : HScalar T} {G : Type}.
Notation heap := (@heap T).
Variable eqb : T -> T -> bool.
Variable random_scalar : G -> T * G.

(** [assert_eq!(x, y)]. *)
Definition assert_eq (x y : T) : outcome unit := assert_ (eqb x y).

(** Write and read an entry: examples.rs:47-52; the first of the two codes that "will
    produce an exception" is its beginning: examples.rs:57-61. *)
Definition doc_write (m : mode) (h : heap) (d p : N * N) (v : T) : outcome (heap * base_matrix) :=
  '(h, mat) <- mat_macro m h ByRow d ;;
  h <- set m h (MBase mat) (fst p) (snd p) v ;;
  Ok (h, mat).
Definition doc_access (m : mode) (h : heap) (d p : N * N) (v : T) : outcome unit :=
  '(h, mat) <- doc_write m h d p v ;;
  x <- get m h (MBase mat) (fst p) (snd p) ;;
  assert_eq x v.

(** The second, without the printing: examples.rs:63-67. *)
Definition doc_read (m : mode) (h : heap) (d p : N * N) : outcome T :=
  '(h, mat) <- mat_macro m h ByRow d ;;
  get m h (MBase mat) (fst p) (snd p).

(** Unchecked access: examples.rs:70-77. *)
Definition doc_unchecked (m : mode) (h : heap) (d p : N * N) (v : T) : outcome unit :=
  '(h, mat) <- mat_macro m h ByRow d ;;
  e <- get_unchecked_mut m (@MBase T mat) (fst p) (snd p) ;;
  h <- place_write h e v ;;
  x <- get_unchecked m h (MBase mat) (fst p) (snd p) ;;
  assert_eq x v.

(** [(s * &mat1 + &mat2).eval()]: examples.rs:81-87. *)
Definition doc_sum (m : mode) (h : heap) (g : G) (d1 d2 : N * N) (s : T) (p : N * N) : outcome unit :=
  '(h, mat1, g) <- rand_mat_macro m h random_scalar g ByRow d1 ;;
  '(h, mat2, g) <- rand_mat_macro m h random_scalar g ByRow d2 ;;
  e <- plus ByValue ByReference (scalar_times s ByReference (MBase mat1)) (MBase mat2) ;;
  '(h, sum) <- eval m h e ;;
  x <- get m h (MBase sum) (fst p) (snd p) ;;
  y <- get m h (MBase mat1) (fst p) (snd p) ;;
  z <- get m h (MBase mat2) (fst p) (snd p) ;;
  assert_eq x (sadd (smul s y) z).

(** Products with vectors: examples.rs:98-105. *)
Definition doc_products (kern : kernel T) (m : mode) (h : heap) (g : G) (d : N * N) (n1 n2 : N)
    : outcome (heap * base_matrix * base_matrix) :=
  '(h, mat, g) <- rand_mat_macro m h random_scalar g ByRow d ;;
  '(h, col_vec, g) <- rand_vector_macro m h random_scalar g ByColumn n1 ;;
  '(h, row_vec, g) <- rand_vector_macro m h random_scalar g ByRow n2 ;;
  '(h, res1) <- dot MatrixColumn kern m h mat col_vec ;;
  '(h, res2) <- dot RowMatrix kern m h row_vec mat ;;
  Ok (h, res1, res2).

(** A block: examples.rs:109-114. *)
Definition doc_block (m : mode) (h : heap) (g : G) (D tl d p : N * N) : outcome unit :=
  '(h, mat, g) <- rand_mat_macro m h random_scalar g ByRow D ;;
  b <- block m false mat tl d ;;
  x <- get m h (MBase b) (fst p) (snd p) ;;
  y <- get m h (MBase mat) (fst tl + fst p) (snd tl + snd p) ;;
  assert_eq x y.

(** Four mutable blocks: examples.rs:122-134. *)
Definition doc_split (m : mode) (h : heap) (g : G) (D s p1 p2 p3 p4 : N * N) (v1 v2 v3 v4 : T) : outcome unit :=
  '(h, mat, g) <- rand_mat_macro m h random_scalar g ByRow D ;;
  '(m1, m2, m3, m4) <- split_in_four_mut m mat s ;;
  h <- set m h (MBase m1) (fst p1) (snd p1) v1 ;;
  h <- set m h (MBase m2) (fst p2) (snd p2) v2 ;;
  h <- set m h (MBase m3) (fst p3) (snd p3) v3 ;;
  h <- set m h (MBase m4) (fst p4) (snd p4) v4 ;;
  x1 <- get m h (MBase mat) (fst p1) (snd p1) ;; _ <- assert_eq x1 v1 ;;
  x2 <- get m h (MBase mat) (fst p2) (snd s + snd p2) ;; _ <- assert_eq x2 v2 ;;
  x3 <- get m h (MBase mat) (fst s + fst p3) (snd p3) ;; _ <- assert_eq x3 v3 ;;
  x4 <- get m h (MBase mat) (fst s + fst p4) (snd s + snd p4) ;; assert_eq x4 v4.
End Documentation.

(** ** Specification *)

(** The code runs to its end if [P] and panics otherwise: no undefined behaviour. *)
Definition runs_iff {A : Type} (o : outcome A) (P : Prop) : Prop :=
  (P -> exists a, o = Ok a) /\ (~ P -> o = Panic).

(** Sample number [i] of a generator, from the state [g]; and the state after [n]. *)
Fixpoint drawn {R G : Type} (sample : G -> R * G) (i : nat) (g : G) : R :=
  match i with O => fst (sample g) | S i' => drawn sample i' (snd (sample g)) end.
Fixpoint later {R G : Type} (sample : G -> R * G) (n : nat) (g : G) : G :=
  match n with O => g | S n' => later sample n' (snd (sample g)) end.

(** Entry [p] of a matrix of dimension [d] filled row by row. *)
Definition drawn_entry {R G : Type} (sample : G -> R * G) (g : G) (d p : N * N) : R :=
  drawn sample (N.to_nat (fst p * snd d + snd p)) g.
