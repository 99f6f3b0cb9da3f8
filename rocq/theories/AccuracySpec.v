(** * AccuracySpec: how far floating point results are from the exact ones.

    Exact numbers are pairs of real numbers, the real and the imaginary part. *)

From Coq Require Import Reals List ZArith Floats.SpecFloat.
From Verif Require Import Machine Layouts Memory Matrix MatMul Floats Spec MatrixSpec ExprSpec ProductSpec AlgebraSpec.
Import ListNotations.
Local Open Scope R_scope.

(** ** Exact numbers *)

Definition number : Type := R * R.
Definition n_zero : number := (0, 0).
Definition n_one : number := (1, 0).
Definition n_add (x y : number) : number := (fst x + fst y, snd x + snd y).
Definition n_sub (x y : number) : number := (fst x - fst y, snd x - snd y).
Definition n_mul (x y : number) : number :=
  (fst x * fst y - snd x * snd y, fst x * snd y + snd x * fst y).
Definition size (x : number) : R := Rabs (fst x) + Rabs (snd x).
Definition distance (x y : number) : R := size (n_sub x y).

Fixpoint n_sum (n : nat) (f : N -> number) : number :=
  match n with O => n_zero | S n' => n_add (n_sum n' f) (f (N.of_nat n')) end.
Fixpoint r_sum (n : nat) (f : N -> R) : R :=
  match n with O => 0 | S n' => r_sum n' f + f (N.of_nat n') end.

(** ** Floating point numbers *)

(** The value of a float, and whether it has one. *)
Definition real_of (x : spec_float) : R :=
  match x with
  | S754_finite s m e => (if s then - IZR (Zpos m) else IZR (Zpos m)) * powerRZ 2 e
  | _ => 0
  end.
Definition is_number (x : spec_float) : Prop :=
  match x with S754_zero _ | S754_finite _ _ _ => True | _ => False end.

(** IEEE 754: numbers of this size and above overflow when they are rounded. *)
Definition overflow (prec emax : Z) : R := powerRZ 2 emax - powerRZ 2 (emax - prec - 1).

(** A finite float nearest to [r]. *)
Definition nearest {prec emax : Z} (v : float prec emax) (r : R) : Prop :=
  is_number (bits v) /\ Rabs r <= overflow prec emax /\
  forall w : float prec emax, is_number (bits w) ->
    Rabs (real_of (bits v) - r) <= Rabs (real_of (bits w) - r).

(** The fused multiply-add of a processor: [x * y + z] rounded once. *)
Definition fused_multiply_add {prec emax : Z} (x y z v : float prec emax) : Prop :=
  let r := real_of (bits x) * real_of (bits y) + real_of (bits z) in
  (is_number (bits v) -> is_number (bits x) /\ is_number (bits y) /\ is_number (bits z) /\ nearest v r) /\
  (is_number (bits x) -> is_number (bits y) -> is_number (bits z) -> Rabs r < overflow prec emax -> is_number (bits v)).

(** What is known of a scalar type: the relative error of one rounding, the absolute error
    where results are smaller than all normal numbers, the roundings in a product, the largest
    number. *)
Class Precision (T : Type) := {
  value : T -> number;
  finite : T -> Prop;
  unit_roundoff : R;
  tiny : R;
  roundings : nat;
  largest : R
}.

(** f32 and f64: 24 and 53 digits, the smallest numbers 2^-149 and 2^-1074, the largest
    just below 2^128 and 2^1024. *)
#[export] Instance precision_f32 : Precision real32 := {|
  value x := (real_of (bits x), 0); finite x := is_number (bits x);
  unit_roundoff := powerRZ 2 (-24); tiny := powerRZ 2 (-150); roundings := 1;
  largest := powerRZ 2 128 - powerRZ 2 (128 - 24) |}.
#[export] Instance precision_f64 : Precision real64 := {|
  value x := (real_of (bits x), 0); finite x := is_number (bits x);
  unit_roundoff := powerRZ 2 (-53); tiny := powerRZ 2 (-1075); roundings := 1;
  largest := powerRZ 2 1024 - powerRZ 2 (1024 - 53) |}.

(** c32 and c64: a product is four real products and two sums. *)
#[export] Instance precision_c32 : Precision complex32 := {|
  value z := (real_of (bits (re z)), real_of (bits (im z)));
  finite z := is_number (bits (re z)) /\ is_number (bits (im z));
  unit_roundoff := powerRZ 2 (-24); tiny := 4 * powerRZ 2 (-150); roundings := 2;
  largest := powerRZ 2 128 - powerRZ 2 (128 - 24) |}.
#[export] Instance precision_c64 : Precision complex64 := {|
  value z := (real_of (bits (re z)), real_of (bits (im z)));
  finite z := is_number (bits (re z)) /\ is_number (bits (im z));
  unit_roundoff := powerRZ 2 (-53); tiny := 4 * powerRZ 2 (-1075); roundings := 2;
  largest := powerRZ 2 1024 - powerRZ 2 (1024 - 53) |}.

Section AccuracySpec.
Context {T : Type} {SC : HScalar T} {P : Precision T}.
Notation heap := (@heap T).

Definition magnitude (x : T) : R := size (value x).
Definition growth (n : nat) : R := (1 + unit_roundoff) ^ n.

(** The arithmetic of [T] rounds: a finite sum or product has finite operands and these
    errors. *)
Definition rounds : Prop :=
  0 <= unit_roundoff /\ 0 <= tiny /\
  finite szero /\ value szero = n_zero /\ finite sone /\ value sone = n_one /\
  (forall x y, finite (sadd x y) -> finite x /\ finite y /\
     distance (value (sadd x y)) (n_add (value x) (value y)) <= unit_roundoff * size (n_add (value x) (value y))) /\
  (forall x y, finite (smul x y) -> finite x /\ finite y /\
     distance (value (smul x y)) (n_mul (value x) (value y)) <=
     growth roundings * (magnitude x * magnitude y + tiny) - magnitude x * magnitude y).

(** Sums and products of finite numbers that stay in the range are finite. *)
Definition stays_finite : Prop :=
  (forall x y, finite x -> finite y -> (1 + unit_roundoff) * (magnitude x + magnitude y) <= largest ->
     finite (sadd x y)) /\
  (forall x y, finite x -> finite y -> growth roundings * (magnitude x * magnitude y + tiny) <= largest ->
     finite (smul x y)).

(** A fused operation: [v] is [x * y + z], rounded no worse than a product. *)
Definition fused (x y z v : T) : Prop :=
  (finite v -> finite x /\ finite y /\ finite z /\
    distance (value v) (n_add (n_mul (value x) (value y)) (value z)) <=
    growth roundings * (magnitude x * magnitude y + magnitude z + tiny)
      - (magnitude x * magnitude y + magnitude z)) /\
  (finite x -> finite y -> finite z ->
    growth roundings * (magnitude x * magnitude y + magnitude z + tiny) <= largest -> finite v).

(** ** Formulas: any order of operations *)

Inductive formula :=
| Given (x : T)
| FPlus (f g : formula)
| FTimes (f g : formula)
| FFused (f g k : formula).

(** Computing a formula with the arithmetic of [T]. *)
Inductive computed : formula -> T -> Prop :=
| c_given x : computed (Given x) x
| c_plus f g x y : computed f x -> computed g y -> computed (FPlus f g) (sadd x y)
| c_times f g x y : computed f x -> computed g y -> computed (FTimes f g) (smul x y)
| c_fused f g k x y z v : computed f x -> computed g y -> computed k z ->
    fused x y z v -> computed (FFused f g k) v.

(** Its exact value; the same with all signs removed; that with the underflows added; the
    number of roundings on top of each other. *)
Fixpoint exact (f : formula) : number :=
  match f with
  | Given x => value x
  | FPlus f g => n_add (exact f) (exact g)
  | FTimes f g => n_mul (exact f) (exact g)
  | FFused f g k => n_add (n_mul (exact f) (exact g)) (exact k)
  end.
Fixpoint unsigned (t : R) (f : formula) : R :=
  match f with
  | Given x => magnitude x
  | FPlus f g => unsigned t f + unsigned t g
  | FTimes f g => unsigned t f * unsigned t g + t
  | FFused f g k => unsigned t f * unsigned t g + unsigned t k + t
  end.
Fixpoint levels (f : formula) : nat :=
  match f with
  | Given _ => 0
  | FPlus f g => S (Nat.max (levels f) (levels g))
  | FTimes f g => roundings + (levels f + levels g)
  | FFused f g k => roundings + Nat.max (levels f + levels g) (levels k)
  end.
Fixpoint occurs (x : T) (f : formula) : Prop :=
  match f with
  | Given y => x = y
  | FPlus f g | FTimes f g => occurs x f \/ occurs x g
  | FFused f g k => occurs x f \/ occurs x g \/ occurs x k
  end.

(** No intermediate result comes near the end of the range. *)
Fixpoint fits (f : formula) : Prop :=
  match f with
  | Given x => finite x
  | FPlus g k | FTimes g k => fits g /\ fits k /\ growth (levels f) * unsigned tiny f <= largest
  | FFused g k q => fits g /\ fits k /\ fits q /\ growth (levels f) * unsigned tiny f <= largest
  end.

(** ** Products *)

(** [alpha (a1 b1 + a2 b2 + ...) + beta c]: exact, without signs, and with an underflow in
    each product, also where [alpha] is multiplied to parts of the sum. *)
Definition pairs_exact (pairs : list (T * T)) : number :=
  fold_right (fun p s => n_add (n_mul (value (fst p)) (value (snd p))) s) n_zero pairs.
Definition pairs_unsigned (t : R) (pairs : list (T * T)) : R :=
  fold_right (fun p s => magnitude (fst p) * magnitude (snd p) + t + s) 0 pairs.
Definition entry_exact (alpha : T) (pairs : list (T * T)) (beta old : T) : number :=
  n_add (n_mul (value alpha) (pairs_exact pairs)) (n_mul (value beta) (value old)).
Definition entry_unsigned (t : R) (alpha : T) (pairs : list (T * T)) (beta old : T) : R :=
  magnitude alpha * pairs_unsigned t pairs + INR (length pairs) * t + t + (magnitude beta * magnitude old + t).

(** A gemm routine whose results, as far as they are finite, have such an error with
    [levels_of k] roundings for [k] products. *)
Definition accurate (kern : kernel T) (levels_of : nat -> nat) : Prop :=
  forall sh i j alpha pairs beta old,
  let v := kern sh i j alpha pairs beta old in
  finite v ->
  (value alpha <> n_zero -> forall p, In p pairs -> finite (fst p) /\ finite (snd p)) /\
  (value beta <> n_zero -> finite old) /\
  distance (value v) (entry_exact alpha pairs beta old) <=
    growth (levels_of (length pairs)) * entry_unsigned tiny alpha pairs beta old
      - entry_unsigned 0 alpha pairs beta old.

(** A gemm routine that computes some formula for each entry: any order, any blocking, with
    or without fused operations; where alpha or beta is zero it may leave out operands. *)
Definition computes_formulas (kern : kernel T) (levels_of : nat -> nat) : Prop :=
  forall sh i j alpha pairs beta old, exists f,
    computed f (kern sh i j alpha pairs beta old) /\
    exact f = entry_exact alpha pairs beta old /\
    unsigned 0 f = entry_unsigned 0 alpha pairs beta old /\
    unsigned tiny f <= entry_unsigned tiny alpha pairs beta old /\
    (levels f <= levels_of (length pairs))%nat /\
    (value alpha <> n_zero -> forall p, In p pairs -> occurs (fst p) f /\ occurs (snd p) f) /\
    (value beta <> n_zero -> occurs old f).

(** Routines like those of the crate matrixmultiply: with fused operations; one that cuts the
    sum into blocks and adds them to the result one after the other; one that sums in another
    order. *)
Definition fused_kernel (fma : T -> T -> T -> T) : kernel T := fun _ _ _ alpha pairs beta old =>
  fma alpha (fold_left (fun acc p => fma (fst p) (snd p) acc) pairs szero) (smul beta old).
Definition blocked_kernel (cut : list (T * T) -> list (list (T * T))) : kernel T := fun _ _ _ alpha pairs beta old =>
  fold_left (fun c block =>
    sadd c (smul alpha (fold_left (fun acc p => sadd acc (smul (fst p) (snd p))) block szero)))
    (cut pairs) (smul beta old).
Definition permuted (perm : list (T * T) -> list (T * T)) (kern : kernel T) : kernel T :=
  fun sh i j alpha pairs beta old => kern sh i j alpha (perm pairs) beta old.
Definition cuts (cut : list (T * T) -> list (list (T * T))) : Prop :=
  forall pairs, concat (cut pairs) = pairs /\ Forall (fun block => block <> []) (cut pairs).

(** A gemm routine that does not overflow where the sum of the products and the result, all
    without signs, are in the range. *)
Definition safe (kern : kernel T) (levels_of : nat -> nat) : Prop :=
  forall sh i j alpha pairs beta old,
  finite alpha -> (forall p, In p pairs -> finite (fst p) /\ finite (snd p)) -> finite beta -> finite old ->
  growth (levels_of (length pairs)) * pairs_unsigned tiny pairs <= largest ->
  growth (levels_of (length pairs)) * entry_unsigned tiny alpha pairs beta old <= largest ->
  finite (kern sh i j alpha pairs beta old).

(** ** Computations *)

(** The entries of a computation: exact, without signs, with underflows; and the number of
    roundings on top of each other. *)
Fixpoint term_exact (F : base_matrix -> N -> N -> T) (t : term T) (i j : N) : number :=
  match t with
  | Var b => value (F b i j)
  | Dot _ t u =>
      n_sum (N.to_nat (snd (term_dim t))) (fun l => n_mul (term_exact F t i l) (term_exact F u l j))
  | Evaluated z => lazy_exact F z i j
  end
with lazy_exact (F : base_matrix -> N -> N -> T) (z : lazy T) (i j : N) : number :=
  match z with
  | Use t => term_exact F t i j
  | Sum _ z _ w => n_add (lazy_exact F z i j) (lazy_exact F w i j)
  | Scaled s _ z => n_mul (value s) (lazy_exact F z i j)
  end.

Fixpoint term_unsigned (x : R) (F : base_matrix -> N -> N -> T) (t : term T) (i j : N) : R :=
  match t with
  | Var b => magnitude (F b i j)
  | Dot _ t u =>
      r_sum (N.to_nat (snd (term_dim t))) (fun l => term_unsigned x F t i l * term_unsigned x F u l j + 2 * x) + 2 * x
  | Evaluated z => lazy_unsigned x F z i j
  end
with lazy_unsigned (x : R) (F : base_matrix -> N -> N -> T) (z : lazy T) (i j : N) : R :=
  match z with
  | Use t => term_unsigned x F t i j
  | Sum _ z _ w => lazy_unsigned x F z i j + lazy_unsigned x F w i j
  | Scaled s _ z => magnitude s * lazy_unsigned x F z i j + x
  end.

Fixpoint term_levels (levels_of : nat -> nat) (t : term T) : nat :=
  match t with
  | Var _ => 0
  | Dot _ t u =>
      levels_of (N.to_nat (snd (term_dim t))) + (term_levels levels_of t + term_levels levels_of u)
  | Evaluated z => lazy_levels levels_of z
  end
with lazy_levels (levels_of : nat -> nat) (z : lazy T) : nat :=
  match z with
  | Use t => term_levels levels_of t
  | Sum _ z _ w => S (Nat.max (lazy_levels levels_of z) (lazy_levels levels_of w))
  | Scaled _ _ z => roundings + lazy_levels levels_of z
  end.

(** All operands are finite and no intermediate entry comes near the end of the range. *)
Fixpoint term_fits (levels_of : nat -> nat) (F : base_matrix -> N -> N -> T) (t : term T) (i j : N) : Prop :=
  match t with
  | Var b => finite (F b i j)
  | Dot _ t' u =>
      (forall l, (l < snd (term_dim t'))%N -> term_fits levels_of F t' i l /\ term_fits levels_of F u l j) /\
      growth (term_levels levels_of t) * term_unsigned tiny F t i j <= largest
  | Evaluated z => lazy_fits levels_of F z i j
  end
with lazy_fits (levels_of : nat -> nat) (F : base_matrix -> N -> N -> T) (z : lazy T) (i j : N) : Prop :=
  match z with
  | Use t => term_fits levels_of F t i j
  | Sum _ y _ w =>
      lazy_fits levels_of F y i j /\ lazy_fits levels_of F w i j /\
      growth (lazy_levels levels_of z) * lazy_unsigned tiny F z i j <= largest
  | Scaled s _ y =>
      finite s /\ lazy_fits levels_of F y i j /\
      growth (lazy_levels levels_of z) * lazy_unsigned tiny F z i j <= largest
  end.

(** The same for an expression that is not evaluated, read entry by entry. *)
Fixpoint expr_exact (entry : base_matrix -> N * N -> option T) (e : expr T) (p : N * N) : number :=
  match e with
  | Leaf b => match entry b p with Some v => value v | None => n_zero end
  | Plus _ e _ f => n_add (expr_exact entry e p) (expr_exact entry f p)
  | ScalarTimes s _ e | TimesScalar _ e s => n_mul (value s) (expr_exact entry e p)
  end.
Fixpoint expr_unsigned (x : R) (entry : base_matrix -> N * N -> option T) (e : expr T) (p : N * N) : R :=
  match e with
  | Leaf b => match entry b p with Some v => magnitude v | None => 0 end
  | Plus _ e _ f => expr_unsigned x entry e p + expr_unsigned x entry f p
  | ScalarTimes s _ e | TimesScalar _ e s => magnitude s * expr_unsigned x entry e p + x
  end.
Fixpoint expr_levels (e : expr T) : nat :=
  match e with
  | Leaf _ => 0
  | Plus _ e _ f => S (Nat.max (expr_levels e) (expr_levels f))
  | ScalarTimes _ _ e | TimesScalar _ e _ => roundings + expr_levels e
  end.

Fixpoint expr_fits (entry : base_matrix -> N * N -> option T) (e : expr T) (p : N * N) : Prop :=
  match e with
  | Leaf b => forall v, entry b p = Some v -> finite v
  | Plus _ f _ g =>
      expr_fits entry f p /\ expr_fits entry g p /\ growth (expr_levels e) * expr_unsigned tiny entry e p <= largest
  | ScalarTimes s _ f | TimesScalar _ f s =>
      finite s /\ expr_fits entry f p /\ growth (expr_levels e) * expr_unsigned tiny entry e p <= largest
  end.

End AccuracySpec.
