(** * ExprSpec: the vocabulary of the properties about expressions and traversals. *)

From Verif Require Import Machine Layouts Memory Matrix Spec MatrixSpec.
Local Open Scope N_scope.

(** ** Expressions as a user writes them *)

(** How an operand is passed: [a] or [&a]. *)
Inductive passed := ByValue | ByReference.

(** [a + b], [s * a], [a * s] over matrices, each operand by value or by
    reference. *)
Inductive expr (T : Type) :=
| Leaf (b : base_matrix)
| Plus (p : passed) (e : expr T) (q : passed) (f : expr T)
| ScalarTimes (s : T) (p : passed) (e : expr T)
| TimesScalar (p : passed) (e : expr T) (s : T).
Arguments Leaf {T} b.
Arguments Plus {T} p e q f.
Arguments ScalarTimes {T} s p e.
Arguments TimesScalar {T} p e s.

Section ExprSpec.
Context {T : Type} {SC : HScalar T}.
Notation heap := (@heap T).

(** The operator of the library each of these is. *)
Definition plus (p q : passed) (x y : matrix T) : outcome (matrix T) :=
  match p, q with
  | ByValue, ByValue => add_mat_mat x y
  | ByValue, ByReference => add_mat_ref x y
  | ByReference, ByValue => add_ref_mat x y
  | ByReference, ByReference => add_ref_ref x y
  end.
Definition scalar_times (s : T) (p : passed) (x : matrix T) : matrix T :=
  match p with ByValue => mul_scalar_mat s x | ByReference => mul_scalar_ref s x end.
Definition times_scalar (p : passed) (x : matrix T) (s : T) : matrix T :=
  match p with ByValue => mul_mat_scalar x s | ByReference => mul_ref_scalar x s end.

(** The object the library builds for an expression; it does not look at the
    memory, so it neither reads nor writes an entry. *)
Fixpoint build (e : expr T) : outcome (matrix T) :=
  match e with
  | Leaf b => Ok (MBase b)
  | Plus p e q f => x <- build e ;; y <- build f ;; plus p q x y
  | ScalarTimes s p e => x <- build e ;; Ok (scalar_times s p x)
  | TimesScalar p e s => x <- build e ;; Ok (times_scalar p x s)
  end.

(** The algebraic expression. The product of a matrix and a scalar is computed
    as scalar times entry, whichever way round it is written. *)
Fixpoint denote (entry : base_matrix -> N * N -> option T) (e : expr T) (p : N * N) : option T :=
  match e with
  | Leaf b => entry b p
  | Plus _ e _ f =>
      match denote entry e p, denote entry f p with
      | Some v, Some w => Some (sadd v w)
      | _, _ => None
      end
  | ScalarTimes s _ e | TimesScalar _ e s =>
      match denote entry e p with Some v => Some (smul s v) | None => None end
  end.

(** The base matrices in an expression. *)
Fixpoint leaves (e : expr T) : list base_matrix :=
  match e with
  | Leaf b => [b]
  | Plus _ e _ f => leaves e ++ leaves f
  | ScalarTimes _ _ e | TimesScalar _ e _ => leaves e
  end.

Definition all_leaves (P : base_matrix -> Prop) (e : expr T) : Prop := Forall P (leaves e).

(** A sound leaf of dimension [d]; by typing, all leaves of an expression have
    the same traversal order [k]. *)
Definition leaf_ok (h : heap) (d : N * N) (k : base_kind) (b : base_matrix) : Prop :=
  base_valid h b /\ dim (bm_layout b) = d /\ index_kind (bm_layout b) = k.

(** Two expressions that differ only in their leaves, and the leaves are related
    by [R]. *)
Fixpoint same_shape (R : base_matrix -> base_matrix -> Prop) (e f : expr T) : Prop :=
  match e, f with
  | Leaf b, Leaf c => R b c
  | Plus _ e1 _ e2, Plus _ f1 _ f2 => same_shape R e1 f1 /\ same_shape R e2 f2
  | ScalarTimes s _ e, ScalarTimes t _ f => s = t /\ same_shape R e f
  | TimesScalar _ e s, TimesScalar _ f t => s = t /\ same_shape R e f
  | _, _ => False
  end.

(** The same dimension, traversal order and entries in memory (maybe of
    different heaps). *)
Definition same_matrix (h : heap) (b : base_matrix) (h' : heap) (b' : base_matrix) : Prop :=
  dim (bm_layout b) = dim (bm_layout b') /\
  index_kind (bm_layout b) = index_kind (bm_layout b') /\
  forall p, stored (bm_layout b) p -> base_entry h b p = base_entry h' b' p.

(** ** Traversals *)

(** [vs] are the entries of [b] in the order of their 1d numbers. *)
Definition lists_entries (h : heap) (b : base_matrix) (vs : list T) : Prop :=
  N.of_nat (length vs) = entry_count (bm_layout b) /\
  forall p, stored (bm_layout b) p ->
    nth_error vs (N.to_nat (number (bm_layout b) p)) = base_entry h b p.

(** Calling a closure on the items of a list one after the other, until it
    panics: the final state, the new items, and whether it panicked. *)
Fixpoint visit {St : Type} (f : St -> T -> St * T * bool) (s : St) (vs : list T) : St * list T * bool :=
  match vs with
  | [] => (s, [], false)
  | v :: vs' =>
      let '(s', v', panicked) := f s v in
      if panicked : bool then (s', v' :: vs', true)
      else let '(s'', ws, p) := visit f s' vs' in (s'', v' :: ws, p)
  end.

(** [qs] are the cells of the entries of [b] in the order of their 1d numbers. *)
Definition lists_cells (b : base_matrix) (qs : list (nat * N)) : Prop :=
  N.of_nat (length qs) = entry_count (bm_layout b) /\
  forall p, stored (bm_layout b) p ->
    nth_error qs (N.to_nat (number (bm_layout b) p)) = Some (entry_cell b p).

(** Calling a closure on the content of cells one after the other, storing what
    it leaves; cells may occur repeatedly. [None] if a cell does not exist. *)
Fixpoint visit_cells {St : Type} (f : St -> T -> St * T * bool) (h : heap) (s : St)
    (qs : list (nat * N)) : option (heap * St * bool) :=
  match qs with
  | [] => Some (h, s, false)
  | (a, i) :: qs' =>
      match hget h a i with
      | None => None
      | Some v =>
          let '(s', v', panicked) := f s v in
          if panicked : bool then Some (hset h a i v', s', true)
          else visit_cells f (hset h a i v') s' qs'
      end
  end.

End ExprSpec.

(** [n] successive samples of a generator. *)
Fixpoint samples {R G : Type} (sample : G -> R * G) (n : nat) (g : G) : list R * G :=
  match n with
  | O => ([], g)
  | S n' =>
      let '(x, g1) := sample g in
      let '(xs, g2) := samples sample n' g1 in (x :: xs, g2)
  end.
