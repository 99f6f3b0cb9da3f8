(** * TraceSpec: the accesses to memory that a call makes (C69).

    The programs of the calls are those of [Interleave]. *)

From Coq Require Import List.
From Verif Require Import Machine Layouts Memory Matrix MatMul Spec MatrixSpec ExprSpec ProductSpec Program Interleave.
Import ListNotations.
Local Open Scope N_scope.

Section Traces.
Context {T : Type} {SC : HScalar T}.
Notation heap := (@heap T).

(** One access: a load, a store with what is stored, an allocation with its first content. *)
Inductive event :=
| Reads (q : nat * N)
| Writes (q : nat * N) (v : T)
| Allocates (l : list T).

(** The accesses of a program, run without interruption, in their order. *)
Fixpoint trace {A : Type} (c : prog T A) (h : heap) : list event :=
  match c with
  | Stop _ => []
  | Load p k =>
      Reads (pl_alloc p, pl_index p) :: match place_read h p with Ok v => trace (k v) h | _ => [] end
  | Store p v k =>
      Writes (pl_alloc p, pl_index p) v :: match place_write h p v with Ok h' => trace k h' | _ => [] end
  | Alloc l k => Allocates l :: trace (k (snd (alloc h l))) (fst (alloc h l))
  end.

(** How many of each. *)
Definition count (f : event -> bool) (es : list event) : N := N.of_nat (length (filter f es)).
Definition loads : list event -> N := count (fun e => match e with Reads _ => true | _ => false end).
Definition stores : list event -> N := count (fun e => match e with Writes _ _ => true | _ => false end).
Definition allocations : list event -> N := count (fun e => match e with Allocates _ => true | _ => false end).

(** The matrices an expression is made of, from left to right; one that is used twice
    occurs twice. *)
Fixpoint leaves (x : matrix T) : list base_matrix :=
  match x with
  | MBase b => [b]
  | MRef x => leaves x
  | MRefMut x => leaves x
  | MScalarMult x _ => leaves x
  | MAddition x y _ => leaves x ++ leaves y
  end.

(** The loads for one entry of an expression. *)
Definition reads_entry (x : matrix T) (p : N * N) : list event :=
  map (fun b => Reads (entry_cell b p)) (leaves x).

(** All entries of a layout in the order of the 1d index. *)
Definition lists_positions (l : layout) (ps : list (N * N)) : Prop :=
  N.of_nat (length ps) = entry_count l /\
  forall p, stored l p -> nth_error ps (N.to_nat (number l p)) = Some p.

(** The entries of [x] at [ps]. *)
Definition values (h : heap) (x : matrix T) (ps : list (N * N)) (vs : list T) : Prop :=
  Forall2 (fun p v => entry h x p = Some v) ps vs.

(** [x] is copied to [b] entry by entry: the loads for an entry, then its store. *)
Definition copies (x : matrix T) (b : base_matrix) (ps : list (N * N)) (vs : list T) : list event :=
  flat_map (fun pv => reads_entry x (fst pv) ++ [Writes (entry_cell b (fst pv)) (snd pv)]) (combine ps vs).

(** What a closure leaves in the items it is called on, one after the other, the one at which
    it panics included. *)
Fixpoint left_by {S : Type} (f : S -> T -> S * T * bool) (s : S) (vs : list T) : list T :=
  match vs with
  | [] => []
  | v :: vs' => let '(s', v', panicked) := f s v in
                if panicked : bool then [v'] else v' :: left_by f s' vs'
  end.

(** Entry by entry, a load and a store. *)
Definition updates (b : base_matrix) (ps : list (N * N)) (vs : list T) : list event :=
  flat_map (fun pv => [Reads (entry_cell b (fst pv)); Writes (entry_cell b (fst pv)) (snd pv)]) (combine ps vs).

(** An access of a product: a load of an entry of an operand or of the result, or a store to
    an entry of the result. *)
Definition of_product (a b c : base_matrix) (e : event) : Prop :=
  match e with
  | Reads q => (exists p, stored (bm_layout a) p /\ q = entry_cell a p) \/
               (exists p, stored (bm_layout b) p /\ q = entry_cell b p) \/
               (exists p, stored (bm_layout c) p /\ q = entry_cell c p)
  | Writes q _ => exists p, stored (bm_layout c) p /\ q = entry_cell c p
  | Allocates _ => False
  end.

(** The calls that make views and expressions, and those that only ask for sizes. *)
Definition lazy_call {St : Type} (o : call T St) : bool :=
  match o with
  | CFromSlice _ _ _ _ _ _ _ | CFromPointer _ _ _ _ _ | CFromPointerStrided _ _ _ _ _ _
  | CDim _ | CLength _ | CBlock _ _ _ _ | CSplit _ _ | CFromRef _ | CRefMut _
  | CScalarTimes _ _ _ | CTimesScalar _ _ _ | CPlus _ _ _ _ => true
  | _ => false
  end.

(** The calls that make a matrix with memory of its own. *)
Definition owning_call {St : Type} (o : call T St) : bool :=
  match o with
  | CZeros _ _ _ | CZerosFixed _ _ _ | CZerosFixedVector _ _ _ _ | CRowZeros _ | CColumnZeros _
  | CRowZerosDim _ _ | CColumnZerosDim _ _ | CFromVector _ _ _ _ | CFromArray _ _ _ _
  | CEval _ | CDot _ _ _ => true
  | _ => false
  end.

End Traces.
Arguments event T : clear implicits.
