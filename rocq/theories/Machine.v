(** * Machine: usize arithmetic, panics and undefined behaviour.

    Models the semantic ground that the Rust code stands on:
    - [IndexType = usize] (/repo/src/types.rs:17-19), taken as a 64 bit word;
    - the two build profiles: with overflow checks (debug) an arithmetic
      overflow panics, without them (release) it wraps modulo 2^64;
    - a panic and undefined behaviour are explicit values of [outcome]. *)

From Coq Require Export NArith ZArith List Lia Bool.
Export ListNotations.
Local Open Scope N_scope.

(** Build profile: [Checked] = overflow-checks on, [Wrapping] = off. *)
Inductive mode := Checked | Wrapping.

(** Result of running a piece of Rust code: a value, a panic, or undefined
    behaviour (an access, or a slice or pointer construction, outside of the
    memory the pointer was derived from). *)
Inductive outcome (A : Type) : Type :=
| Ok (a : A)
| Panic
| UB.
Arguments Ok {A} a.
Arguments Panic {A}.
Arguments UB {A}.

(** Sequencing: Rust's [a; b] where a panic or UB ends the computation. *)
Definition bind {A B : Type} (x : outcome A) (f : A -> outcome B) : outcome B :=
  match x with
  | Ok a => f a
  | Panic => Panic
  | UB => UB
  end.

Declare Scope rust_scope.
Delimit Scope rust_scope with rust.
Notation "x <- e ;; k" := (bind e (fun x => k))
  (at level 61, e at next level, right associativity) : rust_scope.
Notation "' p <- e ;; k" := (bind e (fun p => k))
  (at level 61, p pattern, e at next level, right associativity) : rust_scope.
Open Scope rust_scope.

(** [assert!(b)]: Rust core; used all over /repo/src. *)
Definition assert_ (b : bool) : outcome unit := if b then Ok tt else Panic.

(** Number of values of [usize] on a 64 bit target. *)
Definition usize_mod : N := 2 ^ 64.

(** [isize::MAX] on a 64 bit target. *)
Definition isize_max : N := 2 ^ 63 - 1.

(** [x] is a value of type [usize]. *)
Definition is_usize (x : N) : Prop := x < usize_mod.

(** What an overflowing operation yields in the two profiles. *)
Definition overflow (m : mode) (wrapped : N) : outcome N :=
  match m with Checked => Panic | Wrapping => Ok wrapped end.

(** [a + b] on usize. *)
Definition uadd (m : mode) (a b : N) : outcome N :=
  if a + b <? usize_mod then Ok (a + b) else overflow m ((a + b) mod usize_mod).

(** [a - b] on usize. *)
Definition usub (m : mode) (a b : N) : outcome N :=
  if b <=? a then Ok (a - b) else overflow m ((usize_mod + a - b) mod usize_mod).

(** [a * b] on usize. *)
Definition umul (m : mode) (a b : N) : outcome N :=
  if a * b <? usize_mod then Ok (a * b) else overflow m ((a * b) mod usize_mod).

(** [a / b] on usize: division by zero panics in every profile. *)
Definition udiv (a b : N) : outcome N := if b =? 0 then Panic else Ok (a / b).

(** [a % b] on usize. *)
Definition urem (a b : N) : outcome N := if b =? 0 then Panic else Ok (a mod b).

(** [x as isize]: two's complement reinterpretation. *)
Definition as_isize (x : N) : Z :=
  if x <=? isize_max then Z.of_N x else (Z.of_N x - Z.of_N usize_mod)%Z.

(** [for index in start..start+n { body }] with the loop state threaded
    explicitly; a panic or UB in the body ends the loop. *)
Fixpoint loop {S : Type} (n : nat) (i : N) (body : N -> S -> outcome S) (s : S) : outcome S :=
  match n with
  | O => Ok s
  | Datatypes.S n' => s' <- body i s ;; loop n' (i + 1) body s'
  end.

(** [for index in 0..n { body }]. *)
Definition for_range {S : Type} (n : N) (body : N -> S -> outcome S) (s : S) : outcome S :=
  loop (N.to_nat n) 0 body s.
