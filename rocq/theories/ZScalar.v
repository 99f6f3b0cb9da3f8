(** * The integers as scalars, for the concrete examples. *)

From Verif Require Import Machine Memory.

#[export] Instance ZScalar : HScalar Z :=
  {| szero := 0%Z; sone := 1%Z; sadd := Z.add; smul := Z.mul; ssize := 8%positive |}.

(** [n] consecutive integers from [z] on. *)
Fixpoint zlist (n : nat) (z : Z) : list Z :=
  match n with O => [] | S n' => z :: zlist n' (z + 1) end.
