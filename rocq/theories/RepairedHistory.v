(** * RepairedHistory: histories of the library with a truthful [stride].

    Like [Repaired] this file is NOT a model of existing code. It has the machine of
    [Program] with the function [stride] as a parameter of the three calls that use it;
    with [stride] it is the machine of the model (C62_same), with [repaired_stride] the one
    of the library after changing the two functions named in [Repaired]. *)

From Verif Require Import Machine Layouts Memory Matrix MatMul Spec MatrixSpec ExprSpec ProductSpec Program Abstract Repaired.
Local Open Scope N_scope.

Section RepairedHistory.
Context {T : Type} {SC : HScalar T} {St : Type}.
Notation heap := (@heap T).
Variable sd : layout -> outcome (N * N).
Variable kern : kernel T.

(** [dot], matrix_multiply.rs:75-91, 104-118, 138-152; [matmul] is called at :81, :110, :144. *)
Definition dot_with (shape : dot_shape) (m : mode) (h : heap) (a b : base_matrix) : outcome (heap * base_matrix) :=
  '(h1, res) <- (match shape with
                 | MatrixMatrix => zeros_from_dim m h KRowMajor
                 | RowMatrix => row_vector_zeros_from_dim m h
                 | MatrixColumn => column_vector_zeros_from_dim m h
                 end) (fst (dim (bm_layout a))) (snd (dim (bm_layout b))) ;;
  h2 <- matmul_with sd kern h1 sone a b szero res ;;
  Ok (h2, res).

(** [exec], [step] and [run] of [Program]; the same calls are possible. *)
Definition exec_with (m : mode) (st : state T) (o : call T St) : option (outcome (state T * result T St)) :=
  match o with
  | CBlock mut x tl d =>
      typed (lookup_block st mut x) (fun b =>
        when (is_dynamic (base_sizes b)) (typed (block_order (bm_layout b)) (fun _ =>
          Some (new_view st (block_with sd m mut b tl d)))))
  | CMatmul alpha a b beta c =>
      typed (lookup_base st a) (fun a => typed (lookup_base st b) (fun b => typed (lookup_mut st c) (fun c =>
        when (matmul_typed a b c) (Some (done st (matmul_with sd kern (st_heap st) alpha a b beta c))))))
  | CDot shape a b =>
      typed (lookup_base st a) (fun a => typed (lookup_base st b) (fun b =>
        when (dot_typed shape a b) (Some (new1 st (dot_with shape m (st_heap st) a b)))))
  | _ => exec kern m st o
  end.

Definition step_with (m : mode) (st : state T) (o : call T St) : outcome (state T * result T St) :=
  match exec_with m st o with
  | None => Ok (st, RSkipped)
  | Some Panic => Ok (st, RPanicked)
  | Some r => r
  end.

Fixpoint run_with (m : mode) (st : state T) (os : list (call T St)) : outcome (state T * list (result T St)) :=
  match os with
  | [] => Ok (st, [])
  | o :: os' =>
      '(st1, r) <- step_with m st o ;;
      '(st2, rs) <- run_with m st1 os' ;;
      Ok (st2, r :: rs)
  end.

(** The histories of C43 without its conditions on blocks of narrow blocks and on products of
    narrow blocks. *)
Definition in_wider_scope (st : @astate T) (o : call T St) : Prop :=
  match o with
  | CBlock _ _ _ d => nonempty d
  | CMatmul _ a b _ c =>
      forall u v w, awindow_of st a = Some u -> awindow_of st b = Some v -> awindow_of st c = Some w ->
        products_typed u v w = true -> apart u w /\ apart v w
  | CDot _ _ _ => True
  | _ => in_scope st o
  end.

Fixpoint history_in_wider_scope (st : astate) (os : list (call T St)) : Prop :=
  match os with
  | [] => True
  | o :: os' => in_wider_scope st o /\ history_in_wider_scope (fst (astep kern st o)) os'
  end.
End RepairedHistory.
