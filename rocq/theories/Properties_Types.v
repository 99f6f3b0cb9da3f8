(** * Property C66: programs that type check; C15, C41: sizes along histories.

    [signature] and [check] (Types.v) see types only: no memory, no dimension, no
    stride, no item. [exec] (Program.v) sees the matrices themselves. *)

From Verif Require Import Machine Layouts Memory Matrix MatMul ExprSpec ProductSpec Program Types TypesProofs.
From Verif Require Import ZScalar Properties_Products.
Local Open Scope N_scope.

(** C66: whether a method exists is a matter of the types of its operands. *)
Theorem C66_methods : forall (T : Type) (SC : HScalar T) (St : Type) kern m (st : state T) (o : call T St),
  exec kern m st o = None <-> signature (types st) o = None.
Proof. exact @exec_none. Qed.
Print Assumptions C66_methods.

(** So two runs of a program that reach matrices of the same types find the same methods. *)
Theorem C66_same_methods : forall (T : Type) (SC : HScalar T) (St : Type) kern kern' m m'
  (st st' : state T) (o : call T St), types st = types st' ->
  exec kern m st o = None <-> exec kern' m' st' o = None.
Proof. exact @same_types_same_methods. Qed.
Print Assumptions C66_same_methods.

(** A call that returns, returns a result of the type of the signature, and the matrices
    of this type are added to the table. *)
Theorem C66_returns : forall (T : Type) (SC : HScalar T) (St : Type) kern m (st : state T) (o : call T St) st' r,
  exec kern m st o = Some (Ok (st', r)) ->
  exists t, signature (types st) o = Some t /\ of_type r t /\ types st' = types st ++ returned t.
Proof. exact @exec_returns. Qed.
Print Assumptions C66_returns.

(** A program that type checks never misses a method, and ends with matrices of the types
    computed before it ran. *)
Theorem C66_programs : forall (T : Type) (SC : HScalar T) (St : Type) kern m (os : list (call T St)) (st : state T) ts st' rs,
  check (types st) os = Some ts -> run kern m st os = Ok (st', rs) -> ~ In RPanicked rs ->
  ~ In RSkipped rs /\ types st' = ts.
Proof. exact @run_typed. Qed.
Print Assumptions C66_programs.

(** And after a panic, caught by the caller, what is missing is what the panicking call
    would have returned: nothing is missing before. *)
Theorem C66_until_panic : forall (T : Type) (SC : HScalar T) (St : Type) kern m (os : list (call T St)) (st : state T) ts st' rs,
  check (types st) os = Some ts -> run kern m st os = Ok (st', rs) ->
  forall before after, rs = before ++ RSkipped :: after -> In RPanicked before.
Proof. exact @run_first. Qed.
Print Assumptions C66_until_panic.

(** Nothing is rejected that would run: a run without missing methods and panics is that
    of a program that type checks. *)
Theorem C66_complete : forall (T : Type) (SC : HScalar T) (St : Type) kern m (os : list (call T St)) (st : state T) st' rs,
  run kern m st os = Ok (st', rs) -> ~ In RPanicked rs -> ~ In RSkipped rs ->
  check (types st) os = Some (types st').
Proof. exact @run_seen. Qed.
Print Assumptions C66_complete.

(** A program with matrices of many types. *)
Definition typed_program (n : N) (top_left : N * N) : list (call Z nat) :=
  [ CZeros KColumnMajor n 3;                         (* 0 *)
    CBlock true 0 top_left (2, 3);                   (* 1 *)
    CSet 1 0 2 5%Z;
    CScalarTimes 2%Z ByReference 1;                  (* 2 *)
    CPlus ByValue ByReference 2 0;                   (* 3 *)
    CRowZeros 3; CLength 4;                          (* 4 *)
    CZerosFixed Fixed2 Fixed3 KRowMajor;             (* 5 *)
    CSliceRead 5 0 6 5;
    CRefMut 1; CSet1d 6 3 7%Z;                       (* 6 *)
    CZeros KRowMajor 3 3; CSplit 7 (1, 2);           (* 7, 8 - 11 *)
    CDot RowMatrix 4 7; CEval 3 ].                   (* 12, 13 *)

Definition typed_program_types : list matrix_type :=
  let stride_mut := TBase TSliceMut TStrideColumnMajor Dynamic Dynamic in
  let quarter := TBase TSliceMut TStrideRowMajor Dynamic Dynamic in
  let columns := TBase TVector TColumnMajor Dynamic Dynamic in
  let row := TBase TVector TRowVector Fixed1 Dynamic in
  [ columns; stride_mut; TScalarMult (TRef stride_mut);
    TAddition TColumnMajor (TScalarMult (TRef stride_mut)) (TRef columns);
    row; TBase (TArray 6) TRowMajor Fixed2 Fixed3; TRefMut stride_mut;
    TBase TVector TRowMajor Dynamic Dynamic; quarter; quarter; quarter; quarter; row; columns ].

(** It type checks whatever the numbers are; whether the sum in it panics depends on them. *)
Example C66_example : (forall n tl, check [] (typed_program n tl) = Some typed_program_types) /\
  (exists st, run ex_kernel Checked initial (typed_program 2 (0, 0)) =
     Ok (st, [RNew; RNew; RDone; RNew; RNew; RNew; RLength 3; RNew; RItem 0%Z; RNew; RDone; RNew; RNew; RNew; RNew]) /\
     types st = typed_program_types) /\
  (exists st, run ex_kernel Checked initial (typed_program 3 (1, 0)) =
     Ok (st, [RNew; RNew; RDone; RNew; RPanicked; RNew; RSkipped; RNew; RSkipped; RNew; RSkipped; RNew; RSkipped;
              RSkipped; RSkipped])).
Proof.
  split; [reflexivity|]. split.
  - eexists. split; [vm_compute; reflexivity | reflexivity].
  - eexists. vm_compute. reflexivity.
Qed.

(** Programs that are rejected: a sum of matrices indexed by rows and by columns, a write
    to a shared view, [length] of a matrix, a block of a vector, a product into a fixed
    size matrix, an array larger than the address space. *)
Example C66_rejected : let table := typed_program_types in
  signature table (CPlus ByValue ByValue 0 7 : call Z nat) = None /\
  signature (table ++ [TBase TSlice TRowMajor Dynamic Dynamic]) (CSet 14 0 0 1%Z : call Z nat) = None /\
  signature table (CLength 0 : call Z nat) = None /\
  signature table (CBlock false 4 (0, 0) (1, 1) : call Z nat) = None /\
  signature table (CMatmul 1%Z 0 7 0%Z 5 : call Z nat) = None /\
  signature table (CFromArray Dynamic Dynamic (2 ^ 62) (RowMajor (1, 1)) : call Z nat) = None.
Proof. vm_compute. repeat split. Qed.

(** C15: at the end of a history every matrix has the dimension its type states, exactly
    if every [from_data] that returned was given a layout of this dimension. *)
Theorem C15_histories_partial : forall (T : Type) (SC : HScalar T) (St : Type) kern m (os : list (call T St)) st' rs,
  run kern m initial os = Ok (st', rs) ->
  Forall truthful (st_mats st') <-> forall o, In (o, RNew) (combine os rs) -> fitting_data o.
Proof. exact @initial_truthful. Qed.
Print Assumptions C15_histories_partial.

(** C41: then [length] of a vector is the number of its entries. *)
Theorem C41_histories_partial : forall (T : Type) (SC : HScalar T) (St : Type) kern m (os : list (call T St)) st' rs,
  run kern m initial os = Ok (st', rs) ->
  (forall o, In (o, RNew) (combine os rs) -> fitting_data o) ->
  forall x n, In x (st_mats st') -> mat_length x = Some n -> mat_dim x = (1, n) \/ mat_dim x = (n, 1).
Proof. exact @vector_lengths. Qed.
Print Assumptions C41_histories_partial.

(** The matrices of fixed size: those with one to three rows and two or three columns, and
    vectors with two or three entries. *)
Theorem C15_instances :
  (forall rs cs k, is_fixed_instance rs cs k = true <->
     (k = KRowMajor \/ k = KColumnMajor) /\ rs <> Dynamic /\ (cs = Fixed2 \/ cs = Fixed3)) /\
  (forall rs cs k n, is_fixed_vector_instance rs cs k n = true <->
     (k = KColumnVector /\ cs = Fixed1 \/ k = KRowVector /\ rs = Fixed1) /\
     (n = 2 \/ n = 3) /\ rs <> Dynamic /\ cs <> Dynamic /\ size_N rs * size_N cs = n).
Proof.
  split.
  - intros rs cs k. destruct rs, cs, k; (split; [intros H; try discriminate H; repeat split; auto; discriminate|
      intros ([H|H] & D & [E|E]); try discriminate; try (now destruct D); reflexivity]).
  - intros rs cs k n. split.
    + intros H. unfold is_fixed_vector_instance in H. apply existsb_exists in H. destruct H as ([[[r c] k'] n'] & I & H). repeat rewrite andb_true_iff in H.
      destruct H as (((H1 & H2) & H3) & H4). apply N.eqb_eq in H4. subst n'.
      repeat (destruct I as [I|I]; [injection I as <- <- <- <-; destruct rs; try discriminate H1; destruct cs; try discriminate H2; destruct k; try discriminate H3;
        repeat split; auto; discriminate|]). destruct I.
    + intros ([[-> ->]|[-> ->]] & [->| ->] & D1 & D2 & E); [destruct rs|destruct rs|destruct cs|destruct cs]; cbn in E; first [discriminate E|now destruct D1|now destruct D2|reflexivity].
Qed.
Print Assumptions C15_instances.

(** The condition is needed: a program that type checks makes a "row vector" with two rows.
    Its length is 3, it has 6 entries, and its product with a matrix panics. *)
Theorem C15_history_refuted :
  let os : list (call Z nat) :=
    [ CFromVector Fixed1 Dynamic 6 (RowMajor (2, 3)); CLength 0; CSet 0 1 2 4%Z; CGet 0 1 2;
      CZeros KRowMajor 3 2; CDot RowMatrix 0 1 ] in
  exists st, check [] os <> None /\
    run ex_kernel Checked initial os = Ok (st, [RNew; RLength 3; RDone; RItem 4%Z; RNew; RPanicked]) /\
    ~ Forall truthful (st_mats st).
Proof.
  eexists. split; [discriminate|]. split; [vm_compute; reflexivity|].
  intros F. inversion F as [|? ? F1 ?]. destruct F1 as [F1 _]. discriminate F1.
Qed.
Print Assumptions C15_history_refuted.

Example C15_histories_example :
  let os : list (call Z nat) :=
    [ CFromVector Fixed2 Dynamic 6 (RowMajor (2, 3)); CFromSlice true 0 0 3 Fixed1 Dynamic (RowVector 3);
      CFromArray Fixed3 Fixed3 4 (RowMajor (2, 3)); CScalarTimes 2%Z ByValue 1; CLength 2 ] in
  let rs : list (result Z nat) := [RNew; RNew; RPanicked; RNew; RLength 3] in
  exists st, run ex_kernel Checked initial os = Ok (st, rs) /\
    (forall o, In (o, RNew) (combine os rs) -> fitting_data o).
Proof.
  eexists. split; [vm_compute; reflexivity|]. cbn [combine In].
  intros o H. repeat destruct H as [H | H]; try contradiction; try discriminate; injection H as <-; cbn; auto.
Qed.
