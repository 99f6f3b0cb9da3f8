(** * Property C57: products computed block by block.

    The full statement is C57_inner_partial without the condition that the entries of
    the blocks are consecutive in memory ([unbroken], a part of [tile_fits]). It is false
    for the code, see C57_tiles_refuted, because matmul is wrong for other blocks (C34). *)

From Coq Require Import Lia ZifyBool ZifyNat ZifyN.
From Verif Require Import Machine Layouts Memory Matrix MatMul Spec MatrixSpec ProductSpec AlgebraSpec BlockedSpec.
From Verif Require Import AccessProofs BlockProofs BlockedProofs ZScalar Properties_Products Properties_Algebra.
Local Open Scope N_scope.

(** Any list of block steps does what it ought to. *)
Theorem C57_steps_partial : forall (T : Type) (SC : HScalar T) kern m alpha (a b c : base_matrix) A B ts (h : @heap T) C,
  computes kern ->
  base_valid h a -> base_valid h b -> base_valid h c ->
  dense_matrix (bm_layout a) = true -> dense_matrix (bm_layout b) = true -> dense_matrix (bm_layout c) = true ->
  no_overlap a c -> no_overlap b c ->
  Forall (fun tb => tile_fits a b c (fst tb)) ts ->
  entries_are h a A -> entries_are h b B -> entries_are h c C ->
  exists h', blocked kern m h alpha a b c ts = Ok h' /\
    entries_are h' c (tile_entries alpha A B ts C) /\
    changes_only (fun q => exists p, in_range (dim (bm_layout c)) p /\ q = entry_cell c p) h h'.
Proof. exact @blocked_ok. Qed.
Print Assumptions C57_steps_partial.

(** Panels that cover every entry of C once, in any order, compute the product. This
    needs no law of arithmetic. *)
Theorem C57_panels_partial : forall (T : Type) (SC : HScalar T) kern m alpha (a b c : base_matrix) A B beta ts (h : @heap T) C,
  computes kern ->
  base_valid h a -> base_valid h b -> base_valid h c ->
  dense_matrix (bm_layout a) = true -> dense_matrix (bm_layout b) = true -> dense_matrix (bm_layout c) = true ->
  no_overlap a c -> no_overlap b c ->
  Forall (fun tb => tile_fits a b c (fst tb) /\ t_inner (fst tb) = (0, snd (dim (bm_layout a))) /\ snd tb = beta) ts ->
  (forall i j, in_range (dim (bm_layout c)) (i, j) -> length (filter (fun tb => updates (fst tb) i j) ts) = 1%nat) ->
  entries_are h a A -> entries_are h b B -> entries_are h c C ->
  exists h', blocked kern m h alpha a b c ts = Ok h' /\
    entries_are h' c (product_entry (snd (dim (bm_layout a))) alpha A B beta C) /\
    changes_only (fun q => exists p, in_range (dim (bm_layout c)) p /\ q = entry_cell c p) h h'.
Proof. exact @c57_outer. Qed.
Print Assumptions C57_panels_partial.

(** With exact arithmetic, block steps that account for every product A(i, l) B(l, j)
    once, in any order, accumulate the product. *)
Theorem C57_inner_partial : forall (T : Type) (SC : HScalar T), semiring_laws (T := T) ->
  forall kern m alpha (a b c : base_matrix) A B ts (h : @heap T) C,
  computes kern ->
  base_valid h a -> base_valid h b -> base_valid h c ->
  dense_matrix (bm_layout a) = true -> dense_matrix (bm_layout b) = true -> dense_matrix (bm_layout c) = true ->
  no_overlap a c -> no_overlap b c ->
  Forall (fun tb => tile_fits a b c (fst tb) /\ snd tb = sone) ts ->
  (forall i j l, in_range (dim (bm_layout c)) (i, j) -> l < snd (dim (bm_layout a)) -> times ts i j l = 1%nat) ->
  entries_are h a A -> entries_are h b B -> entries_are h c C ->
  exists h', blocked kern m h alpha a b c ts = Ok h' /\
    entries_are h' c (product_entry (snd (dim (bm_layout a))) alpha A B sone C) /\
    changes_only (fun q => exists p, in_range (dim (bm_layout c)) p /\ q = entry_cell c p) h h'.
Proof. exact @c57_inner. Qed.
Print Assumptions C57_inner_partial.

(** A 3 x 2 and B 2 x 2 row-major and column-major, C 3 x 2 row-major: row panels, the
    last row first. *)
Definition ex_blocked_heap : @heap Z := [[1; 2; 3; 4; 5; 6]; [7; 8; 9; 10]; [1; 1; 1; 1; 1; 1]]%Z.
Definition ex_dense (al : nat) (l : layout) : base_matrix :=
  mkBase (mkContainer VectorContainer (mkRegion al 0 (fst (dim l) * snd (dim l)))) l Dynamic Dynamic.
Definition ex_panels : list (tile * Z) :=
  [ (mkTile (2, 1) (0, 2) (0, 2), 3%Z); (mkTile (0, 2) (0, 2) (0, 2), 3%Z) ].

(** The same with A column-major, B row-major, in steps over the inner dimension; the
    first one is done separately for the rows 0 - 1 and the row 2 of C. *)
Definition ex_columns_heap : @heap Z := [[1; 3; 5; 2; 4; 6]; [7; 9; 8; 10]; [1; 1; 1; 1; 1; 1]]%Z.
Definition ex_inner : list (tile * Z) :=
  [ (mkTile (0, 3) (0, 2) (1, 1), 1%Z); (mkTile (2, 1) (0, 2) (0, 1), 1%Z); (mkTile (0, 2) (0, 2) (0, 1), 1%Z) ].

Ltac fits_now := unfold tile_fits, nonempty, inside, unbroken; cbn; repeat split; first [discriminate | lia | auto].

Example C57_example :
  let a := ex_dense 0 (RowMajor (3, 2)) in let b := ex_dense 1 (ColumnMajor (2, 2)) in let c := ex_dense 2 (RowMajor (3, 2)) in
  (base_valid ex_blocked_heap a /\ base_valid ex_blocked_heap b /\ base_valid ex_blocked_heap c) /\
  (no_overlap a c /\ no_overlap b c) /\
  Forall (fun tb => tile_fits a b c (fst tb) /\ t_inner (fst tb) = (0, snd (dim (bm_layout a))) /\ snd tb = 3%Z) ex_panels /\
  (forall i j, in_range (dim (bm_layout c)) (i, j) -> length (filter (fun tb => updates (fst tb) i j) ex_panels) = 1%nat) /\
  blocked ex_kernel Checked ex_blocked_heap 2%Z a b c ex_panels =
    Ok [[1; 2; 3; 4; 5; 6]; [7; 8; 9; 10]; [49; 61; 109; 137; 169; 213]]%Z /\
  matmul ex_kernel ex_blocked_heap 2%Z a b 3%Z c =
    Ok [[1; 2; 3; 4; 5; 6]; [7; 8; 9; 10]; [49; 61; 109; 137; 169; 213]]%Z.
Proof.
  cbv zeta. split.
  { split; [|split].
    - apply dense_base_valid with (l := RowMajor (3, 2)); try reflexivity; try discriminate.
      split; [|discriminate]. eexists. split; [reflexivity|discriminate].
    - apply dense_base_valid with (l := ColumnMajor (2, 2)); try reflexivity; try discriminate.
      split; [|discriminate]. eexists. split; [reflexivity|discriminate].
    - apply dense_base_valid with (l := RowMajor (3, 2)); try reflexivity; try discriminate.
      split; [|discriminate]. eexists. split; [reflexivity|discriminate]. }
  split; [split; intros p q _ _ E; discriminate E|].
  split; [repeat apply Forall_cons; try apply Forall_nil; (split; [fits_now|split; reflexivity])|].
  split.
  { intros i j [Hi Hj]. cbn [fst snd dim bm_layout ex_dense] in *.
    assert (I : i = 0 \/ i = 1 \/ i = 2) by lia. assert (J : j = 0 \/ j = 1) by lia.
    destruct I as [-> | [-> | ->]], J as [-> | ->]; reflexivity. }
  split; vm_compute; reflexivity.
Qed.

Example C57_inner_example :
  let a := ex_dense 0 (ColumnMajor (3, 2)) in let b := ex_dense 1 (RowMajor (2, 2)) in let c := ex_dense 2 (RowMajor (3, 2)) in
  (base_valid ex_columns_heap a /\ base_valid ex_columns_heap b /\ base_valid ex_columns_heap c) /\
  (no_overlap a c /\ no_overlap b c) /\ semiring_laws (T := Z) /\
  Forall (fun tb => tile_fits a b c (fst tb) /\ snd tb = 1%Z) ex_inner /\
  (forall i j l, in_range (dim (bm_layout c)) (i, j) -> l < snd (dim (bm_layout a)) -> times ex_inner i j l = 1%nat) /\
  blocked ex_kernel Checked ex_columns_heap 2%Z a b c ex_inner =
    Ok [[1; 3; 5; 2; 4; 6]; [7; 9; 8; 10]; [47; 59; 107; 135; 167; 211]]%Z /\
  matmul ex_kernel ex_columns_heap 2%Z a b 1%Z c =
    Ok [[1; 3; 5; 2; 4; 6]; [7; 9; 8; 10]; [47; 59; 107; 135; 167; 211]]%Z.
Proof.
  cbv zeta. split.
  { split; [|split].
    - apply dense_base_valid with (l := ColumnMajor (3, 2)); try reflexivity; try discriminate.
      split; [|discriminate]. eexists. split; [reflexivity|discriminate].
    - apply dense_base_valid with (l := RowMajor (2, 2)); try reflexivity; try discriminate.
      split; [|discriminate]. eexists. split; [reflexivity|discriminate].
    - apply dense_base_valid with (l := RowMajor (3, 2)); try reflexivity; try discriminate.
      split; [|discriminate]. eexists. split; [reflexivity|discriminate]. }
  split; [split; intros p q _ _ E; discriminate E|]. split; [exact z_semiring|].
  split; [repeat apply Forall_cons; try apply Forall_nil; (split; [fits_now|reflexivity])|].
  split.
  { intros i j l [Hi Hj] Hl. cbn [fst snd dim bm_layout ex_dense] in *.
    assert (I : i = 0 \/ i = 1 \/ i = 2) by lia. assert (J : j = 0 \/ j = 1) by lia. assert (K : l = 0 \/ l = 1) by lia.
    destruct I as [-> | [-> | ->]], J as [-> | ->], K as [-> | ->]; reflexivity. }
  split; vm_compute; reflexivity.
Qed.

(** The witness: a 3 x 3 matrix times the identity, in steps over square blocks that
    account for every product once. The entry (0, 1) should be 2, but is 0. *)
Definition ex_squares : list (tile * Z) :=
  flat_map (fun r => flat_map (fun c => map (fun l => (mkTile r c l, 1%Z)) [(0, 2); (2, 1)]) [(0, 2); (2, 1)]) [(0, 2); (2, 1)].

Theorem C57_tiles_refuted : exists (h : @heap Z) a b c A B C h' i j,
  (base_valid h a /\ base_valid h b /\ base_valid h c) /\
  (dense_matrix (bm_layout a) = true /\ dense_matrix (bm_layout b) = true /\ dense_matrix (bm_layout c) = true) /\
  no_overlap a c /\ no_overlap b c /\ computes ex_kernel /\
  Forall (fun tb : tile * Z => let t := fst tb in snd tb = 1%Z /\
    inside (dim (bm_layout a)) (fst (t_rows t), fst (t_inner t)) (snd (t_rows t), snd (t_inner t)) /\
    inside (dim (bm_layout b)) (fst (t_inner t), fst (t_cols t)) (snd (t_inner t), snd (t_cols t)) /\
    inside (dim (bm_layout c)) (fst (t_rows t), fst (t_cols t)) (snd (t_rows t), snd (t_cols t)) /\
    nonempty (snd (t_rows t), snd (t_inner t)) /\ 1 <= snd (t_cols t)) ex_squares /\
  (forall i j l, i < 3 -> j < 3 -> l < 3 -> times ex_squares i j l = 1%nat) /\
  (entries_are h a A /\ entries_are h b B /\ entries_are h c C) /\
  blocked ex_kernel Checked h 1%Z a b c ex_squares = Ok h' /\ in_range (3, 3) (i, j) /\
  base_entry h' c (i, j) <> Some (product_entry 3 1%Z A B 1%Z C i j).
Proof.
  set (h := [[1; 2; 3; 4; 5; 6; 7; 8; 9]; [1; 0; 0; 0; 1; 0; 0; 0; 1]; [0; 0; 0; 0; 0; 0; 0; 0; 0]]%Z : @heap Z).
  set (x := fun al => ex_dense al (RowMajor (3, 3))).
  assert (V : base_valid h (x 0%nat) /\ base_valid h (x 1%nat) /\ base_valid h (x 2%nat)).
  { split; [|split]; (apply dense_base_valid with (l := RowMajor (3, 3)); try reflexivity; try discriminate;
      (split; [|discriminate]); eexists; (split; [reflexivity|discriminate])). }
  assert (E : forall al i j, In al [0; 1; 2]%nat -> in_range (3, 3) (i, j) ->
     base_entry h (x al) (i, j) = Some (in_heap h (x al) i j)).
  { intros al i j Ha [Hi Hj]. cbn [fst snd] in *. unfold in_heap.
    assert (I : i = 0 \/ i = 1 \/ i = 2) by lia. assert (J : j = 0 \/ j = 1 \/ j = 2) by lia.
    destruct Ha as [<- | [<- | [<- | []]]], I as [-> | [-> | ->]], J as [-> | [-> | ->]]; reflexivity. }
  exists h, (x 0%nat), (x 1%nat), (x 2%nat), (in_heap h (x 0%nat)), (in_heap h (x 1%nat)), (in_heap h (x 2%nat)).
  eexists. exists 0, 1.
  split; [exact V|]. split; [repeat split|]. split; [intros p q _ _ F; discriminate F|]. split; [intros p q _ _ F; discriminate F|].
  split; [exact ex_kernel_computes|].
  split; [unfold ex_squares; cbn [flat_map map app]; repeat apply Forall_cons; try apply Forall_nil;
          unfold inside, nonempty; cbn; repeat split; first [discriminate | lia]|].
  split.
  { intros i j l Hi Hj Hl.
    assert (I : i = 0 \/ i = 1 \/ i = 2) by lia. assert (J : j = 0 \/ j = 1 \/ j = 2) by lia.
    assert (K : l = 0 \/ l = 1 \/ l = 2) by lia.
    destruct I as [-> | [-> | ->]], J as [-> | [-> | ->]], K as [-> | [-> | ->]]; reflexivity. }
  split; [split; [|split]; intros i j Hp; apply E; auto; cbn; auto|].
  split; [vm_compute; reflexivity|]. split; [split; reflexivity|]. vm_compute. discriminate.
Qed.
Print Assumptions C57_tiles_refuted.
