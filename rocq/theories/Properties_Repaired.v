(** * Property C58: the wrong results for views have one cause.

    If [stride] of the two layouts of strided matrices returned their strides, then C06,
    C19, C34 and C57 would hold in full. The functions with the parameter [stride] are
    those of the model (C58_same); with [repaired_stride] they are not those of the code. *)

From Coq Require Import Lia ZifyBool ZifyNat ZifyN.
From Verif Require Import Machine Layouts Memory Matrix MatMul Spec MatrixSpec ProductSpec AlgebraSpec BlockedSpec Repaired.
From Verif Require Import AccessProofs BlockProofs BlockedProofs RepairedProofs ZScalar.
From Verif Require Import Properties_Access Properties_Blocks Properties_Products Properties_Algebra Properties_Blocked.
Local Open Scope N_scope.

(** Nothing but the calls of [stride] differs from the model. *)
Theorem C58_same : forall (T : Type),
  (forall m mut a tl d, block_with stride m mut a tl d = block m mut a tl d) /\
  (forall kern (h : @heap T) alpha a b beta c, matmul_with stride kern h alpha a b beta c = matmul kern h alpha a b beta c) /\
  (forall l, strided_matrix l = false -> repaired_stride l = stride l) /\
  (forall d s, repaired_stride (ArbitraryStrideRowMajor d s) = Ok s /\ repaired_stride (ArbitraryStrideColumnMajor d s) = Ok s).
Proof.
  intros T. split; [reflexivity|]. split; [reflexivity|]. split; [|split; reflexivity].
  intros []; cbn; try discriminate; reflexivity.
Qed.
Print Assumptions C58_same.

Theorem C58_blocked_same : forall (T : Type) kern m alpha a b c ts (h : @heap T),
  blocked_with stride kern m h alpha a b c ts = blocked kern m h alpha a b c ts.
Proof. exact @blocked_with_same. Qed.
Print Assumptions C58_blocked_same.

(** C06. *)
Theorem C58_stride : forall m l, is_strided_layout l = true -> fits l -> (has_strides l = true -> addressable l) ->
  exists s, repaired_stride l = Ok s /\ stride_contract (convert_2d_raw m l) (dim l) s.
Proof. exact c58_stride. Qed.
Print Assumptions C58_stride.

Example C58_stride_example :
  let l := ArbitraryStrideRowMajor (3, 3) (4, 1) in
  is_strided_layout l = true /\ fits l /\ addressable l /\ repaired_stride l = Ok (4, 1).
Proof.
  cbv zeta. split; [reflexivity|]. split; [discriminate|]. split; [|reflexivity].
  intros r c [H0 H1]. cbn [fst snd dim true_stride] in *. assert (usize_mod = 18446744073709551616) by reflexivity. lia.
Qed.

(** C17 and C18 for blocks of dense matrices and of views, nested to any depth: the result is
    again a matrix as in the hypothesis. *)
Theorem C58_block : forall (T : Type) m (h : @heap T) mut a tl d, base_valid h a -> blockable (bm_layout a) ->
  nonempty d -> inside (dim (bm_layout a)) tl d ->
  exists b, block_with repaired_stride m mut a tl d = Ok b /\ base_valid h b /\ blockable (bm_layout b) /\
    container_is_mut (bm_data b) = mut /\ window a b tl d.
Proof. exact @c58_block. Qed.
Print Assumptions C58_block.

(** C19: a block of a block is the composed block. *)
Theorem C58_nested : forall (T : Type) m (h : @heap T) mut1 mut2 mut3 a o1 d1 o2 d2,
  base_valid h a -> blockable (bm_layout a) ->
  nonempty d1 -> inside (dim (bm_layout a)) o1 d1 -> nonempty d2 -> inside d1 o2 d2 ->
  exists b1 b2 b3,
    block_with repaired_stride m mut1 a o1 d1 = Ok b1 /\ block_with repaired_stride m mut2 b1 o2 d2 = Ok b2 /\
    block_with repaired_stride m mut3 a (shift o1 o2) d2 = Ok b3 /\
    base_valid h b2 /\ base_valid h b3 /\ dim (bm_layout b2) = d2 /\ dim (bm_layout b3) = d2 /\
    forall p, in_range d2 p -> entry_cell b2 p = entry_cell b3 p.
Proof. exact @c58_nested. Qed.
Print Assumptions C58_nested.

(** C34: products of any matrices with strides, in particular of views. *)
Theorem C58_matmul : forall (T : Type) (SC : HScalar T) kern (h : @heap T) alpha a b beta c A B C, computes kern ->
  base_valid h a -> base_valid h b -> base_valid h c ->
  strided_type (bm_layout a) = true -> strided_type (bm_layout b) = true -> strided_type (bm_layout c) = true ->
  no_aliasing (bm_layout c) -> no_overlap a c -> no_overlap b c ->
  compatible (dim (bm_layout a)) (dim (bm_layout b)) (dim (bm_layout c)) ->
  entries_are h a A -> entries_are h b B -> entries_are h c C ->
  exists h', matmul_with repaired_stride kern h alpha a b beta c = Ok h' /\
    entries_are h' c (product_entry (snd (dim (bm_layout a))) alpha A B beta C) /\
    changes_only (fun q => exists p, in_range (dim (bm_layout c)) p /\ q = entry_cell c p) h h'.
Proof. exact @c58_matmul. Qed.
Print Assumptions C58_matmul.

(** C57: block steps with any tiles, also of views. *)
Theorem C58_steps : forall (T : Type) (SC : HScalar T) kern m alpha (a b c : base_matrix) A B ts (h : @heap T) C, computes kern ->
  base_valid h a -> base_valid h b -> base_valid h c ->
  blockable (bm_layout a) -> blockable (bm_layout b) -> blockable (bm_layout c) ->
  no_overlap a c -> no_overlap b c ->
  Forall (fun tb => tile_inside a b c (fst tb)) ts ->
  entries_are h a A -> entries_are h b B -> entries_are h c C ->
  exists h', blocked_with repaired_stride kern m h alpha a b c ts = Ok h' /\
    entries_are h' c (tile_entries alpha A B ts C) /\
    changes_only (fun q => exists p, in_range (dim (bm_layout c)) p /\ q = entry_cell c p) h h'.
Proof. exact @c58_steps. Qed.
Print Assumptions C58_steps.

Theorem C58_inner : forall (T : Type) (SC : HScalar T), semiring_laws (T := T) ->
  forall kern m alpha (a b c : base_matrix) A B ts (h : @heap T) C, computes kern ->
  base_valid h a -> base_valid h b -> base_valid h c ->
  blockable (bm_layout a) -> blockable (bm_layout b) -> blockable (bm_layout c) ->
  no_overlap a c -> no_overlap b c ->
  Forall (fun tb => tile_inside a b c (fst tb) /\ snd tb = sone) ts ->
  (forall i j l, in_range (dim (bm_layout c)) (i, j) -> l < snd (dim (bm_layout a)) -> times ts i j l = 1%nat) ->
  entries_are h a A -> entries_are h b B -> entries_are h c C ->
  exists h', blocked_with repaired_stride kern m h alpha a b c ts = Ok h' /\
    entries_are h' c (product_entry (snd (dim (bm_layout a))) alpha A B sone C) /\
    changes_only (fun q => exists p, in_range (dim (bm_layout c)) p /\ q = entry_cell c p) h h'.
Proof. exact @c58_inner. Qed.
Print Assumptions C58_inner.

(** The witness of C19_nested_block_refuted: with the change, the entry is 110. *)
Example C58_nested_example :
  base_valid ex_heap Properties_Access.ex_dense /\ blockable (bm_layout Properties_Access.ex_dense) /\
  inside (dim (bm_layout Properties_Access.ex_dense)) (0, 1) (3, 3) /\ inside (3, 3) (1, 0) (2, 2) /\
  exists b1 b2, block_with repaired_stride Checked false Properties_Access.ex_dense (0, 1) (3, 3) = Ok b1 /\
    block_with repaired_stride Checked false b1 (1, 0) (2, 2) = Ok b2 /\
    get Checked ex_heap (MBase b2) 1 1 = Ok 110%Z.
Proof.
  split; [exact ex_dense_valid|]. split; [exact I|]. split; [split; discriminate|]. split; [split; discriminate|].
  do 2 eexists. split; [reflexivity|]. split; [reflexivity|]. vm_compute. reflexivity.
Qed.

(** The witnesses of C34: the entry (1, 0) of the product with the identity is 4; with the
    block as C nothing outside the block is overwritten. *)
Example C58_matmul_example :
  base_valid ex_view_heap ex_parent /\
  exists x, block_with repaired_stride Checked true ex_parent (0, 0) (2, 2) = Ok x /\
    base_valid ex_view_heap x /\ strided_type (bm_layout x) = true /\ no_aliasing (bm_layout x) /\ no_overlap ex_identity x /\
    (exists h', matmul_with repaired_stride ex_kernel ex_view_heap 1%Z x ex_identity 0%Z ex_dest = Ok h' /\
       get Checked h' (MBase ex_dest) 1 0 = Ok 4%Z) /\
    (exists h', matmul_with repaired_stride ex_kernel ex_view_heap 1%Z ex_identity ex_identity 0%Z x = Ok h' /\
       get Checked h' (MBase ex_parent) 0 2 = Ok 3%Z /\ get Checked h' (MBase x) 1 0 = Ok 0%Z).
Proof.
  split; [exact ex_parent_valid|].
  destruct (c58_block Checked ex_view_heap true ex_parent (0, 0) (2, 2)) as (x & E & V & B & _);
    [exact ex_parent_valid|exact I|split; discriminate|split; discriminate|].
  exists x. split; [exact E|]. injection E as <-. split; [exact V|]. split; [reflexivity|].
  split; [now apply blockable_no_aliasing|]. split; [intros p q _ _ F; discriminate F|]. split.
  - eexists. split; [vm_compute; reflexivity|]. vm_compute. reflexivity.
  - eexists. split; [vm_compute; reflexivity|]. vm_compute. auto.
Qed.

(** The witness of C57_tiles_refuted: with the change, the result is right. Its tiles meet
    the hypotheses of C58_inner. *)
Example C58_tiles_example :
  let x al := Properties_Blocked.ex_dense al (RowMajor (3, 3)) in
  let h := [[1; 2; 3; 4; 5; 6; 7; 8; 9]; [1; 0; 0; 0; 1; 0; 0; 0; 1]; [0; 0; 0; 0; 0; 0; 0; 0; 0]]%Z : @heap Z in
  Forall (fun tb => tile_inside (x 0%nat) (x 1%nat) (x 2%nat) (fst tb) /\ snd tb = 1%Z) ex_squares /\
  blocked_with repaired_stride ex_kernel Checked h 1%Z (x 0%nat) (x 1%nat) (x 2%nat) ex_squares =
    Ok [[1; 2; 3; 4; 5; 6; 7; 8; 9]; [1; 0; 0; 0; 1; 0; 0; 0; 1]; [1; 2; 3; 4; 5; 6; 7; 8; 9]]%Z.
Proof.
  cbv zeta. split; [|vm_compute; reflexivity].
  unfold ex_squares; cbn [flat_map map app]; repeat apply Forall_cons; try apply Forall_nil;
    unfold tile_inside, inside, nonempty; cbn; repeat split; first [discriminate | lia].
Qed.
