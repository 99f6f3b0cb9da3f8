(** * Properties: C67, any implementation of the traits. *)

From Coq Require Import List ZArith.
From Verif Require Import Machine Layouts Memory Matrix MatMul ZScalar Generic Spec MatrixSpec ExprSpec ProductSpec GenericSpec
  LayoutFacts GenericProofs GenericCrate.
Import ListNotations.
Local Open Scope N_scope.

(** ** C67: the generic code is right for every implementation that meets the contract *)

(** The model of the generic code, with the crate's own implementations of the traits,
    is the model the other properties speak about. *)
Theorem C67_model_access : forall {T : Type} {SC : HScalar T} m (h : @heap T) x,
  (forall r c, g_get (LT := crate_layouts m) h (of_matrix m x) r c = get m h x r c) /\
  (forall i, g_get1d (LT := crate_layouts m) h (of_matrix m x) i = get1d m h x i) /\
  (forall b, writes_to x = Some b ->
     (forall r c v, g_set (LT := crate_layouts m) h (of_matrix m x) r c v = set m h x r c v) /\
     (forall i v, g_set1d (LT := crate_layouts m) h (of_matrix m x) i v = set1d m h x i v)).
Proof. exact @model_access. Qed.
Print Assumptions C67_model_access.

Theorem C67_model_operators : forall {T : Type} {SC : HScalar T} m (x y : matrix T) s,
  g_addition (LT := crate_layouts m) (of_matrix m x) (of_matrix m y) = (z <- addition_new x y ;; Ok (of_matrix m z)) /\
  g_scalar_mult (of_matrix m x) s = of_matrix m (scalar_mult_new x s) /\
  g_ref (of_matrix m x) = of_matrix m (from_ref x).
Proof. exact @model_operators. Qed.
Print Assumptions C67_model_operators.

Theorem C67_model_eval : forall {T : Type} {SC : HScalar T} m (h : @heap T) x,
  g_eval (LT := crate_layouts m) h (of_matrix m x) =
  ('(h', b) <- eval m h x ;; Ok (h', mkGBase (bm_data b) (bm_layout b))).
Proof. exact @model_eval. Qed.
Print Assumptions C67_model_eval.

Theorem C67_model_base : forall {T St : Type} {SC : HScalar T} m (h : @heap T) b (f : closure St) s c l rs cs first last,
  g_for_each (LT := crate_layouts m) h (mkGBase (bm_data b) (bm_layout b)) f s = for_each m h b f s /\
  g_from_data (LT := crate_layouts m) (CT := @crate_containers T) c l =
    (b <- from_data m rs cs c l ;; Ok (mkGBase (bm_data b) (bm_layout b))) /\
  g_get_slice (CT := @crate_containers T) c first last = container_get_slice c first last.
Proof. exact @model_base. Qed.
Print Assumptions C67_model_base.

Theorem C67_model_matmul : forall {T : Type} kern (h : @heap T) m alpha a b beta c,
  g_matmul (LT := crate_layouts m) kern h alpha (mkGBase (bm_data a) (bm_layout a)) (mkGBase (bm_data b) (bm_layout b))
    beta (mkGBase (bm_data c) (bm_layout c)) = matmul kern h alpha a b beta c.
Proof. exact @model_matmul. Qed.
Print Assumptions C67_model_matmul.

(** The crate's own layouts and containers meet the contract, in a program with any
    layouts [o] of the user; a column vector has no [from_dimension] unless it has
    length 1. *)
Theorem C67_crate : forall {U KU : Type} m (o : own_layouts U KU) l, small l ->
  exists ls,
    ls_count ls = entry_count l /\
    (forall i, i < entry_count l -> stored l (ls_pos ls i) /\ number l (ls_pos ls i) = i) /\
    numbers (LT := program_layouts m o) (inl l) (dim l) ls /\
    indexed (LT := program_layouts m o) (inl l) (dim l) ls /\
    ((forall p, stored l p -> cell l p < usize_mod) ->
       lays_out (LT := program_layouts m o) (inl l) (dim l) ls (fun i => cell l (ls_pos ls i))) /\
    (entry_count l < usize_mod -> (column_vector_like l = true -> fst (dim l) = 1) ->
       makes (LT := program_layouts m o) (inl (index_kind l)) (dim l) ls (fun i => i)).
Proof. exact @crate_meets. Qed.
Print Assumptions C67_crate.

Theorem C67_crate_containers : forall {T : Type} k r,
  contiguous (CT := @crate_containers T) (mkContainer k r) r /\
  keeps_mut (CT := @crate_containers T) (mkContainer k r) (r_len r) (cell_of_region r) /\
  holds_vectors (CT := @crate_containers T).
Proof. exact @crate_containers_meet. Qed.
Print Assumptions C67_crate_containers.

(** Reading: every entry through both accessors, and a panic outside. *)
Theorem C67_reads : forall {T L K : Type} {LT : LayoutTraits L K}
    (h : @heap T) (x : impl T L) d ls F i, shows h x d ls F -> i < ls_count ls ->
  g_get h x (fst (ls_pos ls i)) (snd (ls_pos ls i)) = Ok (F (ls_pos ls i)) /\
  g_get1d h x i = Ok (F (ls_pos ls i)).
Proof. exact @g_get_shows. Qed.
Print Assumptions C67_reads.

Theorem C67_outside : forall {T L K : Type} {LT : LayoutTraits L K}
    (h : @heap T) (x : impl T L) d ls r c i, numbers (i_layout x) d ls ->
  (~ in_range d (r, c) -> g_get h x r c = Panic /\ g_get_mut x r c = Panic) /\
  (ls_count ls <= i -> g_get1d h x i = Panic /\ g_get1d_mut x i = Panic).
Proof. exact @g_outside. Qed.
Print Assumptions C67_outside.

(** Base matrices over any container. *)
Theorem C67_base : forall {T L K : Type} {LT : LayoutTraits L K} {C : Type} {CT : ContainerTraits T C}
    (c : C) (l : L) d ls raw n at_,
  lays_out l d ls raw -> keeps_mut c n at_ ->
  (ls_count ls <= n -> g_from_data c l = Ok (mkGBase c l)) /\
  (n < ls_count ls -> g_from_data c l = Panic) /\
  ((forall i, i < ls_count ls -> raw i < n) -> distinct_below (ls_count ls) raw ->
     lives (of_base (mkGBase c l)) d ls (fun i => at_ (raw i))).
Proof. exact @g_base_ok. Qed.
Print Assumptions C67_base.

Theorem C67_shown : forall {T L K : Type} {LT : LayoutTraits L K}
    (h : @heap T) (x : impl T L) d ls at_ F, lives x d ls at_ ->
  (forall i, i < ls_count ls -> hget h (fst (at_ i)) (snd (at_ i)) = Some (F (ls_pos ls i))) ->
  shows h x d ls F.
Proof. exact @lives_shows. Qed.
Print Assumptions C67_shown.

(** Writing through either accessor changes one cell and is seen by both accessors. *)
Theorem C67_writes : forall {T L K : Type} {LT : LayoutTraits L K}
    (h : @heap T) (x : impl T L) d ls at_ F i v, lives x d ls at_ ->
  (forall i, i < ls_count ls -> hget h (fst (at_ i)) (snd (at_ i)) = Some (F (ls_pos ls i))) ->
  i < ls_count ls ->
  exists h', g_set h x (fst (ls_pos ls i)) (snd (ls_pos ls i)) v = Ok h' /\ g_set1d h x i v = Ok h' /\
    one_cell_written h h' (fst (at_ i)) (snd (at_ i)) v /\
    forall j, j < ls_count ls ->
      g_get1d h' x j = Ok (if j =? i then v else F (ls_pos ls j)) /\
      g_get h' x (fst (ls_pos ls j)) (snd (ls_pos ls j)) = Ok (if j =? i then v else F (ls_pos ls j)).
Proof. exact @g_write. Qed.
Print Assumptions C67_writes.

(** Expressions over any matrices, by value or by reference. *)
Theorem C67_expressions : forall {T : Type} {SC : HScalar T} {L K : Type} {LT : LayoutTraits L K}
    (h : @heap T) d ls k (e : @g_expr T L) F,
  g_value (fun x F => shows h x d ls F /\ indexed (i_layout x) d ls /\ t_index_type (i_layout x) = k) e F ->
  exists x, g_build e = Ok x /\ shows h x d ls F /\ indexed (i_layout x) d ls /\ t_index_type (i_layout x) = k.
Proof. exact @g_build_shows. Qed.
Print Assumptions C67_expressions.

Theorem C67_sum_dimensions : forall {T : Type} {SC : HScalar T} {L K : Type} {LT : LayoutTraits L K}
    (x y : impl T L) d e ls ls',
  numbers (i_layout x) d ls -> numbers (i_layout y) e ls' -> d <> e -> g_addition x y = Panic.
Proof. exact @g_addition_differs. Qed.
Print Assumptions C67_sum_dimensions.

(** Evaluation into a new matrix: the same entries in cells of their own; nothing else
    changes. *)
Theorem C67_eval : forall {T : Type} {SC : HScalar T} {L K : Type} {LT : LayoutTraits L K}
    {C : Type} {CT : ContainerTraits T C} (h : @heap T) (x : impl T L) d ls F raw,
  holds_vectors (CT := CT) -> shows h x d ls F -> makes (t_index_type (i_layout x)) d ls raw ->
  (ls_count ls * Npos ssize <= isize_max ->
   exists h' b, g_eval h x = Ok (h', b) /\ only_allocates h h' /\ shows h' (of_base b) d ls F /\
     lives (of_base b) d ls (fun i => (length h, raw i)) /\ shows h' x d ls F) /\
  (isize_max < ls_count ls * Npos ssize -> g_eval h x = Panic).
Proof. exact @g_eval_full. Qed.
Print Assumptions C67_eval.

(** [for_each] calls the closure once for every entry, in the order of the numbers, until
    it panics. *)
Theorem C67_for_each : forall {T L K : Type} {LT : LayoutTraits L K}
    {C : Type} {CT : ContainerTraits T C} (St : Type) (b : g_base L C) d ls at_ (F : N * N -> T)
    (f : closure St) (h : @heap T) s,
  lives (of_base b) d ls at_ ->
  (forall i, i < ls_count ls -> hget h (fst (at_ i)) (snd (at_ i)) = Some (F (ls_pos ls i))) ->
  exists h', g_for_each h b f s =
      (let '(s', _, panicked) := visit f s (items_of ls F) in Ok (h', s', panicked)) /\
    changes_only (fun q => exists i, i < ls_count ls /\ q = at_ i) h h' /\
    forall i, i < ls_count ls ->
      hget h' (fst (at_ i)) (snd (at_ i)) = nth_error (snd (fst (visit f s (items_of ls F)))) (N.to_nat i).
Proof. exact @g_for_each_ok. Qed.
Print Assumptions C67_for_each.

(** [matmul] computes alpha A B + beta C for any strided layouts and containers. *)
Theorem C67_product : forall {T : Type} {SC : HScalar T} {L K : Type} {LT : LayoutTraits L K}
    {C : Type} {CT : ContainerTraits T C} kern (h : @heap T) alpha (a b : g_base L C) beta c
    da db dc sa sb sc ra rb rc A B G, computes kern ->
  g_strided h a da sa ra -> g_strided h b db sb rb -> g_strided h c dc sc rc ->
  compatible da db dc ->
  (forall p q, in_range da p -> in_range dc q -> strided_cell ra sa p <> strided_cell rc sc q) ->
  (forall p q, in_range db p -> in_range dc q -> strided_cell rb sb p <> strided_cell rc sc q) ->
  (forall p q, in_range dc p -> in_range dc q -> strided_cell rc sc p = strided_cell rc sc q -> p = q) ->
  (forall i j, in_range da (i, j) -> g_get h (of_base a) i j = Ok (A i j)) ->
  (forall i j, in_range db (i, j) -> g_get h (of_base b) i j = Ok (B i j)) ->
  (forall i j, in_range dc (i, j) -> g_get h (of_base c) i j = Ok (G i j)) ->
  exists h', g_matmul kern h alpha a b beta c = Ok h' /\
    changes_only (fun q => exists p, in_range dc p /\ q = strided_cell rc sc p) h h' /\
    forall i j, in_range dc (i, j) ->
      g_get h' (of_base c) i j = Ok (product_entry (snd da) alpha A B beta G i j).
Proof. exact @g_matmul_ok. Qed.
Print Assumptions C67_product.

(** The default method [get_slice] of a container. *)
Theorem C67_slices : forall {T C : Type} {CT : ContainerTraits T C} (c : C) r first last,
  contiguous (T := T) c r ->
  g_get_slice (T := T) c first last =
  if (first <? last) && (last <=? r_len r) then Ok (mkRegion (r_alloc r) (r_lo r + first) (last - first)) else Panic.
Proof. exact @g_get_slice_ok. Qed.
Print Assumptions C67_slices.

(** The bounds check of a base matrix consults only [dim]; it is the layout's
    [convert_2d_raw] that decides whether the read stays in the memory. *)
Theorem C67_safety_exact : forall {T L K : Type} {LT : LayoutTraits L K}
    {C : Type} {CT : ContainerTraits T C} (h : @heap T) (c : C) (l : L) r d row col i,
  contiguous c r -> region_ok h r -> (forall i, r_len r <= i -> d_get_unchecked h c i = UB) ->
  t_dim l = Ok d -> t_convert_2d_raw l row col = Ok i ->
  (g_get h (of_base (mkGBase c l)) row col = UB <-> in_range d (row, col) /\ r_len r <= i) /\
  (g_get h (of_base (mkGBase c l)) row col = Panic <-> ~ in_range d (row, col)).
Proof. exact @g_get_exact. Qed.
Print Assumptions C67_safety_exact.

(** A layout of the user: row-major with padding after each row, numbered like the
    crate's [RowMajor]; and a matrix of the user without any storage. *)
Definition padded : own_layouts (N * N * N) Empty_set := {|
  o_stride '(_, _, w) := Ok (w, 1);
  o_dim '(r, c, _) := Ok (r, c);
  o_number_of_elements '(r, c, _) := umul Checked r c;
  o_convert_1d_2d '(_, c, _) i := q <- udiv i c ;; p <- urem i c ;; Ok (q, p);
  o_convert_2d_1d '(_, c, _) row col := x <- umul Checked row c ;; uadd Checked x col;
  o_convert_1d_raw '(_, c, w) i := q <- udiv i c ;; p <- urem i c ;; x <- umul Checked q w ;; uadd Checked x p;
  o_convert_2d_raw '(_, _, w) row col := x <- umul Checked row w ;; uadd Checked x col;
  o_index_layout '(r, c, _) := Ok (inl (RowMajor (r, c)));
  o_index_type _ := inl KRowMajor;
  o_from_dimension (k : Empty_set) _ := match k with end
|}.

#[local] Instance ex_layouts : LayoutTraits (layout + N * N * N) (base_kind + Empty_set) :=
  program_layouts Checked padded.

Definition formula : impl Z (layout + N * N * N) := {|
  i_layout := inl (RowMajor (2, 3));
  i_get_unchecked _ row col := Ok (Z.of_N (100 * row + col));
  i_get1d_unchecked _ i := Ok (Z.of_N (100 * (i / 3) + i mod 3));
  i_get_unchecked_mut _ _ := UB;
  i_get1d_unchecked_mut _ := UB |}.

Definition ex_memory : @heap Z := [zlist 9 1].
Definition ex_container : container := mkContainer SliceContainer (mkRegion 0 0 9).
Definition ex_padded : impl Z (layout + N * N * N) := of_base (mkGBase ex_container (inr (2, 3, 5))).
Definition ex_listing : listing := mkListing 6 (fun i => (i / 3, i mod 3)).
Definition ex_expression : g_expr := GPlus ByValue (GScalarTimes 2%Z ByReference (GLeaf ex_padded)) ByReference (GLeaf formula).

Lemma below_6 : forall P : N -> Prop, P 0 -> P 1 -> P 2 -> P 3 -> P 4 -> P 5 -> forall i, i < 6 -> P i.
Proof.
  intros P H0 H1 H2 H3 H4 H5 i Hi.
  destruct (N.eq_dec i 0) as [-> |]; auto. destruct (N.eq_dec i 1) as [-> |]; auto.
  destruct (N.eq_dec i 2) as [-> |]; auto. destruct (N.eq_dec i 3) as [-> |]; auto.
  destruct (N.eq_dec i 4) as [-> |]; auto. destruct (N.eq_dec i 5) as [-> |]; auto. lia.
Qed.

(** The hypotheses of the theorems for them. *)
Example C67_padded_example :
  lays_out (inr (2, 3, 5)) (2, 3) ex_listing (fun i => 5 * (i / 3) + i mod 3) /\
  shows ex_memory ex_padded (2, 3) ex_listing (fun p => Z.of_N (5 * fst p + snd p + 1)) /\
  indexed (i_layout ex_padded) (2, 3) ex_listing /\
  t_index_type (i_layout ex_padded) = inl KRowMajor.
Proof.
  assert (Hl : lays_out (inr (2, 3, 5)) (2, 3) ex_listing (fun i => 5 * (i / 3) + i mod 3)).
  { split; [split; [reflexivity|]; split; [reflexivity|]|]; apply below_6; vm_compute; auto. }
  split; [exact Hl|]. split; [|split; [|reflexivity]].
  - apply (of_base_shows _ _ _ _ _ _ 9 (cell_of_region (mkRegion 0 0 9)) _ Hl).
    + apply (C67_crate_containers (T := Z) SliceContainer (mkRegion 0 0 9)).
    + apply below_6; vm_compute; auto.
  - exists (inl (RowMajor (2, 3))). split; [reflexivity|]. split; [|split; reflexivity].
    split; [reflexivity|]. split; [reflexivity|]. apply below_6; vm_compute; auto.
Qed.

Example C67_formula_example :
  shows ex_memory formula (2, 3) ex_listing (fun p => Z.of_N (100 * fst p + snd p)) /\
  indexed (i_layout formula) (2, 3) ex_listing /\
  t_index_type (i_layout formula) = inl KRowMajor.
Proof.
  assert (Hn : numbers (inl (RowMajor (2, 3))) (2, 3) ex_listing).
  { split; [reflexivity|]. split; [reflexivity|]. apply below_6; vm_compute; auto. }
  split; [|split; [|reflexivity]].
  - split; [exact Hn|]. intros h' _. apply below_6; split; reflexivity.
  - exists (inl (RowMajor (2, 3))). split; [reflexivity|]. split; [exact Hn|]. split; reflexivity.
Qed.

(** [2 * &padded + &formula], built and evaluated, is a matrix of the crate. *)
Example C67_expression_example :
  (exists x h' b, g_build ex_expression = Ok x /\ g_eval ex_memory x = Ok (h', b) /\
     only_allocates ex_memory h' /\
     shows h' (of_base b) (2, 3) ex_listing
       (fun p => (2 * Z.of_N (5 * fst p + snd p + 1) + Z.of_N (100 * fst p + snd p))%Z)) /\
  (x <- g_build ex_expression ;; '(h', b) <- g_eval ex_memory x ;; Ok (h', gb_layout (C := container) b)) =
  Ok (ex_memory ++ [[2; 5; 8; 112; 115; 118]%Z], inl (RowMajor (2, 3))).
Proof.
  split; [|vm_compute; reflexivity].
  destruct (C67_expressions ex_memory (2, 3) ex_listing (inl KRowMajor) ex_expression
    (fun p => sadd (smul 2%Z (Z.of_N (5 * fst p + snd p + 1))) (Z.of_N (100 * fst p + snd p)))) as (x & Ex & Sx & _ & Kx).
  { unfold ex_expression.
    apply (VPlus _ ByValue _ ByReference _ (fun p => smul 2%Z (Z.of_N (5 * fst p + snd p + 1)))
                                         (fun p => Z.of_N (100 * fst p + snd p))).
    - apply (VScalarTimes _ 2%Z ByReference _ (fun p => Z.of_N (5 * fst p + snd p + 1))), VLeaf, C67_padded_example.
    - apply VLeaf, C67_formula_example. }
  destruct (C67_eval (CT := @crate_containers Z) ex_memory x (2, 3) ex_listing _ (fun i => i)
    (crate_holds_vectors (T := Z)) Sx) as [H _].
  { rewrite Kx. exists (inl (RowMajor (2, 3))). split; [reflexivity|]. split; [|split].
    - split; [split; [reflexivity|]; split; [reflexivity|]|]; apply below_6; vm_compute; auto.
    - auto.
    - intros i j _ _ E. exact E. }
  destruct H as (h' & b & E & Ho & Sb & _); [vm_compute; discriminate|].
  exists x, h', b. split; [exact Ex|]. split; [exact E|]. split; [exact Ho|]. exact Sb.
Qed.

(** A product of the padded matrix with one of the crate's, into one of the crate's. *)
Definition ex_exact_kernel : kernel Z := fun _ _ _ alpha pairs beta old =>
  (alpha * fold_left (fun acc p => acc + fst p * snd p) pairs 0 + beta * old)%Z.
Definition ex_product_memory : @heap Z := [zlist 9 1; zlist 3 1; [10; 20]%Z].
Definition ex_factor : g_base (layout + N * N * N) container :=
  mkGBase (mkContainer VectorContainer (mkRegion 1 0 3)) (inl (RowMajor (3, 1))).
Definition ex_target : g_base (layout + N * N * N) container :=
  mkGBase (mkContainer VectorContainer (mkRegion 2 0 2)) (inl (RowMajor (2, 1))).

Example C67_product_example :
  computes ex_exact_kernel /\
  g_strided ex_product_memory (mkGBase ex_container (inr (2, 3, 5))) (2, 3) (5, 1) (mkRegion 0 0 9) /\
  g_strided ex_product_memory ex_factor (3, 1) (1, 1) (mkRegion 1 0 3) /\
  g_strided ex_product_memory ex_target (2, 1) (1, 1) (mkRegion 2 0 2) /\
  compatible (2, 3) (3, 1) (2, 1) /\
  g_matmul ex_exact_kernel ex_product_memory 1%Z (mkGBase ex_container (inr (2, 3, 5))) ex_factor 1%Z ex_target =
    Ok [zlist 9 1; zlist 3 1; [24; 64]%Z].
Proof.
  assert (Hc : forall d p, in_range d p -> fst p < fst d /\ snd p < snd d) by (intros d p H; exact H).
  split; [intros sh i j alpha pairs beta old; reflexivity|].
  split; [|split; [|split; [|split; [vm_compute; auto | vm_compute; reflexivity]]]].
  - split; [reflexivity|]. split; [reflexivity|]. split; [exact (proj1 (C67_crate_containers (T := Z) _ _))|]. split.
    + split; [exists (zlist 9 1); split; [reflexivity | vm_compute; discriminate] | vm_compute; discriminate].
    + intros i j [Hi Hj]. cbn [fst snd] in *.
      assert (i = 0 \/ i = 1) as [-> | ->] by lia; assert (j = 0 \/ j = 1 \/ j = 2) as [-> | [-> | ->]] by lia;
        vm_compute; auto.
  - split; [reflexivity|]. split; [reflexivity|]. split; [exact (proj1 (C67_crate_containers (T := Z) _ _))|]. split.
    + split; [exists (zlist 3 1); split; [reflexivity | vm_compute; discriminate] | vm_compute; discriminate].
    + intros i j [Hi Hj]. cbn [fst snd] in *. assert (j = 0) as -> by lia.
      assert (i = 0 \/ i = 1 \/ i = 2) as [-> | [-> | ->]] by lia; vm_compute; auto.
  - split; [reflexivity|]. split; [reflexivity|]. split; [exact (proj1 (C67_crate_containers (T := Z) _ _))|]. split.
    + split; [exists [10; 20]%Z; split; [reflexivity | vm_compute; discriminate] | vm_compute; discriminate].
    + intros i j [Hi Hj]. cbn [fst snd] in *. assert (j = 0) as -> by lia.
      assert (i = 0 \/ i = 1) as [-> | ->] by lia; vm_compute; auto.
Qed.

(** The contract is needed, though the trait [LayoutType] is not [unsafe]: a layout
    written in safe code that says it has one entry and dimension 5 x 5 is accepted over
    one item, and reading entry (4, 4) leaves the memory. So does [get_slice] of a
    container that says it has more items than it has. *)
Definition boastful : own_layouts unit Empty_set := {|
  o_stride _ := Ok (5, 1);
  o_dim _ := Ok (5, 5);
  o_number_of_elements _ := Ok 1;
  o_convert_1d_2d _ i := Ok (0, i);
  o_convert_2d_1d _ row col := Ok (row * 5 + col);
  o_convert_1d_raw _ i := Ok i;
  o_convert_2d_raw _ row col := Ok (row * 5 + col);
  o_index_layout _ := Ok (inl (RowMajor (5, 5)));
  o_index_type _ := inl KRowMajor;
  o_from_dimension (k : Empty_set) _ := match k with end
|}.

#[local] Instance boastful_container : ContainerTraits Z region := {
  d_get_unchecked := region_read;
  d_get_pointer r := Ok (mkPointer r 0);
  d_number_of_elements r := Ok (r_len r + 1);
  d_get_unchecked_mut := region_place;
  holds := c_region
}.

Theorem C67_contract_needed :
  (b <- g_from_data (LT := program_layouts Checked boastful) (CT := @crate_containers Z)
          (mkContainer VectorContainer (mkRegion 0 0 1)) (inr tt) ;;
   g_get (LT := program_layouts Checked boastful) [[7%Z]] (of_base (LT := program_layouts Checked boastful) b) 4 4) = UB /\
  g_get_slice (mkRegion 0 0 3) 0 4 = UB.
Proof. split; vm_compute; reflexivity. Qed.
Print Assumptions C67_contract_needed.
