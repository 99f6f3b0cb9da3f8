(** * C34: what matmul computes for block views, and for which it is right. *)

From Coq Require Import ZifyBool ZifyNat ZifyN.
From Verif Require Import Machine MachineFacts Layouts Memory Matrix MatMul Spec MatrixSpec ExprSpec ProductSpec.
From Verif Require Import ZScalar LayoutFacts LayoutProofs MemoryFacts AccessFacts AccessProofs ConstructorProofs BlockProofs ExprProofs ProductProofs.
Local Open Scope N_scope.

Section Dense.
Context {T : Type} {SC : HScalar T}.
Notation heap := (@heap T).

(** A block seen as a dense matrix stays within the block's container. *)
Lemma chain_as_dense : forall (h : heap) b, base_valid h b -> chain (bm_layout b) ->
  base_valid h (as_dense b) /\ dense_matrix (bm_layout (as_dense b)) = true /\
  dim (bm_layout (as_dense b)) = dim (bm_layout b).
Proof.
  intros h b Vb Hc. destruct (chain_told_ok h b Vb Hc) as [Hs Ht]. destruct Vb as (_ & Hsm & _).
  unfold as_dense. cbn [bm_layout]. unfold base_valid. cbn [bm_layout bm_data].
  unfold told, told_stride in Ht. unfold small in *.
  destruct (bm_layout b) as [D | D | n | n | D s | D s | n s | n s | n]; cbn [chain] in Hc; try contradiction;
    cbn [block_order dim fst snd] in Ht; (split; [split; [exact Hs|split; [exact Hsm|]]|split; reflexivity]);
    intros p [Hp _]; specialize (Ht p Hp); cbn [cell true_stride]; cbn [fst snd] in *; lia.
Qed.

Lemma block_of_dense_ok : forall (h : heap) l d x, block_of_dense h l d x ->
  base_valid h x /\ chain (bm_layout x) /\ dim (bm_layout x) = d.
Proof.
  intros h l d x (m & mut & p & tl & Vp & <- & Hl & Hd & Hi & E).
  destruct (block_ok m h mut p tl d) as (E' & Vx & Cx); auto using dense_chain.
  rewrite E in E'. injection E' as ->. splits; auto. unfold block_view, view. cbn [bm_layout].
  apply strided_layout_dim.
Qed.

Lemma dense_operand : forall l, dense_matrix l = true -> product_operand l = true /\ no_aliasing l.
Proof.
  intros l H. destruct l; cbn in *; try discriminate; (split; [reflexivity|]); intros E; discriminate.
Qed.

Lemma operand_as_dense : forall x : base_matrix, product_operand (bm_layout x) = true -> as_dense x = x.
Proof.
  intros [c l rs cs]. unfold as_dense. cbn [bm_layout bm_data bm_rs bm_cs].
  destruct l; cbn; try discriminate; reflexivity.
Qed.

(** What matmul computes for blocks: the product of what they look like when
    taken for dense matrices. *)
Lemma c34_views_exact : forall kern (h : heap) alpha a b beta c A B C, computes kern ->
  (product_operand (bm_layout a) = true /\ base_valid h a \/ exists l d, block_of_dense h l d a) ->
  (product_operand (bm_layout b) = true /\ base_valid h b \/ exists l d, block_of_dense h l d b) ->
  (product_operand (bm_layout c) = true /\ no_aliasing (bm_layout c) /\ base_valid h c \/
   exists l d, block_of_dense h l d c) ->
  no_overlap (as_dense a) (as_dense c) -> no_overlap (as_dense b) (as_dense c) ->
  compatible (dim (bm_layout a)) (dim (bm_layout b)) (dim (bm_layout c)) ->
  entries_are h (as_dense a) A -> entries_are h (as_dense b) B -> entries_are h (as_dense c) C ->
  exists h', matmul kern h alpha a b beta c = Ok h' /\
    entries_are h' (as_dense c) (product_entry (snd (dim (bm_layout a))) alpha A B beta C) /\
    changes_only (fun q => exists p, in_range (dim (bm_layout c)) p /\ q = entry_cell (as_dense c) p) h h'.
Proof.
  intros kern h alpha a b beta c A B C Hk Ha Hb Hc Na Nb Hd EA EB EC.
  assert (G : forall x, product_operand (bm_layout x) = true /\ base_valid h x \/ (exists l d, block_of_dense h l d x) ->
    base_valid h (as_dense x) /\ true_strides (bm_layout (as_dense x)) /\
    dim (bm_layout (as_dense x)) = dim (bm_layout x)).
  { intros x [[H1 H2] | (l & d & H)].
    - rewrite operand_as_dense by auto. splits; auto using operand_true.
    - destruct (block_of_dense_ok h l d x H) as (Vx & Cx & _).
      destruct (chain_as_dense h x Vx Cx) as (V & D & E). splits; auto using dense_true. }
  destruct (G a Ha) as (Va & Sa & Da). destruct (G b Hb) as (Vb & Sb & Db).
  assert (Nc : no_aliasing (bm_layout (as_dense c))).
  { destruct Hc as [(H1 & H2 & H3) | (l & d & H)].
    - now rewrite operand_as_dense.
    - destruct (block_of_dense_ok h l d c H) as (Vx & Cx & _).
      destruct (chain_as_dense h c Vx Cx) as (V & D & E). now apply dense_operand. }
  assert (Hc' : product_operand (bm_layout c) = true /\ base_valid h c \/ exists l d, block_of_dense h l d c) by tauto.
  destruct (G c Hc') as (Vc & Sc & Dc).
  rewrite c34_as_dense.
  destruct (c32 kern h alpha (as_dense a) (as_dense b) beta (as_dense c) A B C)
    as (h' & sh & E & Ch & _ & _ & _ & Eh); auto.
  { now rewrite Da, Db, Dc. }
  exists h'. splits; auto.
  - rewrite <- Da. eapply entries_are_ext; [|exact Eh]. intros i j. now apply computes_entry.
  - now rewrite Dc in Ch.
Qed.
End Dense.

(** ** Contents that show the difference *)

Section Paint.
Context {T : Type}.

Definition paint (h : @heap T) (f : nat -> N -> T) : @heap T :=
  map (fun a => map (fun i => f a (N.of_nat i)) (seq 0 (length (nth a h [])))) (seq 0 (length h)).

Lemma nth_error_seq0 : forall n i, (i < n)%nat -> nth_error (seq 0 n) i = Some i.
Proof.
  intros n i H. rewrite nth_error_nth' with (d := O); [|now rewrite seq_length].
  now rewrite seq_nth.
Qed.

Lemma paint_nth : forall h f a l, nth_error h a = Some l ->
  nth_error (paint h f) a = Some (map (fun i => f a (N.of_nat i)) (seq 0 (length l))).
Proof.
  intros h f a l E. unfold paint. assert (Ha : (a < length h)%nat) by (apply nth_error_Some; congruence).
  rewrite map_nth_error with (d := a) by now apply nth_error_seq0.
  now rewrite (nth_error_nth h a (x := l) [] E).
Qed.

Lemma paint_extends : forall h f, extends h (paint h f).
Proof.
  intros h f a l E. eexists. split; [exact (paint_nth h f a l E)|]. now rewrite map_length, seq_length.
Qed.

Lemma paint_sizes : forall h f, same_sizes h (paint h f).
Proof.
  intros h f. unfold same_sizes, paint. rewrite map_map.
  transitivity (map (fun a => length (nth a h [])) (seq 0 (length h))).
  - apply map_ext. intros a. now rewrite map_length, seq_length.
  - rewrite <- (map_map (fun a => nth a h []) (@length T)). f_equal.
    clear f. induction h as [|l h IH]; [reflexivity|]. cbn [length seq map nth].
    f_equal. rewrite <- seq_shift, map_map. exact IH.
Qed.

Lemma paint_hget : forall h f a i v, hget h a i = Some v -> hget (paint h f) a i = Some (f a i).
Proof.
  intros h f a i v. unfold hget. destruct (nth_error h a) as [l|] eqn:E; [|discriminate]. intros Hv.
  rewrite (paint_nth h f a l E).
  assert (Hi : (N.to_nat i < length l)%nat) by (apply nth_error_Some; congruence).
  rewrite map_nth_error with (d := N.to_nat i) by now apply nth_error_seq0.
  now rewrite N2Nat.id.
Qed.
End Paint.

(** The position that a dense reading of a narrow block takes from outside of
    the block, and its place relative to the start of the block. *)
Definition odd_position (l : layout) : N * N := if column_ordered l then (0, 1) else (1, 0).
Definition odd_offset (l : layout) (d : N * N) : N := if column_ordered l then fst d else snd d.

Lemma narrow_facts : forall (T : Type) (h : @heap T) l d x, block_of_dense h l d x -> ~ unbroken l d ->
  in_range d (odd_position l) /\
  (forall p, in_range d p -> cell (bm_layout (as_dense x)) p = odd_offset l d <-> p = odd_position l) /\
  (forall p, in_range d p -> cell (bm_layout x) p <> odd_offset l d).
Proof.
  intros T h l d x (m & mut & p & tl & Vp & <- & Hl & Hd & Hi & E) Hu.
  destruct (block_ok m h mut p tl d) as (E' & _ & _); auto using dense_chain.
  rewrite E in E'. injection E' as ->. destruct Hd as [Hd0 Hd1], Hi as [Hi0 Hi1].
  unfold as_dense, block_view, view. cbn [bm_layout]. unfold order_of, told_stride, odd_position, odd_offset, unbroken in *.
  destruct d as [d0 d1].
  destruct (bm_layout p) as [[D0 D1] | [D0 D1] | n | n | D s | D s | n s | n s | n]; cbn [dense_matrix] in Hl; try discriminate;
    cbn [column_ordered block_order dim fst snd strided_layout] in *.
  - splits.
    + split; cbn [fst snd]; lia.
    + intros [i j] [Hr Hc]. cbn [cell true_stride fst snd] in *. split; [|intros [= -> ->]; lia].
      intros Eq. assert (i = 1) by (destruct (N.lt_trichotomy i 1) as [?|[?|?]]; nia). subst i. f_equal. lia.
    + intros [i j] [Hr Hc]. cbn [cell true_stride fst snd] in *. intros Eq.
      destruct (N.eq_dec i 0) as [->|]; nia.
  - splits.
    + split; cbn [fst snd]; lia.
    + intros [i j] [Hr Hc]. cbn [cell true_stride fst snd] in *. split; [|intros [= -> ->]; lia].
      intros Eq. assert (j = 1) by (destruct (N.lt_trichotomy j 1) as [?|[?|?]]; nia). subst j. f_equal. lia.
    + intros [i j] [Hr Hc]. cbn [cell true_stride fst snd] in *. intros Eq.
      destruct (N.eq_dec j 0) as [->|]; nia.
Qed.

(** A sum with a single nonzero term. *)
Lemma sum_below_single : forall n l0 (f : N -> Z), f l0 = 1%Z -> (forall l, l <> l0 -> f l = 0%Z) ->
  sum_below n f = if l0 <? N.of_nat n then 1%Z else 0%Z.
Proof.
  intros n l0 f H1 H0. induction n as [|n IH].
  - cbn [sum_below]. destruct (N.ltb_spec l0 (N.of_nat 0)); [lia|reflexivity].
  - cbn [sum_below]. rewrite IH. destruct (N.eq_dec (N.of_nat n) l0) as [E|E].
    + rewrite E, H1. destruct (N.ltb_spec l0 l0); [lia|]. destruct (N.ltb_spec l0 (N.of_nat (S n))); [reflexivity|lia].
    + rewrite (H0 _ E). destruct (N.ltb_spec l0 (N.of_nat n)), (N.ltb_spec l0 (N.of_nat (S n))); try lia; reflexivity.
Qed.

(** The contents: 1 in the allocation [ones] and at one cell, 0 elsewhere. *)
Definition contents (ones : nat) (cell : nat * N) (a : nat) (i : N) : Z :=
  if (a =? ones)%nat then 1%Z else if (a =? fst cell)%nat && (i =? snd cell) then 1%Z else 0%Z.

Definition odd_cell (l : layout) (d : N * N) (x : base_matrix) : nat * N :=
  cell_of_region (c_region (bm_data x)) (odd_offset l d).

Lemma painted_entries : forall (h : @heap Z) f b F, base_valid h b -> strided_type (bm_layout b) = true ->
  (forall p, in_range (dim (bm_layout b)) p ->
     f (fst (entry_cell b p)) (snd (entry_cell b p)) = F (fst p) (snd p)) ->
  entries_are (paint h f) b F.
Proof.
  intros h f b F Vb Hs HF i j Hp. destruct (entries_exist h b Vb Hs) as (G & EG).
  specialize (EG i j Hp). unfold base_entry in *. erewrite paint_hget by exact EG.
  f_equal. now apply (HF (i, j)).
Qed.

Lemma block_of_dense_extends : forall (h h' : @heap Z) l d x, extends h h' -> block_of_dense h l d x -> block_of_dense h' l d x.
Proof.
  intros h h' l d x He (m & mut & p & tl & Vp & H). exists m, mut, p, tl. split; auto.
  now apply base_valid_extends with h.
Qed.

(** Entries of the other matrix, and of a narrow block as it is and as it is taken. *)
Lemma ones_entries : forall (h : @heap Z) b q, base_valid h b -> strided_type (bm_layout b) = true ->
  entries_are (paint h (contents (r_alloc (c_region (bm_data b))) q)) b (fun _ _ => 1%Z).
Proof.
  intros h b q Vb Hs. apply painted_entries; auto. intros p _. unfold contents, entry_cell, cell_of_region.
  cbn [fst snd]. now rewrite Nat.eqb_refl.
Qed.

Lemma zero_entries : forall (h : @heap Z) b o q, base_valid h b -> strided_type (bm_layout b) = true ->
  r_alloc (c_region (bm_data b)) <> o -> r_alloc (c_region (bm_data b)) <> fst q ->
  entries_are (paint h (contents o q)) b (fun _ _ => 0%Z).
Proof.
  intros h b o q Vb Hs Ho Hq. apply painted_entries; auto. intros p _. unfold contents, entry_cell, cell_of_region.
  cbn [fst snd]. apply Nat.eqb_neq in Ho, Hq. now rewrite Ho, Hq.
Qed.

Lemma narrow_entries : forall (h : @heap Z) l d x o, block_of_dense h l d x -> ~ unbroken l d ->
  r_alloc (c_region (bm_data x)) <> o ->
  let h1 := paint h (contents o (odd_cell l d x)) in
  entries_are h1 x (fun _ _ => 0%Z) /\
  entries_are h1 (as_dense x) (fun i j =>
    if (i =? fst (odd_position l)) && (j =? snd (odd_position l)) then 1%Z else 0%Z).
Proof.
  intros h l d x o Hx Hu Ho h1. destruct (narrow_facts Z h l d x Hx Hu) as (_ & Hin & Hout).
  destruct (block_of_dense_ok h l d x Hx) as (Vx & Cx & Dx).
  destruct (chain_as_dense h x Vx Cx) as (Va & Da & Ea). apply Nat.eqb_neq in Ho.
  split; apply painted_entries; auto.
  - destruct (bm_layout x); cbn in Cx; try contradiction; reflexivity.
  - intros p Hp. rewrite Dx in Hp. specialize (Hout p Hp). unfold contents, odd_cell, entry_cell, cell_of_region.
    cbn [fst snd]. rewrite Ho, Nat.eqb_refl. cbn [andb].
    match goal with |- context [?a =? ?b] => destruct (N.eqb_spec a b) end; [lia|reflexivity].
  - destruct (bm_layout (as_dense x)); cbn in Da; try discriminate; reflexivity.
  - intros p Hp. rewrite Ea, Dx in Hp. specialize (Hin p Hp). unfold contents, odd_cell, entry_cell, cell_of_region.
    cbn [fst snd]. change (bm_data (as_dense x)) with (bm_data x). rewrite Ho, Nat.eqb_refl. cbn [andb].
    match goal with |- (if ?a =? ?b then _ else _) = _ => destruct (N.eqb_spec a b) as [E|E] end.
    + assert (P : p = odd_position l) by (apply Hin; lia). rewrite P, !N.eqb_refl. reflexivity.
    + destruct (N.eqb_spec (fst p) (fst (odd_position l))) as [E1|]; [|reflexivity].
      destruct (N.eqb_spec (snd p) (snd (odd_position l))) as [E2|]; [|reflexivity].
      exfalso. apply E. f_equal. apply Hin. destruct p, (odd_position l). cbn [fst snd] in *. congruence.
Qed.

Lemma apart_no_overlap : forall a b, apart a b -> no_overlap a b.
Proof.
  intros a b H p q _ _ E. apply H. unfold entry_cell, cell_of_region in E. now injection E as E _.
Qed.

Lemma apart_dense : forall a b, apart a b -> apart (as_dense a) (as_dense b).
Proof. intros a b H. exact H. Qed.

Lemma operand_strided : forall l, product_operand l = true -> strided_type l = true.
Proof. intros l H. unfold product_operand in H. now apply andb_prop in H as [H _]. Qed.

(** A narrow block as left operand: it is zero, but the product is not. *)
Lemma c34_narrow_a : forall kern (h : @heap Z) l d x b c, computes kern ->
  block_of_dense h l d x -> ~ unbroken l d ->
  product_operand (bm_layout b) = true -> base_valid h b ->
  product_operand (bm_layout c) = true -> no_aliasing (bm_layout c) -> base_valid h c ->
  apart x b -> apart x c -> apart b c ->
  compatible (dim (bm_layout x)) (dim (bm_layout b)) (dim (bm_layout c)) -> 1 <= snd (dim (bm_layout b)) ->
  exists h1 h2 p, same_sizes h h1 /\
    entries_are h1 x (fun _ _ => 0%Z) /\ entries_are h1 b (fun _ _ => 1%Z) /\ entries_are h1 c (fun _ _ => 0%Z) /\
    matmul kern h1 1%Z x b 0%Z c = Ok h2 /\ in_range (dim (bm_layout c)) p /\ base_entry h2 c p = Some 1%Z.
Proof.
  intros kern h l d x b c Hk Hx Hu Pb Vb Pc Nc Vc Axb Axc Abc Hd Hb.
  destruct (block_of_dense_ok h l d x Hx) as (Vx & Cx & Dx).
  destruct (narrow_facts Z h l d x Hx Hu) as ([Hr Hc] & _ & _).
  set (h1 := paint h (contents (r_alloc (c_region (bm_data b))) (odd_cell l d x))).
  destruct (narrow_entries h l d x _ Hx Hu Axb) as [Ex Ea]. fold h1 in Ex, Ea.
  assert (He : extends h h1) by apply paint_extends.
  assert (Eb : entries_are h1 b (fun _ _ => 1%Z)) by (apply ones_entries; auto using operand_strided).
  assert (Ec : entries_are h1 c (fun _ _ => 0%Z)).
  { apply zero_entries; auto using operand_strided. }
  destruct (c34_views_exact kern h1 1%Z x b 0%Z c
    (fun i j => if (i =? fst (odd_position l)) && (j =? snd (odd_position l)) then 1%Z else 0%Z)
    (fun _ _ => 1%Z) (fun _ _ => 0%Z)) as (h2 & E & E2 & _); auto.
  - right. exists l, d. now apply block_of_dense_extends with h.
  - left. split; auto. now apply base_valid_extends with h.
  - left. splits; auto. now apply base_valid_extends with h.
  - apply apart_no_overlap. exact Axc.
  - apply apart_no_overlap. exact Abc.
  - now rewrite operand_as_dense.
  - now rewrite operand_as_dense.
  - destruct Hd as (D1 & D2 & D3). rewrite Dx in *.
    assert (Hp : in_range (dim (bm_layout c)) (fst (odd_position l), 0)).
    { split; cbn [fst snd]; lia. }
    exists h1, h2, (fst (odd_position l), 0). splits; auto.
    + apply paint_sizes.
    + rewrite operand_as_dense in E2 by auto. rewrite (E2 _ _ Hp). f_equal. unfold product_entry.
      rewrite (sum_below_single _ (snd (odd_position l))).
      * destruct (N.ltb_spec (snd (odd_position l)) (N.of_nat (N.to_nat (snd d)))); [reflexivity|lia].
      * now rewrite !N.eqb_refl.
      * intros k Hk'. apply N.eqb_neq in Hk'. now rewrite Hk', andb_false_r.
Qed.

(** As right operand. *)
Lemma c34_narrow_b : forall kern (h : @heap Z) l d x a c, computes kern ->
  block_of_dense h l d x -> ~ unbroken l d ->
  product_operand (bm_layout a) = true -> base_valid h a ->
  product_operand (bm_layout c) = true -> no_aliasing (bm_layout c) -> base_valid h c ->
  apart x a -> apart x c -> apart a c ->
  compatible (dim (bm_layout a)) (dim (bm_layout x)) (dim (bm_layout c)) -> 1 <= fst (dim (bm_layout a)) ->
  exists h1 h2 p, same_sizes h h1 /\
    entries_are h1 a (fun _ _ => 1%Z) /\ entries_are h1 x (fun _ _ => 0%Z) /\ entries_are h1 c (fun _ _ => 0%Z) /\
    matmul kern h1 1%Z a x 0%Z c = Ok h2 /\ in_range (dim (bm_layout c)) p /\ base_entry h2 c p = Some 1%Z.
Proof.
  intros kern h l d x b c Hk Hx Hu Pb Vb Pc Nc Vc Axb Axc Abc Hd Hb.
  destruct (block_of_dense_ok h l d x Hx) as (Vx & Cx & Dx).
  destruct (narrow_facts Z h l d x Hx Hu) as ([Hr Hc] & _ & _).
  set (h1 := paint h (contents (r_alloc (c_region (bm_data b))) (odd_cell l d x))).
  destruct (narrow_entries h l d x _ Hx Hu Axb) as [Ex Ea]. fold h1 in Ex, Ea.
  assert (He : extends h h1) by apply paint_extends.
  assert (Eb : entries_are h1 b (fun _ _ => 1%Z)) by (apply ones_entries; auto using operand_strided).
  assert (Ec : entries_are h1 c (fun _ _ => 0%Z)).
  { apply zero_entries; auto using operand_strided. }
  destruct (c34_views_exact kern h1 1%Z b x 0%Z c (fun _ _ => 1%Z)
    (fun i j => if (i =? fst (odd_position l)) && (j =? snd (odd_position l)) then 1%Z else 0%Z)
    (fun _ _ => 0%Z)) as (h2 & E & E2 & _); auto.
  - left. split; auto. now apply base_valid_extends with h.
  - right. exists l, d. now apply block_of_dense_extends with h.
  - left. splits; auto. now apply base_valid_extends with h.
  - apply apart_no_overlap. exact Abc.
  - apply apart_no_overlap. exact Axc.
  - now rewrite operand_as_dense.
  - now rewrite operand_as_dense.
  - destruct Hd as (D1 & D2 & D3). rewrite Dx in *.
    assert (Hp : in_range (dim (bm_layout c)) (0, snd (odd_position l))).
    { split; cbn [fst snd]; lia. }
    exists h1, h2, (0, snd (odd_position l)). splits; auto.
    + apply paint_sizes.
    + rewrite operand_as_dense in E2 by auto. rewrite (E2 _ _ Hp). f_equal. unfold product_entry.
      rewrite (sum_below_single _ (fst (odd_position l))).
      * rewrite D1. destruct (N.ltb_spec (fst (odd_position l)) (N.of_nat (N.to_nat (fst d)))); [reflexivity|lia].
      * now rewrite !N.eqb_refl.
      * intros k Hk'. apply N.eqb_neq in Hk'. now rewrite Hk'.
Qed.

Lemma sum_below_ones : forall n, sum_below n (fun _ => smul 1%Z 1%Z) = Z.of_nat n.
Proof. induction n as [|n IH]; [reflexivity|]. cbn [sum_below]. rewrite IH. cbn. lia. Qed.

(** As destination: a cell outside of the block is overwritten. *)
Lemma c34_narrow_c : forall kern (h : @heap Z) l d x a b, computes kern ->
  block_of_dense h l d x -> ~ unbroken l d ->
  product_operand (bm_layout a) = true -> base_valid h a ->
  product_operand (bm_layout b) = true -> base_valid h b ->
  apart x a -> apart x b ->
  compatible (dim (bm_layout a)) (dim (bm_layout b)) (dim (bm_layout x)) -> 1 <= snd (dim (bm_layout a)) ->
  exists h1 h2 q, same_sizes h h1 /\ matmul kern h1 1%Z a b 0%Z x = Ok h2 /\
    (forall p, in_range (dim (bm_layout x)) p -> entry_cell x p <> q) /\
    hget h1 (fst q) (snd q) = Some 0%Z /\ hget h2 (fst q) (snd q) = Some (Z.of_N (snd (dim (bm_layout a)))).
Proof.
  intros kern h l d x a b Hk Hx Hu Pa Va Pb Vb Axa Axb Hd Hb.
  destruct (block_of_dense_ok h l d x Hx) as (Vx & Cx & Dx).
  destruct (narrow_facts Z h l d x Hx Hu) as (Hp & Hin & Hout).
  destruct (chain_as_dense h x Vx Cx) as (Vd & Dd & Ed).
  set (alloc := r_alloc (c_region (bm_data x))).
  set (f := fun (i : nat) (_ : N) => if (i =? alloc)%nat then 0%Z else 1%Z).
  set (h1 := paint h f).
  assert (He : extends h h1) by apply paint_extends.
  assert (O : forall y, product_operand (bm_layout y) = true -> base_valid h y -> apart x y ->
    entries_are h1 y (fun _ _ => 1%Z)).
  { intros y Py Vy Ay. apply painted_entries; auto using operand_strided. intros p _. unfold f, entry_cell, cell_of_region.
    cbn [fst snd]. destruct (Nat.eqb_spec (r_alloc (c_region (bm_data y))) alloc) as [E|]; [|reflexivity].
    exfalso. apply Ay. symmetry. exact E. }
  assert (Ex : entries_are h1 (as_dense x) (fun _ _ => 0%Z)).
  { apply painted_entries; auto. { destruct (bm_layout (as_dense x)); cbn in Dd; try discriminate; reflexivity. }
    intros p _. unfold f, entry_cell, cell_of_region. cbn [fst snd]. change (bm_data (as_dense x)) with (bm_data x).
    fold alloc. now rewrite Nat.eqb_refl. }
  destruct (c34_views_exact kern h1 1%Z a b 0%Z x (fun _ _ => 1%Z) (fun _ _ => 1%Z) (fun _ _ => 0%Z))
    as (h2 & E & E2 & _); auto.
  - left. split; auto. now apply base_valid_extends with h.
  - left. split; auto. now apply base_valid_extends with h.
  - right. exists l, d. now apply block_of_dense_extends with h.
  - apply apart_no_overlap. intros E. apply Axa. symmetry. exact E.
  - apply apart_no_overlap. intros E. apply Axb. symmetry. exact E.
  - rewrite operand_as_dense by auto. now apply O.
  - rewrite operand_as_dense by auto. now apply O.
  - exists h1, h2, (entry_cell (as_dense x) (odd_position l)). splits; auto.
    + apply paint_sizes.
    + intros p Hp' Eq. rewrite Dx in Hp'. apply (Hout p Hp').
      pose proof (proj2 (Hin _ Hp) eq_refl) as Eo. rewrite <- Eo. unfold entry_cell, cell_of_region in Eq.
      apply (f_equal snd) in Eq. cbn [snd] in Eq. change (bm_data (as_dense x)) with (bm_data x) in Eq.
      now apply N.add_cancel_l in Eq.
    + specialize (Ex (fst (odd_position l)) (snd (odd_position l))).
      rewrite <- surjective_pairing in Ex. apply Ex. now rewrite Ed, Dx.
    + specialize (E2 (fst (odd_position l)) (snd (odd_position l))).
      rewrite <- surjective_pairing in E2. unfold base_entry in E2. rewrite E2 by now rewrite Ed, Dx.
      f_equal. unfold product_entry. rewrite sum_below_ones, N_nat_Z. cbn. now destruct (snd (dim (bm_layout a))).
Qed.
