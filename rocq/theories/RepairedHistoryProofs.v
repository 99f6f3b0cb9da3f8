(** * RepairedHistoryProofs: with a truthful [stride] the library refines the abstract
    machine for more histories (C62). *)

From Coq Require Import Lia ZArith ZifyBool ZifyNat ZifyN.
From Verif Require Import Machine Layouts Memory Matrix MatMul MachineFacts Spec LayoutFacts LayoutProofs
  MemoryFacts MatrixSpec AccessFacts AccessProofs ConstructorProofs BlockProofs ExprSpec ExprProofs
  ProductSpec ProductProofs Program HistorySpec ModeProofs HistoryProofs HistorySafety ModeSafety Abstract AbstractFacts
  AbstractProofs Repaired RepairedProofs RepairedHistory.
Local Open Scope N_scope.

Section RepairedHistoryProofs.
Context {T : Type} {SC : HScalar T} {St : Type}.
Notation heap := (@heap T).
Notation amatrix := (@amatrix T).
Notation handle := (@handle T).
Notation astate := (@astate T).
Variable kern : kernel T.
Notation exec_repaired := (@exec_with T SC St repaired_stride kern Checked).

Definition simulated_with (st : state T) (ast : astate) (o : call T St) : Prop :=
  exists st', step_with repaired_stride kern Checked st o = Ok (st', snd (astep kern ast o)) /\
              state_rel st' (fst (astep kern ast o)).

Lemma with_panic : forall st ast o r, state_rel st ast ->
  exec_repaired st o = Some Panic -> r = astep kern ast o -> r = panic ast ->
  simulated_with st ast o.
Proof. intros st ast o r H E -> E'. exists st. unfold step_with. rewrite E, E'. split; [reflexivity|exact H]. Qed.

Lemma with_skip : forall st ast o, state_rel st ast ->
  exec_repaired st o = None -> astep kern ast o = skip ast -> simulated_with st ast o.
Proof. intros st ast o H E E'. exists st. unfold step_with. rewrite E, E'. split; [reflexivity|exact H]. Qed.

Lemma with_ok : forall st ast o st' r ast', exec_repaired st o = Some (Ok (st', r)) ->
  astep kern ast o = (ast', r) -> state_rel st' ast' -> simulated_with st ast o.
Proof. intros st ast o st' r ast' E E' H. exists st'. unfold step_with. rewrite E, E'. split; [reflexivity|exact H]. Qed.

(** ** Blocks *)

Lemma chain_blockable : forall l, chain l -> nonempty (dim l) -> blockable l.
Proof.
  intros l H [H0 H1]. unfold separated. destruct l; cbn in *; try contradiction; auto; unfold separated; lia.
Qed.

Lemma true_view_chain : forall mut b tl d, chain (bm_layout b) -> inside (dim (bm_layout b)) tl d ->
  chain (bm_layout (true_view mut b tl d)).
Proof.
  intros mut b tl d H [H0 H1]. unfold true_view, view, order_of. cbn [bm_layout].
  destruct (bm_layout b); cbn in *; try contradiction; lia.
Qed.

Lemma repaired_window : forall (h : heap) (ms : list amatrix) b w mut tl d, heap_rel h ms -> window_rel h ms b w ->
  has_blocks w = true -> nonempty d -> inside (w_dim w) tl d ->
  block_with repaired_stride Checked mut b tl d = Ok (true_view mut b tl d) /\
  window_rel h ms (true_view mut b tl d)
    (mkWindow (w_matrix w) (shift (w_origin w) tl) d (w_kind w) (Dynamic, Dynamic) true mut 0).
Proof.
  intros h ms b w mut tl d Hh Hb Hw Hne Hin. pose proof (has_blocks_chain _ _ _ _ Hb Hw) as Hch.
  rewrite <- (wr_dim _ _ _ _ Hb) in Hin.
  assert (Hbl : blockable (bm_layout b)).
  { apply chain_blockable; auto. destruct Hne, Hin. split; lia. }
  destruct (repaired_block_ok Checked h mut b tl d (wr_valid _ _ _ _ Hb) Hbl Hne Hin) as (E & Hv).
  pose proof (true_view_chain mut b tl d Hch Hin) as Hch'.
  destruct (true_view_window mut b tl d Hbl) as (Wd & Wk & Wc).
  split; [exact E|].
  assert (Hs : has_strides (bm_layout (true_view mut b tl d)) = true).
  { unfold true_view, view. cbn [bm_layout]. destruct (order_of (bm_layout b)); reflexivity. }
  constructor; cbn [w_dim w_kind w_sizes w_view w_mut w_matrix w_origin]; auto.
  - rewrite <- (wr_kind _ _ _ _ Hb). unfold true_view, view, order_of. cbn [bm_layout].
    destruct (bm_layout b); cbn in Hch |- *; contradiction || reflexivity.
  - unfold true_view, view. cbn [bm_data]. apply slice_container_mut_is.
  - split; discriminate.
  - intros _. rewrite <- (wr_kind _ _ _ _ Hb).
    destruct (bm_layout b); cbn in Hch |- *; contradiction || discriminate.
  - discriminate.
  - destruct (wr_root _ _ _ _ Hb) as (a & Ha & Hk & Hi & Hwh & Hc). exists a.
    rewrite (wr_dim _ _ _ _ Hb) in Hin.
    assert (Hnt : w_kind w <> KUpperTriangular).
    { rewrite <- (wr_kind _ _ _ _ Hb). destruct (bm_layout b); cbn in Hch |- *; contradiction || discriminate. }
    splits; auto.
    + unfold inside, shift in *. cbn [fst snd] in *. lia.
    + discriminate.
    + intros p [Hp _]. rewrite (Wc p Hp). rewrite Hc.
      * f_equal. f_equal. unfold shift. cbn [fst snd]. now rewrite !N.add_assoc.
      * split; [|congruence]. unfold in_range, inside, shift in *. cbn [fst snd] in *. lia.
Qed.

Lemma repaired_outside_panics : forall mut b tl d o, block_order (bm_layout b) = Some o ->
  ~ inside (dim (bm_layout b)) tl d -> block_with repaired_stride Checked mut b tl d = Panic.
Proof.
  intros mut b tl d o Ho Hi. unfold block_with. rewrite Ho. unfold uadd.
  destruct (fst tl + fst d <? usize_mod); cbn [bind overflow]; auto.
  destruct (snd tl + snd d <? usize_mod); cbn [bind overflow]; auto.
  destruct ((fst tl + fst d <=? fst (dim (bm_layout b))) && (snd tl + snd d <=? snd (dim (bm_layout b)))) eqn:E; auto.
  exfalso. apply Hi. unfold inside. lia.
Qed.


Lemma repaired_block_simulated : forall st ast mut x tl d, state_rel st ast ->
  in_wider_scope ast (@CBlock T St mut x tl d) -> simulated_with st ast (CBlock mut x tl d).
Proof.
  intros st ast mut x tl d H Hne. cbn [in_wider_scope] in Hne.
  assert (Hx : match (if mut then awindow_mut ast x else awindow_of ast x) with
               | Some w => exists b, lookup_block st mut x = Some b /\
                   window_rel (st_heap st) (as_matrices ast) b w /\ awindow_of ast x = Some w
               | None => lookup_block st mut x = None end).
  { unfold lookup_block. destruct mut.
    - pose proof (lookup_mut_rel st ast x H) as Hx. destruct (awindow_mut ast x); [|exact Hx].
      destruct Hx as (b & E1 & E2 & _ & E3). eauto.
    - pose proof (lookup_base_rel st ast x H) as Hx. destruct (awindow_of ast x); [|exact Hx].
      destruct Hx as (b & E1 & E2). eauto. }
  set (ow := if mut then awindow_mut ast x else awindow_of ast x) in *.
  assert (Eow : forall k : awindow -> astate * result T St,
    on ast (if mut then awindow_mut ast x else awindow_of ast x) k = on ast ow k) by reflexivity.
  destruct ow as [w|] eqn:Ew.
  2:{ apply with_skip; [exact H|cbn [exec_with]; rewrite Hx; reflexivity|].
      cbn [astep]. rewrite Eow. reflexivity. }
  destruct Hx as (b & Eb & Hb & Eof).
  pose proof (has_blocks_order _ _ _ _ Hb) as Hord.
  destruct (has_blocks w) eqn:Ebl.
  2:{ apply with_skip; [exact H| |cbn [astep]; rewrite Eow; cbn [on]; rewrite Ebl; reflexivity].
      cbn [exec_with]. rewrite Eb. cbn [typed]. unfold base_sizes.
      destruct (is_dynamic (bm_rs b, bm_cs b)); [|reflexivity].
      destruct (block_order (bm_layout b)); [discriminate Hord|reflexivity]. }
  assert (Ex : exec_repaired st (@CBlock T St mut x tl d) = Some (new_view st (block_with repaired_stride Checked mut b tl d))).
  { cbn [exec_with]. rewrite Eb. cbn [typed]. unfold base_sizes.
    destruct (is_dynamic (bm_rs b, bm_cs b)); [|discriminate Hord].
    destruct (block_order (bm_layout b)); [reflexivity|discriminate Hord]. }
  assert (Ea : astep kern ast (@CBlock T St mut x tl d) =
    demand ast ((fst tl + fst d <=? fst (w_dim w)) && (snd tl + snd d <=? snd (w_dim w)))
      (new_handles ast [block_of w mut tl d])).
  { cbn [astep]; rewrite Eow; cbn [on]; rewrite Ebl; reflexivity. }
  destruct ((fst tl + fst d <=? fst (w_dim w)) && (snd tl + snd d <=? snd (w_dim w)))%bool eqn:Ein.
  - apply inside_iff in Ein.
    destruct (repaired_window (st_heap st) (as_matrices ast) b w mut tl d (proj1 H) Hb Ebl Hne Ein) as (E & Hv).
    rewrite E in Ex. eapply with_ok; [exact Ex|exact Ea|].
    apply state_rel_handles; auto.
  - assert (Hout : ~ inside (w_dim w) tl d) by (intros Hi; apply inside_iff in Hi; congruence).
    destruct (block_order (bm_layout b)) as [o|] eqn:Eo.
    2:{ rewrite Bool.andb_false_r in Hord. discriminate. }
    rewrite (repaired_outside_panics mut b tl d o Eo) in Ex; auto.
    + eapply with_panic; [exact H|exact Ex|symmetry; exact Ea|reflexivity].
    + rewrite (wr_dim _ _ _ _ Hb). exact Hout.
Qed.


(** ** Products *)

Lemma repaired_c32 : forall (h : heap) alpha a b beta c A B C,
  base_valid h a -> base_valid h b -> base_valid h c ->
  strided_type (bm_layout a) = true -> strided_type (bm_layout b) = true -> strided_type (bm_layout c) = true ->
  no_aliasing (bm_layout c) -> no_overlap a c -> no_overlap b c ->
  compatible (dim (bm_layout a)) (dim (bm_layout b)) (dim (bm_layout c)) ->
  entries_are h a A -> entries_are h b B -> entries_are h c C ->
  exists h' sh, matmul_with repaired_stride kern h alpha a b beta c = Ok h' /\
    changes_only (fun q => exists p, in_range (dim (bm_layout c)) p /\ q = entry_cell c p) h h' /\
    g_m sh = fst (dim (bm_layout a)) /\ g_k sh = snd (dim (bm_layout a)) /\ g_n sh = snd (dim (bm_layout b)) /\
    entries_are h' c (fun i j =>
      kern sh i j alpha (row_and_column (snd (dim (bm_layout a))) A B i j) beta (C i j)).
Proof.
  intros h alpha a b beta c A B C Va Vb Vc Ha Hb Hc Nc Na Nb Hd EA EB EC.
  destruct (repaired_told h a Va Ha) as (Ta & Ca). destruct (repaired_told h b Vb Hb) as (Tb & Cb).
  destruct (repaired_told h c Vc Hc) as (Tc & Cc).
  set (sa := true_stride (bm_layout a)) in *. set (sb := true_stride (bm_layout b)) in *. set (sc := true_stride (bm_layout c)) in *.
  apply (told_entries_true h a sa) in EA; auto. apply (told_entries_true h b sb) in EB; auto.
  apply (told_entries_true h c sc) in EC; auto.
  destruct (gemm_told kern h alpha a b beta c sa sb sc A B C) as (h' & E & Ch & Eh); auto.
  - intros p q Hp Hq. rewrite Ca, Cc by auto. now apply Na.
  - intros p q Hp Hq. rewrite Cb, Cc by auto. now apply Nb.
  - intros p q Hp Hq. rewrite !Cc by auto. apply entry_cell_in; auto. now apply distinct_no_aliasing.
  - exists h'. eexists. split; [|split; [|split; [|split; [|split]]]].
    3-5: shelve.
    + rewrite (matmul_with_unfold _ kern h alpha a b beta c sa sb sc) by (auto; now apply repaired_is). exact E.
    + eapply changes_only_weaken; [|exact Ch]. intros q (p & Hp & ->). exists p. split; auto.
    + apply (told_entries_true h' c sc) in Eh; auto. exact Eh.
    Unshelve. all: reflexivity.
Qed.

Lemma matmul_with_incompatible : forall (h : heap) alpha a b beta c,
  ~ compatible (dim (bm_layout a)) (dim (bm_layout b)) (dim (bm_layout c)) ->
  matmul_with repaired_stride kern h alpha a b beta c = Panic.
Proof.
  intros h alpha a b beta c H. unfold matmul_with.
  destruct (matmul_dims_ok _ _ _) eqn:E; auto. apply matmul_dims in E. contradiction.
Qed.

Lemma window_strided : forall (h : heap) (ms : list amatrix) b w, window_rel h ms b w ->
  w_kind w <> KUpperTriangular -> strided_type (bm_layout b) = true.
Proof. intros h ms b w Hb Hn. rewrite (window_strided_type _ _ _ _ Hb). now apply not_triangular. Qed.

Hypothesis kern_shape : ignores_strides kern.


Lemma repaired_product : forall (h : heap) (ms : list amatrix) alpha a u b v beta c w,
  heap_rel h ms -> window_rel h ms a u -> window_rel h ms b v -> window_rel h ms c w ->
  w_kind u <> KUpperTriangular -> w_kind v <> KUpperTriangular -> w_kind w <> KUpperTriangular ->
  apart u w -> apart v w ->
  compatible (w_dim u) (w_dim v) (w_dim w) ->
  exists h', matmul_with repaired_stride kern h alpha a b beta c = Ok h' /\ extends h h' /\
    heap_rel h' (put_all ms w
      (aproduct kern alpha (w_dim u) (w_dim v) (wvalue ms u) (wvalue ms v) beta (wvalue ms w))).
Proof.
  intros h ms alpha a u b v beta c w Hh Ha Hb Hc Nu Nv Nw Auw Avw Hd.
  destruct (repaired_c32 h alpha a b beta c (fun i j => wvalue ms u (i, j)) (fun i j => wvalue ms v (i, j))
              (fun i j => wvalue ms w (i, j))) as (h' & sh & E & Hch & G1 & G2 & G3 & He);
    eauto using wr_valid, window_strided, view_no_aliasing, apart_no_overlap, window_entries.
  { now rewrite (wr_dim _ _ _ _ Ha), (wr_dim _ _ _ _ Hb), (wr_dim _ _ _ _ Hc). }
  exists h'. split; [exact E|]. split; [apply Hch|].
  rewrite (wr_dim _ _ _ _ Hc) in Hch. apply (heap_rel_put_all h ms h' c w); auto.
  intros [i j] Hp. rewrite <- (wr_dim _ _ _ _ Hc) in Hp. rewrite (He i j Hp). f_equal.
  rewrite (wr_dim _ _ _ _ Ha) in *. rewrite (wr_dim _ _ _ _ Hb) in *. unfold aproduct. cbn [fst snd].
  rewrite (kern_shape sh (mkShape (fst (w_dim u)) (snd (w_dim u)) (snd (w_dim v)) (0, 0)%Z (0, 0)%Z (0, 0)%Z)); auto.
Qed.

Lemma repaired_matmul_simulated : forall st ast alpha a b beta c, state_rel st ast ->
  in_wider_scope ast (@CMatmul T St alpha a b beta c) -> simulated_with st ast (CMatmul alpha a b beta c).
Proof.
  intros st ast alpha a b beta c H Hsc. cbn [in_wider_scope] in Hsc.
  pose proof (lookup_base_rel st ast a H) as Ha. pose proof (lookup_base_rel st ast b H) as Hb.
  pose proof (lookup_mut_rel st ast c H) as Hc.
  destruct (awindow_of ast a) as [u|] eqn:Eu.
  2:{ apply with_skip; [exact H|cbn [exec_with]; rewrite Ha; reflexivity|cbn [astep]; rewrite Eu; reflexivity]. }
  destruct Ha as (a0 & Ea & Ha).
  destruct (awindow_of ast b) as [v|] eqn:Ev.
  2:{ apply with_skip; [exact H|cbn [exec_with]; rewrite Ea, Hb; reflexivity
                            |cbn [astep]; rewrite Eu, Ev; reflexivity]. }
  destruct Hb as (b0 & Eb & Hb).
  destruct (awindow_mut ast c) as [w|] eqn:Ew.
  2:{ apply with_skip; [exact H|cbn [exec_with]; rewrite Ea, Eb, Hc; reflexivity
                            |cbn [astep]; rewrite Eu, Ev, Ew; reflexivity]. }
  destruct Hc as (c0 & Ec & Hc & _ & Eof). specialize (Hsc u v w eq_refl eq_refl Eof).
  pose proof (proj1 H) as Hh.
  assert (Ety : matmul_typed a0 b0 c0 = products_typed u v w).
  { unfold matmul_typed, products_typed, base_sizes.
    rewrite (window_strided_type _ _ _ _ Ha), (window_strided_type _ _ _ _ Hb), (window_strided_type _ _ _ _ Hc).
    rewrite (wr_sizes _ _ _ _ Ha), (wr_sizes _ _ _ _ Hb), (wr_sizes _ _ _ _ Hc). reflexivity. }
  assert (Ex : exec_repaired st (@CMatmul T St alpha a b beta c) =
     when (products_typed u v w) (Some (done st (matmul_with repaired_stride kern (st_heap st) alpha a0 b0 beta c0)))).
  { cbn [exec_with]. rewrite Ea, Eb, Ec. cbn [typed]. rewrite Ety. reflexivity. }
  assert (Es : astep kern ast (@CMatmul T St alpha a b beta c) =
     provided ast (products_typed u v w) (demand ast (compatibleb (w_dim u) (w_dim v) (w_dim w))
       (changed ast (put_all (as_matrices ast) w (aproduct kern alpha (w_dim u) (w_dim v)
          (wvalue (as_matrices ast) u) (wvalue (as_matrices ast) v) beta (wvalue (as_matrices ast) w)))))).
  { cbn [astep]. rewrite Eu, Ev, Ew. reflexivity. }
  destruct (products_typed u v w) eqn:Ept; [|apply with_skip; auto].
  destruct (Hsc eq_refl) as (Auw & Avw).
  unfold products_typed in Ept. rewrite !Bool.andb_true_iff, !not_triangular in Ept.
  destruct Ept as [[[Nu Nv] Nw] _].
  cbn [when] in Ex. unfold provided in Es.
  destruct (compatibleb (w_dim u) (w_dim v) (w_dim w)) eqn:Ed.
  - apply compatibleb_iff in Ed.
    destruct (repaired_product (st_heap st) (as_matrices ast) alpha a0 u b0 v beta c0 w) as (h' & E & He & Hr); auto.
    rewrite E in Ex. eapply with_ok; [exact Ex|exact Es|].
    apply state_rel_heap; auto. apply same_roots_put_all.
  - rewrite matmul_with_incompatible in Ex.
    + eapply with_panic; [exact H|exact Ex|symmetry; exact Es|reflexivity].
    + rewrite (wr_dim _ _ _ _ Ha), (wr_dim _ _ _ _ Hb), (wr_dim _ _ _ _ Hc). intros Hd.
      apply compatibleb_iff in Hd. congruence.
Qed.

Lemma repaired_dot_fresh : forall (h h1 : heap) a b r,
  base_valid h a -> base_valid h b -> strided_type (bm_layout a) = true -> strided_type (bm_layout b) = true ->
  fresh_zeros h h1 r -> product_operand (bm_layout r) = true -> has_strides (bm_layout r) = false ->
  compatible (dim (bm_layout a)) (dim (bm_layout b)) (dim (bm_layout r)) ->
  forall A B, entries_are h a A -> entries_are h b B ->
  exists h' sh, matmul_with repaired_stride kern h1 sone a b szero r = Ok h' /\
    length h' = length h1 /\ g_m sh = fst (dim (bm_layout a)) /\ g_k sh = snd (dim (bm_layout a)) /\ g_n sh = snd (dim (bm_layout b)) /\
    fresh_matrix h h' r (fst (dim (bm_layout a)), snd (dim (bm_layout b))) (fun i j =>
      kern sh i j sone (row_and_column (snd (dim (bm_layout a))) A B i j) szero szero).
Proof.
  intros h h1 a b r Va Vb Sa Sb (Oa & Vr & Lr & Mr & Zr) Pr Hs Hd A B EA EB.
  pose proof (only_allocates_extends _ _ Oa) as He.
  assert (Old : forall x, base_valid h x -> (r_alloc (c_region (bm_data x)) < length h)%nat).
  { intros x ((Hr & _) & _). now apply region_ok_alloc. }
  assert (Keep : forall x F, base_valid h x -> entries_are h x F -> entries_are h1 x F).
  { intros x F Vx E i j Hp. rewrite <- (E i j Hp). unfold base_entry. apply (only_allocates_hget h h1 Oa).
    now apply Old. }
  assert (No : forall x, base_valid h x -> no_overlap x r).
  { intros x Vx p q _ _ E. unfold entry_cell, cell_of_region in E. injection E as E _.
    pose proof (Old x Vx). lia. }
  destruct (repaired_c32 h1 sone a b szero r A B (fun _ _ => szero)) as (h' & sh & E & Ch & G1 & G2 & G3 & Eh);
    auto using operand_true, true_strided_type; try (now apply base_valid_extends with h).
  - intros X. congruence.
  - intros i j Hp. apply Zr. apply strided_stored; auto. apply true_strided_type. now apply operand_true.
  - exists h', sh. splits; auto; [apply Ch|]. split; [|split; [|split; [|split; [|split]]]]; auto.
    + apply same_hget_only_allocates.
      * apply extends_trans with h1; auto. apply Ch.
      * intros x i Hx. destruct Ch as (_ & _ & Ch). rewrite Ch; [now apply only_allocates_hget|].
        intros (p & _ & Ep). injection Ep as Ex _. lia.
    + apply base_valid_extends with h1; auto. apply Ch.
    + destruct Hd as (D1 & D2 & D3). rewrite <- D2, <- D3. apply surjective_pairing.
Qed.

Lemma repaired_fresh_product : forall st ast (h1 : heap) a u b v r shape d, state_rel st ast ->
  window_rel (st_heap st) (as_matrices ast) a u -> window_rel (st_heap st) (as_matrices ast) b v ->
  w_kind u <> KUpperTriangular -> w_kind v <> KUpperTriangular ->
  d = (fst (w_dim u), snd (w_dim v)) -> snd (w_dim u) = fst (w_dim v) ->
  fresh_zeros (st_heap st) h1 r -> h1 = st_heap st ++ [repeat szero (N.to_nat (count (dot_kind shape) d))] ->
  c_region (bm_data r) = mkRegion (length (st_heap st)) 0 (count (dot_kind shape) d) ->
  bm_layout r = kind_layout (dot_kind shape) d -> dim (kind_layout (dot_kind shape) d) = d ->
  mat_size (@MBase T r) = dot_sizes shape -> 
  (fst (dot_sizes shape) = Fixed1 -> fst d = 1) /\ (snd (dot_sizes shape) = Fixed1 -> snd d = 1) ->
  exists h', matmul_with repaired_stride kern h1 sone a b szero r = Ok h' /\
    state_rel (mkState h' (st_mats st ++ [MBase r]))
      (fst (@new_matrix T St ast d (dot_kind shape) (dot_sizes shape)
         (aproduct kern sone (w_dim u) (w_dim v) (wvalue (as_matrices ast) u) (wvalue (as_matrices ast) v)
            szero (fun _ => szero)))).
Proof.
  intros st ast h1 a u b v r shape d H Ha Hb Nu Nv Ed Hin Hz Eh Hr Hl Hdim Hs Hf. pose proof (proj1 H) as Hh.
  assert (Hd : compatible (dim (bm_layout a)) (dim (bm_layout b)) (dim (bm_layout r))).
  { rewrite (wr_dim _ _ _ _ Ha), (wr_dim _ _ _ _ Hb), Hl, Hdim, Ed. unfold compatible. cbn. auto. }
  assert (Hpo : product_operand (bm_layout r) = true) by (rewrite Hl; destruct shape; reflexivity).
  assert (Hst : has_strides (bm_layout r) = false) by (rewrite Hl; destruct shape; reflexivity).
  pose proof (window_strided _ _ _ _ Ha Nu) as Ta.
  pose proof (window_strided _ _ _ _ Hb Nv) as Tb.
  destruct (repaired_dot_fresh (st_heap st) h1 a b r (wr_valid _ _ _ _ Ha) (wr_valid _ _ _ _ Hb) Ta Tb Hz Hpo Hst Hd
              _ _ (window_entries _ _ _ _ Hh Ha Nu) (window_entries _ _ _ _ Hh Hb Nv))
    as (h' & sh & E & Hl' & G1 & G2 & G3 & (Fo & Fv & Fa & Fm & Fd & Fe)).
  destruct Hz as (Ho & Hv & Hal & Hm & Hzero).
  exists h'. split; [exact E|].
  apply state_rel_new; auto.
  - rewrite Hl', Eh, app_length. cbn. lia.
  - destruct shape; cbn; discriminate.
  - intros [i j] [Hp _]. rewrite <- Hdim, <- Hl in Hp. rewrite (Fe i j Hp). f_equal.
    rewrite (wr_dim _ _ _ _ Ha) in *. rewrite (wr_dim _ _ _ _ Hb) in *. unfold aproduct. cbn [fst snd].
    rewrite (kern_shape sh (mkShape (fst (w_dim u)) (snd (w_dim u)) (snd (w_dim v)) (0, 0)%Z (0, 0)%Z (0, 0)%Z)); auto.
Qed.


Lemma dot_with_panics : forall shape m (h : heap) a b,
  snd (dim (bm_layout a)) <> fst (dim (bm_layout b)) -> dot_with repaired_stride kern shape m h a b = Panic.
Proof.
  intros shape m h a b Hne.
  assert (X : forall o : outcome (heap * base_matrix), o <> UB ->
    ('(h1, res) <- o;; h2 <- matmul_with repaired_stride kern h1 sone a b szero res;; Ok (h2, res)) = Panic).
  { intros [[h1 r] | |] Ho; cbn [bind]; auto; [|congruence].
    rewrite matmul_with_incompatible; auto. intros (D1 & _). congruence. }
  destruct shape; unfold dot_with; apply X.
  - apply zeros_not_ub.
  - apply row_zeros_not_ub.
  - apply column_zeros_not_ub.
Qed.


Lemma dot_with_too_big : forall shape (h : heap) a b, shape_fits shape (dim (bm_layout a)) (dim (bm_layout b)) ->
  isize_max < fst (dim (bm_layout a)) * snd (dim (bm_layout b)) * Npos ssize ->
  dot_with repaired_stride kern shape Checked h a b = Panic.
Proof.
  intros shape h a b Hsh Hn. destruct shape; cbn [shape_fits] in *; unfold dot_with.
  - now rewrite (zeros_panic h KRowMajor _ _ _ eq_refl).
  - unfold row_vector_zeros_from_dim. rewrite Hsh in *. cbn [N.eqb Pos.eqb assert_ bind].
    rewrite vector_container_new_panic by lia. reflexivity.
  - unfold column_vector_zeros_from_dim. rewrite Hsh in *. cbn [N.eqb Pos.eqb assert_ bind].
    rewrite vector_container_new_panic by lia. reflexivity.
Qed.

Lemma repaired_dot_simulated : forall st ast shape a b, state_rel st ast ->
  simulated_with st ast (CDot shape a b).
Proof.
  intros st ast shape a b H.
  pose proof (lookup_base_rel st ast a H) as Ha. pose proof (lookup_base_rel st ast b H) as Hb.
  destruct (awindow_of ast a) as [u|] eqn:Eu.
  2:{ apply with_skip; [exact H|cbn [exec_with]; rewrite Ha; reflexivity|cbn [astep]; rewrite Eu; reflexivity]. }
  destruct Ha as (a0 & Ea & Ha).
  destruct (awindow_of ast b) as [v|] eqn:Ev.
  2:{ apply with_skip; [exact H|cbn [exec_with]; rewrite Ea, Hb; reflexivity
                            |cbn [astep]; rewrite Eu, Ev; reflexivity]. }
  destruct Hb as (b0 & Eb & Hb).
  pose proof (proj1 H) as Hh.
  assert (Ety : dot_typed shape a0 b0 = dots_typed shape u v).
  { unfold dot_typed, dots_typed, base_sizes.
    rewrite (window_strided_type _ _ _ _ Ha), (window_strided_type _ _ _ _ Hb).
    rewrite (wr_sizes _ _ _ _ Ha), (wr_sizes _ _ _ _ Hb). reflexivity. }
  assert (Ex : exec_repaired st (@CDot T St shape a b) =
     when (dots_typed shape u v) (Some (new1 st (dot_with repaired_stride kern shape Checked (st_heap st) a0 b0)))).
  { cbn [exec_with]. rewrite Ea, Eb. cbn [typed]. rewrite Ety. reflexivity. }
  set (d := (fst (w_dim u), snd (w_dim v))).
  assert (Es : astep kern ast (@CDot T St shape a b) =
     provided ast (dots_typed shape u v) (demand ast ((snd (w_dim u) =? fst (w_dim v)) && dot_fits shape d)
       (allocate ast d (dot_kind shape) (dot_sizes shape) (aproduct kern sone (w_dim u) (w_dim v)
          (wvalue (as_matrices ast) u) (wvalue (as_matrices ast) v) szero (fun _ => szero))))).
  { cbn [astep]. rewrite Eu, Ev. reflexivity. }
  destruct (dots_typed shape u v) eqn:Et; [|apply with_skip; auto].
  unfold dots_typed in Et. rewrite !Bool.andb_true_iff, !not_triangular in Et.
  destruct Et as [[Nu Nv] Et].
  cbn [when] in Ex. unfold provided in Es.
  assert (Hfit : dot_fits shape d = true).
  { destruct (wr_fixed _ _ _ _ Ha) as [F1 _]. destruct (wr_fixed _ _ _ _ Hb) as [_ F2].
    destruct shape; cbn [dot_fits d fst snd]; [reflexivity| |].
    - apply Bool.andb_true_iff in Et. destruct Et as [Et _]. apply N.eqb_eq. apply F1.
      destruct (w_sizes u) as [rs cs]; destruct rs, cs; cbn in *; congruence.
    - apply Bool.andb_true_iff in Et. destruct Et as [_ Et]. apply N.eqb_eq. apply F2.
      destruct (w_sizes v) as [rs cs]; destruct rs, cs; cbn in *; congruence. }
  rewrite Hfit, Bool.andb_true_r in Es.
  assert (Hsf : shape_fits shape (dim (bm_layout a0)) (dim (bm_layout b0))).
  { rewrite (wr_dim _ _ _ _ Ha), (wr_dim _ _ _ _ Hb). destruct shape; cbn in *; try apply N.eqb_eq; auto. }
  destruct (snd (w_dim u) =? fst (w_dim v)) eqn:Ei.
  2:{ rewrite dot_with_panics in Ex.
      - eapply with_panic; [exact H|exact Ex|symmetry; exact Es|reflexivity].
      - rewrite (wr_dim _ _ _ _ Ha), (wr_dim _ _ _ _ Hb). apply N.eqb_neq. exact Ei. }
  apply N.eqb_eq in Ei. cbn [demand] in Es.
  destruct (N.le_gt_cases (count (dot_kind shape) d * Npos ssize) isize_max) as [Hc|Hc].
  2:{ rewrite allocate_panic in Es by exact Hc.
      pose proof (dot_with_too_big shape (st_heap st) a0 b0 Hsf) as Hp.
      rewrite (wr_dim _ _ _ _ Ha), (wr_dim _ _ _ _ Hb) in Hp.
      rewrite Hp in Ex by (destruct shape; exact Hc).
      eapply with_panic; [exact H|exact Ex|symmetry; exact Es|reflexivity]. }
  rewrite allocate_new in Es by exact Hc.
  assert (X : exists h1 r, dot_with repaired_stride kern shape Checked (st_heap st) a0 b0 =
      (h2 <- matmul_with repaired_stride kern h1 sone a0 b0 szero r ;; Ok (h2, r)) /\
    fresh_zeros (st_heap st) h1 r /\ h1 = st_heap st ++ [repeat szero (N.to_nat (count (dot_kind shape) d))] /\
    c_region (bm_data r) = mkRegion (length (st_heap st)) 0 (count (dot_kind shape) d) /\
    bm_layout r = kind_layout (dot_kind shape) d /\ dim (kind_layout (dot_kind shape) d) = d /\
    mat_size (@MBase T r) = dot_sizes shape /\
    ((fst (dot_sizes shape) = Fixed1 -> fst d = 1) /\ (snd (dot_sizes shape) = Fixed1 -> snd d = 1))).
  { destruct shape; cbn [dot_kind dot_sizes kind_layout fst snd d] in *;
      unfold dot_with;
      rewrite ?row_vector_from_dim, ?column_vector_from_dim, (wr_dim _ _ _ _ Ha), (wr_dim _ _ _ _ Hb).
    - destruct (zeros_ok Checked (st_heap st) KRowMajor (fst (w_dim u)) (snd (w_dim v)) _ eq_refl Hc)
        as (h1 & r & E & L & Hrs & Hcs & _ & Z & Eh & Er).
      exists h1, r. rewrite E. cbn [bind]. splits; auto; [cbn; congruence|discriminate|discriminate].
    - unfold d in Hfit. cbn [dot_fits fst] in Hfit. rewrite Hfit. apply N.eqb_eq in Hfit. unfold d in *. rewrite Hfit in *. unfold count in *. cbn [fst snd] in *.
      rewrite N.mul_1_l in *.
      destruct (row_vector_ok Checked (st_heap st) (snd (w_dim v)) Hc) as (h1 & r & E & L & Hs & Z & Eh & Er).
      exists h1, r. rewrite E. cbn [bind]. splits; auto. discriminate.
    - unfold d in Hfit. cbn [dot_fits snd] in Hfit. rewrite Hfit. apply N.eqb_eq in Hfit. unfold d in *. rewrite Hfit in *. unfold count in *. cbn [fst snd] in *.
      rewrite N.mul_1_r in *.
      destruct (column_vector_ok Checked (st_heap st) (fst (w_dim u)) Hc) as (h1 & r & E & L & Hs & Z & Eh & Er).
      exists h1, r. rewrite E. cbn [bind]. splits; auto. discriminate. }
  destruct X as (h1 & r & E & Z & Eh & Er & L & Hdim & Hs & Hf).
  destruct (repaired_fresh_product st ast h1 a0 u b0 v r shape d) as (h' & E' & Hst); auto.
  rewrite E, E' in Ex. eapply with_ok; [exact Ex|exact Es|exact Hst].
Qed.

(** ** Histories *)

Lemma repaired_step_simulated : forall st ast (o : call T St), state_rel st ast -> in_wider_scope ast o ->
  simulated_with st ast o.
Proof.
  intros st ast o H Hs.
  destruct o; try exact (step_simulated kern kern_shape _ _ _ H Hs).
  - now apply repaired_block_simulated.
  - now apply repaired_matmul_simulated.
  - now apply repaired_dot_simulated.
Qed.

Lemma repaired_run_simulated : forall (os : list (call T St)) st ast, state_rel st ast ->
  history_in_wider_scope kern ast os ->
  exists st', run_with repaired_stride kern Checked st os = Ok (st', snd (arun kern ast os)) /\
    state_rel st' (fst (arun kern ast os)).
Proof.
  induction os as [|o os IH]; intros st ast H Hs; cbn [run_with arun].
  - exists st. auto.
  - destruct Hs as [Ho Hs]. destruct (repaired_step_simulated st ast o H Ho) as (st1 & E & H1).
    destruct (IH st1 _ H1 Hs) as (st2 & E2 & H2). rewrite E. cbn [bind]. rewrite E2. cbn [bind].
    destruct (astep kern ast o) as [ast1 r]. cbn [fst snd] in *. destruct (arun kern ast1 os) as [ast2 rs].
    cbn [fst snd] in *. eauto.
Qed.
End RepairedHistoryProofs.

Section C62.
Context {T : Type} {SC : HScalar T} {St : Type}.

Lemma exec_with_same : forall kern m st (o : call T St), exec_with stride kern m st o = exec kern m st o.
Proof.
  intros kern m st o. destruct o; try reflexivity. cbn [exec_with exec].
  destruct (lookup_base st a); cbn [typed]; auto. destruct (lookup_base st b); cbn [typed]; auto.
  destruct (dot_typed shape _ _); cbn [when]; auto. destruct shape; reflexivity.
Qed.

Lemma run_with_same : forall kern m (os : list (call T St)) st, run_with stride kern m st os = run kern m st os.
Proof.
  intros kern m os. induction os as [|o os IH]; intros st; [reflexivity|]. cbn [run_with run].
  unfold step_with, step. rewrite exec_with_same.
  destruct (match exec kern m st o with None => _ | Some _ => _ end) as [[st1 r]| |]; cbn [bind]; auto. now rewrite IH.
Qed.

Lemma wider_scope : forall st (o : call T St), in_scope st o -> in_wider_scope st o.
Proof.
  intros st o H. destruct o; try exact H; cbn [in_wider_scope]; auto.
  - apply H.
  - intros u v w Eu Ev Ew Ht. apply (H u v w Eu Ev Ew Ht).
Qed.

Lemma wider_history : forall kern (os : list (call T St)) st, history_in_scope kern st os -> history_in_wider_scope kern st os.
Proof. intros kern os. induction os as [|o os IH]; intros st H; cbn in *; auto. destruct H. auto using wider_scope. Qed.

Lemma c62 : forall kern (os : list (call T St)), ignores_strides kern ->
  history_in_wider_scope kern ainitial os ->
  exists st, run_with repaired_stride kern Checked initial os = Ok (st, snd (arun kern ainitial os)) /\
             same_tables st (fst (arun kern ainitial os)).
Proof.
  intros kern os Hk Hs. destruct (repaired_run_simulated kern Hk os initial ainitial initial_rel Hs) as (st & E & H).
  exists st. split; [exact E|]. apply related_tables. exact H.
Qed.

(** ** Release builds *)

Lemma agrees_block_with : forall mut b tl d, agrees (fun m => block_with repaired_stride m mut b tl d).
Proof.
  intros. unfold block_with. agree; auto using agrees_uadd, agrees_convert_2d_raw, agrees_from_pointer_strided.
Qed.

Lemma agrees_dot_with : forall kern shape (h : @heap T) a b, agrees (fun m => dot_with repaired_stride kern shape m h a b).
Proof.
  intros kern shape h a b. unfold dot_with. destruct shape; agree; eauto using agrees_zeros, agrees_row_dim, agrees_column_dim.
Qed.

Lemma agrees_step_with : forall kern (o : call T St) st st' r, completed r ->
  step_with repaired_stride kern Checked st o = Ok (st', r) -> forall m, step_with repaired_stride kern m st o = Ok (st', r).
Proof.
  intros kern o st st' r Hr H m.
  destruct o; try (match goal with |- step_with _ _ _ _ ?o = _ => exact (agrees_step kern o st st' r Hr H m) end); unfold step_with in *; cbn [exec_with] in *; unfold typed, when, new_view, new1 in *.
  - destruct (lookup_block st mut x) as [b|]; [|exact H]. destruct (is_dynamic (base_sizes b)); [|exact H].
    destruct (block_order (bm_layout b)); [|exact H].
    destruct (block_with repaired_stride Checked mut b tl d) as [v| |] eqn:E.
    + now rewrite (agrees_block_with mut b tl d m v E).
    + injection H as <- <-. destruct Hr.
    + discriminate H.
  - exact H.
  - destruct (lookup_base st a) as [u|]; [|exact H]. destruct (lookup_base st b) as [v|]; [|exact H].
    destruct (dot_typed shape u v); [|exact H].
    destruct (dot_with repaired_stride kern shape Checked (st_heap st) u v) as [w| |] eqn:E.
    + now rewrite (agrees_dot_with kern shape (st_heap st) u v m w E).
    + injection H as <- <-. destruct Hr.
    + discriminate H.
Qed.

Lemma agrees_run_with : forall kern (os : list (call T St)) st st' rs,
  run_with repaired_stride kern Checked st os = Ok (st', rs) -> Forall completed rs ->
  forall m, run_with repaired_stride kern m st os = Ok (st', rs).
Proof.
  intros kern. induction os as [|o os IH]; intros st st' rs H Hc m; cbn [run_with] in *; [exact H|].
  apply bind_ok in H. destruct H as ((st1, r) & E & H).
  apply bind_ok in H. destruct H as ((st2, rs2) & E2 & H). injection H as <- <-.
  inversion Hc; subst. rewrite (agrees_step_with kern o st st1 r H1 E m). cbn [bind].
  now rewrite (IH _ _ _ E2 H2 m).
Qed.

Lemma c62_release : forall kern (os : list (call T St)), ignores_strides kern ->
  history_in_wider_scope kern ainitial os -> Forall completed (snd (arun kern ainitial os)) ->
  exists st, run_with repaired_stride kern Wrapping initial os = Ok (st, snd (arun kern ainitial os)) /\
             same_tables st (fst (arun kern ainitial os)).
Proof.
  intros kern os Hk Hs Hc. destruct (c62 kern os Hk Hs) as (st & E & H). exists st. split; [|exact H].
  now apply agrees_run_with.
Qed.
End C62.
