(** * GenericProofs: proofs about the code for any implementation of the traits. *)

From Coq Require Import ZifyBool ZifyNat ZifyN.
From Verif Require Import Machine Layouts Memory Matrix MatMul Generic Spec MatrixSpec ExprSpec ProductSpec GenericSpec
  MachineFacts LayoutFacts MemoryFacts AccessFacts AccessProofs ConstructorProofs ExprProofs ProductProofs.
Local Open Scope N_scope.

Section GenericProofs.
Context {T : Type} {SC : HScalar T}.
Context {L K : Type} {LT : LayoutTraits L K}.
Context {C : Type} {CT : ContainerTraits T C}.
Notation heap := (@heap T).
Implicit Types (x y : impl T L) (b : g_base L C) (ls : listing) (d : N * N).

(** ** Positions *)

Lemma numbers_inj : forall (l : L) d ls, numbers l d ls -> distinct_below (ls_count ls) (ls_pos ls).
Proof.
  intros l d ls (_ & _ & H) i j Hi Hj E. destruct (H i Hi) as [_ Ei]. destruct (H j Hj) as [_ Ej].
  rewrite E in Ei. congruence.
Qed.

Lemma assert_in : forall d p, in_range d p -> assert_dimension (fst p) (snd p) d = Ok tt.
Proof.
  intros d p [H1 H2]. unfold assert_dimension. replace (fst p <? fst d) with true by lia.
  now replace (snd p <? snd d) with true by lia.
Qed.

Lemma assert_out : forall d r c, ~ in_range d (r, c) -> assert_dimension r c d = Panic.
Proof.
  intros d r c H. unfold assert_dimension. unfold in_range in H. cbn [fst snd] in H.
  destruct (r <? fst d) eqn:E1; [|reflexivity]. destruct (c <? snd d) eqn:E2; [|reflexivity].
  exfalso. apply H. lia.
Qed.

(** ** Reading *)

Lemma g_get_shows : forall h x d ls F i, shows h x d ls F -> i < ls_count ls ->
  g_get h x (fst (ls_pos ls i)) (snd (ls_pos ls i)) = Ok (F (ls_pos ls i)) /\
  g_get1d h x i = Ok (F (ls_pos ls i)).
Proof.
  intros h x d ls F i ((Ed & En & Hn) & Hr) Hi. destruct (Hn i Hi) as [Hin _].
  destruct (Hr h (only_allocates_refl h) i Hi) as [E1 E2]. split.
  - unfold g_get. rewrite Ed. cbn [bind]. rewrite assert_in by auto. exact E2.
  - unfold g_get1d. rewrite En. cbn [bind]. unfold assert_dimension1d.
    now replace (i <? ls_count ls) with true by lia.
Qed.

Lemma g_get_outside : forall h x d ls r c, numbers (i_layout x) d ls -> ~ in_range d (r, c) ->
  g_get h x r c = Panic /\ g_get_mut x r c = Panic.
Proof.
  intros h x d ls r c (Ed & _) H. unfold g_get, g_get_mut. rewrite Ed. cbn [bind]. now rewrite assert_out by auto.
Qed.

Lemma g_get1d_outside : forall h x d ls i, numbers (i_layout x) d ls -> ls_count ls <= i ->
  g_get1d h x i = Panic /\ g_get1d_mut x i = Panic.
Proof.
  intros h x d ls i (_ & En & _) H. unfold g_get1d, g_get1d_mut. rewrite En. cbn [bind]. unfold assert_dimension1d.
  now replace (i <? ls_count ls) with false by lia.
Qed.

(** ** Base matrices *)

Lemma g_from_data_ok : forall (c : C) (l : L) d ls raw n at_, lays_out l d ls raw -> keeps c n at_ ->
  ls_count ls <= n -> g_from_data c l = Ok (mkGBase c l).
Proof.
  intros c l d ls raw n at_ ((_ & En & _) & _) (Ec & _) H. unfold g_from_data. rewrite En, Ec. cbn [bind].
  now replace (ls_count ls <=? n) with true by lia.
Qed.

Lemma g_from_data_short : forall (c : C) (l : L) d ls raw n at_, lays_out l d ls raw -> keeps c n at_ ->
  n < ls_count ls -> g_from_data c l = Panic.
Proof.
  intros c l d ls raw n at_ ((_ & En & _) & _) (Ec & _) H. unfold g_from_data. rewrite En, Ec. cbn [bind].
  now replace (ls_count ls <=? n) with false by lia.
Qed.

(** The cells of a base matrix are those of its container at the memory indices. *)
Lemma of_base_lives : forall (c : C) (l : L) d ls raw n at_, lays_out l d ls raw -> keeps_mut c n at_ ->
  (forall i, i < ls_count ls -> raw i < n) -> distinct_below (ls_count ls) raw ->
  lives (of_base (mkGBase c l)) d ls (fun i => at_ (raw i)).
Proof.
  intros c l d ls raw n at_ (Hn & Hl) ((Ec & Hk) & Hd & Hm) Hr Hi. split; [|split].
  - exact Hn.
  - intros i j Li Lj E. apply Hi; auto.
  - intros i Li. destruct (Hl i Li) as [E1 E2].
    cbn [of_base i_get1d_unchecked_mut i_get_unchecked_mut i_get1d_unchecked i_get_unchecked gb_layout gb_data].
    rewrite E1, E2. cbn [bind]. rewrite Hm by auto. splits; auto.
Qed.

Lemma of_base_shows : forall (h : heap) (c : C) (l : L) d ls raw n at_ F, lays_out l d ls raw -> keeps c n at_ ->
  (forall i, i < ls_count ls -> raw i < n /\ hget h (fst (at_ (raw i))) (snd (at_ (raw i))) = Some (F (ls_pos ls i))) ->
  shows h (of_base (mkGBase c l)) d ls F.
Proof.
  intros h c l d ls raw n at_ F (Hn & Hl) (Ec & Hk) Hr. split; [exact Hn|].
  intros h' Ho i Li. destruct (Hl i Li) as [E1 E2]. destruct (Hr i Li) as [Lr Ev].
  cbn [of_base i_get1d_unchecked i_get_unchecked gb_layout gb_data]. rewrite E1, E2. cbn [bind].
  assert (Ev' : hget h' (fst (at_ (raw i))) (snd (at_ (raw i))) = Some (F (ls_pos ls i))).
  { rewrite (only_allocates_hget h); auto. destruct (hget_some _ _ _ _ Ev) as (l0 & E & _).
    apply nth_error_Some. congruence. }
  split; now apply Hk.
Qed.

(** The entries that live in cells and are there are shown. *)
Lemma lives_shows : forall (h : heap) x d ls at_ F, lives x d ls at_ ->
  (forall i, i < ls_count ls -> hget h (fst (at_ i)) (snd (at_ i)) = Some (F (ls_pos ls i))) ->
  shows h x d ls F.
Proof.
  intros h x d ls at_ F (Hn & _ & Hl) He. split; [exact Hn|]. intros h' Ho i Li.
  destruct (Hl i Li) as (_ & _ & Hv). specialize (He i Li). apply Hv.
  rewrite (only_allocates_hget h); auto. destruct (hget_some _ _ _ _ He) as (l0 & E & _).
  apply nth_error_Some. congruence.
Qed.

(** ** Writing *)

Lemma g_set_lives : forall (h : heap) x d ls at_ i v w, lives x d ls at_ -> i < ls_count ls ->
  hget h (fst (at_ i)) (snd (at_ i)) = Some w ->
  g_set h x (fst (ls_pos ls i)) (snd (ls_pos ls i)) v = Ok (hset h (fst (at_ i)) (snd (at_ i)) v) /\
  g_set1d h x i v = Ok (hset h (fst (at_ i)) (snd (at_ i)) v).
Proof.
  intros h x d ls at_ i v w ((Ed & En & Hn) & _ & Hl) Li Ew. destruct (Hn i Li) as [Hin _].
  destruct (Hl i Li) as (E1 & E2 & _). split.
  - unfold g_set, g_get_mut. rewrite Ed. cbn [bind]. rewrite assert_in by auto. cbn [bind]. rewrite E2. cbn [bind].
    now apply place_write_ok with w.
  - unfold g_set1d, g_get1d_mut. rewrite En. cbn [bind]. unfold assert_dimension1d.
    replace (i <? ls_count ls) with true by lia. cbn [bind]. rewrite E1. cbn [bind].
    now apply place_write_ok with w.
Qed.

Lemma g_write : forall (h : heap) x d ls at_ F i v, lives x d ls at_ ->
  (forall i, i < ls_count ls -> hget h (fst (at_ i)) (snd (at_ i)) = Some (F (ls_pos ls i))) ->
  i < ls_count ls ->
  exists h', g_set h x (fst (ls_pos ls i)) (snd (ls_pos ls i)) v = Ok h' /\ g_set1d h x i v = Ok h' /\
    one_cell_written h h' (fst (at_ i)) (snd (at_ i)) v /\
    forall j, j < ls_count ls ->
      g_get1d h' x j = Ok (if j =? i then v else F (ls_pos ls j)) /\
      g_get h' x (fst (ls_pos ls j)) (snd (ls_pos ls j)) = Ok (if j =? i then v else F (ls_pos ls j)).
Proof.
  intros h x d ls at_ F i v Hx He Li. pose proof (He i Li) as Ei.
  destruct (g_set_lives h x d ls at_ i v _ Hx Li Ei) as [E1 E2]. eexists. split; [exact E1|]. split; [exact E2|].
  split.
  - split; [apply hset_changes_only | now apply hget_hset_same with (F (ls_pos ls i))].
  - intros j Lj. destruct Hx as ((Ed & En & Hn) & Hd & Hl). destruct (Hn j Lj) as [Hin _].
    destruct (Hl j Lj) as (_ & _ & Hv).
    assert (Ej : hget (hset h (fst (at_ i)) (snd (at_ i)) v) (fst (at_ j)) (snd (at_ j)) =
                 Some (if j =? i then v else F (ls_pos ls j))).
    { destruct (j =? i) eqn:Eji.
      - assert (j = i) as -> by lia. now apply hget_hset_same with (F (ls_pos ls i)).
      - rewrite hget_hset_other; [now apply He|]. rewrite <- !surjective_pairing. intros E.
        apply Hd in E; auto. lia. }
    destruct (Hv _ _ Ej) as [E3 E4]. split.
    + unfold g_get1d. rewrite En. cbn [bind]. unfold assert_dimension1d.
      replace (j <? ls_count ls) with true by lia. exact E3.
    + unfold g_get. rewrite Ed. cbn [bind]. rewrite assert_in by auto. exact E4.
Qed.

(** ** Expressions *)

Lemma shows_ref : forall h x d ls F p, shows h x d ls F -> shows h (pass p x) d ls F.
Proof. intros h x d ls F [] H; exact H. Qed.

Lemma indexed_ref : forall x d ls p, indexed (i_layout x) d ls -> indexed (i_layout (pass p x)) d ls.
Proof. intros x d ls [] H; exact H. Qed.

Lemma pass_type : forall x p, t_index_type (i_layout (pass p x)) = t_index_type (i_layout x).
Proof. now intros x []. Qed.

Lemma shows_scalar : forall h x d ls F s, shows h x d ls F ->
  shows h (g_scalar_mult x s) d ls (fun p => smul s (F p)).
Proof.
  intros h x d ls F s (Hn & Hr). split; [exact Hn|]. intros h' Ho i Li. destruct (Hr h' Ho i Li) as [E1 E2].
  cbn [g_scalar_mult i_get1d_unchecked i_get_unchecked]. now rewrite E1, E2.
Qed.

Lemma dim_eqb_refl : forall d, dim_eqb d d = true.
Proof. intros d. unfold dim_eqb. rewrite !N.eqb_refl. reflexivity. Qed.

Lemma dim_eqb_eq : forall d e, dim_eqb d e = true <-> d = e.
Proof.
  intros [a b] [a' b']. unfold dim_eqb. cbn [fst snd]. split; intros H.
  - f_equal; lia.
  - injection H as -> ->. rewrite !N.eqb_refl. reflexivity.
Qed.

Lemma shows_addition : forall h x y d ls F G, shows h x d ls F -> shows h y d ls G -> indexed (i_layout x) d ls ->
  exists z, g_addition x y = Ok z /\ shows h z d ls (fun p => sadd (F p) (G p)) /\
    indexed (i_layout z) d ls /\ t_index_type (i_layout z) = t_index_type (i_layout x).
Proof.
  intros h x y d ls F G (Nx & Rx) (Ny & Ry) (l & El & Nl & Tl & Il).
  unfold g_addition. rewrite (proj1 Nx), (proj1 Ny). cbn [bind]. rewrite dim_eqb_refl. cbn [assert_ bind]. rewrite El.
  cbn [bind]. eexists. split; [reflexivity|]. cbn [i_layout]. splits; auto.
  - split; [exact Nl|]. intros h' Ho i Li. destruct (Rx h' Ho i Li) as [E1 E2]. destruct (Ry h' Ho i Li) as [E3 E4].
    cbn [i_get1d_unchecked i_get_unchecked]. now rewrite E1, E2, E3, E4.
  - exists l. splits; auto.
Qed.

Lemma g_addition_differs : forall x y d e ls ls', numbers (i_layout x) d ls -> numbers (i_layout y) e ls' -> d <> e ->
  g_addition x y = Panic.
Proof.
  intros x y d e ls ls' (Ex & _) (Ey & _) H. unfold g_addition. rewrite Ex, Ey. cbn [bind].
  destruct (dim_eqb d e) eqn:E; [|reflexivity]. now apply dim_eqb_eq in E.
Qed.

Lemma g_build_shows : forall (h : heap) d ls k e F,
  g_value (fun x F => shows h x d ls F /\ indexed (i_layout x) d ls /\ t_index_type (i_layout x) = k) e F ->
  exists x, g_build e = Ok x /\ shows h x d ls F /\ indexed (i_layout x) d ls /\ t_index_type (i_layout x) = k.
Proof.
  intros h d ls k e F H. induction H as [x F H | p e q f F G He IHe Hf IHf | s p e F He IHe | s p e F He IHe];
    cbn [g_build].
  - exists x. split; [reflexivity|exact H].
  - destruct IHe as (x & -> & Sx & Ix & Kx). destruct IHf as (y & -> & Sy & Iy & Ky). cbn [bind].
    destruct (shows_addition h (pass p x) (pass q y) d ls F G) as (z & Ez & Sz & Iz & Kz);
      auto using shows_ref, indexed_ref.
    exists z. splits; auto. rewrite Kz, pass_type. exact Kx.
  - destruct IHe as (x & -> & Sx & Ix & Kx). cbn [bind]. eexists. split; [reflexivity|]. splits.
    + now apply shows_scalar, shows_ref.
    + exact (indexed_ref x d ls p Ix).
    + cbn [g_scalar_mult i_layout]. now rewrite pass_type.
  - destruct IHe as (x & -> & Sx & Ix & Kx). cbn [bind]. eexists. split; [reflexivity|]. splits.
    + now apply shows_scalar, shows_ref.
    + exact (indexed_ref x d ls p Ix).
    + cbn [g_scalar_mult i_layout]. now rewrite pass_type.
Qed.

(** ** Evaluation *)

Lemma shows_later : forall h h' x d ls F, only_allocates h h' -> shows h x d ls F -> shows h' x d ls F.
Proof.
  intros h h' x d ls F Ho (Hn & Hr). split; auto. intros h2 Ho2 i Li.
  apply Hr; auto. now apply only_allocates_trans with h'.
Qed.

Lemma g_eval_shows : forall (h : heap) x d ls F raw, holds_vectors (CT := CT) ->
  shows h x d ls F -> makes (t_index_type (i_layout x)) d ls raw ->
  ls_count ls * Npos ssize <= isize_max ->
  exists h' b, g_eval h x = Ok (h', b) /\ only_allocates h h' /\ shows h' (of_base b) d ls F /\
    lives (of_base b) d ls (fun i => (length h, raw i)) /\
    shows h' x d ls F.
Proof.
  intros h x d ls F raw HV Hx (l & El & Hl & Hb & Hd) Hs.
  pose proof Hx as ((Ed & En & Hn) & Hr).
  set (n := ls_count ls) in *.
  set (h1 := h ++ [repeat szero (N.to_nat n)]).
  set (r := mkRegion (length h) 0 n).
  set (c := holds (mkContainer VectorContainer r)).
  destruct (HV r) as [_ Hc]. fold c in Hc. change (r_len r) with n in Hc.
  assert (Ez : g_zeros_from_dim h (t_index_type (i_layout x)) (fst d) (snd d) = Ok (h1, mkGBase c l)).
  { unfold g_zeros_from_dim. rewrite <- surjective_pairing, El. cbn [bind].
    destruct Hl as ((_ & Enl & Hnl) & Hrl). fold n in Enl. rewrite Enl. cbn [bind].
    rewrite vector_container_new_ok by auto. cbn [bind]. fold h1 r c.
    unfold g_from_data. rewrite Enl. destruct Hc as ((Ec & _) & _). rewrite Ec. cbn [bind].
    now replace (n <=? n) with true by lia. }
  unfold g_eval. rewrite Ed. cbn [bind]. rewrite Ez. cbn [bind]. rewrite En. cbn [bind].
  set (at_ := fun i => (length h, raw i)).
  assert (Hlv : lives (of_base (mkGBase c l)) d ls at_).
  { pose proof (of_base_lives c l d ls raw n (cell_of_region r) Hl Hc Hb Hd) as H.
    destruct H as (H1 & H2 & H3). split; [exact H1|]. split.
    - intros i j Li Lj E. unfold at_ in E. injection E as E. now apply Hd.
    - intros i Li. destruct (H3 i Li) as (E1 & E2 & E3). unfold at_.
      change (cell_of_region r (raw i)) with (length h, 0 + raw i) in E1, E2, E3. rewrite N.add_0_l in E1, E2, E3.
      splits; auto. }
  assert (Hone : forall a i, (a < length h)%nat -> hget h1 a i = hget h a i) by (intros; now apply hget_app).
  set (I := fun (k : N) (hk : heap) => extends h1 hk /\
    (forall a i, (a < length h)%nat -> hget hk a i = hget h a i) /\
    (forall i, i < k -> hget hk (length h) (raw i) = Some (F (ls_pos ls i)))).
  assert (Hext1 : forall hk i, extends h1 hk -> i < n -> exists v, hget hk (length h) (raw i) = Some v).
  { intros hk i Hx1 Li. assert (E1 : nth_error h1 (length h) = Some (repeat szero (N.to_nat n))).
    { unfold h1. rewrite nth_error_app2 by lia. now rewrite Nat.sub_diag. }
    destruct (Hx1 _ _ E1) as (l' & E' & Len). rewrite repeat_length in Len. unfold hget. rewrite E'.
    destruct (nth_error l' (N.to_nat (raw i))) as [v|] eqn:Ev; [eauto|].
    apply nth_error_None in Ev. specialize (Hb i Li). fold n in Hb. lia. }
  assert (Hoa : forall hk, extends h1 hk -> (forall a i, (a < length h)%nat -> hget hk a i = hget h a i) ->
    only_allocates h hk).
  { intros hk Hx1 Ha. apply same_hget_only_allocates; auto. apply extends_trans with h1; auto. apply extends_app. }
  destruct (for_range_inv _ I (fun index h =>
          v <- i_get1d_unchecked x h index ;;
          p <- i_get1d_unchecked_mut (of_base (mkGBase c l)) index ;;
          place_write h p v) n h1) as (h2 & E2 & (X2 & O2 & F2)).
  - intros k hk Lk (Xk & Ok_ & Fk). pose proof (Hoa hk Xk Ok_) as Hok.
    destruct (Hr hk Hok k Lk) as [Ev _]. rewrite Ev. cbn [bind].
    destruct Hlv as (_ & _ & Hlv). destruct (Hlv k Lk) as (Em & _ & _). rewrite Em. cbn [bind].
    destruct (Hext1 hk k Xk Lk) as (w & Ew).
    rewrite (place_write_ok hk (place_at (at_ k)) _ w) by exact Ew. eexists. split; [reflexivity|].
    cbn [place_at at_ fst snd pl_alloc pl_index]. split; [|split].
    + apply extends_trans with hk; auto. apply extends_hset.
    + intros a i Ha. rewrite hget_hset_other, Ok_; auto. intros E. injection E as E _. lia.
    + intros i Li. destruct (N.eq_dec i k) as [-> | Hik].
      * now apply hget_hset_same with w.
      * rewrite hget_hset_other; [apply Fk; lia|]. intros E. injection E as E. apply Hik. symmetry.
        apply Hd; auto. fold n. lia.
  - split; [apply extends_refl|]. split; [exact Hone|]. intros i Li. lia.
  - rewrite E2. cbn [bind]. pose proof (Hoa h2 X2 O2) as Ho. exists h2, (mkGBase c l). splits; auto.
    + apply lives_shows with at_; auto.
    + now apply shows_later with h.
Qed.

(** A capacity overflow is a panic. *)
Lemma g_eval_huge : forall (h : heap) x d ls F raw,
  shows h x d ls F -> makes (t_index_type (i_layout x)) d ls raw ->
  isize_max < ls_count ls * Npos ssize -> g_eval h x = Panic.
Proof.
  intros h x d ls F raw ((Ed & En & _) & _) (l & El & ((_ & Enl & _) & _) & _) Hs.
  unfold g_eval. rewrite Ed. cbn [bind]. unfold g_zeros_from_dim. rewrite <- surjective_pairing, El. cbn [bind].
  rewrite Enl. cbn [bind]. unfold vector_container_new.
  now replace (ls_count ls * N.pos ssize <=? isize_max) with false by lia.
Qed.

(** ** for_each *)

Definition g_tail (h : heap) (at_ : N -> nat * N) (n k : N) (vs : list T) : Prop :=
  k + N.of_nat (length vs) = n /\
  forall i, i < N.of_nat (length vs) -> nth_error vs (N.to_nat i) = hget h (fst (at_ (k + i))) (snd (at_ (k + i))).

Lemma g_for_each_loop_ok : forall (St : Type) b d ls at_ (f : closure St) vs (h : heap) k s,
  lives (of_base b) d ls at_ -> g_tail h at_ (ls_count ls) k vs ->
  exists h', g_for_each_loop b f (length vs) k (h, s) =
      (let '(s', ws, pn) := visit f s vs in Ok (h', s', pn)) /\
    g_tail h' at_ (ls_count ls) k (snd (fst (visit f s vs))) /\
    changes_only (fun q => exists i, k <= i < ls_count ls /\ q = at_ i) h h'.
Proof.
  intros St b d ls at_ f vs. induction vs as [|v vs IH]; intros h k s Hb Ht.
  - exists h. cbn. split; [reflexivity|]. split; [exact Ht|]. split; [reflexivity|]. split; [apply extends_refl|]. auto.
  - pose proof Ht as [Len Hv]. cbn [length] in *. assert (Lk : k < ls_count ls) by lia.
    pose proof Hb as (_ & Hd & Hl). destruct (Hl k Lk) as (Em & _ & _).
    assert (Ev : hget h (fst (at_ k)) (snd (at_ k)) = Some v).
    { specialize (Hv 0). rewrite N.add_0_r in Hv. rewrite <- Hv by lia. reflexivity. }
    cbn [g_for_each_loop visit]. unfold g_call_closure. rewrite Em. cbn [place_at]. unfold place_read.
    cbn [place_at pl_alloc pl_index]. rewrite Ev. cbn [bind].
    destruct (f s v) as [[s1 v1] p1]. rewrite (place_write_ok h (place_at (at_ k)) v1 v) by exact Ev.
    cbn [bind]. unfold place_at. cbn [pl_alloc pl_index].
    set (h1 := hset h (fst (at_ k)) (snd (at_ k)) v1).
    assert (E1 : hget h1 (fst (at_ k)) (snd (at_ k)) = Some v1) by now apply hget_hset_same with v.
    assert (O1 : forall i, k < i -> i < ls_count ls -> hget h1 (fst (at_ i)) (snd (at_ i)) = hget h (fst (at_ i)) (snd (at_ i))).
    { intros i Hi Li. unfold h1. rewrite hget_hset_other; auto. rewrite <- !surjective_pairing. intros E.
      apply Hd in E; auto. lia. }
    assert (C1 : changes_only (fun q => exists i, k <= i < ls_count ls /\ q = at_ i) h h1).
    { destruct (hset_changes_only h (fst (at_ k)) (snd (at_ k)) v1) as (A1 & A2 & A3). split; [exact A1|].
      split; [exact A2|]. intros a i Hq. apply A3. intros E. apply Hq. exists k. split; [lia|].
      rewrite E. now rewrite <- surjective_pairing. }
    destruct p1.
    + exists h1. split; [reflexivity|]. split; [|exact C1]. cbn [fst snd length]. split; [cbn [length]; lia|].
      intros i Li. destruct (N.eq_dec i 0) as [-> | Hi0].
      * rewrite N.add_0_r, E1. reflexivity.
      * rewrite O1 by (cbn [length] in Li; lia). rewrite <- Hv by (cbn [length] in Li; lia).
        replace (N.to_nat i) with (S (N.to_nat (i - 1))) by lia. reflexivity.
    + destruct (IH h1 (k + 1) s1 Hb) as (h2 & E2 & T2 & C2).
      { split; [lia|]. intros i Li. rewrite O1 by lia. specialize (Hv (i + 1)).
        replace (k + 1 + i) with (k + (i + 1)) by lia. rewrite <- Hv by lia.
        replace (N.to_nat (i + 1)) with (S (N.to_nat i)) by lia. reflexivity. }
      exists h2. rewrite E2. destruct (visit f s1 vs) as [[s2 ws] p2]. cbn [fst snd] in *.
      split; [reflexivity|]. destruct T2 as [Len2 T2]. split.
      * split; [cbn [length]; lia|]. intros i Li. destruct (N.eq_dec i 0) as [-> | Hi0].
        -- rewrite N.add_0_r. destruct C2 as (_ & _ & C2). rewrite C2; [now rewrite E1|].
           rewrite <- surjective_pairing. intros (j & Lj & Ej). apply Hd in Ej; lia.
        -- replace (k + i) with (k + 1 + (i - 1)) by lia. cbn [length] in Li. rewrite <- T2 by lia.
           replace (N.to_nat i) with (S (N.to_nat (i - 1))) by lia. reflexivity.
      * destruct C1 as (A1 & A2 & A3), C2 as (B1 & B2 & B3). split; [congruence|].
        split; [now apply extends_trans with h1|]. intros a i Hq. rewrite B3, A3; auto.
        intros (j & Lj & Ej). apply Hq. exists j. split; [lia|exact Ej].
Qed.

Lemma items_of_length : forall ls (F : N * N -> T), length (items_of ls F) = N.to_nat (ls_count ls).
Proof. intros ls F. unfold items_of. now rewrite map_length, seq_length. Qed.

Lemma items_of_nth : forall ls (F : N * N -> T) i, i < ls_count ls -> nth_error (items_of ls F) (N.to_nat i) = Some (F (ls_pos ls i)).
Proof.
  intros ls F i Hi. unfold items_of. rewrite (map_nth_error _ _ _ (d := N.to_nat i)).
  - now rewrite N2Nat.id.
  - rewrite (nth_error_nth' _ 0%nat) by (rewrite seq_length; lia). rewrite seq_nth by lia. f_equal.
Qed.

Lemma g_for_each_ok : forall (St : Type) b d ls at_ (F : N * N -> T) (f : closure St) (h : heap) s,
  lives (of_base b) d ls at_ ->
  (forall i, i < ls_count ls -> hget h (fst (at_ i)) (snd (at_ i)) = Some (F (ls_pos ls i))) ->
  exists h', g_for_each h b f s =
      (let '(s', _, panicked) := visit f s (items_of ls F) in Ok (h', s', panicked)) /\
    changes_only (fun q => exists i, i < ls_count ls /\ q = at_ i) h h' /\
    forall i, i < ls_count ls ->
      hget h' (fst (at_ i)) (snd (at_ i)) = nth_error (snd (fst (visit f s (items_of ls F)))) (N.to_nat i).
Proof.
  intros St b d ls at_ F f h s Hb He. pose proof Hb as ((_ & En & _) & _).
  destruct (g_for_each_loop_ok St b d ls at_ f (items_of ls F) h 0 s Hb) as (h' & E & [Len Ht] & Ch).
  { split; [rewrite items_of_length; lia|]. intros i Li. rewrite items_of_length in Li.
    rewrite N.add_0_l, He by lia. apply items_of_nth. lia. }
  exists h'. split; [|split].
  - unfold g_for_each. cbn [of_base i_layout] in En. rewrite En. cbn [bind]. rewrite <- E. now rewrite items_of_length.
  - destruct Ch as (A1 & A2 & A3). split; [exact A1|]. split; [exact A2|]. intros a i Hq. apply A3.
    intros (j & Lj & Ej). apply Hq. exists j. split; [lia|exact Ej].
  - intros i Li. rewrite Ht by lia. now rewrite N.add_0_l.
Qed.

(** ** Products *)

(** A base matrix of the crate with the same dimension, strides and memory. *)
Definition stand_in d (s : N * N) (r : region) : base_matrix :=
  mkBase (mkContainer SliceContainerMut r) (ArbitraryStrideRowMajor d s) Dynamic Dynamic.

Lemma stand_in_told : forall (h : heap) b d s r, g_strided h b d s r -> told_ok h (stand_in d s r) s.
Proof.
  intros h b d s r (_ & _ & _ & Hs & H). split; [exact Hs|]. intros [i j] Hp.
  destruct (H i j Hp) as [_ Hlt]. exact Hlt.
Qed.

Lemma g_matmul_ok : forall kern (h : heap) alpha a b beta c da db dc sa sb sc ra rb rc A B G, computes kern ->
  g_strided h a da sa ra -> g_strided h b db sb rb -> g_strided h c dc sc rc ->
  compatible da db dc ->
  (forall p q, in_range da p -> in_range dc q -> strided_cell ra sa p <> strided_cell rc sc q) ->
  (forall p q, in_range db p -> in_range dc q -> strided_cell rb sb p <> strided_cell rc sc q) ->
  (forall p q, in_range dc p -> in_range dc q -> strided_cell rc sc p = strided_cell rc sc q -> p = q) ->
  (forall i j, in_range da (i, j) -> g_get h (of_base a) i j = Ok (A i j)) ->
  (forall i j, in_range db (i, j) -> g_get h (of_base b) i j = Ok (B i j)) ->
  (forall i j, in_range dc (i, j) -> g_get h (of_base c) i j = Ok (G i j)) ->
  exists h', g_matmul kern h alpha a b beta c = Ok h' /\
    changes_only (fun q => exists p, in_range dc p /\ q = strided_cell rc sc p) h h' /\
    forall i j, in_range dc (i, j) ->
      g_get h' (of_base c) i j = Ok (product_entry (snd da) alpha A B beta G i j).
Proof.
  intros kern h alpha a b beta c da db dc sa sb sc ra rb rc A B G Hk Ha Hb Hc Hd Na Nb Dc EA EB EC.
  set (xa := stand_in da sa ra). set (xb := stand_in db sb rb). set (xc := stand_in dc sc rc).
  assert (Hent : forall (h1 : heap) (y : g_base L C) d s r F, g_strided h1 y d s r ->
    (forall i j, in_range d (i, j) -> g_get h1 (of_base y) i j = Ok (F i j)) ->
    told_entries h1 (stand_in d s r) s F).
  { intros h1 y d s r F (Ed & _ & ((_ & Hkp) & _) & Hs & H) HF i j Hp.
    change (dim (bm_layout (stand_in d s r))) with d in Hp.
    specialize (HF i j Hp). destruct (H i j Hp) as [Er Hlt].
    unfold g_get in HF. cbn [of_base i_layout i_get_unchecked] in HF. rewrite Ed in HF. cbn [bind] in HF.
    pose proof (assert_in d (i, j) Hp) as Ha1. cbn [fst snd] in Ha1. rewrite Ha1 in HF. cbn [bind] in HF.
    rewrite Er in HF. cbn [bind] in HF.
    destruct (region_read_ok h1 r _ (proj1 Hs) Hlt) as (v & _ & Ev).
    change (hget h1 (fst (cell_of_region r (i * fst s + j * snd s))) (snd (cell_of_region r (i * fst s + j * snd s))) =
      Some (F i j)).
    pose proof (Hkp _ Hlt h1 v Ev) as Hv. rewrite Hv in HF. injection HF as <-. exact Ev. }
  assert (Ta : told_ok h xa sa) by now apply stand_in_told with a.
  assert (Tb : told_ok h xb sb) by now apply stand_in_told with b.
  assert (Tc : told_ok h xc sc) by now apply stand_in_told with c.
  destruct (gemm_told kern h alpha xa xb beta xc sa sb sc A B G) as (h' & E & Ch & Eh); auto;
    [now apply Hent with a | now apply Hent with b | now apply Hent with c|].
  exists h'. pose proof Ha as (Eda & Esa & (_ & Epa) & _). pose proof Hb as (Edb & Esb & (_ & Epb) & _).
  pose proof Hc as (Edc & Esc & (Kc & Epc) & Hsc & Hrc). destruct Hd as (D1 & D2 & D3). split; [|split].
  - unfold g_matmul. rewrite Eda, Edb, Edc. cbn [bind].
    assert (Hm : matmul_dims_ok da db dc = true).
    { unfold matmul_dims_ok. rewrite D1, D2, D3, !N.eqb_refl. reflexivity. }
    rewrite Hm. cbn [assert_ bind]. rewrite Esa, Esb, Esc. cbn [bind]. rewrite Epa, Epb, Epc. cbn [bind].
    unfold gemm. rewrite <- E. change (dim (bm_layout xa)) with da. change (dim (bm_layout xb)) with db.
    change (dim (bm_layout xc)) with dc. rewrite <- D2, <- D3. reflexivity.
  - destruct Ch as (A1 & A2 & A3). split; [exact A1|]. split; [exact A2|]. intros q i Hq. apply A3.
    intros (p & Hp & Ep). apply Hq. exists p. split; [exact Hp|]. exact Ep.
  - intros i j Hp. specialize (Eh i j Hp). destruct (Hrc i j Hp) as [Er Hlt].
    unfold g_get. cbn [of_base i_layout i_get_unchecked]. rewrite Edc. cbn [bind].
    pose proof (assert_in dc (i, j) Hp) as Ha1. cbn [fst snd] in Ha1. rewrite Ha1. cbn [bind]. rewrite Er. cbn [bind].
    destruct Kc as [_ Kc]. rewrite (Kc _ Hlt h' _ Eh). f_equal. now apply computes_entry.
Qed.

(** ** Slices of a container *)

Lemma g_get_slice_ok : forall (c : C) r first last, contiguous (T := T) c r ->
  g_get_slice (T := T) c first last =
  if (first <? last) && (last <=? r_len r) then Ok (mkRegion (r_alloc r) (r_lo r + first) (last - first)) else Panic.
Proof.
  intros c r first last ((En & _) & Ep). unfold g_get_slice. destruct (first <? last) eqn:E1; [|reflexivity].
  cbn [assert_ bind andb]. rewrite En. cbn [bind]. destruct (last <=? r_len r) eqn:E2; [|reflexivity].
  cbn [assert_ bind]. rewrite Ep. cbn [bind]. unfold ptr_add, ptr_offset. cbn [p_off p_region].
  replace ((0 <=? Z.of_N 0 + Z.of_N first) && (Z.of_N 0 + Z.of_N first <=? Z.of_N (r_len r)))%Z with true by lia.
  cbn [bind]. unfold from_raw_parts. cbn [p_region p_off].
  replace (Z.to_N (Z.of_N 0 + Z.of_N first)) with first by lia.
  now replace (first + (last - first) <=? r_len r) with true by lia.
Qed.

(** ** What happens without the contract *)

(** Reading a base matrix over memory: the layout alone decides whether the read is one
    of the memory. *)
Lemma g_get_exact : forall (h : heap) (c : C) (l : L) r d row col i, contiguous c r -> region_ok h r ->
  (forall i, r_len r <= i -> d_get_unchecked h c i = UB) ->
  t_dim l = Ok d -> t_convert_2d_raw l row col = Ok i ->
  (g_get h (of_base (mkGBase c l)) row col = UB <-> in_range d (row, col) /\ r_len r <= i) /\
  (g_get h (of_base (mkGBase c l)) row col = Panic <-> ~ in_range d (row, col)).
Proof.
  intros h c l r d row col i ((_ & Hk) & _) Hr Hu Ed Ei.
  assert (E : g_get h (of_base (mkGBase c l)) row col =
              (_ <- assert_dimension row col d ;; d_get_unchecked h c i)).
  { unfold g_get. cbn [of_base i_layout i_get_unchecked gb_layout gb_data]. rewrite Ed, Ei. reflexivity. }
  rewrite E. clear E.
  assert (Dec : {in_range d (row, col)} + {~ in_range d (row, col)}).
  { unfold in_range. cbn [fst snd]. destruct (row <? fst d) eqn:E1;
      destruct (col <? snd d) eqn:E2; (left; lia) || (right; lia). }
  destruct Dec as [Hin | Hout].
  - pose proof (assert_in d (row, col) Hin) as Ha. cbn [fst snd] in Ha. rewrite Ha. cbn [bind].
    destruct (N.lt_ge_cases i (r_len r)) as [Hi | Hi].
    + destruct (region_read_ok h r i Hr Hi) as (v & _ & Ev). rewrite (Hk i Hi h v Ev).
      split; split; try discriminate; [intros [_ H]; lia | intros H; contradiction].
    + rewrite Hu by auto. split; split; try discriminate; auto. intros H; contradiction.
  - rewrite assert_out by auto. split; split; try discriminate; auto. intros [H _]. contradiction.
Qed.

Lemma g_outside : forall (h : heap) x d ls r c i, numbers (i_layout x) d ls ->
  (~ in_range d (r, c) -> g_get h x r c = Panic /\ g_get_mut x r c = Panic) /\
  (ls_count ls <= i -> g_get1d h x i = Panic /\ g_get1d_mut x i = Panic).
Proof. intros h x d ls r c i H. split; intros Ho; [eapply g_get_outside | eapply g_get1d_outside]; eauto. Qed.

Lemma g_base_ok : forall (c : C) (l : L) d ls raw n at_,
  lays_out l d ls raw -> keeps_mut (T := T) c n at_ ->
  (ls_count ls <= n -> g_from_data (T := T) c l = Ok (mkGBase c l)) /\
  (n < ls_count ls -> g_from_data (T := T) c l = Panic) /\
  ((forall i, i < ls_count ls -> raw i < n) -> distinct_below (ls_count ls) raw ->
     lives (T := T) (of_base (mkGBase c l)) d ls (fun i => at_ (raw i))).
Proof.
  intros c l d ls raw n at_ Hl Hc. split; [|split].
  - intros H. eapply g_from_data_ok; eauto. apply Hc.
  - intros H. eapply g_from_data_short; eauto. apply Hc.
  - intros H1 H2. now apply of_base_lives with n.
Qed.

Lemma g_eval_full : forall (h : heap) x d ls F raw,
  holds_vectors (CT := CT) -> shows h x d ls F -> makes (t_index_type (i_layout x)) d ls raw ->
  (ls_count ls * Npos ssize <= isize_max ->
   exists h' b, g_eval h x = Ok (h', b) /\ only_allocates h h' /\ shows h' (of_base b) d ls F /\
     lives (of_base b) d ls (fun i => (length h, raw i)) /\ shows h' x d ls F) /\
  (isize_max < ls_count ls * Npos ssize -> g_eval h x = Panic).
Proof. intros. split; intros; [eapply g_eval_shows | eapply g_eval_huge]; eauto. Qed.

End GenericProofs.
