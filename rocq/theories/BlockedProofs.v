(** * BlockedProofs: products computed block by block. *)

From Coq Require Import Lia ZifyBool ZifyNat ZifyN.
From Verif Require Import Machine MachineFacts Layouts Memory Matrix MatMul Spec MatrixSpec ExprSpec ProductSpec AlgebraSpec BlockedSpec.
From Verif Require Import LayoutFacts LayoutProofs MemoryFacts AccessFacts AccessProofs BlockProofs ProductProofs AlgebraProofs TestProofs.
Local Open Scope N_scope.

Section Blocked.
Context {T : Type} {SC : HScalar T}.
Notation heap := (@heap T).

Definition cells_of (c : base_matrix) (q : nat * N) : Prop := exists p, in_range (dim (bm_layout c)) p /\ q = entry_cell c p.

Lemma block_entries_are : forall (h : heap) mut b tl d F, dense_matrix (bm_layout b) = true -> inside (dim (bm_layout b)) tl d ->
  entries_are h b F -> entries_are h (block_view mut b tl d) (fun i j => F (fst tl + i) (snd tl + j)).
Proof.
  intros h mut b tl d F Hl [H0 H1] E i j Hp. rewrite block_view_dim in Hp.
  destruct (dense_window mut b tl d Hl) as (_ & _ & W). unfold base_entry. rewrite (W _ Hp). apply E.
  destruct Hp as [Hp0 Hp1]. split; cbn [fst snd shift] in *; lia.
Qed.

Lemma block_apart : forall mut mut' a c tl d tl' d', dense_matrix (bm_layout a) = true -> dense_matrix (bm_layout c) = true ->
  inside (dim (bm_layout a)) tl d -> inside (dim (bm_layout c)) tl' d' -> no_overlap a c ->
  no_overlap (block_view mut a tl d) (block_view mut' c tl' d').
Proof.
  intros mut mut' a c tl d tl' d' Ha Hc [I0 I1] [J0 J1] N p q Hp Hq. rewrite block_view_dim in Hp, Hq.
  destruct (dense_window mut a tl d Ha) as (_ & _ & W), (dense_window mut' c tl' d' Hc) as (_ & _ & W').
  rewrite (W _ Hp), (W' _ Hq). destruct Hp, Hq. apply N; split; cbn [fst snd shift] in *; lia.
Qed.

Lemma range_in : forall r i, within_range r i = true <-> fst r <= i /\ i < fst r + snd r.
Proof. intros r i. unfold within_range. lia. Qed.

Lemma blocked_ok : forall kern m alpha (a b c : base_matrix) A B ts (h : heap) C, computes kern ->
  base_valid h a -> base_valid h b -> base_valid h c ->
  dense_matrix (bm_layout a) = true -> dense_matrix (bm_layout b) = true -> dense_matrix (bm_layout c) = true ->
  no_overlap a c -> no_overlap b c ->
  Forall (fun tb => tile_fits a b c (fst tb)) ts ->
  entries_are h a A -> entries_are h b B -> entries_are h c C ->
  exists h', blocked kern m h alpha a b c ts = Ok h' /\ entries_are h' c (tile_entries alpha A B ts C) /\
    changes_only (cells_of c) h h'.
Proof.
  intros kern m alpha a b c A B ts. induction ts as [|[t beta] ts IH];
    intros h C Hk Va Vb Vc Da Db Dc Na Nb Hf EA EB EC; cbn [blocked].
  - exists h. splits; auto. apply changes_only_refl.
  - inversion Hf as [|? ? Ht Hts]; subst. cbn [fst] in Ht.
    destruct Ht as ((Na0 & Ia & Ua) & (Nb0 & Ib & Ub) & (Nc0 & Ic & Uc)).
    set (tla := (fst (t_rows t), fst (t_inner t))) in *. set (da := (snd (t_rows t), snd (t_inner t))) in *.
    set (tlb := (fst (t_inner t), fst (t_cols t))) in *. set (db := (snd (t_inner t), snd (t_cols t))) in *.
    set (tlc := (fst (t_rows t), fst (t_cols t))) in *. set (dc := (snd (t_rows t), snd (t_cols t))) in *.
    destruct (block_ok m h false a tla da) as (Xa & _); auto using dense_chain.
    destruct (block_ok m h false b tlb db) as (Xb & _); auto using dense_chain.
    destruct (block_ok m h true c tlc dc) as (Xc & _); auto using dense_chain.
    rewrite Xa, Xb, Xc. cbn [bind].
    destruct (c34 kern h alpha (block_view false a tla da) (block_view false b tlb db) beta (block_view true c tlc dc)
      (fun i j => A (fst tla + i) (snd tla + j)) (fun i j => B (fst tlb + i) (snd tlb + j))
      (fun i j => C (fst tlc + i) (snd tlc + j))) as (h1 & E1 & R1 & Ch1); auto using block_entries_are, block_apart.
    { right. exists m, false, a, tla, da. splits; auto. }
    { right. exists m, false, b, tlb, db. splits; auto. }
    { left. exists m, true, c, tlc, dc. splits; auto. }
    { rewrite !block_view_dim. repeat split. }
    rewrite E1. cbn [bind].
    destruct (dense_window true c tlc dc Dc) as (_ & _ & W).
    assert (Ch : changes_only (cells_of c) h h1).
    { eapply changes_only_weaken; [|exact Ch1]. intros q (p & Hp & ->). rewrite block_view_dim in Hp. rewrite (W _ Hp).
      exists (shift tlc p). split; auto. destruct Hp as [P0 P1], Ic as [I0 I1]. split; cbn [fst snd shift] in *; lia. }
    assert (Ext : extends h h1) by apply Ch.
    destruct (IH h1 (tile_entry alpha A B (t, beta) C)) as (h2 & E2 & R2 & Ch2);
      eauto using base_valid_extends, entries_kept.
    { intros i j Hp. cbn [tile_entry]. unfold updates. destruct (_ && _) eqn:U.
      - apply andb_true_iff in U. destruct U as [U0 U1]. apply range_in in U0, U1.
        assert (Hq : in_range dc (i - fst tlc, j - snd tlc)) by (split; cbn [fst snd tlc dc]; lia).
        pose proof (R1 (i - fst tlc) (j - snd tlc)) as R. rewrite block_view_dim in R. specialize (R Hq).
        unfold base_entry in R. rewrite (W _ Hq) in R. unfold shift in R. cbn [fst snd tlc] in R.
        replace (fst (t_rows t) + (i - fst (t_rows t))) with i in R by lia.
        replace (fst (t_cols t) + (j - fst (t_cols t))) with j in R by lia.
        unfold base_entry. rewrite R. unfold product_entry. rewrite block_view_dim. cbn [fst snd tla tlb tlc da].
        replace (fst (t_rows t) + (i - fst (t_rows t))) with i by lia.
        replace (fst (t_cols t) + (j - fst (t_cols t))) with j by lia. reflexivity.
      - rewrite <- (EC i j Hp). unfold base_entry. apply Ch1. intros (p & Hq & E). rewrite block_view_dim in Hq.
        rewrite (W _ Hq) in E. rewrite <- surjective_pairing in E.
        assert (D : has_strides (bm_layout c) = false) by (destruct (bm_layout c); cbn in *; congruence).
        assert (St : forall p', in_range (dim (bm_layout c)) p' -> stored (bm_layout c) p').
        { intros p' Hp'. split; auto. destruct (bm_layout c); cbn in *; congruence. }
        apply entry_cell_inj in E; auto using distinct_dense.
        + injection E as E0 E1'. destruct Hq as [Q0 Q1]. cbn [fst snd tlc dc] in *.
          assert (within_range (t_rows t) i = true) by (apply range_in; lia).
          assert (within_range (t_cols t) j = true) by (apply range_in; lia).
          rewrite H, H0 in U. discriminate U.
        + apply St. destruct Hq as [Q0 Q1], Ic as [I0 I1]. split; cbn [fst snd shift] in *; lia. }
    exists h2. splits; auto. eapply changes_only_weaken; [|eapply changes_only_trans; [exact Ch|exact Ch2]]. intros q [|]; auto.
Qed.

(** ** Every entry in one tile *)

Lemma tile_entries_cons : forall alpha A B t (ts : list (tile * T)) C,
  tile_entries alpha A B (t :: ts) C = tile_entries alpha A B ts (tile_entry alpha A B t C).
Proof. reflexivity. Qed.

Lemma tile_entries_none : forall alpha A B (ts : list (tile * T)) C i j,
  filter (fun tb => updates (fst tb) i j) ts = [] -> tile_entries alpha A B ts C i j = C i j.
Proof.
  intros alpha A B ts. induction ts as [|[t beta] ts IH]; intros C i j H; [reflexivity|].
  cbn [filter fst] in H. destruct (updates t i j) eqn:U; [discriminate H|].
  rewrite tile_entries_cons. rewrite IH by auto. cbn [tile_entry]. now rewrite U.
Qed.

Lemma c57_outer : forall kern m alpha (a b c : base_matrix) A B beta ts (h : heap) C, computes kern ->
  base_valid h a -> base_valid h b -> base_valid h c ->
  dense_matrix (bm_layout a) = true -> dense_matrix (bm_layout b) = true -> dense_matrix (bm_layout c) = true ->
  no_overlap a c -> no_overlap b c ->
  Forall (fun tb => tile_fits a b c (fst tb) /\ t_inner (fst tb) = (0, snd (dim (bm_layout a))) /\ snd tb = beta) ts ->
  (forall i j, in_range (dim (bm_layout c)) (i, j) -> length (filter (fun tb => updates (fst tb) i j) ts) = 1%nat) ->
  entries_are h a A -> entries_are h b B -> entries_are h c C ->
  exists h', blocked kern m h alpha a b c ts = Ok h' /\
    entries_are h' c (product_entry (snd (dim (bm_layout a))) alpha A B beta C) /\
    changes_only (cells_of c) h h'.
Proof.
  intros kern m alpha a b c A B beta ts h C Hk Va Vb Vc Da Db Dc Na Nb Hf Hone EA EB EC.
  destruct (blocked_ok kern m alpha a b c A B ts h C) as (h' & E & R & Ch); auto.
  { eapply Forall_impl; [|exact Hf]. intros tb H. apply H. }
  exists h'. splits; auto. intros i j Hp. rewrite (R i j Hp). f_equal. specialize (Hone i j Hp). clear - Hf Hone.
  revert C Hone. induction ts as [|[t be] ts IH]; intros C Hone; [discriminate Hone|].
  inversion Hf as [|? ? (_ & Hi & Hb) Hf']; subst. cbn [fst snd filter] in *. rewrite tile_entries_cons. destruct (updates t i j) eqn:U.
  - cbn [length] in Hone. rewrite tile_entries_none by (destruct (filter _ ts); [auto|discriminate Hone]).
    cbn [tile_entry]. rewrite U, Hi. unfold product_entry. cbn [fst snd]. f_equal.
  - rewrite (IH Hf') by auto. unfold product_entry. cbn [tile_entry]. now rewrite U.
Qed.

(** ** Every product once *)

Section Semiring.
Hypothesis L : semiring_laws (T := T).

Lemma add_zero_r : forall x : T, sadd x szero = x.
Proof. intros x. now rewrite (add_comm L), (add_zero L). Qed.

Lemma sum_app : forall n k (f : N -> T),
  sum_below (n + k) f = sadd (sum_below n f) (sum_below k (fun l => f (N.of_nat n + l))).
Proof.
  intros n k f. induction k as [|k IH].
  - rewrite Nat.add_0_r. cbn [sum_below]. now rewrite add_zero_r.
  - rewrite Nat.add_succ_r. cbn [sum_below]. rewrite IH, <- (add_assoc L). do 2 f_equal. f_equal. lia.
Qed.

(** The sum over a part of the range. *)
Lemma sum_part : forall k o w (f : N -> T), o + w <= k ->
  sum_below (N.to_nat w) (fun l => f (o + l)) =
  sum_below (N.to_nat k) (fun l => if within_range (o, w) l then f l else szero).
Proof.
  intros k o w f H. replace (N.to_nat k) with (N.to_nat o + (N.to_nat w + N.to_nat (k - o - w)))%nat by lia.
  rewrite !sum_app.
  assert (Z1 : sum_below (N.to_nat o) (fun l => if within_range (o, w) l then f l else szero) = szero).
  { transitivity (sum_below (N.to_nat o) (fun _ => szero : T)); [|apply (sum_zero L)]. apply sum_below_eq. intros l Hl.
    destruct (within_range (o, w) l) eqn:E; auto. apply range_in in E. cbn [fst snd] in E. exfalso. lia. }
  rewrite Z1, (add_zero L).
  assert (Z2 : sum_below (N.to_nat (k - o - w)) (fun l => if within_range (o, w) (N.of_nat (N.to_nat o) + (N.of_nat (N.to_nat w) + l))
     then f (N.of_nat (N.to_nat o) + (N.of_nat (N.to_nat w) + l)) else szero) = szero).
  { transitivity (sum_below (N.to_nat (k - o - w)) (fun _ => szero : T)); [|apply (sum_zero L)]. apply sum_below_eq. intros l Hl.
    destruct (within_range _ _) eqn:E; auto. apply range_in in E. cbn [fst snd] in E. exfalso. lia. }
  rewrite Z2, add_zero_r. apply sum_below_eq. intros l Hl. rewrite N2Nat.id.
  destruct (within_range (o, w) (o + l)) eqn:E; auto.
  assert (within_range (o, w) (o + l) = true) by (apply range_in; cbn [fst snd]; lia). congruence.
Qed.

Definition often (n : nat) (x : T) : T := Nat.iter n (sadd x) szero.

Lemma tile_entries_sum : forall alpha A B k (ts : list (tile * T)) C i j,
  Forall (fun tb => fst (t_inner (fst tb)) + snd (t_inner (fst tb)) <= k /\ snd tb = sone) ts ->
  tile_entries alpha A B ts C i j =
  sadd (smul alpha (sum_below (N.to_nat k) (fun l => often (times ts i j l) (smul (A i l) (B l j))))) (C i j).
Proof.
  intros alpha A B k ts. induction ts as [|[t beta] ts IH]; intros C i j H.
  - cbn. change (fun l : N => often (times [] i j l) (smul (A i l) (B l j))) with (fun l : N => (szero : T)).
    rewrite (sum_zero L), (mul_comm L), (mul_zero L), (add_zero L). reflexivity.
  - inversion H as [|? ? [H1 H2] H3]; subst. cbn [fst snd] in *. subst beta.
    rewrite tile_entries_cons. rewrite IH by auto. cbn [tile_entry].
    destruct (updates t i j) eqn:U.
    + rewrite (mul_one L).
      transitivity (sadd (smul alpha (sum_below (N.to_nat k) (fun l => sadd
        (if within_range (t_inner t) l then smul (A i l) (B l j) else szero)
        (often (times ts i j l) (smul (A i l) (B l j)))))) (C i j)).
      * rewrite (sum_add L), (mul_add L).
        destruct (t_inner t) as [o w]. cbn [fst snd] in *.
        rewrite (sum_part k o w (fun l => smul (A i l) (B l j)) H1).
        rewrite (add_assoc L). f_equal. apply (add_comm L).
      * do 2 f_equal. apply sum_below_eq. intros l _. unfold times. cbn [filter fst]. rewrite U.
        destruct (within_range (t_inner t) l); cbn [andb length]; [reflexivity|]. apply (add_zero L).
    + do 2 f_equal. apply sum_below_eq. intros l _. unfold times. cbn [filter fst]. now rewrite U.
Qed.

Lemma c57_inner : forall kern m alpha (a b c : base_matrix) A B ts (h : heap) C, computes kern ->
  base_valid h a -> base_valid h b -> base_valid h c ->
  dense_matrix (bm_layout a) = true -> dense_matrix (bm_layout b) = true -> dense_matrix (bm_layout c) = true ->
  no_overlap a c -> no_overlap b c ->
  Forall (fun tb => tile_fits a b c (fst tb) /\ snd tb = sone) ts ->
  (forall i j l, in_range (dim (bm_layout c)) (i, j) -> l < snd (dim (bm_layout a)) -> times ts i j l = 1%nat) ->
  entries_are h a A -> entries_are h b B -> entries_are h c C ->
  exists h', blocked kern m h alpha a b c ts = Ok h' /\
    entries_are h' c (product_entry (snd (dim (bm_layout a))) alpha A B sone C) /\
    changes_only (cells_of c) h h'.
Proof.
  intros kern m alpha a b c A B ts h C Hk Va Vb Vc Da Db Dc Na Nb Hf Hone EA EB EC.
  destruct (blocked_ok kern m alpha a b c A B ts h C) as (h' & E & R & Ch); auto.
  { eapply Forall_impl; [|exact Hf]. intros tb H. apply H. }
  exists h'. splits; auto. intros i j Hp. rewrite (R i j Hp). f_equal.
  rewrite (tile_entries_sum alpha A B (snd (dim (bm_layout a)))).
  - unfold product_entry. rewrite (mul_one L). do 2 f_equal. apply sum_below_eq. intros l Hl.
    rewrite (Hone i j l Hp) by lia. cbn [often Nat.iter]. apply add_zero_r.
  - eapply Forall_impl; [|exact Hf]. intros tb (((_ & [_ I] & _) & _) & H2). split; auto.
Qed.
End Semiring.
End Blocked.
