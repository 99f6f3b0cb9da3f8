(** * FlatDropProofs: the theorems on threads that destroy their matrices. *)

From Coq Require Import Lia ZifyBool ZifyNat ZifyN.
From Verif Require Import Machine MachineFacts Layouts Memory MemoryFacts Matrix MatMul Spec MatrixSpec ExprSpec ProductSpec.
From Verif Require Import Program HistorySpec HistoryProofs HistorySafety Borrow BorrowProofs Dealloc DeallocProofs Threads ThreadProofs Interleave InterleaveProofs InterleaveMachine.
From Verif Require Import Flat FlatProofs FlatHistory FlatProducts FlatThreads FlatFits FlatMachine FlatThreadProofs FlatDrops FlatDropOwners FlatDropMachine.
Local Open Scope N_scope.

Section Hidden.
Context {T : Type} {SC : HScalar T}.

Lemma nth_hide : forall owner k (h : @heap T) n a,
  nth_error (hide owner k n h) a = option_map (fun l => if visible owner k (n + a) then l else []) (nth_error h a).
Proof.
  intros owner k h. induction h as [|l h IH]; intros n [|a]; cbn [hide nth_error option_map]; auto.
  - now rewrite Nat.add_0_r.
  - rewrite IH. now rewrite Nat.add_succ_comm.
Qed.
Lemma hide_length : forall owner k (h : @heap T) n, length (hide owner k n h) = length h.
Proof. intros owner k h. induction h as [|l h IH]; intros n; cbn [hide length]; auto. Qed.
Lemma hide_inv : forall owner k (h : @heap T) a l, nth_error (hide owner k 0 h) a = Some l -> l <> [] ->
  nth_error h a = Some l /\ visible owner k a = true.
Proof.
  intros owner k h a l E N. rewrite nth_hide in E. cbn [Nat.add] in E. destruct (nth_error h a) as [l'|]; [|discriminate]. cbn [option_map] in E.
  injection E as E. destruct (visible owner k a); [|congruence]. subst. auto.
Qed.
Lemma hide_shown : forall owner k (h : @heap T) a l, nth_error h a = Some l -> visible owner k a = true -> nth_error (hide owner k 0 h) a = Some l.
Proof. intros owner k h a l E V. rewrite nth_hide, E. cbn [option_map Nat.add]. now rewrite V. Qed.

(** The blocks of the allocations that [f] selects. *)
Definition blocks_of (h : @heap T) (place : nat -> nat) (f : nat -> bool) : list (nat * N) :=
  flat_map (fun a => match nth_error h a with Some (v :: l) => if f a then [(place a, N.of_nat (length (v :: l)))] else [] | _ => [] end)
    (seq 0 (length h)).
Lemma blocks_of_in : forall h place f b, In b (blocks_of h place f) <->
  exists a l, nth_error h a = Some l /\ l <> [] /\ f a = true /\ b = (place a, N.of_nat (length l)).
Proof.
  intros h place f b. unfold blocks_of. rewrite in_flat_map. split.
  - intros (a & _ & I). destruct (nth_error h a) as [[|v l]|] eqn:E; try contradiction. destruct (f a) eqn:F; [|contradiction].
    destruct I as [<-|[]]. exists a, (v :: l). repeat split; auto. discriminate.
  - intros (a & l & E & NE & F & ->). exists a. split.
    + apply in_seq. assert (a < length h)%nat by (apply nth_error_Some; congruence). lia.
    + rewrite E. destruct l; [congruence|]. rewrite F. now left.
Qed.
End Hidden.

Section Threads.
Context {T : Type} {SC : HScalar T} {St : Type} {B : Type}.
Variable encode : T -> list B.
Variable decode : list B -> T.
Hypothesis coding : faithful encode decode.
Variable kern : kernel T.
Variable code : gemm_args T -> prog T unit.
Hypothesis impl : implements code kern.
Variable choose : nat -> nat -> nat.
Variables (m : mode) (p : pool T) (acts : nat -> list (taction T St)) (owner : nat -> option nat).
Variables (place : nat -> nat) (M0 : N -> B) (used0 : list (nat * N)).
Hypothesis laid : laid_out decode p place M0 used0.
Hypothesis inside : in_memory p.
Hypothesis disjoint : Threads.apart p.
Hypothesis owners : owned_apart p owner.
Hypothesis plain : forall k, plain_actions kern m (alone p owner k) (acts k).
Hypothesis defined : forall k, exists x, alone_run kern m (alone p owner k) (acts k) = Ok x.
Notation cm := (cm p owner place).
Notation rb := (rb p owner place).
Notation wb := (wb p owner place).
Notation thread_ok := (thread_ok encode decode kern code choose m p acts owner place used0).
Notation machine_ok := (machine_ok encode decode kern code choose m p acts owner place used0).
Notation dturns := (dturns encode decode code choose m).
Notation dturn := (dturn encode decode code choose m).
Notation start := (dlaunch p place M0 used0 acts).

Definition owned_by (k a : nat) : bool := match owner a with Some j => Nat.eqb j k | None => false end.
Definition own0 (k : nat) : list (nat * N) := blocks_of (p_heap p) place (owned_by k).

Lemma own0_in : forall k b, In b (own0 k) <->
  exists a l, nth_error (p_heap p) a = Some l /\ l <> [] /\ owner a = Some k /\ b = (place a, N.of_nat (length l)).
Proof.
  intros k b. unfold own0. rewrite blocks_of_in. unfold owned_by. split; intros (a & l & E & NE & O & X); exists a, l; repeat (split; [assumption|]); (split; [|exact X]).
  - destruct (owner a) as [j|]; [|discriminate]. apply Nat.eqb_eq in O. now subst.
  - rewrite O. apply Nat.eqb_refl.
Qed.
Lemma shown_in : forall k b, In b (blocks_of (p_heap p) place (visible owner k)) <-> cm b \/ In b (own0 k).
Proof.
  intros k b. rewrite blocks_of_in, own0_in. unfold visible. split.
  - intros (a & l & E & NE & V & X). destruct (owner a) as [j|] eqn:O; [right|left]; exists a, l; repeat (split; [assumption|]); auto.
    apply Nat.eqb_eq in V. subst. auto.
  - intros [(a & l & E & NE & O & X)|(a & l & E & NE & O & X)]; exists a, l; rewrite O; repeat (split; [assumption|]); (split; [|exact X]); [reflexivity|apply Nat.eqb_refl].
Qed.
Lemma two_blocks : forall a a' l l', nth_error (p_heap p) a = Some l -> nth_error (p_heap p) a' = Some l' -> l <> [] -> l' <> [] ->
  owner a <> owner a' -> dis (T := T) (place a, N.of_nat (length l)) (place a', N.of_nat (length l')).
Proof. intros a a' l l' E E' N N' D x. apply (laid_apart _ _ _ _ _ laid a a' l l'); congruence. Qed.

Lemma start_thread : forall k, thread_ok k (dm_thread start k) (own0 k) M0.
Proof.
  intros k. cbn [dlaunch dm_thread].
  set (h := hide owner k 0 (p_heap p)).
  set (rho := fun a => if (a <? length (p_heap p))%nat then place a else choose k (a - length (p_heap p))).
  set (sigma := fun a => match nth_error h a with Some l => N.of_nat (length l) | None => 0 end).
  set (Y := mkBytes M0 (filter (fun b => existsb (block_eqb b) (blocks_of (p_heap p) place (visible owner k))) used0) used0).
  assert (HL : length h = length (p_heap p)) by apply hide_length.
  assert (RE : forall a, (a < length (p_heap p))%nat -> rho a = place a).
  { intros a L. unfold rho. destruct (Nat.ltb_spec a (length (p_heap p))); [auto|lia]. }
  assert (LT : forall a l, nth_error (p_heap p) a = Some l -> (a < length (p_heap p))%nat) by (intros a l X; apply nth_error_Some; congruence).
  assert (PL : Forall (placed (p_heap p)) (p_tabs p k)) by (apply Forall_forall; intros x I a L; eapply inside; eauto).
  assert (YB : forall b, In b (y_blocks Y) <-> cm b \/ In b (own0 k)).
  { intros b. cbn [y_blocks Y]. rewrite filter_In, <- shown_in. rewrite existsb_exists. split.
    - intros [_ (b' & I & E)]. apply block_eqb_true in E. now subst.
    - intros I. split.
      + apply (laid_blocks _ _ _ _ _ laid). apply blocks_of_in in I. destruct I as (a & l & E & NE & _ & X). eauto.
      + exists b. split; auto. now apply block_eqb_true. }
  exists [], (alone p owner k). unfold now_actions. cbn [dt_table dt_count dt_left dt_now dt_done app].
  split; [reflexivity|]. split; [reflexivity|]. split; [apply plain|].
  exists rho, sigma, (mkProcess Y (map (move_matrix place) (p_tabs p k)) [] []), (own0 k). cbn [pr_bytes pr_table].
  split.
  { constructor; cbn [alone f_state b_state b_slots f_gone f_freed pr_bytes pr_table pr_slots pr_gone st_heap st_mats]; auto; fold h.
    - symmetry. symmetry. apply (map_move_ext rho place (p_heap p)); auto. intros a L. now rewrite RE.
    - constructor; cbn [y_mem].
      + intros a i v G. pose proof (hget_inv (choose k) M0 _ _ _ _ G) as (l & E & NE & _). destruct (hide_inv _ _ _ _ _ E NE) as [E' _].
        rewrite RE by eauto. apply (laid_items _ _ _ _ _ laid). unfold hget in *. rewrite E'. now rewrite E in G.
      + intros b. rewrite YB, <- shown_in, blocks_of_in. split.
        * intros (a & l & E & NE & V & ->). exists a, l. rewrite RE by eauto. split; [now apply hide_shown|auto].
        * intros (a & l & E & NE & ->). destruct (hide_inv _ _ _ _ _ E NE) as [E' V]. exists a, l. rewrite RE by eauto. auto.
      + intros a a' l l' E E' NE NE' D. destruct (hide_inv _ _ _ _ _ E NE) as [F _]. destruct (hide_inv _ _ _ _ _ E' NE') as [F' _].
        rewrite !RE by eauto. apply dis_apart; cbn [snd].
        * destruct l; [congruence|]. cbn [length]. lia.
        * destruct l'; [congruence|]. cbn [length]. lia.
        * now apply (laid_apart _ _ _ _ _ laid).
      + apply NoDup_filter, (laid_once _ _ _ _ _ laid).
      + intros j. rewrite HL. unfold rho, dchooser, y_count, Y. cbn [y_log]. destruct (Nat.ltb_spec (length (p_heap p) + j) (length (p_heap p))); [lia|]. f_equal. lia.
      + reflexivity.
    - unfold all_placed. cbn [st_heap st_mats alone b_state f_state]. fold h. rewrite Forall_forall in *. intros x I a L. rewrite HL. now apply (PL x I).
    - apply Forall_forall. intros x I b Ib. destruct (laid_owned _ _ _ _ _ laid k x b I Ib) as (l & E & ->). unfold sigma, h.
      rewrite (hide_shown _ _ _ _ _ E); [reflexivity|]. unfold visible. rewrite (own_mine _ _ owners k x (fst b) I); [apply Nat.eqb_refl|].
      rewrite owned_fst. now apply in_map.
    - intros a l E. right. split; [auto|]. unfold sigma. now rewrite E.
    - intros a []. }
  split; [intros b I; cbn [y_blocks y_log Y] in *; apply filter_In in I; apply I|]. split; [reflexivity|]. split.
  { intros b b' I (a' & l' & E' & NE' & O' & ->). apply own0_in in I. destruct I as (a & l & E & NE & O & ->). apply two_blocks; auto. congruence. }
  split.
  { assert (MINE : forall y a i, In y (p_tabs p k) -> occupies y (a, i) -> owner a = None \/ fresh (own0 k) (place a, i)).
    { intros y a i I O. destruct (owner a) as [j|] eqn:Ow; [right|now left]. rewrite (own_held _ _ owners k y (a, i) j I O Ow) in Ow.
      pose proof (laid_inside _ _ _ _ _ laid k y (a, i) I O) as H. cbn [fst snd] in H. destruct (hget (p_heap p) a i) as [v|] eqn:G; [|congruence].
      apply (hget_inv (choose k) M0) in G. destruct G as (l & E & NE & _ & L). exists (place a, N.of_nat (length l)). split; [apply own0_in; eauto 10|]. auto. }
    intros x I. apply in_map_iff in I. destruct I as (y & <- & I). split; [|split].
    - intros [b i] O. apply occupies_moved in O. cbn [fst snd] in O. destruct O as (a & -> & O). destruct (MINE y a i I O) as [N|F]; [left|now right].
      exists a. split; [reflexivity|]. split; [exact N|]. exists y. auto.
    - intros Wy [b i] O. rewrite writable_moved in Wy. apply occupies_moved in O. cbn [fst snd] in O. destruct O as (a & -> & O). destruct (MINE y a i I O) as [N|F]; [left|now right].
      exists a, y. auto.
    - intros b Ib Z. rewrite owned_moved in Ib. apply in_map_iff in Ib. destruct Ib as ([a n] & <- & Ib). cbn [fst snd] in *.
      destruct (laid_owned _ _ _ _ _ laid k y _ I Ib) as (l & E & X). cbn [fst snd] in E, X. subst n. apply own0_in. exists a, l.
      split; [exact E|]. split; [intros ->; now apply Z|]. split; [|reflexivity]. apply (own_mine _ _ owners k y a I). rewrite owned_fst. apply (in_map fst _ _ Ib). }
  split; [symmetry; apply Nat.add_0_r|]. split; [exact YB|]. auto.
Qed.

Lemma start_ok : machine_ok own0 start.
Proof.
  split; [|split; [|split; [|split; [|split]]]]; cbn [dlaunch dm_used dm_mem].
  - intros b. rewrite (laid_blocks _ _ _ _ _ laid b). split.
    + intros (a & l & E & NE & X). destruct (owner a) as [k|] eqn:O; [right; exists k; apply own0_in|left]; exists a, l; auto.
    + intros [(a & l & E & NE & O & X)|(k & I)]; [eauto|]. apply own0_in in I. destruct I as (a & l & E & NE & O & X). eauto.
  - intros b I. apply (laid_blocks _ _ _ _ _ laid) in I. destruct I as (a & l & _ & NE & ->). destruct l; [congruence|]. cbn [snd length]. lia.
  - apply (laid_once _ _ _ _ _ laid).
  - intros k b b' I (a' & l' & E' & NE' & O' & ->). apply own0_in in I. destruct I as (a & l & E & NE & O & ->). apply two_blocks; auto. congruence.
  - intros j k b b' D I I'. apply own0_in in I. apply own0_in in I'. destruct I as (a & l & E & NE & O & ->). destruct I' as (a' & l' & E' & NE' & O' & ->).
    apply two_blocks; auto. congruence.
  - intros k. apply start_thread.
Qed.

Lemma goes_on : forall own M sched, machine_ok own M ->
  match dturns M sched with Goes M' => exists own', machine_ok own' M' | NoMemory => True | _ => False end.
Proof. intros own M sched OK. exact (turns_ok encode decode coding kern code impl choose m p acts owner place M0 used0 laid disjoint defined sched own M OK). Qed.

Lemma reached : forall sched M, dturns start sched = Goes M -> exists own, machine_ok own M.
Proof. intros sched M E. pose proof (goes_on _ _ sched start_ok) as H. rewrite E in H. exact H. Qed.

Lemma c76_defined : forall sched, dturns start sched = NoMemory \/ exists M, dturns start sched = Goes M.
Proof. intros sched. pose proof (goes_on _ _ sched start_ok) as H. destruct (dturns start sched); try contradiction; eauto. Qed.

Lemma c76_alone : forall sched M, dturns start sched = Goes M ->
  forall k, exists made fs rho,
    acts k = made ++ now_actions (dm_thread M k) ++ dt_left (dm_thread M k) /\
    alone_run kern m (alone p owner k) made = Ok (fs, dt_done (dm_thread M k)) /\
    dt_table (dm_thread M k) = map (move_matrix rho) (st_mats (b_state (f_state fs))) /\
    (dt_now (dm_thread M k) = None ->
       (forall x q v, In x (st_mats (b_state (f_state fs))) -> occupies x q ->
         hget (st_heap (b_state (f_state fs))) (fst q) (snd q) = Some v -> load decode (dm_mem M) (address (mkPlace (rho (fst q)) (snd q))) = v) /\
       (forall a l, nth_error (st_heap (b_state (f_state fs))) a = Some l -> l <> [] -> In (rho a, N.of_nat (length l)) (dm_used M))).
Proof.
  intros sched M E k. destruct (reached _ _ E) as (own & U & _ & _ & _ & _ & TH).
  destruct (TH k) as (made & fs & I1 & I2 & I3 & I4). destruct (dt_now (dm_thread M k)) as [[[o new] c]|] eqn:Hn.
  - destruct I4 as (rho & sigma & P & Yc & ever & c0 & J1 & J2 & J3 & _). exists made, fs, rho. split; [exact I1|]. split; [exact I2|].
    rewrite <- J3, (rel_table _ _ _ _ _ _ J1). split; [reflexivity|]. discriminate.
  - destruct I4 as (rho & sigma & P & ever & J1 & J2 & J3 & J4 & J5 & J6 & J7 & J8). exists made, fs, rho. split; [exact I1|]. split; [exact I2|].
    rewrite <- J3, (rel_table _ _ _ _ _ _ J1). split; [reflexivity|]. intros _. pose proof (rel_rep _ _ _ _ _ _ J1) as R.
    assert (BL : forall a l, nth_error (st_heap (b_state (f_state fs))) a = Some l -> l <> [] -> In (rho a, N.of_nat (length l)) (y_blocks (pr_bytes P))).
    { intros a l X NE. apply (rep_blocks _ _ _ _ _ _ R). eauto. }
    split.
    + intros x q v Ix O G. rewrite <- (rep_items _ _ _ _ _ _ R (fst q) (snd q) v G).
      apply (load_ext decode (choose k)). intros z Z. apply J8.
      apply (to_read p owner place ever (own k) (y_blocks (pr_bytes P)) k (mkPlace (rho (fst q)) (snd q))); auto.
      * cbn [pl_alloc pl_index]. assert (J : In (move_matrix rho x) (dt_table (dm_thread M k))) by (rewrite <- J3, (rel_table _ _ _ _ _ _ J1); now apply in_map).
        apply (proj1 (J5 _ J)). apply occupies_moved. exists (fst q). split; [reflexivity|]. now destruct q.
      * apply (hget_inv (choose k) M0) in G. destruct G as (l & X & NE & _ & L). exists (rho (fst q), N.of_nat (length l)), (snd q). auto.
      * intros b Ib. now apply J7.
    + intros a l X NE. apply U. pose proof (BL a l X NE) as I. apply J7 in I. destruct I; eauto.
Qed.

Lemma now_reaches : forall own M k a w, machine_ok own M -> dnext_visit (dm_thread M k) = Some (a, w) ->
  item_of (dm_used M) a /\ forall x, a <= x < a + item_size -> rb (own k) k x /\ (w = true -> wb (own k) k x).
Proof.
  intros own M k a w (U & NE & ND & AC & AO & TH) H. destruct (TH k) as (made & fs & I1 & I2 & I3 & I4).
  unfold dnext_visit in H. destruct (dt_now (dm_thread M k)) as [[[o new] c]|]; [|discriminate].
  destruct I4 as (rho & sigma & P & Yc & ever & c0 & J1 & J2 & J3 & J4 & J5 & J6 & J7 & J8 & J9 & K1 & K2 & K3 & K4 & K5 & K6 & K7).
  assert (IU : item_of (y_blocks Yc) a -> item_of (dm_used M) a).
  { intros (b & i & Ib & X). exists b, i. split; auto. apply U. apply J8 in Ib. destruct Ib; eauto. }
  assert (YS : forall b, In b (y_blocks Yc) -> cm b \/ In b (own k)) by (intros b; apply J8).
  assert (ED : forall b b', In b (new ++ ever) -> cm b' -> dis (T := T) b b').
  { intros b b' I C. apply in_app_or in I. destruct I as [I|I]; [|auto]. destruct (N.eq_dec (snd b) 0) as [Z|Z]; [now apply dis_zero|].
    destruct (K7 b I Z) as [_ X]. eauto. }
  destruct c as [[[ms r]| |]|r c|r v c|l c]; try discriminate; injection H as <- <-; cbn [reaches] in K4; destruct K4 as [FP K4];
    (assert (IT : item_of (y_blocks Yc) (address r)) by (apply K3; cbn [Flat.visits]; now left)).
  - split; [now apply IU|]. intros x X. split; [|discriminate]. eapply to_read; eauto. eapply reach_read; eauto.
  - split; [now apply IU|]. intros x X.
    assert (W : wb (own k) k x) by (eapply to_write; eauto; eapply reach_write; eauto). split; [now apply wb_rb|auto].
Qed.

Lemma c76_races : forall sched M, dturns start sched = Goes M -> ~ dbyte_race M.
Proof.
  intros sched M E (j & k & a & w & a' & w' & x & D & Hj & Hk & X & X' & Hw). destruct (reached _ _ E) as (own & OK).
  destruct (now_reaches own M j a w OK Hj) as (_ & Rj). destruct (now_reaches own M k a' w' OK Hk) as (_ & Rk).
  destruct (Rj x X) as [Rj1 Rj2]. destruct (Rk x X') as [Rk1 Rk2]. destruct OK as (U & NE & ND & AC & AO & TH).
  destruct Hw as [->| ->].
  - eapply (exclusive decode kern choose m p acts owner place M0 used0 laid disjoint defined j k); eauto.
  - eapply (exclusive decode kern choose m p acts owner place M0 used0 laid disjoint defined k j); eauto.
Qed.

Lemma c76_in_use : forall sched M k a w, dturns start sched = Goes M -> dnext_visit (dm_thread M k) = Some (a, w) -> item_of (dm_used M) a.
Proof. intros sched M k a w E H. destruct (reached _ _ E) as (own & OK). exact (proj1 (now_reaches own M k a w OK H)). Qed.

(** Nothing else is freed. *)
Lemma remove_keeps : forall b b0 l l', remove_block b0 l = Some l' -> In b l -> In b l' \/ b = b0.
Proof.
  intros b b0 l. induction l as [|b' l IH]; intros l' E I; cbn [remove_block] in E; [discriminate|]. destruct (block_eqb b0 b') eqn:Q.
  - injection E as <-. destruct I as [<-|I]; [|auto]. right. unfold block_eqb in Q. apply andb_prop in Q. destruct Q as [Q1 Q2].
    apply Nat.eqb_eq in Q1. apply N.eqb_eq in Q2. destruct b0, b'. cbn in *. congruence.
  - destruct (remove_block b0 l) as [l1|]; [|discriminate]. injection E as <-. destruct I as [<-|I]; [left; now left|].
    destruct (IH l1 eq_refl I) as [J|J]; [left; now right|auto].
Qed.
Lemma back_keeps : forall b bs (Y Y' : bytes B), give_back_all Y bs = Ok Y' -> In b (y_blocks Y) -> In b (y_blocks Y') \/ In b bs.
Proof.
  intros b bs. induction bs as [|b0 bs IH]; intros Y Y' E I; cbn [give_back_all] in E; [injection E as <-; auto|].
  apply bind_ok in E. destruct E as (Y1 & E1 & E). unfold give_back in E1. destruct (snd b0 =? 0).
  - injection E1 as <-. destruct (IH _ _ E I); auto. right. now right.
  - destruct (remove_block b0 (y_blocks Y)) as [l|] eqn:R; [|discriminate]. injection E1 as <-.
    destruct (remove_keeps b b0 _ _ R I) as [J| ->]; [|right; now left]. destruct (IH _ _ E J); auto. right. now right.
Qed.
Lemma settle_keeps : forall (M M' : dmachine T St B) used k t xs b, settle M used k t xs = Goes M' -> In b used -> In b (dm_used M') \/ In b (released (dt_table t) xs).
Proof.
  intros M M' used k t xs b E I. unfold settle in E. destruct (give_back_all _ _) as [Y| |] eqn:G; try discriminate. injection E as <-.
  exact (back_keeps b _ _ _ G I).
Qed.
Lemma c76_frees : forall (M M' : dmachine T St B) k b, dturn M k = Goes M' -> In b (dm_used M) -> ~ In b (dm_used M') -> In b (next_frees code m (dm_thread M k)).
Proof.
  intros M M' k b E I N. unfold FlatDrops.dturn in E. unfold next_frees. destruct (dt_now (dm_thread M k)) as [[[o new] c]|].
  - destruct c as [[[ms r]| |]|r c|r v c|l c]; try (injection E as <-; contradiction); try discriminate E.
    + destruct (settle_keeps _ _ _ _ _ _ b E I) as [J|J]; [contradiction|exact J].
    + apply in_or_app. destruct (existsb (block_eqb b) new) eqn:X.
      * left. apply existsb_exists in X. destruct X as (b' & J & Q). unfold block_eqb in Q. apply andb_prop in Q. destruct Q as [Q1 Q2].
        apply Nat.eqb_eq in Q1. apply N.eqb_eq in Q2. destruct b, b'. cbn in *. congruence.
      * right. edestruct (settle_keeps _ _ _ _ _ _ b E) as [J|J]; [|contradiction|exact J]. apply filter_In. now rewrite X.
    + destruct (grants _ _); [|discriminate E]. injection E as <-. exfalso. apply N. cbn [dm_used]. destruct (_ =? 0); [exact I|now right].
  - destruct (dt_left (dm_thread M k)) as [|[o|x] left].
    + injection E as <-. contradiction.
    + destruct (program code m _ o) as [c|]; [injection E as <-; contradiction|].
      destruct (settle_keeps _ _ _ _ _ _ b E I) as [J|J]; [contradiction|exact J].
    + destruct (settle_keeps _ _ _ _ _ _ b E I) as [J|J]; [contradiction|exact J].
Qed.

(** Nothing else is written. *)
Lemma c76_writes : forall (M M' : dmachine T St B) k x, dturn M k = Goes M' -> dm_mem M' x <> dm_mem M x ->
  (exists a, dnext_visit (dm_thread M k) = Some (a, true) /\ a <= x < a + item_size) \/
  (exists b, dm_used M' = b :: dm_used M /\ in_block b x /\ forall b', In b' (dm_used M) -> ~ in_block b' x).
Proof.
  clear plain defined acts. intros M M' k x E N. unfold FlatDrops.dturn in E. unfold dnext_visit.
  assert (SE : forall (N1 : dmachine T St B) used t xs, settle N1 used k t xs = Goes M' -> dm_mem M' = dm_mem N1).
  { intros N1 used t xs H. unfold settle in H. destruct (give_back_all _ _); try discriminate. injection H as <-. reflexivity. }
  destruct (dt_now (dm_thread M k)) as [[[o new] c]|].
  - destruct c as [[[ms r]| |]|r c|r v c|l c]; try discriminate E; try (apply SE in E; rewrite E in N; contradiction); try (injection E as <-; contradiction).
    + injection E as <-. left. eexists. split; [reflexivity|]. cbn [dm_mem] in N.
      destruct (N.le_gt_cases (address r) x) as [L|L]; [destruct (N.lt_ge_cases x (address r + item_size)) as [L'|L']; [split; assumption|]|];
        exfalso; apply N; apply (store_out encode decode coding); lia.
    + destruct (grants _ _) eqn:G; [|discriminate E]. injection E as <-. right. cbn [dm_mem dm_used take y_mem y_blocks fst snd] in *.
      set (b := (choose k (dt_count (dm_thread M k)), N.of_nat (length l))) in *.
      assert (X : in_block (T := T) b x).
      { unfold in_block. destruct (N.le_gt_cases (N.of_nat (fst b)) x) as [L|L]; [destruct (N.lt_ge_cases x (N.of_nat (fst b) + snd b * item_size)) as [L'|L']; [split; assumption|]|];
          exfalso; apply N; apply (store_all_out encode decode coding); cbn [b fst snd] in *; lia. }
      exists b. unfold grants in G. cbn [y_blocks] in G. change (N.of_nat (length l)) with (snd b). destruct (snd b =? 0) eqn:Z.
      * apply N.eqb_eq in Z. unfold in_block in X. rewrite Z in X. lia.
      * split; [reflexivity|]. split; [exact X|]. intros b' I X'. cbn [orb] in G. apply andb_prop in G. destruct G as [_ G].
        rewrite forallb_forall in G. specialize (G b' I). unfold blocks_apart in G. unfold in_block in X, X'. apply orb_prop in G. destruct G as [G|G]; apply N.leb_le in G; lia.
  - destruct (dt_left (dm_thread M k)) as [|[o|y] left]; [injection E as <-; contradiction|destruct (program code m _ o); [injection E as <-; contradiction|]|]; apply SE in E; rewrite E in N; contradiction.
Qed.

(** Nothing else is read. *)
Lemma give_back_mem : forall bs (mem mem2 : N -> B) used,
  match give_back_all (mkBytes mem used []) bs, give_back_all (mkBytes mem2 used []) bs with
  | Ok Y, Ok Y2 => y_blocks Y = y_blocks Y2
  | UB, UB | Panic, Panic => True
  | _, _ => False
  end.
Proof.
  intros bs mem mem2. induction bs as [|b bs IH]; intros used; cbn [give_back_all]; [reflexivity|]. unfold give_back. cbn [y_mem y_blocks y_log]. destruct (snd b =? 0); cbn [bind y_mem y_blocks y_log]; [apply IH|].
  destruct (remove_block b used); cbn [bind]; [apply IH|exact I].
Qed.
Lemma c76_reads : forall (M : dmachine T St B) mem k,
  (forall a x, dnext_visit (dm_thread M k) = Some (a, false) -> a <= x < a + item_size -> mem x = dm_mem M x) ->
  match dturn M k, dturn (mkDMachine mem (dm_used M) (dm_thread M)) k with
  | Goes M1, Goes M2 => dm_used M2 = dm_used M1 /\ forall j, dm_thread M2 j = dm_thread M1 j
  | NoMemory, NoMemory | Undefined, Undefined | Rejected, Rejected => True
  | _, _ => False
  end.
Proof.
  intros M mem k H. unfold dnext_visit in H. unfold FlatDrops.dturn. cbn [dm_mem dm_used dm_thread].
  assert (SE : forall used t xs, match settle M used k t xs, settle (mkDMachine mem (dm_used M) (dm_thread M)) used k t xs with
    | Goes M1, Goes M2 => dm_used M2 = dm_used M1 /\ forall j, dm_thread M2 j = dm_thread M1 j
    | NoMemory, NoMemory | Undefined, Undefined | Rejected, Rejected => True
    | _, _ => False end).
  { intros used t xs. unfold settle. cbn [dm_mem dm_used dm_thread]. pose proof (give_back_mem (released (dt_table t) xs) (dm_mem M) mem used) as G.
    destruct (give_back_all _ _), (give_back_all _ _); try contradiction; auto. }
  destruct (dt_now (dm_thread M k)) as [[[o new] c]|].
  - destruct c as [[[ms r]| |]|r c|r v c|l c]; try apply SE; auto.
    + rewrite (load_ext decode (choose k) mem (dm_mem M) (address r)); [auto|]. intros x X. now apply (H (address r)).
    + change (grants (mkBytes mem (dm_used M) [])) with (grants (T := T) (mkBytes (dm_mem M) (dm_used M) [])). destruct (grants _ _); auto.
  - destruct (dt_left (dm_thread M k)) as [|[o|y] left]; [auto|destruct (program code m _ o); [auto|apply SE]|apply SE].
Qed.

(** What a thread is about to free is its own. *)
Lemma frees_own : forall own M k b, machine_ok own M -> In b (next_frees code m (dm_thread M k)) -> snd b <> 0 -> In b (own k).
Proof.
  intros own M k b OK I Z. pose proof OK as (U & NE & ND & AC & AO & TH). destruct (TH k) as (made & fs & I1 & I2 & I3 & I4).
  assert (QF : forall fs1 fs' tb cnt bl xs, quiet decode choose p owner place used0 k fs1 tb cnt bl (dm_mem M) -> destroy_all fs1 xs = Ok fs' ->
    (forall b', In b' bl -> In b' (own k)) -> In b (released tb xs) -> In b (own k)).
  { intros fs1 fs' tb cnt bl xs Q D S R. destruct (release decode choose p owner place used0 k fs1 fs' tb cnt bl (dm_mem M) xs (dm_used M) Q D ND NE) as (_ & _ & _ & _ & _ & _ & NC & _).
    - intros b' [C|C]; apply U; eauto.
    - apply S. now apply (NC b R Z). }
  unfold next_frees in I. unfold now_actions in I1, I3. destruct (dt_now (dm_thread M k)) as [[[o new] c]|].
  - destruct c as [[[ms r]| |]|r c|r v c|l c]; try contradiction; cbn [app] in I1, I3;
      destruct (next_defined kern m p acts owner defined _ _ _ _ _ _ I1 I2) as (fs' & rs & ST & RN);
      destruct (alone_call kern m _ _ _ _ ST) as (st' & r0 & ES & EDS & ->); destruct I3 as [PC _].
    + destruct (call_quiet encode decode coding kern code impl choose m p acts owner place used0 own M k fs _ _ o new _ st' r0 OK I4 PC ES) as [-> Q].
      eapply QF; eauto.
    + destruct (call_quiet encode decode coding kern code impl choose m p acts owner place used0 own M k fs _ _ o new _ st' r0 OK I4 PC ES) as (-> & NW & Q).
      apply in_app_or in I. destruct I as [I|I]; [now apply NW|]. eapply QF; eauto. intros b' Ib. apply filter_In in Ib. apply Ib.
  - destruct (dt_left (dm_thread M k)) as [|[o|x] left]; try contradiction; cbn [app] in I1, I3.
    { destruct (program code m _ o) eqn:PR; [contradiction|].
      destruct (next_defined kern m p acts owner defined _ _ _ _ _ _ I1 I2) as (fs' & rs & ST & RN).
      destruct (alone_call kern m _ _ _ _ ST) as (st' & r0 & ES & EDS & ->). destruct I3 as [PC _].
      destruct (skip_quiet encode decode coding kern code impl choose m p owner place used0 k fs _ _ _ _ o st' r0 I4 PR PC ES) as [-> Q]. eapply QF; eauto. }
    destruct (next_defined kern m p acts owner defined _ _ _ _ _ _ I1 I2) as (fs' & rs & ST & RN). cbn [alone_step] in ST. apply bind_ok in ST. destruct ST as (fs1 & ED & ST).
    eapply (QF fs fs1 _ _ _ [x]); eauto. cbn [destroy_all]. now rewrite ED.
Qed.

Lemma c76_free_races : forall sched M, dturns start sched = Goes M -> ~ free_race code m M.
Proof.
  intros sched M E (j & k & b & a & w & x & D & Hb & Ha & X & X'). destruct (reached _ _ E) as (own & OK).
  assert (Z : snd b <> 0) by (intros Z; unfold in_block in X; rewrite Z in X; lia).
  pose proof (frees_own own M j b OK Hb Z) as Ib. destruct (proj2 (now_reaches own M k a w OK Ha) x X') as [R _].
  destruct OK as (U & NE & ND & AC & AO & TH).
  apply (exclusive decode kern choose m p acts owner place M0 used0 laid disjoint defined j k (own j) (own k) x); eauto. right. eauto.
Qed.

Lemma c76_frees_once : forall sched M, dturns start sched = Goes M -> ~ double_free code m M.
Proof.
  intros sched M E (j & k & b & b' & x & D & Hb & Hb' & X & X'). destruct (reached _ _ E) as (own & OK).
  assert (Z : snd b <> 0) by (intros Z; unfold in_block in X; rewrite Z in X; lia).
  assert (Z' : snd b' <> 0) by (intros Z'; unfold in_block in X'; rewrite Z' in X'; lia).
  pose proof (frees_own own M j b OK Hb Z) as Ib. pose proof (frees_own own M k b' OK Hb' Z') as Ib'.
  destruct OK as (U & NE & ND & AC & AO & TH). apply (AO j k b b' D Ib Ib' x). auto.
Qed.

(** ** Every thread can go on *)

Lemma dturns_app : forall s1 s2 (M : dmachine T St B), dturns M (s1 ++ s2) = match dturns M s1 with Goes M' => dturns M' s2 | e => e end.
Proof. intros s1. induction s1 as [|k s1 IH]; intros s2 M; cbn [FlatDrops.dturns app]; auto. destruct (dturn M k); auto. Qed.

Lemma put_same_d : forall (f : nat -> dthread T St) k t, put_dthread f k t k = t.
Proof. intros f k t. unfold put_dthread. now rewrite Nat.eqb_refl. Qed.

Definition dended (e : effect (dmachine T St B)) : Prop := match e with Goes _ => False | _ => True end.

Lemma settle_ends : forall (M : dmachine T St B) used k t xs, dended (settle M used k t xs) \/ exists M', settle M used k t xs = Goes M' /\ dm_thread M' k = t.
Proof.
  intros M used k t xs. unfold settle. destruct (give_back_all _ _) as [Y| |]; [right|left; exact I|left; exact I].
  eexists. split; [reflexivity|]. cbn [dm_thread]. apply put_same_d.
Qed.

Lemma dcall_ends : forall k c (M : dmachine T St B) o new, dt_now (dm_thread M k) = Some (o, new, c) ->
  exists j, dended (dturns M (repeat k j)) \/
    exists M', dturns M (repeat k j) = Goes M' /\ dt_now (dm_thread M' k) = None /\ dt_left (dm_thread M' k) = dt_left (dm_thread M k).
Proof.
  intros k c.
  assert (ST : forall M used t xs, dt_now t = None -> dt_left t = dt_left (dm_thread M k) -> dturn M k = settle M used k t xs ->
    exists j, dended (dturns M (repeat k j)) \/
      exists M', dturns M (repeat k j) = Goes M' /\ dt_now (dm_thread M' k) = None /\ dt_left (dm_thread M' k) = dt_left (dm_thread M k)).
  { intros M used t xs N1 L1 E. exists 1%nat. cbn [repeat FlatDrops.dturns]. rewrite E. destruct (settle_ends M used k t xs) as [U|(M' & -> & X)].
    - left. destruct (settle M used k t xs); auto.
    - right. exists M'. rewrite X. auto. }
  induction c as [[[ms r]| |]|q c IH|q v c IH|ls c IH]; intros M o new H.
  - eapply (ST M (dm_used M) (mkDThread (dt_table (dm_thread M k) ++ ms) (dt_count (dm_thread M k)) (dt_left (dm_thread M k)) None (dt_done (dm_thread M k) ++ [r])) (consumed o r));
      [reflexivity|reflexivity|]. unfold FlatDrops.dturn. cbv zeta. now rewrite H.
  - eapply (ST M _ (mkDThread (dt_table (dm_thread M k)) (dt_count (dm_thread M k)) (dt_left (dm_thread M k)) None (dt_done (dm_thread M k) ++ [RPanicked])) (consumed o RPanicked));
      [reflexivity|reflexivity|]. unfold FlatDrops.dturn. cbv zeta. rewrite H. reflexivity.
  - exists 1%nat. left. cbn [repeat FlatDrops.dturns]. unfold FlatDrops.dturn. cbv zeta. rewrite H. exact I.
  - assert (E : exists M1, dturn M k = Goes M1 /\ dt_now (dm_thread M1 k) = Some (o, new, c (load decode (dm_mem M) (address q))) /\ dt_left (dm_thread M1 k) = dt_left (dm_thread M k)).
    { unfold FlatDrops.dturn. cbv zeta. rewrite H. eexists. split; [reflexivity|]. cbn [dm_thread]. now rewrite put_same_d. }
    destruct E as (M1 & E & E1 & E2). destruct (IH _ M1 o new E1) as (j & Hj). exists (S j). cbn [repeat FlatDrops.dturns]. rewrite E. rewrite <- E2. exact Hj.
  - assert (E : exists M1, dturn M k = Goes M1 /\ dt_now (dm_thread M1 k) = Some (o, new, c) /\ dt_left (dm_thread M1 k) = dt_left (dm_thread M k)).
    { unfold FlatDrops.dturn. cbv zeta. rewrite H. eexists. split; [reflexivity|]. cbn [dm_thread]. now rewrite put_same_d. }
    destruct E as (M1 & E & E1 & E2). destruct (IH M1 o new E1) as (j & Hj). exists (S j). cbn [repeat FlatDrops.dturns]. rewrite E. rewrite <- E2. exact Hj.
  - set (b := (choose k (dt_count (dm_thread M k)), N.of_nat (length ls))).
    assert (E : dturn M k = NoMemory \/ exists M1, dturn M k = Goes M1 /\ dt_now (dm_thread M1 k) = Some (o, b :: new, c (mkRegion (fst b) 0 (snd b))) /\ dt_left (dm_thread M1 k) = dt_left (dm_thread M k)).
    { unfold FlatDrops.dturn. cbv zeta. rewrite H. destruct (grants _ _); [right|now left]. eexists. split; [reflexivity|]. cbn [dm_thread]. now rewrite put_same_d. }
    destruct E as [E|(M1 & E & E1 & E2)].
    + exists 1%nat. left. cbn [repeat FlatDrops.dturns]. rewrite E. exact I.
    + destruct (IH _ M1 o _ E1) as (j & Hj). exists (S j). cbn [repeat FlatDrops.dturns]. rewrite E. rewrite <- E2. exact Hj.
Qed.

Lemma dthread_ends : forall k left (M : dmachine T St B), dt_now (dm_thread M k) = None -> dt_left (dm_thread M k) = left ->
  exists j, dended (dturns M (repeat k j)) \/
    exists M', dturns M (repeat k j) = Goes M' /\ dt_now (dm_thread M' k) = None /\ dt_left (dm_thread M' k) = [].
Proof.
  intros k rest. induction rest as [|a rest IH]; intros M Hn Hl.
  - exists 0%nat. right. exists M. auto.
  - assert (E : dended (dturn M k) \/ exists M1, dturn M k = Goes M1 /\ dt_left (dm_thread M1 k) = rest /\
       (dt_now (dm_thread M1 k) = None \/ exists o n c, dt_now (dm_thread M1 k) = Some (o, n, c))).
    { unfold FlatDrops.dturn. cbv zeta. rewrite Hn, Hl.
      assert (SE : forall used t xs, dt_now t = None -> dt_left t = rest -> dended (settle M used k t xs) \/ exists M1, settle M used k t xs = Goes M1 /\ dt_left (dm_thread M1 k) = rest /\
        (dt_now (dm_thread M1 k) = None \/ exists o n c, dt_now (dm_thread M1 k) = Some (o, n, c))).
      { intros used t xs N1 L1. destruct (settle_ends M used k t xs) as [U|(M' & -> & X)]; [now left|right]. exists M'. rewrite X. auto. }
      destruct a as [o|x]; [destruct (program code m (dt_table (dm_thread M k)) o) as [c|]|].
      - right. eexists. split; [reflexivity|]. cbn [dm_thread]. rewrite put_same_d. cbn. split; [reflexivity|]. right. eauto.
      - now apply SE.
      - now apply SE. }
    destruct E as [U|(M1 & E & L1 & [N1|(o & n & c & N1)])].
    + exists 1%nat. left. cbn [repeat FlatDrops.dturns]. destruct (dturn M k); auto.
    + destruct (IH M1 N1 L1) as (j & Hj). exists (S j). cbn [repeat FlatDrops.dturns]. rewrite E. exact Hj.
    + destruct (dcall_ends k c M1 o n N1) as (j & [U|(M2 & E2 & N2 & L2)]).
      * exists (S j). left. cbn [repeat FlatDrops.dturns]. rewrite E. exact U.
      * destruct (IH M2 N2) as (j2 & Hj); [congruence|]. exists (S (j + j2))%nat. cbn [repeat FlatDrops.dturns]. rewrite E.
        rewrite repeat_app, dturns_app, E2. exact Hj.
Qed.

Lemma c76_finishes : forall sched M k, dturns start sched = Goes M -> exists n,
  dturns M (repeat k n) = NoMemory \/ exists M', dturns M (repeat k n) = Goes M' /\ dt_now (dm_thread M' k) = None /\ dt_left (dm_thread M' k) = [].
Proof.
  intros sched M k E. destruct (reached _ _ E) as (own & OK).
  assert (ND : forall j, dended (dturns M (repeat k j)) -> dturns M (repeat k j) = NoMemory).
  { intros j X. pose proof (goes_on own M (repeat k j) OK) as H. destruct (dturns M (repeat k j)); try contradiction. reflexivity. }
  destruct (dt_now (dm_thread M k)) as [[[o n] c]|] eqn:En.
  - destruct (dcall_ends k c M o n En) as (j & [U|(M1 & E1 & N1 & L1)]); [exists j; left; auto|].
    destruct (dthread_ends k _ M1 N1 L1) as (j2 & [U|(M2 & E2 & F)]).
    + exists (j + j2)%nat. left. apply ND. rewrite repeat_app, dturns_app, E1. exact U.
    + exists (j + j2)%nat. right. exists M2. rewrite repeat_app, dturns_app, E1. auto.
  - destruct (dthread_ends k _ M En eq_refl) as (j & [U|(M1 & E1 & F)]); [exists j; left; auto|]. exists j. right. eauto.
Qed.

(** ** What is in use at the end *)

Lemma flat_at_most : forall (A C : Type) (f : A -> list C) (g : A -> bool) l, (forall x, In x l -> (length (f x) <= if g x then 1 else 0)%nat) ->
  (length (flat_map f l) <= length (filter g l))%nat.
Proof.
  intros A C f g l. induction l as [|x l IH]; intros H; cbn [flat_map filter]; auto. rewrite app_length. pose proof (H x (or_introl eq_refl)) as X.
  assert (Y : (length (flat_map f l) <= length (filter g l))%nat) by (apply IH; intros y I; apply H; now right).
  destruct (g x); cbn [length]; lia.
Qed.
Lemma flat_exactly : forall (A C : Type) (f : A -> list C) (g : A -> bool) l, (forall x, In x l -> length (f x) = if g x then 1%nat else 0%nat) ->
  length (flat_map f l) = length (filter g l).
Proof.
  intros A C f g l. induction l as [|x l IH]; intros H; cbn [flat_map filter]; auto. rewrite app_length, (H x (or_introl eq_refl)).
  rewrite IH by (intros y I; apply H; now right). destruct (g x); reflexivity.
Qed.

(** A thread is done with its own memory when what is left is common, and not more of it than at the start. *)
Definition is_common (a : nat) : bool :=
  match owner a with None => match nth_error (p_heap p) a with Some (_ :: _) => true | _ => false end | _ => false end.

Lemma common_in : forall b, In b (blocks_of (p_heap p) place is_common) <-> cm b.
Proof.
  intros b. rewrite blocks_of_in. unfold is_common. split; intros (a & l & E & NE & O & X); exists a, l; repeat (split; [assumption|]).
  - rewrite E in O. destruct (owner a); [discriminate|auto].
  - rewrite O, E. destruct l; [congruence|auto].
Qed.

Lemma nodup_both : forall (C : Type) (l l' : list C), NoDup l -> NoDup l' -> (forall a, In a l -> ~ In a l') -> NoDup (l ++ l').
Proof.
  intros C l l' ND ND' H. induction ND as [|x l N ND IH]; cbn [app]; auto. constructor.
  - intros I. apply in_app_or in I. destruct I; [contradiction|]. apply (H x (or_introl eq_refl)). auto.
  - apply IH. intros a I. apply H. now right.
Qed.
Lemma nodup_flat : forall (A C : Type) (f : A -> list C) l, NoDup l -> (forall x, In x l -> NoDup (f x)) ->
  (forall x y c, In x l -> In y l -> In c (f x) -> In c (f y) -> x = y) -> NoDup (flat_map f l).
Proof.
  intros A C f l ND. induction ND as [|x l N ND IH]; intros H1 H2; cbn [flat_map]; [constructor|].
  apply nodup_both.
  - apply H1. now left.
  - apply IH; [intros y I; apply H1; now right|]. intros y z c Iy Iz. apply H2; now right.
  - intros c Ic I. apply in_flat_map in I. destruct I as (y & Iy & Jc). apply N. rewrite (H2 x y c); auto; [now left|now right].
Qed.
Lemma common_nodup : NoDup (blocks_of (p_heap p) place is_common).
Proof.
  unfold blocks_of. apply nodup_flat.
  - apply seq_NoDup.
  - intros a _. destruct (nth_error (p_heap p) a) as [[|v l]|]; try constructor. destruct (is_common a); repeat constructor. auto.
  - intros a a' b _ _ I I'. destruct (Nat.eq_dec a a') as [E|D]; [exact E|exfalso].
    destruct (nth_error (p_heap p) a) as [[|v l]|] eqn:E; try contradiction. destruct (nth_error (p_heap p) a') as [[|v' l']|] eqn:E'; try contradiction.
    destruct (is_common a); [|contradiction]. destruct (is_common a'); [|contradiction]. destruct I as [<-|[]]. destruct I' as [I'|[]].
    assert (Z : snd (place a, N.of_nat (length (v :: l))) = 0); [|cbn [snd length] in Z; lia].
    apply (dis_self (T := T)). rewrite <- I' at 2. intros x. apply (laid_apart _ _ _ _ _ laid a a'); auto; discriminate.
Qed.

(** What a thread freed is empty when it is done. *)
Lemma c76_freed : forall sched M, dturns start sched = Goes M -> forall k, dt_now (dm_thread M k) = None -> dt_left (dm_thread M k) = [] ->
  forall fs rs a l, alone_run kern m (alone p owner k) (acts k) = Ok (fs, rs) -> In a (f_freed fs) ->
  nth_error (st_heap (b_state (f_state fs))) a = Some l -> l = [].
Proof.
  intros sched M E k N L fs rs a l A F X. destruct (reached _ _ E) as (own & _ & _ & _ & _ & _ & TH). destruct (TH k) as (made & fs' & I1 & I2 & I3 & I4).
  unfold now_actions in I1. rewrite N in I1, I4. rewrite L in I1. cbn [app] in I1. rewrite app_nil_r in I1. rewrite <- I1, A in I2. injection I2 as <- _.
  destruct I4 as (rho & sigma & P & ever & J1 & _). destruct (rel_sizes _ _ _ _ _ _ J1 a l X) as [[_ Z]|[Z _]]; [exact Z|contradiction].
Qed.

Lemma c76_leaks : 
  (forall k fs rs a l, alone_run kern m (alone p owner k) (acts k) = Ok (fs, rs) -> nth_error (st_heap (b_state (f_state fs))) a = Some l -> l <> [] ->
     owner a = None /\ exists l0, nth_error (p_heap p) a = Some l0 /\ l0 <> []) ->
  forall sched M, dturns start sched = Goes M -> (forall k, dt_now (dm_thread M k) = None /\ dt_left (dm_thread M k) = []) ->
  forall b, In b (dm_used M) <-> exists a l, nth_error (p_heap p) a = Some l /\ l <> [] /\ owner a = None /\ b = (place a, N.of_nat (length l)).
Proof.
  intros CL sched M E DN b. fold (cm b). destruct (reached _ _ E) as (own & U & NE & ND & AC & AO & TH). rewrite U. split; [|now left].
  intros [C|(k & I)]; [exact C|]. destruct (TH k) as (made & fs & I1 & I2 & I3 & I4). destruct (DN k) as [N L]. unfold now_actions in I1. rewrite N in I1, I4. rewrite L in I1.
  cbn [app] in I1. rewrite app_nil_r in I1. subst made.
  destruct I4 as (rho & sigma & P & ever & J1 & J2 & J3 & J4 & J5 & J6 & J7 & J8). pose proof (rel_rep _ _ _ _ _ _ J1) as R.
  set (h := st_heap (b_state (f_state fs))) in *.
  assert (LE : (length (y_blocks (pr_bytes P)) <= length (blocks_of (p_heap p) place is_common))%nat).
  { transitivity (length (blocks_of h rho (fun _ => true))).
    { apply NoDup_incl_length; [exact (rep_nodup _ _ _ _ _ _ R)|]. intros b' I'. apply blocks_of_in. apply (rep_blocks _ _ _ _ _ _ R) in I'.
      destruct I' as (a & l & X & Y & Z). exists a, l. auto. }
    transitivity (length (filter is_common (seq 0 (length h)))).
    { apply flat_at_most. intros a _. destruct (nth_error h a) as [[|v l]|] eqn:X; cbn [length]; try lia.
      destruct (CL k fs _ a (v :: l) I2 X) as (O & l0 & X0 & N0); [discriminate|]. unfold is_common. rewrite O, X0. destruct l0; [congruence|]. auto. }
    transitivity (length (filter is_common (seq 0 (length (p_heap p))))).
    { apply NoDup_incl_length; [apply NoDup_filter, seq_NoDup|]. intros a X. apply filter_In in X. destruct X as [_ X]. apply filter_In. split; [|exact X].
      apply in_seq. unfold is_common in X. destruct (owner a); [discriminate|]. destruct (nth_error (p_heap p) a) eqn:Y; [|discriminate].
      assert (a < length (p_heap p))%nat by (apply nth_error_Some; congruence). lia. }
    apply Nat.eq_le_incl. symmetry. apply flat_exactly. intros a _. unfold is_common.
    destruct (nth_error (p_heap p) a) as [[|v l]|]; destruct (owner a); reflexivity. }
  apply common_in. apply (NoDup_length_incl common_nodup LE).
  - intros b' C. apply common_in in C. apply J7. now left.
  - apply J7. now right.
Qed.

End Threads.
