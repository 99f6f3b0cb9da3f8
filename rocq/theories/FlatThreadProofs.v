(** * FlatThreadProofs: the theorems on threads on the bytes. *)

From Coq Require Import Lia ZifyBool ZifyNat ZifyN.
From Verif Require Import Machine MachineFacts Layouts Memory MemoryFacts Matrix MatMul Spec MatrixSpec ExprSpec ProductSpec.
From Verif Require Import Program HistorySpec HistoryProofs HistorySafety Borrow BorrowProofs Dealloc DeallocProofs Threads ThreadProofs Interleave InterleaveProofs InterleaveMachine.
From Verif Require Import Flat FlatProofs FlatHistory FlatProducts FlatThreads FlatFits FlatMachine.
Local Open Scope N_scope.

Section Start.
Context {T : Type} {SC : HScalar T} {St : Type} {B : Type}.

Lemma occupies_moved : forall rho (x : matrix T) q, occupies (move_matrix rho x) q <-> exists a, fst q = rho a /\ occupies x (a, snd q).
Proof.
  intros rho x q. induction x; cbn [move_matrix occupies]; auto.
  - cbn [move_base bm_data c_region move_region r_alloc r_lo r_len fst snd]. split.
    + intros (E & L). eauto.
    + intros (a & E & -> & L). auto.
  - rewrite IHx1, IHx2. split.
    + intros [(a & E & O)|(a & E & O)]; eauto.
    + intros (a & E & [O|O]); eauto.
Qed.
Lemma writable_moved : forall rho (x : matrix T), is_writable (move_matrix rho x) = is_writable x.
Proof. intros rho x. induction x; cbn [move_matrix is_writable]; auto. Qed.

Lemma dis_apart : forall b b' : nat * N, snd b <> 0 -> snd b' <> 0 -> (forall x, ~ (in_block b x /\ in_block b' x)) -> blocks_apart b b' = true.
Proof.
  intros b b' Z Z' H. unfold blocks_apart. destruct (N.leb_spec (N.of_nat (fst b) + snd b * item_size) (N.of_nat (fst b'))); auto.
  destruct (N.leb_spec (N.of_nat (fst b') + snd b' * item_size) (N.of_nat (fst b))); auto. exfalso.
  pose proof (size_pos (T := T)). assert (0 < snd b * item_size) by nia. assert (0 < snd b' * item_size) by nia.
  apply (H (N.max (N.of_nat (fst b)) (N.of_nat (fst b')))). unfold in_block. lia.
Qed.
End Start.

Section Threads.
Context {T : Type} {SC : HScalar T} {St : Type} {B : Type}.
Variable encode : T -> list B.
Variable decode : list B -> T.
Hypothesis coding : faithful encode decode.
Variable kern : kernel T.
Variable code : gemm_args T -> prog T unit.
Hypothesis impl : implements code kern.
Variable choose : nat -> nat -> nat.
Variables (m : mode) (p : pool T) (calls : nat -> list (call T St)).
Variables (place : nat -> nat) (M0 : N -> B) (used0 : list (nat * N)).
Hypothesis laid : laid_out decode p place M0 used0.
Hypothesis inside : in_memory p.
Hypothesis disjoint : Threads.apart p.
Hypothesis plain : forall k, plain_history kern m (view p k) (calls k).
Hypothesis defined : forall k, exists x, run kern m (view p k) (calls k) = Ok x.
Notation thread_ok := (thread_ok encode decode kern code choose m p calls place used0).
Notation machine_ok := (machine_ok encode decode kern code choose m p calls place used0).
Notation turns := (turns encode decode code choose m).
Notation turn := (turn encode decode code choose m).
Notation start := (flaunch p place M0 used0 calls).

Lemma start_thread : forall k, thread_ok k (fm_thread start k) [] M0.
Proof.
  intros k. cbn [flaunch fm_thread].
  set (rho := fun a => if (a <? length (p_heap p))%nat then place a else choose k (a - length (p_heap p))).
  set (sigma := fun a => match nth_error (p_heap p) a with Some l => N.of_nat (length l) | None => 0 end).
  set (Y := mkBytes M0 used0 used0).
  assert (RE : forall a, (a < length (p_heap p))%nat -> rho a = place a).
  { intros a L. unfold rho. destruct (Nat.ltb_spec a (length (p_heap p))); [auto|lia]. }
  assert (LT : forall a l, nth_error (p_heap p) a = Some l -> (a < length (p_heap p))%nat) by (intros a l X; apply nth_error_Some; congruence).
  assert (PL : Forall (placed (p_heap p)) (p_tabs p k)) by (apply Forall_forall; intros x I a L; eapply inside; eauto).
  exists [], (view p k), rho, sigma, (mkFState (mkBState (view p k) []) [] []), (mkProcess Y (map (move_matrix place) (p_tabs p k)) [] []), Y, [].
  unfold now_calls. cbn [ft_table ft_count ft_left ft_now ft_done app f_state b_state pr_bytes pr_table y_blocks y_mem Y].
  split; [reflexivity|]. split; [reflexivity|]. split; [reflexivity|]. split.
  { constructor; cbn [f_state b_state b_slots f_gone f_freed pr_bytes pr_table pr_slots pr_gone view st_heap st_mats]; auto.
    - symmetry. symmetry. apply (map_move_ext rho place (p_heap p)); auto. intros a L. now rewrite RE.
    - constructor; cbn [y_mem y_blocks Y].
      + intros a i v G. pose proof (hget_inv (choose k) M0 _ _ _ _ G) as (l & E & _). rewrite RE by eauto. now apply (laid_items _ _ _ _ _ laid).
      + intros b. rewrite (laid_blocks _ _ _ _ _ laid b). split; intros (a & l & E & NE & ->); exists a, l; rewrite RE by eauto; auto.
      + intros a a' l l' E E' NE NE' D. rewrite !RE by eauto. apply dis_apart; cbn [snd].
        * destruct l; [congruence|]. cbn [length]. lia.
        * destruct l'; [congruence|]. cbn [length]. lia.
        * now apply (laid_apart _ _ _ _ _ laid).
      + apply (laid_once _ _ _ _ _ laid).
      + intros j. unfold rho, chooser, y_count, Y. cbn [y_log]. destruct (Nat.ltb_spec (length (p_heap p) + j) (length (p_heap p))); [lia|]. f_equal. lia.
      + reflexivity.
    - apply Forall_forall. intros x I b Ib. destruct (laid_owned _ _ _ _ _ laid k x b I Ib) as (l & E & ->). unfold sigma. now rewrite E.
    - intros a l E. right. split; [auto|]. unfold sigma. now rewrite E.
    - intros a []. }
  split; [intros b I; exact I|]. split; [reflexivity|]. split; [apply plain|]. split; [auto|]. split.
  { intros x I. apply in_map_iff in I. destruct I as (y & <- & I). split; [|intros Wy]; intros q O; apply occupies_moved in O; destruct O as (a & E & O); left.
    - exists a. split; auto. exists y. auto.
    - rewrite writable_moved in Wy. exists a, y. auto. }
  split; [auto|]. split; [symmetry; apply Nat.add_0_r|]. split; [intros b; cbn [In]; tauto|]. split; auto.
Qed.

Lemma start_ok : machine_ok (fun _ => []) start.
Proof.
  split; [|split; [|split; [|split]]]; cbn [flaunch fm_used fm_mem].
  - intros b. cbn [In]. split; [auto|]. intros [I|(k & [])]; auto.
  - intros b I. apply (laid_blocks _ _ _ _ _ laid) in I. destruct I as (a & l & _ & NE & ->). destruct l; [congruence|]. cbn [snd length]. lia.
  - intros k b b' [].
  - intros j k b b' _ [].
  - intros k. apply start_thread.
Qed.

Lemma reached : forall sched M, turns start sched = Goes M -> exists own, machine_ok own M.
Proof.
  intros sched M E. pose proof (turns_ok encode decode coding kern code impl choose m p calls place M0 used0 laid disjoint plain defined sched _ _ start_ok) as H.
  rewrite E in H. exact H.
Qed.

Lemma c74_defined : forall sched, turns start sched = NoMemory \/ exists M, turns start sched = Goes M.
Proof.
  intros sched. pose proof (turns_ok encode decode coding kern code impl choose m p calls place M0 used0 laid disjoint plain defined sched _ _ start_ok) as H.
  destruct (turns start sched); try contradiction; eauto.
Qed.

Lemma c74_alone : forall sched M, turns start sched = Goes M ->
  forall k, exists made st rho,
    calls k = made ++ now_calls (fm_thread M k) ++ ft_left (fm_thread M k) /\
    run kern m (view p k) made = Ok (st, ft_done (fm_thread M k)) /\
    ft_table (fm_thread M k) = map (move_matrix rho) (st_mats st) /\
    (ft_now (fm_thread M k) = None -> forall x q v, In x (st_mats st) -> occupies x q ->
       hget (st_heap st) (fst q) (snd q) = Some v -> load decode (fm_mem M) (address (mkPlace (rho (fst q)) (snd q))) = v).
Proof.
  intros sched M E k. destruct (reached _ _ E) as (own & _ & _ & _ & _ & TH).
  destruct (TH k) as (made & st & rho & sigma & fs & P & Yc & bl0 & I1 & I2 & I3 & I4 & I5 & I6 & I7 & I8 & I9 & I10 & I11 & I12 & I13 & I14).
  exists made, st, rho. split; [exact I1|]. split; [exact I2|]. rewrite <- I6, (rel_table _ _ _ _ _ _ I4), I3. split; [reflexivity|].
  intros N x q v Ix O G. rewrite N in I14. subst Yc.
  rewrite <- (rep_items _ _ _ _ _ _ (rel_rep _ _ _ _ _ _ I4) (fst q) (snd q) v); [|now rewrite I3].
  apply (load_ext decode (choose k)). intros z Z. apply I13. exists (rho (fst q), snd q). split; [|exact Z].
  eapply rq_more; [exact I8|].
  assert (J : In (move_matrix rho x) (ft_table (fm_thread M k))) by (rewrite <- I6, (rel_table _ _ _ _ _ _ I4), I3; now apply in_map).
  apply (proj1 (I9 _ J)). apply occupies_moved. exists (fst q). split; [reflexivity|]. now destruct q.
Qed.

Lemma now_reaches : forall own M k a w, machine_ok own M -> next_visit (fm_thread M k) = Some (a, w) ->
  item_of (fm_used M) a /\ forall x, a <= x < a + item_size ->
    rb (T := T) p place (own k) k x /\ (w = true -> wb (T := T) p place (own k) k x).
Proof.
  intros own M k a w (U & NE & AC & AO & TH) H.
  destruct (TH k) as (made & st & rho & sigma & fs & P & Yc & bl0 & I1 & I2 & I3 & I4 & I5 & I6 & I7 & I8 & I9 & I10 & I11 & I12 & I13 & I14).
  unfold next_visit in H. destruct (ft_now (fm_thread M k)) as [[[o new] c]|]; [|discriminate].
  destruct I14 as (c0 & J1 & J2 & J3 & J4 & J5 & J6 & J7).
  assert (IU : item_of (y_blocks Yc) a -> item_of (fm_used M) a).
  { intros (b & i & Ib & X). exists b, i. split; auto. apply U. apply I12 in Ib. destruct Ib; eauto. }
  destruct c as [[[ms r]| |]|r c|r v c|l c]; try discriminate; injection H as <- <-; cbn [reaches] in J4; destruct J4 as [FP J4].
  - split; [apply IU, J3; cbn [Flat.visits]; now left|]. intros x X. split; [|discriminate].
    exists (pl_alloc r, pl_index r). split; [|now apply qbytes_address].
    eapply (reach_read p place k bl0 (own k)); [intros y Iy; apply (I9 y Iy)|exact I8|intros b Ib Z; apply (J6 b Ib Z)|exact FP].
  - split; [apply IU, J3; cbn [Flat.visits]; now left|]. intros x X.
    assert (W : wb p place (own k) k x).
    { exists (pl_alloc r, pl_index r). split; [|now apply qbytes_address].
      eapply (reach_write p place k bl0 (own k)); [intros y Iy; apply (I9 y Iy)|exact I8|intros b Ib Z; apply (J6 b Ib Z)|exact FP]. }
    split; [now apply wb_rb|auto].
Qed.

Lemma c74_races : forall sched M, turns start sched = Goes M -> ~ byte_race M.
Proof.
  intros sched M E (j & k & a & w & a' & w' & x & D & Hj & Hk & X & X' & Hw). destruct (reached _ _ E) as (own & OK).
  destruct (now_reaches own M j a w OK Hj) as (_ & Rj). destruct (now_reaches own M k a' w' OK Hk) as (_ & Rk).
  destruct (Rj x X) as [Rj1 Rj2]. destruct (Rk x X') as [Rk1 Rk2]. destruct OK as (U & NE & AC & AO & TH).
  destruct Hw as [->| ->].
  - eapply (exclusive decode kern choose m p calls place M0 used0 laid disjoint plain defined j k); eauto.
  - eapply (exclusive decode kern choose m p calls place M0 used0 laid disjoint plain defined k j); eauto.
Qed.

Lemma c74_in_use : forall sched M k a w, turns start sched = Goes M -> next_visit (fm_thread M k) = Some (a, w) -> item_of (fm_used M) a.
Proof. intros sched M k a w E H. destruct (reached _ _ E) as (own & OK). exact (proj1 (now_reaches own M k a w OK H)). Qed.

(** ** Every thread can go on *)

Lemma turns_app : forall s1 s2 (M : fmachine T St B), turns M (s1 ++ s2) = match turns M s1 with Goes M' => turns M' s2 | e => e end.
Proof. intros s1. induction s1 as [|k s1 IH]; intros s2 M; cbn [FlatThreads.turns app]; auto. destruct (turn M k); auto. Qed.

Lemma put_same : forall (f : nat -> fthread T St) k t, put_thread f k t k = t.
Proof. intros f k t. unfold put_thread. now rewrite Nat.eqb_refl. Qed.

Definition ended (e : effect (fmachine T St B)) : Prop := match e with Goes _ => False | _ => True end.

Lemma call_ends : forall k c (M : fmachine T St B) o new, ft_now (fm_thread M k) = Some (o, new, c) ->
  exists j, ended (turns M (repeat k j)) \/
    exists M', turns M (repeat k j) = Goes M' /\ ft_now (fm_thread M' k) = None /\ ft_left (fm_thread M' k) = ft_left (fm_thread M k).
Proof.
  intros k c. induction c as [[[ms r]| |]|q c IH|q v c IH|ls c IH]; intros M o new H.
  - exists 1%nat. right. cbn [repeat FlatThreads.turns]. unfold FlatThreads.turn. cbv zeta. rewrite H. eexists. split; [reflexivity|]. cbn [fm_thread]. now rewrite put_same.
  - exists 1%nat. right. cbn [repeat FlatThreads.turns]. unfold FlatThreads.turn. cbv zeta. rewrite H. eexists. split; [reflexivity|]. cbn [fm_thread]. now rewrite put_same.
  - exists 1%nat. left. cbn [repeat FlatThreads.turns]. unfold FlatThreads.turn. cbv zeta. rewrite H. exact I.
  - assert (E : exists M1, turn M k = Goes M1 /\ ft_now (fm_thread M1 k) = Some (o, new, c (load decode (fm_mem M) (address q))) /\ ft_left (fm_thread M1 k) = ft_left (fm_thread M k)).
    { unfold FlatThreads.turn. cbv zeta. rewrite H. eexists. split; [reflexivity|]. cbn [fm_thread]. now rewrite put_same. }
    destruct E as (M1 & E & E1 & E2). destruct (IH _ M1 o new E1) as (j & Hj). exists (S j). cbn [repeat FlatThreads.turns]. rewrite E. rewrite <- E2. exact Hj.
  - assert (E : exists M1, turn M k = Goes M1 /\ ft_now (fm_thread M1 k) = Some (o, new, c) /\ ft_left (fm_thread M1 k) = ft_left (fm_thread M k)).
    { unfold FlatThreads.turn. cbv zeta. rewrite H. eexists. split; [reflexivity|]. cbn [fm_thread]. now rewrite put_same. }
    destruct E as (M1 & E & E1 & E2). destruct (IH M1 o new E1) as (j & Hj). exists (S j). cbn [repeat FlatThreads.turns]. rewrite E. rewrite <- E2. exact Hj.
  - set (b := (choose k (ft_count (fm_thread M k)), N.of_nat (length ls))).
    assert (E : turn M k = NoMemory \/ exists M1, turn M k = Goes M1 /\ ft_now (fm_thread M1 k) = Some (o, b :: new, c (mkRegion (fst b) 0 (snd b))) /\ ft_left (fm_thread M1 k) = ft_left (fm_thread M k)).
    { unfold FlatThreads.turn. cbv zeta. rewrite H. destruct (grants _ _); [right|now left]. eexists. split; [reflexivity|]. cbn [fm_thread]. now rewrite put_same. }
    destruct E as [E|(M1 & E & E1 & E2)].
    + exists 1%nat. left. cbn [repeat FlatThreads.turns]. rewrite E. exact I.
    + destruct (IH _ M1 o _ E1) as (j & Hj). exists (S j). cbn [repeat FlatThreads.turns]. rewrite E. rewrite <- E2. exact Hj.
Qed.

Lemma thread_ends : forall k left (M : fmachine T St B), ft_now (fm_thread M k) = None -> ft_left (fm_thread M k) = left ->
  exists j, ended (turns M (repeat k j)) \/
    exists M', turns M (repeat k j) = Goes M' /\ ft_now (fm_thread M' k) = None /\ ft_left (fm_thread M' k) = [].
Proof.
  intros k rest. induction rest as [|o rest IH]; intros M Hn Hl.
  - exists 0%nat. right. exists M. auto.
  - assert (E : exists M1, turn M k = Goes M1 /\ ft_left (fm_thread M1 k) = rest /\
       (ft_now (fm_thread M1 k) = None \/ exists n c, ft_now (fm_thread M1 k) = Some (o, n, c))).
    { unfold FlatThreads.turn. cbv zeta. rewrite Hn, Hl. destruct (program code m (ft_table (fm_thread M k)) o) as [c|];
        (eexists; split; [reflexivity|]); cbn [fm_thread]; rewrite put_same; cbn; eauto. }
    destruct E as (M1 & E & L1 & [N1|(n & c & N1)]).
    + destruct (IH M1 N1 L1) as (j & Hj). exists (S j). cbn [repeat FlatThreads.turns]. rewrite E. exact Hj.
    + destruct (call_ends k c M1 o n N1) as (j & [U|(M2 & E2 & N2 & L2)]).
      * exists (S j). left. cbn [repeat FlatThreads.turns]. rewrite E. exact U.
      * destruct (IH M2 N2) as (j2 & Hj); [congruence|]. exists (S (j + j2))%nat. cbn [repeat FlatThreads.turns]. rewrite E.
        rewrite repeat_app, turns_app, E2. exact Hj.
Qed.

Lemma c74_finishes : forall sched M k, turns start sched = Goes M -> exists n,
  turns M (repeat k n) = NoMemory \/ exists M', turns M (repeat k n) = Goes M' /\ ft_now (fm_thread M' k) = None /\ ft_left (fm_thread M' k) = [].
Proof.
  intros sched M k E. destruct (reached _ _ E) as (own & OK).
  assert (ND : forall j, ended (turns M (repeat k j)) -> turns M (repeat k j) = NoMemory).
  { intros j X. pose proof (turns_ok encode decode coding kern code impl choose m p calls place M0 used0 laid disjoint plain defined (repeat k j) _ _ OK) as H.
    destruct (turns M (repeat k j)); try contradiction. reflexivity. }
  destruct (ft_now (fm_thread M k)) as [[[o n] c]|] eqn:En.
  - destruct (call_ends k c M o n En) as (j & [U|(M1 & E1 & N1 & L1)]); [exists j; left; auto|].
    destruct (thread_ends k _ M1 N1 L1) as (j2 & [U|(M2 & E2 & F)]).
    + exists (j + j2)%nat. left. apply ND. rewrite repeat_app, turns_app, E1. exact U.
    + exists (j + j2)%nat. right. exists M2. rewrite repeat_app, turns_app, E1. auto.
  - destruct (thread_ends k _ M En eq_refl) as (j & [U|(M1 & E1 & F)]); [exists j; left; auto|]. exists j. right. eauto.
Qed.

End Threads.

(** ** Threads of a process *)

Section Process.
Context {T : Type} {SC : HScalar T} {St : Type} {B : Type}.
Variable kern : kernel T.

Lemma brun_sound : forall m (acts : list (faction T St)) (bs : bstate T), HistoryProofs.sound m (b_state bs) ->
  Forall safe_call (calls acts) -> m = Checked \/ no_wrap_history kern m (b_state bs) (calls acts) ->
  forall bs' rs, brun kern m bs (kept acts) = Some (Ok (bs', rs)) -> HistoryProofs.sound m (b_state bs').
Proof.
  intros m acts. induction acts as [|a acts IH]; intros bs Hs Hc Hm bs' rs H.
  { cbn in H. injection H as <- <-. exact Hs. }
  destruct a as [[o|x]|x].
  - change (kept (Act (Do o) :: acts)) with (Do o :: kept acts) in H. change (calls (Act (Do o) :: acts)) with (o :: calls acts) in *.
    inversion Hc as [|? ? Ho Hc']; subst. cbn [brun bstep] in H. destruct (admit_uses (b_slots bs) (uses o)) as [bt|]; [|discriminate].
    assert (Hm1 : m = Checked \/ no_wrap_call (b_state bs) o) by (destruct Hm as [->|[Hm _]]; auto).
    destruct (step_safe kern m (b_state bs) o Hs (safe_within _ _ Ho) Hm1) as (st' & r & E & Hs').
    rewrite E in H. cbn [bind] in H. set (bs1 := mkBState _ _) in H.
    destruct (brun kern m bs1 (kept acts)) as [o1|] eqn:E1; [|discriminate].
    destruct o1 as [[bs2 rs2]| |]; try discriminate H. cbn in H. injection H as <- <-.
    exact (IH bs1 Hs' Hc' ltac:(destruct Hm as [->|[_ Hm]]; [now left|right; exact (Hm _ _ E)]) _ _ E1).
  - change (kept (Act (Drop x) :: acts)) with (Drop x :: kept acts) in H. change (calls (Act (Drop x) :: acts)) with (calls acts) in *.
    cbn [brun bstep] in H. destruct (admit_uses (b_slots bs) [(x, Moved)]) as [bt|]; [|discriminate].
    destruct (brun kern m (mkBState (b_state bs) bt) (kept acts)) as [o1|] eqn:E1; [|discriminate].
    destruct o1 as [[bs2 rs2]| |]; try discriminate H. cbn in H. injection H as <- <-.
    exact (IH (mkBState (b_state bs) bt) Hs Hc Hm _ _ E1).
  - exact (IH bs Hs Hc Hm bs' rs H).
Qed.

Lemma run_sound : forall m (os : list (call T St)) st, HistoryProofs.sound m st -> Forall safe_call os ->
  m = Checked \/ no_wrap_history kern m st os -> exists x, run kern m st os = Ok x.
Proof.
  intros m os. induction os as [|o os IH]; intros st Hs Hc Hm; cbn [run]; [eauto|].
  inversion Hc as [|? ? Ho Hc']; subst. assert (Hm1 : m = Checked \/ no_wrap_call st o) by (destruct Hm as [->|[Hm _]]; auto).
  destruct (step_safe kern m st o Hs (safe_within _ _ Ho) Hm1) as (st' & r & E & Hs'). rewrite E. cbn [bind].
  destruct (IH st' Hs' Hc') as (x & X). { destruct Hm as [->|[_ Hm]]; [now left|right; exact (Hm _ _ E)]. } rewrite X. cbn [bind]. destruct x. eauto.
Qed.

Lemma valid_inside : forall (h : @heap T) x q, valid h x -> occupies x q -> hget h (fst q) (snd q) <> None.
Proof.
  intros h x q. induction x; cbn [valid occupies]; auto.
  - intros (((l & E & L) & _) & _) (Eq & L1 & L2). rewrite Eq. unfold hget. rewrite E. intros N. apply nth_error_None in N. lia.
  - intros (V1 & V2 & _) [O|O]; auto.
Qed.
Lemma valid_hrel : forall F (h h' : @heap T) x, hrel F h h' -> avoids F x -> valid h x -> valid h' x.
Proof.
  intros F h h' x HR. induction x; cbn [valid]; intros A V; auto.
  - destruct V as (((l & E & L) & L') & V). split; [|exact V]. split; [|exact L']. exists l. split; [|exact L].
    assert (NF : ~ In (r_alloc (c_region (bm_data b))) F) by (apply A; reflexivity). destruct HR as [HS _].
    rewrite <- E. now apply HS.
  - destruct V as (V1 & V2 & V). split; [apply IHx1; auto; intros a L; apply A; now left|]. split; [apply IHx2; auto; intros a L; apply A; now right|]. exact V.
Qed.

Lemma c74_start : forall (encode : T -> list B) (decode : list B -> T), faithful encode decode ->
  forall choose (code : gemm_args T -> prog T unit), implements code kern ->
  forall m M (acts : list (faction T St)) fs rs P rs' who,
  Forall safe_call (calls acts) -> Forall no_split (kept acts) -> m = Checked \/ no_wrap_history kern m (@initial T) (calls acts) ->
  frun kern m finitial acts = Some (Ok (fs, rs)) ->
  process_run encode decode code choose m (begin_process M) acts = Goes (P, rs') ->
  lends_apart (f_state fs) who ->
  exists place, holds decode place fs P /\
    laid_out decode (handed (f_state fs) who) place (y_mem (pr_bytes P)) (y_blocks (pr_bytes P)) /\
    in_memory (handed (f_state fs) who) /\ Threads.apart (handed (f_state fs) who) /\
    forall k, HistoryProofs.sound m (view (handed (f_state fs) who) k).
Proof.
  intros encode decode coding choose code impl m M acts fs rs P rs' who HS HN HM HF HP HL.
  pose proof (c70_products kern m acts HS HN HM) as PP.
  pose proof (sim_frun encode decode coding choose kern code impl m acts _ _ _ _ (begin_related decode choose M) ltac:(intros b []) PP) as S.
  rewrite HF in S. destruct S as [S|(rho & sigma & P' & S & REL & _)]; [congruence|]. assert (P' = P) by congruence. subst P'.
  exists rho. split; [eapply related_holds; eauto|].
  pose proof (sim_run kern m acts _ _ finitial_finv (safe_kept acts HS)) as R. rewrite HF in R.
  destruct R as ([[bs rs1]| |] & EB & R); cbn in R; try contradiction. destruct R as [FI _]. cbn [fst snd] in FI.
  pose proof (brun_sound m acts binitial (initial_sound _) HS HM _ _ EB) as SD.
  pose proof (v_rel _ _ FI) as FR. pose proof (r_mats _ _ FR) as EM. pose proof (v_slots _ _ FI) as ES. destruct (r_heap _ _ FR) as [[EL EH] FB].
  assert (ET : forall k, p_tabs (handed (f_state fs) who) k = p_tabs (handed bs who) k) by (intros k; cbn [handed p_tabs]; now rewrite EM).
  assert (LB : lends_apart bs who) by (unfold lends_apart in *; now rewrite <- ES, <- EM).
  destruct (c55_handed kern m (kept acts) bs rs1 who (safe_kept acts HS) HN EB LB) as [IM AP].
  assert (US : forall k x, In x (p_tabs (handed (f_state fs) who) k) -> avoids (f_freed fs) x /\ sound_matrix m (st_heap (b_state bs)) x).
  { intros k x I. rewrite ET in I. apply in_handed in I. destruct I as (n & I & E). split.
    - apply (usable_avoids fs bs n x FI). split; [apply LB with k; exact I|exact E].
    - unfold HistoryProofs.sound in SD. rewrite Forall_forall in SD. apply SD. eapply nth_error_In; eauto. }
  assert (VA : forall k x, In x (p_tabs (handed (f_state fs) who) k) -> sound_matrix m (st_heap (b_state (f_state fs))) x).
  { intros k x I. destruct (US k x I) as [A [V RS]]. split; [|exact RS]. eapply valid_hrel; [exact (r_heap _ _ FR)|exact A|exact V]. }
  assert (IN : forall k x, In x (p_tabs (handed (f_state fs) who) k) -> In x (st_mats (b_state (f_state fs)))).
  { intros k x I. apply in_handed in I. destruct I as (n & _ & E). eapply nth_error_In; eauto. }
  split; [|split; [|split]].
  - constructor; cbn [handed p_heap].
    + apply (rep_items _ _ _ _ _ _ (rel_rep _ _ _ _ _ _ REL)).
    + apply (rep_blocks _ _ _ _ _ _ (rel_rep _ _ _ _ _ _ REL)).
    + apply (rep_nodup _ _ _ _ _ _ (rel_rep _ _ _ _ _ _ REL)).
    + intros a a' l l' E E' NE NE' D. apply (apart_dis (T := T)). now apply (rep_apart _ _ _ _ _ _ (rel_rep _ _ _ _ _ _ REL)).
    + intros k x q I O. apply (valid_inside _ x); auto. apply (VA k x I).
    + intros k x b I Ib. destruct (US k x I) as [A _]. pose proof (rel_known _ _ _ _ _ _ REL) as KN. rewrite Forall_forall in KN.
      pose proof (KN x (IN k x I) b Ib) as Z. pose proof (owned_lives _ _ Ib) as LV.
      pose proof (rel_placed _ _ _ _ _ _ REL) as PL. unfold all_placed in PL. rewrite Forall_forall in PL. pose proof (PL x (IN k x I) _ LV) as LT.
      destruct (nth_error (st_heap (b_state (f_state fs))) (fst b)) as [l|] eqn:E; [|apply nth_error_None in E; lia]. exists l. split; [reflexivity|].
      destruct (rel_sizes _ _ _ _ _ _ REL _ _ E) as [[F _]|[_ F]]; [destruct (A _ LV F)|congruence].
  - intros k x a I L. cbn [handed p_heap]. rewrite EL. rewrite ET in I. now apply (IM k x a).
  - intros j k x y q D Ix Iy. rewrite ET in Ix, Iy. now apply (AP j k x y q D).
  - intros k. apply Forall_forall. intros x I. apply (VA k x I).
Qed.

(** Safe programs that hand out matrices to threads that make safe calls. *)
Lemma c74_safe : forall (encode : T -> list B) (decode : list B -> T), faithful encode decode ->
  forall choose choose' (code : gemm_args T -> prog T unit), implements code kern ->
  forall m M (acts : list (faction T St)) fs rs P rs' who (calls' : nat -> list (call T St)),
  Forall safe_call (calls acts) -> Forall no_split (kept acts) -> m = Checked \/ no_wrap_history kern m (@initial T) (calls acts) ->
  frun kern m finitial acts = Some (Ok (fs, rs)) ->
  process_run encode decode code choose m (begin_process M) acts = Goes (P, rs') ->
  lends_apart (f_state fs) who ->
  let p := handed (f_state fs) who in
  (forall k, Forall safe_call (calls' k)) -> (forall k, m = Checked \/ no_wrap_history kern m (view p k) (calls' k)) ->
  (forall k, plain_history kern m (view p k) (calls' k)) ->
  exists place, holds decode place fs P /\
    forall sched, let e := turns encode decode code choose' m (flaunch p place (y_mem (pr_bytes P)) (y_blocks (pr_bytes P)) calls') sched in
      e = NoMemory \/ exists M', e = Goes M' /\ ~ byte_race M' /\
        forall k, exists made st, calls' k = made ++ now_calls (fm_thread M' k) ++ ft_left (fm_thread M' k) /\
          run kern m (view p k) made = Ok (st, ft_done (fm_thread M' k)).
Proof.
  intros encode decode coding choose choose' code impl m M acts fs rs P rs' who calls' HS HN HM HF HP HL p SC' NW PL.
  destruct (c74_start encode decode coding choose code impl m M acts fs rs P rs' who HS HN HM HF HP HL) as (place & HO & LO & IM & AP & SD).
  exists place. split; [exact HO|]. intros sched e.
  assert (DF : forall k, exists x, run kern m (view p k) (calls' k) = Ok x) by (intros k; apply run_sound; auto).
  destruct (c74_defined encode decode coding kern code impl choose' m p calls' place _ _ LO IM AP PL DF sched) as [E|(M' & E)]; [now left|].
  right. exists M'. split; [exact E|]. split; [eapply (c74_races encode decode coding kern code impl choose' m p calls' place _ _ LO IM AP PL DF sched); eauto|].
  intros k. destruct (c74_alone encode decode coding kern code impl choose' m p calls' place _ _ LO IM AP PL DF sched M' E k) as (made & st & rho & E1 & E2 & _).
  exists made, st. auto.
Qed.
End Process.
