(** * FlatMachine: the invariant of threads on the bytes. *)

From Coq Require Import Lia ZifyBool ZifyNat ZifyN.
From Verif Require Import Machine MachineFacts Layouts Memory MemoryFacts Matrix MatMul Spec MatrixSpec ExprSpec ProductSpec.
From Verif Require Import Program HistorySpec HistoryProofs Borrow Dealloc Threads ThreadProofs Interleave InterleaveProofs InterleaveMachine.
From Verif Require Import Flat FlatProofs FlatHistory FlatThreads FlatFits.
Local Open Scope N_scope.

Section FlatMachine.
Context {T : Type} {SC : HScalar T} {St : Type} {B : Type}.
Variable encode : T -> list B.
Variable decode : list B -> T.
Hypothesis coding : faithful encode decode.
Variable kern : kernel T.
Variable code : gemm_args T -> prog T unit.
Hypothesis impl : implements code kern.
Variable choose : nat -> nat -> nat.
Variables (m : mode) (p : pool T) (calls : nat -> list (call T St)).
Variables (place : nat -> nat) (M0 : N -> B) (used0 : list (nat * N)).
Hypothesis laid : laid_out decode p place M0 used0.
Hypothesis inside : in_memory p.
Hypothesis disjoint : Threads.apart p.
Hypothesis plain : forall k, plain_history kern m (view p k) (calls k).
Hypothesis defined : forall k, exists x, run kern m (view p k) (calls k) = Ok x.
Notation load := (load decode).
Notation store := (store encode).
Notation store_all := (store_all encode).

(** ** Bytes *)

Definition dis (b b' : nat * N) : Prop := forall x, ~ (in_block b x /\ in_block b' x).
Lemma dis_sym : forall b b', dis b b' -> dis b' b.
Proof. intros b b' H x [X Y]. apply (H x). auto. Qed.
Lemma apart_dis : forall b b', blocks_apart b b' = true -> dis b b'.
Proof. intros b b' H x [X Y]. unfold blocks_apart, in_block in *. lia. Qed.
Lemma dis_self : forall b, dis b b -> snd b = 0.
Proof.
  intros b H. destruct (N.eq_dec (snd b) 0) as [E|E]; auto. destruct (H (N.of_nat (fst b))). unfold in_block. pose proof (size_pos (T := T)).
  assert (0 < snd b * item_size) by nia. lia.
Qed.

Lemma store_in : forall (M M' : N -> B) a v x, a <= x < a + item_size -> store M a v x = store M' a v x.
Proof.
  intros M M' a v x H. unfold Flat.store. destruct (N.leb_spec a x); [|lia]. destruct (nth_error (encode v) (N.to_nat (x - a))) eqn:E; auto.
  apply nth_error_None in E. rewrite (proj1 (coding v)) in E. lia.
Qed.
Lemma store_all_in : forall l (M M' : N -> B) a x, a <= x < a + N.of_nat (length l) * item_size -> store_all M a l x = store_all M' a l x.
Proof.
  induction l as [|v l IH]; intros M M' a x H; cbn [Flat.store_all length] in *; [lia|].
  destruct (N.lt_ge_cases x (a + item_size)) as [L|L].
  - rewrite !(store_all_out encode decode coding) by lia. apply store_in. lia.
  - apply IH. lia.
Qed.

(** The bytes of a cell. *)
Definition qbytes (q : nat * N) (x : N) : Prop :=
  address (mkPlace (fst q) (snd q)) <= x < address (mkPlace (fst q) (snd q)) + item_size.

Lemma fresh_bytes : forall bl q x, fresh bl q -> qbytes q x -> exists b, In b bl /\ in_block b x.
Proof.
  intros bl q x (b & I & E & L) X. exists b. split; auto. unfold qbytes, address in X. cbn [pl_alloc pl_index] in X. rewrite E in X.
  unfold in_block. pose proof (size_pos (T := T)). nia.
Qed.

(** ** What a thread may reach *)

Definition rq (bl : list (nat * N)) (k : nat) (q : nat * N) : Prop :=
  (exists a, fst q = place a /\ held (p_tabs p k) (a, snd q)) \/ fresh bl q.
Definition wq (bl : list (nat * N)) (k : nat) (q : nat * N) : Prop :=
  (exists a y, fst q = place a /\ In y (p_tabs p k) /\ is_writable y = true /\ occupies y (a, snd q)) \/ fresh bl q.
Definition rb (bl : list (nat * N)) (k : nat) (x : N) : Prop := exists q, rq bl k q /\ qbytes q x.
Definition wb (bl : list (nat * N)) (k : nat) (x : N) : Prop := exists q, wq bl k q /\ qbytes q x.

Lemma wq_rq : forall bl k q, wq bl k q -> rq bl k q.
Proof. intros bl k q [(a & y & E & I & _ & O)|F]; [|now right]. left. exists a. split; auto. exists y. auto. Qed.
Lemma wb_rb : forall bl k x, wb bl k x -> rb bl k x.
Proof. intros bl k x (q & Q & X). exists q. split; auto using wq_rq. Qed.
Lemma fresh_more : forall bl bl' q, (forall b, In b bl -> In b bl') -> fresh bl q -> fresh bl' q.
Proof. intros bl bl' q H (b & I & E). exists b. auto. Qed.
Lemma rq_more : forall bl bl' k q, (forall b, In b bl -> In b bl') -> rq bl k q -> rq bl' k q.
Proof. intros bl bl' k q H [Q|F]; [now left|right; eauto using fresh_more]. Qed.
Lemma wq_more : forall bl bl' k q, (forall b, In b bl -> In b bl') -> wq bl k q -> wq bl' k q.
Proof. intros bl bl' k q H [Q|F]; [now left|right; eauto using fresh_more]. Qed.
Lemma rb_more : forall bl bl' k x, (forall b, In b bl -> In b bl') -> rb bl k x -> rb bl' k x.
Proof. intros bl bl' k x H (q & Q & X). exists q. split; eauto using rq_more. Qed.

(** The common cells of a thread are in blocks of the start. *)
Lemma common_block : forall k a i x, held (p_tabs p k) (a, i) -> qbytes (place a, i) x ->
  exists l, nth_error (p_heap p) a = Some l /\ l <> [] /\ i < N.of_nat (length l) /\
    In (place a, N.of_nat (length l)) used0 /\ in_block (place a, N.of_nat (length l)) x.
Proof.
  intros k a i x (y & I & O) X. pose proof (laid_inside _ _ _ _ _ laid k y (a, i) I O) as H. cbn [fst snd] in H.
  destruct (hget (p_heap p) a i) as [v|] eqn:G; [|congruence]. apply (hget_inv (choose 0%nat) M0) in G. destruct G as (l & E & NE & _ & L).
  exists l. repeat (split; auto).
  - apply (laid_blocks _ _ _ _ _ laid). eauto.
  - unfold qbytes, address in X. cbn [fst snd pl_alloc pl_index] in X. cbn [fst]. lia.
  - unfold qbytes, address in X. cbn [fst snd pl_alloc pl_index] in X. cbn [fst snd]. pose proof (size_pos (T := T)). nia.
Qed.
Lemma rb_blocks : forall bl k x, rb bl k x -> exists b, (In b used0 \/ In b bl) /\ in_block b x.
Proof.
  intros bl k x ([a' i] & [(a & E & H)|F] & X).
  - cbn [fst snd] in *. subst a'. destruct (common_block k a i x H X) as (l & _ & _ & _ & I & X'). eauto.
  - destruct (fresh_bytes _ _ _ F X) as (b & I & X'). eauto.
Qed.

(** What a thread writes no other reads. *)
Lemma exclusive : forall j k bl bl' x, j <> k -> wb bl j x -> rb bl' k x ->
  (forall b b', In b bl -> In b' used0 -> dis b b') -> (forall b b', In b bl' -> In b' used0 -> dis b b') ->
  (forall b b', In b bl -> In b' bl' -> dis b b') -> False.
Proof.
  intros j k bl bl' x D ([a1 i] & W & X) R H1 H2 H3. destruct W as [(a & y & E & Iy & Wy & O)|F].
  - cbn [fst snd] in *. subst a1. destruct (common_block j a i x (ex_intro _ y (conj Iy O)) X) as (l & En & Nl & Li & Iu & X').
    destruct R as ([b1 i'] & [(a' & E' & Hz)|F] & Z).
    + cbn [fst snd] in *. subst b1. destruct (common_block k a' i' x Hz Z) as (l' & En' & Nl' & Li' & Iu' & Z').
      destruct (Nat.eq_dec a a') as [<-|Da].
      * assert (Ei : i = i').
        { unfold qbytes, address in X, Z. cbn [fst snd pl_alloc pl_index] in X, Z. pose proof (size_pos (T := T)). nia. }
        subst i'. destruct Hz as (z & Iz & Oz). exact (disjoint j k y z (a, i) D Iy Iz Wy O Oz).
      * apply (laid_apart _ _ _ _ _ laid a a' l l' En En' Nl Nl' Da x). auto.
    + destruct (fresh_bytes _ _ _ F Z) as (b & Ib & Z'). apply (H2 b _ Ib Iu x). auto.
  - destruct (fresh_bytes _ _ _ F X) as (b & Ib & X'). destruct (rb_blocks _ _ _ R) as (b' & [Iu|Ib'] & Z').
    + apply (H1 b b' Ib Iu x). auto.
    + apply (H3 b b' Ib Ib' x). auto.
Qed.

(** ** The invariant *)

Let L0 := length used0.
Definition chooser (k j : nat) : nat := choose k (j - L0).
Notation related k := (related decode (chooser k)).
Notation perform k := (perform encode decode (chooser k)).
Notation sound k := (sound encode decode (chooser k)).

Definition writes (ms : list (matrix T)) (q : nat * N) : Prop := exists x, In x ms /\ is_writable x = true /\ occupies x q.

(** The thread [k] in the state [t], with the blocks [bl] of its own in the memory [mem]: what it did is what it
    does alone, and the memory it can reach is that which it would have alone. *)
Definition thread_ok (k : nat) (t : fthread T St) (bl : list (nat * N)) (mem : N -> B) : Prop :=
  exists made st rho sigma fs P Yc bl0,
    calls k = made ++ now_calls t ++ ft_left t /\
    run kern m (view p k) made = Ok (st, ft_done t) /\
    b_state (f_state fs) = st /\ related k rho sigma fs P /\ logged (pr_bytes P) /\ pr_table P = ft_table t /\
    plain_history kern m st (now_calls t ++ ft_left t) /\
    (forall b, In b bl0 -> In b bl) /\
    (forall x, In x (ft_table t) -> covered (rq bl0 k) x /\ (is_writable x = true -> covered (wq bl0 k) x)) /\
    (forall b, In b used0 -> In b (y_blocks (pr_bytes P))) /\
    y_count Yc = (L0 + ft_count t)%nat /\
    (forall b, In b (y_blocks Yc) <-> In b used0 \/ In b bl) /\
    (forall x, rb bl k x -> mem x = y_mem Yc x) /\
    match ft_now t with
    | None => Yc = pr_bytes P
    | Some (o, new, c) =>
        exists c0, program code m (ft_table t) o = Some c0 /\ perform k c0 (pr_bytes P) = perform k c Yc /\ sound k c Yc /\
          reaches (held (ft_table t)) (writes (ft_table t)) new c (returns_in (held (ft_table t)) (writes (ft_table t))) /\
          (forall b, In b (y_blocks Yc) <-> In b (y_blocks (pr_bytes P)) \/ (In b new /\ snd b <> 0)) /\
          (forall b, In b new -> snd b <> 0 -> ~ In b (y_blocks (pr_bytes P)) /\ In b bl) /\
          (forall b, In b bl0 -> ~ In b new)
    end.

Definition machine_ok (own : nat -> list (nat * N)) (M : fmachine T St B) : Prop :=
  (forall b, In b (fm_used M) <-> In b used0 \/ exists k, In b (own k)) /\
  (forall b, In b (fm_used M) -> snd b <> 0) /\
  (forall k b b', In b (own k) -> In b' used0 -> dis b b') /\
  (forall j k b b', j <> k -> In b (own j) -> In b' (own k) -> dis b b') /\
  (forall k, thread_ok k (fm_thread M k) (own k) (fm_mem M)).

Lemma thread_frame : forall k t bl mem mem', thread_ok k t bl mem -> (forall x, rb bl k x -> mem' x = mem x) -> thread_ok k t bl mem'.
Proof.
  intros k t bl mem mem' (made & st & rho & sigma & fs & P & Yc & bl0 & I1 & I2 & I3 & I4 & I5 & I6 & I7 & I8 & I9 & I10 & I11 & I12 & I13 & I14) H.
  exists made, st, rho, sigma, fs, P, Yc, bl0. repeat (split; [assumption|]). split; [|assumption].
  intros x X. rewrite H by auto. auto.
Qed.

Definition own_set (own : nat -> list (nat * N)) (k : nat) (bl : list (nat * N)) : nat -> list (nat * N) :=
  fun j => if Nat.eqb j k then bl else own j.

(** A step of the thread [k]. *)
Lemma machine_step : forall own M k mem used t bl, machine_ok own M ->
  (forall j x, j <> k -> rb (own j) j x -> mem x = fm_mem M x) ->
  (forall b, In b used <-> In b used0 \/ In b bl \/ exists j, j <> k /\ In b (own j)) ->
  (forall b, In b bl -> snd b <> 0) ->
  (forall b, In b bl -> In b (own k) \/ forall b', In b' (fm_used M) -> dis b b') ->
  thread_ok k t bl mem ->
  machine_ok (own_set own k bl) (mkFMachine mem used (put_thread (fm_thread M) k t)).
Proof.
  intros own M k mem used t bl (U & NE & AC & AO & TH) HM HU HN HB HT.
  assert (SEL : forall j b, In b (own_set own k bl j) -> j = k /\ In b bl \/ j <> k /\ In b (own j)).
  { intros j b I. unfold own_set in I. destruct (Nat.eqb_spec j k); auto. }
  assert (OK : forall j, j <> k -> own_set own k bl j = own j) by (intros j D; unfold own_set; destruct (Nat.eqb_spec j k); congruence).
  assert (SK : own_set own k bl k = bl) by (unfold own_set; now rewrite Nat.eqb_refl).
  split; [|split; [|split; [|split]]]; cbn [fm_used fm_mem fm_thread].
  - intros b. rewrite HU. split.
    + intros [I|[I|(j & D & I)]]; [now left|right; exists k; now rewrite SK|right; exists j; now rewrite OK].
    + intros [I|(j & I)]; [now left|]. apply SEL in I. destruct I as [[-> I]|[D I]]; [right; now left|right; right; eauto].
  - intros b I. apply HU in I. destruct I as [I|[I|(j & D & I)]]; [apply NE, U; now left|auto|apply NE, U; right; eauto].
  - intros j b b' I I'. apply SEL in I. destruct I as [[-> I]|[D I]]; [|eauto]. destruct (HB b I) as [X|X]; [eauto|]. apply X, U. now left.
  - intros i j b b' D I I'. apply SEL in I. apply SEL in I'. destruct I as [[-> I]|[Di I]], I' as [[-> I']|[Dj I']].
    + congruence.
    + destruct (HB b I) as [X|X]; [eapply (AO k j); eauto|]. apply X, U. right. eauto.
    + destruct (HB b' I') as [X|X]; [eapply (AO i k); eauto|]. apply dis_sym, X, U. right. eauto.
    + eapply (AO i j); eauto.
  - intros j. unfold put_thread. destruct (Nat.eqb_spec j k) as [->|D]; [now rewrite SK|].
    rewrite OK by auto. eapply thread_frame; [apply TH|]. intros x X. now apply (HM j).
Qed.

(** Alone, the next call of a thread is defined. *)
Lemma next_defined : forall k made st rs o left, calls k = made ++ o :: left -> run kern m (view p k) made = Ok (st, rs) ->
  all_placed st -> plain_call st o -> exists st' r, step kern m st o = Ok (st', r).
Proof.
  intros k made st rs o left E R P C. pose proof (step_program code kern impl m st o P C) as S.
  destruct (step kern m st o) as [[st' r]| |] eqn:Es; [eauto| |].
  - destruct (program code m (st_mats st) o); [|discriminate S]. destruct (complete p0 (st_heap st)) as [[h' [new r]]| |]; discriminate S.
  - destruct (defined k) as [x X]. rewrite E in X. rewrite (run_ub kern m made _ st rs o left R Es) in X. discriminate.
Qed.

(** The reach of a call is that of its thread. *)
Lemma reach_read : forall k bl0 bl new (tb : list (matrix T)) q,
  (forall x, In x tb -> covered (rq bl0 k) x) -> (forall b, In b bl0 -> In b bl) -> (forall b, In b new -> snd b <> 0 -> In b bl) ->
  plus_new (held tb) new q -> rq bl k q.
Proof.
  intros k bl0 bl new tb q C S N [(x & I & O)|(b & I & E & L)].
  - eapply rq_more; [exact S|]. now apply (C x I).
  - right. exists b. repeat split; auto. apply N; auto. intros Z. rewrite Z in L. now apply N.nlt_0_r in L.
Qed.
Lemma reach_write : forall k bl0 bl new (tb : list (matrix T)) q,
  (forall x, In x tb -> is_writable x = true -> covered (wq bl0 k) x) -> (forall b, In b bl0 -> In b bl) -> (forall b, In b new -> snd b <> 0 -> In b bl) ->
  plus_new (writes tb) new q -> wq bl k q.
Proof.
  intros k bl0 bl new tb q C S N [(x & I & Wx & O)|(b & I & E & L)].
  - eapply wq_more; [exact S|]. now apply (C x I Wx).
  - right. exists b. repeat split; auto. apply N; auto. intros Z. rewrite Z in L. now apply N.nlt_0_r in L.
Qed.

Lemma qbytes_address : forall r x, qbytes (pl_alloc r, pl_index r) x <-> address r <= x < address r + item_size.
Proof. intros [a i] x. reflexivity. Qed.

Lemma not_in_new : forall b (new : list (nat * N)), negb (existsb (block_eqb b) new) = true <-> ~ In b new.
Proof.
  intros b new. rewrite negb_true_iff. split.
  - intros H I. assert (existsb (block_eqb b) new = true); [|congruence]. apply existsb_exists. exists b. split; auto. now apply block_eqb_true.
  - intros H. destruct (existsb (block_eqb b) new) eqn:E; auto. apply existsb_exists in E. destruct E as (b' & I & X). apply block_eqb_true in X. subst. contradiction.
Qed.

Lemma same_own : forall own M k mem t, machine_ok own M ->
  (forall j x, j <> k -> rb (own j) j x -> mem x = fm_mem M x) -> thread_ok k t (own k) mem ->
  machine_ok (own_set own k (own k)) (mkFMachine mem (fm_used M) (put_thread (fm_thread M) k t)).
Proof.
  intros own M k mem t OK HM HT. apply machine_step; auto.
  - intros b. rewrite (proj1 OK b). split; [intros [I|(j & I)]; auto; destruct (Nat.eq_dec j k) as [->|D]; eauto|intros [I|[I|(j & D & I)]]; eauto].
  - intros b I. apply (proj1 (proj2 OK)), (proj1 OK). right. eauto.
Qed.

(** The end of a call. *)
Lemma call_end : forall k rho sigma fs P made rs o left c0 oc Yc, related k rho sigma fs P -> logged (pr_bytes P) ->
  calls k = made ++ o :: left -> run kern m (view p k) made = Ok (b_state (f_state fs), rs) ->
  plain_history kern m (b_state (f_state fs)) (o :: left) ->
  program code m (pr_table P) o = Some c0 -> perform k c0 (pr_bytes P) = Some (oc, Yc) ->
  exists rho' sigma' fs' P' r, run kern m (view p k) (made ++ [o]) = Ok (b_state (f_state fs'), rs ++ [r]) /\
    related k rho' sigma' fs' P' /\ logged (pr_bytes P') /\ plain_history kern m (b_state (f_state fs')) left /\
    match oc with
    | Ok (ms, r') => r' = r /\ pr_table P' = pr_table P ++ ms /\ pr_bytes P' = Yc
    | Panic => r = RPanicked /\ pr_table P' = pr_table P /\ pr_bytes P' = mkBytes (y_mem Yc) (y_blocks (pr_bytes P)) (y_log Yc)
    | UB => False
    end.
Proof.
  intros k rho sigma fs P made rs o left c0 oc Yc REL LG EC RUN PL PR PF. cbn [plain_history] in PL. destruct PL as [PC PL].
  destruct (next_defined _ _ _ _ _ _ EC RUN (rel_placed _ _ _ _ _ _ REL) PC) as (st' & r & ES).
  destruct (sim_call encode decode coding (chooser k) kern code impl rho sigma m fs P [] o st' r REL LG PC ES) as [_ SC0].
  unfold call_process in SC0. rewrite PR, PF in SC0. destruct SC0 as [N|(rho' & sigma' & P' & EQ & REL' & LG' & _)].
  - destruct oc as [[ms r']| |]; discriminate N.
  - do 5 eexists. split; [|split; [exact REL'|split; [exact LG'|split]]].
    + cbn [b_state f_state]. eapply run_snoc; eauto.
    + cbn [b_state f_state]. now apply (PL st' r).
    + destruct oc as [[ms r']| |]; [| |discriminate EQ].
      * injection EQ as <- <-. auto.
      * injection EQ as <- <-. auto.
Qed.

Lemma step_ok : forall own M k, machine_ok own M ->
  match turn encode decode code choose m M k with
  | Goes M' => exists own', machine_ok own' M'
  | NoMemory => True
  | _ => False
  end.
Proof.
  intros own M k OK. pose proof OK as (U & NE & AC & AO & TH). pose proof (TH k) as TK. unfold turn.
  set (t := fm_thread M k) in *. clearbody t.
  destruct TK as (made & st & rho & sigma & fs & P & Yc & bl0 & I1 & I2 & I3 & I4 & I5 & I6 & I7 & I8 & I9 & I10 & I11 & I12 & I13 & I14).
  destruct t as [tb cnt left now dn]. cbn [ft_table ft_count ft_left ft_now ft_done] in *. unfold now_calls in I1, I7. cbn [ft_now ft_left] in I1, I7.
  assert (OU : forall b, In b (own k) -> In b (fm_used M)) by (intros b I; apply U; right; eauto).
  assert (CU : forall b, In b used0 -> In b (fm_used M)) by (intros b I; apply U; now left).
  subst st. destruct now as [[[o new] c]|].
  2: { cbn [app] in *. subst Yc. destruct left as [|o left].
    - exists own. exact OK.
    - pose proof I7 as [PC PL].
      destruct (next_defined _ _ _ _ _ _ I1 I2 (rel_placed _ _ _ _ _ _ I4) PC) as (st' & r & ES).
      destruct (sim_call encode decode coding (chooser k) kern code impl rho sigma m fs P [] o st' r I4 I5 PC ES) as [SO SC0].
      rewrite I6 in SO. unfold call_process in SC0. rewrite I6 in SC0. destruct (program code m tb o) as [c|] eqn:PR.
      + exists (own_set own k (own k)). apply same_own; [exact OK|reflexivity|].
        exists made, (b_state (f_state fs)), rho, sigma, fs, P, (pr_bytes P), bl0. unfold now_calls. cbn [ft_table ft_count ft_left ft_now ft_done app].
        repeat (split; [solve [assumption|reflexivity]|]). exists c. split; [exact PR|]. split; [reflexivity|]. split; [now apply SO|]. split; [|split; [|split]].
        * apply (reaches_program (held tb) (writes tb) code kern m tb o c impl); auto.
          -- intros q (x & I & _ & O). exists x. auto.
          -- intros x I q O. exists x. auto.
          -- intros x I Wx q O. exists x. auto.
        * intros b. cbn [In]. tauto.
        * intros b [].
        * intros b _ [].
      + destruct SC0 as [N|(rho' & sigma' & P' & EQ & REL' & LG' & _)]; [discriminate N|]. injection EQ as <- <-.
        exists (own_set own k (own k)). apply same_own; [exact OK|reflexivity|].
        exists (made ++ [o]), st', rho', sigma'. do 2 eexists. exists (pr_bytes P), bl0.
        unfold now_calls. cbn [ft_table ft_count ft_left ft_now ft_done app].
        split; [now rewrite <- app_assoc|]. split; [eapply run_snoc; eauto|]. split; [|split; [exact REL'|]]; [reflexivity|].
        cbn [pr_bytes pr_table]. repeat (split; [assumption || reflexivity|]). split; [now apply (PL st' RSkipped)|].
        repeat (split; [assumption || reflexivity|]). reflexivity. }
  destruct I14 as (c0 & J1 & J2 & J3 & J4 & J5 & J6 & J7). cbn [app] in *.
  assert (RD : forall q, plus_new (held tb) new q -> rq (own k) k q).
  { intros q. apply (reach_read k bl0); [intros x I; apply (I9 x I)|exact I8|intros b I X; apply (J6 b I X)]. }
  assert (WR : forall q, plus_new (writes tb) new q -> wq (own k) k q).
  { intros q. apply (reach_write k bl0); [intros x I; apply (I9 x I)|exact I8|intros b I X; apply (J6 b I X)]. }
  destruct c as [[[ms r]| |]|r c|r v c|l c].
  - (* the call returns *)
    cbn [Flat.perform] in J2. rewrite <- I6 in J1.
    destruct (call_end k rho sigma fs P made dn o left c0 _ Yc I4 I5 I1 I2 I7 J1 J2) as (rho' & sigma' & fs' & P' & r' & R' & REL' & LG' & PL' & -> & ET & EY).
    exists (own_set own k (own k)). apply same_own; [exact OK|reflexivity|].
    exists (made ++ [o]), (b_state (f_state fs')), rho', sigma', fs', P', Yc, (own k).
    unfold now_calls. cbn [ft_table ft_count ft_left ft_now ft_done app].
    split; [now rewrite <- app_assoc|]. repeat (split; [assumption || reflexivity|]).
    split; [rewrite ET, I6; reflexivity|]. split; [assumption|]. split; [auto|]. split.
    { intros x Ix. apply in_app_or in Ix. destruct Ix as [Ix|Ix].
      - destruct (I9 x Ix) as [X1 X2]. split; [|intros Wx]; intros q Hq; [eapply rq_more; [exact I8|now apply X1]|eapply wq_more; [exact I8|now apply (X2 Wx)]].
      - cbn [reaches] in J4. unfold returns_in in J4. cbn [fst] in J4. rewrite Forall_forall in J4. destruct (J4 x Ix) as [X1 X2].
        split; [|intros Wx]; intros q Hq; [apply RD, X1, Hq|apply WR, (X2 Wx), Hq]. }
    split; [intros b I; rewrite EY; apply I12; now left|]. repeat (split; [assumption|]). now symmetry.
  - (* the call panics *)
    cbn [Flat.perform] in J2. rewrite <- I6 in J1.
    destruct (call_end k rho sigma fs P made dn o left c0 _ Yc I4 I5 I1 I2 I7 J1 J2) as (rho' & sigma' & fs' & P' & r' & R' & REL' & LG' & PL' & -> & ET & EY).
    set (gone := fun b => negb (existsb (block_eqb b) new)).
    assert (FN : forall b, gone b = true <-> ~ In b new) by (intros b; apply not_in_new).
    exists (own_set own k (filter gone (own k))). apply machine_step; auto.
    + intros b. rewrite filter_In, U. rewrite filter_In. rewrite FN. split.
      * intros [[I|(j & I)] N]; auto. destruct (Nat.eq_dec j k) as [->|D]; eauto.
      * assert (NW : In b new -> (In b used0 \/ exists j, j <> k /\ In b (own j)) -> False).
        { intros In' H. assert (X : In b (fm_used M)) by (destruct H as [H|(j & _ & H)]; apply U; eauto).
          pose proof (NE b X) as Z. destruct (J6 b In' Z) as [_ O']. apply Z. apply dis_self. destruct H as [H|(j & D & H)]; [now apply (AC k)|now apply (AO j k)]. }
        intros [I|[[I N]|(j & D & I)]]; (split; [solve [eauto]|]); [intros N; apply (NW N); now left|exact N|intros N; apply (NW N); right; exists j; auto].
    + intros b I. apply filter_In in I. apply NE, OU, I.
    + intros b I. apply filter_In in I. left. apply I.
    + exists (made ++ [o]), (b_state (f_state fs')), rho', sigma', fs', P', (pr_bytes P'), bl0.
      unfold now_calls. cbn [ft_table ft_count ft_left ft_now ft_done app].
      split; [now rewrite <- app_assoc|]. repeat (split; [assumption || reflexivity|]).
      split; [rewrite ET, I6; reflexivity|]. split; [assumption|]. split.
      { intros b I. apply filter_In. split; [auto|]. apply FN. auto. }
      split; [assumption|]. rewrite EY. cbn [y_blocks y_mem]. split; [assumption|]. split; [exact I11|]. split; [|split; [|reflexivity]].
      * intros b. rewrite filter_In, FN. split.
        -- intros I. assert (X : In b (y_blocks Yc)) by (apply J5; now left). apply I12 in X. destruct X as [X|X]; [now left|]. right. split; auto.
           intros N. destruct (J6 b N (NE b (OU b X))) as [Y _]. contradiction.
        -- intros [I|[I N]]; auto. assert (X : In b (y_blocks Yc)) by (apply I12; now right). apply J5 in X. destruct X as [X|[X _]]; [auto|contradiction].
      * intros x X. apply I13. eapply rb_more; [|exact X]. intros b I. apply filter_In in I. apply I.
  - cbn [Flat.perform] in J2. rewrite <- I6 in J1.
    destruct (call_end k rho sigma fs P made dn o left c0 _ Yc I4 I5 I1 I2 I7 J1 J2) as (rho' & sigma' & fs' & P' & r' & R' & REL' & LG' & PL' & F). exact F.
  - (* a load *)
    cbn [reaches] in J4. destruct J4 as [FP J4].
    assert (EV : load (fm_mem M) (address r) = load (y_mem Yc) (address r)).
    { apply (load_ext decode (chooser k)). intros x X. apply I13. exists (pl_alloc r, pl_index r). split; [auto|]. now apply qbytes_address. }
    exists (own_set own k (own k)). apply same_own; [exact OK|reflexivity|].
    exists made, (b_state (f_state fs)), rho, sigma, fs, P, Yc, bl0. unfold now_calls. cbn [ft_table ft_count ft_left ft_now ft_done app].
    repeat (split; [assumption || reflexivity|]). exists c0. split; [exact J1|]. rewrite EV. split; [exact J2|]. split; [|repeat (split; [auto|]); auto].
    intros a bs I. apply J3. cbn [Flat.visits]. now right.
  - (* a store *)
    cbn [reaches] in J4. destruct J4 as [FP J4].
    exists (own_set own k (own k)). apply same_own; auto.
    + intros j x D X. apply (store_out encode decode coding). intros Z. apply (exclusive k j (own k) (own j) x); auto.
      * exists (pl_alloc r, pl_index r). split; [auto|]. now apply qbytes_address.
      * intros b b'. apply AC.
      * intros b b'. apply AC.
      * intros b b'. apply AO. auto.
    + exists made, (b_state (f_state fs)), rho, sigma, fs, P, (mkBytes (store (y_mem Yc) (address r) v) (y_blocks Yc) (y_log Yc)), bl0.
      unfold now_calls. cbn [ft_table ft_count ft_left ft_now ft_done app y_mem y_blocks].
      repeat (split; [assumption || reflexivity|]). split.
      { intros x X. destruct (N.leb_spec (address r) x); [destruct (N.ltb_spec x (address r + item_size))|].
        - apply store_in. lia.
        - rewrite !(store_out encode decode coding) by lia. auto.
        - rewrite !(store_out encode decode coding) by lia. auto. }
      exists c0. split; [exact J1|]. split; [exact J2|]. split; [|repeat (split; [auto|]); auto].
      intros a bs I. apply J3. cbn [Flat.visits]. now right.
  - (* an allocation *)
    set (b := (choose k cnt, N.of_nat (length l))). destruct (grants (mkBytes (fm_mem M) (fm_used M) []) b) eqn:G; [|exact I].
    assert (EB : (chooser k (y_count Yc), N.of_nat (length l)) = b).
    { unfold chooser, b. rewrite I11. do 2 f_equal. lia. }
    assert (G' : snd b <> 0 -> forall b', In b' (fm_used M) -> dis b b').
    { intros Z b' I. unfold grants in G. cbn [y_blocks] in G. apply orb_true_iff in G. destruct G as [G|G]; [apply N.eqb_eq in G; congruence|].
      apply andb_true_iff in G. destruct G as [_ G]. rewrite forallb_forall in G. apply apart_dis, G, I. }
    assert (YU : forall b', In b' (y_blocks Yc) -> In b' (fm_used M)) by (intros b' I; apply I12 in I; destruct I; auto).
    assert (GY : grants Yc b = true).
    { unfold grants in *. cbn [y_blocks] in G. apply orb_true_iff in G. apply orb_true_iff. destruct G as [G|G]; [now left|]. right.
      apply andb_true_iff in G. apply andb_true_iff. destruct G as [G1 G2]. split; auto. rewrite forallb_forall in *. auto. }
    assert (NU : snd b <> 0 -> ~ In b (fm_used M)) by (intros Z I; apply Z, dis_self, (G' Z b I)).
    set (bl := if snd b =? 0 then own k else b :: own k).
    assert (BL : forall b', In b' bl <-> In b' (own k) \/ (b' = b /\ snd b <> 0)).
    { intros b'. unfold bl. destruct (N.eqb_spec (snd b) 0) as [Z|Z]; cbn [In]; intuition congruence. }
    exists (own_set own k bl). cbn [y_mem y_blocks take]. apply machine_step; auto.
    + intros j x D X. apply (store_all_out encode decode coding). intros Z. destruct (rb_blocks _ _ _ X) as (b' & Ib & Xb).
      assert (Ub : In b' (fm_used M)) by (destruct Ib; [auto|apply U; right; eauto]).
      assert (Z0 : snd b <> 0) by (intros E; cbn [snd b] in E; rewrite E in Z; lia).
      apply (G' Z0 b' Ub x). split; auto.
    + intros b'. assert (TE : In b' (if snd b =? 0 then fm_used M else b :: fm_used M) <-> In b' (fm_used M) \/ (b' = b /\ snd b <> 0)).
      { destruct (N.eqb_spec (snd b) 0) as [Z|Z]; cbn [In]; intuition congruence. }
      rewrite TE, U, BL. split.
      * intros [[I|(j & I)]|E]; auto. destruct (Nat.eq_dec j k) as [->|D]; eauto.
      * intros [I|[[I|E]|(j & D & I)]]; eauto.
    + intros b' I. apply BL in I. destruct I as [I|[-> Z]]; auto.
    + intros b' I. apply BL in I. destruct I as [I|[-> Z]]; auto.
    + exists made, (b_state (f_state fs)), rho, sigma, fs, P, (take encode Yc b l), bl0.
      unfold now_calls. cbn [ft_table ft_count ft_left ft_now ft_done app].
      repeat (split; [assumption || reflexivity|]). split; [intros b' I; apply BL; auto|]. repeat (split; [assumption || reflexivity|]).
      assert (TY : forall b', In b' (y_blocks (take encode Yc b l)) <-> In b' (y_blocks Yc) \/ (b' = b /\ snd b <> 0)).
      { intros b'. unfold take. cbn [y_blocks]. destruct (N.eqb_spec (snd b) 0) as [Z|Z]; cbn [In]; intuition congruence. }
      split; [unfold y_count, take in *; cbn [y_log length]; lia|]. split; [intros b'; rewrite TY, BL, I12; tauto|]. split.
      { intros x X. unfold take. cbn [y_mem].
        destruct (N.leb_spec (N.of_nat (fst b)) x); [destruct (N.ltb_spec x (N.of_nat (fst b) + N.of_nat (length l) * item_size))|].
        - apply store_all_in. lia.
        - rewrite !(store_all_out encode decode coding) by lia. apply I13.
          destruct X as (q & [Q|F] & X); [exists q; split; auto; now left|]. destruct F as (b' & Ib & Eb & Lb). apply BL in Ib. destruct Ib as [Ib|[-> Z]].
          + exists q. split; auto. right. exists b'. auto.
          + exfalso. destruct (fresh_bytes [b] q x) as (b' & [<-|[]] & Y); auto. { exists b. repeat split; auto. now left. } unfold in_block in Y. cbn [snd b] in Y. lia.
        - rewrite !(store_all_out encode decode coding) by lia. apply I13.
          destruct X as (q & [Q|F] & X); [exists q; split; auto; now left|]. destruct F as (b' & Ib & Eb & Lb). apply BL in Ib. destruct Ib as [Ib|[-> Z]].
          + exists q. split; auto. right. exists b'. auto.
          + exfalso. destruct (fresh_bytes [b] q x) as (b' & [<-|[]] & Y); auto. { exists b. repeat split; auto. now left. } unfold in_block in Y. lia. }
      exists c0. split; [exact J1|]. split; [|split; [|split; [|split; [|split]]]].
      * rewrite J2. cbn [Flat.perform]. rewrite EB, GY. reflexivity.
      * intros a bs I. apply J3. cbn [Flat.visits]. rewrite EB, GY. exact I.
      * cbn [reaches] in J4. apply J4.
      * intros b'. rewrite TY, J5. cbn [In]. split.
        -- intros [[I|[I Z]]|[-> Z]]; auto.
        -- intros [I|[[<-|I] Z]]; auto.
      * intros b' [<-|I] Z.
        -- split; [|apply BL; auto]. intros I. apply (NU Z), YU, J5. now left.
        -- destruct (J6 b' I Z). split; auto. apply BL. auto.
      * intros b' I [<-|N]; [|now apply (J7 b' I)]. pose proof (OU b (I8 b I)) as X. apply (NU (NE b X) X).
Qed.

Lemma turns_ok : forall sched own M, machine_ok own M ->
  match turns encode decode code choose m M sched with
  | Goes M' => exists own', machine_ok own' M'
  | NoMemory => True
  | _ => False
  end.
Proof.
  induction sched as [|k sched IH]; intros own M OK; cbn [turns]; [eauto|].
  pose proof (step_ok own M k OK) as S. destruct (turn encode decode code choose m M k); auto. destruct S as [own' S]. exact (IH own' _ S).
Qed.

End FlatMachine.
