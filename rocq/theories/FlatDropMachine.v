(** * FlatDropMachine: the invariant of threads that destroy their matrices. *)

From Coq Require Import Lia ZifyBool ZifyNat ZifyN.
From Verif Require Import Machine MachineFacts Layouts Memory MemoryFacts Matrix MatMul Spec MatrixSpec ExprSpec ProductSpec.
From Verif Require Import Program HistorySpec HistoryProofs Borrow Dealloc DeallocProofs Threads ThreadProofs Interleave InterleaveProofs InterleaveMachine.
From Verif Require Import Flat FlatProofs FlatHistory FlatThreads FlatFits FlatMachine FlatDrops FlatDropOwners.
Local Open Scope N_scope.

Section Bytes.
Context {T : Type} {SC : HScalar T} {St : Type} {B : Type}.

Lemma remove_in : forall b l l', remove_block b l = Some l' -> In b l.
Proof.
  intros b l. induction l as [|c l IH]; intros l' E; cbn [remove_block] in E; [discriminate|].
  destruct (block_eqb b c) eqn:Q; [apply block_eqb_true in Q; now left|]. destruct (remove_block b l); [|discriminate]. right. eauto.
Qed.

Definition less (l k : list (nat * N)) (l' : list (nat * N)) : Prop :=
  NoDup l' /\ forall b, In b l' <-> In b l /\ ~ (In b k /\ snd b <> 0).

(** Freeing the same blocks in a memory where more is in use. *)
Lemma back_all : forall l (Y Y' : bytes B), give_back_all Y l = Ok Y' -> NoDup (y_blocks Y) ->
  less (y_blocks Y) l (y_blocks Y') /\ (forall b, In b l -> snd b <> 0 -> In b (y_blocks Y)) /\
  forall Z : bytes B, NoDup (y_blocks Z) -> (forall b, In b (y_blocks Y) -> In b (y_blocks Z)) ->
    exists Z', give_back_all Z l = Ok Z' /\ less (y_blocks Z) l (y_blocks Z').
Proof.
  intros l. induction l as [|c l IH]; intros Y Y' E ND; cbn [give_back_all] in E.
  - injection E as <-. split; [split; [exact ND|intros b; cbn [In]; tauto]|]. split; [intros b []|]. intros Z NZ S. exists Z. cbn [give_back_all].
    split; [reflexivity|]. split; [exact NZ|intros b; cbn [In]; tauto].
  - apply bind_ok in E. destruct E as (Y1 & E1 & E). unfold give_back in E1. destruct (N.eqb_spec (snd c) 0) as [Z0|Z0].
    + injection E1 as <-. destruct (IH Y Y' E ND) as ([N' A] & In' & ZZ). split; [|split].
      * split; [exact N'|]. intros b. rewrite A. cbn [In]. split; intros [X1 X2]; split; auto; intros [X3 X4]; apply X2; split; auto.
        destruct X3 as [<-|X3]; [congruence|auto].
      * intros b [<-|I] X; [congruence|auto].
      * intros Z NZ S. destruct (ZZ Z NZ S) as (Z' & EZ & NZ' & AZ). exists Z'. cbn [give_back_all]. unfold give_back at 1.
        destruct (N.eqb_spec (snd c) 0); [|congruence]. cbn [bind]. split; [exact EZ|]. split; [exact NZ'|].
        intros b. rewrite AZ. cbn [In]. split; intros [X1 X2]; split; auto; intros [X3 X4]; apply X2; split; auto.
        destruct X3 as [<-|X3]; [congruence|auto].
    + destruct (remove_block c (y_blocks Y)) as [k|] eqn:R; [|discriminate]. injection E1 as <-. pose proof (remove_in _ _ _ R) as IC.
      destruct (remove_found _ _ IC ND) as (k' & R' & NDk & AK). assert (k' = k) by congruence. subst k'.
      destruct (IH _ Y' E NDk) as ([N' A] & In' & ZZ). cbn [y_blocks] in *. split; [|split].
      * split; [exact N'|]. intros b. rewrite A, AK. cbn [In]. split.
        -- intros [[X1 X2] X3]. split; auto. intros [[<-|X4] X5]; auto.
        -- intros [X1 X2]. split; [split; auto; intros ->; apply X2; auto|]. intros [X3 X4]. apply X2. auto.
      * intros b [<-|I] X; [auto|]. apply (In' b I) in X. apply AK in X. apply X.
      * intros Z NZ S. destruct (remove_found _ _ (S c IC) NZ) as (kz & RZ & NDz & AZ0).
        destruct (ZZ (mkBytes (y_mem Z) kz (y_log Z)) NDz) as (Z' & EZ & NZ' & AZ).
        { intros b I. cbn [y_blocks]. apply AK in I. apply AZ0. destruct I. auto. }
        cbn [y_blocks] in AZ. exists Z'. cbn [give_back_all]. unfold give_back at 1. destruct (N.eqb_spec (snd c) 0); [congruence|]. rewrite RZ. cbn [bind].
        split; [exact EZ|]. split; [exact NZ'|]. intros b. rewrite AZ, AZ0. cbn [In]. split.
        -- intros [[X1 X2] X3]. split; auto. intros [[<-|X4] X5]; auto.
        -- intros [X1 X2]. split; [split; auto; intros ->; apply X2; auto|]. intros [X3 X4]. apply X2. auto.
Qed.

Lemma back_app : forall l l' (Y : bytes B), give_back_all Y (l ++ l') = (Y1 <- give_back_all Y l ;; give_back_all Y1 l').
Proof. intros l. induction l as [|b l IH]; intros l' Y; cbn [app give_back_all bind]; auto. destruct (give_back Y b); cbn [bind]; auto. Qed.

Lemma each_back : forall xs (P P' : process T B), destroy_each P xs = Ok P' ->
  give_back_all (pr_bytes P) (released (pr_table P) xs) = Ok (pr_bytes P') /\ pr_table P' = pr_table P.
Proof.
  intros xs. induction xs as [|x xs IH]; intros P P' E; cbn [destroy_each] in E.
  - injection E as <-. auto.
  - apply bind_ok in E. destruct E as (P1 & E1 & E). unfold released. cbn [flat_map]. rewrite back_app. unfold destroy_one in E1.
    destruct (nth_error (pr_table P) x) as [v|].
    + apply bind_ok in E1. destruct E1 as (Y & G & E1). injection E1 as <-. rewrite G. cbn [bind]. destruct (IH _ _ E) as [X1 X2]. auto.
    + injection E1 as <-. cbn [give_back_all bind]. apply IH. exact E.
Qed.

Lemma released_owned : forall (tb : list (matrix T)) xs b, In b (released tb xs) -> exists x, In x tb /\ In b (owned_blocks x).
Proof.
  intros tb xs b I. unfold released in I. apply in_flat_map in I. destruct I as (x & _ & I). destruct (nth_error tb x) as [v|] eqn:E; [|destruct I].
  exists v. split; auto. eapply nth_error_In, E.
Qed.

Lemma related_slots : forall decode choose rho sigma (fs : fstate T) (P : process T B) st sl g f,
  FlatHistory.related decode choose rho sigma (mkFState (mkBState st sl) g f) P ->
  FlatHistory.related decode choose rho sigma (mkFState (mkBState st []) g f) (mkProcess (pr_bytes P) (pr_table P) [] (pr_gone P)).
Proof. intros decode choose rho sigma fs P st sl g f H. destruct H. constructor; auto. Qed.

Lemma dis_zero : forall b b', snd b = 0 -> dis (T := T) b b'.
Proof. intros b b' Z x [X _]. unfold in_block in X. rewrite Z in X. lia. Qed.

End Bytes.

Section FlatDropMachine.
Context {T : Type} {SC : HScalar T} {St : Type} {B : Type}.
Variable encode : T -> list B.
Variable decode : list B -> T.
Hypothesis coding : faithful encode decode.
Variable kern : kernel T.
Variable code : gemm_args T -> prog T unit.
Hypothesis impl : implements code kern.
Variable choose : nat -> nat -> nat.
Variables (m : mode) (p : pool T) (acts : nat -> list (taction T St)) (owner : nat -> option nat).
Variables (place : nat -> nat) (M0 : N -> B) (used0 : list (nat * N)).
Hypothesis laid : laid_out decode p place M0 used0.
Hypothesis disjoint : Threads.apart p.
Hypothesis defined : forall k, exists x, alone_run kern m (alone p owner k) (acts k) = Ok x.
Notation load := (load decode).
Notation store := (store encode).
Notation store_all := (store_all encode).
Notation dis := (dis (T := T)).

(** ** What a thread may reach *)

(** The blocks that no thread owns. *)
Definition cm (b : nat * N) : Prop :=
  exists a l, nth_error (p_heap p) a = Some l /\ l <> [] /\ owner a = None /\ b = (place a, N.of_nat (length l)).

(** By cell; [ever] are the blocks that the thread owned at some time. *)
Definition rq (ever : list (nat * N)) (k : nat) (q : nat * N) : Prop :=
  (exists a, fst q = place a /\ owner a = None /\ held (p_tabs p k) (a, snd q)) \/ fresh ever q.
Definition wq (ever : list (nat * N)) (k : nat) (q : nat * N) : Prop :=
  (exists a y, fst q = place a /\ owner a = None /\ In y (p_tabs p k) /\ is_writable y = true /\ occupies y (a, snd q)) \/ fresh ever q.
(** By byte; [bl] are the blocks that it owns now. *)
Definition rb (bl : list (nat * N)) (k : nat) (x : N) : Prop :=
  (exists a i, owner a = None /\ held (p_tabs p k) (a, i) /\ qbytes (T := T) (place a, i) x) \/ exists b, In b bl /\ in_block b x.
Definition wb (bl : list (nat * N)) (k : nat) (x : N) : Prop :=
  (exists a i y, owner a = None /\ In y (p_tabs p k) /\ is_writable y = true /\ occupies y (a, i) /\ qbytes (T := T) (place a, i) x) \/
  exists b, In b bl /\ in_block b x.

Lemma wb_rb : forall bl k x, wb bl k x -> rb bl k x.
Proof. intros bl k x [(a & i & y & O & I & _ & C & X)|X]; [left|now right]. exists a, i. split; auto. split; auto. exists y. auto. Qed.
Lemma rq_more : forall bl bl' k q, (forall b, In b bl -> In b bl') -> rq bl k q -> rq bl' k q.
Proof. intros bl bl' k q H [Q|F]; [now left|right; eauto using fresh_more]. Qed.
Lemma wq_more : forall bl bl' k q, (forall b, In b bl -> In b bl') -> wq bl k q -> wq bl' k q.
Proof. intros bl bl' k q H [Q|F]; [now left|right; eauto using fresh_more]. Qed.
Lemma rb_more : forall bl bl' k x, (forall b, In b bl -> In b bl') -> rb bl k x -> rb bl' k x.
Proof. intros bl bl' k x H [Q|(b & I & X)]; [now left|right; eauto]. Qed.

Lemma common_block : forall k a i x, owner a = None -> held (p_tabs p k) (a, i) -> qbytes (T := T) (place a, i) x ->
  exists l, nth_error (p_heap p) a = Some l /\ l <> [] /\ i < N.of_nat (length l) /\
    cm (place a, N.of_nat (length l)) /\ in_block (place a, N.of_nat (length l)) x.
Proof.
  intros k a i x Oa (y & I & O) X. pose proof (laid_inside _ _ _ _ _ laid k y (a, i) I O) as H. cbn [fst snd] in H.
  destruct (hget (p_heap p) a i) as [v|] eqn:G; [|congruence]. apply (hget_inv (choose 0%nat) M0) in G. destruct G as (l & E & NE & _ & L).
  exists l. repeat (split; auto).
  - exists a, l. auto.
  - unfold qbytes, address in X. cbn [fst snd pl_alloc pl_index] in X. cbn [fst]. lia.
  - unfold qbytes, address in X. cbn [fst snd pl_alloc pl_index] in X. cbn [fst snd]. pose proof (size_pos (T := T)). nia.
Qed.
Lemma rb_blocks : forall bl k x, rb bl k x -> exists b, (cm b \/ In b bl) /\ in_block b x.
Proof.
  intros bl k x [(a & i & O & H & X)|(b & I & X)]; [|eauto].
  destruct (common_block k a i x O H X) as (l & _ & _ & _ & I & X'). eauto.
Qed.

(** An access to a cell that the thread can name is, if it is to memory in use, to memory that it may reach. *)
Lemma item_block : forall (bs : list (nat * N)) r, item_of (T := T) bs (address r) ->
  exists b, In b bs /\ forall x, address r <= x < address r + item_size -> in_block b x.
Proof.
  intros bs r (b & i & I & L & E). exists b. split; auto. intros x X. unfold in_block. rewrite E in X. pose proof (size_pos (T := T)). nia.
Qed.
Lemma old_block : forall ever bl bs r, fresh ever (pl_alloc r, pl_index r) -> item_of (T := T) bs (address r) ->
  (forall b, In b bs -> cm b \/ In b bl) -> (forall b b', In b ever -> cm b' -> dis b b') ->
  forall x, address r <= x < address r + item_size -> exists b, In b bl /\ in_block b x.
Proof.
  intros ever bl bs r F IT S D x X. destruct (item_block _ _ IT) as (b & I & Hb). pose proof (size_pos (T := T)) as SP.
  assert (F0 : qbytes (T := T) (pl_alloc r, pl_index r) (address r)) by (apply qbytes_address; lia).
  destruct (fresh_bytes ever _ _ F F0) as (b0 & I0 & X0). destruct (S b I) as [C|C]; [|eauto].
  exfalso. apply (D b0 b I0 C (address r)). split; [exact X0|apply Hb; lia].
Qed.
Lemma to_read : forall ever bl bs k r x, rq ever k (pl_alloc r, pl_index r) -> item_of (T := T) bs (address r) ->
  (forall b, In b bs -> cm b \/ In b bl) -> (forall b b', In b ever -> cm b' -> dis b b') ->
  address r <= x < address r + item_size -> rb bl k x.
Proof.
  intros ever bl bs k r x [(a & E & O & H)|F] IT S D X; [left|right; eapply old_block; eauto].
  cbn [fst snd] in *. exists a, (pl_index r). split; auto. split; auto. rewrite <- E. now apply qbytes_address.
Qed.
Lemma to_write : forall ever bl bs k r x, wq ever k (pl_alloc r, pl_index r) -> item_of (T := T) bs (address r) ->
  (forall b, In b bs -> cm b \/ In b bl) -> (forall b b', In b ever -> cm b' -> dis b b') ->
  address r <= x < address r + item_size -> wb bl k x.
Proof.
  intros ever bl bs k r x [(a & y & E & O & I & W & C)|F] IT S D X; [left|right; eapply old_block; eauto].
  cbn [fst snd] in *. exists a, (pl_index r), y. split; [auto|]. split; [auto|]. split; [auto|]. split; [auto|]. rewrite <- E. now apply qbytes_address.
Qed.

(** What a thread writes no other reads. *)
Lemma exclusive : forall j k bl bl' x, j <> k -> wb bl j x -> rb bl' k x ->
  (forall b b', In b bl -> cm b' -> dis b b') -> (forall b b', In b bl' -> cm b' -> dis b b') ->
  (forall b b', In b bl -> In b' bl' -> dis b b') -> False.
Proof.
  intros j k bl bl' x D W R H1 H2 H3. destruct W as [(a & i & y & Oa & Iy & Wy & O & X)|(b & Ib & X)].
  - destruct (common_block j a i x Oa (ex_intro _ y (conj Iy O)) X) as (l & En & Nl & Li & Cu & X').
    destruct R as [(a' & i' & Oa' & Hz & Z)|(b & Ib & Z)]; [|apply (H2 b _ Ib Cu x); auto].
    destruct (common_block k a' i' x Oa' Hz Z) as (l' & En' & Nl' & Li' & Cu' & Z').
    destruct (Nat.eq_dec a a') as [<-|Da].
    + assert (Ei : i = i').
      { unfold qbytes, address in X, Z. cbn [fst snd pl_alloc pl_index] in X, Z. pose proof (size_pos (T := T)). nia. }
      subst i'. destruct Hz as (z & Iz & Oz). exact (disjoint j k y z (a, i) D Iy Iz Wy O Oz).
    + apply (laid_apart _ _ _ _ _ laid a a' l l' En En' Nl Nl' Da x). auto.
  - destruct (rb_blocks _ _ _ R) as (b' & [Iu|Ib'] & Z').
    + apply (H1 b b' Ib Iu x). auto.
    + apply (H3 b b' Ib Ib' x). auto.
Qed.

(** ** The invariant *)

Let L0 := length used0.
Definition dchooser (k j : nat) : nat := choose k (j - L0).
Notation related k := (FlatHistory.related decode (dchooser k)).
Notation perform k := (Flat.perform encode decode (dchooser k)).
Notation sound k := (FlatProofs.sound encode decode (dchooser k)).

Definition table_ok (ever : list (nat * N)) (k : nat) (tb : list (matrix T)) : Prop :=
  forall x, In x tb -> covered (rq ever k) x /\ (is_writable x = true -> covered (wq ever k) x) /\
    forall b, In b (owned_blocks x) -> snd b <> 0 -> In b ever.

(** The thread [k] between two calls, in the state [fs] alone, with the table [tb], [cnt] allocations so far and the
    blocks [bl] of its own. *)
Definition quiet (k : nat) (fs : fstate T) (tb : list (matrix T)) (cnt : nat) (bl : list (nat * N)) (mem : N -> B) : Prop :=
  exists rho sigma P ever,
    related k rho sigma fs P /\ logged (pr_bytes P) /\ pr_table P = tb /\
    (forall b b', In b ever -> cm b' -> dis b b') /\ table_ok ever k tb /\
    y_count (pr_bytes P) = (L0 + cnt)%nat /\
    (forall b, In b (y_blocks (pr_bytes P)) <-> cm b \/ In b bl) /\
    (forall x, rb bl k x -> mem x = y_mem (pr_bytes P) x).

(** In a call. *)
Definition busy (k : nat) (fs : fstate T) (tb : list (matrix T)) (cnt : nat) (o : call T St) (new : list (nat * N))
    (c : prog T (list (matrix T) * result T St)) (bl : list (nat * N)) (mem : N -> B) : Prop :=
  exists rho sigma P Yc ever c0,
    related k rho sigma fs P /\ logged (pr_bytes P) /\ pr_table P = tb /\
    (forall b b', In b ever -> cm b' -> dis b b') /\ table_ok ever k tb /\
    (forall b, cm b -> In b (y_blocks (pr_bytes P))) /\
    y_count Yc = (L0 + cnt)%nat /\
    (forall b, In b (y_blocks Yc) <-> cm b \/ In b bl) /\
    (forall x, rb bl k x -> mem x = y_mem Yc x) /\
    program code m tb o = Some c0 /\ perform k c0 (pr_bytes P) = perform k c Yc /\ sound k c Yc /\
    reaches (held tb) (writes tb) new c (returns_in (held tb) (writes tb)) /\ yields new c (owns_in tb) /\
    (forall b, In b (y_blocks Yc) <-> In b (y_blocks (pr_bytes P)) \/ (In b new /\ snd b <> 0)) /\
    (forall b, In b new -> snd b <> 0 -> ~ In b (y_blocks (pr_bytes P)) /\ In b bl).

Definition thread_ok (k : nat) (t : dthread T St) (bl : list (nat * N)) (mem : N -> B) : Prop :=
  exists made fs,
    acts k = made ++ now_actions t ++ dt_left t /\
    alone_run kern m (alone p owner k) made = Ok (fs, dt_done t) /\
    plain_actions kern m fs (now_actions t ++ dt_left t) /\
    match dt_now t with
    | None => quiet k fs (dt_table t) (dt_count t) bl mem
    | Some (o, new, c) => busy k fs (dt_table t) (dt_count t) o new c bl mem
    end.

Definition machine_ok (own : nat -> list (nat * N)) (M : dmachine T St B) : Prop :=
  (forall b, In b (dm_used M) <-> cm b \/ exists k, In b (own k)) /\
  (forall b, In b (dm_used M) -> snd b <> 0) /\
  NoDup (dm_used M) /\
  (forall k b b', In b (own k) -> cm b' -> dis b b') /\
  (forall j k b b', j <> k -> In b (own j) -> In b' (own k) -> dis b b') /\
  (forall k, thread_ok k (dm_thread M k) (own k) (dm_mem M)).

Lemma thread_frame : forall k t bl mem mem', thread_ok k t bl mem -> (forall x, rb bl k x -> mem' x = mem x) -> thread_ok k t bl mem'.
Proof.
  intros k t bl mem mem' (made & fs & I1 & I2 & I3 & I4) H. exists made, fs. repeat (split; [assumption|]).
  destruct (dt_now t) as [[[o new] c]|].
  - destruct I4 as (rho & sigma & P & Yc & ever & c0 & J1 & J2 & J3 & J4 & J5 & J6 & J7 & J8 & J9 & J).
    exists rho, sigma, P, Yc, ever, c0. repeat (split; [assumption|]). split; [|exact J]. intros x X. rewrite H; auto.
  - destruct I4 as (rho & sigma & P & ever & J1 & J2 & J3 & J4 & J5 & J6 & J7 & J8).
    exists rho, sigma, P, ever. repeat (split; [assumption|]). intros x X. rewrite H; auto.
Qed.

(** A step of the thread [k]. *)
Lemma machine_step : forall own M k mem used t bl, machine_ok own M ->
  (forall j x, j <> k -> rb (own j) j x -> mem x = dm_mem M x) ->
  (forall b, In b used <-> cm b \/ In b bl \/ exists j, j <> k /\ In b (own j)) ->
  NoDup used ->
  (forall b, In b bl -> snd b <> 0) ->
  (forall b, In b bl -> In b (own k) \/ forall b', In b' (dm_used M) -> dis b b') ->
  thread_ok k t bl mem ->
  machine_ok (own_set own k bl) (mkDMachine mem used (put_dthread (dm_thread M) k t)).
Proof.
  intros own M k mem used t bl (U & NE & ND & AC & AO & TH) HM HU HD HN HB HT.
  assert (SEL : forall j b, In b (own_set own k bl j) -> j = k /\ In b bl \/ j <> k /\ In b (own j)).
  { intros j b I. unfold own_set in I. destruct (Nat.eqb_spec j k); auto. }
  assert (OK : forall j, j <> k -> own_set own k bl j = own j) by (intros j D; unfold own_set; destruct (Nat.eqb_spec j k); congruence).
  assert (SK : own_set own k bl k = bl) by (unfold own_set; now rewrite Nat.eqb_refl).
  split; [|split; [|split; [|split; [|split]]]]; cbn [dm_used dm_mem dm_thread].
  - intros b. rewrite HU. split.
    + intros [I|[I|(j & D & I)]]; [now left|right; exists k; now rewrite SK|right; exists j; now rewrite OK].
    + intros [I|(j & I)]; [now left|]. apply SEL in I. destruct I as [[-> I]|[D I]]; [right; now left|right; right; eauto].
  - intros b I. apply HU in I. destruct I as [I|[I|(j & D & I)]]; [apply NE, U; now left|auto|apply NE, U; right; eauto].
  - exact HD.
  - intros j b b' I I'. apply SEL in I. destruct I as [[-> I]|[D I]]; [|eauto]. destruct (HB b I) as [X|X]; [eauto|]. apply X, U. now left.
  - intros i j b b' D I I'. apply SEL in I. apply SEL in I'. destruct I as [[-> I]|[Di I]], I' as [[-> I']|[Dj I']].
    + congruence.
    + destruct (HB b I) as [X|X]; [eapply (AO k j); eauto|]. apply X, U. right. eauto.
    + destruct (HB b' I') as [X|X]; [eapply (AO i k); eauto|]. apply dis_sym, X, U. right. eauto.
    + eapply (AO i j); eauto.
  - intros j. unfold put_dthread. destruct (Nat.eqb_spec j k) as [->|D]; [now rewrite SK|].
    rewrite OK by auto. eapply thread_frame; [apply TH|]. intros x X. now apply (HM j).
Qed.
Lemma same_own : forall own M k mem t, machine_ok own M ->
  (forall j x, j <> k -> rb (own j) j x -> mem x = dm_mem M x) -> thread_ok k t (own k) mem ->
  machine_ok (own_set own k (own k)) (mkDMachine mem (dm_used M) (put_dthread (dm_thread M) k t)).
Proof.
  intros own M k mem t OK HM HT. pose proof OK as (U & NE & ND & _). apply machine_step; auto.
  - intros b. rewrite (U b). split; [intros [I|(j & I)]; auto; destruct (Nat.eq_dec j k) as [->|D]; eauto|intros [I|[I|(j & D & I)]]; eauto].
  - intros b I. apply NE, U. right. eauto.
Qed.

(** ** Destructors *)

Lemma release : forall k fs fs' tb cnt bl mem xs used, quiet k fs tb cnt bl mem -> destroy_all fs xs = Ok fs' ->
  NoDup used -> (forall b, In b used -> snd b <> 0) -> (forall b, cm b \/ In b bl -> In b used) ->
  exists Y bl', give_back_all (mkBytes mem used []) (released tb xs) = Ok Y /\ NoDup (y_blocks Y) /\
    (forall b, In b (y_blocks Y) <-> In b used /\ ~ In b (released tb xs)) /\
    (forall b, In b bl' <-> In b bl /\ ~ In b (released tb xs)) /\
    (forall b, In b (released tb xs) -> snd b <> 0 -> In b bl /\ ~ cm b) /\ quiet k fs' tb cnt bl' mem.
Proof.
  intros k fs fs' tb cnt bl mem xs used (rho & sigma & P & ever & J1 & J2 & J3 & J4 & J5 & J6 & J7 & J8) E ND NZ S.
  destruct (sim_destroy_all decode (dchooser k) rho sigma xs fs fs' P J1 E) as (P' & DE & REL & FR).
  destruct (each_back xs P P' DE) as [G TB]. rewrite J3 in G.
  destruct (back_all _ _ _ G (rep_nodup _ _ _ _ _ _ (rel_rep _ _ _ _ _ _ J1))) as ([_ A] & IN & ZZ).
  destruct (ZZ (mkBytes mem used []) ND) as (Z & GZ & NZ' & AZ). { intros b I. cbn [y_blocks]. apply S, J7, I. }
  cbn [y_blocks] in AZ.
  assert (NC : forall b, In b (released tb xs) -> snd b <> 0 -> In b bl /\ ~ cm b).
  { intros b I X. assert (C : ~ cm b).
    { intros C. destruct (released_owned _ _ _ I) as (x & Ix & Ib). destruct (J5 x Ix) as (_ & _ & OW).
      apply X. apply (dis_self (T := T)). apply (J4 b b); auto. }
    split; auto. apply (IN b I) in X. apply J7 in X. destruct X; [contradiction|auto]. }
  exists Z, (filter (fun b => negb (existsb (block_eqb b) (released tb xs))) bl).
  assert (FI : forall b, In b (filter (fun b => negb (existsb (block_eqb b) (released tb xs))) bl) <-> In b bl /\ ~ In b (released tb xs)).
  { intros b. rewrite filter_In, not_in_new. reflexivity. }
  split; [exact GZ|]. split; [exact NZ'|]. split; [|split; [exact FI|split; [exact NC|]]].
  - intros b. rewrite AZ. split; intros [X1 X2]; (split; [exact X1|]); [intros X3; apply X2; split; auto|intros [X3 X4]; auto].
  - exists rho, sigma, P', ever. destruct FR as (FM & FL & FB). split; [exact REL|]. split; [intros b I; rewrite FL; auto|]. split; [congruence|].
    split; [exact J4|]. split; [exact J5|]. split; [unfold y_count in *; now rewrite FL|]. split.
    + intros b. rewrite A, J7, FI. split.
      * intros [[C|I] X]; [now left|]. right. split; [exact I|]. intros R. apply X. split; [exact R|]. apply NZ, S. auto.
      * intros [C|[I X]]; (split; [auto|]); intros [R Z0]; [destruct (NC b R Z0); contradiction|contradiction].
    + intros x X. rewrite FM. apply J8. eapply rb_more; [|exact X]. intros b I. apply FI in I. apply I.
Qed.

(** A thread comes to the end of a call, or of a destructor. *)
Lemma finish : forall own M k t bl1 used1 made fs1 fs' xs, machine_ok own M ->
  (forall b, In b bl1 -> In b (own k)) -> NoDup used1 ->
  (forall b, In b used1 <-> cm b \/ In b bl1 \/ exists j, j <> k /\ In b (own j)) ->
  dt_now t = None -> acts k = made ++ dt_left t -> alone_run kern m (alone p owner k) made = Ok (fs', dt_done t) ->
  plain_actions kern m fs' (dt_left t) ->
  quiet k fs1 (dt_table t) (dt_count t) bl1 (dm_mem M) -> destroy_all fs1 xs = Ok fs' ->
  exists M' own', settle M used1 k t xs = Goes M' /\ machine_ok own' M'.
Proof.
  intros own M k t bl1 used1 made fs1 fs' xs OK SB ND HU N1 A1 R1 P1 Q E. pose proof OK as (U & NE & _ & AC & AO & TH).
  assert (UN : forall b, In b used1 -> snd b <> 0).
  { intros b I. apply NE, U. apply HU in I. destruct I as [I|[I|(j & _ & I)]]; eauto. }
  destruct (release k fs1 fs' _ _ bl1 (dm_mem M) xs used1 Q E ND UN) as (Y & bl' & G & NY & AY & AB & NC & Q').
  { intros b [C|I]; apply HU; auto. }
  unfold settle. rewrite G. eexists. exists (own_set own k bl'). split; [reflexivity|]. apply machine_step; auto.
  - intros b. rewrite AY, HU, AB. split.
    + intros [[C|[I|I]] X]; auto.
    + intros [C|[[I X]|(j & D & I)]].
      * split; [auto|]. intros R. destruct (NC b R) as [_ X]; [apply UN, HU; auto|contradiction].
      * split; auto.
      * split; [eauto|]. intros R. assert (Z : snd b <> 0) by (apply UN, HU; eauto). destruct (NC b R Z) as [Ib _].
        apply Z, (dis_self (T := T)). apply (AO k j); auto.
  - intros b I. apply AB in I. apply UN, HU. destruct I. auto.
  - intros b I. left. apply AB in I. destruct I. auto.
  - exists made, fs'. unfold now_actions. rewrite N1. cbn [app]. auto.
Qed.

(** ** The thread alone *)

Lemma alone_app : forall (l l' : list (taction T St)) fs, alone_run kern m fs (l ++ l') =
  ('(fs1, r) <- alone_run kern m fs l ;; '(fs2, r') <- alone_run kern m fs1 l' ;; Ok (fs2, r ++ r')).
Proof.
  intros l. induction l as [|a l IH]; intros l' fs; cbn [app alone_run bind].
  - destruct (alone_run kern m fs l') as [[fs2 r]| |]; reflexivity.
  - destruct (alone_step kern m fs a) as [[fs1 r]| |]; cbn [bind]; auto. rewrite IH. destruct (alone_run kern m fs1 l) as [[fs2 r2]| |]; cbn [bind]; auto.
    destruct (alone_run kern m fs2 l') as [[fs3 r3]| |]; cbn [bind]; auto. now rewrite app_assoc.
Qed.
Lemma next_defined : forall k made fs rs a rest, acts k = made ++ a :: rest -> alone_run kern m (alone p owner k) made = Ok (fs, rs) ->
  exists fs' r, alone_step kern m fs a = Ok (fs', r) /\ alone_run kern m (alone p owner k) (made ++ [a]) = Ok (fs', rs ++ r).
Proof.
  intros k made fs rs a rest E R. destruct (defined k) as [x X]. rewrite E, alone_app, R in X. cbn [bind alone_run] in X.
  destruct (alone_step kern m fs a) as [[fs' r]| |] eqn:S; try discriminate X. exists fs', r. split; auto.
  rewrite alone_app, R. cbn [bind alone_run]. rewrite S. cbn [bind]. now rewrite app_nil_r.
Qed.

(** The end of a call. *)
Lemma call_end : forall k rho sigma fs P (o : call T St) c0 oc Yc st' r, related k rho sigma fs P -> logged (pr_bytes P) ->
  plain_call (b_state (f_state fs)) o -> step kern m (b_state (f_state fs)) o = Ok (st', r) ->
  program code m (pr_table P) o = Some c0 -> perform k c0 (pr_bytes P) = Some (oc, Yc) ->
  exists rho' sigma' P', related k rho' sigma' (mkFState (mkBState st' []) (f_gone fs) (f_freed fs)) P' /\ logged (pr_bytes P') /\
    match oc with
    | Ok (ms, r') => r' = r /\ pr_table P' = pr_table P ++ ms /\ pr_bytes P' = Yc
    | Panic => r = RPanicked /\ pr_table P' = pr_table P /\ pr_bytes P' = mkBytes (y_mem Yc) (y_blocks (pr_bytes P)) (y_log Yc)
    | UB => False
    end.
Proof.
  intros k rho sigma fs P o c0 oc Yc st' r REL LG PC ES PR PF.
  destruct (sim_call encode decode coding (dchooser k) kern code impl rho sigma m fs P [] o st' r REL LG PC ES) as [_ SC0].
  unfold call_process in SC0. rewrite PR, PF in SC0. destruct SC0 as [N|(rho' & sigma' & P' & EQ & REL' & LG' & _)].
  - destruct oc as [[ms r']| |]; discriminate N.
  - exists rho', sigma'. eexists. split; [eapply (related_slots decode (dchooser k)); eauto|]. split; [exact LG'|]. cbn [pr_table pr_bytes].
    destruct oc as [[ms r']| |]; [| |discriminate EQ]; injection EQ as <- <-; auto.
Qed.

Lemma alone_call : forall fs o fs' rs, alone_step kern m fs (TCall o) = Ok (fs', rs) ->
  exists st' (r : result T St), step kern m (b_state (f_state fs)) o = Ok (st', r) /\
    destroy_all (mkFState (mkBState st' []) (f_gone fs) (f_freed fs)) (consumed o r) = Ok fs' /\ rs = [r].
Proof.
  intros fs o fs' rs E. cbn [alone_step] in E. apply bind_ok in E. destruct E as ([st' r] & ES & E). apply bind_ok in E. destruct E as (fs1 & ED & E).
  injection E as <- <-. exists st', r. auto.
Qed.

(** The reach of a call is that of its thread. *)
Lemma reach_read : forall ever new k tb q, table_ok ever k tb -> plus_new (held tb) new q -> rq (new ++ ever) k q.
Proof.
  intros ever new k tb q C [(x & I & O)|(b & I & E)].
  - eapply rq_more; [|apply (C x I); exact O]. intros b Ib. apply in_or_app. now right.
  - right. exists b. split; [|exact E]. apply in_or_app. now left.
Qed.
Lemma reach_write : forall ever new k tb q, table_ok ever k tb -> plus_new (writes tb) new q -> wq (new ++ ever) k q.
Proof.
  intros ever new k tb q C [(x & I & Wx & O)|(b & I & E)].
  - eapply wq_more; [|apply (proj1 (proj2 (C x I)) Wx); exact O]. intros b Ib. apply in_or_app. now right.
  - right. exists b. split; [|exact E]. apply in_or_app. now left.
Qed.

(** At the end of a call. *)
Lemma call_quiet : forall own M k fs tb cnt o new oc st' r0, machine_ok own M ->
  busy k fs tb cnt o new (Stop oc) (own k) (dm_mem M) -> plain_call (b_state (f_state fs)) o ->
  step kern m (b_state (f_state fs)) o = Ok (st', r0) ->
  match oc with
  | Ok (ms, r) => r = r0 /\ quiet k (mkFState (mkBState st' []) (f_gone fs) (f_freed fs)) (tb ++ ms) cnt (own k) (dm_mem M)
  | Panic => r0 = RPanicked /\ (forall b, In b new -> snd b <> 0 -> In b (own k)) /\
      quiet k (mkFState (mkBState st' []) (f_gone fs) (f_freed fs)) tb cnt (filter (fun b => negb (existsb (block_eqb b) new)) (own k)) (dm_mem M)
  | UB => False
  end.
Proof.
  intros own M k fs tb cnt o new oc st' r0 OK I4 PC ES. pose proof OK as (U & NE & ND & AC & AO & TH).
  assert (OU : forall b, In b (own k) -> In b (dm_used M)) by (intros b I; apply U; right; eauto).
  destruct I4 as (rho & sigma & P & Yc & ever & c0 & J1 & J2 & J3 & J4 & J5 & J6 & J7 & J8 & J9 & K1 & K2 & K3 & K4 & K5 & K6 & K7).
  assert (ED : forall b b', In b (new ++ ever) -> cm b' -> dis b b').
  { intros b b' I C. apply in_app_or in I. destruct I as [I|I]; [|auto]. destruct (N.eq_dec (snd b) 0) as [Z|Z]; [now apply dis_zero|].
    destruct (K7 b I Z) as [_ X]. eauto. }
  assert (TE : forall ms (r : result T St), reaches (held tb) (writes tb) new (Stop (T := T) (Ok (ms, r))) (returns_in (held tb) (writes tb)) ->
     yields new (Stop (T := T) (Ok (ms, r))) (owns_in tb) -> table_ok (new ++ ever) k (tb ++ ms)).
  { intros ms r X Y x Ix. apply in_app_or in Ix. destruct Ix as [Ix|Ix].
    - destruct (J5 x Ix) as (X1 & X2 & X3). split; [|split].
      + intros q Hq. eapply rq_more; [|now apply X1]. intros b I. apply in_or_app. now right.
      + intros Wx q Hq. eapply wq_more; [|now apply (X2 Wx)]. intros b I. apply in_or_app. now right.
      + intros b I Z. apply in_or_app. right. now apply X3.
    - cbn [reaches] in X. unfold returns_in in X. cbn [fst] in X. rewrite Forall_forall in X. destruct (X x Ix) as [X1 X2]. split; [|split].
      + intros q Hq. eapply reach_read; eauto.
      + intros Wx q Hq. eapply reach_write; [eauto|]. now apply X2.
      + intros b I Z. apply in_or_app. destruct (Y x b Ix I) as [?|(z & Iz & Ib)]; [now left|]. right. now apply (J5 z Iz). }
  cbn [Flat.perform] in K2. rewrite <- J3 in K1.
  destruct (call_end k rho sigma fs P o c0 _ Yc st' r0 J1 J2 PC ES K1 K2) as (rho' & sigma' & P' & REL' & LG' & E).
  destruct oc as [[ms r]| |]; [| |exact E].
  - destruct E as (-> & ET & EY). split; [reflexivity|]. exists rho', sigma', P', (new ++ ever). rewrite EY, ET, J3.
    split; [exact REL'|]. split; [rewrite <- EY; exact LG'|]. split; [reflexivity|]. split; [exact ED|]. split; [eapply TE; eauto|]. auto.
  - destruct E as (-> & ET & EY). split; [reflexivity|]. split; [intros b I Z; now apply (K7 b I Z)|].
    set (gone := fun b => negb (existsb (block_eqb b) new)).
    assert (FN : forall b, gone b = true <-> ~ In b new) by (intros b; apply not_in_new).
    exists rho', sigma', P', ever. rewrite EY. cbn [y_blocks y_mem]. split; [exact REL'|]. split; [rewrite <- EY; exact LG'|]. split; [congruence|].
    split; [exact J4|]. split; [exact J5|]. split; [exact J7|]. split.
    + intros b. rewrite filter_In, FN. split.
      * intros I. assert (X : In b (y_blocks Yc)) by (apply K6; now left). apply J8 in X. destruct X as [X|X]; [now left|]. right. split; auto.
        intros N. destruct (K7 b N (NE b (OU b X))) as [Y _]. contradiction.
      * intros [I|[I N]]; auto. assert (X : In b (y_blocks Yc)) by (apply J8; now right). apply K6 in X. destruct X as [X|[X _]]; [auto|contradiction].
    + intros x X. apply J9. eapply rb_more; [|exact X]. intros b I. apply filter_In in I. apply I.
Qed.

(** A call without a program does nothing. *)
Lemma skip_quiet : forall k fs tb cnt bl mem (o : call T St) st' r, quiet k fs tb cnt bl mem -> program code m tb o = None ->
  plain_call (b_state (f_state fs)) o -> step kern m (b_state (f_state fs)) o = Ok (st', r) ->
  r = RSkipped /\ quiet k (mkFState (mkBState st' []) (f_gone fs) (f_freed fs)) tb cnt bl mem.
Proof.
  intros k fs tb cnt bl mem o st' r (rho & sigma & P & ever & J1 & J2 & J3 & J4 & J5 & J6 & J7 & J8) PR PC ES.
  destruct (sim_call encode decode coding (dchooser k) kern code impl rho sigma m fs P [] o st' r J1 J2 PC ES) as [SO SC0].
  unfold call_process in SC0. rewrite J3, PR in SC0. destruct SC0 as [N|(rho' & sigma' & P' & EQ & REL' & LG' & _)]; [discriminate N|]. injection EQ as <- <-.
  split; [reflexivity|]. apply related_slots in REL'; [|exact fs]. exists rho', sigma'. eexists. exists ever. split; [exact REL'|]. cbn [pr_bytes pr_table] in *. repeat (split; [now auto|]). auto.
Qed.

Lemma step_ok : forall own M k, machine_ok own M ->
  match dturn encode decode code choose m M k with
  | Goes M' => exists own', machine_ok own' M'
  | NoMemory => True
  | _ => False
  end.
Proof.
  intros own M k OK. pose proof OK as (U & NE & ND & AC & AO & TH). pose proof (TH k) as TK. unfold dturn.
  set (t := dm_thread M k) in *. clearbody t.
  destruct TK as (made & fs & I1 & I2 & I3 & I4).
  destruct t as [tb cnt left now dn]. cbn [dt_table dt_count dt_left dt_now dt_done] in *. unfold now_actions in I1, I3. cbn [dt_now dt_left] in I1, I3.
  assert (OU : forall b, In b (own k) -> In b (dm_used M)) by (intros b I; apply U; right; eauto).
  assert (CU : forall b, cm b -> In b (dm_used M)) by (intros b I; apply U; now left).
  assert (US : forall b, In b (dm_used M) <-> cm b \/ In b (own k) \/ exists j, j <> k /\ In b (own j)).
  { intros b. rewrite U. split; [intros [I|(j & I)]; auto; destruct (Nat.eq_dec j k) as [->|D]; eauto|intros [I|[I|(j & D & I)]]; eauto]. }
  destruct now as [[[o new] c]|].
  2: { cbn [app] in *. destruct left as [|[o|x] left].
    - exists own. exact OK.
    - (* a call begins *)
      destruct (next_defined _ _ _ _ _ _ I1 I2) as (fs' & rs & ST & RN). destruct (alone_call _ _ _ _ ST) as (st' & r & ES & ED & ->).
      pose proof I3 as [PC PL]. destruct I4 as (rho & sigma & P & ever & J1 & J2 & J3 & J4 & J5 & J6 & J7 & J8).
      destruct (sim_call encode decode coding (dchooser k) kern code impl rho sigma m fs P [] o st' r J1 J2 PC ES) as [SO SC0].
      rewrite J3 in SO. unfold call_process in SC0. rewrite J3 in SC0. destruct (program code m tb o) as [c|] eqn:PR.
      + exists (own_set own k (own k)). apply same_own; [exact OK|reflexivity|].
        exists made, fs. unfold now_actions. cbn [dt_table dt_count dt_left dt_now dt_done app].
        split; [exact I1|]. split; [exact I2|]. split; [exact I3|].
        exists rho, sigma, P, (pr_bytes P), ever, c. repeat (split; [assumption|]). split; [intros b C; apply J7; now left|]. repeat (split; [assumption|]).
        split; [reflexivity|]. split; [now apply SO|]. split; [|split; [|split]].
        * apply (reaches_program (held tb) (writes tb) code kern m tb o c impl); auto.
          -- intros q (x & I & _ & O). exists x. auto.
          -- intros x I q O. exists x. auto.
          -- intros x I Wx q O. exists x. auto.
        * eapply owns_program; eauto.
        * intros b. cbn [In]. tauto.
        * intros b [].
      + destruct SC0 as [N|(rho' & sigma' & P' & EQ & REL' & LG' & _)]; [discriminate N|]. injection EQ as <- <-.
        edestruct (finish own M k (mkDThread tb cnt left None (dn ++ [RSkipped])) (own k) (dm_used M) (made ++ [TCall o])
          (mkFState (mkBState st' []) (f_gone fs) (f_freed fs)) fs' (consumed o RSkipped)) as (M' & own' & -> & OK'); cbn [dt_now dt_table dt_count dt_left dt_done]; eauto.
        * now rewrite <- app_assoc.
        * apply related_slots in REL'; [|exact fs]. exists rho', sigma'. eexists. exists ever. split; [exact REL'|]. cbn [pr_bytes pr_table] in *. repeat (split; [now auto|]). auto.
    - (* a destructor *)
      destruct (next_defined _ _ _ _ _ _ I1 I2) as (fs' & rs & ST & RN). cbn [alone_step] in ST. apply bind_ok in ST. destruct ST as (fs1 & ED & ST). injection ST as -> <-.
      pose proof I3 as [_ PL]. rewrite app_nil_r in RN.
      edestruct (finish own M k (mkDThread tb cnt left None dn) (own k) (dm_used M) (made ++ [TFree x]) fs fs' [x]) as (M' & own' & -> & OK');
        cbn [dt_now dt_table dt_count dt_left dt_done]; eauto.
      + now rewrite <- app_assoc.
      + apply (PL fs' []). cbn [alone_step]. now rewrite ED.
      + cbn [destroy_all]. now rewrite ED. }
  pose proof I4 as BU. destruct I4 as (rho & sigma & P & Yc & ever & c0 & J1 & J2 & J3 & J4 & J5 & J6 & J7 & J8 & J9 & K1 & K2 & K3 & K4 & K5 & K6 & K7). cbn [app] in *.
  assert (ED : forall b b', In b (new ++ ever) -> cm b' -> dis b b').
  { intros b b' I C. apply in_app_or in I. destruct I as [I|I]; [|auto]. destruct (N.eq_dec (snd b) 0) as [Z|Z]; [now apply dis_zero|].
    destruct (K7 b I Z) as [_ X]. eauto. }
  assert (YS : forall b, In b (y_blocks Yc) -> cm b \/ In b (own k)) by (intros b; apply J8).
  destruct (next_defined _ _ _ _ _ _ I1 I2) as (fs' & rs & ST & RN). destruct (alone_call _ _ _ _ ST) as (st' & r0 & ES & EDS & ->).
  pose proof I3 as [PC PL]. specialize (PL fs' [r0] ST).
  destruct c as [[[ms r]| |]|r c|r v c|l c].
  - (* the call returns *)
    destruct (call_quiet own M k fs tb cnt o new _ st' r0 OK BU PC ES) as [-> Q].
    edestruct (finish own M k (mkDThread (tb ++ ms) cnt left None (dn ++ [r0])) (own k) (dm_used M) (made ++ [TCall o])
          (mkFState (mkBState st' []) (f_gone fs) (f_freed fs)) fs' (consumed o r0)) as (M' & own' & -> & OK'); cbn [dt_now dt_table dt_count dt_left dt_done]; eauto.
    now rewrite <- app_assoc.
  - (* the call panics *)
    destruct (call_quiet own M k fs tb cnt o new _ st' r0 OK BU PC ES) as (-> & NW & Q).
    set (gone := fun b => negb (existsb (block_eqb b) new)) in *.
    assert (FN : forall b, gone b = true <-> ~ In b new) by (intros b; apply not_in_new).
    edestruct (finish own M k (mkDThread tb cnt left None (dn ++ [RPanicked])) (filter gone (own k)) (filter gone (dm_used M)) (made ++ [TCall o])
          (mkFState (mkBState st' []) (f_gone fs) (f_freed fs)) fs' (consumed o RPanicked)) as (M' & own' & -> & OK'); cbn [dt_now dt_table dt_count dt_left dt_done]; eauto.
    + intros b I. apply filter_In in I. apply I.
    + now apply NoDup_filter.
    + intros b. rewrite filter_In, US. rewrite filter_In. rewrite FN. split.
      * intros [[I|[I|I]] N]; auto.
      * assert (NO : In b new -> (cm b \/ exists j, j <> k /\ In b (own j)) -> False).
        { intros In' H. assert (X : In b (dm_used M)) by (destruct H as [H|(j & _ & H)]; apply U; eauto).
          pose proof (NE b X) as Z. pose proof (NW b In' Z) as O'. apply Z. apply (dis_self (T := T)). destruct H as [H|(j & D & H)]; [now apply (AC k)|now apply (AO j k)]. }
        intros [I|[[I N]|(j & D & I)]]; (split; [solve [eauto]|]); [intros N; apply (NO N); now left|exact N|intros N; apply (NO N); right; exists j; auto].
    + now rewrite <- app_assoc.
  - exact (call_quiet own M k fs tb cnt o new _ st' r0 OK BU PC ES).
  - (* a load *)
    cbn [reaches] in K4. destruct K4 as [FP K4]. cbn [yields] in K5.
    assert (IT : item_of (y_blocks Yc) (address r)) by (apply K3; cbn [Flat.visits]; now left).
    assert (EV : load (dm_mem M) (address r) = load (y_mem Yc) (address r)).
    { apply (load_ext decode (dchooser k)). intros x X. apply J9. eapply to_read; eauto. eapply reach_read; eauto. }
    exists (own_set own k (own k)). apply same_own; [exact OK|reflexivity|].
    exists made, fs. unfold now_actions. cbn [dt_table dt_count dt_left dt_now dt_done app]. split; [exact I1|]. split; [exact I2|]. split; [exact I3|].
    exists rho, sigma, P, Yc, ever, c0. repeat (split; [assumption|]). rewrite EV. split; [exact K2|]. split; [|split; [now auto|split; [now auto|split; [exact K6|exact K7]]]].
    intros a bs I. apply K3. cbn [Flat.visits]. now right.
  - (* a store *)
    cbn [reaches] in K4. destruct K4 as [FP K4]. cbn [yields] in K5.
    assert (IT : item_of (y_blocks Yc) (address r)) by (apply K3; cbn [Flat.visits]; now left).
    exists (own_set own k (own k)). apply same_own; auto.
    + intros j x D X. apply (store_out encode decode coding). intros Z. apply (exclusive k j (own k) (own j) x); auto.
      * eapply to_write; eauto. eapply reach_write; eauto.
      * intros b b'. apply AC.
      * intros b b'. apply AC.
      * intros b b'. apply AO. auto.
    + exists made, fs. unfold now_actions. cbn [dt_table dt_count dt_left dt_now dt_done app]. split; [exact I1|]. split; [exact I2|]. split; [exact I3|].
      exists rho, sigma, P, (mkBytes (store (y_mem Yc) (address r) v) (y_blocks Yc) (y_log Yc)), ever, c0. cbn [y_mem y_blocks].
      repeat (split; [assumption|]). split.
      { intros x X. destruct (N.leb_spec (address r) x); [destruct (N.ltb_spec x (address r + item_size))|].
        - apply (store_in encode decode coding). lia.
        - rewrite !(store_out encode decode coding) by lia. auto.
        - rewrite !(store_out encode decode coding) by lia. auto. }
      split; [exact K1|]. split; [exact K2|]. split; [|split; [now auto|split; [now auto|split; [exact K6|exact K7]]]].
      intros a bs I. apply K3. cbn [Flat.visits]. now right.
  - (* an allocation *)
    set (b := (choose k cnt, N.of_nat (length l))). destruct (grants (mkBytes (dm_mem M) (dm_used M) []) b) eqn:G; [|exact I].
    assert (EB : (dchooser k (y_count Yc), N.of_nat (length l)) = b).
    { unfold dchooser, b. rewrite J7. do 2 f_equal. lia. }
    assert (G' : snd b <> 0 -> forall b', In b' (dm_used M) -> dis b b').
    { intros Z b' I. unfold grants in G. cbn [y_blocks] in G. apply orb_true_iff in G. destruct G as [G|G]; [apply N.eqb_eq in G; congruence|].
      apply andb_true_iff in G. destruct G as [_ G]. rewrite forallb_forall in G. apply apart_dis, G, I. }
    assert (YU : forall b', In b' (y_blocks Yc) -> In b' (dm_used M)) by (intros b' I; apply J8 in I; destruct I; auto).
    assert (GY : grants Yc b = true).
    { unfold grants in *. cbn [y_blocks] in G. apply orb_true_iff in G. apply orb_true_iff. destruct G as [G|G]; [now left|]. right.
      apply andb_true_iff in G. apply andb_true_iff. destruct G as [G1 G2]. split; auto. rewrite forallb_forall in *. auto. }
    assert (NU : snd b <> 0 -> ~ In b (dm_used M)) by (intros Z I; apply Z, (dis_self (T := T)), (G' Z b I)).
    set (bl := if snd b =? 0 then own k else b :: own k).
    assert (BL : forall b', In b' bl <-> In b' (own k) \/ (b' = b /\ snd b <> 0)).
    { intros b'. unfold bl. destruct (N.eqb_spec (snd b) 0) as [Z|Z]; cbn [In]; intuition congruence. }
    exists (own_set own k bl). cbn [y_mem y_blocks take]. apply machine_step; auto.
    + intros j x D X. apply (store_all_out encode decode coding). intros Z. destruct (rb_blocks _ _ _ X) as (b' & Ib & Xb).
      assert (Ub : In b' (dm_used M)) by (destruct Ib; [auto|apply U; right; eauto]).
      assert (Z0 : snd b <> 0) by (intros E; cbn [snd b] in E; rewrite E in Z; lia).
      apply (G' Z0 b' Ub x). split; auto.
    + intros b'. assert (TB : In b' (if snd b =? 0 then dm_used M else b :: dm_used M) <-> In b' (dm_used M) \/ (b' = b /\ snd b <> 0)).
      { destruct (N.eqb_spec (snd b) 0) as [Z|Z]; cbn [In]; intuition congruence. }
      rewrite TB, US, BL. tauto.
    + destruct (N.eqb_spec (snd b) 0) as [Z|Z]; [exact ND|]. constructor; auto.
    + intros b' I. apply BL in I. destruct I as [I|[-> Z]]; auto.
    + intros b' I. apply BL in I. destruct I as [I|[-> Z]]; auto.
    + exists made, fs. unfold now_actions. cbn [dt_table dt_count dt_left dt_now dt_done app]. split; [exact I1|]. split; [exact I2|]. split; [exact I3|].
      exists rho, sigma, P, (take encode Yc b l), ever, c0.
      assert (TY : forall b', In b' (y_blocks (take encode Yc b l)) <-> In b' (y_blocks Yc) \/ (b' = b /\ snd b <> 0)).
      { intros b'. unfold take. cbn [y_blocks]. destruct (N.eqb_spec (snd b) 0) as [Z|Z]; cbn [In]; intuition congruence. }
      repeat (split; [assumption|]).
      split; [unfold y_count, take in *; cbn [y_log length]; lia|]. split; [intros b'; rewrite TY, BL, J8; tauto|]. split.
      { intros x X. unfold take. cbn [y_mem].
        assert (OUT : ~ in_block b x -> rb (own k) k x).
        { intros NB. destruct X as [Q|(b' & Ib & Xb)]; [now left|]. apply BL in Ib. destruct Ib as [Ib|[-> _]]; [right; eauto|contradiction]. }
        destruct (N.leb_spec (N.of_nat (fst b)) x); [destruct (N.ltb_spec x (N.of_nat (fst b) + N.of_nat (length l) * item_size))|].
        - apply (store_all_in encode decode coding M0). lia.
        - rewrite !(store_all_out encode decode coding) by lia. apply J9, OUT. unfold in_block. cbn [snd b]. lia.
        - rewrite !(store_all_out encode decode coding) by lia. apply J9, OUT. unfold in_block. lia. }
      split; [exact K1|]. split; [|split; [|split; [|split; [|split]]]].
      * rewrite K2. cbn [Flat.perform]. rewrite EB, GY. reflexivity.
      * intros a bs I. apply K3. cbn [Flat.visits]. rewrite EB, GY. exact I.
      * cbn [reaches] in K4. apply K4.
      * cbn [yields] in K5. apply K5.
      * intros b'. rewrite TY, K6. cbn [In]. split.
        -- intros [[I|[I Z]]|[-> Z]]; auto.
        -- intros [I|[[<-|I] Z]]; auto.
      * intros b' [<-|I] Z.
        -- split; [|apply BL; auto]. intros I. apply (NU Z), YU, K6. now left.
        -- destruct (K7 b' I Z). split; auto. apply BL. auto.
Qed.

Lemma turns_ok : forall sched own M, machine_ok own M ->
  match dturns encode decode code choose m M sched with
  | Goes M' => exists own', machine_ok own' M'
  | NoMemory => True
  | _ => False
  end.
Proof.
  induction sched as [|k sched IH]; intros own M OK; cbn [dturns]; [eauto|].
  pose proof (step_ok own M k OK) as S. destruct (dturn encode decode code choose m M k); auto. destruct S as [own' S]. exact (IH own' _ S).
Qed.

End FlatDropMachine.
