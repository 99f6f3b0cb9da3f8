(** * InterleaveMachine: what threads do that take turns inside of calls; lemmas for C60. *)

From Coq Require Import Lia.
From Verif Require Import Machine MachineFacts Layouts Memory MemoryFacts Matrix MatMul Spec MatrixSpec ExprSpec ProductSpec Program HistorySpec HistoryProofs.
From Verif Require Import Borrow BorrowProofs Threads ThreadProofs Interleave InterleaveProofs.
Local Open Scope N_scope.

Section Memories.
Context {T : Type}.
Notation heap := (@heap T).

(** Two memories have the same number of allocations and the same contents in [R]. *)
Definition agree (R : nat * N -> Prop) (h h' : heap) : Prop :=
  length h = length h' /\ forall q, R q -> hget h (fst q) (snd q) = hget h' (fst q) (snd q).

Lemma agree_refl : forall R h, agree R h h.
Proof. intros; split; auto. Qed.
Lemma agree_trans : forall R h1 h2 h3, agree R h1 h2 -> agree R h2 h3 -> agree R h1 h3.
Proof. intros R h1 h2 h3 [A1 A2] [B1 B2]. split; [congruence|]. intros q Hq. rewrite A2; auto. Qed.

Lemma agree_read : forall R h h' p, agree R h h' -> R (pl_alloc p, pl_index p) -> place_read h p = place_read h' p.
Proof. intros R h h' p [_ A] Hp. unfold place_read. specialize (A _ Hp). cbn [fst snd] in A. now rewrite A. Qed.

Lemma agree_write : forall R h h' p v h1, agree R h h' -> R (pl_alloc p, pl_index p) -> place_write h p v = Ok h1 ->
  exists h1', place_write h' p v = Ok h1' /\ agree R h1 h1' /\ h1 = hset h (pl_alloc p) (pl_index p) v /\
    h1' = hset h' (pl_alloc p) (pl_index p) v.
Proof.
  intros R h h' p v h1 [L A] Hp H. apply place_write_inv in H. destruct H as (-> & w & Hw).
  pose proof (A _ Hp) as E. cbn [fst snd] in E. rewrite Hw in E. symmetry in E.
  exists (hset h' (pl_alloc p) (pl_index p) v). splits; auto; [eapply place_write_ok; eauto|].
  split; [now rewrite !hset_length|]. intros [a i] Hq. cbn [fst snd].
  destruct (Nat.eq_dec (pl_alloc p) a) as [<-|N1]; [destruct (N.eq_dec (pl_index p) i) as [<-|N1]|].
  - erewrite !hget_hset_same; eauto.
  - rewrite !hget_hset_other by congruence. apply (A _ Hq).
  - rewrite !hget_hset_other by congruence. apply (A _ Hq).
Qed.

Lemma agree_write_ub : forall R h h' p v, agree R h h' -> R (pl_alloc p, pl_index p) -> place_write h p v = UB -> place_write h' p v = UB.
Proof.
  intros R h h' p v [_ A] Hp H. unfold place_write in *. specialize (A _ Hp). cbn [fst snd] in A. rewrite <- A.
  destruct (hget h (pl_alloc p) (pl_index p)); [discriminate|reflexivity].
Qed.

Lemma place_write_not_panic : forall (h : heap) p v, place_write h p v <> Panic.
Proof. intros h p v. unfold place_write. destruct (hget _ _ _); discriminate. Qed.
Lemma place_read_not_panic : forall (h : heap) p, place_read h p <> Panic.
Proof. intros h p. unfold place_read. destruct (hget _ _ _); discriminate. Qed.

Lemma hget_firstn : forall n (h : heap) a i, hget (firstn n h) a i = if (a <? n)%nat then hget h a i else None.
Proof.
  intros n h a i. unfold hget. destruct (Nat.ltb_spec a n) as [H|H].
  - replace (nth_error (firstn n h) a) with (nth_error h a); auto.
    rewrite <- (firstn_skipn n h) at 1. destruct (Nat.lt_ge_cases a (length (firstn n h))) as [L|L].
    + now rewrite nth_error_app1.
    + rewrite firstn_length in L. pose proof (firstn_all2 (n := n) h ltac:(lia)) as E.
      rewrite firstn_skipn, E. reflexivity.
  - replace (nth_error (firstn n h) a) with (@None (list T)); auto. symmetry. apply nth_error_None. rewrite firstn_length. lia.
Qed.

Lemma agree_firstn : forall R n h h', agree R h h' -> agree R (firstn n h) (firstn n h').
Proof.
  intros R n h h' [L A]. split; [rewrite !firstn_length; lia|]. intros q Hq. rewrite !hget_firstn.
  destruct (_ <? _)%nat; auto.
Qed.

Lemma agree_alloc : forall (R : nat * N -> Prop) h h' l, agree R h h' -> agree R (h ++ [l]) (h' ++ [l]).
Proof.
  intros R h h' l [L A]. split; [rewrite !app_length; lia|]. intros q Hq.
  destruct (Nat.lt_ge_cases (fst q) (length h)) as [H|H].
  - rewrite !hget_app by lia. auto.
  - unfold hget. rewrite !nth_error_app2 by lia. now rewrite L.
Qed.

Lemma firstn_hset : forall n (h : heap) a i v, (n <= a)%nat -> firstn n (hset h a i v) = firstn n h.
Proof.
  intros n h a i v H. unfold hset. destruct (nth_error h a); auto. generalize (upd l (N.to_nat i) v). clear l. intros l.
  revert a H h. induction n as [|n IH]; intros a H [|x h]; cbn; auto. destruct a; [lia|]. cbn. f_equal. apply IH. lia.
Qed.

End Memories.

Section Runs.
Context {T : Type} {SC : HScalar T} {St : Type}.

Lemma run_snoc : forall kern m (os : list (call T St)) st st1 rs o, run kern m st os = Ok (st1, rs) ->
  forall st2 r, step kern m st1 o = Ok (st2, r) -> run kern m st (os ++ [o]) = Ok (st2, rs ++ [r]).
Proof.
  intros kern m os. induction os as [|o' os IH]; intros st st1 rs o H st2 r E; cbn [run app] in *.
  - injection H as <- <-. rewrite E. reflexivity.
  - apply bind_ok in H. destruct H as ((s & r') & E1 & H). apply bind_ok in H. destruct H as ((s' & rs') & E2 & H).
    injection H as -> <-. rewrite E1. cbn [bind]. rewrite (IH _ _ _ _ E2 _ _ E). reflexivity.
Qed.

Lemma run_ub : forall kern m (os : list (call T St)) st st1 rs o os', run kern m st os = Ok (st1, rs) ->
  step kern m st1 o = UB -> run kern m st (os ++ o :: os') = UB.
Proof.
  intros kern m os. induction os as [|o' os IH]; intros st st1 rs o os' H E; cbn [run app] in *.
  - injection H as <- <-. rewrite E. reflexivity.
  - apply bind_ok in H. destruct H as ((s & r') & E1 & H). apply bind_ok in H. destruct H as ((s' & rs') & E2 & H).
    injection H as -> <-. rewrite E1. cbn [bind]. rewrite (IH _ _ _ _ os' E2 E). reflexivity.
Qed.

End Runs.

Section Machine.
Context {T : Type} {SC : HScalar T} {St : Type}.
Notation heap := (@heap T).
Variables (code : gemm_args T -> prog T unit) (kern : kernel T) (m : mode).
Variables (p : pool T) (calls : nat -> list (call T St)).

(** The cells of the start that a thread may read and write, and all new ones. *)
Variables R W : nat -> nat * N -> Prop.
Let N0 := length (p_heap p).
Hypothesis fresh : forall k q, (N0 <= fst q)%nat -> R k q /\ W k q.
Hypothesis written : forall k q, W k q -> R k q.
Hypothesis exclusive : forall j k q, j <> k -> W j q -> R k q -> (N0 <= fst q)%nat.

(** Alone, the calls of the thread do what their programs do, within [R] and [W]. *)
Fixpoint behaves (k : nat) (st : state T) (os : list (call T St)) : Prop :=
  match os with
  | [] => True
  | o :: os' =>
      step kern m st o =
      match program code m (st_mats st) o with
      | None => Ok (st, RSkipped)
      | Some c => match complete c (st_heap st) with
                  | Ok (h', (new, r)) => Ok (mkState h' (st_mats st ++ new), r)
                  | Panic => Ok (st, RPanicked)
                  | UB => UB
                  end
      end /\
      (forall c, program code m (st_mats st) o = Some c ->
         fits (length (st_heap st)) (R k) (W k) false c (fun _ _ => True)) /\
      (forall st' r, step kern m st o = Ok (st', r) -> behaves k st' os')
  end.
Hypothesis behave : forall k, behaves k (view p k) (calls k).

(** A thread in the middle: what it did is what it does alone, and its memory is that which it
    would have alone. *)
Definition thread_inv (M : machine T St) (k : nat) : Prop :=
  let t := m_thread M k in
  exists made st,
    calls k = made ++ current t ++ t_left t /\
    run kern m (view p k) made = Ok (st, t_done t) /\ st_mats st = t_table t /\
    (N0 <= length (st_heap st))%nat /\ behaves k st (current t ++ t_left t) /\
    match t_now t with
    | None => agree (R k) (memory M k) (st_heap st)
    | Some (o, n, c) =>
        exists hk c0 d,
          program code m (st_mats st) o = Some c0 /\ (N0 + n)%nat = length (st_heap st) /\
          agree (R k) (memory M k) hk /\ complete c hk = complete c0 (st_heap st) /\
          (length (st_heap st) <= length hk)%nat /\
          fits (length (st_heap st)) (R k) (W k) d c (fun _ _ => True) /\
          (d = false -> firstn (length (st_heap st)) hk = st_heap st)
    end.

Definition machine_inv (M : machine T St) : Prop := length (m_common M) = N0 /\ forall k, thread_inv M k.

Lemma launch_inv : machine_inv (launch p calls).
Proof.
  split; [reflexivity|]. intros k. exists [], (view p k). cbn. splits; auto.
  unfold memory. cbn. rewrite app_nil_r. apply agree_refl.
Qed.

(** ** Updates *)

Lemma update_memory : forall (M : machine T St) k h tb l nw dn, memory (update M k h tb l nw dn) k = h.
Proof. intros. unfold memory, update, set_thread. cbn. rewrite Nat.eqb_refl. cbn. apply firstn_skipn. Qed.

Lemma update_thread : forall (M : machine T St) k h tb l nw dn,
  m_thread (update M k h tb l nw dn) k = mkThread tb (skipn (length (m_common M)) h) l nw dn.
Proof. intros. unfold update, set_thread. cbn. now rewrite Nat.eqb_refl. Qed.

Lemma update_other : forall (M : machine T St) k h tb l nw dn j, j <> k -> m_thread (update M k h tb l nw dn) j = m_thread M j.
Proof. intros. unfold update, set_thread. cbn. destruct (Nat.eqb_spec j k); congruence. Qed.

Lemma other_agree : forall (M : machine T St) k h tb l nw dn j, j <> k -> length (m_common M) = N0 -> (N0 <= length h)%nat ->
  (forall q, (fst q < N0)%nat -> R j q -> hget h (fst q) (snd q) = hget (memory M k) (fst q) (snd q)) ->
  agree (R j) (memory (update M k h tb l nw dn) j) (memory M j).
Proof.
  intros M k h tb l nw dn j Hj L Lh H. unfold memory. rewrite update_other by auto. cbn [update m_common].
  split; [rewrite !app_length, firstn_length; lia|]. intros q Hq. rewrite L.
  destruct (Nat.lt_ge_cases (fst q) N0) as [C|C].
  - rewrite !hget_app by (rewrite ?firstn_length; lia). rewrite hget_firstn.
    destruct (Nat.ltb_spec (fst q) N0); [|lia]. rewrite H by auto. unfold memory. apply hget_app. lia.
  - unfold hget. rewrite !nth_error_app2 by (rewrite ?firstn_length; lia). rewrite firstn_length, Nat.min_l, L by lia. reflexivity.
Qed.

Lemma other_inv : forall (M : machine T St) k h tb l nw dn j, j <> k -> length (m_common M) = N0 -> (N0 <= length h)%nat ->
  (forall q, (fst q < N0)%nat -> R j q -> hget h (fst q) (snd q) = hget (memory M k) (fst q) (snd q)) ->
  thread_inv M j -> thread_inv (update M k h tb l nw dn) j.
Proof.
  intros M k h tb l nw dn j Hj L Lh H (made & st & I1 & I2 & I3 & I4 & I5 & I6).
  pose proof (other_agree M k h tb l nw dn j Hj L Lh H) as A.
  unfold thread_inv. rewrite update_other by auto. exists made, st. splits; auto.
  destruct (t_now (m_thread M j)) as [[[o n] c]|].
  - destruct I6 as (hk & c0 & d & J1 & J2 & J3 & J). exists hk, c0, d. splits; auto; try apply J. eapply agree_trans; eauto.
  - eapply agree_trans; eauto.
Qed.

Lemma update_common : forall (M : machine T St) k h tb l nw dn, length (m_common M) = N0 -> (N0 <= length h)%nat ->
  length (m_common (update M k h tb l nw dn)) = N0.
Proof. intros. cbn [update m_common]. rewrite firstn_length. lia. Qed.

Lemma memory_length : forall (M : machine T St) k, length (m_common M) = N0 -> (N0 <= length (memory M k))%nat.
Proof. intros M k L. unfold memory. rewrite app_length. lia. Qed.

(** ** Steps *)

Lemma mstep_inv : forall M k M', machine_inv M -> mstep code m M k = Ok M' -> machine_inv M'.
Proof.
  intros M k M' [L I] H. pose proof (I k) as (made & st & I1 & I2 & I3 & I4 & I5 & I6).
  pose proof (memory_length M k L) as Lm.
  assert (OTH : forall h tb l nw dn, (N0 <= length h)%nat ->
     (forall j q, j <> k -> (fst q < N0)%nat -> R j q -> hget h (fst q) (snd q) = hget (memory M k) (fst q) (snd q)) ->
     thread_inv (update M k h tb l nw dn) k -> machine_inv (update M k h tb l nw dn)).
  { intros h tb l nw dn Lh Hh Hk. split; [now apply update_common|]. intros j. destruct (Nat.eq_dec j k) as [->|Hj]; auto.
    apply other_inv; auto. intros q Q1 Q2. now apply (Hh j). }
  unfold mstep in H. cbv zeta in H. unfold current in *. remember (m_thread M k) as t eqn:Et.
  destruct (t_now t) as [[[o n] c]|] eqn:En.
  - cbn [app] in I1, I5. destruct I6 as (hk & c0 & d & J1 & J2 & J3 & J4 & J5 & J6 & J7).
    pose proof I5 as (B1 & B2 & B3). rewrite J1 in B1. rewrite <- J4 in B1.
    destruct c as [[[new r]| |]|q c'|q v c'|ls c']; cbn [complete bind] in B1; cbn [fits] in J6.
    + (* return *)
      injection H as <-. apply OTH; auto. unfold thread_inv. rewrite update_thread, update_memory. cbn [t_now t_left t_done t_table].
      exists (made ++ [o]), (mkState hk (st_mats st ++ new)). cbn [current t_now app st_mats st_heap]. splits; auto.
      * rewrite <- app_assoc. exact I1.
      * eapply run_snoc; eauto.
      * now rewrite I3.
      * lia.
      * eapply B3; eauto.
    + (* panic *)
      injection H as <-. specialize (J7 J6). cbn [bind complete] in B1.
      assert (Fl : (N0 <= length (firstn (length (m_common M) + n) (memory M k)))%nat) by (rewrite firstn_length; lia).
      apply OTH; auto.
      * intros j q _ Hq _. rewrite hget_firstn. rewrite L. destruct (Nat.ltb_spec (fst q) (N0 + n)); auto; lia.
      * unfold thread_inv. rewrite update_thread, update_memory. cbn [t_now t_left t_done t_table].
        exists (made ++ [o]), st. cbn [current t_now app]. splits; auto.
        -- rewrite <- app_assoc. exact I1.
        -- eapply run_snoc; eauto.
        -- eapply B3; eauto.
        -- rewrite L, J2. rewrite <- J7 at 2. now apply agree_firstn.
    + discriminate H.
    + (* load *)
      destruct J6 as [F1 F2]. rewrite (agree_read _ _ _ _ J3 F1) in H. cbn [complete] in J4.
      destruct (place_read hk q) as [v| |]; cbn [bind] in *; try discriminate H. injection H as <-. apply OTH; auto.
      unfold thread_inv. rewrite update_thread, update_memory. cbn [t_now t_left t_done t_table].
      exists made, st. cbn [current t_now app]. refine (conj I1 (conj I2 (conj I3 (conj I4 (conj I5 _))))).
      exists hk, c0, d. splits; auto.
    + (* store *)
      destruct J6 as [F1 F2]. destruct (place_write (memory M k) q v) as [h1| |] eqn:Ew; cbn [bind] in H; try discriminate H.
      injection H as <-. destruct (agree_write _ _ _ _ _ _ J3 (written _ _ F1) Ew) as (h1' & Ew' & A & -> & ->).
      cbn [complete] in J4. rewrite Ew' in J4, B1. cbn [bind] in J4, B1.
      apply OTH.
      * rewrite hset_length. exact Lm.
      * intros j c Hj Hc Rc. apply hget_hset_other. intros E.
        assert (Ec : c = (pl_alloc q, pl_index q)) by (rewrite E; now destruct c). subst c.
        pose proof (exclusive k j _ (not_eq_sym Hj) F1 Rc). cbn [fst] in *. lia.
      * unfold thread_inv. rewrite update_thread, update_memory. cbn [t_now t_left t_done t_table].
        exists made, st. cbn [current t_now app]. refine (conj I1 (conj I2 (conj I3 (conj I4 (conj I5 _))))).
        eexists _, c0, _. splits; eauto.
        -- rewrite hset_length. exact J5.
        -- intros Hd. apply Bool.orb_false_elim in Hd. destruct Hd as [-> Hd]. apply Nat.ltb_ge in Hd. rewrite firstn_hset by exact Hd. auto.
    + (* allocation *)
      cbn [alloc] in H. injection H as <-. cbn [complete alloc] in J4, B1.
      assert (El : length (memory M k) = length hk) by apply J3.
      apply OTH.
      * rewrite app_length. lia.
      * intros j c _ Hc _. apply hget_app. lia.
      * unfold thread_inv. rewrite update_thread, update_memory. cbn [t_now t_left t_done t_table].
        exists made, st. cbn [current t_now app]. refine (conj I1 (conj I2 (conj I3 (conj I4 (conj I5 _))))).
        exists (hk ++ [ls]), c0, d. splits; auto.
        -- now apply agree_alloc.
        -- rewrite El. exact J4.
        -- rewrite app_length. lia.
        -- apply J6. cbn [r_alloc]. lia.
        -- intros Hd. rewrite firstn_app. replace (length (st_heap st) - length hk)%nat with 0%nat by lia. cbn [firstn].
           rewrite app_nil_r. auto.
  - cbn [app] in I1, I5. destruct (t_left t) as [|o rest] eqn:El.
    + injection H as <-. split; auto.
    + pose proof I5 as (B1 & B2 & B3). rewrite <- I3 in H. destruct (program code m (st_mats st) o) as [c|] eqn:Ep; injection H as <-; (apply OTH; auto);
        unfold thread_inv; rewrite update_thread, update_memory; cbn [t_now t_left t_done t_table].
      * exists made, st. cbn [current t_now app]. refine (conj I1 (conj I2 (conj eq_refl (conj I4 (conj I5 _))))).
        exists (st_heap st), c, false. splits; auto.
        -- pose proof (proj1 I6) as E. unfold memory in E. rewrite app_length, L, <- Et in E. exact E.
        -- intros _. apply firstn_all.
      * exists (made ++ [o]), st. cbn [current t_now app]. splits; auto.
        -- rewrite <- app_assoc. exact I1.
        -- eapply run_snoc; eauto.
        -- eapply B3; eauto.
Qed.

Lemma mstep_ub : forall M k, machine_inv M -> mstep code m M k = UB -> run kern m (view p k) (calls k) = UB.
Proof.
  intros M k [L I] H. pose proof (I k) as (made & st & I1 & I2 & I3 & I4 & I5 & I6).
  unfold mstep in H. cbv zeta in H. unfold current in *. remember (m_thread M k) as t eqn:Et.
  destruct (t_now t) as [[[o n] c]|] eqn:En.
  - cbn [app] in I1, I5. destruct I6 as (hk & c0 & d & J1 & J2 & J3 & J4 & J5 & J6 & J7).
    destruct I5 as (B1 & B2 & B3). rewrite J1 in B1. rewrite <- J4 in B1. rewrite I1.
    destruct c as [[[new r]| |]|q c'|q v c'|ls c']; cbn [complete bind] in B1; cbn [fits] in J6; try discriminate H.
    + eapply run_ub; eauto.
    + destruct J6 as [F1 F2]. rewrite (agree_read _ _ _ _ J3 F1) in H.
      destruct (place_read hk q) as [v| |] eqn:E; cbn [bind] in *; try discriminate H. eapply run_ub; eauto.
    + destruct J6 as [F1 F2]. destruct (place_write (memory M k) q v) as [h1| |] eqn:Ew; cbn [bind] in H; try discriminate H.
      apply (agree_write_ub _ _ _ _ _ J3 (written _ _ F1)) in Ew. rewrite Ew in B1. eapply run_ub; eauto.
  - destruct (t_left t) as [|o rest]; [discriminate H|]. destruct (program code m (t_table t) o); discriminate H.
Qed.

Lemma mstep_not_panic : forall (M : machine T St) k, mstep code m M k <> Panic.
Proof.
  intros M k H. unfold mstep in H. cbv zeta in H. destruct (t_now (m_thread M k)) as [[[o n] c]|].
  - destruct c as [[[new r]| |]|q c'|q v c'|ls c']; try discriminate H.
    + destruct (place_read (memory M k) q) eqn:E; cbn [bind] in H; try discriminate H. now apply place_read_not_panic in E.
    + destruct (place_write (memory M k) q v) eqn:E; cbn [bind] in H; try discriminate H. now apply place_write_not_panic in E.
  - destruct (t_left (m_thread M k)) as [|o rest]; [discriminate H|]. destruct (program code m _ o); discriminate H.
Qed.

Lemma mrun_inv : forall sched M M', machine_inv M -> mrun code m M sched = Ok M' -> machine_inv M'.
Proof.
  intros sched. induction sched as [|k sched IH]; intros M M' HM H; cbn [mrun] in H.
  - now injection H as <-.
  - apply bind_ok in H. destruct H as (M1 & E & H). eauto using mstep_inv.
Qed.

Lemma mrun_ub : forall sched M, machine_inv M -> mrun code m M sched = UB -> exists k, In k sched /\ run kern m (view p k) (calls k) = UB.
Proof.
  intros sched. induction sched as [|k sched IH]; intros M HM H; cbn [mrun] in H; [discriminate H|].
  destruct (mstep code m M k) as [M1| |] eqn:E; cbn [bind] in H; try discriminate H.
  - destruct (IH M1) as (j & J1 & J2); eauto using mstep_inv. exists j. split; auto. now right.
  - exists k. split; [now left|]. eapply mstep_ub; eauto.
Qed.

Lemma mrun_not_panic : forall sched (M : machine T St), mrun code m M sched <> Panic.
Proof.
  intros sched. induction sched as [|k sched IH]; intros M H; cbn [mrun] in H; [discriminate H|].
  destruct (mstep code m M k) as [M1| |] eqn:E; cbn [bind] in H; try discriminate H.
  - eapply IH; eauto.
  - now apply mstep_not_panic in E.
Qed.

(** ** Races *)

Lemma access_fits : forall M k a i w, machine_inv M -> next_access (m_thread M k) = Some (a, i, w) ->
  R k (a, i) /\ (w = true -> W k (a, i)).
Proof.
  intros M k a i w [_ I] H. destruct (I k) as (made & st & _ & _ & _ & _ & _ & I6). unfold next_access in H.
  destruct (t_now (m_thread M k)) as [[[o n] c]|]; [|discriminate H].
  destruct I6 as (hk & c0 & d & _ & _ & _ & _ & _ & J6 & _). destruct c as [x|q c'|q v c'|ls c']; try discriminate H;
    injection H as <- <- <-; cbn [fits] in J6; destruct J6 as [F _]; split; auto. discriminate.
Qed.

Lemma no_race : forall M, machine_inv M -> ~ race M.
Proof.
  intros M HM (j & k & a & i & w & w' & Hjk & Ha & Hj & Hk & Hw).
  pose proof (access_fits _ _ _ _ _ HM Hj) as [J1 J2]. pose proof (access_fits _ _ _ _ _ HM Hk) as [K1 K2].
  destruct HM as [L _]. destruct Hw as [Hw|Hw].
  - pose proof (exclusive j k _ Hjk (J2 Hw) K1). cbn [fst] in *. lia.
  - pose proof (exclusive k j _ (not_eq_sym Hjk) (K2 Hw) J1). cbn [fst] in *. lia.
Qed.

(** ** Progress *)

Lemma mrun_app : forall s1 s2 (M : machine T St), mrun code m M (s1 ++ s2) = (M' <- mrun code m M s1 ;; mrun code m M' s2).
Proof.
  intros s1. induction s1 as [|k s1 IH]; intros s2 M; cbn [mrun app bind]; auto.
  destruct (mstep code m M k); cbn [bind]; auto.
Qed.

Lemma call_ends : forall k c (M : machine T St) o n, t_now (m_thread M k) = Some (o, n, c) ->
  exists j, mrun code m M (repeat k j) = UB \/
    exists M', mrun code m M (repeat k j) = Ok M' /\ t_now (m_thread M' k) = None /\ t_left (m_thread M' k) = t_left (m_thread M k).
Proof.
  intros k c. induction c as [[[new r]| |]|q c IH|q v c IH|ls c IH]; intros M o n H.
  - exists 1%nat. right. cbn [repeat mrun]. unfold mstep. cbv zeta. rewrite H. cbn [bind]. eexists. split; [reflexivity|].
    rewrite update_thread. auto.
  - exists 1%nat. right. cbn [repeat mrun]. unfold mstep. cbv zeta. rewrite H. cbn [bind]. eexists. split; [reflexivity|].
    rewrite update_thread. auto.
  - exists 1%nat. left. cbn [repeat mrun]. unfold mstep. cbv zeta. rewrite H. reflexivity.
  - destruct (place_read (memory M k) q) as [v| |] eqn:E.
    + specialize (IH v (update M k (memory M k) (t_table (m_thread M k)) (t_left (m_thread M k)) (Some (o, n, c v)) (t_done (m_thread M k))) o n).
      rewrite update_thread in IH. destruct (IH eq_refl) as (j & Hj). exists (S j). cbn [repeat mrun]. unfold mstep. cbv zeta. rewrite H, E. cbn [bind].
      exact Hj.
    + now apply place_read_not_panic in E.
    + exists 1%nat. left. cbn [repeat mrun]. unfold mstep. cbv zeta. rewrite H, E. reflexivity.
  - destruct (place_write (memory M k) q v) as [h1| |] eqn:E.
    + specialize (IH (update M k h1 (t_table (m_thread M k)) (t_left (m_thread M k)) (Some (o, n, c)) (t_done (m_thread M k))) o n).
      rewrite update_thread in IH. destruct (IH eq_refl) as (j & Hj). exists (S j). cbn [repeat mrun]. unfold mstep. cbv zeta. rewrite H, E. cbn [bind].
      exact Hj.
    + now apply place_write_not_panic in E.
    + exists 1%nat. left. cbn [repeat mrun]. unfold mstep. cbv zeta. rewrite H, E. reflexivity.
  - destruct (alloc (memory M k) ls) as [h1 r] eqn:E.
    specialize (IH r (update M k h1 (t_table (m_thread M k)) (t_left (m_thread M k)) (Some (o, n, c r)) (t_done (m_thread M k))) o n).
    rewrite update_thread in IH. destruct (IH eq_refl) as (j & Hj). exists (S j). cbn [repeat mrun]. unfold mstep. cbv zeta. rewrite H, E. cbn [bind].
    exact Hj.
Qed.

Lemma thread_ends : forall k left (M : machine T St), t_now (m_thread M k) = None -> t_left (m_thread M k) = left ->
  exists j, mrun code m M (repeat k j) = UB \/ exists M', mrun code m M (repeat k j) = Ok M' /\ finished (m_thread M' k).
Proof.
  intros k rest. induction rest as [|o rest IH]; intros M Hn Hl.
  - exists 0%nat. right. exists M. cbn. splits; auto. split; auto.
  - assert (E : exists M1, mstep code m M k = Ok M1 /\ t_left (m_thread M1 k) = rest /\
       (t_now (m_thread M1 k) = None \/ exists n c, t_now (m_thread M1 k) = Some (o, n, c))).
    { unfold mstep. cbv zeta. rewrite Hn, Hl. destruct (program code m (t_table (m_thread M k)) o) as [c|];
        (eexists; split; [reflexivity|]); rewrite update_thread; cbn; eauto. }
    destruct E as (M1 & E & L1 & [N1|(n & c & N1)]).
    + destruct (IH M1 N1 L1) as (j & Hj). exists (S j). cbn [repeat mrun]. rewrite E. cbn [bind]. exact Hj.
    + destruct (call_ends k c M1 o n N1) as (j & [U|(M2 & E2 & N2 & L2)]).
      * exists (S j). left. cbn [repeat mrun]. rewrite E. exact U.
      * destruct (IH M2 N2) as (j2 & Hj); [congruence|]. exists (S (j + j2))%nat. cbn [repeat mrun]. rewrite E. cbn [bind].
        rewrite repeat_app, mrun_app, E2. cbn [bind]. exact Hj.
Qed.

Lemma finishes : forall M k, machine_inv M -> (exists x, run kern m (view p k) (calls k) = Ok x) ->
  exists j M', mrun code m M (repeat k j) = Ok M' /\ finished (m_thread M' k).
Proof.
  intros M k HM (x & Hx).
  assert (U : forall j M, machine_inv M -> mrun code m M (repeat k j) <> UB).
  { intros j M0 HM0 E. apply mrun_ub in E; auto. destruct E as (i & Hi & E). apply repeat_spec in Hi. subst i. congruence. }
  destruct (t_now (m_thread M k)) as [[[o n] c]|] eqn:En.
  - destruct (call_ends k c M o n En) as (j & [E|(M1 & E1 & N1 & L1)]); [now apply U in E|].
    destruct (thread_ends k _ M1 N1 L1) as (j2 & [E|(M2 & E2 & F)]).
    + apply U in E; [destruct E|]. eapply mrun_inv; eauto.
    + exists (j + j2)%nat, M2. rewrite repeat_app, mrun_app, E1. cbn [bind]. auto.
  - destruct (thread_ends k _ M En eq_refl) as (j & [E|(M1 & E1 & F)]); [now apply U in E|]. eauto.
Qed.

End Machine.

Section Containers.
Context {T : Type} {SC : HScalar T} {St : Type}.
Variables (code : gemm_args T -> prog T unit) (kern : kernel T) (m : mode).
Hypothesis impl : implements code kern.
Variables (p : pool T) (calls : nat -> list (call T St)).
Hypothesis inside : in_memory p.
Hypothesis disjoint : Threads.apart p.
Hypothesis plain : forall k, plain_history kern m (view p k) (calls k).

Definition may_read (k : nat) (q : nat * N) : Prop := (length (p_heap p) <= fst q)%nat \/ held (p_tabs p k) q.
Definition may_write (k : nat) (q : nat * N) : Prop :=
  (length (p_heap p) <= fst q)%nat \/ exists x, In x (p_tabs p k) /\ is_writable x = true /\ occupies x q.

Lemma may_fresh : forall k q, (length (p_heap p) <= fst q)%nat -> may_read k q /\ may_write k q.
Proof. intros k q H. split; now left. Qed.
Lemma may_written : forall k q, may_write k q -> may_read k q.
Proof. intros k q [H|(x & X1 & X2 & X3)]; [now left|]. right. exists x. auto. Qed.
Lemma may_exclusive : forall j k q, j <> k -> may_write j q -> may_read k q -> (length (p_heap p) <= fst q)%nat.
Proof.
  intros j k q H [C|(x & X1 & X2 & X3)] [D|(y & Y1 & Y2)]; auto. destruct (disjoint j k x y q); auto.
Qed.

Lemma containers_behave : forall k (os : list (call T St)) (st : state T), all_placed st -> (length (p_heap p) <= length (st_heap st))%nat ->
  (forall x, In x (st_mats st) -> covered (may_read k) x) ->
  (forall x, In x (st_mats st) -> is_writable x = true -> covered (may_write k) x) ->
  plain_history kern m st os -> behaves code kern m may_read may_write k st os.
Proof.
  intros k os. induction os as [|o os IH]; intros st Hp Hl HR HW Hc; cbn [behaves]; auto.
  destruct Hc as [Hc Hn]. split; [now apply step_program|]. split.
  - intros c Ec. eapply fits_program; eauto.
    + intros q Hq. apply may_fresh. lia.
    + apply may_written.
  - intros st' r E. destruct (step_effect _ _ _ _ _ _ Hp E) as (Ht & _ & Hp').
    assert (Ll : (length (st_heap st) <= length (st_heap st'))%nat) by (apply extends_length, Ht).
    destruct (step_news _ _ _ _ _ _ E) as (new & En & Fn). rewrite Forall_forall in Fn.
    apply IH; eauto; [lia| |]; rewrite En; intros x Hx; apply in_app_or in Hx; destruct Hx as [Hx|Hx]; auto.
    + intros q Hq. destruct (Fn x Hx) as [F|[F _]].
      * left. specialize (F q Hq). lia.
      * destruct (F q Hq) as (w & W1 & W2). now apply (HR w W1).
    + intros Wx q Hq. destruct (Fn x Hx) as [F|[_ F]].
      * left. specialize (F q Hq). lia.
      * destruct (F Wx) as (w & W1 & W2 & W3). apply (HW w W1 W2). auto.
Qed.

Lemma start_behaves : forall k, behaves code kern m may_read may_write k (view p k) (calls k).
Proof.
  intros k. apply containers_behave; auto.
  - unfold all_placed. rewrite Forall_forall. intros x Hx a Ha. apply (inside k x a); auto.
  - intros x Hx q Hq. right. exists x. auto.
  - intros x Hx Wx q Hq. right. exists x. auto.
Qed.

End Containers.

Section Theorems.
Ltac side := first [now apply may_fresh | now apply may_written | now apply may_exclusive | now apply start_behaves | now apply launch_inv, start_behaves].
Context {T : Type} {SC : HScalar T} {St : Type}.

Lemma c60_sequential : forall (code : gemm_args T -> prog T unit) kern m (st : state T) (o : call T St), implements code kern ->
  (forall x a, In x (st_mats st) -> lives_in a x -> (a < length (st_heap st))%nat) -> plain_call st o ->
  step kern m st o =
  match program code m (st_mats st) o with
  | None => Ok (st, RSkipped)
  | Some c => match complete c (st_heap st) with
              | Ok (h', (new, r)) => Ok (mkState h' (st_mats st ++ new), r)
              | Panic => Ok (st, RPanicked)
              | UB => UB
              end
  end.
Proof.
  intros code kern m st o impl Hp Hc. apply step_program; auto. unfold all_placed. rewrite Forall_forall.
  intros x Hx a Ha. eauto.
Qed.

Lemma c60_inv : forall (code : gemm_args T -> prog T unit) kern m p (calls : nat -> list (call T St)) sched M,
  implements code kern -> in_memory p -> Threads.apart p -> (forall k, plain_history kern m (view p k) (calls k)) ->
  mrun code m (launch p calls) sched = Ok M ->
  machine_inv code kern m p calls (may_read p) (may_write p) M.
Proof.
  intros code kern m p calls sched M impl Hm Ha Hc H. eapply mrun_inv; [..|exact H]; side.
Qed.

(** Two memories that agree on the cells of a matrix. *)
Lemma agree_same : forall (h h' : @heap T) (x : matrix T),
  (forall q, occupies x q -> hget h' (fst q) (snd q) = hget h (fst q) (snd q)) -> same_matrix h x h' x.
Proof. intros h h' x H. unfold same_matrix. splits; auto. intros m. now apply reads_occupied. Qed.

(** The matrices of a thread stay in its cells. *)
Lemma table_covered : forall kern m p k (os : list (call T St)) (st : state T) rs, in_memory p ->
  run kern m (view p k) os = Ok (st, rs) -> forall x, In x (st_mats st) -> covered (may_read p k) x.
Proof.
  intros kern m p k os.
  assert (A : forall (os : list (call T St)) (st st' : state T) rs, all_placed st -> (length (p_heap p) <= length (st_heap st))%nat ->
     (forall x, In x (st_mats st) -> covered (may_read p k) x) -> run kern m st os = Ok (st', rs) ->
     forall x, In x (st_mats st') -> covered (may_read p k) x).
  { clear os. intros os. induction os as [|o os IH]; intros st st' rs Hp Hl HR H; cbn [run] in H.
    - now injection H as <- <-.
    - apply bind_ok in H. destruct H as ((st1 & r1) & E & H). apply bind_ok in H. destruct H as ((st2 & rs2) & E2 & H). injection H as <- <-.
      destruct (step_effect _ _ _ _ _ _ Hp E) as (Ht & _ & Hp').
      assert (Ll : (length (st_heap st) <= length (st_heap st1))%nat) by (apply extends_length, Ht).
      destruct (step_news _ _ _ _ _ _ E) as (new & En & Fn). rewrite Forall_forall in Fn.
      eapply IH; [..|exact E2]; auto; [lia|]. rewrite En; intros x Hx; apply in_app_or in Hx; destruct Hx as [Hx|Hx]; auto.
      intros q Hq. destruct (Fn x Hx) as [F|[F _]].
      + left. specialize (F q Hq). lia.
      + destruct (F q Hq) as (w & W1 & W2). now apply (HR w W1). }
  intros st rs Hm H. eapply A; [..|exact H].
  - unfold all_placed. rewrite Forall_forall. intros x Hx a Ha. apply (Hm k x a); auto.
  - auto.
  - intros x Hx q Hq. right. exists x. auto.
Qed.

Lemma c60_alone : forall (code : gemm_args T -> prog T unit) kern m p (calls : nat -> list (call T St)) sched M,
  implements code kern -> in_memory p -> Threads.apart p -> (forall k, plain_history kern m (view p k) (calls k)) ->
  mrun code m (launch p calls) sched = Ok M ->
  forall k, exists made st,
    calls k = made ++ current (m_thread M k) ++ t_left (m_thread M k) /\
    run kern m (view p k) made = Ok (st, t_done (m_thread M k)) /\
    t_table (m_thread M k) = st_mats st /\
    (idle (m_thread M k) -> forall x, In x (st_mats st) -> same_matrix (st_heap st) x (memory M k) x).
Proof.
  intros code kern m p calls sched M impl Hm Ha Hc H k.
  destruct (c60_inv _ _ _ _ _ _ _ impl Hm Ha Hc H) as [_ I]. destruct (I k) as (made & st & I1 & I2 & I3 & I4 & I5 & I6).
  exists made, st. splits; auto. intros Hi x Hx. unfold idle in Hi. rewrite Hi in I6. apply agree_same. intros q Hq.
  apply (proj2 I6). eapply table_covered; eauto.
Qed.

Lemma c60_ub : forall (code : gemm_args T -> prog T unit) kern m p (calls : nat -> list (call T St)) sched,
  implements code kern -> in_memory p -> Threads.apart p -> (forall k, plain_history kern m (view p k) (calls k)) ->
  (forall k, exists x, run kern m (view p k) (calls k) = Ok x) ->
  exists M, mrun code m (launch p calls) sched = Ok M.
Proof.
  intros code kern m p calls sched impl Hm Ha Hc Hr.
  destruct (mrun code m (launch p calls) sched) as [M| |] eqn:E; [eauto| |].
  - now apply mrun_not_panic in E.
  - apply (mrun_ub code kern m p calls (may_read p) (may_write p)) in E; [destruct E as (k & _ & E); destruct (Hr k); congruence|..]; side.
Qed.

Lemma c60_races : forall (code : gemm_args T -> prog T unit) kern m p (calls : nat -> list (call T St)) sched M,
  implements code kern -> in_memory p -> Threads.apart p -> (forall k, plain_history kern m (view p k) (calls k)) ->
  mrun code m (launch p calls) sched = Ok M -> ~ race M.
Proof.
  intros code kern m p calls sched M impl Hm Ha Hc H.
  eapply no_race; [..|exact (c60_inv _ _ _ _ _ _ _ impl Hm Ha Hc H)].
  all: side.
Qed.

Lemma c60_finishes : forall (code : gemm_args T -> prog T unit) kern m p (calls : nat -> list (call T St)) sched M k,
  implements code kern -> in_memory p -> Threads.apart p -> (forall k, plain_history kern m (view p k) (calls k)) ->
  mrun code m (launch p calls) sched = Ok M -> (exists x, run kern m (view p k) (calls k) = Ok x) ->
  exists n M', mrun code m M (repeat k n) = Ok M' /\ finished (m_thread M' k).
Proof.
  intros code kern m p calls sched M k impl Hm Ha Hc H Hr.
  eapply finishes; [..|exact (c60_inv _ _ _ _ _ _ _ impl Hm Ha Hc H)|exact Hr].
  all: side.
Qed.

End Theorems.
