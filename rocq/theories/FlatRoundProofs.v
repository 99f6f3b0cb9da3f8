(** * FlatRoundProofs: proofs about programs with rounds of threads (C80). *)

From Coq Require Import Lia ZifyBool ZifyNat ZifyN.
From Verif Require Import Machine MachineFacts Layouts Memory MemoryFacts Matrix MatMul Spec MatrixSpec ExprSpec ProductSpec.
From Verif Require Import Program HistorySpec HistoryProofs Borrow Dealloc DeallocProofs Threads ThreadProofs Interleave.
From Verif Require Import Flat FlatProofs FlatHistory FlatThreads FlatDrops FlatPrograms FlatScopes FlatScopeProofs FlatJoins FlatJoinProofs FlatRounds.
Local Open Scope N_scope.

Lemma list_ext : forall (A : Type) (l l' : list A), (forall i, nth_error l i = nth_error l' i) -> l = l'.
Proof.
  intros A l. induction l as [|x l IH]; intros [|y l'] H; [reflexivity|discriminate (H 0%nat)|discriminate (H 0%nat)|].
  pose proof (H 0%nat) as H0. injection H0 as ->. f_equal. apply IH. intros i. exact (H (S i)).
Qed.
Lemma heap_ext : forall (T : Type) (h h' : @heap T), same_sizes h h' -> (forall a i, hget h a i = hget h' a i) -> h = h'.
Proof.
  intros T h h' Z H. apply list_ext. intros a. specialize (Z a). destruct (nth_error h a) as [l|] eqn:E, (nth_error h' a) as [l'|] eqn:E'; try discriminate; [|reflexivity].
  f_equal. apply list_ext. intros i. specialize (H a (N.of_nat i)). unfold hget in H. rewrite E, E', Nat2N.id in H. exact H.
Qed.
Lemma hget_sizes : forall (T : Type) (h h' : @heap T), same_sizes h h' -> forall a i, hget h a i = None <-> hget h' a i = None.
Proof.
  intros T h h' Z a i. specialize (Z a). unfold hget. destruct (nth_error h a) as [l|], (nth_error h' a) as [l'|]; try discriminate; [|tauto].
  injection Z as Z. rewrite !nth_error_None. lia.
Qed.

Section Rounds.
Context {T : Type} {SC : HScalar T} {St : Type} {B : Type}.
Variable encode : T -> list B.
Variable decode : list B -> T.
Hypothesis coding : faithful encode decode.
Variable kern : kernel T.
Variable code : gemm_args T -> prog T unit.
Hypothesis impl : implements code kern.
Variable m : mode.

Lemma found_look : forall (gs : fstate T) place (M : dmachine T St B) h, found decode gs place M h ->
  h = look_heap decode (dm_mem M) place 0 (st_heap (b_state (f_state gs))).
Proof.
  intros gs place M h [Z F]. pose proof (look_sizes decode (dm_mem M) place (st_heap (b_state (f_state gs)))) as L. apply heap_ext.
  - intros a. rewrite (L a). symmetry. apply Z.
  - intros a i. rewrite hget_look. destruct (hget h a i) as [v|] eqn:E.
    + destruct (hget (st_heap (b_state (f_state gs))) a i) eqn:E0; [|apply (hget_sizes _ _ _ Z) in E0; congruence]. cbn [option_map]. f_equal. symmetry. now apply F.
    + apply (hget_sizes _ _ _ Z) in E. now rewrite E.
Qed.
Lemma look_found : forall (gs : fstate T) place (M : dmachine T St B),
  found decode gs place M (look_heap decode (dm_mem M) place 0 (st_heap (b_state (f_state gs)))).
Proof.
  intros gs place M. split; [apply look_sizes|]. intros a i v E. rewrite hget_look in E. destruct (hget _ a i); [now injection E|discriminate].
Qed.

Lemma rechoose : forall choose choose2 rho sigma (fs : fstate T) (P : process T B), FlatHistory.related decode choose rho sigma fs P ->
  exists rho', FlatHistory.related decode choose2 rho' sigma fs P.
Proof.
  intros choose choose2 rho sigma fs P [R1 R2 R3 R4 R5 R6 R7 R8]. set (n := length (st_heap (b_state (f_state fs)))).
  set (rho' := fun a => if (a <? n)%nat then rho a else choose2 (y_count (pr_bytes P) + (a - n))%nat).
  assert (RE : forall a, (a < n)%nat -> rho' a = rho a) by (intros a L; unfold rho'; destruct (Nat.ltb_spec a n); [auto|lia]).
  assert (RL : forall a l, nth_error (st_heap (b_state (f_state fs))) a = Some l -> rho' a = rho a) by (intros a l E; apply RE, nth_error_Some; congruence).
  exists rho'. constructor; auto.
  - rewrite R1. symmetry. apply (map_move_ext rho rho' (st_heap (b_state (f_state fs)))); [exact R5|exact RE].
  - destruct R4 as [Q1 Q2 Q3 Q4 Q5 Q6]. constructor; auto.
    + intros a i v V. pose proof (hget_inv choose (y_mem (pr_bytes P)) _ _ _ _ V) as (l & X & _). rewrite (RL a l X). now apply Q1.
    + intros b. rewrite Q2. split; intros (a & l & X1 & X2 & ->); exists a, l; rewrite (RL a l X1); auto.
    + intros a a' l l' X X' NE NE' D. rewrite (RL a l X), (RL a' l' X'). now apply Q3.
    + intros j. fold n. unfold rho'. destruct (Nat.ltb_spec (n + j) n); [lia|]. f_equal. lia.
Qed.

Record ready (fs : fstate T) (P : process T B) : Prop := {
  rd_good : exists bs, good m fs bs;
  rd_related : forall choose, exists rho sigma, FlatHistory.related decode choose rho sigma fs P;
  rd_fine : fine P
}.

Lemma goes_next : forall (fs : fstate T) bs (acts : list (faction T St)), good m fs bs -> goes_on kern m fs acts -> next_safe kern m fs acts.
Proof.
  intros fs bs acts G [A1 A2 A3 A4]. constructor; auto. exists bs. split; [exact G|]. destruct A3 as [A3|A3]; [now left|right].
  specialize (A3 (st_heap (b_state bs))). rewrite (r_mats _ _ (v_rel _ _ (g_finv _ _ _ G))) in A3. now destruct (b_state bs).
Qed.

Lemma ready_goes : forall fs P choose (acts : list (faction T St)), ready fs P -> goes_on kern m fs acts ->
  exists fs' rs, frun kern m fs acts = Some (Ok (fs', rs)) /\
    (process_run encode decode code choose m P acts = NoMemory \/
     exists P', process_run encode decode code choose m P acts = Goes (P', rs) /\ ready fs' P').
Proof.
  intros fs P choose acts [(bs & G) RR F] A. pose proof (goes_next fs bs acts G A) as N.
  destruct (next_runs kern m fs acts N) as (fs' & rs & E). exists fs', rs. split; [exact E|].
  destruct (RR choose) as (rho & sigma & REL).
  pose proof (sim_frun encode decode coding choose kern code impl m acts _ _ _ _ REL F (next_plain kern m fs acts N)) as S. rewrite E in S.
  destruct S as [S|(rho' & sigma' & P' & S & REL' & F' & _)]; [now left|right]. exists P'. split; [exact S|]. constructor; [|intros c; destruct (rechoose _ c _ _ _ _ REL'); eauto|exact F'].
  destruct N as [N1 N2 (bs0 & G0 & N3) _]. destruct (good_run kern m acts fs bs0 _ G0 N1 N2 N3 E) as (f0 & r0 & bs' & X & G'). injection X as <- <-. eauto.
Qed.

Lemma ready_joins : forall fs P choose' place who owner (progs : nat -> list (faction T St)) xs gs sched M h, ready fs P ->
  launches kern m fs who owner progs -> gives_back kern m fs who owner progs xs gs -> holds decode place fs P ->
  dturns encode decode code choose' m (started fs P place who progs) sched = Goes M -> all_ended M ->
  found decode gs place M h -> ready (with_items gs h) (waited gs P M).
Proof.
  intros fs P choose' place who owner progs xs gs sched M h [(bs & G) RR F] [L1 L2 L3] [(rsd & G1) G2 G3] HO E D FD. apply found_look in FD. subst h.
  destruct (RR (fun _ => 0%nat)) as (rho & sigma & REL).
  destruct (start_from T SC B decode _ m fs bs rho sigma P place who G REL HO L1) as (LO & IM & AP).
  pose proof (c79_related encode decode coding kern code impl _ choose' m fs bs rho sigma P who owner progs G REL L1 L2 (fun k => goes_next fs bs _ G (L3 k)) place LO IM AP
    xs gs rsd G1 G2 G3 sched M) as C.
  constructor.
  - destruct (good_moved kern m fs bs G xs gs rsd G1) as (bs1 & GM).
    destruct (good_items m gs bs1 _ GM (look_sizes decode (dm_mem M) place (st_heap (b_state (f_state gs))))) as (hb & GB). eauto.
  - intros c. destruct (C c E D (holds_table _ _ _ _ HO)) as (rho' & sigma' & R & _). eauto.
  - destruct (C (fun _ => 0%nat) E D (holds_table _ _ _ _ HO)) as (_ & _ & _ & R). exact R.
Qed.

Lemma rounds_ready : forall fs P, rounds (St := St) encode decode kern code m fs P -> ready fs P.
Proof.
  intros fs P R. induction R as [M0|fs P choose acts fs' rs P' rs' R IH A E1 E2|].
  - constructor; [eexists; apply good_initial|intros c; eexists _, _; apply begin_related|intros b []].
  - destruct (ready_goes fs P choose acts IH A) as (fs0 & rs0 & X & [Y|(P0 & Y & Z)]); [congruence|]. rewrite E1 in X. injection X as <- <-. rewrite E2 in Y. now injection Y as <- _.
  - eapply ready_joins; eauto.
Qed.

Lemma ready_holds : forall fs P, ready fs P -> exists place, holds decode place fs P.
Proof. intros fs P [_ RR _]. destruct (RR (fun _ => 0%nat)) as (rho & sigma & REL). exists rho. eapply related_holds; eauto. Qed.

Lemma c80_alone : forall fs P, rounds (St := St) encode decode kern code m fs P -> (exists place, holds decode place fs P) /\
  forall choose (acts : list (faction T St)), goes_on kern m fs acts -> exists fs' rs, frun kern m fs acts = Some (Ok (fs', rs)) /\
    (process_run encode decode code choose m P acts = NoMemory \/
     exists P' place, process_run encode decode code choose m P acts = Goes (P', rs) /\ holds decode place fs' P').
Proof.
  intros fs P R. apply rounds_ready in R. split; [now apply ready_holds|]. intros choose acts A.
  destruct (ready_goes fs P choose acts R A) as (fs' & rs & E & [X|(P' & X & R')]); exists fs', rs; (split; [exact E|]); [now left|right].
  destruct (ready_holds fs' P' R') as (place & HO). eauto.
Qed.

Lemma c80_threads : forall fs P, rounds (St := St) encode decode kern code m fs P ->
  forall choose who owner (progs : nat -> list (faction T St)) place, launches kern m fs who owner progs -> holds decode place fs P ->
  (forall sched, dturns encode decode code choose m (started fs P place who progs) sched = NoMemory \/
     exists M, dturns encode decode code choose m (started fs P place who progs) sched = Goes M) /\
  (forall sched M, dturns encode decode code choose m (started fs P place who progs) sched = Goes M ->
     (~ dbyte_race M /\ ~ free_race code m M /\ ~ double_free code m M) /\
     (forall k a w, dnext_visit (dm_thread M k) = Some (a, w) -> item_of (dm_used M) a) /\
     (forall k, exists made left fs2 rs2 rho,
        progs k = made ++ left /\ map erased left = now_actions (dm_thread M k) ++ dt_left (dm_thread M k) /\
        frun kern m fs (map (refile (thread_names fs who k)) made) = Some (Ok (fs2, rs2)) /\ dt_done (dm_thread M k) = call_results made rs2 /\
        forall i w, nth_error (st_mats (b_state (f_state fs2))) (thread_names fs who k i) = Some w ->
          nth_error (dt_table (dm_thread M k)) i = Some (move_matrix rho w) /\
          (dt_now (dm_thread M k) = None -> forall q v, occupies w q -> hget (st_heap (b_state (f_state fs2))) (fst q) (snd q) = Some v ->
             load decode (dm_mem M) (address (mkPlace (rho (fst q)) (snd q))) = v)) /\
     (forall k, exists n, dturns encode decode code choose m M (repeat k n) = NoMemory \/
        exists M', dturns encode decode code choose m M (repeat k n) = Goes M' /\ dt_now (dm_thread M' k) = None /\ dt_left (dm_thread M' k) = [])).
Proof.
  intros fs P R choose who owner progs place [L1 L2 L3] HO. apply rounds_ready in R. destruct R as [(bs & G) RR F].
  destruct (RR (fun _ => 0%nat)) as (rho & sigma & REL).
  destruct (start_from T SC B decode _ m fs bs rho sigma P place who G REL HO L1) as (LO & IM & AP).
  destruct (c78_at encode decode coding kern code impl _ choose m fs bs rho sigma P who owner progs G REL L1 L2 (fun k => goes_next fs bs _ G (L3 k)) place LO IM AP) as [C1 C2].
  split; [exact C1|]. intros sched M E. destruct (C2 sched M E) as (D1 & D2 & D3 & D4 & _). auto.
Qed.

Lemma c80_join : forall fs P, rounds (St := St) encode decode kern code m fs P ->
  forall choose who owner (progs : nat -> list (faction T St)) place xs gs sched M, launches kern m fs who owner progs ->
  gives_back kern m fs who owner progs xs gs -> holds decode place fs P ->
  dturns encode decode code choose m (started fs P place who progs) sched = Goes M -> all_ended M ->
  exists h, found decode gs place M h /\
    (forall q v, hget (st_heap (b_state (f_state gs))) (fst q) (snd q) = Some v ->
       (forall k w, In w (p_tabs (handed (f_state fs) who) k) -> is_writable w = true -> ~ occupies w q) -> hget h (fst q) (snd q) = Some v) /\
    (forall k, exists fs2 rs2, frun kern m fs (map (refile (thread_names fs who k)) (progs k)) = Some (Ok (fs2, rs2)) /\
       dt_done (dm_thread M k) = call_results (progs k) rs2 /\
       forall w q v, In w (p_tabs (handed (f_state fs) who) k) -> occupies w q -> owner (fst q) = None ->
         hget (st_heap (b_state (f_state fs2))) (fst q) (snd q) = Some v -> hget h (fst q) (snd q) = Some v) /\
    rounds (St := St) encode decode kern code m (with_items gs h) (waited gs P M).
Proof.
  intros fs P R choose who owner progs place xs gs sched M L GB HO E D. pose proof (rounds_ready _ _ R) as [(bs & G) RR F].
  pose proof L as [L1 L2 L3]. pose proof GB as [(rsd & G1) G2 G3]. destruct (RR (fun _ => 0%nat)) as (rho & sigma & REL).
  destruct (joins_at encode decode coding kern code impl _ choose m fs bs rho sigma P who owner progs G REL L1 L2 (fun k => goes_next fs bs _ G (L3 k))
    place xs gs rsd G1 G2 G3 HO sched M E D) as (_ & H2 & H3 & _).
  eexists. split; [apply look_found|]. split; [exact H2|]. split; [exact H3|]. eapply Joins; eauto using look_found.
Qed.
End Rounds.
