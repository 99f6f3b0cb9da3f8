(** * FlatScopeProofs: proofs about programs that hand their matrices to threads (C78). *)

From Coq Require Import Lia ZifyBool ZifyNat ZifyN.
From Verif Require Import Machine MachineFacts Layouts Memory MemoryFacts Matrix MatMul Spec MatrixSpec ExprSpec ProductSpec.
From Verif Require Import Program BorrowFacts HistorySpec HistoryProofs Borrow BorrowProofs OwnerProofs Dealloc DeallocProofs Threads ThreadProofs Interleave.
From Verif Require Import AccessFacts HistorySafety AliasProofs Flat FlatProofs FlatThreads FlatHistory FlatThreadProofs FlatProducts FlatDrops FlatDropProofs FlatPrograms FlatProgramProofs FlatScopes.

Section Renamed.
Context {T : Type} {SC : HScalar T} {St : Type}.
Variable kern : kernel T.
Variable f : nat -> nat.

Definition grown (tb ms : list (matrix T)) (x y : state T * result T St) : Prop :=
  snd x = snd y /\ st_heap (fst x) = st_heap (fst y) /\ exists new, st_mats (fst x) = tb ++ new /\ st_mats (fst y) = ms ++ new.

Lemma exec_refile : forall m h tb ms (o : call T St), (forall i, nth_error tb i = nth_error ms (f i)) ->
  optrel (orel (grown tb ms)) (exec kern m (mkState h tb) o) (exec kern m (mkState h ms) (refile_call f o)).
Proof.
  intros m h tb ms o H.
  assert (L : forall x, lookup (mkState h ms) (f x) = lookup (mkState h tb) x) by (intros x; unfold lookup; cbn [st_mats]; now rewrite H).
  assert (LB : forall x, lookup_base (mkState h ms) (f x) = lookup_base (mkState h tb) x) by (intros x; unfold lookup_base; now rewrite L).
  assert (LM : forall x, lookup_mut (mkState h ms) (f x) = lookup_mut (mkState h tb) x) by (intros x; unfold lookup_mut; now rewrite LB).
  assert (LK : forall mut x, lookup_block (mkState h ms) mut (f x) = lookup_block (mkState h tb) mut x) by (intros [] x; cbn [lookup_block]; auto).
  assert (N1 : forall r, orel (grown tb ms) (new1 (St := St) (mkState h tb) r) (new1 (mkState h ms) r)).
  { intros [[h' b]| |]; cbn; auto. split; [reflexivity|]. split; [reflexivity|]. exists [MBase b]. auto. }
  assert (NV : forall r, orel (grown tb ms) (new_view (St := St) (mkState h tb) r) (new_view (mkState h ms) r)).
  { intros [b| |]; cbn; auto. split; [reflexivity|]. split; [reflexivity|]. exists [MBase b]. auto. }
  assert (NE : forall r, orel (grown tb ms) (new_expr (St := St) (mkState h tb) r) (new_expr (mkState h ms) r)).
  { intros [b| |]; cbn; auto. split; [reflexivity|]. split; [reflexivity|]. exists [b]. auto. }
  assert (IT : forall r, orel (grown tb ms) (item (St := St) (mkState h tb) r) (item (mkState h ms) r)).
  { intros [b| |]; cbn; auto. split; [reflexivity|]. split; [reflexivity|]. exists []. now rewrite !app_nil_r. }
  assert (DN : forall r, orel (grown tb ms) (done (St := St) (mkState h tb) r) (done (mkState h ms) r)).
  { intros [b| |]; cbn; auto. split; [reflexivity|]. split; [reflexivity|]. exists []. now rewrite !app_nil_r. }
  assert (LP : forall r, orel (grown tb ms) (looped (St := St) (mkState h tb) r) (looped (mkState h ms) r)).
  { intros [[[h' s] b]| |]; cbn; auto. split; [reflexivity|]. split; [reflexivity|]. exists []. now rewrite !app_nil_r. }
  assert (SM : forall r, grown tb ms (mkState h tb, r) (mkState h ms, r)).
  { intros r. split; [reflexivity|]. split; [reflexivity|]. exists []. cbn. now rewrite !app_nil_r. }
  destruct o; cbn [exec refile_call st_heap]; rewrite ?L, ?LB, ?LM, ?LK; unfold typed, when;
    repeat match goal with
    | |- optrel _ (match ?x with _ => _ end) _ => destruct x; cbn [optrel]; try exact Logic.I
    end; cbn [optrel]; auto.
  - cbn [orel]. apply SM.
  - cbn [orel]. apply SM.
  - destruct (split_in_four_mut m b at_) as [[[[b0 b1] b2] b3]| |]; cbn; auto.
    split; [reflexivity|]. split; [reflexivity|]. exists [MBase b0; MBase b1; MBase b2; MBase b3]. auto.
Qed.

Lemma step_refile : forall m h tb ms (o : call T St), (forall i, nth_error tb i = nth_error ms (f i)) ->
  orel (grown tb ms) (step kern m (mkState h tb) o) (step kern m (mkState h ms) (refile_call f o)).
Proof.
  intros m h tb ms o H. pose proof (exec_refile m h tb ms o H) as E. unfold step.
  assert (SM : forall r, grown tb ms (mkState h tb, r) (mkState h ms, r)).
  { intros r. split; [reflexivity|]. split; [reflexivity|]. exists []. cbn. now rewrite !app_nil_r. }
  destruct (exec kern m (mkState h tb) o) as [[x| |]|], (exec kern m (mkState h ms) (refile_call f o)) as [[y| |]|];
    cbn [optrel orel] in *; try contradiction; auto.
Qed.

Lemma uses_refile : forall o : call T St, uses (refile_call f o) = map (fun u => (f (fst u), snd u)) (uses o).
Proof. destruct o; reflexivity. Qed.
Lemma moved_refile : forall o : call T St, moved (Do (refile_call f o)) = map f (moved (Do o)).
Proof.
  intros o. cbn [moved]. rewrite uses_refile. induction (uses o) as [|[x c] l IH]; cbn; auto. unfold moved_operands in IH. rewrite IH. destruct c; reflexivity.
Qed.

(** A thread alone, and its program as the continuation of another: the matrices it was handed
    are [tb0], those of the other program [ms0]; [F0] was freed before. *)
Variables (ms0 tb0 : list (matrix T)) (F0 : list nat).
Hypothesis names : forall made i, nth_error (tb0 ++ made) i = nth_error (ms0 ++ made) (f i).
Definition tied (fs gs : fstate T) : Prop :=
  st_heap (b_state (f_state fs)) = st_heap (b_state (f_state gs)) /\
  (exists made, st_mats (b_state (f_state fs)) = ms0 ++ made /\ st_mats (b_state (f_state gs)) = tb0 ++ made) /\
  f_freed fs = f_freed gs ++ F0.

Lemma tied_free_all : forall l fs gs fs', tied fs gs -> free_all fs l = Ok fs' -> exists gs', free_all gs l = Ok gs' /\ tied fs' gs'.
Proof.
  induction l as [|a l IH]; intros fs gs fs' H E; cbn [free_all] in *; [injection E as <-; eauto|].
  apply bind_ok in E. destruct E as (fs1 & E1 & E). unfold free in *. destruct (mem (f_freed fs) a) eqn:M; [discriminate|]. injection E1 as <-.
  destruct H as (Hh & (made & M1 & M2) & Hf). assert (mem (f_freed gs) a = false) as ->.
  { apply mem_out. apply mem_out in M. intros I. apply M. rewrite Hf. apply in_or_app. now left. }
  cbn [bind]. apply (IH _ _ _) with (2 := E). split; [|split]; cbn [f_state set_heap b_state st_heap st_mats f_freed].
  - now rewrite Hh.
  - exists made. auto.
  - now rewrite Hf.
Qed.

Lemma tied_destroy : forall x fs gs fs', tied fs gs -> destroy fs (f x) = Ok fs' -> exists gs', destroy gs x = Ok gs' /\ tied fs' gs'.
Proof.
  intros x fs gs fs' H E. unfold destroy in *. destruct H as (Hh & (made & M1 & M2) & Hf). rewrite M2, names, <- M1.
  destruct (nth_error (st_mats (b_state (f_state fs))) (f x)) as [v|].
  - apply tied_free_all with (2 := E). split; [exact Hh|]. split; [exists made; auto|exact Hf].
  - injection E as <-. exists gs. split; auto. split; [exact Hh|]. split; [exists made; auto|exact Hf].
Qed.

Lemma tied_destroy_all : forall xs fs gs fs', tied fs gs -> destroy_all fs (map f xs) = Ok fs' -> exists gs', destroy_all gs xs = Ok gs' /\ tied fs' gs'.
Proof.
  induction xs as [|x xs IH]; intros fs gs fs' H E; cbn [destroy_all map] in *; [injection E as <-; eauto|].
  apply bind_ok in E. destruct E as (fs1 & E1 & E). destruct (tied_destroy x fs gs fs1 H E1) as (gs1 & -> & H1). cbn [bind]. eauto.
Qed.

Lemma tied_step : forall m fs gs (a : faction T St) fs' rs, tied fs gs -> fstep kern m fs (refile f a) = Some (Ok (fs', rs)) ->
  exists gs' rs', alone_step kern m gs (erased a) = Ok (gs', rs') /\ tied fs' gs' /\
    forall acts rest, call_results (a :: acts) (rs ++ rest) = rs' ++ call_results acts rest.
Proof.
  intros m fs gs [[o|x]|x] fs' rs H E; cbn [fstep bstep refile erased alone_step] in *.
  - destruct (admit_uses _ _) as [bt|]; [|discriminate]. injection E as E. destruct H as (Hh & (made & M1 & M2) & Hf).
    pose proof (step_refile m (st_heap (b_state (f_state gs))) (tb0 ++ made) (ms0 ++ made) o (names made)) as S. rewrite <- Hh in S at 2. rewrite <- M1, <- M2 in S.
    destruct (b_state (f_state fs)) as [h1 ms1]; destruct (b_state (f_state gs)) as [h2 ms2]; cbn [st_heap st_mats] in *; subst h2.
    destruct (step kern m (mkState h1 ms2) o) as [[st r]| |], (step kern m (mkState h1 ms1) (refile_call f o)) as [[st1 r1]| |]; cbn [orel] in S; try contradiction; cbn [bind] in *; try discriminate E.
    destruct S as (S1 & S2 & new & S3 & S4). cbn [fst snd] in *. subst r1. rewrite M2 in S3. rewrite M1 in S4. rewrite <- app_assoc in S3, S4.
    assert (R0 : forall bt' g, tied (mkFState (mkBState st1 bt') g (f_freed fs)) (mkFState (mkBState st []) (f_gone gs) (f_freed gs))).
    { intros bt' g. split; [symmetry; exact S2|]. split; [exists (made ++ new); auto|exact Hf]. }
    assert (D : forall bt' g, (fs2 <- destroy_all (mkFState (mkBState st1 bt') g (f_freed fs)) (moved (Do (refile_call f o))) ;; Ok (fs2, [r])) = Ok (fs', rs) ->
      exists gs' rs', (fs2 <- destroy_all (mkFState (mkBState st []) (f_gone gs) (f_freed gs)) (moved (Do o)) ;; Ok (fs2, [r])) = Ok (gs', rs') /\ tied fs' gs' /\
        forall acts rest, call_results (Act (Do o) :: acts) (rs ++ rest) = rs' ++ call_results acts rest).
    { intros bt' g X. apply bind_ok in X. destruct X as (fs2 & X1 & X2). injection X2 as <- <-. rewrite moved_refile in X1.
      destruct (tied_destroy_all _ _ _ _ (R0 bt' g) X1) as (gs' & -> & R).
      exists gs', [r]. split; [reflexivity|]. split; [exact R|]. reflexivity. }
    destruct r; cbn [consumed]; try exact (D _ _ E). injection E as <- <-. cbn [destroy_all bind]. eexists. eexists. split; [reflexivity|]. split; [|reflexivity].
    split; [symmetry; exact S2|]. split; [exists (made ++ new); auto|exact Hf].
  - destruct (admit_uses _ _) as [bt|]; [|discriminate]. injection E as E. cbn [bind moved destroy_all] in E.
    apply bind_ok in E. destruct E as (fs2 & E1 & E). injection E as <- <-. apply bind_ok in E1. destruct E1 as (fs3 & E1 & E2). injection E2 as <-.
    destruct (tied_destroy x (mkFState (mkBState (b_state (f_state fs)) bt) (f_gone fs) (f_freed fs)) gs _ H E1) as (gs' & -> & R). exists gs', []. split; [reflexivity|]. split; [exact R|]. reflexivity.
  - destruct (_ && _ && _)%bool; [|discriminate]. injection E as E. apply bind_ok in E. destruct E as (fs2 & E1 & E). injection E as <- <-.
    destruct (tied_destroy x fs gs _ H E1) as (gs' & -> & R). exists gs', []. split; [reflexivity|]. split; [exact R|]. reflexivity.
Qed.

Lemma tied_run : forall m (acts : list (faction T St)) fs gs fs' rs, tied fs gs -> frun kern m fs (map (refile f) acts) = Some (Ok (fs', rs)) ->
  exists gs', alone_run kern m gs (map erased acts) = Ok (gs', call_results acts rs) /\ tied fs' gs'.
Proof.
  intros m acts. induction acts as [|a acts IH]; intros fs gs fs' rs H E; cbn [frun map alone_run] in *.
  - injection E as <- <-. exists gs. auto.
  - destruct (fstep kern m fs (refile f a)) as [[[fs1 r1]| |]|] eqn:S; try discriminate.
    destruct (tied_step m fs gs a fs1 r1 H S) as (gs1 & r2 & -> & R & A). cbn [bind].
    destruct (frun kern m fs1 (map (refile f) acts)) as [[[fs2 rs2]| |]|] eqn:E2; cbn [bind] in E; try discriminate. injection E as <- <-.
    destruct (IH _ _ _ _ R E2) as (gs2 & -> & R2). cbn [bind]. exists gs2. rewrite A. auto.
Qed.

Lemma tied_plain : forall m (acts : list (faction T St)) fs gs fs' rs, tied fs gs -> frun kern m fs (map (refile f) acts) = Some (Ok (fs', rs)) ->
  plain_products kern m fs (map (refile f) acts) -> plain_actions kern m gs (map erased acts).
Proof.
  intros m acts. induction acts as [|a acts IH]; intros fs gs fs' rs H E PP; cbn [frun map plain_actions plain_products] in *; [exact I|].
  destruct PP as [P1 P2]. destruct (fstep kern m fs (refile f a)) as [[[fs1 r1]| |]|] eqn:S; try discriminate. split.
  - destruct a as [[o|x]|x]; cbn [erased refile] in *; auto. cbn [fstep bstep] in S. destruct (admit_uses _ _) as [bt|]; [|discriminate].
    specialize (P1 bt eq_refl). destruct H as (Hh & (made & M1 & M2) & Hf). destruct o; cbn [plain_call refile_call] in *; auto.
    intros x y z g Lx Ly Lz. apply P1; revert Lx Ly Lz; unfold lookup_mut, lookup_base, lookup; rewrite M1, M2, !names; auto.
  - intros gs1 r A. destruct (tied_step m fs gs a fs1 r1 H S) as (gs2 & r2 & E2 & R & _). rewrite A in E2. injection E2 as <- <-.
    destruct (frun kern m fs1 (map (refile f) acts)) as [[[fs2 rs2]| |]|] eqn:E2; cbn [bind] in E; try discriminate.
    eapply IH; [exact R|exact E2|]. eapply P2. reflexivity.
Qed.
End Renamed.

(** ** The memory of other threads, which a thread alone does not have *)
Section Curtain.
Context {T : Type} {SC : HScalar T} {St : Type}.
Variable kern : kernel T.
Variable H : list nat.

Record curtained (gs hs : fstate T) : Prop := {
  cu_mats : st_mats (b_state (f_state hs)) = st_mats (b_state (f_state gs));
  cu_heap : hrel H (st_heap (b_state (f_state gs))) (st_heap (b_state (f_state hs)));
  cu_freed : f_freed hs = f_freed gs;
  cu_avoid : Forall (avoids H) (st_mats (b_state (f_state gs)));
  cu_placed : all_placed (b_state (f_state hs));
  cu_empty : forall a, In a H -> nth_error (st_heap (b_state (f_state hs))) a = Some []
}.

Lemma owned_in : forall (x : matrix T) a, In a (owned x) -> lives_in a x.
Proof.
  intros x a. induction x as [b|x IH|x IH|x IH s|x IHx y IHy l]; cbn [owned lives_in]; try contradiction; auto.
  - destruct (c_kind (bm_data b)); try contradiction; intros [<-|[]]; reflexivity.
  - intros I. apply in_app_or in I. tauto.
Qed.

Lemma cu_free_all : forall l gs hs gs', (forall a, In a l -> ~ In a H) -> curtained gs hs -> free_all gs l = Ok gs' ->
  exists hs', free_all hs l = Ok hs' /\ curtained gs' hs'.
Proof.
  induction l as [|a l IH]; intros gs hs gs' N C E; cbn [free_all] in *; [injection E as <-; eauto|].
  apply bind_ok in E. destruct E as (gs1 & E1 & E). unfold free in *. rewrite (cu_freed _ _ C). destruct (mem (f_freed gs) a); [discriminate|]. injection E1 as <-.
  cbn [bind]. apply IH with (3 := E); [intros b I; apply N; now right|]. destruct C as [C1 [[C2 C3] C4] C5 C6 C7 C8].
  constructor; cbn [f_state set_heap b_state st_heap st_mats f_freed].
  - exact C1.
  - split; [split|].
    + rewrite !upd_length. exact C2.
    + intros b Hb. rewrite !nth_upd, C3 by exact Hb. reflexivity.
    + intros b Hb. rewrite upd_length. auto.
  - reflexivity.
  - exact C6.
  - unfold all_placed in *. cbn [st_heap st_mats]. eapply Forall_impl; [|exact C7]. intros x P b L. rewrite upd_length. apply P, L.
  - intros b Hb. rewrite nth_upd. destruct (Nat.eqb_spec a b) as [<-|_]; [|now apply C8]. exfalso. apply (N a); [now left|exact Hb].
Qed.

Lemma cu_destroy : forall x gs hs gs', curtained gs hs -> destroy gs x = Ok gs' -> exists hs', destroy hs x = Ok hs' /\ curtained gs' hs'.
Proof.
  intros x gs hs gs' C E. unfold destroy in *. rewrite (cu_mats _ _ C). destruct (nth_error (st_mats (b_state (f_state gs))) x) as [v|] eqn:X.
  - apply cu_free_all with (3 := E).
    + intros a I. pose proof (cu_avoid _ _ C) as A. rewrite Forall_forall in A. apply (A v (nth_error_In _ _ X)). now apply owned_in.
    + destruct C. constructor; auto.
  - injection E as <-. eauto.
Qed.

Lemma cu_destroy_all : forall xs gs hs gs', curtained gs hs -> destroy_all gs xs = Ok gs' -> exists hs', destroy_all hs xs = Ok hs' /\ curtained gs' hs'.
Proof.
  induction xs as [|x xs IH]; intros gs hs gs' C E; cbn [destroy_all] in *; [injection E as <-; eauto|].
  apply bind_ok in E. destruct E as (gs1 & E1 & E). destruct (cu_destroy x gs hs gs1 C E1) as (hs1 & -> & C1). cbn [bind]. eauto.
Qed.

Lemma new_avoid : forall m st (o : call T St) st' r, safe_call o -> no_split (Do o) -> (forall a, In a H -> (a < length (st_heap st))%nat) ->
  Forall (avoids H) (st_mats st) -> step kern m st o = Ok (st', r) -> Forall (avoids H) (st_mats st').
Proof.
  intros m st o st' r S NS B A E. destruct (step_kinds _ _ _ _ _ _ (safe_no_pointers _ S) E) as [r' NR M|b M AL _ _ _|v M _ _ D|x at_ b b0 b1 b2 b3 -> _ _ _ _ _].
  - now rewrite M.
  - rewrite M. apply Forall_app. split; [exact A|]. constructor; [|constructor]. intros a L I. cbn in L. unfold allocation in *. specialize (B a I). lia.
  - rewrite M. apply Forall_app. split; [exact A|]. constructor; [|constructor]. intros a L. apply derives_borrows in D. destruct D as (_ & _ & D & _).
    destruct (D a L) as (x & c & w & _ & X & W & _). rewrite Forall_forall in A. apply (A w (nth_error_In _ _ X)). exact W.
  - destruct NS.
Qed.

Lemma cu_step : forall m gs hs (a : taction T St) gs' rs,
  match a with TCall o => safe_call o /\ no_split (Do o) | TFree _ => True end ->
  curtained gs hs -> alone_step kern m gs a = Ok (gs', rs) -> exists hs', alone_step kern m hs a = Ok (hs', rs) /\ curtained gs' hs'.
Proof.
  intros m gs hs [o|x] gs' rs OK C E; cbn [alone_step] in *.
  - destruct OK as [OK NS]. apply bind_ok in E. destruct E as ([st r] & E1 & E). apply bind_ok in E. destruct E as (gs1 & E2 & E). injection E as <- <-.
    pose proof (sim_step H kern m _ _ o (conj (cu_mats _ _ C) (cu_heap _ _ C))) as SS. rewrite E1 in SS.
    destruct (step kern m (b_state (f_state hs)) o) as [[st' r']| |] eqn:ES; cbn [orel] in SS;
      try (exfalso; apply SS; intros x w _ X; pose proof (cu_avoid _ _ C) as A; rewrite Forall_forall in A; apply A; eapply nth_error_In; exact X).
    destruct SS as [[SS1 SS2] SS3]; [intros x w _ X; pose proof (cu_avoid _ _ C) as A; rewrite Forall_forall in A; apply A; eapply nth_error_In; exact X|].
    cbn [fst snd bind] in *. subst r'. rewrite (cu_freed _ _ C).
    assert (C1 : curtained (mkFState (mkBState st []) (f_gone gs) (f_freed gs)) (mkFState (mkBState st' []) (f_gone hs) (f_freed gs))).
    { destruct (step_effect _ _ _ _ _ _ (cu_placed _ _ C) ES) as ([EX _] & _ & PL). constructor; cbn [f_state b_state f_freed]; auto.
      - eapply new_avoid; [exact OK|exact NS| |exact (cu_avoid _ _ C)|exact E1]. intros a I. apply (cu_heap _ _ C). exact I.
      - intros a I. destruct (EX a [] (cu_empty _ _ C a I)) as (l' & E' & L). destruct l'; [exact E'|discriminate L]. }
    destruct (cu_destroy_all _ _ _ _ C1 E2) as (hs' & -> & C2). cbn [bind]. eauto.
  - apply bind_ok in E. destruct E as (gs1 & E2 & E). injection E as <- <-. destruct (cu_destroy _ _ _ _ C E2) as (hs' & -> & C2). cbn [bind]. eauto.
Qed.

Definition safe_actions (acts : list (taction T St)) : Prop :=
  Forall (fun a => match a with TCall o => safe_call o /\ no_split (Do o) | TFree _ => True end) acts.

Lemma cu_run : forall m (acts : list (taction T St)) gs hs gs' rs, safe_actions acts -> curtained gs hs -> alone_run kern m gs acts = Ok (gs', rs) ->
  exists hs', alone_run kern m hs acts = Ok (hs', rs) /\ curtained gs' hs'.
Proof.
  intros m acts. induction acts as [|a acts IH]; intros gs hs gs' rs SA C E; cbn [alone_run] in *.
  - injection E as <- <-. eauto.
  - apply bind_ok in E. destruct E as ([gs1 r1] & E1 & E). apply bind_ok in E. destruct E as ([gs2 r2] & E2 & E). injection E as <- <-.
    inversion SA as [|? ? S1 S2]; subst. destruct (cu_step m gs hs a gs1 r1 S1 C E1) as (hs1 & -> & C1). cbn [bind].
    destruct (IH _ _ _ _ S2 C1 E2) as (hs2 & -> & C2). cbn [bind]. eauto.
Qed.

Lemma cu_plain : forall m (acts : list (taction T St)) gs hs gs' rs, safe_actions acts -> curtained gs hs -> alone_run kern m gs acts = Ok (gs', rs) ->
  plain_actions kern m gs acts -> plain_actions kern m hs acts.
Proof.
  intros m acts. induction acts as [|a acts IH]; intros gs hs gs' rs SA C E PP; cbn [alone_run plain_actions] in *; [exact I|].
  apply bind_ok in E. destruct E as ([gs1 r1] & E1 & E). apply bind_ok in E. destruct E as ([gs2 r2] & E2 & E). injection E as <- <-.
  inversion SA as [|? ? S1 S2]; subst. destruct PP as [P1 P2]. split.
  - destruct a as [o|]; auto. destruct o; cbn [plain_call] in *; auto. unfold lookup_mut, lookup_base, lookup in *. now rewrite (cu_mats _ _ C).
  - intros hs1 r X. destruct (cu_step m gs hs a gs1 r1 S1 C E1) as (hs2 & X2 & C1). rewrite X in X2. injection X2 as -> ->. eapply IH; eauto.
Qed.
End Curtain.

(** ** Safe programs from any state that a safe program reaches *)

Section Safe.
Context {T : Type} {SC : HScalar T} {St : Type}.
Variable kern : kernel T.

Record good (m : mode) (fs : fstate T) (bs : bstate T) : Prop := {
  g_finv : finv fs bs;
  g_binv : binv bs;
  g_sound : HistoryProofs.sound m (b_state bs);
  g_dense : dense_vectors (st_mats (b_state bs))
}.

Lemma good_initial : forall m, good m (finitial (T := T)) binitial.
Proof. intros m. constructor; [apply finitial_finv|apply binitial_binv|apply initial_sound|intros b []]. Qed.

Lemma good_more : forall m (more acts : list (faction T St)) fs bs o, good m fs bs -> Forall safe_call (calls acts) -> Forall no_split (kept acts) ->
  m = Checked \/ no_wrap_history kern m (b_state bs) (calls (acts ++ more)) -> frun kern m fs acts = Some o ->
  exists fs' rs bs', o = Ok (fs', rs) /\ good m fs' bs' /\ (m = Checked \/ no_wrap_history kern m (b_state bs') (calls more)).
Proof.
  intros m more acts. induction acts as [|fa acts IH]; intros fs bs o G Hs Hn Hm R; cbn [frun] in R.
  { injection R as <-. exists fs, [], bs. auto. }
  cbn [app] in Hm.
  assert (STEP : exists fs1 r bs1, fstep kern m fs fa = Some (Ok (fs1, r)) /\ good m fs1 bs1 /\ Forall safe_call (calls acts) /\ Forall no_split (kept acts) /\
    (m = Checked \/ no_wrap_history kern m (b_state bs1) (calls (acts ++ more)))).
  { destruct G as [F I S D]. destruct fa as [[o0|x]|x].
    - change (kept (Act (Do o0) :: acts)) with (Do o0 :: kept acts) in Hn. change (calls (Act (Do o0) :: acts)) with (o0 :: calls acts) in Hs. change (calls (Act (Do o0) :: acts ++ more)) with (o0 :: calls (acts ++ more)) in Hm.
      inversion Hs as [|? ? Ho Hs']; subst. inversion Hn as [|? ? No Hn']; subst.
      assert (P : no_pointers (Do o0)) by now apply safe_no_pointers.
      pose proof (sim_act kern m fs bs (Do o0) F P) as X.
      assert (Hm1 : m = Checked \/ no_wrap_call (b_state bs) o0) by (destruct Hm as [->|[Hm _]]; auto).
      destruct (step_safe kern m (b_state bs) o0 S (safe_within _ _ Ho) Hm1) as (st' & r' & E1 & S1).
      destruct (fstep kern m fs (Act (Do o0))) as [x|]; [|discriminate].
      destruct (bstep kern m bs (Do o0)) as [y|] eqn:B; cbn [optrel] in X; [|contradiction].
      pose proof B as B'. cbn [bstep] in B. destruct (admit_uses (b_slots bs) (uses o0)); [|discriminate]. rewrite E1 in B. cbn [bind] in B. injection B as <-.
      destruct x as [[fs1 r]| |]; cbn [orel] in X; try contradiction. destruct X as [F1 _]. cbn [fst] in F1.
      pose proof (plain_inv_step kern m bs (Do o0) _ _ I (conj P No) B') as I1.
      eexists fs1, r, _. split; [reflexivity|]. split; [constructor; [exact F1|exact I1|exact S1|cbn [b_state]; eapply step_dense; eauto]|].
      split; [exact Hs'|]. split; [exact Hn'|]. destruct Hm as [->|[_ Hm]]; auto. right. exact (Hm _ _ E1).
    - change (kept (Act (Drop x) :: acts)) with (@Drop T St x :: kept acts) in Hn. change (calls (Act (Drop x) :: acts)) with (calls acts) in Hs. change (calls (Act (Drop x) :: acts ++ more)) with (calls (acts ++ more)) in Hm.
      inversion Hn as [|? ? No Hn']; subst. assert (P : no_pointers (@Drop T St x)) by exact Logic.I.
      pose proof (sim_act kern m fs bs (Drop x) F P) as X.
      destruct (fstep kern m fs (Act (Drop x))) as [y|]; [|discriminate].
      destruct (bstep kern m bs (Drop x)) as [z|] eqn:B; cbn [optrel] in X; [|contradiction].
      pose proof B as B'. cbn [bstep] in B. destruct (admit_uses (b_slots bs) [(x, Moved)]); [|discriminate]. injection B as <-.
      destruct y as [[fs1 r]| |]; cbn [orel] in X; try contradiction. destruct X as [F1 _]. cbn [fst] in F1.
      pose proof (plain_inv_step kern m bs (Drop x) _ _ I (conj P No) B') as I1.
      eexists fs1, r, _. split; [reflexivity|]. split; [constructor; [exact F1|exact I1|exact S|exact D]|]. auto.
    - change (kept (ScopeEnd x :: acts)) with (kept acts) in *. change (calls (ScopeEnd x :: acts)) with (calls acts) in Hs. change (calls (ScopeEnd x :: acts ++ more)) with (calls (acts ++ more)) in Hm. cbn [fstep] in *.
      destruct (Nat.ltb x (length (st_mats (b_state (f_state fs)))) && negb (is_live (b_slots (f_state fs)) x) && negb (mem (f_gone fs) x))%bool eqn:C; [|discriminate].
      apply Bool.andb_true_iff in C. destruct C as [C C3]. apply Bool.andb_true_iff in C. destruct C as [C1 C2].
      apply Nat.ltb_lt in C1. apply Bool.negb_true_iff in C2, C3. apply mem_out in C3.
      rewrite (v_slots _ _ F) in C2. rewrite (r_mats _ _ (v_rel _ _ F)) in C1.
      destruct (nth_error (st_mats (b_state bs)) x) as [v|] eqn:Ev; [|apply nth_error_None in Ev; lia].
      destruct (sim_scope fs bs x v F Ev C2 C3) as (fs1 & E1 & F1 & _). rewrite E1. cbn [bind].
      eexists _, _, bs. split; [reflexivity|]. split; [constructor; auto|]. auto. }
  destruct STEP as (fs1 & r & bs1 & E1 & G1 & Hs1 & Hn1 & Hm1). rewrite E1 in R.
  destruct (frun kern m fs1 acts) as [o1|] eqn:R1; [|discriminate]. injection R as <-.
  destruct (IH fs1 bs1 o1 G1 Hs1 Hn1 Hm1 R1) as (fs' & rs & bs' & -> & G'). cbn [bind]. eauto.
Qed.
Lemma good_run : forall m (acts : list (faction T St)) fs bs o, good m fs bs -> Forall safe_call (calls acts) -> Forall no_split (kept acts) ->
  m = Checked \/ no_wrap_history kern m (b_state bs) (calls acts) -> frun kern m fs acts = Some o ->
  exists fs' rs bs', o = Ok (fs', rs) /\ good m fs' bs'.
Proof.
  intros m acts fs bs o G Hs Hn Hm R. rewrite <- (app_nil_r acts) in Hm.
  destruct (good_more m [] acts fs bs o G Hs Hn Hm R) as (fs' & rs & bs' & -> & G' & _). eauto.
Qed.

(** A continuation of a safe program. *)
Record next_safe (m : mode) (fs : fstate T) (acts : list (faction T St)) : Prop := {
  ns_safe : Forall safe_call (calls acts);
  ns_split : Forall no_split (kept acts);
  ns_wrap : exists bs, good m fs bs /\ (m = Checked \/ no_wrap_history kern m (b_state bs) (calls acts));
  ns_accepted : exists o, frun kern m fs acts = Some o
}.
Lemma next_runs : forall m fs acts, next_safe m fs acts -> exists fs' rs, frun kern m fs acts = Some (Ok (fs', rs)).
Proof. intros m fs acts [N1 N2 (bs & G & N3) (o & E)]. destruct (good_run m acts fs bs o G N1 N2 N3 E) as (fs' & rs & _ & -> & _). eauto. Qed.
Lemma next_plain : forall m fs acts, next_safe m fs acts -> plain_products kern m fs acts.
Proof. intros m fs acts [N1 N2 (bs & [G1 G2 G3 G4] & N3) _]. eapply safe_plain; eauto. Qed.
End Safe.

(** ** Threads from any state that a safe program reaches *)

Lemma start_from : forall (T : Type) (SC : HScalar T) (B : Type) (decode : list B -> T) choose m fs bs rho sigma (P : process T B) place who,
  good m fs bs -> FlatHistory.related decode choose rho sigma fs P -> holds decode place fs P -> lends_apart (f_state fs) who ->
  laid_out decode (handed (f_state fs) who) place (y_mem (pr_bytes P)) (y_blocks (pr_bytes P)) /\
  in_memory (handed (f_state fs) who) /\ Threads.apart (handed (f_state fs) who).
Proof.
  intros T SC B decode choose m fs bs rho sigma P place who [FI [BI BP] SD _] REL HO HL.
  pose proof (v_rel _ _ FI) as FR. pose proof (r_mats _ _ FR) as EM. pose proof (v_slots _ _ FI) as ES. destruct (r_heap _ _ FR) as [[EL EH] FB].
  assert (ET : forall k, p_tabs (handed (f_state fs) who) k = p_tabs (handed bs who) k) by (intros k; cbn [handed p_tabs]; now rewrite EM).
  assert (LB : lends_apart bs who) by (unfold lends_apart in *; now rewrite <- ES, <- EM).
  assert (IM : in_memory (handed bs who)).
  { intros k x a Hx Ha. apply in_handed in Hx. destruct Hx as (n & _ & Hx). unfold all_placed in BP. rewrite Forall_forall in BP. exact (BP x (nth_error_In _ _ Hx) a Ha). }
  assert (AP : Threads.apart (handed bs who)).
  { intros j k x y q Hjk Hx Hy Wx Ox Oy. apply in_handed in Hx, Hy. destruct Hx as (nx & Ix & Ex), Hy as (ny & Iy & Ey).
    destruct LB as [Hl Hd]. destruct (Hd j k nx ny x Hjk Ix Iy Ex Wx) as [N1 N2].
    destruct (Nat.eq_dec nx ny) as [->|Hne]; [apply N1; constructor|].
    assert (Z : below (b_slots bs) nx ny \/ below (b_slots bs) ny nx) by (apply (inv_share _ _ _ BI nx ny q); eauto; [exists x|exists x|exists y]; auto).
    tauto. }
  assert (US : forall k x, In x (p_tabs (handed (f_state fs) who) k) -> avoids (f_freed fs) x /\ sound_matrix m (st_heap (b_state bs)) x).
  { intros k x I. rewrite ET in I. apply in_handed in I. destruct I as (n & I & E). split.
    - apply (usable_avoids fs bs n x FI). split; [apply LB with k; exact I|exact E].
    - unfold HistoryProofs.sound in SD. rewrite Forall_forall in SD. apply SD. eapply nth_error_In; eauto. }
  assert (VA : forall k x, In x (p_tabs (handed (f_state fs) who) k) -> sound_matrix m (st_heap (b_state (f_state fs))) x).
  { intros k x I. destruct (US k x I) as [A [V RS]]. split; [|exact RS]. eapply valid_hrel; [exact (r_heap _ _ FR)|exact A|exact V]. }
  assert (IN : forall k x, In x (p_tabs (handed (f_state fs) who) k) -> In x (st_mats (b_state (f_state fs)))).
  { intros k x I. apply in_handed in I. destruct I as (n & _ & E). eapply nth_error_In; eauto. }
  split; [|split].
  - constructor; cbn [handed p_heap].
    + apply (holds_items _ _ _ _ HO).
    + apply (holds_blocks _ _ _ _ HO).
    + apply (rep_nodup _ _ _ _ _ _ (rel_rep _ _ _ _ _ _ REL)).
    + apply (holds_apart _ _ _ _ HO).
    + intros k x q I O. apply (valid_inside _ x); auto. apply (VA k x I).
    + intros k x b I Ib. destruct (US k x I) as [A _]. pose proof (rel_known _ _ _ _ _ _ REL) as KN. rewrite Forall_forall in KN.
      pose proof (KN x (IN k x I) b Ib) as Z. pose proof (owned_lives _ _ Ib) as LV.
      pose proof (rel_placed _ _ _ _ _ _ REL) as PL. unfold all_placed in PL. rewrite Forall_forall in PL. pose proof (PL x (IN k x I) _ LV) as LT.
      destruct (nth_error (st_heap (b_state (f_state fs))) (fst b)) as [l|] eqn:E; [|apply nth_error_None in E; lia]. exists l. split; [reflexivity|].
      destruct (rel_sizes _ _ _ _ _ _ REL _ _ E) as [[F _]|[_ F]]; [destruct (A _ LV F)|congruence].
  - intros k x a I L. cbn [handed p_heap]. rewrite EL. rewrite ET in I. now apply (IM k x a).
  - intros j k x y q D Ix Iy. rewrite ET in Ix, Iy. now apply (AP j k x y q D).
Qed.

(** ** Programs that hand out matrices *)
Section Scopes.
Context {T : Type} {SC : HScalar T} {St : Type} {B : Type}.

Lemma plain_app : forall (kern : kernel T) m (l l' : list (faction T St)) fs fs1 rs1, plain_products kern m fs (l ++ l') ->
  frun kern m fs l = Some (Ok (fs1, rs1)) -> plain_products kern m fs1 l'.
Proof.
  intros kern m l l'. induction l as [|a l IH]; intros fs fs1 rs1 P E; cbn [app plain_products frun] in *.
  - injection E as <- <-. exact P.
  - destruct P as [_ P]. destruct (fstep kern m fs a) as [[[fs2 r]| |]|] eqn:S; try discriminate.
    destruct (frun kern m fs2 l) as [[[fs3 rs3]| |]|] eqn:E2; cbn [bind] in E; try discriminate. injection E as <- <-. eapply IH; [eapply P; reflexivity|exact E2].
Qed.

Lemma prefix_ok : forall (kern : kernel T) m (l l' : list (faction T St)) g o' fs4 rs4, frun kern m g l = Some o' ->
  frun kern m g (l ++ l') = Some (Ok (fs4, rs4)) -> exists f3 r3, o' = Ok (f3, r3).
Proof.
  intros kern m l l'. induction l as [|a l IH]; intros g o' fs4 rs4 E' E1; cbn [app frun] in *.
  - injection E' as <-. eauto.
  - destruct (fstep kern m g a) as [[[f1 r1]| |]|]; try discriminate. destruct (frun kern m f1 l) as [o1|] eqn:E2; [|discriminate].
    destruct (frun kern m f1 (l ++ l')) as [[[f2 r2]| |]|] eqn:E3; cbn [bind] in E1; try discriminate. injection E' as <-.
    destruct (IH _ _ _ _ E2 E3) as (f3 & r3 & ->). cbn [bind]. eauto.
Qed.

Lemma refile_safe : forall f (o : call T St), safe_call (refile_call f o) -> safe_call o.
Proof. intros f o. destruct o; cbn [safe_call refile_call]; auto. Qed.
Lemma refile_split : forall f (o : call T St), no_split (Do (refile_call f o)) -> no_split (Do o).
Proof. intros f o. destruct o; cbn [no_split refile_call]; auto. Qed.
Lemma refile_actions : forall f (acts : list (faction T St)), Forall safe_call (calls (map (refile f) acts)) -> Forall no_split (kept (map (refile f) acts)) ->
  safe_actions (map erased acts).
Proof.
  intros f acts. induction acts as [|a acts IH]; intros S N; [constructor|]. destruct a as [[o|x]|x]; cbn in *.
  - inversion S; subst. inversion N; subst. constructor; [|now apply IH]. split; [eapply refile_safe|eapply refile_split]; eauto.
  - inversion N; subst. constructor; [exact I|now apply IH].
  - constructor; [exact I|now apply IH].
Qed.

Lemma filed_names : forall (ms : list (matrix T)) xs made i, (forall x, In x xs -> (x < length ms)%nat) ->
  nth_error (flat_map (fun x => match nth_error ms x with Some w => [w] | None => [] end) xs ++ made) i = nth_error (ms ++ made) (filed (length ms) xs i).
Proof.
  intros ms xs made i B'. set (g := fun x => match nth_error ms x with Some w => [w] | None => [] end).
  assert (L : length (flat_map g xs) = length xs).
  { induction xs as [|x xs IH]; cbn [flat_map length]; auto. rewrite app_length, IH by (intros y I; apply B'; now right).
    assert (nth_error ms x <> None) by (apply nth_error_Some, B'; now left). unfold g. destruct (nth_error ms x); [reflexivity|congruence]. }
  unfold filed. destruct (Nat.ltb_spec i (length xs)) as [I|I].
  - rewrite nth_error_app1 by lia. rewrite nth_error_app1 by (apply B', nth_In, I). clear L. revert i I. induction xs as [|x xs IH]; intros i I; cbn [length] in I; [lia|].
    assert (X : nth_error ms x <> None) by (apply nth_error_Some, B'; now left). cbn [flat_map]. unfold g at 1. destruct (nth_error ms x) as [w|] eqn:E; [|congruence].
    destruct i as [|i]; cbn [nth app nth_error]; [now rewrite E|]. apply IH; [intros y Iy; apply B'; now right|lia].
  - rewrite nth_error_app2 by lia. rewrite nth_error_app2 by lia. f_equal. lia.
Qed.

(** What is empty stays empty. *)
Definition thin (h h' : @heap T) : Prop := (forall a, nth_error h a = Some [] -> nth_error h' a = Some []).
Lemma thin_free_all : forall l (gs gs' : fstate T), free_all gs l = Ok gs' -> all_placed (b_state (f_state gs)) ->
  all_placed (b_state (f_state gs')) /\ thin (st_heap (b_state (f_state gs))) (st_heap (b_state (f_state gs'))).
Proof.
  induction l as [|a l IH]; intros gs gs' E P; cbn [free_all] in *; [injection E as <-; split; auto; now intros a|].
  apply bind_ok in E. destruct E as (gs1 & E1 & E). unfold free in *. destruct (mem (f_freed gs) a); [discriminate|]. injection E1 as <-.
  apply IH in E; cbn [f_state set_heap b_state st_heap st_mats] in *.
  - destruct E as [E1 E2]. split; [exact E1|]. intros b Hb. apply E2. rewrite nth_upd, Hb. now destruct (Nat.eqb_spec a b).
  - unfold all_placed in *. cbn [st_heap st_mats]. eapply Forall_impl; [|exact P]. intros x Q b L. rewrite upd_length. apply Q, L.
Qed.
Lemma thin_destroy : forall x (gs gs' : fstate T), destroy gs x = Ok gs' -> all_placed (b_state (f_state gs)) ->
  all_placed (b_state (f_state gs')) /\ thin (st_heap (b_state (f_state gs))) (st_heap (b_state (f_state gs'))).
Proof.
  intros x gs gs' E P. unfold destroy in E. destruct (nth_error (st_mats (b_state (f_state gs))) x).
  - now apply thin_free_all in E.
  - injection E as <-. split; auto. now intros a.
Qed.
Lemma thin_destroy_all : forall xs (gs gs' : fstate T), destroy_all gs xs = Ok gs' -> all_placed (b_state (f_state gs)) ->
  all_placed (b_state (f_state gs')) /\ thin (st_heap (b_state (f_state gs))) (st_heap (b_state (f_state gs'))).
Proof.
  induction xs as [|x xs IH]; intros gs gs' E P; cbn [destroy_all] in E; [injection E as <-; split; auto; now intros a|].
  apply bind_ok in E. destruct E as (gs1 & E1 & E). apply thin_destroy in E1; auto. destruct E1 as [P1 T1]. apply IH in E; auto. destruct E as [P2 T2].
  split; auto. intros a Ha. auto.
Qed.
Lemma thin_run : forall (kern : kernel T) m (acts : list (taction T St)) gs gs' rs, alone_run kern m gs acts = Ok (gs', rs) -> all_placed (b_state (f_state gs)) ->
  thin (st_heap (b_state (f_state gs))) (st_heap (b_state (f_state gs'))).
Proof.
  intros kern m acts. induction acts as [|a acts IH]; intros gs gs' rs E P; cbn [alone_run] in E; [injection E as <- <-; now intros a|].
  apply bind_ok in E. destruct E as ([gs1 r1] & E1 & E). apply bind_ok in E. destruct E as ([gs2 r2] & E2 & E). injection E as <- <-.
  assert (X : all_placed (b_state (f_state gs1)) /\ thin (st_heap (b_state (f_state gs))) (st_heap (b_state (f_state gs1)))).
  { destruct a as [o|x]; cbn [alone_step] in E1; apply bind_ok in E1.
    - destruct E1 as ([st r] & S & E1). apply bind_ok in E1. destruct E1 as (gs3 & D & E1). injection E1 as <- <-.
      destruct (step_effect _ _ _ _ _ _ P S) as ([EX _] & _ & P1). apply thin_destroy_all in D; [|exact P1]. destruct D as [P2 T2]. split; [exact P2|].
      intros b Hb. apply T2. cbn [f_state b_state]. destruct (EX b [] Hb) as ([|v l] & -> & L); [reflexivity|discriminate L].
    - destruct E1 as (gs3 & D & E1). injection E1 as <- <-. now apply thin_destroy in D. }
  destruct X as [P1 T1]. intros b Hb. eapply IH; eauto.
Qed.

(** Handing over what can be moved. *)
Lemma free_all_freed : forall l (gs gs' : fstate T), free_all gs l = Ok gs' -> forall a, In a l \/ In a (f_freed gs) -> In a (f_freed gs').
Proof.
  induction l as [|b l IH]; intros gs gs' E a I; cbn [free_all] in E; [injection E as <-; now destruct I as [[]|I]|].
  apply bind_ok in E. destruct E as (gs1 & E1 & E). unfold free in E1. destruct (mem (f_freed gs) b); [discriminate|]. injection E1 as <-.
  apply (IH _ _ E). cbn [f_freed]. destruct I as [[<-|I]|I]; cbn; auto.
Qed.

Lemma handed_in : forall (bs : bstate T) who k v, In v (p_tabs (handed bs who) k) -> exists x, In x (who k) /\ nth_error (st_mats (b_state bs)) x = Some v.
Proof.
  intros bs who k v I. cbn [handed p_tabs] in I. apply in_flat_map in I. destruct I as (x & Ix & I). exists x. split; [exact Ix|].
  destruct (nth_error (st_mats (b_state bs)) x) as [w|]; [|destruct I]. destruct I as [<-|[]]. reflexivity.
Qed.

Lemma c78_hands : forall (kern : kernel T) m (main : list (faction T St)) fs rs who owner, Forall safe_call (calls main) ->
  frun kern m finitial main = Some (Ok (fs, rs)) -> hands_over fs who owner -> kept_apart (handed (f_state fs) who) owner.
Proof.
  intros kern m main fs rs who owner HS E [OW MV]. split.
  - intros k v a I O. apply handed_in in I. destruct I as (x & Ix & Ex). apply OW. eauto.
  - intros k w a j I L O. destruct (Nat.eq_dec j k) as [|D]; [assumption|exfalso]. apply handed_in in I. destruct I as (y & Iy & Ey).
    apply OW in O. destruct O as (x & v & Ix & Ex & Ia). destruct (MV j x v Ix Ex) as (bt & A & LV); [intros Z; rewrite Z in Ia; destruct Ia|].
    pose proof (sim_run kern m main _ _ finitial_finv (safe_kept main HS)) as R. rewrite E in R.
    destruct R as ([[bs rs1]| |] & EB & R); cbn in R; try contradiction. destruct R as [FI _]. cbn [fst snd] in FI.
    pose proof (sim_act (St := St) kern m fs bs (Drop x) FI Logic.I) as S. cbn [fstep bstep moved] in S. rewrite A, <- (v_slots _ _ FI), A in S. cbn [bind destroy_all] in S.
    unfold destroy in S. cbn [f_state b_state] in S. rewrite Ex in S.
    destruct (free_all _ (owned v)) as [gs| |] eqn:F in S; cbn in S; try contradiction. destruct S as [FI2 _]. cbn [fst] in FI2.
    assert (U : usable (mkBState (b_state bs) bt) y w).
    { split; cbn [b_slots b_state]; [apply (LV k y); auto|]. rewrite <- (r_mats _ _ (v_rel _ _ FI)). exact Ey. }
    apply (usable_avoids _ _ _ _ FI2 U a L). apply (free_all_freed _ _ _ F). now left.
Qed.

Variable encode : T -> list B.
Variable decode : list B -> T.
Hypothesis coding : faithful encode decode.
Variable kern : kernel T.
Variable code : gemm_args T -> prog T unit.
Hypothesis impl : implements code kern.
Variable choose : nat -> nat.
Variable choose' : nat -> nat -> nat.
Variables (m : mode) (fs : fstate T) (bs : bstate T) (rho0 : nat -> nat) (sigma0 : nat -> N) (P : process T B).
Variables (who : nat -> list nat) (owner : nat -> option nat) (progs : nat -> list (faction T St)).
Hypothesis steady : good m fs bs.
Hypothesis rel : FlatHistory.related decode choose rho0 sigma0 fs P.
Hypothesis lends : lends_apart (f_state fs) who.
Notation p := (handed (f_state fs) who).
Hypothesis keeps : kept_apart p owner.
Notation names k := (thread_names fs who k).
Hypothesis safe : forall k, next_safe kern m fs (map (refile (names k)) (progs k)).
Notation acts := (fun k => map erased (progs k)).
Notation dturns := (dturns encode decode code choose' m).

Lemma scope_freed : forall a, In a (f_freed fs) -> nth_error (st_heap (b_state (f_state fs))) a = Some [].
Proof.
  intros a F. pose proof (rel_freed _ _ _ _ _ _ rel a F) as L. apply nth_error_Some in L. destruct (nth_error (st_heap (b_state (f_state fs))) a) as [l|] eqn:E; [|congruence].
  destruct (rel_sizes _ _ _ _ _ _ rel a l E) as [[_ ->]|[N _]]; [reflexivity|contradiction].
Qed.

Lemma scope_owned : owned_apart p owner.
Proof.
  destruct keeps as [K1 K2]. constructor; [exact K1|]. intros k x q j I O E. apply (K2 k x (fst q) j I); [now apply occupies_lives|exact E].
Qed.

Lemma scope_names : forall k made i, nth_error (p_tabs p k ++ made) i = nth_error (st_mats (b_state (f_state fs)) ++ made) (names k i).
Proof.
  intros k made i. apply filed_names. intros x I. destruct lends as [L _]. apply L in I. apply is_live_bound in I.
  pose proof (g_finv _ _ _ steady) as FI.
  rewrite (v_slots _ _ FI), (inv_length _ _ _ (o_inv _ (v_own _ _ FI))) in I. now rewrite (r_mats _ _ (v_rel _ _ FI)).
Qed.

Lemma scope_runs : forall k made left, progs k = made ++ left -> exists fs2 rs2, frun kern m fs (map (refile (names k)) made) = Some (Ok (fs2, rs2)).
Proof.
  intros k made left X. destruct (next_runs kern m fs _ (safe k)) as (fs3 & rs3 & E). rewrite X, map_app in E.
  destruct (frun_part kern m _ _ _ _ E) as (o' & E'). rewrite E'. destruct (prefix_ok kern m _ _ _ _ _ _ E' E) as (fs5 & rs5 & ->). eauto.
Qed.

Definition shown (k : nat) : fstate T := mkFState (mkBState (mkState (st_heap (b_state (f_state fs))) (p_tabs p k)) []) [] [].
Definition hidden (k : nat) : list nat := filter (fun a => negb (visible owner k a)) (seq 0 (length (st_heap (b_state (f_state fs))))).

Lemma hidden_in : forall k a, In a (hidden k) <-> (a < length (st_heap (b_state (f_state fs))))%nat /\ exists j, owner a = Some j /\ j <> k.
Proof.
  intros k a. unfold hidden. rewrite filter_In, in_seq. unfold visible. split.
  - intros [L V]. split; [lia|]. destruct (owner a) as [j|]; [|discriminate]. exists j. split; auto. destruct (Nat.eqb_spec j k); [discriminate|auto].
  - intros (L & j & -> & D). split; [lia|]. destruct (Nat.eqb_spec j k); [congruence|auto].
Qed.

Lemma scope_tied : forall k, tied (st_mats (b_state (f_state fs))) (p_tabs p k) (f_freed fs) fs (shown k).
Proof. intros k. split; [reflexivity|]. split; [exists []; now rewrite !app_nil_r|reflexivity]. Qed.

Lemma scope_curtained : in_memory p -> forall k, curtained (hidden k) (shown k) (alone p owner k).
Proof.
  intros IM k. constructor; cbn [shown alone f_state b_state st_mats st_heap f_freed handed p_heap].
  - reflexivity.
  - split; [split; [apply hide_length|]|].
    + intros a N. rewrite nth_hide. cbn [Nat.add]. destruct (nth_error (st_heap (b_state (f_state fs))) a) as [l|] eqn:E; [|reflexivity]. cbn [option_map].
      destruct (visible owner k a) eqn:V; [reflexivity|]. exfalso. apply N. apply hidden_in. split; [apply nth_error_Some; congruence|].
      unfold visible in V. destruct (owner a) as [j|]; [|discriminate]. exists j. split; auto. destruct (Nat.eqb_spec j k); [discriminate|auto].
    + intros a I. apply hidden_in in I. apply I.
  - reflexivity.
  - apply Forall_forall. intros x I a L J. apply hidden_in in J. destruct J as (_ & j & E & D). apply D. exact (proj2 keeps k x a j I L E).
  - apply Forall_forall. intros x I a L. cbn [st_heap]. rewrite hide_length. exact (IM k x a I L).
  - intros a I. apply hidden_in in I. destruct I as (L & j & E & D). rewrite nth_hide. cbn [Nat.add].
    assert (X : nth_error (st_heap (b_state (f_state fs))) a <> None) by (apply nth_error_Some; exact L).
    destruct (nth_error (st_heap (b_state (f_state fs))) a); [|congruence]. cbn [option_map]. unfold visible. rewrite E. destruct (Nat.eqb_spec j k); [contradiction|reflexivity].
Qed.

Lemma scope_actions : forall k, safe_actions (acts k).
Proof.
  intros k. destruct (safe k) as [S1 S2 _ _]. eapply refile_actions; [exact S1|exact S2].
Qed.

(** What a thread does alone, and its program. *)
Lemma scope_alone : in_memory p -> forall k made left, progs k = made ++ left -> exists fs2 rs2 gs hs,
  frun kern m fs (map (refile (names k)) made) = Some (Ok (fs2, rs2)) /\
  alone_run kern m (shown k) (map erased made) = Ok (gs, call_results made rs2) /\
  alone_run kern m (alone p owner k) (map erased made) = Ok (hs, call_results made rs2) /\
  tied (st_mats (b_state (f_state fs))) (p_tabs p k) (f_freed fs) fs2 gs /\ curtained (hidden k) gs hs.
Proof.
  intros IM k made left X. destruct (scope_runs k made left X) as (fs2 & rs2 & E).
  destruct (tied_run kern (names k) _ _ _ (scope_names k) m made _ _ _ _ (scope_tied k) E) as (gs & A & R).
  assert (SA : safe_actions (map erased made)).
  { pose proof (scope_actions k) as SA. cbv beta in SA. rewrite X, map_app in SA. apply Forall_app in SA. apply SA. }
  destruct (cu_run kern (hidden k) m _ _ _ _ _ SA (scope_curtained IM k) A) as (hs & A' & C). exists fs2, rs2, gs, hs. auto.
Qed.

Lemma scope_plain : in_memory p -> forall k, plain_actions kern m (alone p owner k) (acts k).
Proof.
  intros IM k. destruct (scope_alone IM k (progs k) [] (eq_sym (app_nil_r _))) as (fs2 & rs2 & gs & hs & E & A & _ & _).
  eapply cu_plain; [apply scope_actions|apply (scope_curtained IM)|exact A|].
  eapply (tied_plain kern (names k) _ _ _ (scope_names k)); [apply scope_tied|exact E|].
  exact (next_plain kern m fs _ (safe k)).
Qed.
Lemma scope_defined : in_memory p -> forall k, exists x, alone_run kern m (alone p owner k) (acts k) = Ok x.
Proof.
  intros IM k. destruct (scope_alone IM k (progs k) [] (eq_sym (app_nil_r _))) as (fs2 & rs2 & gs & hs & _ & _ & A & _). eauto.
Qed.

Lemma c78_at : forall place, laid_out decode p place (y_mem (pr_bytes P)) (y_blocks (pr_bytes P)) -> in_memory p -> Threads.apart p ->
  let start := dlaunch p place (y_mem (pr_bytes P)) (y_blocks (pr_bytes P)) acts in
  (forall sched, dturns start sched = NoMemory \/ exists M, dturns start sched = Goes M) /\
  (forall sched M, dturns start sched = Goes M ->
     (~ dbyte_race M /\ ~ free_race code m M /\ ~ double_free code m M) /\
     (forall k a w, dnext_visit (dm_thread M k) = Some (a, w) -> item_of (dm_used M) a) /\
     (forall k, exists made left fs2 rs2 rho,
        progs k = made ++ left /\ map erased left = now_actions (dm_thread M k) ++ dt_left (dm_thread M k) /\
        frun kern m fs (map (refile (names k)) made) = Some (Ok (fs2, rs2)) /\ dt_done (dm_thread M k) = call_results made rs2 /\
        forall i w, nth_error (st_mats (b_state (f_state fs2))) (names k i) = Some w ->
          nth_error (dt_table (dm_thread M k)) i = Some (move_matrix rho w) /\
          (dt_now (dm_thread M k) = None -> forall q v, occupies w q -> hget (st_heap (b_state (f_state fs2))) (fst q) (snd q) = Some v ->
             load decode (dm_mem M) (address (mkPlace (rho (fst q)) (snd q))) = v)) /\
     (forall k, exists n, dturns M (repeat k n) = NoMemory \/
        exists M', dturns M (repeat k n) = Goes M' /\ dt_now (dm_thread M' k) = None /\ dt_left (dm_thread M' k) = []) /\
     ((forall k fs2 rs2 a, frun kern m fs (map (refile (names k)) (progs k)) = Some (Ok (fs2, rs2)) ->
         (a < length (st_heap (b_state (f_state fs2))))%nat -> (length (st_heap (b_state (f_state fs))) <= a)%nat \/ owner a = Some k ->
         In a (f_freed fs2)) ->
      (forall k, dt_now (dm_thread M k) = None /\ dt_left (dm_thread M k) = []) ->
      forall b, In b (dm_used M) <-> exists a l, nth_error (st_heap (b_state (f_state fs))) a = Some l /\ l <> [] /\ owner a = None /\
        b = (place a, N.of_nat (length l)))).
Proof.
  intros place LO IM AP start.
  pose proof scope_owned as OW. pose proof (scope_plain IM) as PL. pose proof (scope_defined IM) as DF.
  split; [exact (c76_defined encode decode coding kern code impl choose' m p acts owner place _ _ LO IM AP OW PL DF)|].
  intros sched M E. split; [|split; [|split; [|split]]].
  - split; [|split].
    + exact (c76_races encode decode coding kern code impl choose' m p acts owner place _ _ LO IM AP OW PL DF sched M E).
    + exact (c76_free_races encode decode coding kern code impl choose' m p acts owner place _ _ LO IM AP OW PL DF sched M E).
    + exact (c76_frees_once encode decode coding kern code impl choose' m p acts owner place _ _ LO IM AP OW PL DF sched M E).
  - intros k a w V. exact (c76_in_use encode decode coding kern code impl choose' m p acts owner place _ _ LO IM AP OW PL DF sched M k a w E V).
  - intros k. destruct (c76_alone encode decode coding kern code impl choose' m p acts owner place _ _ LO IM AP OW PL DF sched M E k) as (made & hs & rho & X & A & TB & MM).
    apply map_eq_app in X. destruct X as (made' & left & X & <- & X2).
    destruct (scope_alone IM k made' left X) as (fs2 & rs2 & gs & hs' & R1 & R2 & R3 & R4 & R5). rewrite A in R3. injection R3 as <- D.
    exists made', left, fs2, rs2, rho. split; [exact X|]. split; [exact X2|]. split; [exact R1|]. split; [exact D|].
    intros i w W. destruct R4 as (R4h & (new & R4a & R4b) & _).
    assert (W' : nth_error (st_mats (b_state (f_state hs))) i = Some w).
    { rewrite (cu_mats _ _ _ R5), R4b, (scope_names k), <- R4a. exact W. }
    split; [rewrite TB; now apply map_nth_error|]. intros N q v O V. destruct (MM N) as [MM1 _]. apply (MM1 w q v); [eapply nth_error_In; exact W'|exact O|].
    rewrite (hrel_hget (hidden k) (st_heap (b_state (f_state gs)))); [now rewrite <- R4h|exact (cu_heap _ _ _ R5)|].
    pose proof (cu_avoid _ _ _ R5) as AV. rewrite Forall_forall in AV. apply (AV w); [rewrite <- (cu_mats _ _ _ R5); eapply nth_error_In; exact W'|now apply occupies_lives].
  - intros k. exact (c76_finishes encode decode coding kern code impl choose' m p acts owner place _ _ LO IM AP OW PL DF sched M k E).
  - intros AF DN b. apply (c76_leaks encode decode coding kern code impl choose' m p acts owner place _ _ LO IM AP OW PL DF) with (2 := E) (3 := DN).
    intros k hs rs3 a l A X NE. destruct (scope_alone IM k (progs k) [] (eq_sym (app_nil_r _))) as (fs2 & rs2 & gs & hs' & R1 & R2 & R3 & R4 & R5).
    cbv beta in A. rewrite A in R3. injection R3 as <- _. destruct (DN k) as [D1 D2]. destruct R4 as (R4h & _ & R4f).
    pose proof (cu_heap _ _ _ R5) as [[CL _] _].
    assert (La : (a < length (st_heap (b_state (f_state fs2))))%nat) by (rewrite R4h, <- CL; apply nth_error_Some; congruence).
    assert (NF : ~ In a (f_freed hs)).
    { intros F. apply NE. exact (c76_freed encode decode coding kern code impl choose' m p acts owner place _ _ LO IM AP OW PL DF sched M E k D1 D2 hs rs3 a l A F X). }
    assert (NO : ~ ((length (st_heap (b_state (f_state fs))) <= a)%nat \/ owner a = Some k)).
    { intros O. pose proof (AF k fs2 rs2 a R1 La O) as F. rewrite R4f in F. apply in_app_or in F. destruct F as [F|F]; [apply NF; now rewrite (cu_freed _ _ _ R5)|].
      apply NE. assert (X1 : nth_error (st_heap (b_state (f_state (alone p owner k)))) a = Some []).
      { cbn [alone f_state b_state st_heap handed p_heap]. rewrite nth_hide. cbn [Nat.add]. rewrite (scope_freed a F). cbn [option_map]. now destruct (visible owner k a). }
      apply (thin_run kern m _ _ _ _ A (cu_placed _ _ _ (scope_curtained IM k))) in X1. congruence. }
    destruct (Nat.le_gt_cases (length (st_heap (b_state (f_state fs)))) a) as [G|G]; [destruct NO; now left|].
    destruct (nth_error (st_heap (b_state (f_state fs))) a) as [l1|] eqn:X1; [|apply nth_error_None in X1; lia].
    destruct (visible owner k a && negb (match l1 with [] => true | _ => false end))%bool eqn:V.
    + apply andb_prop in V. destruct V as [V V1]. split; [|exists l1; split; [exact X1|now destruct l1]].
      unfold visible in V. destruct (owner a) as [j|] eqn:O; [|reflexivity]. destruct (Nat.eqb_spec j k) as [->|]; [destruct NO; now right|discriminate].
    + destruct NE. assert (X2 : nth_error (st_heap (b_state (f_state (alone p owner k)))) a = Some []).
      { cbn [alone f_state b_state st_heap handed p_heap]. rewrite nth_hide. cbn [Nat.add]. rewrite X1. cbn [option_map]. destruct (visible owner k a); [|reflexivity]. now destruct l1. }
      apply (thin_run kern m _ _ _ _ A (cu_placed _ _ _ (scope_curtained IM k))) in X2. congruence.
Qed.

End Scopes.

(** ** Programs that begin with nothing *)

Section FromNothing.
Context {T : Type} {SC : HScalar T} {St : Type} {B : Type}.
Variable encode : T -> list B.
Variable decode : list B -> T.
Hypothesis coding : faithful encode decode.
Variable kern : kernel T.
Variable code : gemm_args T -> prog T unit.
Hypothesis impl : implements code kern.
Variable choose : nat -> nat.
Variable choose' : nat -> nat -> nat.
Variables (m : mode) (M0 : N -> B) (main : list (faction T St)) (fs : fstate T) (rs rs' : list (result T St)) (P : process T B).
Variables (who : nat -> list nat) (owner : nat -> option nat) (progs : nat -> list (faction T St)).
Hypothesis main_safe : safe_program kern m main.
Hypothesis main_runs : frun kern m finitial main = Some (Ok (fs, rs)).
Hypothesis main_bytes : process_run encode decode code choose m (begin_process M0) main = Goes (P, rs').

Lemma main_related : exists rho sigma, FlatHistory.related decode choose rho sigma fs P /\ fine P.
Proof.
  destruct main_safe as [S1 S2 S3 _]. pose proof (c70_products kern m main S1 S2 S3) as PP.
  pose proof (sim_frun encode decode coding choose kern code impl m main _ _ _ _ (begin_related decode choose M0) ltac:(intros b []) PP) as S.
  rewrite main_runs in S. destruct S as [S|(rho & sigma & P' & S & REL & FI & _)]; [congruence|]. assert (P' = P) by congruence. subst P'. eauto.
Qed.
Lemma main_good : exists bs, good m fs bs.
Proof.
  destruct main_safe as [S1 S2 S3 _]. destruct (good_run kern m main _ _ _ (good_initial m) S1 S2 S3 main_runs) as (fs0 & rs0 & bs & X & G). injection X as <- <-. eauto.
Qed.
Lemma main_next : forall more : list (faction T St), safe_program kern m (main ++ more) -> next_safe kern m fs more.
Proof.
  intros more [S1 S2 S3 (o & E)]. rewrite calls_app in S1. rewrite kept_app in S2. apply Forall_app in S1. apply Forall_app in S2.
  rewrite (frun_app kern m main _ _ _ _ main_runs) in E. constructor; [apply S1|apply S2| |].
  - destruct (good_more kern m more main _ _ _ (good_initial m) (proj1 S1) (proj1 S2) S3 main_runs) as (fs0 & rs0 & bs & X & G). injection X as <- <-. eauto.
  - destruct (frun kern m fs more) as [o'|]; [eauto|discriminate].
Qed.

Hypothesis lends : lends_apart (f_state fs) who.
Notation p := (handed (f_state fs) who).
Hypothesis keeps : kept_apart p owner.
Notation names k := (thread_names fs who k).
Hypothesis safe : forall k, safe_program kern m (main ++ map (refile (names k)) (progs k)).
Notation acts := (fun k => map erased (progs k)).
Notation dturns := (dturns encode decode code choose' m).

Lemma c78_scopes : exists place, holds decode place fs P /\
  let start := dlaunch p place (y_mem (pr_bytes P)) (y_blocks (pr_bytes P)) acts in
  (forall sched, dturns start sched = NoMemory \/ exists M, dturns start sched = Goes M) /\
  (forall sched M, dturns start sched = Goes M ->
     (~ dbyte_race M /\ ~ free_race code m M /\ ~ double_free code m M) /\
     (forall k a w, dnext_visit (dm_thread M k) = Some (a, w) -> item_of (dm_used M) a) /\
     (forall k, exists made left fs2 rs2 rho,
        progs k = made ++ left /\ map erased left = now_actions (dm_thread M k) ++ dt_left (dm_thread M k) /\
        frun kern m fs (map (refile (names k)) made) = Some (Ok (fs2, rs2)) /\ dt_done (dm_thread M k) = call_results made rs2 /\
        forall i w, nth_error (st_mats (b_state (f_state fs2))) (names k i) = Some w ->
          nth_error (dt_table (dm_thread M k)) i = Some (move_matrix rho w) /\
          (dt_now (dm_thread M k) = None -> forall q v, occupies w q -> hget (st_heap (b_state (f_state fs2))) (fst q) (snd q) = Some v ->
             load decode (dm_mem M) (address (mkPlace (rho (fst q)) (snd q))) = v)) /\
     (forall k, exists n, dturns M (repeat k n) = NoMemory \/
        exists M', dturns M (repeat k n) = Goes M' /\ dt_now (dm_thread M' k) = None /\ dt_left (dm_thread M' k) = []) /\
     ((forall k fs2 rs2 a, frun kern m fs (map (refile (names k)) (progs k)) = Some (Ok (fs2, rs2)) ->
         (a < length (st_heap (b_state (f_state fs2))))%nat -> (length (st_heap (b_state (f_state fs))) <= a)%nat \/ owner a = Some k ->
         In a (f_freed fs2)) ->
      (forall k, dt_now (dm_thread M k) = None /\ dt_left (dm_thread M k) = []) ->
      forall b, In b (dm_used M) <-> exists a l, nth_error (st_heap (b_state (f_state fs))) a = Some l /\ l <> [] /\ owner a = None /\
        b = (place a, N.of_nat (length l)))).
Proof.
  destruct main_related as (rho & sigma & REL & _). destruct main_good as (bs & G).
  pose proof (related_holds _ _ _ _ _ _ REL) as HO. destruct (start_from T SC B decode choose m fs bs rho sigma P rho who G REL HO lends) as (LO & IM & AP).
  exists rho. split; [exact HO|].
  exact (c78_at encode decode coding kern code impl choose choose' m fs bs rho sigma P who owner progs G REL lends keeps (fun k => main_next _ (safe k)) rho LO IM AP).
Qed.
End FromNothing.
