(** * FlatProgramProofs: proofs about safe programs as threads (C77). *)

From Coq Require Import Lia ZifyBool ZifyNat ZifyN.
From Verif Require Import Machine Layouts Memory Matrix MatMul Spec MatrixSpec ExprSpec ProductSpec.
From Verif Require Import Program HistorySpec Borrow Dealloc DeallocProofs Threads Interleave Flat FlatThreads FlatHistory FlatProducts FlatDrops FlatDropProofs FlatPrograms.

Section Same.
Context {T : Type} {SC : HScalar T} {St : Type}.
Variable kern : kernel T.

Definition both (o o' : outcome (fstate T)) : Prop :=
  match o, o' with Ok fs, Ok gs => same_memory fs gs | Panic, Panic | UB, UB => True | _, _ => False end.

Lemma same_free_all : forall l (fs gs : fstate T), same_memory fs gs -> both (free_all fs l) (free_all gs l).
Proof.
  induction l as [|a l IH]; intros fs gs [E F]; cbn [free_all]; [split; auto|]. unfold free. rewrite <- F.
  destruct (mem (f_freed fs) a); cbn [bind both]; [exact I|]. apply IH. split; cbn [f_state f_freed set_heap b_state]; congruence.
Qed.

Lemma same_destroy : forall x (fs gs : fstate T), same_memory fs gs -> both (destroy fs x) (destroy gs x).
Proof.
  intros x fs gs [E F]. unfold destroy. rewrite <- E. destruct (nth_error _ x); [|split; auto]. apply same_free_all. split; auto.
Qed.

Lemma same_destroy_all : forall xs (fs gs : fstate T), same_memory fs gs -> both (destroy_all fs xs) (destroy_all gs xs).
Proof.
  induction xs as [|x xs IH]; intros fs gs H; cbn [destroy_all]; [exact H|]. pose proof (same_destroy x fs gs H) as D.
  destruct (destroy fs x), (destroy gs x); cbn [bind both] in *; try contradiction; auto.
Qed.

(** What a step call_results to the caller. *)
Definition stepped (fa : faction T St) (o : outcome (fstate T * list (result T St))) (o' : outcome (fstate T * list (result T St))) : Prop :=
  match o, o' with
  | Ok (fs, rs), Ok (gs, rs') => same_memory fs gs /\ (forall acts rest, call_results (fa :: acts) (rs ++ rest) = rs' ++ call_results acts rest)
  | Panic, Panic | UB, UB => True
  | _, _ => False
  end.

Lemma same_step : forall m fs gs (fa : faction T St) o, same_memory fs gs -> fstep kern m fs fa = Some o ->
  stepped fa o (alone_step kern m gs (erased fa)).
Proof.
  intros m fs gs [[c|x]|x] o [E F] H; cbn [fstep bstep erased alone_step] in *.
  - destruct (admit_uses _ _) as [bt|]; [|discriminate]. injection H as <-. rewrite <- E.
    destruct (step kern m (b_state (f_state fs)) c) as [[st r]| |]; cbn [bind stepped]; auto.
    assert (D : r <> RNew -> stepped (Act (Do c))
      (fs' <- destroy_all (mkFState (mkBState st bt) (f_gone fs) (f_freed fs)) (moved (Do c)) ;; Ok (fs', [r]))
      (fs' <- destroy_all (mkFState (mkBState st []) (f_gone gs) (f_freed gs)) (moved (Do c)) ;; Ok (fs', [r]))).
    { intros _. pose proof (same_destroy_all (moved (Do c)) (mkFState (mkBState st bt) (f_gone fs) (f_freed fs)) (mkFState (mkBState st []) (f_gone gs) (f_freed gs))) as D.
      specialize (D (conj eq_refl F)). destruct (destroy_all _ _), (destroy_all _ _); cbn [bind both stepped] in *; try contradiction; auto. }
    destruct r; cbn [consumed] in *; try (apply D; discriminate). cbn [destroy_all bind stepped]. split; [split; [reflexivity|exact F]|]. reflexivity.
  - destruct (admit_uses _ _) as [bt|]; [|discriminate]. injection H as <-. cbn [bind moved destroy_all].
    pose proof (same_destroy x (mkFState (mkBState (b_state (f_state fs)) bt) (f_gone fs) (f_freed fs)) gs (conj E F)) as D.
    destruct (destroy _ x), (destroy gs x); cbn [bind both stepped] in *; try contradiction; auto.
  - destruct (_ && _ && _)%bool; [|discriminate]. injection H as <-.
    pose proof (same_destroy x fs gs (conj E F)) as D. destruct (destroy fs x), (destroy gs x); cbn [bind both stepped] in *; try contradiction; auto.
Qed.

Lemma same_run : forall m (acts : list (faction T St)) fs gs o, same_memory fs gs -> frun kern m fs acts = Some o ->
  match o with
  | Ok (fs', rs) => exists gs', alone_run kern m gs (map erased acts) = Ok (gs', call_results acts rs) /\ same_memory fs' gs'
  | Panic => alone_run kern m gs (map erased acts) = Panic
  | UB => alone_run kern m gs (map erased acts) = UB
  end.
Proof.
  intros m acts. induction acts as [|a acts IH]; intros fs gs o H E; cbn [frun map alone_run] in *.
  - injection E as <-. exists gs. split; auto.
  - destruct (fstep kern m fs a) as [o1|] eqn:S; [|discriminate]. pose proof (same_step m fs gs a o1 H S) as R.
    destruct o1 as [[fs1 r1]| |]; destruct (alone_step kern m gs (erased a)) as [[gs1 r2]| |]; cbn [stepped] in R; try contradiction; cbn [bind].
    + destruct R as [R A]. destruct (frun kern m fs1 acts) as [o2|] eqn:E2; [|discriminate]. injection E as <-. pose proof (IH fs1 gs1 o2 R E2) as I.
      destruct o2 as [[fs2 rs2]| |]; cbn [bind].
      * destruct I as (gs2 & -> & R2). cbn [bind]. exists gs2. rewrite A. auto.
      * now rewrite I.
      * now rewrite I.
    + injection E as <-. reflexivity.
    + injection E as <-. reflexivity.
Qed.

Lemma same_plain : forall m (acts : list (faction T St)) fs gs o, same_memory fs gs -> frun kern m fs acts = Some o ->
  plain_products kern m fs acts -> plain_actions kern m gs (map erased acts).
Proof.
  intros m acts. induction acts as [|a acts IH]; intros fs gs o H E PP; cbn [frun map plain_actions plain_products] in *; [exact I|].
  destruct PP as [P1 P2]. destruct (fstep kern m fs a) as [o1|] eqn:S; [|discriminate]. split.
  - destruct a as [[c|x]|x]; cbn [erased]; auto. cbn [fstep bstep] in S. destruct (admit_uses _ _) as [bt|]; [|discriminate].
    rewrite <- (proj1 H). exact (P1 bt eq_refl).
  - intros gs1 r1 A. pose proof (same_step m fs gs a o1 H S) as R. rewrite A in R.
    destruct o1 as [[fs1 r]| |]; cbn [stepped] in R; try contradiction.
    destruct (frun kern m fs1 acts) as [o2|] eqn:E2; [|discriminate]. eapply IH; [exact (proj1 R)|exact E2|]. eapply P2. reflexivity.
Qed.

(** Programs that are beginnings of admitted ones are admitted. *)
Lemma frun_part : forall m (acts acts' : list (faction T St)) fs o, frun kern m fs (acts ++ acts') = Some o ->
  exists o', frun kern m fs acts = Some o'.
Proof.
  intros m acts acts'. induction acts as [|a acts IH]; intros fs o E; cbn [frun app] in *; [eauto|].
  destruct (fstep kern m fs a) as [[[fs1 r]| |]|]; eauto. destruct (frun kern m fs1 (acts ++ acts')) as [o2|] eqn:E2; [|discriminate].
  destruct (IH _ _ E2) as (o' & ->). eauto.
Qed.

End Same.

Section Programs.
Context {T : Type} {SC : HScalar T} {St : Type} {B : Type}.
Variable encode : T -> list B.
Variable decode : list B -> T.
Hypothesis coding : faithful encode decode.
Variable kern : kernel T.
Variable code : gemm_args T -> prog T unit.
Hypothesis impl : implements code kern.
Variable choose : nat -> nat -> nat.
Variables (m : mode) (progs : nat -> list (faction T St)) (place : nat -> nat) (M0 : N -> B).
Hypothesis safe : forall k, safe_program kern m (progs k).
Notation acts := (fun k => map erased (progs k)).
Notation dturns := (dturns encode decode code choose m).
Notation start := (dlaunch no_pool place M0 [] acts).

Lemma none_laid : laid_out decode (@no_pool T) place M0 [].
Proof.
  constructor; cbn [no_pool p_heap p_tabs].
  - intros [|a] i v H; discriminate H.
  - intros b. split; [intros []|]. intros ([|a] & l & X & _); discriminate X.
  - constructor.
  - intros [|a] a' l l' X; discriminate X.
  - intros k x q [].
  - intros k x b [].
Qed.
Lemma none_inside : in_memory (@no_pool T).
Proof. intros k x a []. Qed.
Lemma none_apart : Threads.apart (@no_pool T).
Proof. intros j k x y q _ []. Qed.
Lemma none_owned : owned_apart (@no_pool T) nobody.
Proof. constructor; [intros k x a []|intros k x q j []]. Qed.

Lemma begins : forall k, same_memory (finitial (T := T)) (alone no_pool nobody k).
Proof. intros k. split; reflexivity. Qed.

Lemma runs : forall k, exists fs rs, frun kern m finitial (progs k) = Some (Ok (fs, rs)).
Proof.
  intros k. destruct (safe k) as [S _ W (o & E)]. destruct (c54_safe kern m _ S W o E) as (fs & rs & ->). eauto.
Qed.

Lemma programs_plain : forall k, plain_actions kern m (alone no_pool nobody k) (acts k).
Proof.
  intros k. destruct (safe k) as [S SP W (o & E)]. eapply same_plain; [apply begins|exact E|]. now apply c70_products.
Qed.
Lemma programs_defined : forall k, exists x, alone_run kern m (alone no_pool nobody k) (acts k) = Ok x.
Proof.
  intros k. destruct (runs k) as (fs & rs & E). destruct (same_run kern m _ _ _ _ (begins k) E) as (gs & A & _). eauto.
Qed.

Lemma c77_defined : forall sched, dturns start sched = NoMemory \/ exists M, dturns start sched = Goes M.
Proof.
  exact (c76_defined encode decode coding kern code impl choose m no_pool acts nobody place M0 [] none_laid none_inside none_apart none_owned programs_plain programs_defined).
Qed.

Lemma c77_alone : forall sched M, dturns start sched = Goes M ->
  forall k, exists made left fs rs rho,
    progs k = made ++ left /\ map erased left = now_actions (dm_thread M k) ++ dt_left (dm_thread M k) /\
    frun kern m finitial made = Some (Ok (fs, rs)) /\ dt_done (dm_thread M k) = call_results made rs /\
    dt_table (dm_thread M k) = map (move_matrix rho) (st_mats (b_state (f_state fs))) /\
    (dt_now (dm_thread M k) = None ->
       (forall x q v, In x (st_mats (b_state (f_state fs))) -> occupies x q ->
         hget (st_heap (b_state (f_state fs))) (fst q) (snd q) = Some v ->
         load decode (dm_mem M) (address (mkPlace (rho (fst q)) (snd q))) = v) /\
       (forall a l, nth_error (st_heap (b_state (f_state fs))) a = Some l -> l <> [] -> In (rho a, N.of_nat (length l)) (dm_used M))).
Proof.
  intros sched M E k.
  destruct (c76_alone encode decode coding kern code impl choose m no_pool acts nobody place M0 [] none_laid none_inside none_apart none_owned programs_plain programs_defined sched M E k)
    as (made & gs & rho & X & A & TB & MM).
  apply map_eq_app in X. destruct X as (made' & left & X & <- & X2).
  destruct (safe k) as [S _ W (o & EO)]. rewrite X in S, W, EO. destruct (frun_part kern m made' left _ _ EO) as (o' & E').
  destruct (runs k) as (fs0 & rs0 & E0). rewrite X in E0.
  assert (exists fs rs, o' = Ok (fs, rs)) as (fs & rs & ->).
  { clear - E' E0. revert E' E0. generalize (finitial (T := T)) as f. revert o' fs0 rs0. induction made' as [|a l IH]; intros o' fs0 rs0 f E' E0; cbn [app frun] in *.
    - injection E' as <-. eauto.
    - destruct (fstep kern m f a) as [[[f1 r1]| |]|]; try discriminate. destruct (frun kern m f1 l) as [o1|] eqn:E1; [|discriminate].
      destruct (frun kern m f1 (l ++ left)) as [[[f2 r2]| |]|] eqn:E2; cbn [bind] in E0; try discriminate. injection E' as <-.
      destruct (IH _ _ _ _ E1 E2) as (f3 & r3 & ->). cbn [bind]. eauto. }
  destruct (same_run kern m _ _ _ _ (begins k) E') as (gs' & A' & SM). rewrite A in A'. injection A' as <- D.
  exists made', left, fs, rs, rho. split; [exact X|]. split; [exact X2|]. split; [exact E'|]. split; [exact D|].
  destruct SM as [-> _]. split; [exact TB|exact MM].
Qed.

Lemma c77_races : forall sched M, dturns start sched = Goes M -> ~ dbyte_race M /\ ~ free_race code m M /\ ~ double_free code m M.
Proof.
  intros sched M E. split; [|split].
  - exact (c76_races encode decode coding kern code impl choose m no_pool acts nobody place M0 [] none_laid none_inside none_apart none_owned programs_plain programs_defined sched M E).
  - exact (c76_free_races encode decode coding kern code impl choose m no_pool acts nobody place M0 [] none_laid none_inside none_apart none_owned programs_plain programs_defined sched M E).
  - exact (c76_frees_once encode decode coding kern code impl choose m no_pool acts nobody place M0 [] none_laid none_inside none_apart none_owned programs_plain programs_defined sched M E).
Qed.

Lemma c77_in_use : forall sched M k a w, dturns start sched = Goes M -> dnext_visit (dm_thread M k) = Some (a, w) -> item_of (dm_used M) a.
Proof.
  exact (c76_in_use encode decode coding kern code impl choose m no_pool acts nobody place M0 [] none_laid none_inside none_apart none_owned programs_plain programs_defined).
Qed.

Lemma c77_finishes : forall sched M k, dturns start sched = Goes M -> exists n,
  dturns M (repeat k n) = NoMemory \/ exists M', dturns M (repeat k n) = Goes M' /\ dt_now (dm_thread M' k) = None /\ dt_left (dm_thread M' k) = [].
Proof.
  exact (c76_finishes encode decode coding kern code impl choose m no_pool acts nobody place M0 [] none_laid none_inside none_apart none_owned programs_plain programs_defined).
Qed.

Lemma c77_leaks : (forall k fs rs a, frun kern m finitial (progs k) = Some (Ok (fs, rs)) ->
    (a < length (st_heap (b_state (f_state fs))))%nat -> In a (f_freed fs)) ->
  forall sched M, dturns start sched = Goes M -> (forall k, dt_now (dm_thread M k) = None /\ dt_left (dm_thread M k) = []) -> dm_used M = [].
Proof.
  intros AF sched M E DN. destruct (dm_used M) as [|b l] eqn:U; [reflexivity|exfalso].
  assert (IB : In b (dm_used M)) by (rewrite U; now left).
  pose proof (fun CL => proj1 (c76_leaks encode decode coding kern code impl choose m no_pool acts nobody place M0 [] none_laid none_inside none_apart none_owned programs_plain programs_defined CL sched M E DN b) IB) as LK.
  destruct LK as ([|a] & l0 & X & _); try discriminate X.
  - intros k gs rs a l0 A X NE. exfalso. apply NE. destruct (DN k) as [D1 D2]. destruct (runs k) as (fs & rs0 & R).
    destruct (same_run kern m _ _ _ _ (begins k) R) as (gs' & A' & [SM1 SM2]). rewrite A in A'. injection A' as <- _.
    refine (c76_freed encode decode coding kern code impl choose m no_pool acts nobody place M0 [] none_laid none_inside none_apart none_owned programs_plain programs_defined
      sched M E k D1 D2 gs rs a l0 A _ X).
    rewrite <- SM2. eapply AF; [exact R|]. rewrite SM1. apply nth_error_Some. congruence.
Qed.
End Programs.

(** Every program without raw pointers can be made to free all it allocates. *)
Lemma calls_app : forall (T St : Type) (l l' : list (faction T St)), calls (l ++ l') = calls l ++ calls l'.
Proof. intros. unfold calls. apply flat_map_app. Qed.
Lemma kept_app : forall (T St : Type) (l l' : list (faction T St)), kept (l ++ l') = kept l ++ kept l'.
Proof. intros. unfold kept. apply flat_map_app. Qed.
Lemma ending_calls : forall (T St : Type) (l : list (faction T St)), Forall ending l -> calls l = [] /\ Forall no_split (kept l).
Proof.
  intros T St l H. induction H as [|a l H _ [I1 I2]]; [split; [reflexivity|constructor]|]. destruct a as [[c|x]|x]; try contradiction.
  - split; [exact I1|]. cbn. constructor; [exact I|exact I2].
  - split; [exact I1|exact I2].
Qed.

Lemma c77_ends : forall (T : Type) (SC : HScalar T) (St : Type) (kern : kernel T) m (acts : list (faction T St)), safe_program kern m acts -> Forall no_pointers (kept acts) ->
  exists acts', Forall ending acts' /\ safe_program kern m (acts ++ acts') /\
    forall fs rs a, frun kern m finitial (acts ++ acts') = Some (Ok (fs, rs)) -> (a < length (st_heap (b_state (f_state fs))))%nat -> In a (f_freed fs).
Proof.
  intros T SC St kern m acts [S SP W (o & E)] NP. destruct (c54_safe kern m _ S W o E) as (fs & rs & ->).
  destruct (c54_leak kern m acts fs rs NP E) as (acts' & fs' & rs' & N & E' & L & A). destruct (ending_calls _ _ _ N) as [C K].
  exists acts'. split; [exact N|]. split.
  - constructor; rewrite ?calls_app, ?kept_app, ?C, ?app_nil_r; auto. apply Forall_app; auto. eauto.
  - intros fs2 rs2 a E2. rewrite E' in E2. injection E2 as <- <-. rewrite L. apply A.
Qed.
