(** * Property C80: programs with any number of rounds of threads.

    Rust code: data_container.rs:80-225, base_matrix.rs:1-40, matrix_ref.rs:20-78, as in C78 and
    C79, which are about the first round. *)

From Coq Require Import Lia ZifyBool ZifyNat ZifyN.
From Verif Require Import Machine Layouts Memory Matrix MatMul Spec MatrixSpec ExprSpec ProductSpec.
From Verif Require Import Program HistorySpec Borrow Dealloc Threads Interleave Flat FlatThreads FlatDrops FlatPrograms FlatScopes FlatJoins FlatRounds FlatRoundProofs.
From Verif Require Import ZScalar Properties_Products Properties_Borrow Properties_Threads Properties_Interleave Properties_Flat Properties_FlatThreads.
From Verif Require Import Properties_FlatDrops Properties_FlatScopes Properties_FlatJoins.
Local Open Scope N_scope.

(** After any number of rounds the bytes are those of the state with names for allocations;
    and going on alone with accepted safe code gives what it gives there, or there is no
    memory. *)
Theorem C80_alone : forall (T : Type) (SC : HScalar T) (St B : Type) (encode : T -> list B) (decode : list B -> T),
  faithful encode decode ->
  forall kern (code : gemm_args T -> prog T unit), implements code kern ->
  forall m fs P, rounds (St := St) encode decode kern code m fs P -> (exists place, holds decode place fs P) /\
  forall choose (acts : list (faction T St)), goes_on kern m fs acts -> exists fs' rs, frun kern m fs acts = Some (Ok (fs', rs)) /\
    (process_run encode decode code choose m P acts = NoMemory \/
     exists P' place, process_run encode decode code choose m P acts = Goes (P', rs) /\ holds decode place fs' P').
Proof. exact @c80_alone. Qed.
Print Assumptions C80_alone.

(** In every round nothing is undefined and there is no race, whatever the schedule; every
    access is to memory in use, every thread has got what it gets alone after the first
    program, and every thread ends if there is memory. *)
Theorem C80_threads : forall (T : Type) (SC : HScalar T) (St B : Type) (encode : T -> list B) (decode : list B -> T),
  faithful encode decode ->
  forall kern (code : gemm_args T -> prog T unit), implements code kern ->
  forall m fs P, rounds (St := St) encode decode kern code m fs P ->
  forall choose who owner (progs : nat -> list (faction T St)) place, launches kern m fs who owner progs -> holds decode place fs P ->
  (forall sched, dturns encode decode code choose m (started fs P place who progs) sched = NoMemory \/
     exists M, dturns encode decode code choose m (started fs P place who progs) sched = Goes M) /\
  (forall sched M, dturns encode decode code choose m (started fs P place who progs) sched = Goes M ->
     (~ dbyte_race M /\ ~ free_race code m M /\ ~ double_free code m M) /\
     (forall k a w, dnext_visit (dm_thread M k) = Some (a, w) -> item_of (dm_used M) a) /\
     (forall k, exists made left fs2 rs2 rho,
        progs k = made ++ left /\ map erased left = now_actions (dm_thread M k) ++ dt_left (dm_thread M k) /\
        frun kern m fs (map (refile (thread_names fs who k)) made) = Some (Ok (fs2, rs2)) /\ dt_done (dm_thread M k) = call_results made rs2 /\
        forall i w, nth_error (st_mats (b_state (f_state fs2))) (thread_names fs who k i) = Some w ->
          nth_error (dt_table (dm_thread M k)) i = Some (move_matrix rho w) /\
          (dt_now (dm_thread M k) = None -> forall q v, occupies w q -> hget (st_heap (b_state (f_state fs2))) (fst q) (snd q) = Some v ->
             load decode (dm_mem M) (address (mkPlace (rho (fst q)) (snd q))) = v)) /\
     (forall k, exists n, dturns encode decode code choose m M (repeat k n) = NoMemory \/
        exists M', dturns encode decode code choose m M (repeat k n) = Goes M' /\ dt_now (dm_thread M' k) = None /\ dt_left (dm_thread M' k) = [])).
Proof. exact @c80_threads. Qed.
Print Assumptions C80_threads.

(** C80. After every round the program finds items: those that no thread got a writable matrix
    of are as they were, and in what a thread was lent they are what that thread leaves alone.
    With these the program goes on, to other rounds. *)
Theorem C80_join : forall (T : Type) (SC : HScalar T) (St B : Type) (encode : T -> list B) (decode : list B -> T),
  faithful encode decode ->
  forall kern (code : gemm_args T -> prog T unit), implements code kern ->
  forall m fs P, rounds (St := St) encode decode kern code m fs P ->
  forall choose who owner (progs : nat -> list (faction T St)) place xs gs sched M, launches kern m fs who owner progs ->
  gives_back kern m fs who owner progs xs gs -> holds decode place fs P ->
  dturns encode decode code choose m (started fs P place who progs) sched = Goes M -> all_ended M ->
  exists h, found decode gs place M h /\
    (forall q v, hget (st_heap (b_state (f_state gs))) (fst q) (snd q) = Some v ->
       (forall k w, In w (p_tabs (handed (f_state fs) who) k) -> is_writable w = true -> ~ occupies w q) -> hget h (fst q) (snd q) = Some v) /\
    (forall k, exists fs2 rs2, frun kern m fs (map (refile (thread_names fs who k)) (progs k)) = Some (Ok (fs2, rs2)) /\
       dt_done (dm_thread M k) = call_results (progs k) rs2 /\
       forall w q v, In w (p_tabs (handed (f_state fs) who) k) -> occupies w q -> owner (fst q) = None ->
         hget (st_heap (b_state (f_state fs2))) (fst q) (snd q) = Some v -> hget h (fst q) (snd q) = Some v) /\
    rounds (St := St) encode decode kern code m (with_items gs h) (waited gs P M).
Proof. exact @c80_join. Qed.
Print Assumptions C80_join.

(** ** Two rounds

    The program of C79_example; then it copies the first matrix, lends a mutable view of the
    first row of the copy to one thread, and a view of the second matrix to another. *)
Notation ex_rounds := (rounds (St := nat) first_piece from_first ex_kernel last_first Checked).
Definition ex_process (e : effect (process Z Z * list (result Z nat))) : process Z Z := match e with Goes (P, _) => P | _ => begin_process (fun _ => 1%Z) end.
Definition ex_machine (e : effect (dmachine Z nat Z)) : dmachine Z nat Z :=
  match e with Goes M => M | _ => dlaunch (handed (f_state ex_join_state) ex_join_who) (fun a => a) (fun _ => 0%Z) [] (fun _ => []) end.
Definition ex_round_P1 : process Z Z := ex_process (process_run first_piece from_first last_first ex_join_choose Checked (begin_process (fun _ => 1%Z)) ex_join_main).
Definition ex_round_M1 : dmachine Z nat Z :=
  ex_machine (dturns first_piece from_first last_first (fun _ _ => 256%nat) Checked (started ex_join_state ex_round_P1 ex_join_choose ex_join_who ex_join_progs) ex_join_all).
Definition ex_round_again : list (faction Z nat) :=
  [ Act (Do (CGet 0 1 0)); Act (Do (CEval 0)); Act (Do (CBlock true 5 (0, 0) (1, 2))); Act (Do (CBlock false 1 (0, 0) (2, 2))) ].
Definition ex_round_state : fstate Z := Eval vm_compute in ex_scope_end (frun ex_kernel Checked (with_items ex_join_without ex_join_items) ex_round_again).
Definition ex_round_P2 : process Z Z :=
  ex_process (process_run first_piece from_first last_first (fun _ => 192%nat) Checked (waited ex_join_without ex_round_P1 ex_round_M1) ex_round_again).
Definition ex_round_who (k : nat) : list nat := match k with 0%nat => [6%nat] | 1%nat => [7%nat] | _ => [] end.
Definition ex_round_progs (k : nat) : list (faction Z nat) :=
  match k with
  | 0%nat => [ Act (Do (CSet 0 0 1 3%Z)) ]
  | 1%nat => [ Act (Do (CEval 0)); Act (Do (CGet 1 1 0)); Act (Drop 1) ]
  | _ => []
  end.
Definition ex_round_place (a : nat) : nat := match a with 0%nat => 64%nat | 1%nat => 128%nat | _ => 192%nat end.
Definition ex_round_M2 : dmachine Z nat Z :=
  ex_machine (dturns first_piece from_first last_first (fun _ _ => 256%nat) Checked (started ex_round_state ex_round_P2 ex_round_place ex_round_who ex_round_progs)
    ([1%nat; 0%nat; 1%nat; 1%nat] ++ repeat 0%nat 20 ++ repeat 1%nat 60)).

Ltac by_items := let a := fresh in let i := fresh in let v := fresh in let V := fresh in let n := fresh in
  intros a i v V; unfold hget in V; rewrite <- (N2Nat.id i); generalize dependent (N.to_nat i); intros n V;
  do 4 (destruct a as [|a]; [cbn in V; do 4 (destruct n as [|n]; [cbn in V; first [discriminate V|injection V as <-; timeout 300 (vm_compute; reflexivity)]|cbn in V]); destruct n; cbn in V; discriminate V|]);
  destruct a; discriminate V.
Ltac by_apart := let a := fresh in let a' := fresh in let E := fresh in let E' := fresh in let D := fresh in let NE := fresh in let NE' := fresh in let x := fresh in
  intros a a' l l' E E' NE NE' D x; unfold in_block; cbn [fst snd];
  do 4 (destruct a as [|a]; [do 4 (destruct a' as [|a']; [cbn in E, E'; first [discriminate E|discriminate E'|injection E as <-; injection E' as <-; cbn; first [now destruct D|now destruct NE|now destruct NE'|lia]]|]); destruct a'; discriminate E'|]);
  destruct a; discriminate E.

Lemma ex_round_held1 : holds from_first ex_join_choose ex_join_state ex_round_P1.
Proof.
  constructor; [timeout 300 (vm_compute; reflexivity)|timeout 300 (vm_compute; reflexivity)|timeout 300 (vm_compute; reflexivity)|by_items| |by_apart].
  intros b. replace (y_blocks (pr_bytes ex_round_P1)) with [(192%nat, 2); (128%nat, 4); (64%nat, 4)] by (timeout 300 (vm_compute; reflexivity)). split.
  - intros [<-|[<-|[<-|[]]]]; [exists 2%nat|exists 1%nat|exists 0%nat]; eexists; (split; [reflexivity|]); split; try discriminate; reflexivity.
  - intros (a & l & E & NE & ->). do 3 (destruct a as [|a]; [cbn in E; injection E as <-; cbn; auto|]). destruct a; discriminate E.
Qed.
Lemma ex_round_held2 : holds from_first ex_round_place ex_round_state ex_round_P2.
Proof.
  constructor; [timeout 300 (vm_compute; reflexivity)|timeout 300 (vm_compute; reflexivity)|timeout 300 (vm_compute; reflexivity)|by_items| |by_apart].
  intros b. replace (y_blocks (pr_bytes ex_round_P2)) with [(192%nat, 4); (128%nat, 4); (64%nat, 4)] by (timeout 300 (vm_compute; reflexivity)). split.
  - intros [<-|[<-|[<-|[]]]]; [exists 3%nat|exists 1%nat|exists 0%nat]; eexists; (split; [reflexivity|]); split; try discriminate; reflexivity.
  - intros (a & l & E & NE & ->). do 4 (destruct a as [|a]; [cbn in E; injection E as <-; cbn; first [now destruct NE|auto]|]). destruct a; discriminate E.
Qed.
Lemma ex_goes : forall e : effect (dmachine Z nat Z), match e with Goes _ => true | _ => false end = true -> e = Goes (ex_machine e).
Proof. intros [| | |M]; (discriminate || reflexivity). Qed.
Lemma ex_runs : forall e : effect (process Z Z * list (result Z nat)), match e with Goes _ => true | _ => false end = true -> exists rs, e = Goes (ex_process e, rs).
Proof. intros [| | |[P rs]]; try discriminate. intros _. exists rs. reflexivity. Qed.

Lemma ex_round_launch1 : launches ex_kernel Checked ex_join_state ex_join_who ex_join_owner ex_join_progs.
Proof.
  destruct C79_example as (_ & _ & _ & (rs & R) & _ & L & K & _ & S & _). constructor; [exact L|exact K|]. intros k. specialize (S k).
  destruct k as [|[|k]]; (constructor; [repeat constructor; cbn; lia|repeat constructor|now left|eexists; timeout 300 (vm_compute; reflexivity)]).
Qed.
Lemma ex_round_back1 : gives_back ex_kernel Checked ex_join_state ex_join_who ex_join_owner ex_join_progs [4%nat] ex_join_without.
Proof. destruct C79_example as (_ & _ & _ & _ & _ & _ & _ & _ & _ & F & MV & O & _). constructor; [eauto|exact O|exact F]. Qed.

Lemma ex_round_below : forall y x, below (b_slots (f_state ex_round_state)) y x -> (y = 6 \/ y = 7)%nat -> (x = y \/ y = 6 /\ x = 5 \/ y = 7 /\ x = 1)%nat.
Proof.
  intros y x H Y. induction H as [|x z e _ IH I]; [now left|]. destruct Y as [-> | ->]; destruct IH as [-> |[[? ->]|[? ->]]]; try lia; cbn in I; try contradiction;
    destruct I as [I|[]]; injection I as <- _; lia.
Qed.
Lemma ex_round_launch2 : launches ex_kernel Checked ex_round_state ex_round_who (fun _ => None) ex_round_progs.
Proof.
  constructor.
  - split.
    + intros [|[|k]] x H; repeat (destruct H as [<-|H]; [vm_compute; reflexivity|]); destruct H.
    + intros j k x y v D Hx Hy _ _.
      assert (X : (x = 6 /\ y = 7 \/ x = 7 /\ y = 6)%nat).
      { destruct j as [|[|j]], k as [|[|k]]; cbn [ex_round_who In] in Hx, Hy; try (now destruct D); try contradiction; lia. }
      split; intros H; apply ex_round_below in H; lia.
  - split; intros k x a; [|discriminate]. destruct k as [|[|k]]; cbn; intros [<-|[]] O || intros []; destruct O.
  - intros [|[|k]]; (constructor; [repeat constructor; cbn; lia|repeat constructor|now left|eexists; timeout 300 (vm_compute; reflexivity)]).
Qed.
Lemma ex_round_back2 : gives_back ex_kernel Checked ex_round_state ex_round_who (fun _ => None) ex_round_progs [] ex_round_state.
Proof.
  constructor; [eexists; reflexivity| |].
  - intros a l E NE. split; [now intros []|]. cbn. intros [<-|[]]. cbn in E. injection E as <-. now destruct NE.
  - intros [|[|k]] fs rs a E; vm_compute in E; injection E as <- <-; cbn [f_state f_freed b_state st_heap length ex_round_state]; intros L G;
      do 5 (destruct a as [|a]; [cbn in *; (auto || (exfalso; destruct G as [G|G]; [lia|discriminate]))|]); lia.
Qed.

(** The whole history, and what the second round leaves: the copy has the item 3 that was
    written, beside the 8 that the first round left; the block of the thread is free again. *)
Example C80_example :
  ex_rounds ex_join_state ex_round_P1 /\ ex_rounds (with_items ex_join_without ex_join_items) (waited ex_join_without ex_round_P1 ex_round_M1) /\
  ex_rounds ex_round_state ex_round_P2 /\ launches ex_kernel Checked ex_round_state ex_round_who (fun _ => None) ex_round_progs /\
  gives_back ex_kernel Checked ex_round_state ex_round_who (fun _ => None) ex_round_progs [] ex_round_state /\
  ex_rounds (with_items ex_round_state [[8%Z; 0%Z; 7%Z; 4%Z]; [0%Z; 0%Z; 5%Z; 0%Z]; []; [8%Z; 3%Z; 7%Z; 4%Z]]) (waited ex_round_state ex_round_P2 ex_round_M2) /\
  dt_done (dm_thread ex_round_M2 1) = [RNew; RItem 5%Z] /\ dm_used ex_round_M2 = [(192%nat, 4); (128%nat, 4); (64%nat, 4)].
Proof.
  assert (R1 : ex_rounds ex_join_state ex_round_P1).
  { destruct (ex_runs (process_run first_piece from_first last_first ex_join_choose Checked (begin_process (fun _ => 1%Z)) ex_join_main)) as (rs & E); [timeout 300 (vm_compute; reflexivity)|].
    destruct ex_join_safe as [S1 S2 S3 S4]. eapply (GoesOn _ _ _ _ _ finitial _ ex_join_choose ex_join_main); [apply Begins|constructor; [exact S1|exact S2|now left|exact S4]| |exact E].
    timeout 300 (vm_compute; reflexivity). }
  assert (R2 : ex_rounds (with_items ex_join_without ex_join_items) (waited ex_join_without ex_round_P1 ex_round_M1)).
  { eapply (Joins _ _ _ _ _ _ _ (fun _ _ => 256%nat) ex_join_choose); [exact R1|exact ex_round_launch1|exact ex_round_back1|exact ex_round_held1| | |].
    - apply ex_goes. timeout 300 (vm_compute; reflexivity).
    - intros [|[|k]]; split; timeout 300 (vm_compute; reflexivity).
    - split; [intros [|[|[|[|a]]]]; reflexivity|]. unfold ex_join_items. by_items. }
  assert (R3 : ex_rounds ex_round_state ex_round_P2).
  { destruct (ex_runs (process_run first_piece from_first last_first (fun _ => 192%nat) Checked (waited ex_join_without ex_round_P1 ex_round_M1) ex_round_again)) as (rs & E); [timeout 300 (vm_compute; reflexivity)|].
    eapply (GoesOn _ _ _ _ _ _ _ (fun _ => 192%nat) ex_round_again); [exact R2| | |exact E].
    - constructor; [repeat constructor; cbn; lia|repeat constructor|now left|eexists; timeout 300 (vm_compute; reflexivity)].
    - timeout 300 (vm_compute; reflexivity). }
  split; [exact R1|]. split; [exact R2|]. split; [exact R3|]. split; [exact ex_round_launch2|]. split; [exact ex_round_back2|]. split.
  { eapply (Joins _ _ _ _ _ _ _ (fun _ _ => 256%nat) ex_round_place); [exact R3|exact ex_round_launch2|exact ex_round_back2|exact ex_round_held2| | |].
    - apply ex_goes. timeout 300 (vm_compute; reflexivity).
    - intros [|[|k]]; split; timeout 300 (vm_compute; reflexivity).
    - split; [intros [|[|[|[|[|a]]]]]; reflexivity|]. by_items. }
  split; timeout 300 (vm_compute; reflexivity).
Qed.

(** The program has to wait ([all_ended]): before the end of the threads, memory is in use that
    is in no matrix of the program, so its bytes are not those of any state it could go on from. *)
Theorem C80_ended_needed : exists M,
  dturns first_piece from_first last_first (fun _ _ => 256%nat) Checked (started ex_join_state ex_round_P1 ex_join_choose ex_join_who ex_join_progs) [0%nat; 0%nat] = Goes M /\
  ~ all_ended M /\
  forall h place, same_sizes (st_heap (b_state (f_state ex_join_without))) h -> ~ holds from_first place (with_items ex_join_without h) (waited ex_join_without ex_round_P1 M).
Proof.
  eexists. split; [apply ex_goes; timeout 300 (vm_compute; reflexivity)|]. split.
  - intros D. destruct (D 1%nat) as [_ D1]. revert D1. timeout 300 (vm_compute; discriminate).
  - intros h place Z H. pose proof (proj1 (holds_blocks _ _ _ _ H (192%nat, 2))) as X.
    destruct X as (a & l & E & _ & Y); [timeout 300 (vm_compute; auto)|]. cbn [with_items f_state b_state st_heap] in E. specialize (Z a). rewrite E in Z. clear H E.
    injection Y as _ Y. destruct a as [|[|[|a]]]; cbn in Z; [| | |destruct a; discriminate Z]; injection Z as Z; lia.
Qed.
Print Assumptions C80_ended_needed.
