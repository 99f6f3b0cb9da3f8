(** * Property C74: threads on one array of bytes.

    The machine of [FlatThreads]: as in C60 the threads take turns, one access at a time;
    as in C70 memory is one array of bytes with one allocator, which may hand out to one
    thread what a call of another gave back. What the threads do is compared with what each
    of them does alone ([run] of Program.v, from [view p k]). *)

From Coq Require Import Lia ZifyBool ZifyNat ZifyN Permutation.
From Verif Require Import Machine Layouts Memory Matrix MatMul Spec MatrixSpec ExprSpec ProductSpec.
From Verif Require Import Program HistorySpec Borrow Dealloc Threads Interleave Flat FlatThreads FlatThreadProofs.
From Verif Require Import ZScalar Properties_Products Properties_Borrow Properties_Threads Properties_Interleave Properties_Flat.
Local Open Scope N_scope.

(** C74: whatever the schedule and wherever the allocator puts the memory, at every moment
    every thread has got the results that it gets alone, and has the same matrices; when it
    makes no call, every item that it can reach is the same. *)
Theorem C74_alone : forall (T : Type) (SC : HScalar T) (St B : Type) (encode : T -> list B) (decode : list B -> T),
  faithful encode decode ->
  forall kern (code : gemm_args T -> prog T unit), implements code kern ->
  forall choose m p (calls : nat -> list (call T St)) place M0 used0,
  laid_out decode p place M0 used0 -> in_memory p -> Threads.apart p ->
  (forall k, plain_history kern m (view p k) (calls k)) -> (forall k, exists x, run kern m (view p k) (calls k) = Ok x) ->
  forall sched M, turns encode decode code choose m (flaunch p place M0 used0 calls) sched = Goes M ->
  forall k, exists made st rho,
    calls k = made ++ now_calls (fm_thread M k) ++ ft_left (fm_thread M k) /\
    run kern m (view p k) made = Ok (st, ft_done (fm_thread M k)) /\
    ft_table (fm_thread M k) = map (move_matrix rho) (st_mats st) /\
    (ft_now (fm_thread M k) = None -> forall x q v, In x (st_mats st) -> occupies x q ->
       hget (st_heap st) (fst q) (snd q) = Some v -> load decode (fm_mem M) (address (mkPlace (rho (fst q)) (snd q))) = v).
Proof. exact @c74_alone. Qed.
Print Assumptions C74_alone.

(** If no thread alone has undefined behaviour, no schedule has. *)
Theorem C74_defined : forall (T : Type) (SC : HScalar T) (St B : Type) (encode : T -> list B) (decode : list B -> T),
  faithful encode decode ->
  forall kern (code : gemm_args T -> prog T unit), implements code kern ->
  forall choose m p (calls : nat -> list (call T St)) place M0 used0,
  laid_out decode p place M0 used0 -> in_memory p -> Threads.apart p ->
  (forall k, plain_history kern m (view p k) (calls k)) -> (forall k, exists x, run kern m (view p k) (calls k) = Ok x) ->
  forall sched, turns encode decode code choose m (flaunch p place M0 used0 calls) sched = NoMemory \/
    exists M, turns encode decode code choose m (flaunch p place M0 used0 calls) sched = Goes M.
Proof. exact @c74_defined. Qed.
Print Assumptions C74_defined.

(** No two threads are ever about to access a common byte, one of them to write. *)
Theorem C74_races : forall (T : Type) (SC : HScalar T) (St B : Type) (encode : T -> list B) (decode : list B -> T),
  faithful encode decode ->
  forall kern (code : gemm_args T -> prog T unit), implements code kern ->
  forall choose m p (calls : nat -> list (call T St)) place M0 used0,
  laid_out decode p place M0 used0 -> in_memory p -> Threads.apart p ->
  (forall k, plain_history kern m (view p k) (calls k)) -> (forall k, exists x, run kern m (view p k) (calls k) = Ok x) ->
  forall sched M, turns encode decode code choose m (flaunch p place M0 used0 calls) sched = Goes M -> ~ byte_race M.
Proof. exact @c74_races. Qed.
Print Assumptions C74_races.

(** Every access is one of an item of a block that is in use at that time. *)
Theorem C74_in_use : forall (T : Type) (SC : HScalar T) (St B : Type) (encode : T -> list B) (decode : list B -> T),
  faithful encode decode ->
  forall kern (code : gemm_args T -> prog T unit), implements code kern ->
  forall choose m p (calls : nat -> list (call T St)) place M0 used0,
  laid_out decode p place M0 used0 -> in_memory p -> Threads.apart p ->
  (forall k, plain_history kern m (view p k) (calls k)) -> (forall k, exists x, run kern m (view p k) (calls k) = Ok x) ->
  forall sched M k a w, turns encode decode code choose m (flaunch p place M0 used0 calls) sched = Goes M ->
  next_visit (fm_thread M k) = Some (a, w) -> item_of (fm_used M) a.
Proof. exact @c74_in_use. Qed.
Print Assumptions C74_in_use.

(** From every reachable state every thread can make all its calls without help of the
    others, unless the allocator runs out of memory. *)
Theorem C74_finishes : forall (T : Type) (SC : HScalar T) (St B : Type) (encode : T -> list B) (decode : list B -> T),
  faithful encode decode ->
  forall kern (code : gemm_args T -> prog T unit), implements code kern ->
  forall choose m p (calls : nat -> list (call T St)) place M0 used0,
  laid_out decode p place M0 used0 -> in_memory p -> Threads.apart p ->
  (forall k, plain_history kern m (view p k) (calls k)) -> (forall k, exists x, run kern m (view p k) (calls k) = Ok x) ->
  forall sched M k, turns encode decode code choose m (flaunch p place M0 used0 calls) sched = Goes M ->
  exists n, turns encode decode code choose m M (repeat k n) = NoMemory \/
    exists M', turns encode decode code choose m M (repeat k n) = Goes M' /\ ft_now (fm_thread M' k) = None /\ ft_left (fm_thread M' k) = [].
Proof. exact @c74_finishes. Qed.
Print Assumptions C74_finishes.

(** The hypotheses on the start hold when a safe program without split_in_four_mut, run on
    the bytes as in C70, hands out its matrices as in C55: then threads that make safe calls
    have the results they have alone, and do not race. *)
Theorem C74_safe : forall (T : Type) (SC : HScalar T) (St B : Type) kern (encode : T -> list B) (decode : list B -> T),
  faithful encode decode ->
  forall choose choose' (code : gemm_args T -> prog T unit), implements code kern ->
  forall m M (acts : list (faction T St)) fs rs P rs' who (calls' : nat -> list (call T St)),
  Forall safe_call (calls acts) -> Forall no_split (kept acts) -> m = Checked \/ no_wrap_history kern m (@initial T) (calls acts) ->
  frun kern m finitial acts = Some (Ok (fs, rs)) ->
  process_run encode decode code choose m (begin_process M) acts = Goes (P, rs') ->
  lends_apart (f_state fs) who ->
  let p := handed (f_state fs) who in
  (forall k, Forall safe_call (calls' k)) -> (forall k, m = Checked \/ no_wrap_history kern m (view p k) (calls' k)) ->
  (forall k, plain_history kern m (view p k) (calls' k)) ->
  exists place, holds decode place fs P /\
    forall sched, let e := turns encode decode code choose' m (flaunch p place (y_mem (pr_bytes P)) (y_blocks (pr_bytes P)) calls') sched in
      e = NoMemory \/ exists M', e = Goes M' /\ ~ byte_race M' /\
        forall k, exists made st, calls' k = made ++ now_calls (fm_thread M' k) ++ ft_left (fm_thread M' k) /\
          run kern m (view p k) made = Ok (st, ft_done (fm_thread M' k)).
Proof. exact @c74_safe. Qed.
Print Assumptions C74_safe.

(** C60's example on the bytes. The second thread begins with a product of matrices that do
    not fit: it allocates the result, panics and frees it, and the first thread gets the
    same memory (address 256) later. *)
Definition ex_flat_calls (k : nat) : list (call Z nat) :=
  match k with 0%nat => ex_first | 1%nat => CDot MatrixMatrix 0 0 :: ex_second | _ => [] end.
Definition ex_flat_choose (k n : nat) : nat :=
  match k, n with 0%nat, 0%nat => 256%nat | 1%nat, 0%nat => 256%nat | _, _ => (320 + 64 * k + 32 * n)%nat end.
Definition ex_flat_place (a : nat) : nat := (64 * a)%nat.
Definition ex_flat_acts : list (faction Z nat) := map Act ex_lend.
Definition ex_flat_memory : N -> Z :=
  match process_run first_piece from_first last_first ex_flat_place Checked (begin_process (fun _ => 99%Z)) ex_flat_acts with
  | Goes (P, _) => y_mem (pr_bytes P)
  | _ => fun _ => 0%Z
  end.
Definition ex_flat_used : list (nat * N) := [(192%nat, 4); (128%nat, 4); (64%nat, 6); (0%nat, 6)].
Definition ex_flat_run (n : nat) : effect (fmachine Z nat Z) :=
  turns first_piece from_first last_first ex_flat_choose Checked
    (flaunch (handed ex_lent ex_who) ex_flat_place ex_flat_memory ex_flat_used ex_flat_calls) (in_turn n).
Definition told_flat (k : nat) (e : effect (fmachine Z nat Z)) : option (list (result Z nat)) :=
  match e with Goes M => Some (ft_done (fm_thread M k)) | _ => None end.
Definition used_flat (e : effect (fmachine Z nat Z)) : option (list (nat * N)) :=
  match e with Goes M => Some (fm_used M) | _ => None end.

Definition next_flat (k : nat) (e : effect (fmachine Z nat Z)) : option (N * bool) :=
  match e with Goes M => next_visit (fm_thread M k) | _ => None end.

Lemma next_goes : forall k e v, next_flat k e = Some v -> exists M, e = Goes M.
Proof. intros k [| | |M] v H; try discriminate H. eauto. Qed.

Lemma ex_flat_laid : laid_out from_first (handed ex_lent ex_who) ex_flat_place ex_flat_memory ex_flat_used.
Proof.
  assert (LEN : forall a l, nth_error (p_heap (handed ex_lent ex_who)) a = Some l ->
    a = 0%nat /\ length l = 6%nat \/ a = 1%nat /\ length l = 6%nat \/ a = 2%nat /\ length l = 4%nat \/ a = 3%nat /\ length l = 4%nat).
  { intros [|[|[|[|a]]]] l E; vm_compute in E; try (injection E as <-; cbn [length]; auto 10). destruct a; discriminate E. }
  constructor.
  - intros a i v H. rewrite <- (N2Nat.id i) in *. generalize dependent (N.to_nat i). intros k H. unfold hget in H. rewrite Nat2N.id in H.
    destruct a as [|[|[|[|a]]]]; cbn [handed p_heap ex_lent b_state st_heap nth_error] in H; [..|destruct a; discriminate H];
      (destruct k as [|[|[|[|[|[|k]]]]]]; cbn [nth_error] in H; first [discriminate H|injection H as <-; timeout 300 (vm_compute; reflexivity)|destruct k; discriminate H]).
  - intros b. unfold ex_flat_used. split.
    + intros I. cbn [In] in I. destruct I as [<-|[<-|[<-|[<-|[]]]]]; [exists 3%nat|exists 2%nat|exists 1%nat|exists 0%nat]; eexists; (split; [reflexivity|split; [discriminate|reflexivity]]).
    + intros (a & l & E & _ & ->). destruct (LEN a l E) as [[-> ->]|[[-> ->]|[[-> ->]|[-> ->]]]]; cbn; auto 10.
  - unfold ex_flat_used. repeat (apply NoDup_cons; [intros I; repeat (destruct I as [I|I]; [apply (f_equal fst) in I; cbn [fst] in I; lia|]); destruct I|]).
    apply NoDup_nil.
  - intros a a' l l' E E' _ _ D x. destruct (LEN a l E) as [[-> ->]|[[-> ->]|[[-> ->]|[-> ->]]]], (LEN a' l' E') as [[-> ->]|[[-> ->]|[[-> ->]|[-> ->]]]];
      try congruence; unfold in_block, ex_flat_place; cbn [fst snd]; change (item_size (T := Z)) with 8; lia.
  - intros [|[|k]] x [a i] I O; cbn [handed p_tabs ex_who flat_map ex_lent b_state st_mats nth_error app] in I;
      repeat (destruct I as [<-|I]; [cbn in O; destruct O as (-> & _ & O); unfold hget; cbn [fst snd handed p_heap ex_lent b_state st_heap nth_error];
        intros N; apply nth_error_None in N; cbn [length] in N; lia|]); destruct I.
  - intros [|[|k]] x b I Ib; cbn [handed p_tabs ex_who flat_map ex_lent b_state st_mats nth_error app] in I;
      repeat (destruct I as [<-|I]; [cbn in Ib; try contradiction; repeat (destruct Ib as [<-|Ib]; [eexists; split; reflexivity|]); contradiction|]); destruct I.
Qed.

Lemma ex_flat_plain : forall k, plain_history ex_kernel Checked (view (handed ex_lent ex_who) k) (ex_flat_calls k).
Proof.
  pose proof (proj1 (proj2 (proj2 (proj2 C60_example)))) as PL.
  intros [|[|k]]; [exact (PL 0%nat)| |exact Logic.I].
  unfold ex_flat_calls, ex_second. cbn [plain_history]. repeat (split; [exact Logic.I|]; intros). exact Logic.I.
Qed.

Example C74_example :
  faithful first_piece from_first /\ implements last_first ex_kernel /\
  laid_out from_first (handed ex_lent ex_who) ex_flat_place ex_flat_memory ex_flat_used /\
  in_memory (handed ex_lent ex_who) /\ Threads.apart (handed ex_lent ex_who) /\
  (forall k, plain_history ex_kernel Checked (view (handed ex_lent ex_who) k) (ex_flat_calls k)) /\
  (forall k, exists x, run ex_kernel Checked (view (handed ex_lent ex_who) k) (ex_flat_calls k) = Ok x) /\
  (Forall safe_call (calls ex_flat_acts) /\ Forall no_split (kept ex_flat_acts) /\ (forall k, Forall safe_call (ex_flat_calls k)) /\
   (exists fs rs, frun ex_kernel Checked finitial ex_flat_acts = Some (Ok (fs, rs)) /\ f_state fs = ex_lent) /\ lends_apart ex_lent ex_who /\
   seen (process_run first_piece from_first last_first ex_flat_place Checked (begin_process (fun _ => 99%Z)) ex_flat_acts) =
     Some ([RNew; RNew; RNew; RNew; RLoop 6%nat false; RLoop 6%nat false; RNew; RNew], ex_flat_used, ex_flat_used)) /\
  used_flat (ex_flat_run 2) = Some ((256%nat, 6) :: ex_flat_used) /\ used_flat (ex_flat_run 3) = Some ex_flat_used /\
  used_flat (ex_flat_run 90) = Some ((256%nat, 4) :: (416%nat, 4) :: ex_flat_used) /\
  told_flat 0 (ex_flat_run 90) = Some [RDone; RNew; RNew; RDone; RItem 20%Z; RItem 40%Z] /\
  told_flat 1 (ex_flat_run 90) = Some [RPanicked; RDone; RPanicked; RNew; RNew; RNew; RItem 8%Z; RItem 5%Z].
Proof.
  destruct C60_example as (IM & I & A & _). destruct C55_example as (_ & _ & _ & L & _).
  split; [exact first_faithful|]. split; [exact IM|]. split; [exact ex_flat_laid|]. split; [exact I|]. split; [exact A|]. split; [exact ex_flat_plain|].
  split; [intros [|[|k]]; eexists; timeout 300 (vm_compute; reflexivity)|]. split.
  { split; [repeat constructor; cbn; lia|]. split; [repeat constructor|]. split; [intros [|[|k]]; repeat constructor; cbn; lia|].
    split; [do 2 eexists; split; [timeout 300 (vm_compute; reflexivity)|reflexivity]|]. split; [exact L|]. timeout 300 (vm_compute; reflexivity). }
  repeat split; timeout 300 (vm_compute; reflexivity).
Qed.

(** Disjointness is needed, as in C60: safe code on the quarters of split_in_four_mut races on the bytes. *)
Theorem C74_apart_needed : exists (acts : list (faction Z nat)) fs rs who (calls' : nat -> list (call Z nat)) place M0 used0 sched M,
  Forall safe_call (calls acts) /\ frun ex_kernel Checked finitial acts = Some (Ok (fs, rs)) /\ lends_apart (f_state fs) who /\
  (forall k, Forall safe_call (calls' k)) /\
  let p := handed (f_state fs) who in
  laid_out from_first p place M0 used0 /\ in_memory p /\
  (forall k, plain_history ex_kernel Checked (view p k) (calls' k)) /\
  (forall k, exists x, run ex_kernel Checked (view p k) (calls' k) = Ok x) /\
  turns first_piece from_first last_first ex_flat_choose Checked (flaunch p place M0 used0 calls') sched = Goes M /\ byte_race M.
Proof.
  set (acts := [ Act (Do (CZeros KRowMajor 4 4)); Act (Do (CSplit 0 (2, 2))) ] : list (faction Z nat)).
  set (who := fun k => match k with 0%nat => [1%nat] | 1%nat => [2%nat] | _ => [] end).
  set (calls' := fun k => match k with 0%nat => [CSliceWrite 0 2 3 0 9%Z] | 1%nat => [CGet 0 0 0] | _ => [] end : list (call Z nat)).
  destruct (frun ex_kernel Checked finitial acts) as [[[fs rs]| |]|] eqn:E; try (vm_compute in E; discriminate E).
  set (start := flaunch (handed (f_state fs) who) (fun _ => 64%nat) (fun _ => 0%Z) [(64%nat, 16)] calls').
  vm_compute in E. injection E as <- <-.
  assert (V0 : next_flat 0 (turns first_piece from_first last_first ex_flat_choose Checked start [0%nat; 1%nat]) = Some (80, true)) by (timeout 300 (vm_compute; reflexivity)).
  assert (V1 : next_flat 1 (turns first_piece from_first last_first ex_flat_choose Checked start [0%nat; 1%nat]) = Some (80, false)) by (timeout 300 (vm_compute; reflexivity)).
  destruct (next_goes _ _ _ V0) as [M R]. rewrite R in V0, V1. cbn [next_flat] in V0, V1.
  exists acts. do 2 eexists. exists who, calls', (fun _ => 64%nat), (fun _ => 0%Z), [(64%nat, 16)], [0%nat; 1%nat], M.
  split; [repeat constructor; cbn; lia|]. split; [timeout 300 (vm_compute; reflexivity)|]. cbn [f_state].
  split.
  { split.
    + intros [|[|k]] x H; repeat (destruct H as [<-|H]; [vm_compute; reflexivity|]); destruct H.
    + intros [|[|j]] [|[|k]] x y v Hjk Hx Hy Ev Wv; try (now destruct Hjk); try (now destruct Hx); try (now destruct Hy);
        repeat (destruct Hx as [<-|Hx]; [vm_compute in Ev; injection Ev as <-; try discriminate Wv|]); try destruct Hx;
        repeat (destruct Hy as [<-|Hy]; [split; intros B; below_cases B|]); destruct Hy. }
  split; [intros [|[|k]]; repeat constructor|]. cbv zeta. split; [|split; [|split; [|split]]].
  - constructor.
    + intros a i v H. assert (v = 0%Z) as ->; [|reflexivity]. unfold hget in H. destruct a as [|a]; [|destruct a; discriminate H].
      cbn [handed p_heap b_state st_heap nth_error] in H. apply nth_error_In in H. cbn in H. intuition congruence.
    + intros b. split.
      * intros [<-|[]]. exists 0%nat. eexists. split; [reflexivity|]. split; [discriminate|reflexivity].
      * intros ([|a] & l & X & _ & ->); cbn in X; [injection X as <-; now left|destruct a; discriminate X].
    + repeat constructor. auto.
    + intros [|a] [|a'] l l' X X' _ _ D; try congruence; cbn in X, X'; [destruct a'; discriminate X'|destruct a; discriminate X|destruct a; discriminate X].
    + intros [|[|k]] x [a i] I O; vm_compute in I; try destruct I as [<-|[]]; try (now destruct I);
        cbn in O; destruct O as (-> & O1 & O); unfold hget; cbn [fst snd handed p_heap b_state st_heap nth_error];
        intros N; apply nth_error_None in N; cbn [length] in N; lia.
    + intros [|[|k]] x b I Ib; vm_compute in I; [destruct I as [<-|[]]; destruct Ib|destruct I as [<-|[]]; destruct Ib|destruct I].
  - intros [|[|k]] x a Hx Ha; vm_compute in Hx; repeat (destruct Hx as [<-|Hx]; [vm_compute in Ha; subst a; vm_compute; lia|]); destruct Hx.
  - intros [|[|k]]; cbn [calls' plain_history]; repeat (split; [exact I|]; intros); exact I.
  - intros [|[|k]]; eexists; vm_compute; reflexivity.
  - split; [exact R|]. exists 0%nat, 1%nat, 80, true, 80, false, 80. change (item_size (T := Z)) with 8. clear -V0 V1.
    split; [discriminate|]. split; [exact V0|]. split; [exact V1|]. split; [lia|]. split; [lia|]. now left.
Qed.
Print Assumptions C74_apart_needed.
