(** * Property C79: what a program finds after its threads.

    A program of safe code lends matrices to threads as in C78, waits for their end and goes
    on. Here its own matrices are looked at, through the places where they were. *)

From Coq Require Import Lia ZifyBool ZifyNat ZifyN.
From Verif Require Import Machine Layouts Memory Matrix MatMul Spec MatrixSpec ExprSpec ProductSpec.
From Verif Require Import Program HistorySpec Borrow Dealloc Threads Interleave Flat FlatThreads FlatDrops FlatPrograms FlatScopes FlatJoins FlatJoinProofs.
From Verif Require Import ZScalar Properties_Products Properties_Borrow Properties_Threads Properties_Interleave Properties_Flat Properties_FlatThreads.
From Verif Require Import Properties_FlatDrops Properties_FlatScopes.
Local Open Scope N_scope.

(** At every moment and after every schedule, an item of the first program that no thread got
    a writable matrix of is as it was. When a thread makes no call, the items of what it was
    handed are those that the first program leaves there if it goes on as that thread did,
    alone. *)
Theorem C79_after : forall (T : Type) (SC : HScalar T) (St B : Type) (encode : T -> list B) (decode : list B -> T),
  faithful encode decode ->
  forall kern (code : gemm_args T -> prog T unit), implements code kern ->
  forall choose choose' m M0 (main : list (faction T St)) fs rs rs' P who owner (progs : nat -> list (faction T St)),
  safe_program kern m main -> frun kern m finitial main = Some (Ok (fs, rs)) ->
  process_run encode decode code choose m (begin_process M0) main = Goes (P, rs') ->
  lends_apart (f_state fs) who -> kept_apart (handed (f_state fs) who) owner ->
  (forall k, safe_program kern m (main ++ map (refile (thread_names fs who k)) (progs k))) ->
  exists place, holds decode place fs P /\
  forall sched M, dturns encode decode code choose' m
    (dlaunch (handed (f_state fs) who) place (y_mem (pr_bytes P)) (y_blocks (pr_bytes P)) (fun k => map erased (progs k))) sched = Goes M ->
  (forall q v, hget (st_heap (b_state (f_state fs))) (fst q) (snd q) = Some v -> owner (fst q) = None ->
     (forall k w, In w (p_tabs (handed (f_state fs) who) k) -> is_writable w = true -> ~ occupies w q) ->
     load decode (dm_mem M) (address (mkPlace (place (fst q)) (snd q))) = v) /\
  (forall k, dt_now (dm_thread M k) = None -> exists made left fs2 rs2,
     progs k = made ++ left /\ map erased left = dt_left (dm_thread M k) /\
     frun kern m fs (map (refile (thread_names fs who k)) made) = Some (Ok (fs2, rs2)) /\ dt_done (dm_thread M k) = call_results made rs2 /\
     forall w q v, In w (p_tabs (handed (f_state fs) who) k) -> occupies w q -> hget (st_heap (b_state (f_state fs2))) (fst q) (snd q) = Some v ->
       load decode (dm_mem M) (address (mkPlace (place (fst q)) (snd q))) = v).
Proof. exact @c79_after. Qed.
Print Assumptions C79_after.

(** C79. The first program moves the matrices [xs] to threads (none, if it only lends), and the
    threads free these and what they make. When all have ended, it goes on with any safe code
    that the borrow checker accepts without [xs]: the only way not to go on is that there is no
    memory, and it gets what it gets with names for allocations, from its state before the
    threads without [xs] and but for the items. These are what each thread alone leaves in what
    it was lent, and what was there before in the rest. *)
Theorem C79_join : forall (T : Type) (SC : HScalar T) (St B : Type) (encode : T -> list B) (decode : list B -> T),
  faithful encode decode ->
  forall kern (code : gemm_args T -> prog T unit), implements code kern ->
  forall choose choose' m M0 (main : list (faction T St)) fs rs rs' P who owner (progs : nat -> list (faction T St)),
  safe_program kern m main -> frun kern m finitial main = Some (Ok (fs, rs)) ->
  process_run encode decode code choose m (begin_process M0) main = Goes (P, rs') ->
  lends_apart (f_state fs) who -> kept_apart (handed (f_state fs) who) owner ->
  (forall k, safe_program kern m (main ++ map (refile (thread_names fs who k)) (progs k))) ->
  forall xs gs (rsd : list (result T St)), moved_out kern m fs xs = Some (Ok (gs, rsd)) -> owns_moved fs gs owner ->
  (forall k fs2 rs2 a, frun kern m fs (map (refile (thread_names fs who k)) (progs k)) = Some (Ok (fs2, rs2)) ->
     (a < length (st_heap (b_state (f_state fs2))))%nat -> (length (st_heap (b_state (f_state fs))) <= a)%nat \/ owner a = Some k -> In a (f_freed fs2)) ->
  exists place, holds decode place fs P /\
  forall sched M, dturns encode decode code choose' m
    (dlaunch (handed (f_state fs) who) place (y_mem (pr_bytes P)) (y_blocks (pr_bytes P)) (fun k => map erased (progs k))) sched = Goes M ->
  all_ended M ->
  exists h, same_sizes (st_heap (b_state (f_state gs))) h /\
    (forall q v, hget (st_heap (b_state (f_state gs))) (fst q) (snd q) = Some v ->
       (forall k w, In w (p_tabs (handed (f_state fs) who) k) -> is_writable w = true -> ~ occupies w q) -> hget h (fst q) (snd q) = Some v) /\
    (forall k, exists fs2 rs2, frun kern m fs (map (refile (thread_names fs who k)) (progs k)) = Some (Ok (fs2, rs2)) /\
       dt_done (dm_thread M k) = call_results (progs k) rs2 /\
       forall w q v, In w (p_tabs (handed (f_state fs) who) k) -> occupies w q -> owner (fst q) = None ->
         hget (st_heap (b_state (f_state fs2))) (fst q) (snd q) = Some v -> hget h (fst q) (snd q) = Some v) /\
    forall choose2 (rest : list (faction T St)), Forall safe_call (calls rest) -> Forall no_split (kept rest) ->
      m = Checked \/ (forall h', no_wrap_history kern m (mkState h' (st_mats (b_state (f_state fs)))) (calls rest)) ->
      (exists o, frun kern m (with_items gs h) rest = Some o) ->
      exists hs rs2, frun kern m (with_items gs h) rest = Some (Ok (hs, rs2)) /\
        (process_run encode decode code choose2 m (waited gs P M) rest = NoMemory \/
         exists P2 place2, process_run encode decode code choose2 m (waited gs P M) rest = Goes (P2, rs2) /\ holds decode place2 hs P2).
Proof. exact @c79_join. Qed.
Print Assumptions C79_join.

(** [owns_moved] is what [hands_over] (C78) says when [xs] are the matrices with memory of their
    own among those that are handed out. *)
Theorem C79_moves : forall (T : Type) (SC : HScalar T) (St B : Type) (encode : T -> list B) (decode : list B -> T),
  faithful encode decode ->
  forall kern (code : gemm_args T -> prog T unit), implements code kern ->
  forall choose m M0 (main : list (faction T St)) fs rs rs' P who owner,
  safe_program kern m main -> frun kern m finitial main = Some (Ok (fs, rs)) ->
  process_run encode decode code choose m (begin_process M0) main = Goes (P, rs') ->
  forall xs gs (rsd : list (result T St)), hands_over fs who owner -> moved_out kern m fs xs = Some (Ok (gs, rsd)) ->
  (forall x v, nth_error (st_mats (b_state (f_state fs))) x = Some v -> owned v <> [] -> (In x xs <-> exists k, In x (who k))) ->
  owns_moved fs gs owner.
Proof. exact @c79_moves. Qed.
Print Assumptions C79_moves.

(** Three matrices. One thread gets a mutable view of the first column of the first one, and
    writes items; the other gets a view of the second one, which it evaluates, and the third
    one by value. Then the first program reads its matrices again, and makes one where the
    third one was. *)
Definition ex_join_main : list (faction Z nat) :=
  [ Act (Do (CZeros KRowMajor 2 2)); Act (Do (CSet 0 1 1 4%Z)); Act (Do (CZeros KRowMajor 2 2)); Act (Do (CSet 1 1 0 5%Z));
    Act (Do (CBlock true 0 (0, 0) (2, 1))); Act (Do (CBlock false 1 (0, 0) (2, 2)));
    Act (Do (CZeros KRowMajor 1 2)) ].
Definition ex_join_who (k : nat) : list nat := match k with 0%nat => [2%nat] | 1%nat => [3%nat; 4%nat] | _ => [] end.
Definition ex_join_owner (a : nat) : option nat := match a with 2%nat => Some 1%nat | _ => None end.
Definition ex_join_choose (n : nat) : nat := match n with 0%nat => 64%nat | 1%nat => 128%nat | _ => 192%nat end.
Definition ex_join_progs (k : nat) : list (faction Z nat) :=
  match k with
  | 0%nat => [ Act (Do (CSet 0 1 0 7%Z)); Act (Do (CSet 0 0 0 8%Z)) ]
  | 1%nat => [ Act (Do (CEval 0)); Act (Do (CSet 2 0 0 9%Z)); Act (Do (CSet 1 0 1 6%Z)); Act (Do (CGet 2 1 0)); Act (Drop 2); Act (Drop 1) ]
  | _ => []
  end.
Definition ex_join_rest : list (faction Z nat) :=
  [ Act (Do (CGet 0 1 0)); Act (Do (CGet 0 0 0)); Act (Do (CGet 0 1 1)); Act (Do (CGet 1 0 0)); Act (Do (CEval 0)); Act (Do (CGet 5 1 0)); Act (Drop 0) ].
Definition ex_join_state : fstate Z := Eval vm_compute in ex_scope_end (frun ex_kernel Checked finitial ex_join_main).
Definition ex_join_without : fstate Z := Eval vm_compute in ex_scope_end (moved_out ex_kernel Checked ex_join_state [4%nat]).
Definition ex_join_items : list (list Z) := [[8%Z; 0%Z; 7%Z; 4%Z]; [0%Z; 0%Z; 5%Z; 0%Z]; []].
Definition ex_join_all : list nat := [0%nat; 1%nat; 1%nat] ++ repeat 0%nat 60 ++ repeat 1%nat 60.
(** The first program goes on after the schedule [sched]. *)
Definition ex_join_run (sched : list nat) : effect (dmachine Z nat Z * effect (process Z Z * list (result Z nat))) :=
  match process_run first_piece from_first last_first ex_join_choose Checked (begin_process (fun _ => 1%Z)) ex_join_main with
  | Goes (P, _) =>
      match dturns first_piece from_first last_first (fun _ _ => 256%nat) Checked
        (dlaunch (handed (f_state ex_join_state) ex_join_who) ex_join_choose (y_mem (pr_bytes P)) (y_blocks (pr_bytes P)) (fun k => map erased (ex_join_progs k))) sched with
      | Goes M => Goes (M, process_run first_piece from_first last_first (fun _ => 192%nat) Checked (waited ex_join_without P M) ex_join_rest)
      | _ => NoMemory
      end
  | _ => NoMemory
  end.
Definition ex_join_told (sched : list nat) : option (list (result Z nat) * list (nat * N)) :=
  match ex_join_run sched with Goes (_, Goes (P, rs)) => Some (rs, y_blocks (pr_bytes P)) | _ => None end.
Definition ex_join_ended (sched : list nat) : bool :=
  match ex_join_run sched with
  | Goes (M, _) => forallb (fun k => match dt_now (dm_thread M k), dt_left (dm_thread M k) with None, [] => true | _, _ => false end) [0%nat; 1%nat]
  | _ => false
  end.

Lemma ex_join_safe : safe_program ex_kernel Checked ex_join_main.
Proof. constructor; [repeat constructor; cbn; lia|repeat constructor|now left|eexists; timeout 300 (vm_compute; reflexivity)]. Qed.

Lemma ex_join_loans : forall y x, below (b_slots (f_state ex_join_state)) y x -> (y = 2 \/ y = 3 \/ y = 4)%nat -> (x = y \/ y < 4 /\ x = y - 2)%nat.
Proof.
  intros y x H Y. induction H as [|x z e _ IH I]; [now left|]. destruct Y as [-> |[-> | ->]]; destruct IH as [-> |[L ->]]; cbn in I; try contradiction;
    try lia; destruct I as [I|[]]; injection I as <- _; right; split; lia.
Qed.
Lemma ex_join_below : forall y x, (y = 2 /\ (x = 3 \/ x = 4) \/ (y = 3 \/ y = 4) /\ x = 2)%nat -> ~ below (b_slots (f_state ex_join_state)) y x.
Proof. intros y x X H. apply ex_join_loans in H; lia. Qed.

(** The hypotheses, and what the first program reads: if it waits, what the threads wrote. If
    it goes on before they end ([all_ended] fails), it reads items that are not
    written yet, and the memory of what it moved is not free. *)
Example C79_example :
  faithful first_piece from_first /\ implements last_first ex_kernel /\ safe_program ex_kernel Checked ex_join_main /\
  (exists rs, frun ex_kernel Checked finitial ex_join_main = Some (Ok (ex_join_state, rs))) /\
  seen (process_run first_piece from_first last_first ex_join_choose Checked (begin_process (fun _ => 1%Z)) ex_join_main) =
    Some ([RNew; RDone; RNew; RDone; RNew; RNew; RNew], [(192%nat, 2); (128%nat, 4); (64%nat, 4)], [(192%nat, 2); (128%nat, 4); (64%nat, 4)]) /\
  lends_apart (f_state ex_join_state) ex_join_who /\ kept_apart (handed (f_state ex_join_state) ex_join_who) ex_join_owner /\
  map (map is_writable) (map (p_tabs (handed (f_state ex_join_state) ex_join_who)) [0%nat; 1%nat]) = [[true]; [false; true]] /\
  (forall k, safe_program ex_kernel Checked (ex_join_main ++ map (refile (thread_names ex_join_state ex_join_who k)) (ex_join_progs k))) /\
  (forall k fs2 rs2 a, frun ex_kernel Checked ex_join_state (map (refile (thread_names ex_join_state ex_join_who k)) (ex_join_progs k)) = Some (Ok (fs2, rs2)) ->
     (a < length (st_heap (b_state (f_state fs2))))%nat -> (length (st_heap (b_state (f_state ex_join_state))) <= a)%nat \/ ex_join_owner a = Some k -> In a (f_freed fs2)) /\
  moved_out ex_kernel Checked ex_join_state [4%nat] = Some (Ok (ex_join_without, [RDone (St := nat)])) /\ owns_moved ex_join_state ex_join_without ex_join_owner /\
  Forall safe_call (calls ex_join_rest) /\ Forall no_split (kept ex_join_rest) /\
  (exists o, frun ex_kernel Checked (with_items ex_join_without ex_join_items) ex_join_rest = Some o) /\
  frun ex_kernel Checked (with_items ex_join_without ex_join_items) [Act (Do (CGet (St := nat) 4 0 0))] = None /\
  same_sizes (st_heap (b_state (f_state ex_join_without))) ex_join_items /\
  ex_join_ended ex_join_all = true /\
  ex_join_told ex_join_all = Some ([RItem 7%Z; RItem 8%Z; RItem 4%Z; RItem 0%Z; RNew; RItem 7%Z; RDone], [(192%nat, 4); (128%nat, 4)]) /\
  ex_join_ended [0%nat; 0%nat] = false /\
  ex_join_told [0%nat; 0%nat] = None /\ ex_join_ended (repeat 1%nat 60) = false /\
  ex_join_told (repeat 1%nat 60) = Some ([RItem 0%Z; RItem 0%Z; RItem 4%Z; RItem 0%Z; RNew; RItem 0%Z; RDone], [(192%nat, 4); (128%nat, 4)]).
Proof.
  destruct C60_example as (IM & _). split; [exact first_faithful|]. split; [exact IM|]. split; [exact ex_join_safe|].
  split; [eexists; timeout 300 (vm_compute; reflexivity)|]. split; [timeout 300 (vm_compute; reflexivity)|]. split.
  { split.
    + intros [|[|k]] x H; repeat (destruct H as [<-|H]; [vm_compute; reflexivity|]); destruct H.
    + intros j k x y v D Hx Hy _ _.
      assert (X : (x = 2 /\ (y = 3 \/ y = 4) \/ (x = 3 \/ x = 4) /\ y = 2)%nat).
      { destruct j as [|[|j]], k as [|[|k]]; cbn [ex_join_who In] in Hx, Hy; try (now destruct D); try contradiction; lia. }
      split; apply ex_join_below; lia. }
  split.
  { split; intros k x a; [destruct k as [|[|k]]; cbn; [| |intros []]; intros H O;
      repeat (destruct H as [<-|H]; [first [now destruct O|destruct O as [<-|[]]; reflexivity]|]); destruct H|].
    intros j H L O. destruct a as [|[|[|a]]]; try discriminate. injection O as <-.
    destruct k as [|[|k]]; cbn in H; [exfalso| reflexivity |destruct H]. destruct H as [<-|[]]. cbn in L. intuition discriminate. }
  split; [reflexivity|]. split.
  { intros [|[|k]]; (constructor; [repeat constructor; cbn; lia|repeat constructor|now left|eexists; timeout 300 (vm_compute; reflexivity)]). }
  split.
  { intros [|[|k]] fs rs a E; vm_compute in E; injection E as <- <-; cbn [f_state f_freed b_state st_heap length ex_join_state]; intros L G;
      do 4 (destruct a as [|a]; [cbn in *; (auto || (exfalso; destruct G as [G|G]; [lia|discriminate]))|]); lia. }
  split; [timeout 300 (vm_compute; reflexivity)|]. split.
  { intros a l E NE. destruct a as [|[|[|a]]]; cbn in E; [| | |now destruct a]; cbn; split; (intros X; first [now destruct X|now left|(intros; discriminate)|(destruct X as [X|[]]; discriminate)]). }
  split; [repeat constructor; cbn; lia|]. split; [repeat constructor|]. split; [eexists; timeout 300 (vm_compute; reflexivity)|].
  split; [timeout 300 (vm_compute; reflexivity)|]. split; [intros [|[|[|[|a]]]]; reflexivity|]. repeat split; timeout 300 (vm_compute; reflexivity).
Qed.

(** The hypotheses of C79_moves for the same program. *)
Example C79_moves_example :
  hands_over ex_join_state ex_join_who ex_join_owner /\
  (forall x v, nth_error (st_mats (b_state (f_state ex_join_state))) x = Some v -> owned v <> [] -> (In x [4%nat] <-> exists k, In x (ex_join_who k))).
Proof.
  split; [split|].
  - intros a k. split.
    + destruct a as [|[|[|a]]]; try discriminate. intros E. injection E as <-. exists 4%nat. eexists. split; [right; now left|]. split; [reflexivity|]. now left.
    + intros (x & v & I & E & O). destruct k as [|[|k]]; cbn [ex_join_who In] in I.
      * destruct I as [<-|[]]. injection E as <-. destruct O.
      * destruct I as [<-|[<-|[]]]; injection E as <-; [destruct O|]. destruct O as [<-|[]]. reflexivity.
      * destruct I.
  - intros k x v I E O. destruct k as [|[|k]]; cbn [ex_join_who In] in I.
    + destruct I as [<-|[]]. injection E as <-. now destruct O.
    + destruct I as [<-|[<-|[]]]; injection E as <-; [now destruct O|]. eexists. split; [timeout 300 (vm_compute; reflexivity)|].
      intros [|[|j]] y D Y; cbn [ex_join_who In] in Y; [|now destruct D|destruct Y]. destruct Y as [<-|[]]. reflexivity.
    + destruct I.
  - intros x v E O. split.
    + intros [<-|[]]. exists 1%nat. right. now left.
    + intros (k & I). destruct k as [|[|k]]; cbn [ex_join_who In] in I.
      * destruct I as [<-|[]]. injection E as <-. now destruct O.
      * destruct I as [<-|[<-|[]]]; injection E as <-; [now destruct O|now left].
      * destruct I.
Qed.
