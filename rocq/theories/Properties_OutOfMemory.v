(** * Property C75: memory runs out only when there is none.

    C70 and C74 say what runs on the bytes return unless they end with [NoMemory]. Here:
    when they do. The blocks that are asked for are those of [OutOfMemory]. *)

From Coq Require Import Lia ZifyBool ZifyNat ZifyN.
From Verif Require Import Machine Layouts Memory Matrix MatMul Spec MatrixSpec ExprSpec ProductSpec.
From Verif Require Import Program HistorySpec Borrow Dealloc Threads Interleave Flat FlatHistory FlatThreads FlatThreadProofs OutOfMemory OutOfMemoryProofs.
From Verif Require Import ZScalar Properties_Products Properties_Borrow Properties_Threads Properties_Interleave Properties_Flat Properties_FlatThreads.
Local Open Scope N_scope.

(** C75: a history ends with [NoMemory] only if it asked for a block that leaves the address
    space or has a byte in common with a block in use at that time. *)
Theorem C75_refused : forall (T : Type) (SC : HScalar T) (St B : Type) (encode : T -> list B) (decode : list B -> T)
    (code : gemm_args T -> prog T unit) choose m M (acts : list (faction T St)),
  process_run encode decode code choose m (begin_process M) acts = NoMemory ->
  exists b Y, asks encode decode code choose m (begin_process M) acts b Y /\ not_free b (y_blocks Y).
Proof. exact @c75_refused. Qed.
Print Assumptions C75_refused.

(** If it goes to its end, all the blocks it asked for were free. *)
Theorem C75_granted : forall (T : Type) (SC : HScalar T) (St B : Type) (encode : T -> list B) (decode : list B -> T)
    (code : gemm_args T -> prog T unit) choose m M (acts : list (faction T St)) x b Y,
  process_run encode decode code choose m (begin_process M) acts = Goes x ->
  asks encode decode code choose m (begin_process M) acts b Y -> ~ not_free b (y_blocks Y).
Proof. exact @c75_granted. Qed.
Print Assumptions C75_granted.

(** For every defined history there is an allocator with which it goes to its end, with the
    results of C54; the addresses are not null, and multiples of the size of an item.
    Unless all items that were ever asked for, and one more, do not fit in the address space. *)
Theorem C75_runs : forall (T : Type) (SC : HScalar T) (St B : Type) (encode : T -> list B) (decode : list B -> T),
  faithful encode decode ->
  forall kern (code : gemm_args T -> prog T unit), implements code kern ->
  forall m M (acts : list (faction T St)) fs rs, plain_products kern m finitial acts ->
  frun kern m finitial acts = Some (Ok (fs, rs)) ->
  exists choose, (forall n, exists k, 0 < k /\ N.of_nat (choose n) = k * item_size) /\
   ((exists place P, process_run encode decode code choose m (begin_process M) acts = Goes (P, rs) /\ holds decode place fs P) \/
    exists b Y, asks encode decode code choose m (begin_process M) acts b Y /\ usize_mod < (1 + items (y_log Y) + snd b) * item_size).
Proof. exact @c75_runs. Qed.
Print Assumptions C75_runs.

(** The same for threads, from any state: memory runs out only if a thread is about to ask
    for a block that is not free, *)
Theorem C75_threads_refused : forall (T : Type) (SC : HScalar T) (St B : Type) (encode : T -> list B) (decode : list B -> T)
    (code : gemm_args T -> prog T unit) choose m sched (M : fmachine T St B),
  (forall b, In b (fm_used M) -> snd b <> 0) -> turns encode decode code choose m M sched = NoMemory ->
  exists s1 k s2 M1 b, sched = s1 ++ k :: s2 /\ turns encode decode code choose m M s1 = Goes M1 /\
    next_request choose k (fm_thread M1 k) = Some b /\ not_free b (fm_used M1).
Proof. exact @turns_refused. Qed.
Print Assumptions C75_threads_refused.

Theorem C75_threads_granted : forall (T : Type) (SC : HScalar T) (St B : Type) (encode : T -> list B) (decode : list B -> T)
    (code : gemm_args T -> prog T unit) choose m s1 k s2 (M M1 M2 : fmachine T St B) b,
  turns encode decode code choose m M (s1 ++ k :: s2) = Goes M2 -> turns encode decode code choose m M s1 = Goes M1 ->
  next_request choose k (fm_thread M1 k) = Some b -> ~ not_free b (fm_used M1).
Proof. exact @turns_granted. Qed.
Print Assumptions C75_threads_granted.

(** and for every schedule there is an allocator with which the threads go on to its end:
    it gives them the memory behind the address [base], behind which nothing is in use.
    Unless the items that were given to the threads, and those asked for, do not fit there. *)
Theorem C75_threads : forall (T : Type) (SC : HScalar T) (St B : Type) (encode : T -> list B) (decode : list B -> T),
  faithful encode decode ->
  forall kern (code : gemm_args T -> prog T unit), implements code kern ->
  forall m p (calls : nat -> list (call T St)) place M0 used0,
  laid_out decode p place M0 used0 -> in_memory p -> Threads.apart p ->
  (forall k, plain_history kern m (view p k) (calls k)) -> (forall k, exists x, run kern m (view p k) (calls k) = Ok x) ->
  forall base, (forall b, In b used0 -> N.of_nat (fst b) + snd b * item_size <= base) ->
  forall sched, let start := flaunch p place M0 used0 calls in
  exists choose, (forall k n, exists j, N.of_nat (choose k n) = base + j * item_size) /\
   ((exists M, turns encode decode code choose m start sched = Goes M) \/
    exists s1 k s2 M1 b, sched = s1 ++ k :: s2 /\ turns encode decode code choose m start s1 = Goes M1 /\
      next_request choose k (fm_thread M1 k) = Some b /\
      usize_mod < base + (items (given encode decode code choose m start s1) + snd b) * item_size).
Proof. exact @c75_threads. Qed.
Print Assumptions C75_threads.

(** What the second matrix of C70's example asks for when the allocator knows only one
    address, and what a freed block is asked for later: the states by their blocks. *)
Definition ex_asked (choose : nat -> nat) (n : nat) : option (list ((nat * N) * list (nat * N))) :=
  match process_run first_piece from_first last_first choose Checked (begin_process (fun _ => 99%Z)) (firstn n ex_reuse), nth_error ex_reuse n with
  | Goes (P, _), Some a => Some (map (fun r => (fst r, y_blocks (snd r))) (step_requests first_piece from_first last_first choose Checked P a))
  | _, _ => None
  end.

Lemma asked_asks : forall choose n l b used, ex_asked choose n = Some l -> In (b, used) l ->
  exists Y, asks first_piece from_first last_first choose Checked (begin_process (fun _ => 99%Z)) ex_reuse b Y /\ y_blocks Y = used.
Proof.
  intros choose n l b used E I. unfold ex_asked in E.
  destruct (process_run first_piece from_first last_first choose Checked (begin_process (fun _ => 99%Z)) (firstn n ex_reuse)) as [| | |[P rs]] eqn:R; try discriminate E.
  destruct (nth_error ex_reuse n) as [a|] eqn:A; [|discriminate E]. apply (f_equal (fun o => match o with Some x => x | None => [] end)) in E. cbv beta iota in E. subst l.
  apply in_map_iff in I. destruct I as ([b' Y] & E & I). cbn [fst snd] in E. injection E as <- <-. exists Y. split; [|reflexivity].
  apply nth_error_split in A. destruct A as (l1 & l2 & EA & EL). exists l1, a, l2, P, rs. split; [exact EA|]. split; [|exact I].
  rewrite <- R. f_equal. rewrite EA. rewrite firstn_app, <- EL, Nat.sub_diag, firstn_O, app_nil_r. symmetry. apply firstn_all.
Qed.

Example C75_example :
  process_run first_piece from_first last_first fixed Checked (begin_process (fun _ => 99%Z)) ex_reuse = NoMemory /\
  (exists Y, asks first_piece from_first last_first fixed Checked (begin_process (fun _ => 99%Z)) ex_reuse (8%nat, 4) Y /\ y_blocks Y = [(8%nat, 4)]) /\
  not_free (T := Z) (8%nat, 4) [(8%nat, 4)] /\
  (exists Y, asks first_piece from_first last_first reusing Checked (begin_process (fun _ => 99%Z)) ex_reuse (64%nat, 6) Y /\ y_blocks Y = [(128%nat, 4)]) /\
  (exists x, process_run first_piece from_first last_first reusing Checked (begin_process (fun _ => 99%Z)) ex_reuse = Goes x) /\
  plain_products ex_kernel Checked finitial ex_reuse /\ (exists fs rs, frun ex_kernel Checked finitial ex_reuse = Some (Ok (fs, rs))).
Proof.
  destruct C70_example as (_ & _ & _ & PP & _ & _ & F & R & _ & NM).
  split; [exact NM|]. split.
  { apply (asked_asks fixed 2 [((8%nat, 4), [(8%nat, 4)])]); [timeout 300 (vm_compute; reflexivity)|now left]. }
  split. { split; [discriminate|]. right. exists (8%nat, 4), 8. split; [now left|]. unfold in_block. cbn [fst snd]. change (item_size (T := Z)) with 8. lia. }
  split. { apply (asked_asks reusing 10 [((64%nat, 6), [(128%nat, 4)])]); [timeout 300 (vm_compute; reflexivity)|now left]. }
  split. { destruct (process_run first_piece from_first last_first reusing Checked (begin_process (fun _ => 99%Z)) ex_reuse) as [| | |x]; try discriminate R. now exists x. }
  split; [exact PP|exact F].
Qed.

(** The threads of C74's example, with memory behind the address 224; and with an allocator
    that gives all of them the memory at the address 192, which is in use. *)
Definition ex_full (n : nat) : effect (fmachine Z nat Z) :=
  turns first_piece from_first last_first (fun _ _ => 192%nat) Checked
    (flaunch (handed ex_lent ex_who) ex_flat_place ex_flat_memory ex_flat_used ex_flat_calls) (in_turn n).

Example C75_threads_example :
  (forall b, In b ex_flat_used -> snd b <> 0) /\ (forall b, In b ex_flat_used -> N.of_nat (fst b) + snd b * item_size (T := Z) <= 224) /\
  ex_full 90 = NoMemory /\ (exists M, ex_flat_run 90 = Goes M) /\ laid_out from_first (handed ex_lent ex_who) ex_flat_place ex_flat_memory ex_flat_used /\
  option_map (@length (nat * N)) (match ex_flat_run 90 with Goes _ => Some (given first_piece from_first last_first ex_flat_choose Checked
    (flaunch (handed ex_lent ex_who) ex_flat_place ex_flat_memory ex_flat_used ex_flat_calls) (in_turn 90)) | _ => None end) = Some 3%nat.
Proof.
  split; [intros b I; cbn [ex_flat_used In] in I; repeat (destruct I as [<-|I]; [discriminate|]); destruct I|].
  split; [intros b I; cbn [ex_flat_used In] in I; change (item_size (T := Z)) with 8; repeat (destruct I as [<-|I]; [cbn [fst snd]; lia|]); destruct I|].
  split; [timeout 300 (vm_compute; reflexivity)|].
  split. { assert (U : used_flat (ex_flat_run 90) = Some ((256%nat, 4) :: (416%nat, 4) :: ex_flat_used)) by (timeout 300 (vm_compute; reflexivity)).
    destruct (ex_flat_run 90) as [| | |M]; try discriminate U. now exists M. }
  split; [exact ex_flat_laid|]. timeout 300 (vm_compute; reflexivity).
Qed.
