(** * Property C70: results do not depend on where memory lies.

    The machine of [Flat]: one array of bytes, loads and stores possible everywhere, an
    allocator that may hand out freed memory again. The histories and the results they
    are compared with are those of [Dealloc] (C54), where every allocation has a name. *)

From Coq Require Import Lia ZifyBool ZifyNat ZifyN Permutation.
From Verif Require Import Machine Layouts Memory Matrix MatMul Spec MatrixSpec ExprSpec ProductSpec.
From Verif Require Import Program HistorySpec Borrow Dealloc Threads Interleave Flat FlatHistory FlatProducts.
From Verif Require Import ZScalar Properties_Products Properties_Borrow Properties_Interleave.
Local Open Scope N_scope.

(** C70: if the history is defined, the process gets to its end with the same results and
    the same matrices, whatever the allocator and the memory at the beginning, unless the
    allocator runs out of memory. *)
Theorem C70_same : forall (T : Type) (SC : HScalar T) (St B : Type) (encode : T -> list B) (decode : list B -> T),
  faithful encode decode ->
  forall choose kern (code : gemm_args T -> prog T unit), implements code kern ->
  forall m M (acts : list (faction T St)) fs rs, plain_products kern m finitial acts ->
  frun kern m finitial acts = Some (Ok (fs, rs)) ->
  process_run encode decode code choose m (begin_process M) acts = NoMemory \/
  exists place P, process_run encode decode code choose m (begin_process M) acts = Goes (P, rs) /\ holds decode place fs P.
Proof. exact @c70_same. Qed.
Print Assumptions C70_same.

(** Histories that are not programs are the same. *)
Theorem C70_rejected : forall (T : Type) (SC : HScalar T) (St B : Type) (encode : T -> list B) (decode : list B -> T),
  faithful encode decode ->
  forall choose kern (code : gemm_args T -> prog T unit), implements code kern ->
  forall m M (acts : list (faction T St)), plain_products kern m finitial acts ->
  frun kern m finitial acts = None ->
  process_run encode decode code choose m (begin_process M) acts = Rejected \/
  process_run encode decode code choose m (begin_process M) acts = NoMemory.
Proof. exact @c70_rejected. Qed.
Print Assumptions C70_rejected.

(** Safe histories are defined: no block is freed that is not in use. *)
Theorem C70_safe : forall (T : Type) (SC : HScalar T) (St B : Type) (encode : T -> list B) (decode : list B -> T),
  faithful encode decode ->
  forall choose kern (code : gemm_args T -> prog T unit), implements code kern ->
  forall m M (acts : list (faction T St)), Forall safe_call (calls acts) ->
  m = Checked \/ no_wrap_history kern m (@initial T) (calls acts) -> plain_products kern m finitial acts ->
  process_run encode decode code choose m (begin_process M) acts <> Undefined.
Proof. exact @c70_safe. Qed.
Print Assumptions C70_safe.

(** Two runs of a safe history, with other allocators, other bytes for the items, other
    memory at the beginning and other gemm routines for the same products, return the same. *)
Theorem C70_independent : forall (T : Type) (SC : HScalar T) (St B B' : Type)
    (encode : T -> list B) (decode : list B -> T) (encode' : T -> list B') (decode' : list B' -> T)
    choose choose' (code code' : gemm_args T -> prog T unit) kern m M M' (acts : list (faction T St)) P rs,
  faithful encode decode -> faithful encode' decode' -> implements code kern -> implements code' kern ->
  Forall safe_call (calls acts) -> m = Checked \/ no_wrap_history kern m (@initial T) (calls acts) ->
  plain_products kern m finitial acts ->
  process_run encode decode code choose m (begin_process M) acts = Goes (P, rs) ->
  process_run encode' decode' code' choose' m (begin_process M') acts = NoMemory \/
  exists P', process_run encode' decode' code' choose' m (begin_process M') acts = Goes (P', rs).
Proof. exact @c70_independent. Qed.
Print Assumptions C70_independent.

(** No byte is written that the allocator did not hand out. *)
Theorem C70_bytes : forall (T : Type) (SC : HScalar T) (St B : Type) (encode : T -> list B) (decode : list B -> T),
  faithful encode decode ->
  forall choose kern (code : gemm_args T -> prog T unit), implements code kern ->
  forall m M (acts : list (faction T St)) fs rs P rs', plain_products kern m finitial acts ->
  frun kern m finitial acts = Some (Ok (fs, rs)) ->
  process_run encode decode code choose m (begin_process M) acts = Goes (P, rs') ->
  (forall b, In b (y_log (pr_bytes P)) -> snd b = 0 \/ N.of_nat (fst b) + snd b * item_size <= usize_mod) /\
  (forall b, In b (y_blocks (pr_bytes P)) -> In b (y_log (pr_bytes P))) /\
  forall x, (forall b, In b (y_log (pr_bytes P)) -> ~ in_block b x) -> y_mem (pr_bytes P) x = M x.
Proof. exact @c70_bytes. Qed.
Print Assumptions C70_bytes.

(** Without raw pointers all memory can be given back at any time, by ending scopes. *)
Theorem C70_no_leak : forall (T : Type) (SC : HScalar T) (St B : Type) (encode : T -> list B) (decode : list B -> T),
  faithful encode decode ->
  forall choose kern (code : gemm_args T -> prog T unit), implements code kern ->
  forall m M (acts : list (faction T St)) fs rs P, Forall no_pointers (kept acts) -> plain_products kern m finitial acts ->
  frun kern m finitial acts = Some (Ok (fs, rs)) ->
  process_run encode decode code choose m (begin_process M) acts = Goes (P, rs) ->
  exists (acts' : list (faction T St)) P' rs', Forall ending acts' /\
    process_run encode decode code choose m P acts' = Goes (P', rs') /\ y_blocks (pr_bytes P') = [].
Proof. exact @c70_leak. Qed.
Print Assumptions C70_no_leak.

(** The hypothesis on products holds for safe histories without split_in_four_mut: the
    ownership rules keep the result apart from the operands. *)
Theorem C70_products : forall (T : Type) (SC : HScalar T) (St : Type) kern m (acts : list (faction T St)),
  Forall safe_call (calls acts) -> Forall no_split (kept acts) ->
  m = Checked \/ no_wrap_history kern m (@initial T) (calls acts) -> plain_products kern m finitial acts.
Proof. exact @c70_products. Qed.
Print Assumptions C70_products.

(** It says nothing about histories without [matmul]. *)
Theorem C70_plain : forall (T : Type) (SC : HScalar T) (St : Type) kern m (acts : list (faction T St)) fs,
  (forall alpha a b beta c, ~ In (Act (Do (CMatmul alpha a b beta c))) acts) -> plain_products kern m fs acts.
Proof. exact @c70_plain. Qed.
Print Assumptions C70_plain.

(** Two ways to write an integer in eight pieces. *)
Definition first_piece (v : Z) : list Z := v :: repeat 0%Z 7.
Definition last_piece (v : Z) : list (option Z) := repeat None 7 ++ [Some v].
Definition from_first (l : list Z) : Z := hd 0%Z l.
Definition from_last (l : list (option Z)) : Z := match last l None with Some v => v | None => 0%Z end.

(** An allocator that uses the same addresses again, one that does not, and one that
    puts everything at one address. *)
Definition reusing (n : nat) : nat := nth n [64; 128; 64; 64; 256; 128]%nat 512%nat.
Definition upwards (n : nat) : nat := (1000 + 64 * n)%nat.
Definition fixed (n : nat) : nat := 8%nat.

(** A sum of two matrices is evaluated and dropped with what it owns. Their memory is used
    again, with the old items in it; [zeros] clears it. A sum of matrices of different size
    panics and frees them. *)
Definition ex_reuse : list (faction Z nat) :=
  [ Act (Do (CZeros KRowMajor 2 2)); Act (Do (CSet 0 0 1 5%Z)); Act (Do (CZeros KRowMajor 2 2)); Act (Do (CSet 1 0 1 6%Z)); Act (Drop 0);
    Act (Do (CZeros KRowMajor 2 2)); Act (Do (CGet 2 0 1)); Act (Do (CSet 2 0 1 7%Z)); Act (Do (CGet 1 0 1)); Act (Drop 2);
    Act (Do (CZeros KRowMajor 3 2)); Act (Do (CPlus ByValue ByValue 1 3)); 
    Act (Do (CZeros KRowMajor 2 2)); Act (Do (CSet 4 1 1 3%Z)); Act (Do (CScalarTimes 2%Z ByReference 4)); Act (Do (CEval 5)); Act (Do (CGet 6 1 1)) ].

Definition seen {B : Type} (e : effect (process Z B * list (result Z nat))) :
  option (list (result Z nat) * list (nat * N) * list (nat * N)) :=
  match e with Goes (P, rs) => Some (rs, y_blocks (pr_bytes P), y_log (pr_bytes P)) | _ => None end.

Lemma first_faithful : faithful first_piece from_first.
Proof. intros v. split; reflexivity. Qed.
Lemma last_faithful : faithful last_piece from_last.
Proof. intros v. split; reflexivity. Qed.
Lemma no_products : forall (acts : list (faction Z nat)), forallb (fun a => match a with Act (Do (CMatmul _ _ _ _ _)) => false | _ => true end) acts = true ->
  forall m fs, plain_products ex_kernel m fs acts.
Proof.
  intros acts H m fs. apply C70_plain. intros alpha a b beta c I. rewrite forallb_forall in H. specialize (H _ I). discriminate H.
Qed.
Lemma last_implements : implements last_first ex_kernel.
Proof. apply C60_orders. intros; apply Permutation_sym, Permutation_rev. Qed.

Example C70_example :
  faithful first_piece from_first /\ faithful last_piece from_last /\ implements last_first ex_kernel /\
  plain_products ex_kernel Checked finitial ex_reuse /\ Forall safe_call (calls ex_reuse) /\ Forall no_pointers (kept ex_reuse) /\
  (exists fs rs, frun ex_kernel Checked finitial ex_reuse = Some (Ok (fs, rs))) /\
  let results := [RNew; RDone; RNew; RDone; RDone; RNew; RItem 0%Z; RDone; RItem 6%Z; RDone; RNew; RPanicked; RNew; RDone; RNew; RNew; RItem 6%Z] in
  seen (process_run first_piece from_first last_first reusing Checked (begin_process (fun _ => 99%Z)) ex_reuse) =
    Some (results, [(128%nat, 4); (256%nat, 4)], [(128%nat, 4); (256%nat, 4); (64%nat, 6); (64%nat, 4); (128%nat, 4); (64%nat, 4)]) /\
  seen (process_run last_piece from_last last_first upwards Checked (begin_process (fun _ => Some 1%Z)) ex_reuse) =
    Some (results, [(1320%nat, 4); (1256%nat, 4)],
      [(1320%nat, 4); (1256%nat, 4); (1192%nat, 6); (1128%nat, 4); (1064%nat, 4); (1000%nat, 4)]) /\
  process_run first_piece from_first last_first fixed Checked (begin_process (fun _ => 99%Z)) ex_reuse = NoMemory.
Proof.
  split; [exact first_faithful|]. split; [exact last_faithful|]. split; [exact last_implements|].
  split; [apply no_products; timeout 300 (vm_compute; reflexivity)|].
  split; [repeat constructor; cbn; lia|]. split; [repeat constructor|].
  split; [do 2 eexists; timeout 300 (vm_compute; reflexivity)|].
  cbv zeta. split; [timeout 300 (vm_compute; reflexivity)|]. split; timeout 300 (vm_compute; reflexivity).
Qed.

(** Empty matrices need no memory: even the allocator with one address can serve them. And a
    history that uses what was moved is no program. *)
Example C70_empty_example :
  seen (process_run first_piece from_first last_first fixed Checked (begin_process (fun _ => 99%Z))
    [ Act (Do (CZeros KRowMajor 0 3)); Act (Do (CZeros KRowMajor 3 0)); Act (Do (CZeros KRowMajor 1 1)); Act (Do (CGet 2 0 0)); Act (Drop 0) ]) =
    Some ([RNew; RNew; RNew; RItem 0%Z; RDone], [(8%nat, 1)], [(8%nat, 1); (8%nat, 0); (8%nat, 0)]) /\
  process_run first_piece from_first last_first upwards Checked (begin_process (fun _ => 99%Z))
    [ Act (Do (CZeros KRowMajor 1 1)); Act (Drop 0); Act (Do (CGet (St := nat) 0 0 0)) ] = Rejected.
Proof. split; timeout 300 (vm_compute; reflexivity). Qed.

(** A product, with a gemm routine that begins with the last entry of C. *)
Definition ex_flat_product : list (faction Z nat) :=
  [ Act (Do (CZeros KRowMajor 1 2)); Act (Do (CZeros KColumnMajor 2 1)); Act (Do (CZeros KRowMajor 1 1));
    Act (Do (CSet 0 0 0 3%Z)); Act (Do (CSet 0 0 1 5%Z)); Act (Do (CSet 1 0 0 2%Z)); Act (Do (CSet 1 1 0 4%Z));
    Act (Do (CMatmul 10%Z 0 1 1%Z 2)); Act (Do (CGet 2 0 0)); Act (Do (CDot MatrixMatrix 0 1)); Act (Do (CGet 3 0 0)) ].
Example C70_product_example :
  Forall safe_call (calls ex_flat_product) /\ Forall no_split (kept ex_flat_product) /\
  plain_products ex_kernel Checked finitial ex_flat_product /\
  seen (process_run first_piece from_first last_first (fun n => (8 + 16 * n)%nat) Checked (begin_process (fun _ => 99%Z)) ex_flat_product) =
    Some ([RNew; RNew; RNew; RDone; RDone; RDone; RDone; RDone; RItem 260%Z; RNew; RItem 26%Z],
      [(56%nat, 1); (40%nat, 1); (24%nat, 2); (8%nat, 2)], [(56%nat, 1); (40%nat, 1); (24%nat, 2); (8%nat, 2)]).
Proof.
  split; [|split; [|split]]; [repeat constructor; cbn; lia|repeat constructor| |timeout 300 (vm_compute; reflexivity)].
  apply C70_products; [repeat constructor; cbn; lia|repeat constructor|now left].
Qed.

(** Safety is needed: what a raw pointer reads after the memory was freed is decided by the
    allocator. *)
Theorem C70_safe_needed : exists acts : list (faction Z nat),
  let returns choose rs := exists P,
    process_run first_piece from_first last_first choose Checked (begin_process (fun _ => 0%Z)) acts = Goes (P, rs) in
  plain_products ex_kernel Checked finitial acts /\ frun ex_kernel Checked finitial acts = Some UB /\
  returns fixed [RNew; RNew; RDone; RNew; RDone; RItem 7%Z] /\
  returns upwards [RNew; RNew; RDone; RNew; RDone; RItem 0%Z].
Proof.
  exists [ Act (Do (CZeros KRowMajor 2 2)); Act (Do (CFromPointer false ByRow 0 0 (2, 2))); Act (Drop 0);
           Act (Do (CZeros KRowMajor 2 2)); Act (Do (CSet 2 0 1 7%Z)); Act (Do (CGet 1 0 1)) ].
  cbv zeta. split; [apply no_products; reflexivity|]. split; [timeout 300 (vm_compute; reflexivity)|].
  assert (A : forall (e : effect (process Z Z * list (result Z nat))) rs,
    option_map (fun s => fst (fst s)) (seen e) = Some rs -> exists P, e = Goes (P, rs)).
  { intros [| | |[P rs']] rs E; try discriminate E. injection E as <-. eauto. }
  split; apply A; timeout 300 (vm_compute; reflexivity).
Qed.
Print Assumptions C70_safe_needed.

(** So is the absence of split_in_four_mut: a slice of one quarter overlaps the next, and the
    order in which gemm computes the entries shows. *)
Theorem C70_split_needed : exists acts : list (faction Z nat),
  let returns code rs := exists P,
    process_run first_piece from_first code (fun n => (256 * n)%nat) Checked (begin_process (fun _ => 0%Z)) acts = Goes (P, rs) in
  Forall safe_call (calls acts) /\ implements (by_rows ex_kernel) ex_kernel /\ implements last_first ex_kernel /\
  returns (by_rows ex_kernel) [RNew; RNew; RNew; RDone; RDone; RDone; RNew; RDone; RItem 1%Z] /\
  returns last_first [RNew; RNew; RNew; RDone; RDone; RDone; RNew; RDone; RItem 0%Z].
Proof.
  exists [ Act (Do (CZeros KRowMajor 4 4)); Act (Do (CSplit 0 (2, 2))); Act (Do (CZeros KRowMajor 2 2));
           Act (Do (CSet 5 0 0 1%Z)); Act (Do (CSet 5 1 1 1%Z)); Act (Do (CSet 2 0 0 1%Z));
           Act (Do (CFromSlice true 1 0 4 Dynamic Dynamic (RowMajor (2, 2)))); Act (Do (CMatmul 1%Z 2 5 0%Z 6)); Act (Do (CGet 6 0 0)) ].
  cbv zeta. split; [repeat constructor|]. split; [apply C60_orders; intros; apply Permutation_refl|]. split; [exact last_implements|].
  assert (A : forall (e : effect (process Z Z * list (result Z nat))) rs,
    option_map (fun s => fst (fst s)) (seen e) = Some rs -> exists P, e = Goes (P, rs)).
  { intros [| | |[P rs']] rs E; try discriminate E. injection E as <-. eauto. }
  split; apply A; timeout 300 (vm_compute; reflexivity).
Qed.
Print Assumptions C70_split_needed.
