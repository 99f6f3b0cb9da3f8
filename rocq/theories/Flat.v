(** * Flat: the memory of the machine.

    [Memory] gives every allocation a name of its own and lets accesses fail. Here
    memory is what the hardware provides: one array of bytes. A pointer is the
    address of a byte, an item takes [size_of] bytes, and loads and stores are
    possible everywhere. An allocator decides where an allocation lies. All that is
    demanded of it is that memory in use is not handed out again; memory that was
    freed may be, at the same address or at another one.

    The programs of the calls are those of [Interleave]: loads, stores and
    allocations in the order of the Rust code. They run here unchanged, with
    addresses in the place of names: in a [region] or [place] the field [r_alloc] or
    [pl_alloc] now holds the address at which the allocation begins.

    Histories are those of [Dealloc], with Rust's destructors. On a panic the memory
    stays as it is; what the call allocated is freed by the unwinding.

    Alignment is up to the allocator: it may respect it or not. [process_visits] lists
    the addresses that a run accesses.

    Simplified: an array stays where it was made, although moving it moves its bytes. *)

From Verif Require Import Machine Layouts Memory Matrix MatMul Spec MatrixSpec ExprSpec ProductSpec.
From Verif Require Import Program HistorySpec Borrow Dealloc Threads Interleave.
Local Open Scope N_scope.

Section Flat.
Context {T : Type} {SC : HScalar T} {St : Type}.

(** Bytes, and how items are written as bytes: [size_of::<Item>()] many. *)
Context {B : Type}.
Variable encode : T -> list B.
Variable decode : list B -> T.

(** The gemm routine. *)
Variable code : gemm_args T -> prog T unit.

(** Where the allocator puts the first, second, ... allocation of a run. *)
Variable choose : nat -> nat.

Definition item_size : N := Npos ssize.

(** The address of an item: [as_ptr] and [add], or an index of a vector, array or slice
    (data_container.rs:38, 75, 140-146, 154-156, 166-172, 180-182, 192-198, 208-214, 222-224). *)
Definition address (p : place) : N := N.of_nat (pl_alloc p) + pl_index p * item_size.

(** Loading and storing an item at an address ([*] of the references and pointers above). *)
Definition load (M : N -> B) (a : N) : T :=
  decode (map (fun k => M (a + N.of_nat k)) (seq 0 (N.to_nat item_size))).
Definition store (M : N -> B) (a : N) (v : T) : N -> B :=
  fun x => if a <=? x then match nth_error (encode v) (N.to_nat (x - a)) with Some b => b | None => M x end else M x.

(** Storing items one behind the other: the [vec!] of data_container.rs:104, and arrays. *)
Fixpoint store_all (M : N -> B) (a : N) (l : list T) : N -> B :=
  match l with [] => M | v :: l' => store_all (store M a v) (a + item_size) l' end.

(** The bytes; the blocks in use, by address and number of items; all blocks that were ever
    handed out, the last one first. *)
Record bytes := mkBytes { y_mem : N -> B; y_blocks : list (nat * N); y_log : list (nat * N) }.
Definition y_count (Y : bytes) : nat := length (y_log Y).

(** The bytes of a block, and two blocks without a common byte. *)
Definition in_block (b : nat * N) (x : N) : Prop := N.of_nat (fst b) <= x < N.of_nat (fst b) + snd b * item_size.
Definition blocks_apart (b b' : nat * N) : bool :=
  (N.of_nat (fst b) + snd b * item_size <=? N.of_nat (fst b')) ||
  (N.of_nat (fst b') + snd b' * item_size <=? N.of_nat (fst b)).

(** The block is inside of the address space, and not in use. (Nothing is allocated for no
    items: the pointer of such a vector is arbitrary.) *)
Definition grants (Y : bytes) (b : nat * N) : bool :=
  (snd b =? 0) ||
  ((N.of_nat (fst b) + snd b * item_size <=? usize_mod) && forallb (blocks_apart b) (y_blocks Y)).

Definition take (Y : bytes) (b : nat * N) (l : list T) : bytes :=
  mkBytes (store_all (y_mem Y) (N.of_nat (fst b)) l)
    (if snd b =? 0 then y_blocks Y else b :: y_blocks Y) (b :: y_log Y).

(** A program on the bytes. [None] if the allocator has no memory. *)
Fixpoint perform {A : Type} (c : prog T A) (Y : bytes) : option (outcome A * bytes) :=
  match c with
  | Stop o => Some (o, Y)
  | Load p k => perform (k (load (y_mem Y) (address p))) Y
  | Store p v k => perform k (mkBytes (store (y_mem Y) (address p) v) (y_blocks Y) (y_log Y))
  | Alloc l k =>
      let b := (choose (y_count Y), N.of_nat (length l)) in
      if grants Y b then perform (k (mkRegion (fst b) 0 (snd b))) (take Y b l) else None
  end.

(** The loads and stores of a program: the address of each, and the blocks in use at that time. *)
Fixpoint visits {A : Type} (c : prog T A) (Y : bytes) : list (N * list (nat * N)) :=
  match c with
  | Stop _ => []
  | Load p k => (address p, y_blocks Y) :: visits (k (load (y_mem Y) (address p))) Y
  | Store p v k => (address p, y_blocks Y) :: visits k (mkBytes (store (y_mem Y) (address p) v) (y_blocks Y) (y_log Y))
  | Alloc l k =>
      let b := (choose (y_count Y), N.of_nat (length l)) in
      if grants Y b then visits (k (mkRegion (fst b) 0 (snd b))) (take Y b l) else []
  end.

(** ** Histories *)

(** The memory that the destructor of a matrix frees, field by field; see [owned] in
    Dealloc.v. *)
Fixpoint owned_blocks (x : matrix T) : list (nat * N) :=
  match x with
  | MBase b =>
      let r := c_region (bm_data b) in
      match c_kind (bm_data b) with
      | VectorContainer | ArrayContainer => [(r_alloc r, r_len r)]
      | SliceContainer | SliceContainerMut => []
      end
  | MRef _ | MRefMut _ => []
  | MScalarMult x _ => owned_blocks x
  | MAddition x y _ => owned_blocks x ++ owned_blocks y
  end.

Definition block_eqb (b b' : nat * N) : bool := Nat.eqb (fst b) (fst b') && (snd b =? snd b').
Fixpoint remove_block (b : nat * N) (l : list (nat * N)) : option (list (nat * N)) :=
  match l with
  | [] => None
  | b' :: l' => if block_eqb b b' then Some l' else option_map (cons b') (remove_block b l')
  end.

(** [dealloc], which the destructor of a vector calls (data_container.rs:80-82); undefined if no such block is in use. *)
Definition give_back (Y : bytes) (b : nat * N) : outcome bytes :=
  if snd b =? 0 then Ok Y
  else match remove_block b (y_blocks Y) with
       | Some l => Ok (mkBytes (y_mem Y) l (y_log Y))
       | None => UB
       end.
Fixpoint give_back_all (Y : bytes) (l : list (nat * N)) : outcome bytes :=
  match l with [] => Ok Y | b :: l' => Y' <- give_back Y b ;; give_back_all Y' l' end.

(** A process: its memory, its matrices, what of them may be used and what is gone. *)
Record process := mkProcess {
  pr_bytes : bytes; pr_table : list (matrix T); pr_slots : list slot; pr_gone : list nat
}.
Definition begin_process (M : N -> B) : process := mkProcess (mkBytes M [] []) [] [] [].

(** What a step can lead to. *)
Inductive effect (A : Type) : Type :=
| Rejected                  (* no such program *)
| NoMemory                  (* the allocator has no memory *)
| Undefined
| Goes (a : A).
Arguments Rejected {A}.
Arguments NoMemory {A}.
Arguments Undefined {A}.
Arguments Goes {A} a.

(** The destructors of matrices: those of their fields; see [destroy] in Dealloc.v. *)
Definition destroy_one (P : process) (x : nat) : outcome process :=
  match nth_error (pr_table P) x with
  | Some v =>
      Y <- give_back_all (pr_bytes P) (owned_blocks v) ;;
      Ok (mkProcess Y (pr_table P) (pr_slots P) (x :: pr_gone P))
  | None => Ok P
  end.
Fixpoint destroy_each (P : process) (xs : list nat) : outcome process :=
  match xs with [] => Ok P | x :: xs' => P' <- destroy_one P x ;; destroy_each P' xs' end.

(** One call, see [step] in Program.v: the process after it, before the destruction of operands, and what it returned. *)
Definition call_process (m : mode) (P : process) (bt : list slot) (o : call T St) : effect (process * result T St) :=
  match program code m (pr_table P) o with
  | None => Goes (mkProcess (pr_bytes P) (pr_table P) bt (pr_gone P), RSkipped)
  | Some c =>
      match perform c (pr_bytes P) with
      | None => NoMemory
      | Some (UB, _) => Undefined
      | Some (Panic, Y) =>
          Goes (mkProcess (mkBytes (y_mem Y) (y_blocks (pr_bytes P)) (y_log Y)) (pr_table P) bt (pr_gone P), RPanicked)
      | Some (Ok (new, r), Y) =>
          Goes (mkProcess Y (pr_table P ++ new)
                  (match r with RNew => bt ++ returned (pr_slots P) o | _ => bt end) (pr_gone P), r)
      end
  end.

(** Operands passed by value are part of what was returned, or are destroyed. *)
Definition pass_on (P : process) (xs : list nat) (r : result T St) : effect (process * list (result T St)) :=
  match r with
  | RNew => Goes (mkProcess (pr_bytes P) (pr_table P) (pr_slots P) (xs ++ pr_gone P), [r])
  | _ => match destroy_each P xs with Ok P' => Goes (P', [r]) | _ => Undefined end
  end.

Definition process_step (m : mode) (P : process) (fa : faction T St) : effect (process * list (result T St)) :=
  match fa with
  | Act (Do o) =>
      match admit_uses (pr_slots P) (uses o) with
      | None => Rejected
      | Some bt =>
          match call_process m P bt o with
          | Goes (P', r) => pass_on P' (moved (Do o)) r
          | Rejected => Rejected
          | NoMemory => NoMemory
          | Undefined => Undefined
          end
      end
  | Act (Drop x) =>
      match admit_uses (pr_slots P) [(x, Moved)] with
      | None => Rejected
      | Some bt => pass_on (mkProcess (pr_bytes P) (pr_table P) bt (pr_gone P)) [x] RDone
      end
  | ScopeEnd x =>
      if Nat.ltb x (length (pr_table P)) && negb (is_live (pr_slots P) x) && negb (mem (pr_gone P) x)
      then match destroy_one P x with Ok P' => Goes (P', []) | _ => Undefined end
      else Rejected
  end.

Fixpoint process_run (m : mode) (P : process) (acts : list (faction T St)) : effect (process * list (result T St)) :=
  match acts with
  | [] => Goes (P, [])
  | a :: acts' =>
      match process_step m P a with
      | Goes (P1, r) =>
          match process_run m P1 acts' with
          | Goes (P2, rs) => Goes (P2, r ++ rs)
          | e => e
          end
      | Rejected => Rejected
      | NoMemory => NoMemory
      | Undefined => Undefined
      end
  end.

(** The loads and stores of a history. *)
Definition step_visits (m : mode) (P : process) (fa : faction T St) : list (N * list (nat * N)) :=
  match fa with
  | Act (Do o) =>
      match admit_uses (pr_slots P) (uses o), program code m (pr_table P) o with
      | Some _, Some c => visits c (pr_bytes P)
      | _, _ => []
      end
  | _ => []
  end.
Fixpoint process_visits (m : mode) (P : process) (acts : list (faction T St)) : list (N * list (nat * N)) :=
  match acts with
  | [] => []
  | a :: acts' =>
      step_visits m P a ++ match process_step m P a with Goes (P1, _) => process_visits m P1 acts' | _ => [] end
  end.

(** ** The vocabulary of the property *)

(** The address is that of an item of one of the blocks. *)
Definition item_of (bs : list (nat * N)) (a : N) : Prop :=
  exists b k, In b bs /\ k < snd b /\ a = N.of_nat (fst b) + k * item_size.

(** A byte that one of the loads and stores reaches; a byte of a block that was handed out between two states. *)
Definition touched (vs : list (N * list (nat * N))) (x : N) : Prop := exists a bs, In (a, bs) vs /\ a <= x < a + item_size.
Definition handed_out (Y Y' : bytes) (x : N) : Prop := exists new b, y_log Y' = new ++ y_log Y /\ In b new /\ in_block b x.

(** The same process with other bytes in the memory. *)
Definition with_memory (P : process) (M : N -> B) : process :=
  mkProcess (mkBytes M (y_blocks (pr_bytes P)) (y_log (pr_bytes P))) (pr_table P) (pr_slots P) (pr_gone P).

(** Items take [size_of] bytes, from which they can be restored. *)
Definition faithful : Prop := forall v, length (encode v) = N.to_nat item_size /\ decode (encode v) = v.

(** The products of a history have no entry of C that is an entry of A or B. *)
Fixpoint plain_products (kern : kernel T) (m : mode) (fs : fstate T) (acts : list (faction T St)) : Prop :=
  match acts with
  | [] => True
  | a :: acts' =>
      match a with
      | Act (Do o) => forall bt, admit_uses (b_slots (f_state fs)) (uses o) = Some bt -> plain_call (b_state (f_state fs)) o
      | _ => True
      end /\
      forall fs' r, fstep kern m fs a = Some (Ok (fs', r)) -> plain_products kern m fs' acts'
  end.

(** With names replaced by addresses. *)
Definition move_region (place : nat -> nat) (r : region) : region := mkRegion (place (r_alloc r)) (r_lo r) (r_len r).
Definition move_base (place : nat -> nat) (b : base_matrix) : base_matrix :=
  mkBase (mkContainer (c_kind (bm_data b)) (move_region place (c_region (bm_data b)))) (bm_layout b) (bm_rs b) (bm_cs b).
Fixpoint move_matrix (place : nat -> nat) (x : matrix T) : matrix T :=
  match x with
  | MBase b => MBase (move_base place b)
  | MRef x => MRef (move_matrix place x)
  | MRefMut x => MRefMut (move_matrix place x)
  | MScalarMult x s => MScalarMult (move_matrix place x) s
  | MAddition x y l => MAddition (move_matrix place x) (move_matrix place y) l
  end.

(** The process holds the same matrices with the same items. Every allocation of the model that
    is not empty is a block in use, there are no others, and no two of them have a common byte. *)
Record holds (place : nat -> nat) (fs : fstate T) (P : process) : Prop := {
  holds_table : pr_table P = map (move_matrix place) (st_mats (b_state (f_state fs)));
  holds_slots : pr_slots P = b_slots (f_state fs);
  holds_gone : pr_gone P = f_gone fs;
  holds_items : forall a i v, hget (st_heap (b_state (f_state fs))) a i = Some v ->
    load (y_mem (pr_bytes P)) (address (mkPlace (place a) i)) = v;
  holds_blocks : forall b, In b (y_blocks (pr_bytes P)) <->
    exists a l, nth_error (st_heap (b_state (f_state fs))) a = Some l /\ l <> [] /\ b = (place a, N.of_nat (length l));
  holds_apart : forall a a' l l', nth_error (st_heap (b_state (f_state fs))) a = Some l ->
    nth_error (st_heap (b_state (f_state fs))) a' = Some l' -> l <> [] -> l' <> [] -> a <> a' ->
    forall x, ~ (in_block (place a, N.of_nat (length l)) x /\ in_block (place a', N.of_nat (length l')) x)
}.

End Flat.
Arguments bytes B : clear implicits.
Arguments process T B : clear implicits.
Arguments Rejected {A}.
Arguments NoMemory {A}.
Arguments Undefined {A}.
Arguments Goes {A} a.
