(** * Stacked: the aliasing rules of Rust.

    A reference in Rust promises more than that it stays inside of its memory: what
    [&mut] refers to is reached by nobody else while it is in use, what [&] refers to
    does not change. Stacked Borrows (Jung, Dang, Kang, Dreyer, POPL 2020) says when
    an execution breaks the promise. Each reference has a tag. Each memory cell has
    a stack of tags with permissions. An access needs its tag in the stack and
    removes what is in conflict with it from above the tag. A new reference is an
    access with the old one and puts its tag on top. An access whose tag has gone is
    undefined behaviour.

    The file has the rules, for one cell and a list of events, and the events of the
    histories of [Borrow]. Simplified: a call reaches the whole of a container, as
    [get_unchecked] and [as_ptr] of a slice do; tags that nobody can use after the call
    that made them are left out where they make no difference; the memory of an array
    is treated like that of a vector, which is not moved with the matrix; references
    to the [Matrix] structures themselves, and the protection of references for
    the duration of a call, are not modelled. *)

From Verif Require Import Machine Layouts Memory Matrix MatMul Spec MatrixSpec ExprSpec ProductSpec Program HistorySpec Borrow.
Local Open Scope N_scope.

(** ** The rules *)

Definition tag := nat.

(** [&mut], a raw pointer made from it, [&] and a raw pointer made from that. *)
Inductive permission := Unique | SharedReadWrite | SharedReadOnly.

(** Top first. *)
Definition stack := list (tag * permission).

Inductive event :=
| Allocate (t : tag) (r : region)
| Access (write : bool) (t : tag) (r : region)
| Reborrow (parent new : tag) (p : permission) (r : region)
| Free (t : tag) (r : region).

(** A read removes the unique items above its own. *)
Fixpoint read_cell (t : tag) (s : stack) : option stack :=
  match s with
  | [] => None
  | (u, p) :: s' =>
      if Nat.eqb u t then Some s else
      match read_cell t s' with
      | None => None
      | Some s'' => Some (match p with Unique => s'' | _ => (u, p) :: s'' end)
      end
  end.

(** A write needs an item that may write and removes all above it. *)
Fixpoint write_cell (t : tag) (s : stack) : option stack :=
  match s with
  | [] => None
  | (u, p) :: s' =>
      if Nat.eqb u t && match p with SharedReadOnly => false | _ => true end then Some s
      else write_cell t s'
  end.

Definition access_cell (write : bool) (t : tag) (s : stack) : option stack :=
  if write then write_cell t s else read_cell t s.

(** A pointer that may write is made by a write access. *)
Definition may_write (p : permission) : bool := match p with SharedReadOnly => false | _ => true end.

Definition covers (r : region) (q : nat * N) : bool :=
  Nat.eqb (r_alloc r) (fst q) && (r_lo r <=? snd q) && (snd q <? r_lo r + r_len r).

(** The effect of an event on the cell [q]; [None] if the event breaks the rules. *)
Definition cell_event (q : nat * N) (s : stack) (e : event) : option stack :=
  match e with
  | Allocate t r => if covers r q then Some [(t, Unique)] else Some s
  | Access w t r => if covers r q then access_cell w t s else Some s
  | Reborrow t new p r =>
      if covers r q then option_map (cons (new, p)) (access_cell (may_write p) t s) else Some s
  | Free t r => if covers r q then option_map (fun _ => []) (write_cell t s) else Some s
  end.

Fixpoint cell_events (q : nat * N) (s : stack) (es : list event) : option stack :=
  match es with
  | [] => Some s
  | e :: es' => match cell_event q s e with Some s' => cell_events q s' es' | None => None end
  end.

(** No event breaks the rules at any cell. *)
Definition respects (es : list event) : Prop := forall q, cell_events q [] es <> None.

(** The rules above are stricter than those of the paper in one point, which makes the proofs
    simpler: a write with a raw pointer removes other raw pointers. In the paper, raw pointers that lie next to
    each other stay, and a read disables the unique items above its own and does not remove them. *)
Definition marked := list (tag * option permission).

Fixpoint sb_read (t : tag) (s : marked) : option marked :=
  match s with
  | [] => None
  | (u, p) :: s' =>
      if Nat.eqb u t && match p with None => false | _ => true end then Some s else
      match sb_read t s' with
      | None => None
      | Some s'' => Some ((u, match p with Some Unique => None | _ => p end) :: s'')
      end
  end.

(** With whether the next item above is kept if it is a raw pointer. *)
Fixpoint sb_group (t : tag) (s : marked) : option (marked * bool) :=
  match s with
  | [] => None
  | (u, p) :: s' =>
      let raw := match p with Some SharedReadWrite => true | _ => false end in
      if Nat.eqb u t && match p with Some SharedReadOnly | None => false | _ => true end then Some (s, raw) else
      match sb_group t s' with
      | None => None
      | Some (s'', open) => Some (if open && raw then ((u, p) :: s'', true) else (s'', false))
      end
  end.

Definition sb_access (write : bool) (t : tag) (s : marked) : option marked :=
  if write then option_map fst (sb_group t s) else sb_read t s.

Definition sb_event (q : nat * N) (s : marked) (e : event) : option marked :=
  match e with
  | Allocate t r => if covers r q then Some [(t, Some Unique)] else Some s
  | Access w t r => if covers r q then sb_access w t s else Some s
  | Reborrow t new p r =>
      if covers r q then option_map (cons (new, Some p)) (sb_access (may_write p) t s) else Some s
  | Free t r => if covers r q then option_map (fun _ => []) (sb_access true t s) else Some s
  end.

Fixpoint sb_events (q : nat * N) (s : marked) (es : list event) : option marked :=
  match es with
  | [] => Some s
  | e :: es' => match sb_event q s e with Some s' => sb_events q s' es' | None => None end
  end.

Definition sb_respects (es : list event) : Prop := forall q, sb_events q [] es <> None.

(** ** The events of a history *)

(** A piece of memory that a matrix reaches: the tag it is reached with, whether the
    matrix may write to it, whether it frees it. *)
Record leaf := mkLeaf { l_tag : tag; l_region : region; l_write : bool; l_owned : bool }.

Definition leaves_of (held : list (list leaf)) (x : nat) : list leaf := nth x held [].

Section Events.
Context {T : Type} {SC : HScalar T} {St : Type}.
Variable kern : kernel T.

(** The calls that reach the data of their operands and not only their layouts:
    random_access.rs:30-68, base_methods.rs:23-27, 51, 81, matrix_slices.rs:19-141,
    constructors.rs:135-190, common_impl.rs:79-90 (eval), random.rs:22-26, matrix_multiply.rs:52-58.
    [dim] and [length] (common_impl.rs:101-119), references (matrix.rs:129-131, matrix_ref.rs:75),
    products with scalars (scalar_mult.rs:117-163) and sums (addition.rs:151-220) do not. *)
Definition reaches_data (o : call T St) : bool :=
  match o with
  | CDim _ | CLength _ | CFromRef _ | CRefMut _ | CScalarTimes _ _ _ | CTimesScalar _ _ _ | CPlus _ _ _ _ => false
  | _ => true
  end.

(** [get_unchecked] and [as_ptr] take [&] of the whole slice, [get_unchecked_mut] and
    [as_mut_ptr] take [&mut] of it: data_container.rs:140-160, 166-186, 192-198, 208-228. *)
Definition access_writes (a : access) (l : leaf) : bool :=
  match a with Shared => false | Exclusive => l_write l | Moved => l_owned l end.

(** What a call does to its operands. With [eager], calls that only need the layout
    reach the data, too, as they do in matrices that hold their items in an array. *)
Definition use_events (eager : bool) (o : call T St) (held : list (list leaf)) (u : nat * access) : list event :=
  if eager || reaches_data o
  then map (fun l => Access (access_writes (snd u) l) (l_tag l) (l_region l)) (leaves_of held (fst u))
  else [].

(** The end of a matrix frees the memory it owns: data_container.rs:80-86. *)
Definition drop_events (held : list (list leaf)) (x : nat) : list event :=
  flat_map (fun l => if l_owned l then [Free (l_tag l) (l_region l)] else []) (leaves_of held x).

Definition region_of (v : matrix T) : region :=
  match v with MBase b => c_region (bm_data b) | _ => mkRegion 0 0 0 end.

(** [from_raw_parts] and [from_raw_parts_mut] for the returned matrices, one after the other, from the
    raw pointer: data_container.rs:38, 74, constructors.rs:135-190, matrix_slices.rs:31-37, 61-67, 115-137. *)
Definition view_permission (mut : bool) : permission := if mut then Unique else SharedReadOnly.
Fixpoint parts_events (mut : bool) (raw : tag) (t : tag) (vs : list (matrix T)) : list event :=
  match vs with
  | [] => []
  | v :: vs' => Reborrow raw t (view_permission mut) (region_of v) :: parts_events mut raw (S t) vs'
  end.
Fixpoint parts_leaves (mut : bool) (t : tag) (vs : list (matrix T)) : list (list leaf) :=
  match vs with
  | [] => []
  | v :: vs' => [mkLeaf t (region_of v) mut false] :: parts_leaves mut (S t) vs'
  end.

(** The raw pointer of [get_pointer] and [get_pointer_mut]: base_methods.rs:37-39, 67-69. *)
Definition raw_permission (mut : bool) : permission := if mut then SharedReadWrite else SharedReadOnly.
Definition raw_events (mut : bool) (held : list (list leaf)) (x : nat) (raw : tag) : list event :=
  map (fun l => Reborrow (l_tag l) raw (raw_permission mut) (l_region l)) (leaves_of held x).
Definition raw_uses (mut : bool) (held : list (list leaf)) (x : nat) (raw : tag) : list event :=
  map (fun l => Access mut raw (l_region l)) (leaves_of held x).

(** [gemm] takes raw pointers of all operands first: matrix_multiply.rs:215-236, 303-324. *)
Definition product_events (held : list (list leaf)) (n : tag) (a b : nat) : list event :=
  raw_events false held a n ++ raw_events false held b (n + 1)%nat.
Definition product_reads (held : list (list leaf)) (n : tag) (a b : nat) : list event :=
  raw_uses false held a n ++ raw_uses false held b (n + 1)%nat.

(** The memory a reference to a matrix reaches, and what a moved matrix takes along into an expression,
    which cannot be written to: matrix_ref.rs:16-30, 75, scalar_mult.rs:109-163, addition.rs:143-220. *)
Definition lend_leaf (mut : bool) (l : leaf) : leaf := mkLeaf (l_tag l) (l_region l) (mut && l_write l) false.
Definition pass_leaf (p : passed) (l : leaf) : leaf :=
  match p with
  | ByReference => lend_leaf false l
  | ByValue => mkLeaf (l_tag l) (l_region l) false (l_owned l)
  end.

(** Owned containers: data_container.rs:80-86. *)
Definition owned_kind (k : container_kind) : bool :=
  match k with VectorContainer | ArrayContainer => true | _ => false end.

(** What a call does that returns the matrices [vs], the memory they reach, and the number of new tags. *)
Definition new_events (held : list (list leaf)) (n : tag) (o : call T St) (vs : list (matrix T)) :
    list event * list (list leaf) * nat :=
  let view mut x := (raw_events mut held x n ++ parts_events mut n (S n) vs, parts_leaves mut (S n) vs, S (length vs)) in
  let fresh k := (map (fun v => Allocate k (region_of v)) vs, map (fun v => [mkLeaf k (region_of v) true true]) vs) in
  match o with
  | CFromSlice mut x _ _ _ _ _ | CFromPointer mut _ x _ _ | CFromPointerStrided mut _ x _ _ _ | CBlock mut x _ _ => view mut x
  | CSplit x _ => view true x
  | CFromRef x => ([], [map (lend_leaf false) (leaves_of held x)], O)
  | CRefMut x => ([], [map (lend_leaf true) (leaves_of held x)], O)
  | CScalarTimes _ p x | CTimesScalar p x _ => ([], [map (pass_leaf p) (leaves_of held x)], O)
  | CPlus p q x y => ([], [map (pass_leaf p) (leaves_of held x) ++ map (pass_leaf q) (leaves_of held y)], O)
  | CDot _ a b =>
      (product_events held n a b ++ product_reads held n a b ++ fst (fresh (n + 2)%nat), snd (fresh (n + 2)%nat), 3%nat)
  | _ => (fst (fresh n), snd (fresh n), 1%nat)
  end.

(** What other calls do after they have reached their operands. *)
Definition late_events (held : list (list leaf)) (n : tag) (o : call T St) : list event * nat :=
  match o with
  | CMatmul _ a b _ c =>
      (product_events held n a b ++ raw_events true held c (n + 2)%nat ++
       product_reads held n a b ++ raw_uses true held c (n + 2)%nat, 3%nat)
  | _ => ([], O)
  end.

(** What an action does between the states [st] and [st']. A call that panics is taken to have reached its
    operands; the moved ones are dropped. *)
Definition action_events (eager : bool) (held : list (list leaf)) (n : tag) (st st' : state T)
    (a : action T St) (r : result T St) : list event * list (list leaf) * nat :=
  match a with
  | Drop x => (drop_events held x, [], O)
  | Do o =>
      let reached := flat_map (use_events eager o held) (uses o) in
      match r with
      | RSkipped => ([], [], O)
      | RPanicked =>
          (reached ++ flat_map (fun u => match snd u with Moved => drop_events held (fst u) | _ => [] end) (uses o), [], O)
      | RNew =>
          let '(es, new, k) := new_events held n o (skipn (length (st_mats st)) (st_mats st')) in (reached ++ es, new, k)
      | _ => let '(es, k) := late_events held n o in (reached ++ es, [], k)
      end
  end.

(** The state of a history, with the memory that each matrix reaches and the next tag. *)
Record tstate := mkTState { t_state : bstate T; t_held : list (list leaf); t_next : tag }.
Definition tinitial : tstate := mkTState binitial [] O.

Definition tstep (eager : bool) (m : mode) (ts : tstate) (a : action T St) :
    option (outcome (tstate * list event * result T St)) :=
  match bstep kern m (t_state ts) a with
  | None => None
  | Some o =>
      Some ('(bs', r) <- o ;;
            let '(es, new, k) := action_events eager (t_held ts) (t_next ts) (b_state (t_state ts)) (b_state bs') a r in
            Ok (mkTState bs' (t_held ts ++ new) (t_next ts + k)%nat, es, r))
  end.

(** A history with its events; as [brun]. *)
Fixpoint trun (eager : bool) (m : mode) (ts : tstate) (acts : list (action T St)) :
    option (outcome (tstate * list event * list (result T St))) :=
  match acts with
  | [] => Some (Ok (ts, [], []))
  | a :: acts' =>
      match tstep eager m ts a with
      | None => None
      | Some Panic => Some Panic
      | Some UB => Some UB
      | Some (Ok (ts1, es, r)) =>
          match trun eager m ts1 acts' with
          | None => None
          | Some o => Some ('(ts2, es', rs) <- o ;; Ok (ts2, es ++ es', r :: rs))
          end
      end
  end.

(** ** The vocabulary of the properties *)

(** The regions of two of the matrices [vs] have a cell in common. *)
Definition overlap (v w : matrix T) : Prop := exists q, covers (region_of v) q = true /\ covers (region_of w) q = true.

(** The four parts of a split lie in memory ranges without common cells. *)
Definition apart_split (m : mode) (st : state T) (a : action T St) : Prop :=
  match a with
  | Do (CSplit x at_) =>
      forall b b0 b1 b2 b3, lookup_mut st x = Some b -> split_in_four_mut m b at_ = Ok (b0, b1, b2, b3) ->
        ForallOrdPairs (fun v w => ~ overlap v w) [MBase b0; MBase b1; MBase b2; MBase b3]
  | _ => True
  end.
Fixpoint apart_splits (m : mode) (bs : bstate T) (acts : list (action T St)) : Prop :=
  match acts with
  | [] => True
  | a :: acts' =>
      apart_split m (b_state bs) a /\ forall bs' r, bstep kern m bs a = Some (Ok (bs', r)) -> apart_splits m bs' acts'
  end.

(** The pieces [ls] of memory are what the matrix [v] reaches: its containers, no more
    and no less, which it may write to if it is writable, and frees if it owns them. *)
Definition reaches_as (v : matrix T) (ls : list leaf) : Prop :=
  (forall q, occupies v q <-> exists l, In l ls /\ covers (l_region l) q = true) /\
  (forall l, In l ls -> l_write l = is_writable v) /\
  (forall a, owners a v = length (filter (fun l => l_owned l && Nat.eqb (r_alloc (l_region l)) a) ls)).

(** The cell [q] is accessed. *)
Definition accessed (es : list event) (write : bool) (q : nat * N) : Prop :=
  exists t r, In (Access write t r) es /\ covers r q = true.

(** The tags that are made, one after the other. *)
Definition tags_made (es : list event) : list tag :=
  flat_map (fun e => match e with Allocate t _ => [t] | Reborrow _ t _ _ => [t] | _ => [] end) es.

(** How often the memory of the allocation [a] is freed. *)
Definition frees (a : nat) (es : list event) : nat :=
  length (filter (fun e => match e with Free _ r => Nat.eqb (r_alloc r) a | _ => false end) es).

(** The tag [t] for the memory [r] is made, with the permission to write or without, or the memory is new. *)
Definition makes (es : list event) (t : tag) (r : region) (write owned : bool) : Prop :=
  if owned then In (Allocate t r) es else exists parent, In (Reborrow parent t (view_permission write) r) es.

End Events.
Arguments tstate T : clear implicits.
