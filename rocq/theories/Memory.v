(** * Memory: scalars, the heap, pointers and the data containers.

    Models /repo/src/data_container.rs and the part of Rust's memory model it
    relies on. A heap is a list of allocations, an allocation is a list of
    items. A pointer carries the memory range it was derived from (its
    provenance); leaving that range is undefined behaviour. Deallocation is not
    modelled: every allocation stays in the heap. *)

From Verif Require Import Machine.
Local Open Scope N_scope.

(** The operations of the item type the code uses: [num::cast(0.0)],
    [num::cast(1.0)], [+], [*] and [size_of] (/repo/src/types.rs:6-9 and
    cauchy::Scalar). No law is assumed about them. *)
Class HScalar (T : Type) := {
  szero : T;
  sone : T;
  sadd : T -> T -> T;
  smul : T -> T -> T;
  ssize : positive
}.

Section Memory.
Context {T : Type} {SC : HScalar T}.

Definition heap := list (list T).

(** Replace the [i]-th element of a list; no change when out of range. *)
Fixpoint upd {A : Type} (l : list A) (i : nat) (v : A) : list A :=
  match l, i with
  | [], _ => []
  | _ :: t, O => v :: t
  | x :: t, S i' => x :: upd t i' v
  end.

(** The item stored at index [i] of allocation [a]. *)
Definition hget (h : heap) (a : nat) (i : N) : option T :=
  match nth_error h a with
  | Some l => nth_error l (N.to_nat i)
  | None => None
  end.

(** Store [v] at index [i] of allocation [a]. *)
Definition hset (h : heap) (a : nat) (i : N) (v : T) : heap :=
  match nth_error h a with
  | Some l => upd h a (upd l (N.to_nat i) v)
  | None => h
  end.

(** A range of items: what a slice, or the provenance of a pointer, covers. *)
Record region := mkRegion { r_alloc : nat; r_lo : N; r_len : N }.

(** A raw pointer: the range it may be used in, and its offset into it. *)
Record pointer := mkPointer { p_region : region; p_off : N }.

(** A place: the target of an [&mut Item]. *)
Record place := mkPlace { pl_alloc : nat; pl_index : N }.

(** Reading item [i] of a range. *)
Definition region_read (h : heap) (r : region) (i : N) : outcome T :=
  if i <? r_len r then
    match hget h (r_alloc r) (r_lo r + i) with Some v => Ok v | None => UB end
  else UB.

(** Making a reference to item [i] of a range. *)
Definition region_place (r : region) (i : N) : outcome place :=
  if i <? r_len r then Ok (mkPlace (r_alloc r) (r_lo r + i)) else UB.

(** [*place = v]. *)
Definition place_write (h : heap) (p : place) (v : T) : outcome heap :=
  match hget h (pl_alloc p) (pl_index p) with
  | Some _ => Ok (hset h (pl_alloc p) (pl_index p) v)
  | None => UB
  end.

(** Reading through a reference. *)
Definition place_read (h : heap) (p : place) : outcome T :=
  match hget h (pl_alloc p) (pl_index p) with Some v => Ok v | None => UB end.

(** [ptr.offset(d)]: the result must stay inside of the range or at its end. *)
Definition ptr_offset (p : pointer) (d : Z) : outcome pointer :=
  let z := (Z.of_N (p_off p) + d)%Z in
  if ((0 <=? z) && (z <=? Z.of_N (r_len (p_region p))))%Z
  then Ok (mkPointer (p_region p) (Z.to_N z)) else UB.

(** [ptr.add(n)]. *)
Definition ptr_add (p : pointer) (n : N) : outcome pointer := ptr_offset p (Z.of_N n).

(** [std::slice::from_raw_parts(ptr, n)] and [from_raw_parts_mut]: the [n]
    items must lie in the range of the pointer. *)
Definition from_raw_parts (p : pointer) (n : N) : outcome region :=
  let r := p_region p in
  if p_off p + n <=? r_len r
  then Ok (mkRegion (r_alloc r) (r_lo r + p_off p) n) else UB.

(** The four container types: data_container.rs:80-96. *)
Inductive container_kind := VectorContainer | ArrayContainer | SliceContainer | SliceContainerMut.

Record container := mkContainer { c_kind : container_kind; c_region : region }.

(** Which containers implement [DataContainerMut]: data_container.rs:153, 179, 221. *)
Definition container_is_mut (c : container) : bool :=
  match c_kind c with SliceContainer => false | _ => true end.

(** A fresh allocation holding [l]. *)
Definition alloc (h : heap) (l : list T) : heap * region :=
  (h ++ [l], mkRegion (length h) 0 (N.of_nat (length l))).

(** [VectorContainer::new]: data_container.rs:102-106. [vec!] panics with
    "capacity overflow" when the size in bytes exceeds [isize::MAX]; running
    out of memory below that bound is not modelled. *)
Definition vector_container_new (h : heap) (nelems : N) : outcome (heap * container) :=
  if nelems * Npos ssize <=? isize_max then
    let '(h', r) := alloc h (repeat szero (N.to_nat nelems)) in
    Ok (h', mkContainer VectorContainer r)
  else Panic.

(** [ArrayContainer::new]: data_container.rs:110-114, for the const parameter [n]. *)
Definition array_container_new (h : heap) (n : N) : heap * container :=
  let '(h', r) := alloc h (repeat szero (N.to_nat n)) in
  (h', mkContainer ArrayContainer r).

(** [SliceContainer::new], [SliceContainerMut::new]: data_container.rs:125-127, 132-134. *)
Definition slice_container_new (r : region) : container := mkContainer SliceContainer r.
Definition slice_container_mut_new (r : region) : container := mkContainer SliceContainerMut r.

(** [DataContainer::get_unchecked]: data_container.rs:140-142, 166-168, 192-194, 208-210. *)
Definition container_get_unchecked (h : heap) (c : container) (index : N) : outcome T :=
  region_read h (c_region c) index.

(** [DataContainerMut::get_unchecked_mut]: data_container.rs:154-156, 180-182, 222-224. *)
Definition container_get_unchecked_mut (c : container) (index : N) : outcome place :=
  region_place (c_region c) index.

(** [DataContainer::get_pointer] and [DataContainerMut::get_pointer_mut]:
    data_container.rs:144-146, 158-160, 170-172, 184-186, 196-198, 212-214, 226-228. *)
Definition container_get_pointer (c : container) : pointer := mkPointer (c_region c) 0.

(** [DataContainer::number_of_elements]: data_container.rs:148-150, 174-176, 200-202, 216-218. *)
Definition container_number_of_elements (c : container) : N := r_len (c_region c).

(** [DataContainer::get_slice]: data_container.rs:23-39. *)
Definition container_get_slice (c : container) (first last : N) : outcome region :=
  _ <- assert_ (first <? last) ;;
  _ <- assert_ (last <=? container_number_of_elements c) ;;
  p <- ptr_add (container_get_pointer c) first ;;
  from_raw_parts p (last - first).

(** [DataContainerMut::get_slice_mut]: data_container.rs:53-76. *)
Definition container_get_slice_mut (c : container) (first last : N) : outcome region :=
  _ <- assert_ (first <? last) ;;
  _ <- assert_ (first <? container_number_of_elements c) ;;
  _ <- assert_ (last <=? container_number_of_elements c) ;;
  p <- ptr_add (container_get_pointer c) first ;;
  from_raw_parts p (last - first).

End Memory.
