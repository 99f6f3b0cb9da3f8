(** * SliceSpec: slices of a matrix's storage against its entries. *)

From Verif Require Import Machine Layouts Memory Matrix Spec MatrixSpec.
Local Open Scope N_scope.

(** The entries lie in memory one after the other, in the order of their numbers. *)
Definition consecutive (l : layout) : Prop := forall p, stored l p -> cell l p = number l p.

Section SliceSpec.
Context {T : Type} {SC : HScalar T}.

(** Slices up to the number of entries exist, and show the entries in the order
    of their numbers. *)
Definition slices_show_entries (m : mode) (h : @heap T) (b : base_matrix) : Prop :=
  forall first last, first < last -> last <= entry_count (bm_layout b) ->
  exists r, get_slice b first last = Ok r /\ r_len r = last - first /\
    (forall k, k < last - first -> region_read h r k = get1d m h (MBase b) (first + k)) /\
    (forall i j, stored (bm_layout b) (i, j) -> first <= number (bm_layout b) (i, j) < last ->
       region_read h r (number (bm_layout b) (i, j) - first) = get m h (MBase b) i j).

(** Writing to an item of a mutable slice is writing to the entry. *)
Definition slices_are_places (m : mode) (b : base_matrix) : Prop :=
  forall first last, first < last -> last <= entry_count (bm_layout b) ->
  exists r, get_slice_mut b first last = Ok r /\ r_len r = last - first /\
    (forall k, k < last - first -> region_place r k = get1d_mut m (@MBase T b) (first + k)) /\
    (forall i j, stored (bm_layout b) (i, j) -> first <= number (bm_layout b) (i, j) < last ->
       region_place r (number (bm_layout b) (i, j) - first) = get_mut m (@MBase T b) i j).
End SliceSpec.
