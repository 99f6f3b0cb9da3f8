(** * GenericSpec: what an implementation of the traits has to satisfy.

    The contracts of the documentation (traits/layout.rs:42-57, 105-134,
    traits/random_access.rs:12-22, data_container.rs:13-77), stated as laws about the
    methods alone. *)

From Verif Require Import Machine Layouts Memory Matrix MatMul Generic Spec MatrixSpec ExprSpec ProductSpec.
Local Open Scope N_scope.

(** The entries of a matrix in the order of their one-dimensional numbers. *)
Record listing := mkListing { ls_count : N; ls_pos : N -> N * N }.

Section GenericSpec.
Context {T : Type} {SC : HScalar T}.
Context {L K : Type} {LT : LayoutTraits L K}.
Context {C : Type} {CT : ContainerTraits T C}.
Notation heap := (@heap T).

(** ** Layouts *)

(** The layout is of dimension [d] and numbers the entries as [ls] says. *)
Definition numbers (l : L) (d : N * N) (ls : listing) : Prop :=
  t_dim l = Ok d /\ t_number_of_elements l = Ok (ls_count ls) /\
  forall i, i < ls_count ls ->
    in_range d (ls_pos ls i) /\
    t_convert_2d_1d l (fst (ls_pos ls i)) (snd (ls_pos ls i)) = Ok i.

(** Moreover, [raw] are the memory indices: both conversions give them. *)
Definition lays_out (l : L) (d : N * N) (ls : listing) (raw : N -> N) : Prop :=
  numbers l d ls /\
  forall i, i < ls_count ls ->
    t_convert_1d_raw l i = Ok (raw i) /\
    t_convert_2d_raw l (fst (ls_pos ls i)) (snd (ls_pos ls i)) = Ok (raw i).

(** The index layout numbers the entries in the same way, and is its own index layout. *)
Definition indexed (l : L) (d : N * N) (ls : listing) : Prop :=
  exists l', t_index_layout l = Ok l' /\ numbers l' d ls /\
    t_index_type l' = t_index_type l /\ t_index_layout l' = Ok l'.

(** Different numbers below [n] have different images. *)
Definition distinct_below {A : Type} (n : N) (f : N -> A) : Prop :=
  forall i j, i < n -> j < n -> f i = f j -> i = j.

(** [from_dimension] makes a layout that fits into as many items as it has entries. *)
Definition makes (k : K) (d : N * N) (ls : listing) (raw : N -> N) : Prop :=
  exists l, t_from_dimension k d = Ok l /\ lays_out l d ls raw /\
    (forall i, i < ls_count ls -> raw i < ls_count ls) /\ distinct_below (ls_count ls) raw.

(** ** Containers *)

(** A reference to a cell. *)
Definition place_at (q : nat * N) : place := mkPlace (fst q) (snd q).

(** The container has [n] items, and item [i] is the cell [at_ i]. *)
Definition keeps (c : C) (n : N) (at_ : N -> nat * N) : Prop :=
  d_number_of_elements c = Ok n /\
  forall i, i < n -> forall h v, hget h (fst (at_ i)) (snd (at_ i)) = Some v ->
    d_get_unchecked h c i = Ok v.
Definition keeps_mut (c : C) (n : N) (at_ : N -> nat * N) : Prop :=
  keeps c n at_ /\ distinct_below n at_ /\
  forall i, i < n -> d_get_unchecked_mut c i = Ok (place_at (at_ i)).

(** The container is the range [r], and its pointer points there. *)
Definition contiguous (c : C) (r : region) : Prop :=
  keeps c (r_len r) (cell_of_region r) /\ d_get_pointer c = Ok (mkPointer r 0).

(** The crate's own vector containers are containers. *)
Definition holds_vectors : Prop :=
  forall r, contiguous (holds (mkContainer VectorContainer r)) r /\
    keeps_mut (holds (mkContainer VectorContainer r)) (r_len r) (cell_of_region r).

(** ** Matrices *)

(** [x] shows the entries [F]: the two ways of reading agree with the numbering of the
    layout, now and after further allocations. *)
Definition shows (h : heap) (x : impl T L) (d : N * N) (ls : listing) (F : N * N -> T) : Prop :=
  numbers (i_layout x) d ls /\
  forall h', only_allocates h h' -> forall i, i < ls_count ls ->
    i_get1d_unchecked x h' i = Ok (F (ls_pos ls i)) /\
    i_get_unchecked x h' (fst (ls_pos ls i)) (snd (ls_pos ls i)) = Ok (F (ls_pos ls i)).

(** The items of a matrix in the order of their numbers. *)
Definition items_of (ls : listing) (F : N * N -> T) : list T :=
  map (fun i => F (ls_pos ls (N.of_nat i))) (seq 0 (N.to_nat (ls_count ls))).

(** Entry [i] of [x] is the cell [at_ i], for reading and for writing. *)
Definition lives (x : impl T L) (d : N * N) (ls : listing) (at_ : N -> nat * N) : Prop :=
  numbers (i_layout x) d ls /\ distinct_below (ls_count ls) at_ /\
  forall i, i < ls_count ls ->
    i_get1d_unchecked_mut x i = Ok (place_at (at_ i)) /\
    i_get_unchecked_mut x (fst (ls_pos ls i)) (snd (ls_pos ls i)) = Ok (place_at (at_ i)) /\
    forall h v, hget h (fst (at_ i)) (snd (at_ i)) = Some v ->
      i_get1d_unchecked x h i = Ok v /\
      i_get_unchecked x h (fst (ls_pos ls i)) (snd (ls_pos ls i)) = Ok v.

(** ** Expressions *)

Inductive g_expr :=
| GLeaf (x : impl T L)
| GPlus (p : passed) (e : g_expr) (q : passed) (f : g_expr)
| GScalarTimes (s : T) (p : passed) (e : g_expr)
| GTimesScalar (p : passed) (e : g_expr) (s : T).

Definition pass (p : passed) (x : impl T L) : impl T L :=
  match p with ByValue => x | ByReference => g_ref x end.

(** The object the library builds: addition.rs:140-223, scalar_mult.rs:107-166. *)
Fixpoint g_build (e : g_expr) : outcome (impl T L) :=
  match e with
  | GLeaf x => Ok x
  | GPlus p e q f => x <- g_build e ;; y <- g_build f ;; g_addition (pass p x) (pass q y)
  | GScalarTimes s p e => x <- g_build e ;; Ok (g_scalar_mult (pass p x) s)
  | GTimesScalar p e s => x <- g_build e ;; Ok (g_scalar_mult (pass p x) s)
  end.

(** The algebraic expression, for leaves showing what [shown] says. *)
Inductive g_value (shown : impl T L -> (N * N -> T) -> Prop) : g_expr -> (N * N -> T) -> Prop :=
| VLeaf : forall x F, shown x F -> g_value shown (GLeaf x) F
| VPlus : forall p e q f F G, g_value shown e F -> g_value shown f G ->
    g_value shown (GPlus p e q f) (fun pos => sadd (F pos) (G pos))
| VScalarTimes : forall s p e F, g_value shown e F ->
    g_value shown (GScalarTimes s p e) (fun pos => smul s (F pos))
| VTimesScalar : forall s p e F, g_value shown e F ->
    g_value shown (GTimesScalar p e s) (fun pos => smul s (F pos)).

(** ** Products *)

(** The reported strides are the distances of the cells, and all cells are there. *)
Definition g_strided (h : heap) (b : g_base L C) (d s : N * N) (r : region) : Prop :=
  t_dim (gb_layout b) = Ok d /\ t_stride (gb_layout b) = Ok s /\
  contiguous (gb_data b) r /\ slice_ok h r /\
  forall i j, in_range d (i, j) ->
    t_convert_2d_raw (gb_layout b) i j = Ok (i * fst s + j * snd s) /\
    i * fst s + j * snd s < r_len r.

(** The cell of an entry. *)
Definition strided_cell (r : region) (s p : N * N) : nat * N :=
  cell_of_region r (fst p * fst s + snd p * snd s).

End GenericSpec.
