(** The exact outcome of a safe read of a matrix with user-chosen strides. *)
From Coq Require Import NArith List Lia Bool.
From Coq Require Import ZifyBool ZifyNat ZifyN.
From Verif Require Import Machine F64 Layouts Memory Matrix MachineFacts Spec LayoutFacts MemoryFacts MatrixSpec
  AccessFacts AccessProofs.
Import ListNotations.
Local Open Scope N_scope.

Lemma uadd_wrapping : forall a b, uadd Wrapping a b = Ok ((a + b) mod usize_mod).
Proof. intros a b. unfold uadd. destruct (N.ltb_spec (a + b) usize_mod); auto. now rewrite N.mod_small. Qed.

Lemma umul_wrapping : forall a b, umul Wrapping a b = Ok ((a * b) mod usize_mod).
Proof. intros a b. unfold umul. destruct (N.ltb_spec (a * b) usize_mod); auto. now rewrite N.mod_small. Qed.

Lemma usize_mod_pos : usize_mod <> 0.
Proof. rewrite usize_mod_val. lia. Qed.

(** Without overflow checks the address is taken modulo the size of usize. *)
Lemma convert_2d_raw_wrapping : forall l r c, has_strides l = true ->
  convert_2d_raw Wrapping l r c = Ok (addr l r c mod usize_mod).
Proof.
  intros l r c Hh. pose proof usize_mod_pos as Hm.
  destruct l as [d | d | n | n | d [s0 s1] | d [s0 s1] | n s | n s | n];
    cbn [has_strides convert_2d_raw addr] in *; try discriminate; try apply umul_wrapping.
  all: unfold strided_raw; cbn [fst snd]; rewrite !umul_wrapping; cbn [bind]; rewrite uadd_wrapping;
    f_equal; symmetry; now apply N.add_mod.
Qed.

(** With overflow checks an address that is not a usize panics. *)
Lemma convert_2d_raw_checked : forall l r c, has_strides l = true ->
  convert_2d_raw Checked l r c = if addr l r c <? usize_mod then Ok (addr l r c) else Panic.
Proof.
  intros l r c Hh. destruct (N.ltb_spec (addr l r c) usize_mod) as [H|H].
  - now apply convert_2d_raw_strided.
  - destruct l as [d | d | n | n | d [s0 s1] | d [s0 s1] | n s | n s | n];
      cbn [has_strides convert_2d_raw addr] in *; try discriminate.
    3,4: unfold umul; apply N.ltb_ge in H; now rewrite H.
    all: unfold strided_raw, umul; cbn [fst snd] in *;
      destruct (N.ltb_spec (s0 * r) usize_mod); cbn [overflow bind]; auto;
      destruct (N.ltb_spec (s1 * c) usize_mod); cbn [overflow bind]; auto;
      unfold uadd; apply N.ltb_ge in H; now rewrite H.
Qed.

Section AccessExact.
Context {T : Type} {SC : HScalar T}.
Notation heap := (@heap T).

(** Reading item [i] of a sound slice. *)
Lemma region_read_exact : forall (h : heap) r i, region_ok h r ->
  if i <? r_len r
  then exists v, region_read h r i = Ok v /\ hget h (r_alloc r) (r_lo r + i) = Some v
  else region_read h r i = UB.
Proof.
  intros h r i H. destruct (N.ltb_spec i (r_len r)) as [Hi|Hi].
  - unfold region_read. apply N.ltb_lt in Hi as Hi'. rewrite Hi'.
    destruct H as (l & El & Hl). unfold hget. rewrite El.
    destruct (nth_error l (N.to_nat (r_lo r + i))) as [v|] eqn:Ev; [now exists v|].
    apply nth_error_None in Ev. lia.
  - unfold region_read. apply N.ltb_ge in Hi. now rewrite Hi.
Qed.

Lemma strided_stored : forall l p, has_strides l = true -> in_range (dim l) p -> stored l p.
Proof. intros l p Hl Hp. split; auto. destruct l; cbn in *; try discriminate; auto. Qed.

Lemma convert_2d_raw_reached : forall m l r c, has_strides l = true -> in_range (dim l) (r, c) ->
  convert_2d_raw m l r c = match reached m (cell l (r, c)) with Some a => Ok a | None => Panic end.
Proof.
  intros m l r c Hl Hp. rewrite <- addr_cell by now apply strided_stored. unfold reached. destruct m.
  - rewrite convert_2d_raw_checked by auto. now destruct (addr l r c <? usize_mod).
  - rewrite convert_2d_raw_wrapping by auto. destruct (N.ltb_spec (addr l r c) usize_mod); auto.
    now rewrite N.mod_small.
Qed.

(** C10: the outcome of [get] and of a write on a matrix with user-chosen strides. *)
Lemma c10_exact : forall m (h : heap) rs cs c l b r col v,
  slice_ok h (c_region c) -> has_strides l = true -> from_data m rs cs c l = Ok b ->
  (~ in_range (dim l) (r, col) ->
     get m h (MBase b) r col = Panic /\ set m h (MBase b) r col v = Panic) /\
  (in_range (dim l) (r, col) ->
     match reached m (cell l (r, col)) with
     | None => get m h (MBase b) r col = Panic /\
               (container_is_mut c = true -> set m h (MBase b) r col v = Panic)
     | Some a =>
         let i := r_lo (c_region c) + a in
         if a <? r_len (c_region c) then
           (exists w, get m h (MBase b) r col = Ok w /\ hget h (r_alloc (c_region c)) i = Some w) /\
           (container_is_mut c = true ->
              set m h (MBase b) r col v = Ok (hset h (r_alloc (c_region c)) i v))
         else get m h (MBase b) r col = UB /\ set m h (MBase b) r col v = UB
     end).
Proof.
  intros m h rs cs c l b r col v [Hs _] Hl H. apply from_data_inv in H as (-> & _).
  unfold get, set, get_mut. cbn [mat_layout bm_layout]. split.
  - intros Hp. destruct (assert_dimension_cases r col (dim l)) as [[Hr _] | [_ ->]]; [tauto|]. now split.
  - intros Hp. rewrite assert_dimension_ok by auto. cbn [bind get_unchecked get_unchecked_mut bm_data].
    unfold base_get_unchecked, base_get_unchecked_mut. cbn [bm_layout bm_data].
    rewrite convert_2d_raw_reached by auto.
    destruct (reached m (cell l (r, col))) as [a|]; cbn [bind].
    + unfold container_get_unchecked, container_get_unchecked_mut.
      pose proof (region_read_exact h (c_region c) a Hs) as E. cbn zeta. unfold region_place.
      destruct (a <? r_len (c_region c)).
      * split; [exact E|]. intros ->. cbn [bind]. destruct E as (w & _ & E).
        unfold place_write. cbn [pl_alloc pl_index]. now rewrite E.
      * split; [exact E|]. destruct (container_is_mut c); reflexivity.
    + split; [reflexivity|]. now intros ->.
Qed.

(** C10: which matrices with user-chosen strides are safe to read. *)
Lemma c10_safe_iff : forall m (h : heap) rs cs c l b,
  slice_ok h (c_region c) -> has_strides l = true -> from_data m rs cs c l = Ok b ->
  ((forall r col, get m h (MBase b) r col <> UB) <->
   forall p, in_range (dim l) p -> forall a, reached m (cell l p) = Some a -> a < r_len (c_region c)).
Proof.
  intros m h rs cs c l b Hs Hl H. split.
  - intros Hg [r col] Hp a Ea.
    destruct (N.ltb_spec a (r_len (c_region c))) as [Ha|Ha]; auto. exfalso. apply (Hg r col).
    apply from_data_inv in H as (-> & _). unfold get. cbn [mat_layout bm_layout].
    rewrite assert_dimension_ok by auto. cbn [bind get_unchecked]. unfold base_get_unchecked.
    cbn [bm_layout bm_data]. rewrite convert_2d_raw_reached, Ea by auto. cbn [bind].
    unfold container_get_unchecked, region_read. apply N.ltb_ge in Ha. now rewrite Ha.
  - intros Hc r col E. apply from_data_inv in H as (-> & _). unfold get in E. cbn [mat_layout bm_layout] in E.
    destruct (assert_dimension_cases r col (dim l)) as [[Hr _] | [_ E']]; [|rewrite E' in E; discriminate].
    rewrite assert_dimension_ok in E by auto. cbn [bind get_unchecked] in E. unfold base_get_unchecked in E.
    cbn [bm_layout bm_data] in E. rewrite convert_2d_raw_reached in E by auto.
    destruct (reached m (cell l (r, col))) as [a|] eqn:Ea; cbn [bind] in E; [|discriminate].
    pose proof (region_read_exact h (c_region c) a (proj1 Hs)) as R. specialize (Hc _ Hr _ Ea).
    apply N.ltb_lt in Hc. rewrite Hc in R. destruct R as (w & R & _).
    unfold container_get_unchecked in E. congruence.
Qed.

(** In the build with overflow checks the last entry decides, if its offset is a [usize]. *)
Lemma cell_monotone : forall l r c, has_strides l = true -> in_range (dim l) (r, c) ->
  cell l (r, c) <= cell l (fst (dim l) - 1, snd (dim l) - 1).
Proof.
  intros l r c Hl [Hr Hc].
  destruct l as [d | d | n | n | [a b] [s0 s1] | [a b] [s0 s1] | n s | n s | n];
    cbn [has_strides cell true_stride dim fst snd] in *; try discriminate; nia.
Qed.

Lemma c10_last_entry : forall m (h : heap) rs cs c l b,
  slice_ok h (c_region c) -> has_strides l = true -> from_data m rs cs c l = Ok b ->
  1 <= fst (dim l) -> 1 <= snd (dim l) ->
  cell l (fst (dim l) - 1, snd (dim l) - 1) < usize_mod ->
  ((forall r col, get m h (MBase b) r col <> UB) <->
   cell l (fst (dim l) - 1, snd (dim l) - 1) < r_len (c_region c)).
Proof.
  intros m h rs cs c l b Hs Hl H Hr Hc Hu. rewrite (c10_safe_iff m h rs cs c l b Hs Hl H).
  split.
  - intros Ha. apply (Ha (fst (dim l) - 1, snd (dim l) - 1)).
    + split; cbn [fst snd]; lia.
    + unfold reached. apply N.ltb_lt in Hu. now rewrite Hu.
  - intros Hlast [r col] Hp a Ea. pose proof (cell_monotone l r col Hl Hp) as Hm.
    unfold reached in Ea. destruct (N.ltb_spec (cell l (r, col)) usize_mod); [|lia].
    injection Ea as <-. lia.
Qed.
End AccessExact.
