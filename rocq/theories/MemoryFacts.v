(** * Facts about the heap, pointers and containers. *)

From Coq Require Import ZifyBool ZifyNat ZifyN.
From Verif Require Import Machine MachineFacts Layouts Memory Matrix Spec MatrixSpec.
Local Open Scope N_scope.

Section MemoryFacts.
Context {T : Type}.
Notation heap := (@heap T).

Lemma upd_length : forall (A : Type) (l : list A) i v, length (upd l i v) = length l.
Proof. intros A l. induction l as [|x l IH]; intros [|i] v; cbn; auto. Qed.

Lemma nth_error_upd_same : forall (A : Type) (l : list A) i v, (i < length l)%nat ->
  nth_error (upd l i v) i = Some v.
Proof.
  intros A l. induction l as [|x l IH]; intros [|i] v H; cbn in *; try lia; auto.
  apply IH. lia.
Qed.

Lemma nth_error_upd_other : forall (A : Type) (l : list A) i j v, i <> j ->
  nth_error (upd l i v) j = nth_error l j.
Proof.
  intros A l. induction l as [|x l IH]; intros [|i] [|j] v H; cbn; auto; try congruence.
Qed.

Lemma hget_some : forall (h : heap) a i v, hget h a i = Some v ->
  exists l, nth_error h a = Some l /\ (N.to_nat i < length l)%nat.
Proof.
  intros h a i v H. unfold hget in H. destruct (nth_error h a) as [l|] eqn:E; [|discriminate].
  exists l. split; auto. apply nth_error_Some. congruence.
Qed.

Lemma hget_hset_same : forall (h : heap) a i v w, hget h a i = Some w ->
  hget (hset h a i v) a i = Some v.
Proof.
  intros h a i v w H. destruct (hget_some _ _ _ _ H) as (l & E & Hi).
  unfold hget, hset. rewrite E.
  rewrite nth_error_upd_same by (apply nth_error_Some; congruence).
  now apply nth_error_upd_same.
Qed.

Lemma hget_hset_other : forall (h : heap) a i v b j, (a, i) <> (b, j) ->
  hget (hset h a i v) b j = hget h b j.
Proof.
  intros h a i v b j H. unfold hset. destruct (nth_error h a) as [l|] eqn:E; auto.
  unfold hget. destruct (Nat.eq_dec a b) as [->|Hab].
  - rewrite nth_error_upd_same by (apply nth_error_Some; congruence). rewrite E.
    apply nth_error_upd_other. intros X. apply H. f_equal. lia.
  - now rewrite nth_error_upd_other.
Qed.

Lemma extends_refl : forall h : heap, extends h h.
Proof. intros h a l H. eauto. Qed.

Lemma extends_trans : forall h1 h2 h3 : heap, extends h1 h2 -> extends h2 h3 -> extends h1 h3.
Proof.
  intros h1 h2 h3 H12 H23 a l H. destruct (H12 a l H) as (l2 & E2 & L2).
  destruct (H23 a l2 E2) as (l3 & E3 & L3). exists l3. split; auto. congruence.
Qed.

Lemma extends_hset : forall (h : heap) a i v, extends h (hset h a i v).
Proof.
  intros h a i v b l H. unfold hset. destruct (nth_error h a) as [k|] eqn:E; [|eauto].
  destruct (Nat.eq_dec a b) as [->|Hab].
  - rewrite nth_error_upd_same by (apply nth_error_Some; congruence).
    exists (upd k (N.to_nat i) v). split; auto. rewrite upd_length. congruence.
  - rewrite nth_error_upd_other by auto. eauto.
Qed.

Lemma extends_app : forall h k : heap, extends h (h ++ k).
Proof.
  intros h k a l H. exists l. split; auto. rewrite nth_error_app1; auto.
  apply nth_error_Some. congruence.
Qed.

Lemma extends_length : forall h h' : heap, extends h h' -> (length h <= length h')%nat.
Proof.
  intros h h' H. destruct (Nat.le_gt_cases (length h) (length h')) as [|L]; auto.
  destruct (nth_error h (length h')) as [l|] eqn:E.
  - destruct (H _ _ E) as (l' & E' & _).
    assert (length h' < length h')%nat by (apply nth_error_Some; congruence). lia.
  - apply nth_error_None in E. lia.
Qed.

Lemma hget_app : forall (h k : heap) a i, (a < length h)%nat -> hget (h ++ k) a i = hget h a i.
Proof. intros h k a i H. unfold hget. now rewrite nth_error_app1. Qed.

Lemma hget_none_outside : forall (h : heap) a i, (length h <= a)%nat -> hget h a i = None.
Proof.
  intros h a i H. unfold hget. apply nth_error_None in H. now rewrite H.
Qed.

Lemma region_ok_extends : forall (h h' : heap) r, extends h h' -> region_ok h r -> region_ok h' r.
Proof.
  intros h h' r He (l & E & L). destruct (He _ _ E) as (l' & E' & L').
  exists l'. split; auto. lia.
Qed.

Lemma region_ok_alloc : forall (h : heap) r, region_ok h r -> (r_alloc r < length h)%nat.
Proof. intros h r (l & E & _). apply nth_error_Some. congruence. Qed.

Lemma region_read_ok : forall (h : heap) r i, region_ok h r -> i < r_len r ->
  exists v, region_read h r i = Ok v /\ hget h (r_alloc r) (r_lo r + i) = Some v.
Proof.
  intros h r i (l & E & L) Hi. unfold region_read, hget. rewrite E.
  replace (i <? r_len r) with true by lia.
  destruct (nth_error l (N.to_nat (r_lo r + i))) as [v|] eqn:En.
  - exists v. auto.
  - apply nth_error_None in En. lia.
Qed.

Lemma region_read_inv : forall (h : heap) r i v, region_read h r i = Ok v ->
  i < r_len r /\ hget h (r_alloc r) (r_lo r + i) = Some v.
Proof.
  intros h r i v. unfold region_read. destruct (i <? r_len r) eqn:E; [|discriminate].
  destruct (hget h (r_alloc r) (r_lo r + i)) eqn:Eg; [|discriminate].
  intros H. inv_ok. split; auto. lia.
Qed.

Lemma region_read_iff : forall (h : heap) r i v,
  region_read h r i = Ok v <-> i < r_len r /\ hget h (r_alloc r) (r_lo r + i) = Some v.
Proof.
  intros h r i v. split; [apply region_read_inv|]. intros [Hi E]. unfold region_read.
  replace (i <? r_len r) with true by lia. now rewrite E.
Qed.

Lemma region_place_ok : forall r i, i < r_len r ->
  region_place r i = Ok (mkPlace (r_alloc r) (r_lo r + i)).
Proof. intros r i H. unfold region_place. now replace (i <? r_len r) with true by lia. Qed.

Lemma region_place_inv : forall r i p, region_place r i = Ok p ->
  i < r_len r /\ p = mkPlace (r_alloc r) (r_lo r + i).
Proof.
  intros r i p. unfold region_place. destruct (i <? r_len r) eqn:E; [|discriminate].
  intros H. inv_ok. split; auto. lia.
Qed.

Lemma place_write_inv : forall (h : heap) p v h', place_write h p v = Ok h' ->
  h' = hset h (pl_alloc p) (pl_index p) v /\ exists w, hget h (pl_alloc p) (pl_index p) = Some w.
Proof.
  intros h p v h'. unfold place_write. destruct (hget h _ _) eqn:E; [|discriminate].
  intros H. inv_ok. eauto.
Qed.

Lemma place_write_ok : forall (h : heap) p v w, hget h (pl_alloc p) (pl_index p) = Some w ->
  place_write h p v = Ok (hset h (pl_alloc p) (pl_index p) v).
Proof. intros h p v w H. unfold place_write. now rewrite H. Qed.

Lemma place_read_inv : forall (h : heap) p v, place_read h p = Ok v ->
  hget h (pl_alloc p) (pl_index p) = Some v.
Proof. intros h p v. unfold place_read. destruct (hget h _ _); congruence. Qed.

Lemma ptr_add_ok : forall p n, p_off p + n <= r_len (p_region p) ->
  ptr_add p n = Ok (mkPointer (p_region p) (p_off p + n)).
Proof.
  intros p n H. unfold ptr_add, ptr_offset.
  replace ((0 <=? Z.of_N (p_off p) + Z.of_N n) && (Z.of_N (p_off p) + Z.of_N n <=? Z.of_N (r_len (p_region p))))%Z
    with true by lia.
  do 2 f_equal. lia.
Qed.

Lemma ptr_add_inv : forall p n q, ptr_add p n = Ok q ->
  q = mkPointer (p_region p) (p_off p + n) /\ p_off p + n <= r_len (p_region p).
Proof.
  intros p n q. unfold ptr_add, ptr_offset.
  destruct ((0 <=? Z.of_N (p_off p) + Z.of_N n) && (Z.of_N (p_off p) + Z.of_N n <=? Z.of_N (r_len (p_region p))))%Z
    eqn:E; [|discriminate].
  intros H. inv_ok. split; [f_equal|]; lia.
Qed.

Lemma from_raw_parts_ok : forall p n, p_off p + n <= r_len (p_region p) ->
  from_raw_parts p n = Ok (mkRegion (r_alloc (p_region p)) (r_lo (p_region p) + p_off p) n).
Proof. intros p n H. unfold from_raw_parts. now replace (p_off p + n <=? r_len (p_region p)) with true by lia. Qed.

Lemma from_raw_parts_inv : forall p n r, from_raw_parts p n = Ok r ->
  r = mkRegion (r_alloc (p_region p)) (r_lo (p_region p) + p_off p) n /\
  p_off p + n <= r_len (p_region p).
Proof.
  intros p n r. unfold from_raw_parts. destruct (p_off p + n <=? r_len (p_region p)) eqn:E; [|discriminate].
  intros H. inv_ok. split; auto. lia.
Qed.

(** A part of a valid range is valid. *)
Lemma region_ok_sub : forall (h : heap) r off n, region_ok h r -> off + n <= r_len r ->
  region_ok h (mkRegion (r_alloc r) (r_lo r + off) n).
Proof. intros h r off n (l & E & L) H. exists l. cbn [r_alloc r_lo r_len]. split; auto. lia. Qed.

(** Allocation. *)
Lemma alloc_region_ok : forall (h : heap) l h' r, alloc h l = (h', r) ->
  region_ok h' r /\ extends h h' /\ h' = h ++ [l] /\ r = mkRegion (length h) 0 (N.of_nat (length l)).
Proof.
  intros h l h' r H. unfold alloc in H. injection H as <- <-. repeat split; auto using extends_app.
  exists l. cbn [r_alloc r_lo r_len]. split; [|lia].
  rewrite nth_error_app2 by lia. now rewrite Nat.sub_diag.
Qed.

Lemma nth_error_repeat : forall (A : Type) (x : A) n i, (i < n)%nat -> nth_error (repeat x n) i = Some x.
Proof. intros A x n. induction n as [|n IH]; intros [|i] H; cbn; try lia; auto. apply IH. lia. Qed.

Lemma hget_fresh : forall (h : heap) (x : T) n i, i < n ->
  hget (h ++ [repeat x (N.to_nat n)]) (length h) i = Some x.
Proof.
  intros h x n i H. unfold hget. rewrite nth_error_app2 by lia. rewrite Nat.sub_diag. cbn [nth_error].
  apply nth_error_repeat. lia.
Qed.

Lemma vector_container_new_inv : forall {SC : HScalar T} (h : heap) n h' c,
  vector_container_new h n = Ok (h', c) ->
  h' = h ++ [repeat szero (N.to_nat n)] /\
  c = mkContainer VectorContainer (mkRegion (length h) 0 n) /\ n * Npos ssize <= isize_max.
Proof.
  intros SC h n h' c. unfold vector_container_new.
  destruct (n * Npos ssize <=? isize_max) eqn:E; [|discriminate].
  unfold alloc. intros H. injection H as <- <-. rewrite repeat_length, N2Nat.id. repeat split; auto. lia.
Qed.

Lemma vector_container_new_ok : forall {SC : HScalar T} (h : heap) n,
  n * Npos ssize <= isize_max ->
  vector_container_new h n =
  Ok (h ++ [repeat szero (N.to_nat n)], mkContainer VectorContainer (mkRegion (length h) 0 n)).
Proof.
  intros SC h n H. unfold vector_container_new.
  replace (n * Npos ssize <=? isize_max) with true by lia. unfold alloc.
  now rewrite repeat_length, N2Nat.id.
Qed.

Lemma fresh_region_ok : forall (h : heap) (x : T) n,
  region_ok (h ++ [repeat x (N.to_nat n)]) (mkRegion (length h) 0 n).
Proof.
  intros h x n. exists (repeat x (N.to_nat n)). cbn [r_alloc r_lo r_len]. split.
  - rewrite nth_error_app2 by lia. now rewrite Nat.sub_diag.
  - rewrite repeat_length. lia.
Qed.

End MemoryFacts.
