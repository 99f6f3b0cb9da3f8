(** * InterleaveOrders: gemm routines that compute the entries of C in any order; lemmas for C60. *)

From Coq Require Import Lia ZifyBool ZifyNat ZifyN Permutation.
From Verif Require Import Machine MachineFacts Layouts Memory MemoryFacts Matrix MatMul Spec MatrixSpec ProductSpec.
From Verif Require Import Program HistorySpec HistoryProofs Borrow Threads ThreadProofs Interleave InterleaveProofs InterleaveMachine.
Local Open Scope N_scope.

Section Orders.
Context {T : Type}.
Notation heap := (@heap T).
Implicit Types h : heap.

(** ** Accesses *)

Lemma only_bind : forall A B (R W : nat * N -> Prop) (c : prog T A) (f : A -> prog T B),
  only_accesses R W c -> (forall a, only_accesses R W (f a)) -> only_accesses R W (pbind c f).
Proof.
  intros A B R W c f H Hf. induction c as [[a| |]|p k IH|p v k IH|l k IH]; cbn [pbind only_accesses] in *; auto; try discriminate.
  - destruct H. split; auto.
  - destruct H. split; auto.
Qed.

Lemma only_read : forall (R W : nat * N -> Prop) p s rows cols i j, i < rows -> j < cols ->
  (forall q, at_entry p s rows cols q -> R q) -> only_accesses (T := T) R W (p_ptr_read p (gemm_offset s i j)).
Proof.
  intros R W p s rows cols i j Hi Hj H. unfold p_ptr_read, p_region_read. cbv zeta.
  destruct (Z.leb_spec 0 (Z.of_N (p_off p) + gemm_offset s i j)); [|discriminate].
  destruct (N.ltb_spec (Z.to_N (Z.of_N (p_off p) + gemm_offset s i j)) (r_len (p_region p))); [|discriminate].
  cbn [only_accesses pl_alloc pl_index]. split; [|discriminate]. apply H. exists i, j. eexists. splits; eauto.
Qed.

Lemma only_write : forall (R W : nat * N -> Prop) p s rows cols i j (v : T), i < rows -> j < cols ->
  (forall q, at_entry p s rows cols q -> W q) -> only_accesses R W (p_ptr_write p (gemm_offset s i j) v).
Proof.
  intros R W p s rows cols i j v Hi Hj H. unfold p_ptr_write, region_place. cbv zeta.
  destruct (Z.leb_spec 0 (Z.of_N (p_off p) + gemm_offset s i j)); [|discriminate].
  destruct (N.ltb_spec (Z.to_N (Z.of_N (p_off p) + gemm_offset s i j)) (r_len (p_region p))); [|discriminate].
  cbn [pbind p_write only_accesses pl_alloc pl_index]. split; [|discriminate]. apply H. exists i, j. eexists. splits; eauto.
Qed.

Lemma only_collect : forall A (R W : nat * N -> Prop) n i (f : N -> prog T A),
  (forall k, i <= k < i + N.of_nat n -> only_accesses R W (f k)) -> only_accesses R W (p_collect n i f).
Proof.
  intros A R W n. induction n as [|n IH]; intros i f H; cbn [p_collect only_accesses]; [discriminate|].
  apply only_bind; [apply H; lia|]. intros x. apply only_bind; [|intros; discriminate]. apply IH. intros k Hk. apply H. lia.
Qed.

Lemma only_entry : forall kern (g : gemm_args T) i j, i < g_m (ga_shape g) -> j < g_n (ga_shape g) ->
  only_accesses (fun q => a_cells g q \/ b_cells g q \/ c_cells g q) (c_cells g) (p_gemm_entry kern g i j).
Proof.
  intros kern g i j Hi Hj. unfold p_gemm_entry. cbv zeta. apply only_bind.
  - apply only_collect. intros l Hl. apply only_bind.
    { eapply only_read with (cols := g_k (ga_shape g)); [exact Hi|lia|]. intros q Hq. left. exact Hq. }
    intros x. apply only_bind; [|intros; discriminate].
    eapply only_read with (rows := g_k (ga_shape g)); [lia|exact Hj|]. intros q Hq. right. left. exact Hq.
  - intros pairs. apply only_bind; [eapply only_read; eauto; intros q Hq; right; right; exact Hq|].
    intros old. eapply only_write; eauto.
Qed.

(** ** The order *)

(** Steps one after the other. *)
Fixpoint steps {X : Type} (f : X -> heap -> outcome heap) (l : list X) (h : heap) : outcome heap :=
  match l with
  | [] => Ok h
  | x :: l' => h' <- f x h ;; steps f l' h'
  end.

Lemma steps_app : forall X (f : X -> heap -> outcome heap) l l' h, steps f (l ++ l') h = (h' <- steps f l h ;; steps f l' h').
Proof. intros X f l. induction l as [|x l IH]; intros l' h; cbn [steps app bind]; auto. destruct (f x h); cbn [bind]; auto. Qed.

Lemma steps_map : forall X Y (g : X -> Y) (f : Y -> heap -> outcome heap) l h, steps f (map g l) h = steps (fun x => f (g x)) l h.
Proof. intros X Y g f l. induction l as [|x l IH]; intros h; cbn [steps map]; auto. destruct (f (g x) h); cbn [bind]; auto. Qed.

Lemma steps_flat : forall X Y (g : X -> list Y) (f : Y -> heap -> outcome heap) l h,
  steps f (flat_map g l) h = steps (fun x => steps f (g x)) l h.
Proof.
  intros X Y g f l. induction l as [|x l IH]; intros h; cbn [steps flat_map]; auto. rewrite steps_app.
  destruct (steps f (g x) h); cbn [bind]; auto.
Qed.

Lemma steps_ext : forall X (f f' : X -> heap -> outcome heap) l h, (forall x h, f x h = f' x h) -> steps f l h = steps f' l h.
Proof. intros X f f' l h H. revert h. induction l as [|x l IH]; intros h; cbn [steps]; auto. rewrite H. destruct (f' x h); cbn [bind]; auto. Qed.

Lemma loop_steps : forall (f : N -> heap -> outcome heap) n s h,
  loop n (N.of_nat s) f h = steps (fun k => f (N.of_nat k)) (seq s n) h.
Proof.
  intros f n. induction n as [|n IH]; intros s h; cbn [loop seq steps]; auto. destruct (f (N.of_nat s) h); cbn [bind]; auto.
  replace (N.of_nat s + 1) with (N.of_nat (S s)) by lia. apply IH.
Qed.

Lemma steps_not_panic : forall X (f : X -> heap -> outcome heap) l h, (forall x h, f x h <> Panic) -> steps f l h <> Panic.
Proof.
  intros X f l h H. revert h. induction l as [|x l IH]; intros h; cbn [steps]; [discriminate|].
  specialize (H x h). destruct (f x h); cbn [bind]; auto; discriminate.
Qed.

Lemma steps_bad : forall X (f : X -> heap -> outcome heap) l x h, (forall x h, f x h <> Panic) -> In x l -> (forall h, f x h = UB) ->
  steps f l h = UB.
Proof.
  intros X f l x h Hp Hx Hu. revert h. induction l as [|y l IH]; intros h; [destruct Hx|]. cbn [steps]. destruct Hx as [->|Hx].
  - now rewrite Hu.
  - specialize (Hp y h). destruct (f y h); cbn [bind]; auto. now destruct Hp.
Qed.

Lemma steps_perm : forall X (f : X -> heap -> outcome heap) l l' , Permutation l l' ->
  (forall x y h, In x l -> In y l -> (h' <- f x h ;; f y h') = (h' <- f y h ;; f x h')) -> forall h, steps f l h = steps f l' h.
Proof.
  intros X f l l' P. induction P as [|x l l' P IH|x y l|l l1 l2 P1 IH1 P2 IH2]; intros H h; cbn [steps]; auto.
  - destruct (f x h); cbn [bind]; auto. apply IH. intros; apply H; now right.
  - assert (A : forall z w, (h' <- f z h ;; h'' <- f w h' ;; steps f l h'') = (h'' <- (h' <- f z h ;; f w h') ;; steps f l h''))
      by (intros; destruct (f z h); reflexivity).
    rewrite !A. rewrite H; auto; cbn; auto.
  - rewrite IH1 by auto. apply IH2. intros; apply H; (eapply Permutation_in; [apply Permutation_sym; exact P1|]); auto.
Qed.

(** ** One entry *)

Definition entry_step (kern : kernel T) (g : gemm_args T) (q : N * N) (h : heap) : outcome heap :=
  gemm_entry kern (ga_shape g) (ga_alpha g) (ga_a g) (ga_b g) (ga_beta g) (ga_c g) (fst q) (snd q) h.

Lemma ptr_read_not_panic : forall h p d, ptr_read h p d <> Panic.
Proof.
  intros h p d. unfold ptr_read, region_read. cbv zeta. destruct (_ <=? _)%Z; [|discriminate]. destruct (_ <? _); [|discriminate].
  destruct (hget _ _ _); discriminate.
Qed.

Lemma ptr_write_not_panic : forall h p d v, ptr_write h p d v <> Panic.
Proof.
  intros h p d v. unfold ptr_write, region_place. cbv zeta. destruct (_ <=? _)%Z; [|discriminate]. destruct (_ <? _); [|discriminate].
  cbn [bind]. apply place_write_not_panic.
Qed.

Lemma collect_not_panic : forall A (f : N -> outcome A) n i, (forall k, f k <> Panic) -> collect n i f <> Panic.
Proof.
  intros A f n. induction n as [|n IH]; intros i H; cbn [collect]; [discriminate|].
  specialize (IH (i + 1) H). specialize (H i). destruct (f i); cbn [bind]; auto; [|discriminate].
  destruct (collect n (i + 1) f); cbn [bind]; auto; discriminate.
Qed.

Lemma entry_not_panic : forall kern g q h, entry_step kern g q h <> Panic.
Proof.
  intros kern g q h. unfold entry_step, gemm_entry.
  match goal with |- bind ?c _ <> _ => assert (C : c <> Panic) end.
  { apply collect_not_panic. intros k. pose proof (ptr_read_not_panic h (ga_a g) (gemm_offset (g_sa (ga_shape g)) (fst q) k)) as P1.
    pose proof (ptr_read_not_panic h (ga_b g) (gemm_offset (g_sb (ga_shape g)) k (snd q))) as P2.
    destruct (ptr_read h (ga_a g) _); cbn [bind]; auto; [|discriminate]. destruct (ptr_read h (ga_b g) _); cbn [bind]; auto; discriminate. }
  destruct (collect _ _ _) as [pairs| |]; cbn [bind]; auto; [|discriminate].
  pose proof (ptr_read_not_panic h (ga_c g) (gemm_offset (g_sc (ga_shape g)) (fst q) (snd q))) as P.
  destruct (ptr_read h (ga_c g) _); cbn [bind]; auto; [|discriminate]. apply ptr_write_not_panic.
Qed.

(** Where an access at an offset goes. *)
Definition target_cell (p : pointer) (d : Z) : option (nat * N) :=
  let z := (Z.of_N (p_off p) + d)%Z in
  if ((0 <=? z)%Z && (Z.to_N z <? r_len (p_region p)))%bool
  then Some (r_alloc (p_region p), r_lo (p_region p) + Z.to_N z) else None.

Lemma ptr_read_cell : forall h p d, ptr_read h p d =
  match target_cell p d with Some q => match hget h (fst q) (snd q) with Some v => Ok v | None => UB end | None => UB end.
Proof.
  intros h p d. unfold ptr_read, region_read, target_cell. cbv zeta. destruct (_ <=? _)%Z; cbn [andb]; auto.
  destruct (_ <? _); auto.
Qed.

Lemma ptr_write_cell : forall h p d v, ptr_write h p d v =
  match target_cell p d with
  | Some q => match hget h (fst q) (snd q) with Some _ => Ok (hset h (fst q) (snd q) v) | None => UB end
  | None => UB
  end.
Proof.
  intros h p d v. unfold ptr_write, region_place, target_cell. cbv zeta. destruct (_ <=? _)%Z; cbn [andb]; auto.
  destruct (_ <? _); auto.
Qed.

Lemma target_entry : forall p s rows cols i j q, i < rows -> j < cols -> target_cell p (gemm_offset s i j) = Some q -> at_entry p s rows cols q.
Proof.
  intros p s rows cols i j q Hi Hj H. unfold target_cell in H. cbv zeta in H.
  destruct (Z.leb_spec 0 (Z.of_N (p_off p) + gemm_offset s i j)); cbn [andb] in H; [|discriminate].
  destruct (N.ltb_spec (Z.to_N (Z.of_N (p_off p) + gemm_offset s i j)) (r_len (p_region p))); [|discriminate].
  injection H as <-. exists i, j. eexists. splits; eauto.
Qed.

Lemma target_inj : forall p d d' q, target_cell p d = Some q -> target_cell p d' = Some q -> d = d'.
Proof.
  intros p d d' q H H'. unfold target_cell in *. cbv zeta in *.
  destruct ((0 <=? Z.of_N (p_off p) + d)%Z) eqn:E1; cbn [andb] in H; [|discriminate].
  destruct (_ <? _) in H; [|discriminate]. destruct ((0 <=? Z.of_N (p_off p) + d')%Z) eqn:E2; cbn [andb] in H'; [|discriminate].
  destruct (_ <? _) in H'; [|discriminate]. assert (E : Some (r_alloc (p_region p), r_lo (p_region p) + Z.to_N (Z.of_N (p_off p) + d)) =
    Some (r_alloc (p_region p), r_lo (p_region p) + Z.to_N (Z.of_N (p_off p) + d'))) by congruence.
  injection E as E. lia.
Qed.

Lemma upd_comm : forall A (l : list A) i j v w, i <> j -> upd (upd l i v) j w = upd (upd l j w) i v.
Proof.
  intros A l. induction l as [|x l IH]; intros [|i] [|j] v w H; cbn [upd]; auto; try lia. f_equal. apply IH. lia.
Qed.

Lemma upd_upd : forall A (l : list A) i v w, upd (upd l i v) i w = upd l i w.
Proof. intros A l. induction l as [|x l IH]; intros [|i] v w; cbn [upd]; auto. now rewrite IH. Qed.

Lemma hset_comm : forall h a i v b j w, (a, i) <> (b, j) -> hset (hset h a i v) b j w = hset (hset h b j w) a i v.
Proof.
  intros h a i v b j w H. unfold hset. destruct (Nat.eq_dec a b) as [->|Hab].
  - destruct (nth_error h b) as [l|] eqn:E; [|now rewrite E].
    rewrite !nth_error_upd_same by (apply nth_error_Some; congruence). rewrite !upd_upd. f_equal. apply upd_comm.
    intros C. apply H. f_equal. lia.
  - destruct (nth_error h a) as [la|] eqn:Ea, (nth_error h b) as [lb|] eqn:Eb;
      rewrite ?nth_error_upd_other, ?Ea, ?Eb by auto; auto. apply upd_comm. auto.
Qed.

(** The pairs of an entry. *)
Definition entry_pairs (g : gemm_args T) (q : N * N) (h : heap) : outcome (list (T * T)) :=
  collect (N.to_nat (g_k (ga_shape g))) 0 (fun l =>
    x <- ptr_read h (ga_a g) (gemm_offset (g_sa (ga_shape g)) (fst q) l) ;;
    y <- ptr_read h (ga_b g) (gemm_offset (g_sb (ga_shape g)) l (snd q)) ;; Ok (x, y)).

Lemma collect_ext : forall A (f f' : N -> outcome A) n i, (forall k, i <= k < i + N.of_nat n -> f k = f' k) -> collect n i f = collect n i f'.
Proof.
  intros A f f' n. induction n as [|n IH]; intros i H; cbn [collect]; auto. rewrite H by lia. destruct (f' i); cbn [bind]; auto.
  rewrite IH; auto. intros k Hk. apply H. lia.
Qed.

Lemma pairs_same : forall (g : gemm_args T) q h c v, fst q < g_m (ga_shape g) -> snd q < g_n (ga_shape g) ->
  ~ a_cells g c -> ~ b_cells g c -> entry_pairs g q (hset h (fst c) (snd c) v) = entry_pairs g q h.
Proof.
  intros g q h c v Hi Hj Ha Hb. unfold entry_pairs. apply collect_ext. intros k Hk. rewrite !ptr_read_cell.
  assert (A : forall x, target_cell (ga_a g) (gemm_offset (g_sa (ga_shape g)) (fst q) k) = Some x ->
     hget (hset h (fst c) (snd c) v) (fst x) (snd x) = hget h (fst x) (snd x)).
  { intros x E. apply hget_hset_other. intros C. apply Ha. assert (c = x) by (destruct c, x; exact C). subst x.
    eapply target_entry; [| |exact E]; lia. }
  assert (B : forall x, target_cell (ga_b g) (gemm_offset (g_sb (ga_shape g)) k (snd q)) = Some x ->
     hget (hset h (fst c) (snd c) v) (fst x) (snd x) = hget h (fst x) (snd x)).
  { intros x E. apply hget_hset_other. intros C. apply Hb. assert (c = x) by (destruct c, x; exact C). subst x.
    eapply target_entry; [| |exact E]; lia. }
  destruct (target_cell (ga_a g) _) as [x|]; [rewrite (A x eq_refl)|]; destruct (target_cell (ga_b g) _) as [y|]; try rewrite (B y eq_refl); auto.
Qed.

Lemma entry_step_eq : forall kern g q h, entry_step kern g q h =
  (pairs <- entry_pairs g q h ;;
   match target_cell (ga_c g) (gemm_offset (g_sc (ga_shape g)) (fst q) (snd q)) with
   | Some c => match hget h (fst c) (snd c) with
               | Some old => Ok (hset h (fst c) (snd c) (kern (ga_shape g) (fst q) (snd q) (ga_alpha g) pairs (ga_beta g) old))
               | None => UB
               end
   | None => UB
   end).
Proof.
  intros kern g q h. unfold entry_step, gemm_entry, entry_pairs. destruct (collect _ _ _) as [pairs| |]; cbn [bind]; auto.
  rewrite ptr_read_cell. destruct (target_cell (ga_c g) _) as [c|] eqn:Ec; cbn [bind]; auto.
  destruct (hget h (fst c) (snd c)) eqn:Eh; cbn [bind]; auto. rewrite ptr_write_cell, Ec, Eh. reflexivity.
Qed.

Lemma entries_commute : forall kern g q q' h, plain_args g -> c_in_range g ->
  fst q < g_m (ga_shape g) -> snd q < g_n (ga_shape g) -> fst q' < g_m (ga_shape g) -> snd q' < g_n (ga_shape g) ->
  (h' <- entry_step kern g q h ;; entry_step kern g q' h') = (h' <- entry_step kern g q' h ;; entry_step kern g q h').
Proof.
  intros kern g q q' h [P1 P2] Hr Q1 Q2 Q3 Q4. specialize (P2 Hr).
  assert (D : q = q' \/ q <> q') by (destruct q as [i j], q' as [i' j']; destruct (N.eq_dec i i'), (N.eq_dec j j'); subst; auto; right; congruence).
  destruct D as [->|D]; auto.
  rewrite (entry_step_eq kern g q h), (entry_step_eq kern g q' h).
  destruct (target_cell (ga_c g) (gemm_offset (g_sc (ga_shape g)) (fst q) (snd q))) as [c|] eqn:Ec.
  2:{ assert (U : forall h, entry_step kern g q h = UB).
      { intros h0. pose proof (entry_not_panic kern g q h0) as N1. rewrite entry_step_eq in *. rewrite Ec in *.
        destruct (entry_pairs g q h0); cbn [bind] in *; auto. now destruct N1. }
      pose proof (entry_not_panic kern g q' h) as N1. rewrite entry_step_eq in N1.
      match goal with |- _ = bind ?e _ => destruct e; cbn [bind]; auto end; [rewrite U | | ].
      all: pose proof (entry_not_panic kern g q h) as N2; rewrite entry_step_eq, Ec in N2; destruct (entry_pairs g q h); cbn [bind] in *; auto; try (now destruct N2); try (now destruct N1). }
  destruct (target_cell (ga_c g) (gemm_offset (g_sc (ga_shape g)) (fst q') (snd q'))) as [c'|] eqn:Ec'.
  2:{ assert (U : forall h, entry_step kern g q' h = UB).
      { intros h0. pose proof (entry_not_panic kern g q' h0) as N1. rewrite entry_step_eq in *. rewrite Ec' in *.
        destruct (entry_pairs g q' h0); cbn [bind] in *; auto. now destruct N1. }
      pose proof (entry_not_panic kern g q h) as N1. rewrite entry_step_eq, Ec in N1.
      pose proof (U h) as Uh. rewrite entry_step_eq, Ec' in Uh. rewrite Uh. cbn [bind].
      match goal with |- bind ?e _ = _ => destruct e; cbn [bind]; auto end. now destruct N1. }
  assert (Hc : c_cells g c) by (eapply target_entry; [| |exact Ec]; auto).
  assert (Hc' : c_cells g c') by (eapply target_entry; [| |exact Ec']; auto).
  assert (Ne : c <> c').
  { intros ->. pose proof (target_inj _ _ _ _ Ec Ec') as E. apply P2 in E; auto. apply D. destruct q, q'; cbn [fst snd] in *; f_equal; tauto. }
  assert (Ne2 : (fst c, snd c) <> (fst c', snd c')) by (destruct c, c'; exact Ne).
  destruct (P1 c Hc) as [A1 B1]. destruct (P1 c' Hc') as [A2 B2].
  pose proof (entry_not_panic kern g q h) as N1. rewrite entry_step_eq, Ec in N1.
  pose proof (entry_not_panic kern g q' h) as N2. rewrite entry_step_eq, Ec' in N2.
  destruct (entry_pairs g q h) as [pq| |] eqn:Epq; cbn [bind] in *; [|now destruct N1|].
  - destruct (hget h (fst c) (snd c)) as [old|] eqn:Eo; cbn [bind].
    + rewrite entry_step_eq, Ec', pairs_same by auto.
      destruct (entry_pairs g q' h) as [pq'| |] eqn:Epq'; cbn [bind] in *; [|now destruct N2|reflexivity].
      rewrite hget_hset_other by exact Ne2. destruct (hget h (fst c') (snd c')) as [old'|] eqn:Eo'; cbn [bind]; auto.
      rewrite entry_step_eq, Ec, pairs_same, Epq by auto. cbn [bind].
      rewrite hget_hset_other by (apply not_eq_sym; exact Ne2). rewrite Eo. f_equal. apply hset_comm. exact Ne2.
    + destruct (entry_pairs g q' h) as [pq'| |] eqn:Epq'; cbn [bind] in *; [|now destruct N2|reflexivity].
      destruct (hget h (fst c') (snd c')) as [old'|] eqn:Eo'; cbn [bind]; auto.
      rewrite entry_step_eq, Ec, pairs_same, Epq by auto. cbn [bind].
      rewrite hget_hset_other by (apply not_eq_sym; exact Ne2). now rewrite Eo.
  - destruct (entry_pairs g q' h) as [pq'| |] eqn:Epq'; cbn [bind] in *; [|now destruct N2|reflexivity].
    destruct (hget h (fst c') (snd c')) as [old'|] eqn:Eo'; cbn [bind]; auto.
    rewrite entry_step_eq, Ec, pairs_same, Epq by auto. reflexivity.
Qed.

(** ** The programs *)

Lemma complete_ptr_read : forall p d h, complete (p_ptr_read p d) h = (v <- ptr_read h p d ;; Ok (h, v)).
Proof.
  intros p d h. unfold p_ptr_read, ptr_read. cbv zeta. destruct (_ <=? _)%Z; [|reflexivity].
  unfold p_region_read, region_read. destruct (_ <? _); reflexivity.
Qed.

Lemma complete_ptr_write : forall p d (v : T) h, complete (p_ptr_write p d v) h = (h' <- ptr_write h p d v ;; Ok (h', tt)).
Proof.
  intros p d v h. unfold p_ptr_write, ptr_write. cbv zeta. destruct (_ <=? _)%Z; [|reflexivity].
  unfold region_place. destruct (_ <? _); reflexivity.
Qed.

Lemma complete_collect : forall A (f : N -> prog T A) (f' : N -> outcome A) h n i,
  (forall k, complete (f k) h = (v <- f' k ;; Ok (h, v))) -> complete (p_collect n i f) h = (v <- collect n i f' ;; Ok (h, v)).
Proof.
  intros A f f' h n. induction n as [|n IH]; intros i H; cbn [p_collect collect]; [reflexivity|].
  rewrite complete_bind, H. destruct (f' i); cbn [bind]; auto. rewrite complete_bind, IH by auto.
  destruct (collect n (i + 1) f'); reflexivity.
Qed.

Lemma complete_entry : forall kern g q h, complete (p_gemm_entry kern g (fst q) (snd q)) h = (h' <- entry_step kern g q h ;; Ok (h', tt)).
Proof.
  intros kern g q h. unfold p_gemm_entry, entry_step, gemm_entry. cbv zeta. rewrite complete_bind.
  erewrite complete_collect.
  2:{ intros k. rewrite complete_bind, complete_ptr_read.
      instantiate (1 := fun k => x <- ptr_read h (ga_a g) (gemm_offset (g_sa (ga_shape g)) (fst q) k) ;;
        y <- ptr_read h (ga_b g) (gemm_offset (g_sb (ga_shape g)) k (snd q)) ;; Ok (x, y)). cbv beta.
      destruct (ptr_read h (ga_a g) _); cbn [bind]; auto. rewrite complete_bind, complete_ptr_read.
      destruct (ptr_read h (ga_b g) _); reflexivity. }
  destruct (collect _ _ _) as [pairs| |]; cbn [bind]; auto. rewrite complete_bind, complete_ptr_read.
  destruct (ptr_read h (ga_c g) _); cbn [bind]; auto. apply complete_ptr_write.
Qed.

Lemma complete_entries : forall kern g l h, complete (p_entries kern g l) h = (h' <- steps (entry_step kern g) l h ;; Ok (h', tt)).
Proof.
  intros kern g l. induction l as [|[i j] l IH]; intros h; cbn [p_entries steps]; [reflexivity|].
  rewrite complete_bind. rewrite (complete_entry kern g (i, j)). destruct (entry_step kern g (i, j) h); cbn [bind]; auto.
Qed.

Lemma gemm_steps : forall kern g h,
  (let sh := ga_shape g in
   gemm kern (g_m sh) (g_k sh) (g_n sh) (ga_alpha g) (ga_a g) (fst (g_sa sh)) (snd (g_sa sh))
     (ga_b g) (fst (g_sb sh)) (snd (g_sb sh)) (ga_beta g) (ga_c g) (fst (g_sc sh)) (snd (g_sc sh)) h) =
  steps (entry_step kern g) (positions (g_m (ga_shape g)) (g_n (ga_shape g))) h.
Proof.
  intros kern g h. cbv zeta. unfold gemm, positions, for_range. cbv zeta. rewrite steps_flat.
  change 0 with (N.of_nat 0) at 1. rewrite loop_steps. apply steps_ext. intros i h0.
  change 0 with (N.of_nat 0) at 1. rewrite loop_steps, steps_map. apply steps_ext. intros j h1.
  unfold entry_step. cbn [fst snd]. destruct g as [[gm gk gn [sa1 sa2] [sb1 sb2] [sc1 sc2]] al a b be c]. reflexivity.
Qed.

Lemma positions_in : forall rows cols q, In q (positions rows cols) <-> fst q < rows /\ snd q < cols.
Proof.
  intros rows cols [i j]. unfold positions. rewrite in_flat_map. cbn [fst snd]. split.
  - intros (x & X1 & X2). apply in_map_iff in X2. destruct X2 as (y & E & X2). injection E as <- <-. apply in_seq in X1, X2. lia.
  - intros [H1 H2]. exists (N.to_nat i). split; [apply in_seq; lia|]. apply in_map_iff. exists (N.to_nat j). split; [f_equal; lia|]. apply in_seq. lia.
Qed.

Lemma c60_orders : forall (order : gemm_args T -> list (N * N)) kern,
  (forall g, Permutation (order g) (positions (g_m (ga_shape g)) (g_n (ga_shape g)))) -> implements (in_order order kern) kern.
Proof.
  intros order kern Hp g. pose proof (Hp g) as P. set (all := positions (g_m (ga_shape g)) (g_n (ga_shape g))) in *. split.
  - unfold in_order.
    assert (A : forall l, (forall q, In q l -> In q all) ->
      only_accesses (fun q => a_cells g q \/ b_cells g q \/ c_cells g q) (c_cells g) (p_entries kern g l)).
    { intros l. induction l as [|[i j] l IH]; intros H; cbn [p_entries only_accesses]; [discriminate|].
      pose proof (proj1 (positions_in _ _ _) (H _ (or_introl eq_refl))) as [H1 H2]. cbn [fst snd] in H1, H2.
      apply only_bind; [now apply only_entry|]. intros _. apply IH. intros q Hq. apply H. now right. }
    apply A. intros q Hq. eapply Permutation_in; eauto.
  - intros Hg h. unfold in_order. rewrite complete_entries.
    pose proof (gemm_steps kern g h) as G. cbv zeta in G |- *. rewrite G. fold all. f_equal.
    set (ok := fun q : N * N => (0 <= Z.of_N (p_off (ga_c g)) + gemm_offset (g_sc (ga_shape g)) (fst q) (snd q) < Z.of_N (r_len (p_region (ga_c g))))%Z).
    destruct (Forall_Exists_dec ok) with (l := all) as [F|E].
    { intros q. unfold ok. destruct (Z_le_dec 0 (Z.of_N (p_off (ga_c g)) + gemm_offset (g_sc (ga_shape g)) (fst q) (snd q)));
        destruct (Z_lt_dec (Z.of_N (p_off (ga_c g)) + gemm_offset (g_sc (ga_shape g)) (fst q) (snd q)) (Z.of_N (r_len (p_region (ga_c g)))));
        [left|right|right|right]; lia. }
    + rewrite Forall_forall in F. apply steps_perm; auto. intros x y h0 Hx Hy.
      apply (Permutation_in _ P), positions_in in Hx. apply (Permutation_in _ P), positions_in in Hy.
      apply entries_commute; try tauto. intros i j Hi Hj. apply (F (i, j)). now apply positions_in.
    + rewrite Exists_exists in E. destruct E as (q & Hq & Hn).
      assert (U : forall h, entry_step kern g q h = UB).
      { intros h0. pose proof (entry_not_panic kern g q h0) as N1. rewrite entry_step_eq in *.
        replace (target_cell (ga_c g) (gemm_offset (g_sc (ga_shape g)) (fst q) (snd q))) with (@None (nat * N)) in *.
        - destruct (entry_pairs g q h0); cbn [bind] in *; auto. now destruct N1.
        - symmetry. unfold target_cell, ok in *. cbv zeta.
          destruct (Z.leb_spec 0 (Z.of_N (p_off (ga_c g)) + gemm_offset (g_sc (ga_shape g)) (fst q) (snd q))); cbn [andb]; auto.
          destruct (N.ltb_spec (Z.to_N (Z.of_N (p_off (ga_c g)) + gemm_offset (g_sc (ga_shape g)) (fst q) (snd q))) (r_len (p_region (ga_c g)))); auto.
          destruct Hn. lia. }
      rewrite !steps_bad with (x := q); auto using entry_not_panic.
      eapply Permutation_in; [apply Permutation_sym; exact P|exact Hq].
Qed.

End Orders.

(** ** Which products are plain *)

Lemma c60_plain : forall T (alpha : T) a b beta c (g : gemm_args T), matmul_args alpha a b beta c = Ok g ->
  (forall q, occupies (@MBase T c) q -> ~ occupies (@MBase T a) q /\ ~ occupies (@MBase T b) q) ->
  fst (dim (bm_layout c)) < usize_mod -> snd (dim (bm_layout c)) < usize_mod ->
  match bm_layout c with
  | ArbitraryStrideRowVector _ s | ArbitraryStrideColumnVector _ s => 0 < s < usize_mod
  | _ => True
  end -> plain_args g.
Proof.
  intros T alpha a b beta c g H Hd Hw1 Hw2 Hk. unfold matmul_args in H. cbv zeta in H.
  apply bind_ok in H. destruct H as (u & E & H). apply bind_ok in H. destruct H as (sa & _ & H).
  apply bind_ok in H. destruct H as (sb & _ & H). apply bind_ok in H. destruct H as (sc & Ec & H). injection H as <-.
  unfold plain_args, a_cells, b_cells, c_cells, at_entry, c_in_range. cbn [ga_shape ga_a ga_b ga_c g_m g_n g_k g_sa g_sb g_sc get_pointer container_get_pointer p_region p_off].
  split.
  - intros q Hq.
    assert (O : forall (b : base_matrix) s rows cols, (exists i j z, i < rows /\ j < cols /\ z = (Z.of_N 0 + gemm_offset s i j)%Z /\ (0 <= z)%Z /\
      Z.to_N z < r_len (c_region (bm_data b)) /\ q = (r_alloc (c_region (bm_data b)), r_lo (c_region (bm_data b)) + Z.to_N z)) -> occupies (@MBase T b) q).
    { intros b0 s rows cols (i & j & z & _ & _ & _ & Hz & Hl & ->). cbn [occupies fst snd]. cbv zeta. lia. }
    apply O in Hq. destruct (Hd q Hq) as [D1 D2]. split; intros C; apply O in C; auto.
  - intros F i j i' j' Hi Hj Hi' Hj' Eo.
    unfold assert_ in E. destruct (matmul_dims_ok _ _ _) eqn:Ed; [|discriminate].
    unfold matmul_dims_ok in Ed. rewrite !Bool.andb_true_iff, !N.eqb_eq in Ed. destruct Ed as ((E1 & E2) & E3).
    unfold gemm_offset in *. cbn [fst snd] in *. rewrite <- E2 in *. rewrite <- E3 in *.
    assert (Rows : forall x x' y y' n r, n < usize_mod -> x < r -> x' < r -> y < n -> y' < n ->
      (forall x y, x < r -> y < n -> (0 <= Z.of_N x * as_isize n + Z.of_N y)%Z) ->
      (Z.of_N x * as_isize n + Z.of_N y = Z.of_N x' * as_isize n + Z.of_N y')%Z -> x = x' /\ y = y').
    { intros x x' y y' n r Hn X X' Y Y' Fn Eq. unfold as_isize in *. destruct (N.leb_spec n isize_max).
      - assert (Z.of_N n * (Z.of_N x - Z.of_N x') = Z.of_N y' - Z.of_N y)%Z by lia.
        assert (Z.of_N x = Z.of_N x') by nia. split; nia.
      - destruct (N.lt_ge_cases 1 r); [specialize (Fn 1 0); lia|]. assert (x = 0) by lia. assert (x' = 0) by lia. subst. lia. }
    assert (Nonzero : forall s, 0 < s < usize_mod -> as_isize s <> 0%Z).
    { intros s Hs. unfold as_isize. destruct (_ <=? _); lia. }
    destruct (bm_layout c) as [D|D|n0|n0|D s|D s|n0 s|n0 s|n0]; cbn [stride] in Ec; try discriminate; injection Ec as <-;
      cbn [dim fst snd] in *; change (as_isize 1) with 1%Z in *.
    + apply Rows with (n := snd D) (r := fst D); auto; [|lia]. intros x y Hx Hy. specialize (F x y Hx Hy). lia.
    + apply and_comm. apply Rows with (n := fst D) (r := snd D); auto; [|lia]. intros x y Hx Hy. specialize (F y x Hy Hx). lia.
    + lia.
    + lia.
    + apply Rows with (n := snd D) (r := fst D); auto; [|lia]. intros x y Hx Hy. specialize (F x y Hx Hy). lia.
    + apply and_comm. apply Rows with (n := fst D) (r := snd D); auto; [|lia]. intros x y Hx Hy. specialize (F y x Hy Hx). lia.
    + specialize (Nonzero s Hk). assert (i = i') by lia. subst. split; auto. nia.
    + specialize (Nonzero s Hk). assert (j = j') by lia. subst. split; auto. nia.
Qed.

(** ** The same as whole calls one after the other *)

Lemma c60_calls : forall (T : Type) (SC : HScalar T) (St : Type) (code : gemm_args T -> prog T unit) kern m p
    (calls : nat -> list (call T St)) sched M (whole : list (nat * call T St)),
  implements code kern -> in_memory p -> Threads.apart p -> (forall k, plain_history kern m (view p k) (calls k)) ->
  mrun code m (launch p calls) sched = Ok M -> (forall k, finished (m_thread M k)) ->
  (forall k, of_thread k whole = calls k) ->
  exists p' tr, prun kern m p whole = Ok (p', tr) /\
    forall k, t_done (m_thread M k) = of_thread k tr /\
      Forall2 (fun x y => same_matrix (p_heap p') x (memory M k) y) (p_tabs p' k) (t_table (m_thread M k)).
Proof.
  intros T SC St code kern m p calls sched M whole impl Hm Ha Hc H Hf Hw.
  assert (A : forall k, exists st, run kern m (view p k) (of_thread k whole) = Ok (st, t_done (m_thread M k)) /\
      t_table (m_thread M k) = st_mats st /\ forall x, In x (st_mats st) -> same_matrix (st_heap st) x (memory M k) x).
  { intros k. destruct (c60_alone code kern m p calls sched M impl Hm Ha Hc H k) as (made & st & A1 & A2 & A3 & A4).
    destruct (Hf k) as [F1 F2]. unfold current in A1. rewrite F1, F2, !app_nil_r in A1. subst made. exists st. rewrite Hw. splits; auto. }
  destruct (proj1 (c55_ub kern m p whole Hm Ha)) as ((p' & tr) & Ep).
  { intros k. destruct (A k) as (st & A1 & _). eauto. }
  exists p', tr. split; auto. intros k. destruct (A k) as (st & A1 & A2 & A3).
  destruct (c55_alone kern m p whole p' tr Hm Ha Ep k) as (st' & B1 & B2). rewrite A1 in B1. injection B1 as <- B1. split; auto.
  rewrite A2. clear - A3 B2. induction B2 as [|x y xs ys S _ IH]; constructor.
  - destruct S as (S1 & S2 & S3 & S4). destruct (A3 x (or_introl eq_refl)) as (R1 & R2 & R3 & R4). repeat split; try congruence.
    + intros r c. rewrite (proj1 (S4 _)), (proj1 (R4 _)). reflexivity.
    + intros i. rewrite (proj2 (S4 _)), (proj2 (R4 _)). reflexivity.
  - apply IH. intros z Hz. apply A3. now right.
Qed.
