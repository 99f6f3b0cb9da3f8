(** * What the programs of calls access, by place. *)

From Coq Require Import Lia ZifyBool ZifyNat ZifyN.
From Verif Require Import Machine MachineFacts Layouts Memory MemoryFacts Matrix MatMul Spec MatrixSpec ExprSpec ProductSpec.
From Verif Require Import Program HistorySpec HistoryProofs AccessProofs BlockProofs ProductProofs Borrow BorrowProofs Threads ThreadProofs Interleave InterleaveProofs.
Local Open Scope N_scope.

Section FlatFits.
Context {T : Type} {SC : HScalar T} {St : Type}.

(** Cells of the blocks that a program allocated. *)
Definition fresh (new : list (nat * N)) (q : nat * N) : Prop := exists b, In b new /\ fst q = fst b /\ snd q < snd b.
Definition plus_new (D : nat * N -> Prop) (new : list (nat * N)) (q : nat * N) : Prop := D q \/ fresh new q.

Lemma plus_more : forall D new b q, plus_new D new q -> plus_new D (b :: new) q.
Proof. intros D new b q [H|(c & I & E)]; [now left|]. right. exists c. split; auto. now right. Qed.

(** The program loads in [R] and stores in [W], and does both in what it allocates itself;
    [new] is that so far. *)
Fixpoint reaches {A : Type} (R W : nat * N -> Prop) (new : list (nat * N)) (c : prog T A) (Q : list (nat * N) -> A -> Prop) : Prop :=
  match c with
  | Stop (Ok a) => Q new a
  | Stop _ => True
  | Load p k => plus_new R new (pl_alloc p, pl_index p) /\ forall v, reaches R W new (k v) Q
  | Store p v k => plus_new W new (pl_alloc p, pl_index p) /\ reaches R W new k Q
  | Alloc l k => forall a, reaches R W ((a, N.of_nat (length l)) :: new) (k (mkRegion a 0 (N.of_nat (length l)))) Q
  end.

Section Reach.
Variables R W : nat * N -> Prop.

Lemma reaches_weaken : forall A (c : prog T A) new (Q Q' : list (nat * N) -> A -> Prop),
  reaches R W new c Q -> (forall new a, Q new a -> Q' new a) -> reaches R W new c Q'.
Proof.
  intros A c. induction c as [[a| |]|p k IH|p v k IH|l k IH]; intros new Q Q' H HQ; cbn [reaches] in *; auto.
  - destruct H as [H1 H2]. split; eauto.
  - destruct H as [H1 H2]. split; eauto.
  - intros a. eauto.
Qed.

Lemma reaches_bind : forall A C (c : prog T A) (f : A -> prog T C) new (Q : list (nat * N) -> C -> Prop),
  reaches R W new c (fun new a => reaches R W new (f a) Q) -> reaches R W new (pbind c f) Q.
Proof.
  intros A C c f. induction c as [[a| |]|p k IH|p v k IH|l k IH]; intros new Q H; cbn [reaches pbind] in *; auto.
  - destruct H as [H1 H2]. split; auto.
  - destruct H as [H1 H2]. split; auto.
Qed.

Lemma reaches_pure : forall A (o : outcome A) new (Q : list (nat * N) -> A -> Prop),
  (forall a, o = Ok a -> Q new a) -> reaches R W new (Stop o) Q.
Proof. intros A [a| |] new Q H; cbn [reaches]; auto. Qed.

Lemma reaches_only : forall A (R' W' : nat * N -> Prop) (c : prog T A) new (Q : list (nat * N) -> A -> Prop), only_accesses R' W' c ->
  (forall q, R' q -> plus_new R new q) -> (forall q, W' q -> plus_new W new q) -> (forall a, Q new a) -> reaches R W new c Q.
Proof.
  intros A R' W' c. induction c as [[a| |]|p k IH|p v k IH|l k IH]; intros new Q H HR HW HQ; cbn [reaches only_accesses] in *; auto.
  - destruct H. split; auto.
  - destruct H. split; auto.
  - destruct H.
Qed.

Lemma reaches_region_read : forall r i new (Q : list (nat * N) -> T -> Prop), (forall q, in_region r q -> plus_new R new q) -> (forall v, Q new v) ->
  reaches R W new (p_region_read r i) Q.
Proof.
  intros r i new Q H HQ. unfold p_region_read. destruct (N.ltb_spec i (r_len r)); cbn [reaches]; auto. split; auto.
  apply H. unfold in_region. cbn. lia.
Qed.

Lemma reaches_unchecked : forall m x new (Q : list (nat * N) -> T -> Prop), covered (plus_new R new) x -> (forall v, Q new v) ->
  (forall r c, reaches R W new (p_get_unchecked m x r c) Q) /\ (forall i, reaches R W new (p_get1d_unchecked m x i) Q).
Proof.
  intros m x new. induction x as [b | x IH | x IH | x IH s | x IHx y IHy l]; intros Q H HQ;
    cbn [p_get_unchecked p_get1d_unchecked].
  - pose proof (covered_base _ _ H) as Hb. split; intros; unfold p_base_get_unchecked, p_base_get1d_unchecked;
      apply reaches_bind, reaches_pure; intros a _; apply reaches_region_read; auto.
  - apply IH; auto.
  - apply IH; auto.
  - split; intros; apply reaches_bind; apply IH; cbn [reaches]; auto.
  - assert (Hx : covered (plus_new R new) x) by (intros q Hq; apply H; now left).
    assert (Hy : covered (plus_new R new) y) by (intros q Hq; apply H; now right).
    split; intros; apply reaches_bind; apply IHx; auto; intros v; apply reaches_bind; apply IHy; cbn [reaches]; auto.
Qed.

Lemma reaches_get : forall m x r c new (Q : list (nat * N) -> T -> Prop), covered (plus_new R new) x -> (forall v, Q new v) -> reaches R W new (p_get m x r c) Q.
Proof. intros. unfold p_get. apply reaches_bind, reaches_pure. intros a _. now apply reaches_unchecked. Qed.

Lemma reaches_get1d : forall m x i new (Q : list (nat * N) -> T -> Prop), covered (plus_new R new) x -> (forall v, Q new v) -> reaches R W new (p_get1d m x i) Q.
Proof.
  intros. unfold p_get1d. apply reaches_bind, reaches_pure. intros a _. apply reaches_bind, reaches_pure. intros [] _.
  now apply reaches_unchecked.
Qed.

(** A container that is a new allocation. *)
Definition made_container (new : list (nat * N)) (c : container) : Prop := forall q, in_region (c_region c) q -> fresh new q.
Definition made_base (new : list (nat * N)) (b : base_matrix) : Prop := made_container new (bm_data b).

Lemma reaches_vector : forall k new (Q : list (nat * N) -> container -> Prop), (forall new' c, made_container new' c -> Q new' c) ->
  reaches R W new (p_vector_container_new k) Q.
Proof.
  intros k new Q H. unfold p_vector_container_new. destruct (_ <=? _); cbn [reaches]; auto. intros a. apply H.
  intros q (E & _ & L). cbn [c_region r_alloc r_lo r_len] in *. exists (a, N.of_nat (length (repeat szero (N.to_nat k)))).
  split; [now left|]. cbn [fst snd]. (split; [exact E|lia]).
Qed.

Lemma reaches_array : forall k new (Q : list (nat * N) -> container -> Prop), (forall new' c, made_container new' c -> Q new' c) ->
  reaches R W new (p_array_container_new k) Q.
Proof.
  intros k new Q H. unfold p_array_container_new. cbn [reaches]. intros a. apply H.
  intros q (E & _ & L). cbn [c_region r_alloc r_lo r_len] in *. exists (a, N.of_nat (length (repeat szero (N.to_nat k)))).
  split; [now left|]. cbn [fst snd]. (split; [exact E|lia]).
Qed.

Lemma reaches_from_data : forall m rs cs c l new (Q : list (nat * N) -> base_matrix -> Prop), made_container new c -> (forall b, made_base new b -> Q new b) ->
  reaches R W new (Stop (from_data m rs cs c l)) Q.
Proof. intros m rs cs c l new Q Hc H. apply reaches_pure. intros b Hb. apply H. apply from_data_data in Hb. now subst b. Qed.

Ltac reach :=
  repeat first
    [ apply reaches_bind
    | apply reaches_vector; intros ? ? ?
    | apply reaches_array; intros ? ? ?
    | apply reaches_from_data; [assumption|]; intros ? ?
    | apply reaches_pure; intros ? _ ].

Lemma reaches_zeros : forall m k r c new (Q : list (nat * N) -> base_matrix -> Prop), (forall new' b, made_base new' b -> Q new' b) ->
  reaches R W new (p_zeros_from_dim m k r c) Q.
Proof. intros m k r c new Q H. unfold p_zeros_from_dim. reach. auto. Qed.

Lemma reaches_zeros_fixed : forall m k r c new (Q : list (nat * N) -> base_matrix -> Prop), (forall new' b, made_base new' b -> Q new' b) ->
  reaches R W new (p_zeros_fixed m k r c) Q.
Proof. intros m k r c new Q H. unfold p_zeros_fixed. reach. auto. Qed.

Lemma reaches_zeros_fixed_vector : forall m rs cs k i new (Q : list (nat * N) -> base_matrix -> Prop), (forall new' b, made_base new' b -> Q new' b) ->
  reaches R W new (p_zeros_fixed_vector m rs cs k i) Q.
Proof.
  intros m rs cs k i new Q H. unfold p_zeros_fixed_vector. apply reaches_bind, reaches_array. intros new' c Hc.
  destruct (from_length k i); [|exact I]. apply reaches_from_data; auto.
Qed.

Lemma reaches_row : forall m i new (Q : list (nat * N) -> base_matrix -> Prop), (forall new' b, made_base new' b -> Q new' b) -> reaches R W new (p_row_zeros m i) Q.
Proof. intros m i new Q H. unfold p_row_zeros. reach. auto. Qed.
Lemma reaches_column : forall m i new (Q : list (nat * N) -> base_matrix -> Prop), (forall new' b, made_base new' b -> Q new' b) -> reaches R W new (p_column_zeros m i) Q.
Proof. intros m i new Q H. unfold p_column_zeros. reach. auto. Qed.
Lemma reaches_row_dim : forall m r c new (Q : list (nat * N) -> base_matrix -> Prop), (forall new' b, made_base new' b -> Q new' b) -> reaches R W new (p_row_zeros_dim m r c) Q.
Proof. intros m r c new Q H. unfold p_row_zeros_dim. apply reaches_bind, reaches_pure. intros [] _. now apply reaches_row. Qed.
Lemma reaches_column_dim : forall m r c new (Q : list (nat * N) -> base_matrix -> Prop), (forall new' b, made_base new' b -> Q new' b) -> reaches R W new (p_column_zeros_dim m r c) Q.
Proof. intros m r c new Q H. unfold p_column_zeros_dim. apply reaches_bind, reaches_pure. intros [] _. now apply reaches_column. Qed.

Lemma reaches_new_write : forall b m i new (Q : list (nat * N) -> unit -> Prop) v, made_base new b -> Q new tt ->
  reaches R W new (pbind (Stop (base_get1d_unchecked_mut m b i)) (fun p => p_write p v)) Q.
Proof.
  intros b m i new Q v Hb HQ. apply reaches_bind, reaches_pure. intros p Hp. apply base_mut1d_in in Hp.
  cbn [p_write reaches]. split; auto. right. now apply Hb.
Qed.

Lemma reaches_loop : forall k i body new (Q : list (nat * N) -> unit -> Prop), (forall i (P : list (nat * N) -> unit -> Prop), P new tt -> reaches R W new (body i) P) ->
  Q new tt -> reaches R W new (p_loop k i body) Q.
Proof.
  intros k. induction k as [|k IH]; intros i body new Q H HQ; cbn [p_loop reaches]; auto.
  apply reaches_bind. apply H. now apply IH.
Qed.

(** New allocations leave what was reachable reachable. *)
Lemma reaches_zeros_more : forall m k r c new (Q : list (nat * N) -> base_matrix -> Prop), (forall b n, made_base (n :: new) b -> Q (n :: new) b) ->
  reaches R W new (p_zeros_from_dim m k r c) Q.
Proof.
  intros m k r c new Q H. unfold p_zeros_from_dim. apply reaches_bind, reaches_pure. intros l _. apply reaches_bind, reaches_pure. intros n _.
  apply reaches_bind. unfold p_vector_container_new. destruct (_ <=? _); cbn [reaches]; auto. intros a.
  apply reaches_bind, reaches_pure. intros l' _. apply reaches_from_data.
  - intros q (E & _ & L). cbn [c_region r_alloc r_lo r_len] in *. eexists. split; [now left|]. cbn [fst snd]. (split; [exact E|lia]).
  - intros b Hb. now apply H.
Qed.

Lemma reaches_eval : forall m x new (Q : list (nat * N) -> base_matrix -> Prop), covered (plus_new R new) x -> (forall new' b, made_base new' b -> Q new' b) ->
  reaches R W new (p_eval m x) Q.
Proof.
  intros m x new Q Hx HQ. unfold p_eval. cbv zeta. apply reaches_bind, reaches_zeros_more. intros b n0 Hb. apply reaches_bind, reaches_pure. intros k _.
  apply reaches_bind. apply reaches_loop.
  - intros i P HP. apply reaches_bind. apply reaches_unchecked; [intros q Hq; apply plus_more; auto|]. intros v. now apply reaches_new_write.
  - cbn [reaches]. auto.
Qed.

Lemma reaches_for_each_loop : forall S m b (f : closure (T := T) S) k i s new (Q : list (nat * N) -> S * bool -> Prop),
  (forall q, in_region (c_region (bm_data b)) q -> R q /\ W q) -> (forall a, Q new a) ->
  reaches R W new (p_for_each_loop m b f k i s) Q.
Proof.
  intros S m b f k. induction k as [|k IH]; intros i s new Q H HQ; cbn [p_for_each_loop reaches]; auto.
  apply reaches_bind. unfold p_call_closure. destruct (base_get1d_unchecked_mut m b i) as [p| |] eqn:Ep; cbn [reaches]; auto.
  apply base_mut1d_in in Ep. split; [left; now apply H|]. intros v. destruct (f s v) as [[s' v'] pn]. cbn [reaches]. split; [left; now apply H|].
  destruct pn; cbn [reaches]; auto.
Qed.

Lemma reaches_for_each : forall S m b (f : closure (T := T) S) s new (Q : list (nat * N) -> S * bool -> Prop),
  (forall q, in_region (c_region (bm_data b)) q -> R q /\ W q) -> (forall a, Q new a) ->
  reaches R W new (p_for_each m b f s) Q.
Proof. intros. unfold p_for_each. apply reaches_bind, reaches_pure. intros k _. now apply reaches_for_each_loop. Qed.

Lemma reaches_slice_read : forall b first last i new (Q : list (nat * N) -> T -> Prop), covered R (MBase (T := T) b) -> (forall v, Q new v) ->
  reaches R W new (pbind (Stop (get_slice b first last)) (fun r => p_slice_read r i)) Q.
Proof.
  intros b first last i new Q Hb HQ. apply reaches_bind, reaches_pure. intros r Hr. unfold p_slice_read. apply reaches_bind, reaches_pure. intros [] _.
  apply reaches_region_read; auto. intros q Hq. left. apply Hb. apply slice_within in Hr.
  destruct Hr as (E & L1 & L2). unfold in_region in Hq. cbn [occupies]. rewrite <- E. lia.
Qed.

Lemma reaches_write : forall p v new (Q : list (nat * N) -> unit -> Prop), W (pl_alloc p, pl_index p) -> Q new tt ->
  reaches R W new (p_write p v) Q.
Proof. intros. cbn [p_write reaches]. split; auto. now left. Qed.

Lemma reaches_matmul : forall code kern (alpha : T) a b beta c new (Q : list (nat * N) -> unit -> Prop), implements code kern -> (forall q, W q -> R q) ->
  covered (plus_new R new) (MBase (T := T) a) -> covered (plus_new R new) (MBase (T := T) b) -> covered (plus_new W new) (MBase (T := T) c) ->
  Q new tt -> reaches R W new (p_matmul code alpha a b beta c) Q.
Proof.
  intros code kern alpha a b beta c new Q impl WR Ha Hb Hw HQ. unfold p_matmul. apply reaches_bind, reaches_pure. intros g Hg.
  assert (E : ga_a g = get_pointer a /\ ga_b g = get_pointer b /\ ga_c g = get_pointer c).
  { unfold matmul_args in Hg. cbv zeta in Hg. do 4 (apply bind_ok in Hg; destruct Hg as (? & _ & Hg)). injection Hg as <-. auto. }
  destruct E as (Ea & Eb & Ec). eapply reaches_only; [apply (proj1 (impl g))| | |].
  - intros q [Hq|[Hq|Hq]]; unfold a_cells, b_cells, c_cells in Hq; rewrite ?Ea, ?Eb, ?Ec in Hq; apply at_entry_region in Hq.
    + now apply (covered_base _ _ Ha).
    + now apply (covered_base _ _ Hb).
    + apply (covered_base _ _ Hw) in Hq. destruct Hq as [Hq|Hq]; [left; auto|now right].
  - intros q Hq; unfold c_cells in Hq; rewrite ?Ec in Hq; apply at_entry_region in Hq. now apply (covered_base _ _ Hw).
  - intros []. auto.
Qed.

Lemma reaches_row_more : forall m r c new (Q : list (nat * N) -> base_matrix -> Prop), (forall b n, made_base (n :: new) b -> Q (n :: new) b) ->
  reaches R W new (p_row_zeros_dim m r c) Q /\ reaches R W new (p_column_zeros_dim m r c) Q.
Proof.
  intros m r c new Q H. unfold p_row_zeros_dim, p_column_zeros_dim, p_row_zeros, p_column_zeros.
  split; apply reaches_bind, reaches_pure; intros [] _; apply reaches_bind; unfold p_vector_container_new;
    (destruct (_ <=? _); cbn [reaches]; auto); intros a; apply reaches_from_data; auto;
    intros q (E & _ & L); cbn [c_region r_alloc r_lo r_len] in *; (eexists; split; [now left|]); cbn [fst snd]; (split; [exact E|lia]).
Qed.

Lemma reaches_dot : forall code kern shape m a b new (Q : list (nat * N) -> base_matrix -> Prop), implements code kern -> (forall q, W q -> R q) ->
  covered R (MBase (T := T) a) -> covered R (MBase (T := T) b) -> (forall new' b, made_base new' b -> Q new' b) ->
  reaches R W new (p_dot code shape m a b) Q.
Proof.
  intros code kern shape m a b new Q impl WR Ha Hb HQ. unfold p_dot. cbv zeta. apply reaches_bind.
  assert (A : forall c n, made_base (n :: new) c -> reaches R W (n :: new) (pbind (p_matmul code sone a b szero c) (fun _ => Stop (Ok c))) Q).
  { intros c n Hc. apply reaches_bind. eapply reaches_matmul; eauto.
    - intros q Hq. left. auto.
    - intros q Hq. left. auto.
    - intros q Hq. right. now apply Hc.
    - cbn [reaches]. auto. }
  destruct shape; [apply reaches_zeros_more; auto|apply reaches_row_more; auto|apply reaches_row_more; auto].
Qed.

(** What a call returns lies in what it could reach. *)
Definition returns_in (new : list (nat * N)) (x : list (matrix T) * result T St) : Prop :=
  Forall (fun y => covered (plus_new R new) y /\ (is_writable y = true -> covered (plus_new W new) y)) (fst x).

Lemma made_returns : forall new b r, made_base new b -> returns_in new ([MBase b], r).
Proof. intros new b r H. constructor; [split; [|intros _]; intros q Hq; right; now apply H|constructor]. Qed.
Lemma none_returns : forall new r, returns_in new ([], r).
Proof. intros. constructor. Qed.

Lemma view_returns : forall new v b r, within (c_region (bm_data v)) (c_region (bm_data b)) ->
  covered R (MBase (T := T) b) -> (container_is_mut (bm_data v) = true -> covered W (MBase (T := T) b)) -> returns_in new ([MBase v], r).
Proof.
  intros new v b r H HR HW. constructor; [|constructor]. split.
  - intros q Hq. left. apply HR. eapply within_occupies; eauto.
  - intros Hm q Hq. left. apply (HW Hm). eapply within_occupies; eauto.
Qed.
Lemma made_ends : forall new b, made_base new b -> reaches R W new (Stop (Ok ([MBase b], RNew))) returns_in.
Proof. intros. cbn [reaches]. now apply made_returns. Qed.
End Reach.

Ltac by_made := intros ? ? ?; cbn [reaches]; now apply made_returns.
Ltac by_none := intros; cbn [reaches]; apply none_returns.

Lemma reaches_program : forall (R W : nat * N -> Prop) code kern m ms (o : call T St) c, implements code kern -> (forall q, W q -> R q) ->
  (forall x, In x ms -> covered R x) -> (forall x, In x ms -> is_writable x = true -> covered W x) ->
  program code m ms o = Some c -> reaches R W [] c (returns_in R W).
Proof.
  intros R W code kern m ms o c impl WR HR HW H.
  assert (LV : forall x w, lookup (mkState [] ms) x = Some w -> covered R w).
  { intros x w E. eapply HR, nth_error_In, E. }
  assert (LW : forall x w, lookup (mkState [] ms) x = Some w -> is_writable w = true -> covered W w).
  { intros x w E. eapply HW, nth_error_In, E. }
  assert (LB : forall x b, lookup_base (mkState [] ms) x = Some b -> covered R (MBase (T := T) b)).
  { intros x b E. apply lookup_base_inv in E. eauto. }
  assert (LM : forall x b, lookup_mut (mkState [] ms) x = Some b -> covered W (MBase (T := T) b)).
  { intros x b E. apply lookup_mut_inv in E. destruct E as [E C]. apply lookup_base_inv in E. eauto. }
  assert (LK : forall mut x b, lookup_block (mkState [] ms) mut x = Some b -> covered R (MBase (T := T) b) /\ (mut = true -> covered W (MBase (T := T) b))).
  { intros [] x b E; cbn [lookup_block] in E; split; eauto; try discriminate. intros q Hq. apply WR. eapply LM; eauto. }
  assert (PL : forall (D : nat * N -> Prop) new (x : matrix T), covered D x -> covered (plus_new D new) x) by (intros D new x Hx q Hq; left; auto).
  assert (INJ : forall (x y : prog T (list (matrix T) * result T St)), Some x = Some y -> x = y) by congruence.
  destruct o; cbn [program] in H; unfold typed, when in H.
  all: repeat (match type of H with
       | (match ?b with Some _ => _ | None => _ end) = _ => destruct b eqn:?; [|discriminate H]
       | (if ?b then _ else None) = _ => destruct b eqn:?; [|discriminate H]
       end).
  all: try (apply INJ in H; subst c).
  all: unfold ends_new, ends_item, ends_done, ends_loop; try apply reaches_bind.
  - apply reaches_zeros; by_made.
  - apply reaches_zeros_fixed; by_made.
  - apply reaches_zeros_fixed_vector; by_made.
  - apply reaches_row; by_made.
  - apply reaches_column; by_made.
  - apply reaches_row_dim; by_made.
  - apply reaches_column_dim; by_made.
  - apply reaches_bind, reaches_vector. intros new c Hc. apply reaches_from_data; auto. intros b Hb. cbn [reaches]. now apply made_returns.
  - apply reaches_bind, reaches_array. intros new c Hc. apply reaches_from_data; auto. intros b Hb. cbn [reaches]. now apply made_returns.
  - apply reaches_pure. intros v Hv. cbn [reaches]. apply bind_ok in Hv. destruct Hv as (rg & Er & Ev). apply from_data_data in Ev. subst v.
    assert (Er' : get_slice b first last = Ok rg) by (destruct mut; [rewrite get_slice_mut_eq in Er|]; exact Er). apply slice_within in Er'.
    match goal with E : lookup_block _ _ _ = Some _ |- _ => destruct (LK _ _ _ E) as [K1 K2] end. apply (view_returns R W [] _ b); cbn [bm_data]; rewrite ?slice_container_region; auto.
    rewrite slice_container_mut_is. exact K2.
  - apply reaches_pure. intros v Hv. cbn [reaches]. apply bind_ok in Hv. destruct Hv as (q & Eq & Ev). unfold ptr_add in Eq. apply ptr_offset_region in Eq.
    apply from_pointer_within in Ev. destruct Ev as [V1 V2]. rewrite Eq in V1. match goal with E : lookup_block _ _ _ = Some _ |- _ => destruct (LK _ _ _ E) as [K1 K2] end.
    apply (view_returns R W [] v b); auto. rewrite V2. exact K2.
  - apply reaches_pure. intros v Hv. cbn [reaches]. apply bind_ok in Hv. destruct Hv as (q & Eq & Ev). unfold ptr_add in Eq. apply ptr_offset_region in Eq.
    apply from_pointer_strided_within in Ev. destruct Ev as [V1 V2]. rewrite Eq in V1. match goal with E : lookup_block _ _ _ = Some _ |- _ => destruct (LK _ _ _ E) as [K1 K2] end.
    apply (view_returns R W [] v b); auto. rewrite V2. exact K2.
  - apply reaches_get; eauto; by_none.
  - apply reaches_get1d; eauto; by_none.
  - apply reaches_bind, reaches_pure. intros q Hq. unfold get_mut in Hq. apply bind_ok in Hq. destruct Hq as (u & _ & Hq).
    apply mut_in in Hq. apply reaches_write; [eapply LW; eauto|by_none].
  - apply reaches_bind, reaches_pure. intros q Hq. unfold get1d_mut in Hq. apply bind_ok in Hq. destruct Hq as (u & _ & Hq).
    apply bind_ok in Hq. destruct Hq as (u' & _ & Hq). apply mut1d_in in Hq. apply reaches_write; [eapply LW; eauto|by_none].
  - apply reaches_unchecked; eauto; by_none.
  - apply reaches_unchecked; eauto; by_none.
  - apply reaches_bind, reaches_pure. intros q Hq. apply mut_in in Hq. apply reaches_write; [eapply LW; eauto|by_none].
  - apply reaches_bind, reaches_pure. intros q Hq. apply mut1d_in in Hq. apply reaches_write; [eapply LW; eauto|by_none].
  - apply reaches_slice_read; eauto; by_none.
  - apply reaches_bind, reaches_pure. intros r Hr. unfold p_slice_write. apply reaches_bind, reaches_pure. intros [] _.
    apply reaches_bind, reaches_pure. intros q Hq. rewrite get_slice_mut_eq in Hr. apply reaches_write; [|by_none].
    eapply LM; eauto. eapply slice_region_in; eauto.
  - by_none.
  - by_none.
  - apply reaches_pure. intros v Hv. cbn [reaches]. apply block_within in Hv. destruct Hv as [V1 V2]. match goal with E : lookup_block _ _ _ = Some _ |- _ => destruct (LK _ _ _ E) as [K1 K2] end.
    apply (view_returns R W [] v b); auto. rewrite V2. exact K2.
  - destruct (bm_layout b); try discriminate H. apply INJ in H. subst c. apply reaches_bind, reaches_pure. intros [[[b0 b1] b2] b3] Hs.
    cbn [reaches]. apply split_within in Hs. pose proof (LM _ _ Heqo) as K.
    assert (A : forall v, within (c_region (bm_data v)) (c_region (bm_data b)) /\ container_is_mut (bm_data v) = true ->
       covered (plus_new R []) (MBase (T := T) v) /\ (is_writable (MBase (T := T) v) = true -> covered (plus_new W []) (MBase (T := T) v))).
    { intros v [V1 V2]. split; [|intros _]; intros q Hq; left; [apply WR|]; apply K; eapply within_occupies; eauto. }
    inversion Hs as [|? ? S0 Hs1]; subst. inversion Hs1 as [|? ? S1 Hs2]; subst.
    inversion Hs2 as [|? ? S2 Hs3]; subst. inversion Hs3 as [|? ? S3 Hs4]; subst. unfold returns_in. cbn [fst].
    repeat (apply Forall_cons; [apply A; auto|]). constructor.
  - cbn [reaches]. constructor; [split|constructor].
    + apply PL. intros q Hq. cbn [from_ref occupies] in Hq. eapply LV; eauto.
    + try discriminate; destruct p; discriminate.
  - cbn [reaches]. constructor; [split|constructor].
    + apply PL. intros q Hq. cbn [occupies] in Hq. eapply LV; eauto.
    + intros Hw. apply PL. intros q Hq. cbn [occupies] in Hq. eapply LW; eauto.
  - cbn [reaches]. constructor; [split|constructor].
    + apply PL. intros q Hq. destruct p; cbn in Hq; eapply LV; eauto.
    + try discriminate; destruct p; discriminate.
  - cbn [reaches]. constructor; [split|constructor].
    + apply PL. intros q Hq. destruct p; cbn in Hq; eapply LV; eauto.
    + try discriminate; destruct p; discriminate.
  - apply reaches_pure. intros z Hz. cbn [reaches].
    assert (Z : is_writable z = false /\ forall c, occupies z c -> occupies m0 c \/ occupies m1 c).
    { destruct p, q; cbn [plus] in Hz; unfold add_mat_mat, add_mat_ref, add_ref_mat, add_ref_ref, addition_new in Hz;
        apply bind_ok in Hz; destruct Hz as (? & _ & Hz); injection Hz as <-; split; auto. }
    destruct Z as [Z1 Z2]. constructor; [split|constructor].
    + apply PL. intros c Hc. destruct (Z2 c Hc); [eapply (LV _ m0)|eapply (LV _ m1)]; eauto.
    + rewrite Z1. discriminate.
  - apply reaches_eval; eauto; by_made.
  - apply reaches_for_each; [|intros [s' pn]; by_none]. intros q Hq. pose proof (covered_base _ _ (LM _ _ Heqo)). auto.
  - apply reaches_for_each; [|intros [s' pn]; by_none]. intros q Hq. pose proof (covered_base _ _ (LM _ _ Heqo)). auto.
  - pose proof (lookup_mut_inv _ _ _ Heqo1) as [E _]. eapply reaches_matmul; eauto. by_none.
  - eapply reaches_dot; eauto. by_made.
Qed.
End FlatFits.
