(** * TraceProofs: lemmas for C69. *)

From Coq Require Import List Lia ZifyBool ZifyNat ZifyN.
From Verif Require Import Machine MachineFacts Layouts LayoutFacts Memory MemoryFacts Matrix MatMul Spec MatrixSpec ExprSpec ProductSpec Program HistorySpec.
From Verif Require Import AccessFacts AccessProofs ConstructorProofs ExprProofs ProductProofs Interleave InterleaveProofs ThreadEntries InterleaveEntries TraceSpec.
Import ListNotations.
Local Open Scope N_scope.

Section TraceProofs.
Context {T : Type} {SC : HScalar T}.
Notation heap := (@heap T).
Implicit Types h : heap.

Lemma trace_bind : forall A B (c : prog T A) (f : A -> prog T B) h,
  trace (pbind c f) h = trace c h ++ match complete c h with Ok (h', a) => trace (f a) h' | _ => [] end.
Proof.
  intros A B c f. induction c as [o|p k IH|p v k IH|l k IH]; intros h; cbn [pbind complete trace].
  - destruct o; reflexivity.
  - cbn [app]. f_equal. destruct (place_read h p); cbn [bind]; auto.
  - cbn [app]. f_equal. destruct (place_write h p v); cbn [bind]; auto.
  - cbn [app]. f_equal. destruct (alloc h l) as [h' r]. cbn [fst snd]. auto.
Qed.

Lemma trace_pure : forall A B (o : outcome A) (f : A -> prog T B) h,
  trace (pbind (Stop o) f) h = match o with Ok a => trace (f a) h | _ => [] end.
Proof. intros A B [a| |] f h; reflexivity. Qed.

(** ** Reading *)

Lemma trace_region_read : forall r i h, i < r_len r -> trace (p_region_read r i) h = [Reads (cell_of_region r i)].
Proof.
  intros r i h Hi. unfold p_region_read. replace (i <? r_len r) with true by lia. cbn [trace pl_alloc pl_index].
  destruct (place_read _ _); reflexivity.
Qed.

Lemma trace_get_unchecked : forall m x h r c, valid h x -> stored (mat_layout x) (r, c) ->
  trace (p_get_unchecked m x r c) h = reads_entry x (r, c).
Proof.
  intros m x h r c. induction x as [b | x IH | x IH | x IH s | x IHx y IHy l];
    cbn [valid mat_layout p_get_unchecked]; intros Hv Hp; unfold reads_entry in *; cbn [leaves map]; auto.
  - unfold p_base_get_unchecked. rewrite trace_pure, (base_address m h b r c Hv Hp). now apply trace_region_read, Hv.
  - rewrite trace_bind, IH by auto. destruct (complete _ _) as [[h' v]| |]; cbn [trace]; apply app_nil_r.
  - destruct Hv as (Hx & Hy & Hd & Hk & ->).
    assert (Hpx : stored (mat_layout x) (r, c)).
    { apply same_kind_stored with (index_layout (mat_layout x));
        auto using index_layout_dim, index_layout_kind. }
    assert (Hpy : stored (mat_layout y) (r, c)) by now apply same_kind_stored with (mat_layout x).
    rewrite trace_bind, (proj1 (complete_unchecked m x h)), IHx by auto.
    destruct (get_unchecked_ok m h x r c Hx Hpx) as (v & -> & _). cbn [bind].
    rewrite trace_bind, IHy by auto. rewrite map_app. f_equal.
    destruct (complete _ _) as [[h' w]| |]; cbn [trace]; apply app_nil_r.
Qed.

Lemma trace_get1d_unchecked : forall m x h i, valid h x -> i < entry_count (mat_layout x) ->
  trace (p_get1d_unchecked m x i) h = reads_entry x (pos (mat_layout x) i).
Proof.
  intros m x h i. induction x as [b | x IH | x IH | x IH s | x IHx y IHy l];
    cbn [valid mat_layout p_get1d_unchecked]; intros Hv Hp; unfold reads_entry in *; cbn [leaves map]; auto.
  - unfold p_base_get1d_unchecked. rewrite trace_pure, (base_address_1d m h b i Hv Hp).
    apply trace_region_read, Hv. now apply pos_spec.
  - rewrite trace_bind, IH by auto. destruct (complete _ _) as [[h' v]| |]; cbn [trace]; apply app_nil_r.
  - destruct Hv as (Hx & Hy & Hd & Hk & ->).
    rewrite (same_kind_pos (index_layout (mat_layout x)) (mat_layout x)) in *
      by auto using index_layout_dim, index_layout_kind.
    rewrite (same_kind_count (index_layout (mat_layout x)) (mat_layout x)) in Hp
      by auto using index_layout_dim, index_layout_kind.
    rewrite trace_bind, (proj2 (complete_unchecked m x h)), IHx by auto.
    destruct (get1d_unchecked_ok m h x i Hx Hp) as (v & -> & _). cbn [bind].
    rewrite (same_kind_pos (mat_layout x) (mat_layout y)) by auto.
    rewrite (same_kind_count (mat_layout x) (mat_layout y)) in Hp by auto.
    rewrite trace_bind, IHy by auto. rewrite map_app. f_equal.
    destruct (complete _ _) as [[h' w]| |]; cbn [trace]; apply app_nil_r.
Qed.

(** Below the diagonal no matrix of an expression is read. *)
Lemma trace_below_diagonal : forall m x h r c, valid h x -> in_range (dim (mat_layout x)) (r, c) ->
  ~ stored (mat_layout x) (r, c) -> trace (p_get_unchecked m x r c) h = [] /\ complete (p_get_unchecked m x r c) h = Panic.
Proof.
  intros m x h r c. induction x as [b | x IH | x IH | x IH s | x IHx y IHy l];
    cbn [valid mat_layout p_get_unchecked]; intros Hv Hr Hp; auto.
  - unfold p_base_get_unchecked. rewrite trace_pure, bind_pure, (below_diagonal_panics m _ r c Hr Hp). auto.
  - destruct (IH Hv Hr Hp) as [I1 I2]. rewrite trace_bind, complete_bind, I1, I2. auto.
  - destruct Hv as (Hx & Hy & Hd & Hk & ->). rewrite index_layout_dim in Hr.
    destruct IHx as [I1 I2]; auto.
    { intros Hs. apply Hp. apply same_kind_stored with (mat_layout x); auto; symmetry; auto using index_layout_dim, index_layout_kind. }
    rewrite trace_bind, complete_bind, I1, I2. auto.
Qed.

Lemma c69_get : forall m h x r c, valid h x ->
  (stored (mat_layout x) (r, c) -> trace (p_get m x r c) h = reads_entry x (r, c)) /\
  (~ stored (mat_layout x) (r, c) -> trace (p_get m x r c) h = []).
Proof.
  intros m h x r c Hv. unfold p_get. rewrite trace_pure. split; intros Hp.
  - rewrite assert_dimension_ok by (destruct Hp; auto). now apply trace_get_unchecked.
  - destruct (assert_dimension_cases r c (dim (mat_layout x))) as [[Hr ->]|[Hr ->]]; auto.
    now apply trace_below_diagonal.
Qed.

Lemma c69_get1d : forall m h x, valid h x ->
  (forall p, stored (mat_layout x) p -> trace (p_get1d m x (number (mat_layout x) p)) h = reads_entry x p) /\
  (forall i, entry_count (mat_layout x) <= i -> trace (p_get1d m x i) h = []).
Proof.
  intros m h x Hv. unfold p_get1d. split.
  - intros [r c] Hp. pose proof (number_bound _ _ _ Hp) as Hn. rewrite trace_pure, number_of_elements_ok by eauto using valid_small.
    rewrite trace_pure. unfold assert_dimension1d, assert_. replace (_ <? _) with true by lia.
    rewrite trace_get1d_unchecked by auto. now rewrite pos_number.
  - intros i Hi. rewrite trace_pure, number_of_elements_ok by eauto using valid_small.
    rewrite trace_pure. unfold assert_dimension1d, assert_. now replace (_ <? _) with false by lia.
Qed.

Lemma c69_unchecked : forall m h x p, valid h x -> stored (mat_layout x) p ->
  trace (p_get_unchecked m x (fst p) (snd p)) h = reads_entry x p /\
  trace (p_get1d_unchecked m x (number (mat_layout x) p)) h = reads_entry x p.
Proof.
  intros m h x [r c] Hv Hp. split; [now apply trace_get_unchecked|].
  rewrite trace_get1d_unchecked, pos_number; auto. now apply number_bound.
Qed.

(** ** Writing *)

Lemma trace_write : forall p v h, trace (p_write p v) h = [Writes (pl_alloc p, pl_index p) v].
Proof. intros p v h. cbn [p_write trace]. destruct (place_write h p v); reflexivity. Qed.

Lemma trace_set : forall m h x b v, valid h x -> writes_to x = Some b ->
  (forall r c, stored (mat_layout x) (r, c) ->
     trace (pbind (Stop (get_mut m x r c)) (fun p => p_write p v)) h = [Writes (entry_cell b (r, c)) v]) /\
  (forall r c, ~ stored (mat_layout x) (r, c) -> trace (pbind (Stop (get_mut m x r c)) (fun p => p_write p v)) h = []) /\
  (forall p, stored (mat_layout x) p ->
     trace (pbind (Stop (get1d_mut m x (number (mat_layout x) p))) (fun q => p_write q v)) h = [Writes (entry_cell b p) v]) /\
  (forall i, entry_count (mat_layout x) <= i -> trace (pbind (Stop (get1d_mut m x i)) (fun p => p_write p v)) h = []).
Proof.
  intros m h x b v Hv Hw. splits.
  - intros r c Hp. rewrite trace_pure, (proj1 (c09_get_mut m h x b r c Hv Hw) Hp), trace_write. reflexivity.
  - intros r c Hp. rewrite trace_pure. now rewrite (proj2 (proj2 (c09_get_mut m h x b r c Hv Hw)) Hp).
  - intros [r c] Hp. rewrite trace_pure. pose proof (number_bound _ _ _ Hp) as Hn.
    destruct (proj1 (c09_get1d_mut m h x b _ Hv Hw) Hn) as ([r' c'] & Hp' & En & ->).
    assert ((r', c') = (r, c)) as -> by (rewrite <- (pos_number _ _ _ Hp), <- En; symmetry; now apply pos_number).
    now rewrite trace_write.
  - intros i Hi. rewrite trace_pure. now rewrite (proj2 (proj2 (c09_get1d_mut m h x b i Hv Hw)) Hi).
Qed.

Lemma trace_then_pure : forall A B (c : prog T A) (f : A -> outcome B) h,
  trace (pbind c (fun a => Stop (f a))) h = trace c h.
Proof.
  intros A B c f h. rewrite trace_bind. destruct (complete c h) as [[h' a]| |]; cbn [trace]; apply app_nil_r.
Qed.

Lemma some_inj : forall A (x y : A), Some x = Some y -> x = y.
Proof. congruence. Qed.

Lemma c69_set : forall St (code : gemm_args T -> prog T unit) m ms k (h : heap) x b v, nth_error ms k = Some x ->
  valid h x -> writes_to x = Some b ->
  (forall r c prg, program (St := St) code m ms (CSet k r c v) = Some prg ->
     (stored (mat_layout x) (r, c) -> trace prg h = [Writes (entry_cell b (r, c)) v]) /\
     (~ stored (mat_layout x) (r, c) -> trace prg h = [])) /\
  (forall i prg, program (St := St) code m ms (CSet1d k i v) = Some prg ->
     (forall p, stored (mat_layout x) p -> number (mat_layout x) p = i -> trace prg h = [Writes (entry_cell b p) v]) /\
     (entry_count (mat_layout x) <= i -> trace prg h = [])).
Proof.
  intros St code m ms k h x b v Hk Hv Hw. destruct (trace_set m h x b v Hv Hw) as (S1 & S2 & S3 & S4).
  split; intros; cbn [program] in H; unfold lookup in H; cbn [st_mats] in H; rewrite Hk in H; cbn [typed] in H; unfold when in H;
    destruct (is_writable x); try discriminate; apply some_inj in H; subst prg; unfold ends_done; rewrite trace_then_pure; split; auto.
  intros p Hp <-. auto.
Qed.

(** The programs of calls are those of the methods. *)
Lemma c69_calls : forall St (code : gemm_args T -> prog T unit) m ms k (h : heap) x, nth_error ms k = Some x ->
  let same (o : call T St) (A : Type) (c : prog T A) :=
    forall prg, program code m ms o = Some prg -> trace prg h = trace c h in
  (forall r c, same (CGet k r c) T (p_get m x r c)) /\
  (forall i, same (CGet1d k i) T (p_get1d m x i)) /\
  (forall r c, same (CGetUnchecked k r c) T (p_get_unchecked m x r c)) /\
  (forall i, same (CGet1dUnchecked k i) T (p_get1d_unchecked m x i)) /\
  same (CEval k) base_matrix (p_eval m x) /\
  (forall b f s, x = MBase b -> same (CForEach k f s) (St * bool)%type (p_for_each m b f s)) /\
  (forall shape j a b, x = MBase a -> nth_error ms j = Some (MBase b) ->
     same (CDot shape k j) base_matrix (p_dot code shape m a b)) /\
  (forall alpha i j a b beta c, x = MBase a -> nth_error ms i = Some (MBase b) -> nth_error ms j = Some (MBase c) ->
     same (CMatmul alpha k i beta j) unit (p_matmul code alpha a b beta c)).
Proof.
  intros St code m ms k h x Hk same. subst same. cbv beta.
  splits; intros; cbn [program] in *; unfold lookup_mut, lookup_base, lookup in *; cbn [st_mats] in *; subst;
    repeat match goal with H : nth_error ms _ = Some _ |- _ => rewrite H in * end; cbn [typed] in *; unfold when in *;
    repeat match goal with
      | H : context [if ?b then _ else None] |- _ => destruct b; try discriminate; cbn [typed] in H
      end;
    match goal with H : Some _ = Some _ |- _ => apply some_inj in H; subst prg end;
    unfold ends_item, ends_new, ends_loop, ends_done; try (rewrite trace_then_pure; reflexivity).
  rewrite trace_bind. destruct (complete _ h) as [[h' [s' pn]]| |]; cbn [trace]; apply app_nil_r.
Qed.

(** ** New matrices *)

Definition allocation_of (n : N) : list (event T) := [Allocates (repeat szero (N.to_nat n))].

Lemma trace_vector : forall n h, trace (p_vector_container_new n) h = if n * Npos ssize <=? isize_max then allocation_of n else [].
Proof. intros n h. unfold p_vector_container_new. destruct (_ <=? _); reflexivity. Qed.

Lemma trace_array : forall n h, trace (p_array_container_new n) h = allocation_of n.
Proof. reflexivity. Qed.

Lemma trace_zeros : forall m k rows cols l h, from_dimension k (rows, cols) = Ok l -> small l ->
  trace (p_zeros_from_dim m k rows cols) h =
  if entry_count l * Npos ssize <=? isize_max then allocation_of (entry_count l) else [].
Proof.
  intros m k rows cols l h El Hs. unfold p_zeros_from_dim. rewrite trace_pure, El, trace_pure, number_of_elements_ok by auto.
  cbn [pbind]. rewrite trace_then_pure. apply trace_vector.
Qed.

(** ** [eval] *)

Definition number_list (l : layout) (k n : nat) : list (N * N) := map (fun i => pos l (N.of_nat i)) (seq k n).

Lemma number_list_listed : forall l, lists_positions l (number_list l 0 (N.to_nat (entry_count l))).
Proof.
  intros l. unfold number_list. split.
  - rewrite map_length, seq_length. lia.
  - intros [r c] Hp. pose proof (number_bound _ _ _ Hp) as Hn.
    rewrite nth_error_map, nth_error_seq by lia. cbn [option_map Nat.add]. rewrite N2Nat.id, pos_number; auto.
Qed.

Lemma trace_copy_loop : forall m x b h1 n k hk,
  (forall a i, (a < length h1)%nat -> hget hk a i = hget h1 a i) -> extends h1 hk ->
  valid h1 x -> base_valid hk b -> r_alloc (c_region (bm_data b)) = length h1 ->
  bm_layout b = index_layout (mat_layout x) -> N.of_nat (k + n) <= entry_count (mat_layout x) ->
  exists vs, values h1 x (number_list (mat_layout x) k n) vs /\
  trace (p_loop n (N.of_nat k) (fun index =>
         pbind (p_get1d_unchecked m x index) (fun v =>
         pbind (Stop (base_get1d_unchecked_mut m b index)) (fun p => p_write p v)))) hk =
  copies x b (number_list (mat_layout x) k n) vs.
Proof.
  intros m x b h1 n. induction n as [|n IH]; intros k hk Hold Hx Hv Hb Hr Hl Hk.
  - exists []. split; constructor.
  - assert (Lk : N.of_nat k < entry_count (mat_layout x)) by lia.
    assert (Vk : valid hk x) by now apply valid_extends with h1.
    destruct (get1d_unchecked_ok m hk x (N.of_nat k) Vk Lk) as (v & Ev & En).
    assert (Eo : entry h1 x (pos (mat_layout x) (N.of_nat k)) = Some v).
    { rewrite <- En. symmetry. apply old_entries_keep; auto. }
    destruct (pos_spec _ _ Lk) as [Hp _].
    assert (Hp' : stored (bm_layout b) (pos (mat_layout x) (N.of_nat k))) by (rewrite Hl; now apply index_layout_stored).
    destruct (place_write_entry hk b _ v Hb Hp') as (h' & Ew & Eh & _).
    destruct (IH (S k) h') as (vs & Vs & Et); auto.
    + intros a i Ha. subst h'. rewrite hget_hset_other, Hold; auto. intros E. injection E as E _. unfold entry_cell, cell_of_region in E. cbn [fst] in E. lia.
    + apply extends_trans with hk; auto. subst h'. apply extends_hset.
    + apply base_valid_extends with hk; auto. subst h'. apply extends_hset.
    + lia.
    + exists (v :: vs). split; [constructor; auto|]. cbn [p_loop].
      rewrite trace_bind, trace_bind, complete_bind, (proj2 (complete_unchecked m x hk)), Ev. cbn [bind].
      rewrite trace_get1d_unchecked by auto.
      rewrite trace_pure, bind_pure, (base_get1d_unchecked_mut_ok m hk) by (auto; rewrite Hl, index_layout_count; auto).
      cbn [bind]. rewrite Hl, index_layout_pos. rewrite complete_write, Ew. cbn [bind]. rewrite trace_write.
      replace (N.of_nat k + 1) with (N.of_nat (S k)) by lia. rewrite Et.
      unfold copies, number_list. cbn [seq map combine flat_map fst snd place_of pl_alloc pl_index].
      rewrite <- surjective_pairing. reflexivity.
Qed.

Lemma c69_eval : forall m h x, valid h x ->
  (column_vector_like (mat_layout x) = true -> fst (mat_dim x) = 1) ->
  entry_count (mat_layout x) * Npos ssize <= isize_max ->
  exists h' b ps vs, eval m h x = Ok (h', b) /\ complete (p_eval m x) h = Ok (h', b) /\
    lists_positions (mat_layout x) ps /\ values h x ps vs /\
    trace (p_eval m x) h = Allocates (repeat szero (N.to_nat (entry_count (mat_layout x)))) :: copies x b ps vs.
Proof.
  intros m h x Hv Hcol Hn. destruct (eval_ok m h x Hv Hcol Hn) as (h' & b & E & _).
  rewrite complete_eval. set (l := mat_layout x) in *.
  pose proof (from_dimension_index l Hcol) as El. rewrite (surjective_pairing (dim l)) in El.
  destruct (zeros_ok m h (index_kind l) (fst (dim l)) (snd (dim l)) (index_layout l) El) as
    (h1 & b1 & E1 & Lb & Rb & Cb & Len & (Oa & Vb & Al & Mb & Z) & Eh1 & Reg).
  { now rewrite index_layout_count. }
  assert (b = b1) as ->.
  { unfold eval in E. fold l in E. rewrite E1 in E. cbn [bind] in E. apply bind_ok in E. destruct E as (n & _ & E).
    apply bind_ok in E. destruct E as (h2 & _ & E). congruence. }
  destruct (trace_copy_loop m x b1 h (N.to_nat (entry_count l)) 0 h1) as (vs & Vs & Et); auto.
  - now apply only_allocates_hget.
  - now apply only_allocates_extends.
  - now rewrite Reg.
  - fold l. lia.
  - exists h', b1, (number_list l 0 (N.to_nat (entry_count l))), vs. splits; auto using number_list_listed.
    unfold p_eval. fold l. cbv zeta. rewrite trace_bind, complete_zeros, E1.
    rewrite (trace_zeros m _ _ _ (index_layout l)); auto.
    2:{ apply (same_kind_small l); rewrite ?index_layout_dim, ?index_layout_kind; auto. apply (valid_small x h); auto. }
    rewrite index_layout_count. replace (_ <=? _) with true by lia. unfold allocation_of. cbn [app]. f_equal.
    rewrite trace_pure, number_of_elements_ok by (apply (valid_small x h); auto).
    rewrite trace_then_pure. exact Et.
Qed.

Lemma c69_eval_rejected : forall m h x, valid h x -> panics (eval m h x) -> trace (p_eval m x) h = [].
Proof.
  intros m h x Hv E. assert (P : complete (p_eval m x) h = Panic) by now rewrite complete_eval.
  unfold p_eval in *. cbv zeta in *. set (l := mat_layout x) in *.
  assert (Hs : small (index_layout l)).
  { apply (same_kind_small l); rewrite ?index_layout_dim, ?index_layout_kind; auto. apply (valid_small x h); auto. }
  destruct (column_vector_like l && negb (fst (mat_dim x) =? 1)) eqn:Ec.
  - apply andb_prop in Ec. destruct Ec as [E1 E2]. rewrite trace_bind. unfold p_zeros_from_dim.
    rewrite trace_pure, bind_pure.
    replace (from_dimension (index_kind l) (fst (dim l), snd (dim l))) with (@Panic layout); auto.
    unfold mat_dim in E2. fold l in E2. destruct l as [d | d | n | n | d s | d s | n s | n s | n]; try discriminate;
      cbn [index_kind from_dimension dim fst snd] in *; destruct (_ =? _); auto; discriminate.
  - assert (Hcol : column_vector_like l = true -> fst (mat_dim x) = 1).
    { intros F. rewrite F in Ec. cbn [andb] in Ec. lia. }
    destruct (N.leb_spec (entry_count l * Npos ssize) isize_max) as [Hn|Hn].
    + destruct (eval_ok m h x Hv Hcol Hn) as (h' & b & E' & _). unfold panics in E. congruence.
    + pose proof (from_dimension_index l Hcol) as El. rewrite (surjective_pairing (dim l)) in El.
      rewrite trace_bind, complete_zeros.
      rewrite (trace_zeros m _ _ _ (index_layout l)) by auto. rewrite index_layout_count. replace (_ <=? _) with false by lia.
      cbn [app]. unfold zeros_from_dim. rewrite El. cbn [bind]. rewrite number_of_elements_ok by auto. cbn [bind].
      rewrite index_layout_count. unfold vector_container_new. now replace (_ <=? _) with false by lia.
Qed.

(** ** Counting *)

Lemma count_app : forall f (es fs : list (event T)), count f (es ++ fs) = count f es + count f fs.
Proof. intros f es fs. unfold count. rewrite filter_app, app_length. lia. Qed.

Lemma count_reads : forall f (x : matrix T) p, count f (reads_entry x p) <= N.of_nat (length (leaves x)) /\
  (loads (reads_entry x p) = N.of_nat (length (leaves x)) /\ stores (reads_entry x p) = 0 /\ allocations (reads_entry x p) = 0).
Proof.
  intros f x p. unfold reads_entry, loads, stores, allocations, count. induction (leaves x) as [|b bs IH]; cbn [map filter length].
  - repeat split; lia.
  - destruct IH as (I1 & I2 & I3 & I4). split; [destruct (f _); cbn [length]; lia|]. split; [lia|split; assumption].
Qed.

Lemma count_copies : forall (x : matrix T) b ps vs, length ps = length vs ->
  loads (copies x b ps vs) = N.of_nat (length ps) * N.of_nat (length (leaves x)) /\
  stores (copies x b ps vs) = N.of_nat (length ps) /\ allocations (copies x b ps vs) = 0.
Proof.
  intros x b ps. induction ps as [|p ps IH]; intros [|v vs] Hl; cbn [length] in Hl; try discriminate.
  - repeat split; cbn; lia.
  - destruct (IH vs) as (I1 & I2 & I3); [lia|]. unfold copies in *. cbn [combine flat_map].
    unfold loads, stores, allocations in *. rewrite !count_app, I1, I2, I3.
    destruct (count_reads (fun _ => true) x (fst (p, v))) as (_ & C1 & C2 & C3). unfold loads, stores, allocations in *. rewrite C1, C2, C3.
    replace (count (fun e => match e with Reads _ => true | _ => false end) [Writes (entry_cell b (fst (p, v))) (snd (p, v))]) with 0 by reflexivity.
    replace (count (fun e => match e with Writes _ _ => true | _ => false end) [Writes (entry_cell b (fst (p, v))) (snd (p, v))]) with 1 by reflexivity.
    replace (count (fun e => match e with Allocates _ => true | _ => false end) [Writes (entry_cell b (fst (p, v))) (snd (p, v))]) with 0 by reflexivity.
    cbn [length]. rewrite !Nat2N.inj_succ. repeat split; lia.
Qed.

Lemma c69_counts : forall m h x, valid h x ->
  (forall r c, stored (mat_layout x) (r, c) ->
     loads (trace (p_get m x r c) h) = N.of_nat (length (leaves x)) /\
     stores (trace (p_get m x r c) h) = 0 /\ allocations (trace (p_get m x r c) h) = 0) /\
  (forall h' b, eval m h x = Ok (h', b) ->
     loads (trace (p_eval m x) h) = entry_count (mat_layout x) * N.of_nat (length (leaves x)) /\
     stores (trace (p_eval m x) h) = entry_count (mat_layout x) /\ allocations (trace (p_eval m x) h) = 1).
Proof.
  intros m h x Hv. split.
  - intros r c Hp. rewrite (proj1 (c69_get m h x r c Hv) Hp). apply (count_reads (fun _ => true)).
  - intros h' b E. assert (Hcol : column_vector_like (mat_layout x) = true -> fst (mat_dim x) = 1).
    { intros F. destruct (N.eq_dec (fst (mat_dim x)) 1) as [|Hd]; auto. rewrite (c26_column m h x F Hd) in E. discriminate. }
    destruct (N.le_gt_cases (entry_count (mat_layout x) * Npos ssize) isize_max) as [Hn|Hn].
    + destruct (c69_eval m h x Hv Hcol Hn) as (h2 & b2 & ps & vs & _ & _ & [Hl _] & Vs & ->).
      assert (L : length ps = length vs) by (clear - Vs; induction Vs; cbn [length]; congruence).
      destruct (count_copies x b2 ps vs L) as (C1 & C2 & C3). rewrite <- Hl.
      unfold loads, stores, allocations in *.
      change (Allocates (repeat szero (N.to_nat (N.of_nat (length ps)))) :: copies x b2 ps vs) with
        ([Allocates (repeat szero (N.to_nat (N.of_nat (length ps))))] ++ copies x b2 ps vs). rewrite !count_app, C1, C2, C3.
      repeat split; cbn; lia.
    + destruct (c26 m h x Hv Hcol) as [_ P]. rewrite (P ltac:(lia)) in E. discriminate.
Qed.

(** ** [for_each] *)

Lemma trace_for_each_loop : forall (S : Type) m b (f : closure S) vs k h s,
  base_valid h b -> distinct_cells (bm_layout b) -> tail_entries h b (N.of_nat k) vs ->
  trace (p_for_each_loop m b f (length vs) (N.of_nat k) s) h =
  updates b (number_list (bm_layout b) k (length vs)) (left_by f s vs).
Proof.
  intros S m b f vs. induction vs as [|v vs IH]; intros k h s Hb Hd Ht; [reflexivity|].
  assert (Hk : N.of_nat k < entry_count (bm_layout b)) by (destruct Ht as [Hl _]; cbn [length] in Hl; lia).
  pose proof (tail_cons h b _ v vs Ht Hk) as Ev. destruct (pos_spec _ _ Hk) as [Hp _].
  pose proof (number_pos _ _ Hk) as Hnum.
  cbn [p_for_each_loop length left_by]. unfold p_call_closure at 1. rewrite (base_get1d_unchecked_mut_ok m h) by auto.
  cbn [pbind trace place_of pl_alloc pl_index]. rewrite <- surjective_pairing.
  unfold base_entry in Ev.
  unfold place_read. cbn [place_of pl_alloc pl_index]. rewrite Ev.
  destruct (f s v) as [[s1 v1] pn1] eqn:Ef. cbn [pbind trace pl_alloc pl_index].
  destruct (place_write_entry h b _ v1 Hb Hp) as (h1 & Ew & Eh & _). unfold place_of in *. rewrite Ew. cbn [pl_alloc pl_index]. rewrite <- ?surjective_pairing.
  unfold updates, number_list. destruct pn1; cbn [seq map combine flat_map trace fst snd app].
  { now destruct (map _ _). }
  do 2 f_equal. replace (N.of_nat k + 1) with (N.of_nat (Datatypes.S k)) by lia. apply IH.
  - apply base_valid_extends with h; auto. subst h1. apply extends_hset.
  - auto.
  - destruct Ht as [Hl He]. split; [cbn [length] in Hl; lia|]. intros p Hq Hge. subst h1.
    rewrite distinct_entry_other; auto.
    + rewrite <- He by (auto; lia).
      replace (N.to_nat (number (bm_layout b) p - N.of_nat k)) with
        (Datatypes.S (N.to_nat (number (bm_layout b) p - N.of_nat (Datatypes.S k)))) by lia. reflexivity.
    + intros <-. lia.
Qed.

Lemma c69_for_each : forall (S : Type) m h b (f : closure S) s,
  base_valid h b -> no_aliasing (bm_layout b) ->
  exists ps vs, lists_positions (bm_layout b) ps /\ lists_entries h b vs /\
    trace (p_for_each m b f s) h = updates b ps (left_by f s vs).
Proof.
  intros S m h b f s Hb Hd. destruct (entries_listed h b Hb) as (vs & Hl).
  exists (number_list (bm_layout b) 0 (N.to_nat (entry_count (bm_layout b)))), vs. splits; auto using number_list_listed.
  unfold p_for_each. rewrite trace_pure, number_of_elements_ok by apply Hb.
  replace (N.to_nat (entry_count (bm_layout b))) with (length vs) by (destruct Hl; lia).
  apply (trace_for_each_loop S m b f vs 0 h s); auto using distinct_no_aliasing. now apply tail_lists.
Qed.

(** ** Products *)

Lemma trace_only : forall A (R W : nat * N -> Prop) (c : prog T A) h, only_accesses R W c ->
  Forall (fun e => match e with Reads q => R q | Writes q _ => W q | Allocates _ => False end) (trace c h).
Proof.
  intros A R W c. induction c as [o|p k IH|p v k IH|l k IH]; intros h; cbn [only_accesses trace].
  - constructor.
  - intros [H1 H2]. constructor; auto. destruct (place_read h p); auto.
  - intros [H1 H2]. constructor; auto. destruct (place_write h p v); auto.
  - intros [].
Qed.

Section Code.
Variable code : gemm_args T -> prog T unit.
Variable kern : kernel T.
Hypothesis impl : implements code kern.

Definition entry_of (b : base_matrix) (q : nat * N) : Prop := exists p, stored (bm_layout b) p /\ q = entry_cell b p.

Lemma entries_reached : forall h b, base_valid h b -> true_strides (bm_layout b) -> reach h (entry_of b) b.
Proof.
  intros h b Hv Ht. apply true_reach; auto. intros q Hq. exact Hq.
Qed.

Lemma c69_matmul : forall h alpha a b beta c,
  base_valid h a -> base_valid h b -> base_valid h c ->
  true_strides (bm_layout a) -> true_strides (bm_layout b) -> true_strides (bm_layout c) ->
  Forall (of_product a b c) (trace (p_matmul code alpha a b beta c) h) /\
  (~ compatible (dim (bm_layout a)) (dim (bm_layout b)) (dim (bm_layout c)) ->
   trace (p_matmul code alpha a b beta c) h = []).
Proof.
  intros h alpha a b beta c Va Vb Vc Ta Tb Tc. unfold p_matmul. rewrite trace_pure.
  destruct (matmul_args alpha a b beta c) as [g| |] eqn:Hg; try (split; auto; fail).
  unfold matmul_args in Hg. cbv zeta in Hg. apply bind_ok in Hg. destruct Hg as (u & E & Hg). apply bind_ok in Hg. destruct Hg as (sa & Ea & Hg).
  apply bind_ok in Hg. destruct Hg as (sb & Eb & Hg). apply bind_ok in Hg. destruct Hg as (sc & Ec & Hg). injection Hg as <-.
  unfold assert_ in E. destruct (matmul_dims_ok _ _ _) eqn:Ed; [|discriminate]. apply matmul_dims in Ed. split; [|contradiction].
  destruct Ed as (D1 & D2 & D3). eapply Forall_impl; [|apply (trace_only _ _ _ _ h (proj1 (impl _)))].
  assert (C : forall q, c_cells (mkArgs (mkShape (fst (dim (bm_layout a))) (snd (dim (bm_layout a))) (snd (dim (bm_layout b)))
      (as_isize (fst sa), as_isize (snd sa)) (as_isize (fst sb), as_isize (snd sb)) (as_isize (fst sc), as_isize (snd sc)))
        alpha (get_pointer a) (get_pointer b) beta (get_pointer c)) q -> entry_of c q).
  { intros q Hq. unfold c_cells in Hq. cbn [ga_c ga_shape g_sc g_m g_n] in Hq.
    rewrite <- D2, <- D3 in Hq. exact (reach_at h _ c sc q (entries_reached h c Vc Tc) Ec Hq). }
  intros [q|q v|l]; cbn [of_product]; auto.
  - intros [Hq|[Hq|Hq]].
    + left. exact (reach_at h _ a sa q (entries_reached h a Va Ta) Ea Hq).
    + right. left. unfold b_cells in Hq. cbn [ga_b ga_shape g_sb g_k g_n] in Hq. rewrite D1 in Hq.
      exact (reach_at h _ b sb q (entries_reached h b Vb Tb) Eb Hq).
    + right. right. now apply C.
  - apply C.
Qed.

Lemma dense_true_strides : forall l, product_operand l = true -> has_strides l = false -> true_strides l.
Proof.
  intros l Hp Hs. destruct l as [d | d | n | n | d s | d s | n s | n s | n]; try discriminate;
    (eexists; split; [reflexivity|]; intros p [H1 H2]; cbn [cell true_stride dim fst snd] in *; lia).
Qed.

Lemma c69_dot : forall shape m h a b,
  base_valid h a -> base_valid h b -> true_strides (bm_layout a) -> true_strides (bm_layout b) ->
  shape_fits shape (dim (bm_layout a)) (dim (bm_layout b)) ->
  fst (dim (bm_layout a)) * snd (dim (bm_layout b)) * Npos ssize <= isize_max ->
  exists r es,
    trace (p_dot code shape m a b) h =
      Allocates (repeat szero (N.to_nat (fst (dim (bm_layout a)) * snd (dim (bm_layout b))))) :: es /\
    Forall (of_product a b r) es /\
    (snd (dim (bm_layout a)) <> fst (dim (bm_layout b)) -> es = []) /\
    (forall h' r', dot shape kern m h a b = Ok (h', r') -> r' = r).
Proof.
  intros shape m h a b Va Vb Sa Sb Hsh Hn. set (rows := fst (dim (bm_layout a))) in *. set (cols := snd (dim (bm_layout b))) in *.
  set (c := match shape with
         | MatrixMatrix => p_zeros_from_dim m KRowMajor rows cols
         | RowMatrix => p_row_zeros_dim m rows cols
         | MatrixColumn => p_column_zeros_dim m rows cols
         end).
  assert (X : exists h1 r, complete c h = Ok (h1, r) /\ trace c h = allocation_of (rows * cols) /\
      (match shape with
       | MatrixMatrix => zeros_from_dim m h KRowMajor rows cols
       | RowMatrix => row_vector_zeros_from_dim m h rows cols
       | MatrixColumn => column_vector_zeros_from_dim m h rows cols
       end) = Ok (h1, r) /\
      fresh_zeros h h1 r /\ product_operand (bm_layout r) = true /\ has_strides (bm_layout r) = false).
  { unfold c. destruct shape; cbn [shape_fits] in Hsh.
    - destruct (zeros_ok m h KRowMajor rows cols _ eq_refl Hn) as (h1 & r & E & L & _ & _ & _ & Z & _).
      exists h1, r. rewrite complete_zeros. rewrite L. splits; auto.
      rewrite (trace_zeros m KRowMajor rows cols (RowMajor (rows, cols))); auto.
      + change (entry_count (RowMajor (rows, cols))) with (rows * cols). now replace (_ <=? _) with true by lia.
      + apply fits_small. change (rows * cols <= isize_max).
        apply N.le_trans with (2 := Hn). rewrite <- (N.mul_1_r (rows * cols)) at 1. apply N.mul_le_mono_l. lia.
    - fold rows in Hsh. assert (Hc : cols * N.pos ssize <= isize_max) by (rewrite Hsh in Hn; lia).
      destruct (row_vector_ok m h _ Hc) as (h1 & r & E & L & _ & Z & _).
      exists h1, r. rewrite complete_row_dim. unfold row_vector_zeros_from_dim. rewrite L. splits; auto.
      + rewrite Hsh. exact E.
      + unfold p_row_zeros_dim, assert_. rewrite Hsh. cbn [N.eqb Pos.eqb pbind]. unfold p_row_zeros. rewrite trace_then_pure, trace_vector.
        replace (_ <=? _) with true by lia. now rewrite N.mul_1_l.
      + rewrite Hsh. exact E.
    - fold cols in Hsh. assert (Hc : rows * N.pos ssize <= isize_max) by (rewrite Hsh in Hn; lia).
      destruct (column_vector_ok m h _ Hc) as (h1 & r & E & L & _ & Z & _).
      exists h1, r. rewrite complete_column_dim. unfold column_vector_zeros_from_dim. rewrite L. splits; auto.
      + rewrite Hsh. exact E.
      + unfold p_column_zeros_dim, assert_. rewrite Hsh. cbn [N.eqb Pos.eqb pbind]. unfold p_column_zeros. rewrite trace_then_pure, trace_vector.
        replace (_ <=? _) with true by lia. now rewrite N.mul_1_r.
      + rewrite Hsh. exact E. }
  destruct X as (h1 & r & E & Et & Ez & Z & Pr & Hs). destruct Z as (Oa & Vr & _).
  pose proof (only_allocates_extends _ _ Oa) as He.
  destruct (c69_matmul h1 sone a b szero r) as [F1 F2]; eauto using base_valid_extends, dense_true_strides.
  exists r, (trace (p_matmul code sone a b szero r) h1). splits; auto.
  - unfold p_dot. fold rows cols c. rewrite trace_bind, E, Et, trace_then_pure. reflexivity.
  - intros Hd. apply F2. intros (D1 & _). contradiction.
  - intros h' r' D. destruct shape; cbn [dot] in D; unfold dot_mat_mat, dot_row_mat, dot_mat_col in D; fold rows cols in D;
      rewrite Ez in D; cbn [bind] in D; apply bind_ok in D; destruct D as (h2 & _ & D); congruence.
Qed.

End Code.

(** ** All calls *)

Lemma c69_lazy : forall St (code : gemm_args T -> prog T unit) m ms (o : call T St) c h,
  lazy_call o = true -> program code m ms o = Some c -> trace c h = [].
Proof.
  intros St code m ms o c h Hl E.
  destruct o; try discriminate; cbn [program] in E; unfold typed, when in E;
    repeat match type of E with
    | match ?x with Some _ => _ | None => _ end = _ => destruct x eqn:?; try discriminate
    | (if ?x then _ else _) = _ => destruct x eqn:?; try discriminate
    | match ?x with _ => _ end = _ => destruct x eqn:?; try discriminate
    end; injection E as <-; unfold ends_new; rewrite ?trace_pure; try reflexivity.
  all: match goal with
       | |- match ?o with Ok _ => _ | _ => _ end = _ => destruct o; try reflexivity
       | |- trace match ?o with Ok _ => _ | _ => _ end _ = _ => destruct o as [a| |]; try reflexivity
       end.
  destruct a as [[[b0 b1] b2] b3]. reflexivity.
Qed.

Fixpoint no_alloc {A : Type} (c : prog T A) : Prop :=
  match c with
  | Stop _ => True
  | Load _ k => forall v, no_alloc (k v)
  | Store _ _ k => no_alloc k
  | Alloc _ _ => False
  end.

Lemma no_alloc_bind : forall A B (c : prog T A) (f : A -> prog T B), no_alloc c -> (forall a, no_alloc (f a)) -> no_alloc (pbind c f).
Proof.
  intros A B c f. induction c as [o|p k IH|p v k IH|l k IH]; cbn [no_alloc pbind]; auto.
  destruct o; cbn [no_alloc]; auto.
Qed.

Lemma no_alloc_trace : forall A (c : prog T A) h, no_alloc c -> allocations (trace c h) = 0.
Proof.
  intros A c. unfold allocations, count. induction c as [o|p k IH|p v k IH|l k IH]; intros h; cbn [no_alloc trace filter length]; auto.
  - intros H. destruct (place_read h p); cbn [filter length]; auto.
  - intros H. destruct (place_write h p v); cbn [filter length]; auto.
  - intros [].
Qed.

Lemma only_no_alloc : forall A R W (c : prog T A), only_accesses R W c -> no_alloc c.
Proof.
  intros A R W c. induction c as [o|p k IH|p v k IH|l k IH]; cbn [only_accesses no_alloc]; auto.
  - intros [_ H] v. auto.
  - intros [_ H]. auto.
Qed.

Definition once {A : Type} (c : prog T A) : Prop :=
  forall h, match complete c h with Ok _ => allocations (trace c h) = 1 | _ => allocations (trace c h) <= 1 end.

Lemma once_bind : forall A B (c : prog T A) (f : A -> prog T B), once c -> (forall a, no_alloc (f a)) -> once (pbind c f).
Proof.
  intros A B c f Hc Hf h. specialize (Hc h). rewrite complete_bind, trace_bind. unfold allocations in *. rewrite count_app.
  destruct (complete c h) as [[h' a]| |]; cbn [bind].
  - pose proof (no_alloc_trace _ (f a) h' (Hf a)) as E. unfold allocations in E. rewrite E.
    destruct (complete (f a) h') as [[h'' b]| |]; lia.
  - cbn. lia.
  - cbn. lia.
Qed.

Lemma once_pure : forall A B (o : outcome A) (f : A -> prog T B), (forall a, once (f a)) -> once (pbind (Stop o) f).
Proof. intros A B [a| |] f Hf; [apply Hf|intros h; cbn; lia..]. Qed.

Lemma once_vector : forall n, once (p_vector_container_new n).
Proof. intros n h. unfold p_vector_container_new. destruct (_ <=? _); cbn; lia. Qed.

Lemma once_array : forall n, once (p_array_container_new n).
Proof. intros n h. cbn. lia. Qed.

Lemma once_zeros : forall m k r c, once (p_zeros_from_dim m k r c).
Proof.
  intros m k r c. unfold p_zeros_from_dim. apply once_pure. intros l. apply once_pure. intros n. apply once_bind; [apply once_vector|].
  intros a. apply no_alloc_bind; cbn [no_alloc]; auto.
Qed.

Lemma no_alloc_region_read : forall r i, no_alloc (p_region_read (T := T) r i).
Proof. intros r i. unfold p_region_read. destruct (_ <? _); cbn [no_alloc]; auto. Qed.

Lemma no_alloc_unchecked : forall m (x : matrix T),
  (forall r c, no_alloc (p_get_unchecked m x r c)) /\ (forall i, no_alloc (p_get1d_unchecked m x i)).
Proof.
  intros m x. induction x as [b | x IH | x IH | x IH s | x IHx y IHy l]; cbn [p_get_unchecked p_get1d_unchecked]; auto.
  - split; intros; apply no_alloc_bind; cbn [no_alloc]; auto using no_alloc_region_read.
  - destruct IH. split; intros; apply no_alloc_bind; cbn [no_alloc]; auto.
  - destruct IHx, IHy. split; intros; (apply no_alloc_bind; [auto|]; intros; apply no_alloc_bind; cbn [no_alloc]; auto).
Qed.

Lemma no_alloc_loop : forall body n i, (forall i, no_alloc (body i)) -> no_alloc (p_loop (T := T) n i body).
Proof. intros body n. induction n as [|n IH]; intros i H; cbn [p_loop]; [exact I|]. apply no_alloc_bind; auto. Qed.

Lemma once_eval : forall m x, once (p_eval m x).
Proof.
  intros m x. unfold p_eval. cbv zeta. apply once_bind; [apply once_zeros|]. intros b. apply no_alloc_bind; [exact I|].
  intros n. apply no_alloc_bind; [|intros; exact I]. apply no_alloc_loop. intros i. apply no_alloc_bind; [apply no_alloc_unchecked|].
  intros v. apply no_alloc_bind; [exact I|]. intros p. exact I.
Qed.

Lemma no_alloc_for_each : forall S m b (f : closure (T := T) S) s, no_alloc (p_for_each m b f s).
Proof.
  intros S m b f s. unfold p_for_each. apply no_alloc_bind; [exact I|]. intros n. generalize (N.to_nat n) 0 s.
  intros k. induction k as [|k IH]; intros i s1; cbn [p_for_each_loop]; [exact I|]. apply no_alloc_bind.
  - unfold p_call_closure. destruct (base_get1d_unchecked_mut m b i); cbn [no_alloc]; auto. intros v. destruct (f s1 v) as [[s2 v2] pn]. exact I.
  - intros [s2 pn]. destruct pn; [exact I|apply IH].
Qed.

Lemma c69_allocations : forall St (code : gemm_args T -> prog T unit) kern m ms (o : call T St) c h, implements code kern ->
  program code m ms o = Some c ->
  (owning_call o = false -> allocations (trace c h) = 0) /\
  (owning_call o = true -> allocations (trace c h) <= 1 /\
     (forall h' r, complete c h = Ok (h', r) -> allocations (trace c h) = 1)).
Proof.
  intros St code kern m ms o c h impl E.
  assert (G : forall alpha a b beta c, no_alloc (p_matmul code alpha a b beta c)).
  { intros alpha a b beta c0. unfold p_matmul. apply no_alloc_bind; [exact I|]. intros g. apply (only_no_alloc _ _ _ _ (proj1 (impl g))). }
  assert (X : if owning_call o then once c else no_alloc c).
  { destruct o; cbn [program owning_call] in *; unfold typed, when in E;
      repeat match type of E with
      | match ?x with Some _ => _ | None => _ end = _ => destruct x eqn:?; try discriminate
      | (if ?x then _ else _) = _ => destruct x eqn:?; try discriminate
      | match ?x with _ => _ end = _ => destruct x eqn:?; try discriminate
      end; apply some_inj in E; subst c; unfold ends_new, ends_item, ends_done, ends_loop.
    all: try exact I.
    all: try (apply once_bind; [|intros; exact I]).
    all: try (apply no_alloc_bind; [|intros; exact I]).
    all: try exact I.
    - apply once_zeros.
    - unfold p_zeros_fixed. apply once_bind; [apply once_array|]. intros. apply no_alloc_bind; [exact I|]. intros; exact I.
    - unfold p_zeros_fixed_vector. apply once_bind; [apply once_array|]. intros; exact I.
    - unfold p_row_zeros. apply once_bind; [apply once_vector|]. intros; exact I.
    - unfold p_column_zeros. apply once_bind; [apply once_vector|]. intros; exact I.
    - unfold p_row_zeros_dim. apply once_pure. intros. unfold p_row_zeros. apply once_bind; [apply once_vector|]. intros; exact I.
    - unfold p_column_zeros_dim. apply once_pure. intros. unfold p_column_zeros. apply once_bind; [apply once_vector|]. intros; exact I.
    - apply once_bind; [apply once_vector|]. intros; exact I.
    - apply once_bind; [apply once_array|]. intros; exact I.
    - unfold p_get. apply no_alloc_bind; [exact I|]. intros. apply no_alloc_unchecked.
    - unfold p_get1d. apply no_alloc_bind; [exact I|]. intros. apply no_alloc_bind; [exact I|]. intros. apply no_alloc_unchecked.
    - apply no_alloc_bind; [exact I|]. intros; exact I.
    - apply no_alloc_bind; [exact I|]. intros; exact I.
    - apply no_alloc_unchecked.
    - apply no_alloc_unchecked.
    - apply no_alloc_bind; [exact I|]. intros; exact I.
    - apply no_alloc_bind; [exact I|]. intros; exact I.
    - apply no_alloc_bind; [exact I|]. intros. unfold p_slice_read. apply no_alloc_bind; [exact I|]. intros. apply no_alloc_region_read.
    - apply no_alloc_bind; [exact I|]. intros. unfold p_slice_write. apply no_alloc_bind; [exact I|]. intros. apply no_alloc_bind; [exact I|]. intros; exact I.
    - apply no_alloc_bind; [exact I|]. intros [[[b0 b1] b2] b3]. exact I.
    - apply once_eval.
    - apply no_alloc_bind; [apply no_alloc_for_each|]. intros []. exact I.
    - apply no_alloc_bind; [apply no_alloc_for_each|]. intros []. exact I.
    - apply G.
    - unfold p_dot. cbv zeta. apply once_bind.
      + destruct shape; [apply once_zeros|..].
        * unfold p_row_zeros_dim. apply once_pure. intros. unfold p_row_zeros. apply once_bind; [apply once_vector|]. intros; exact I.
        * unfold p_column_zeros_dim. apply once_pure. intros. unfold p_column_zeros. apply once_bind; [apply once_vector|]. intros; exact I.
      + intros r. apply no_alloc_bind; [apply G|intros; exact I]. }
  destruct (owning_call o); split; intros Ho; try discriminate.
  - specialize (X h). destruct (complete c h) as [[h' r]| |]; split; intros; try lia; try discriminate.
  - now apply no_alloc_trace.
Qed.

(** A call that ends without a panic leaves as many more allocations as it made. *)
Lemma complete_length : forall A (c : prog T A) h h' a, complete c h = Ok (h', a) ->
  N.of_nat (length h') = N.of_nat (length h) + allocations (trace c h).
Proof.
  intros A c. unfold allocations, count. induction c as [o|p k IH|p v k IH|l k IH]; intros h h' a; cbn [complete trace filter length].
  - destruct o; cbn [bind]; try discriminate. intros E; injection E as <- <-. lia.
  - destruct (place_read h p) as [v| |]; cbn [bind]; try discriminate. apply IH.
  - destruct (place_write h p v) as [h1| |] eqn:Ew; cbn [bind]; try discriminate. intros E. apply IH in E. rewrite E.
    apply place_write_inv in Ew. destruct Ew as (Ew & _). subst h1. f_equal. unfold hset. destruct (nth_error h (pl_alloc p)); rewrite ?upd_length; auto.
  - cbn [alloc fst snd]. intros E. apply IH in E. rewrite E, app_length. cbn [length]. lia.
Qed.

End TraceProofs.
