(** * Facts about the layouts. *)

From Coq Require Import ZifyBool ZifyNat ZifyN.
From Verif Require Import Machine MachineFacts Layouts Spec.
Local Open Scope N_scope.

(** ** Division and triangular numbers *)

Lemma pos_unique : forall w q r q' r', r < w -> r' < w -> q * w + r = q' * w + r' -> q = q' /\ r = r'.
Proof.
  intros w q r q' r' Hr Hr' E.
  assert (q = q') by nia. subst. split; auto. lia.
Qed.

Lemma divmod_of : forall w q r, r < w -> (q * w + r) / w = q /\ (q * w + r) mod w = r.
Proof.
  intros w q r H. split.
  - symmetry. apply N.div_unique with r; lia.
  - symmetry. apply N.mod_unique with q; lia.
Qed.

Lemma div_lt_bound : forall i a w, i < a * w -> w <> 0 /\ i / w < a /\ i mod w < w /\ (i / w) * w + i mod w = i.
Proof.
  intros i a w H. assert (Hw : w <> 0) by nia.
  pose proof (N.div_mod i w Hw). pose proof (N.mod_lt i w Hw).
  repeat split; auto; nia.
Qed.

Definition tri (k : N) : N := k * (k + 1) / 2.

Lemma tri_double : forall k, 2 * tri k = k * (k + 1).
Proof.
  intros k. unfold tri.
  assert (H : (k * (k + 1)) mod 2 = 0).
  { induction k as [|k IH] using N.peano_ind; [reflexivity|].
    replace (N.succ k * (N.succ k + 1)) with (k * (k + 1) + (k + 1) * 2) by lia.
    rewrite N.mod_add by lia. exact IH. }
  pose proof (N.div_mod (k * (k + 1)) 2 ltac:(lia)). lia.
Qed.

Lemma tri_succ : forall k, tri (k + 1) = tri k + k + 1.
Proof. intros k. pose proof (tri_double k). pose proof (tri_double (k + 1)). nia. Qed.

Lemma tri_mono : forall a b, a <= b -> tri a <= tri b.
Proof. intros a b H. pose proof (tri_double a). pose proof (tri_double b). nia. Qed.

Lemma tri_find : forall i, exists p, tri p <= i /\ i < tri (p + 1).
Proof.
  induction i as [|i IH] using N.peano_ind.
  - exists 0. split; cbn; lia.
  - destruct IH as (p & H1 & H2).
    destruct (N.lt_ge_cases (N.succ i) (tri (p + 1))).
    + exists p. lia.
    + exists (p + 1). rewrite (tri_succ (p + 1)). lia.
Qed.

Lemma tri_unique : forall p q i, tri p <= i -> i < tri (p + 1) -> tri q <= i -> i < tri (q + 1) -> p = q.
Proof.
  intros p q i H1 H2 H3 H4.
  destruct (N.lt_trichotomy p q) as [H | [H | H]]; auto; exfalso.
  - pose proof (tri_mono (p + 1) q). lia.
  - pose proof (tri_mono (q + 1) p). lia.
Qed.

Lemma half_double : forall a, (2 * a) / 2 = a.
Proof. intros a. rewrite N.mul_comm. apply N.div_mul. lia. Qed.

(** ** Mathematical 1d index and raw index of a position *)

Definition idx (l : layout) (r c : N) : N :=
  match l with
  | RowMajor d | ArbitraryStrideRowMajor d _ => r * snd d + c
  | ColumnMajor d | ArbitraryStrideColumnMajor d _ => c * fst d + r
  | RowVector _ | ArbitraryStrideRowVector _ _ => c
  | ColumnVector _ | ArbitraryStrideColumnVector _ _ => r
  | UpperTriangular n => tri (n - 1 - r) + (c - r)
  end.

Definition addr (l : layout) (r c : N) : N :=
  match l with
  | ArbitraryStrideRowMajor _ s | ArbitraryStrideColumnMajor _ s => fst s * r + snd s * c
  | ArbitraryStrideRowVector _ s => c * s
  | ArbitraryStrideColumnVector _ s => r * s
  | _ => idx l r c
  end.

Definition raw_of_index (l : layout) (i : N) : N :=
  match l with
  | ArbitraryStrideRowMajor d s => fst s * (i / snd d) + snd s * (i mod snd d)
  | ArbitraryStrideColumnMajor d s => fst s * (i mod fst d) + snd s * (i / fst d)
  | ArbitraryStrideRowVector _ s => i * s
  | ArbitraryStrideColumnVector _ s => i * s
  | _ => i
  end.

Lemma fits_usize : forall l, fits l -> entry_count l < usize_mod.
Proof. intros l H. unfold fits in H. rewrite isize_max_val in H. rewrite usize_mod_val. lia. Qed.

Lemma fits_small : forall l, fits l -> small l.
Proof.
  intros l H. pose proof (fits_usize l H) as Hu. unfold fits in H. rewrite isize_max_val in H.
  destruct l; unfold small; auto.
  cbn [entry_count] in H. fold (tri dim) in H. pose proof (tri_double dim).
  rewrite usize_mod_val. lia.
Qed.
#[export] Hint Resolve fits_small : core.

Lemma number_of_elements_ok : forall m l, small l -> number_of_elements m l = Ok (entry_count l).
Proof.
  intros m l H.
  destruct l as [[a b] | [a b] | n | n | [a b] s | [a b] s | n s | n s | n];
    cbn [number_of_elements entry_count dim fst snd small] in *;
    try (now apply umul_ok); try (f_equal; lia).
  rewrite uadd_ok by (rewrite usize_mod_val in *; nia). cbn [bind].
  rewrite umul_ok by lia. cbn [bind]. now rewrite udiv_ok.
Qed.

Lemma number_of_elements_checked : forall l n, number_of_elements Checked l = Ok n ->
  n = entry_count l /\ small l.
Proof.
  intros l n H.
  destruct l as [[a b] | [a b] | k | k | [a b] s | [a b] s | k s | k s | k];
    cbn [number_of_elements entry_count dim fst snd small] in *; inv_arith; auto; split; auto; lia.
Qed.

Lemma row_major_1d_2d_ok : forall d i, i < fst d * snd d ->
  row_major_1d_2d d i = Ok (i / snd d, i mod snd d).
Proof.
  intros [a b] i H. cbn [fst snd] in *. unfold row_major_1d_2d. cbn [fst snd].
  destruct (div_lt_bound _ _ _ H) as (Hw & _).
  rewrite udiv_ok, urem_ok by auto. reflexivity.
Qed.

Lemma column_major_1d_2d_ok : forall d i, i < fst d * snd d ->
  column_major_1d_2d d i = Ok (i mod fst d, i / fst d).
Proof.
  intros [a b] i H. cbn [fst snd] in *. unfold column_major_1d_2d. cbn [fst snd].
  rewrite N.mul_comm in H. destruct (div_lt_bound _ _ _ H) as (Hw & _).
  rewrite udiv_ok, urem_ok by auto. reflexivity.
Qed.

Lemma idx_bound : forall l r c, stored l (r, c) -> idx l r c < entry_count l.
Proof.
  intros l r c [[Hr Hc] Hut].
  destruct l as [[a b] | [a b] | n | n | [a b] s | [a b] s | n s | n s | n];
    cbn [idx entry_count dim fst snd upper_triangular_like] in *; try nia.
  fold (tri n). specialize (Hut eq_refl).
  pose proof (tri_succ (n - 1 - r)). pose proof (tri_mono (n - 1 - r + 1) n). lia.
Qed.

Lemma convert_2d_1d_ok : forall m l r c, small l -> stored l (r, c) ->
  convert_2d_1d m l r c = Ok (idx l r c).
Proof.
  intros m l r c Hf Hs.
  pose proof (idx_bound l r c Hs) as Hb.
  destruct Hs as [[Hr Hc] Hut].
  destruct l as [[a b] | [a b] | n | n | [a b] s | [a b] s | n s | n s | n];
    cbn [convert_2d_1d idx entry_count dim fst snd upper_triangular_like small] in *; auto;
    unfold row_major_2d_1d, column_major_2d_1d; cbn [fst snd];
    try (rewrite umul_ok by nia; cbn [bind]; rewrite uadd_ok by nia; reflexivity).
  specialize (Hut eq_refl).
  unfold upper_triangular_2d_1d, assert_.
  replace (r <=? c) with true by lia. cbn [bind].
  rewrite !usub_ok by lia. cbn [bind]. rewrite usub_ok by lia. cbn [bind].
  pose proof (tri_double (n - 1 - r)) as Ht.
  replace (n - 1 - r + 1) with (n - r) in Ht by lia.
  replace (n - r - 1) with (n - 1 - r) by lia.
  rewrite umul_ok by nia. cbn [bind]. rewrite udiv_ok by lia. cbn [bind].
  replace ((n - r) * (n - 1 - r)) with (2 * tri (n - 1 - r)) by lia.
  rewrite half_double.
  assert (tri (n - 1 - r) + c < usize_mod).
  { rewrite usize_mod_val in *. nia. }
  rewrite uadd_ok by lia. cbn [bind]. rewrite usub_ok by lia. f_equal. lia.
Qed.

(** The raw index, when it does not overflow. *)
Lemma convert_2d_raw_dense : forall m l r c, has_strides l = false -> small l -> stored l (r, c) ->
  convert_2d_raw m l r c = Ok (addr l r c).
Proof.
  intros m l r c Hh Hf Hs. pose proof (convert_2d_1d_ok m l r c Hf Hs) as E.
  destruct l; cbn [has_strides] in Hh; try discriminate; exact E.
Qed.

Lemma strided_raw_ok : forall m s r c, fst s * r + snd s * c < usize_mod ->
  strided_raw m s r c = Ok (fst s * r + snd s * c).
Proof.
  intros m [s0 s1] r c H. unfold strided_raw. cbn [fst snd] in *.
  rewrite umul_ok by lia; cbn [bind]; rewrite umul_ok by lia; cbn [bind].
  rewrite uadd_ok by lia; reflexivity.
Qed.

Lemma convert_2d_raw_strided : forall m l r c, has_strides l = true -> addr l r c < usize_mod ->
  convert_2d_raw m l r c = Ok (addr l r c).
Proof.
  intros m l r c Hh Ha.
  destruct l as [d | d | n | n | d [s0 s1] | d [s0 s1] | n s | n s | n];
    cbn [has_strides convert_2d_raw addr] in *; try discriminate.
  1,2: now apply strided_raw_ok.
  all: now apply umul_ok.
Qed.

Lemma convert_2d_raw_ok : forall m l r c, small l -> stored l (r, c) -> addr l r c < usize_mod ->
  convert_2d_raw m l r c = Ok (addr l r c).
Proof.
  intros m l r c Hf Hs Ha. destruct (has_strides l) eqn:E.
  - now apply convert_2d_raw_strided.
  - now apply convert_2d_raw_dense.
Qed.

Lemma convert_1d_raw_ok : forall m l i, i < entry_count l -> raw_of_index l i < usize_mod ->
  convert_1d_raw m l i = Ok (raw_of_index l i).
Proof.
  intros m l i Hi Ha.
  destruct l as [d | d | n | n | d [s0 s1] | d [s0 s1] | n s | n s | n];
    cbn [convert_1d_raw raw_of_index entry_count dim fst snd] in *; auto.
  - rewrite row_major_1d_2d_ok by auto. cbn [bind]. now apply strided_raw_ok.
  - rewrite column_major_1d_2d_ok by auto. cbn [bind]. now apply strided_raw_ok.
  - now apply umul_ok.
  - now apply umul_ok.
Qed.

(** The raw index of a 1d index is that of its position. *)
Lemma raw_of_idx : forall l r c, stored l (r, c) -> raw_of_index l (idx l r c) = addr l r c.
Proof.
  intros l r c [[Hr Hc] Hut].
  destruct l as [d | d | n | n | [a b] [s0 s1] | [a b] [s0 s1] | n s | n s | n];
    cbn [raw_of_index addr idx dim fst snd] in *; auto.
  - destruct (divmod_of b r c Hc) as [-> ->]. reflexivity.
  - destruct (divmod_of a c r Hr) as [-> ->]. reflexivity.
Qed.

(** Every 1d index is that of a stored position. *)
Definition pos (l : layout) (i : N) : N * N :=
  match l with
  | RowMajor d | ArbitraryStrideRowMajor d _ => (i / snd d, i mod snd d)
  | ColumnMajor d | ArbitraryStrideColumnMajor d _ => (i mod fst d, i / fst d)
  | RowVector _ | ArbitraryStrideRowVector _ _ => (0, i)
  | ColumnVector _ | ArbitraryStrideColumnVector _ _ => (i, 0)
  | UpperTriangular n =>
      let p := (N.sqrt (8 * i + 1) - 1) / 2 in (n - 1 - p, n - 1 - p + (i - tri p))
  end.

Lemma isqrt_tri : forall p i, tri p <= i -> i < tri (p + 1) -> (N.sqrt (8 * i + 1) - 1) / 2 = p.
Proof.
  intros p i H1 H2. pose proof (tri_double p). pose proof (tri_double (p + 1)).
  assert (Hs : N.sqrt (8 * i + 1) * N.sqrt (8 * i + 1) <= 8 * i + 1 /\
               8 * i + 1 < (N.sqrt (8 * i + 1) + 1) * (N.sqrt (8 * i + 1) + 1)).
  { pose proof (N.sqrt_spec (8 * i + 1) ltac:(lia)) as [A B]. rewrite <- N.add_1_r in B. auto. }
  destruct Hs as [Ha Hb]. set (s := N.sqrt (8 * i + 1)) in *. clearbody s.
  assert (2 * p + 1 <= s) by nia. assert (s < 2 * p + 3) by nia.
  symmetry. apply N.div_unique with (s - 1 - 2 * p); lia.
Qed.

Lemma pos_spec : forall l i, i < entry_count l ->
  stored l (pos l i) /\ idx l (fst (pos l i)) (snd (pos l i)) = i.
Proof.
  intros l i H. unfold stored, in_range.
  destruct l as [[a b] | [a b] | n | n | [a b] s | [a b] s | n s | n s | n];
    cbn [pos idx entry_count dim fst snd upper_triangular_like] in *.
  all: try (destruct (div_lt_bound _ _ _ H) as (? & ? & ? & ?); repeat split; auto; discriminate).
  all: try (rewrite N.mul_comm in H; destruct (div_lt_bound _ _ _ H) as (? & ? & ? & ?);
            repeat split; auto; discriminate).
  all: try (repeat split; auto; try discriminate; lia).
  fold (tri n) in H. destruct (tri_find i) as (p & H1 & H2).
  rewrite (isqrt_tri p i H1 H2). rewrite tri_succ in H2.
  assert (p < n).
  { destruct (N.lt_ge_cases p n); auto. pose proof (tri_mono n p). lia. }
  replace (n - 1 - (n - 1 - p)) with p by lia.
  repeat split; try lia.
Qed.

Lemma idx_inj : forall l r c r' c', stored l (r, c) -> stored l (r', c') ->
  idx l r c = idx l r' c' -> (r, c) = (r', c').
Proof.
  intros l r c r' c' [[Hr Hc] Hu] [[Hr' Hc'] Hu'] E.
  destruct l as [[a b] | [a b] | n | n | [a b] s | [a b] s | n s | n s | n];
    cbn [idx dim fst snd upper_triangular_like] in *.
  1,5: destruct (pos_unique b r c r' c') as [-> ->]; auto.
  1,4: destruct (pos_unique a c r c' r') as [-> ->]; auto.
  1-4: f_equal; lia.
  specialize (Hu eq_refl). specialize (Hu' eq_refl).
  assert (n - 1 - r = n - 1 - r').
  { apply tri_unique with (tri (n - 1 - r) + (c - r)); rewrite ?tri_succ; lia. }
  assert (r = r') by lia. subst r'. f_equal. lia.
Qed.

Lemma idx_pos : forall l r c, stored l (r, c) -> pos l (idx l r c) = (r, c).
Proof.
  intros l r c H. pose proof (idx_bound l r c H) as Hb.
  destruct (pos_spec l (idx l r c) Hb) as [Hs E].
  destruct (pos l (idx l r c)) as [r' c']. cbn [fst snd] in *.
  now apply idx_inj with l.
Qed.

Lemma raw_of_index_pos : forall l i, i < entry_count l ->
  raw_of_index l i = addr l (fst (pos l i)) (snd (pos l i)).
Proof.
  intros l i H. destruct (pos_spec l i H) as [Hs E].
  rewrite <- E at 1. apply raw_of_idx. now destruct (pos l i).
Qed.

(** ** The specified number and cell of an entry *)

Lemma triangular_place_idx : forall n r c, r < n ->
  tri (n - 1 - r) + (c - r) = triangular_place n (r, c).
Proof.
  intros n r c H. unfold triangular_place, tri. cbn [fst snd]. do 2 f_equal. nia.
Qed.

Lemma idx_number : forall l r c, stored l (r, c) -> idx l r c = number l (r, c).
Proof.
  intros l r c [[Hr Hc] _].
  destruct l as [[a b] | [a b] | n | n | [a b] [s0 s1] | [a b] [s0 s1] | n s | n s | n];
    cbn [idx number dim fst snd column_ordered column_vector_like orb] in *; try lia.
  now apply triangular_place_idx.
Qed.

Lemma addr_cell : forall l r c, stored l (r, c) -> addr l r c = cell l (r, c).
Proof.
  intros l r c [[Hr Hc] _].
  destruct l as [[a b] | [a b] | n | n | [a b] [s0 s1] | [a b] [s0 s1] | n s | n s | n];
    cbn [addr cell idx true_stride dim fst snd] in *; try nia.
  now apply triangular_place_idx.
Qed.
