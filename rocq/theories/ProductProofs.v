(** * Proofs of C32 - C36 and C42. *)

From Coq Require Import ZifyBool ZifyNat ZifyN.
From Verif Require Import Machine MachineFacts Layouts Memory Matrix MatMul Spec MatrixSpec ExprSpec ProductSpec.
From Verif Require Import ZScalar LayoutFacts LayoutProofs MemoryFacts AccessFacts AccessProofs ConstructorProofs BlockProofs ExprProofs.
Local Open Scope N_scope.

(** The place of [p] according to the strides [s]. *)
Definition told (s p : N * N) : N := fst p * fst s + snd p * snd s.

Lemma as_isize_small : forall x, x <= isize_max -> as_isize x = Z.of_N x.
Proof. intros x H. unfold as_isize. now replace (x <=? isize_max) with true by lia. Qed.

Lemma times_as_isize : forall i s, i * s <= isize_max -> (Z.of_N i * as_isize s)%Z = Z.of_N (i * s).
Proof.
  intros i s H. destruct (N.eq_dec i 0) as [-> | Hi].
  - rewrite N.mul_0_l. reflexivity.
  - rewrite as_isize_small by nia. lia.
Qed.

Section Products.
Context {T : Type} {SC : HScalar T}.
Notation heap := (@heap T).
Implicit Types (h : heap) (b : base_matrix).

(** The cell the kernel uses for [p]. *)
Definition told_cell b (s p : N * N) : nat * N := cell_of_region (c_region (bm_data b)) (told s p).

(** All these cells exist. *)
Definition told_ok h b (s : N * N) : Prop :=
  slice_ok h (c_region (bm_data b)) /\
  forall p, in_range (dim (bm_layout b)) p -> told s p < r_len (c_region (bm_data b)).

Definition isizes (s : N * N) : Z * Z := (as_isize (fst s), as_isize (snd s)).

Lemma gemm_offset_told : forall h b s i j, told_ok h b s -> in_range (dim (bm_layout b)) (i, j) ->
  gemm_offset (isizes s) i j = Z.of_N (told s (i, j)).
Proof.
  intros h b s i j [[_ Hl] Ht] Hp. specialize (Ht _ Hp). unfold told in *. cbn [fst snd] in *.
  unfold gemm_offset, isizes. cbn [fst snd].
  rewrite !times_as_isize by lia. lia.
Qed.

Lemma told_ok_extends : forall h h' b s, extends h h' -> told_ok h b s -> told_ok h' b s.
Proof. intros h h' b s He [Hs Ht]. split; auto. now apply slice_ok_extends with h. Qed.

Lemma read_told : forall h b s i j, told_ok h b s -> in_range (dim (bm_layout b)) (i, j) ->
  exists v, ptr_read h (get_pointer b) (gemm_offset (isizes s) i j) = Ok v /\
            hget h (fst (told_cell b s (i, j))) (snd (told_cell b s (i, j))) = Some v.
Proof.
  intros h b s i j H Hp. rewrite (gemm_offset_told h b) by auto.
  destruct H as [[Hr _] Ht]. specialize (Ht _ Hp).
  destruct (region_read_ok _ _ _ Hr Ht) as (v & E & Eg). exists v. split; auto.
  unfold ptr_read, get_pointer, container_get_pointer. cbn [p_off p_region].
  replace (Z.of_N 0 + Z.of_N (told s (i, j)))%Z with (Z.of_N (told s (i, j))) by lia.
  replace (0 <=? Z.of_N (told s (i, j)))%Z with true by lia. now rewrite N2Z.id.
Qed.

Lemma write_told : forall h b s i j v, told_ok h b s -> in_range (dim (bm_layout b)) (i, j) ->
  ptr_write h (get_pointer b) (gemm_offset (isizes s) i j) v =
  Ok (hset h (fst (told_cell b s (i, j))) (snd (told_cell b s (i, j))) v).
Proof.
  intros h b s i j v H Hp. destruct (read_told h b s i j H Hp) as (w & _ & Ew).
  rewrite (gemm_offset_told h b) by auto.
  destruct H as [_ Ht]. specialize (Ht _ Hp).
  unfold ptr_write, get_pointer, container_get_pointer. cbn [p_off p_region].
  replace (Z.of_N 0 + Z.of_N (told s (i, j)))%Z with (Z.of_N (told s (i, j))) by lia.
  replace (0 <=? Z.of_N (told s (i, j)))%Z with true by lia. rewrite N2Z.id.
  rewrite region_place_ok by auto. cbn [bind]. now apply place_write_ok with w.
Qed.

Lemma collect_ok : forall (A : Type) (f : N -> outcome A) (g : N -> A) n i,
  (forall l, i <= l < i + N.of_nat n -> f l = Ok (g l)) ->
  collect n i f = Ok (map (fun l => g (i + N.of_nat l)) (seq 0 n)).
Proof.
  intros A f g n. induction n as [|n IH]; intros i H; auto. cbn [collect seq map].
  rewrite H by lia. cbn [bind]. rewrite (IH (i + 1)) by (intros; apply H; lia). cbn [bind].
  f_equal. f_equal.
  - f_equal. lia.
  - rewrite <- seq_shift, map_map. apply map_ext. intros l. f_equal. lia.
Qed.

Definition told_entries h b (s : N * N) (F : N -> N -> T) : Prop :=
  forall i j, in_range (dim (bm_layout b)) (i, j) ->
    hget h (fst (told_cell b s (i, j))) (snd (told_cell b s (i, j))) = Some (F i j).

Lemma told_entries_exist : forall h b s, told_ok h b s -> exists F, told_entries h b s F.
Proof.
  intros h b s H.
  exists (fun i j => match hget h (fst (told_cell b s (i, j))) (snd (told_cell b s (i, j))) with
                     | Some v => v | None => szero end).
  intros i j Hp. destruct (read_told h b s i j H Hp) as (v & _ & E). now rewrite E.
Qed.

Lemma gemm_entry_ok : forall kern h alpha a b beta c sa sb sc A B C i j,
  told_ok h a sa -> told_ok h b sb -> told_ok h c sc ->
  told_entries h a sa A -> told_entries h b sb B ->
  hget h (fst (told_cell c sc (i, j))) (snd (told_cell c sc (i, j))) = Some C ->
  compatible (dim (bm_layout a)) (dim (bm_layout b)) (dim (bm_layout c)) ->
  in_range (dim (bm_layout c)) (i, j) ->
  let sh := mkShape (fst (dim (bm_layout a))) (snd (dim (bm_layout a))) (snd (dim (bm_layout b)))
                    (isizes sa) (isizes sb) (isizes sc) in
  gemm_entry kern sh alpha (get_pointer a) (get_pointer b) beta (get_pointer c) i j h =
  Ok (hset h (fst (told_cell c sc (i, j))) (snd (told_cell c sc (i, j)))
        (kern sh i j alpha (row_and_column (snd (dim (bm_layout a))) A B i j) beta C)).
Proof.
  intros kern h alpha a b beta c sa sb sc A B C i j Ta Tb Tc Ea Eb Ec (D1 & D2 & D3) [Hi Hj] sh.
  cbn [fst snd] in Hi, Hj.
  unfold gemm_entry. unfold sh at 1 2 3. cbn [g_k g_sa g_sb].
  rewrite (collect_ok _ _ (fun l => (A i l, B l j))).
  - cbn [bind]. unfold sh at 1 2. cbn [g_sc].
    destruct (read_told h c sc i j Tc) as (v & -> & Ev); [split; auto|].
    rewrite Ec in Ev. injection Ev as <-. cbn [bind].
    rewrite write_told by (auto; split; auto). unfold row_and_column.
    do 3 f_equal.
  - intros l Hl.
    assert (Hk : l < snd (dim (bm_layout a))) by lia.
    destruct (read_told h a sa i l Ta) as (v & -> & Ev); [split; cbn [fst snd]; lia|].
    rewrite Ea in Ev by (split; cbn [fst snd]; lia). injection Ev as <-. cbn [bind].
    destruct (read_told h b sb l j Tb) as (v & -> & Ev); [split; cbn [fst snd]; lia|].
    rewrite Eb in Ev by (split; cbn [fst snd]; lia). injection Ev as <-. reflexivity.
Qed.

(** The cells of C. *)
Definition told_cells c sc (q : nat * N) : Prop :=
  exists p, in_range (dim (bm_layout c)) p /\ q = told_cell c sc p.

Lemma matmul_dims : forall d1 d2 d3, matmul_dims_ok d1 d2 d3 = true <-> compatible d1 d2 d3.
Proof. intros d1 d2 d3. unfold matmul_dims_ok, compatible. lia. Qed.

Lemma matmul_unfold : forall kern h alpha a b beta c sa sb sc,
  stride (bm_layout a) = Ok sa -> stride (bm_layout b) = Ok sb -> stride (bm_layout c) = Ok sc ->
  compatible (dim (bm_layout a)) (dim (bm_layout b)) (dim (bm_layout c)) ->
  matmul kern h alpha a b beta c =
  let sh := mkShape (fst (dim (bm_layout a))) (snd (dim (bm_layout a))) (snd (dim (bm_layout b)))
                    (isizes sa) (isizes sb) (isizes sc) in
  for_range (fst (dim (bm_layout c))) (fun i h =>
    for_range (snd (dim (bm_layout c))) (fun j h =>
      gemm_entry kern sh alpha (get_pointer a) (get_pointer b) beta (get_pointer c) i j h) h) h.
Proof.
  intros kern h alpha a b beta c sa sb sc Ha Hb Hc Hd. unfold matmul.
  pose proof Hd as (D1 & D2 & D3). apply matmul_dims in Hd. rewrite Hd. cbn [assert_ bind].
  rewrite Ha, Hb, Hc. cbn [bind]. unfold gemm. rewrite D2, D3. reflexivity.
Qed.

(** Whatever the strides say: no undefined behaviour as long as the cells they
    lead to exist, and only such cells of C are written. *)
Lemma matmul_safe : forall kern h alpha a b beta c sa sb sc,
  stride (bm_layout a) = Ok sa -> stride (bm_layout b) = Ok sb -> stride (bm_layout c) = Ok sc ->
  compatible (dim (bm_layout a)) (dim (bm_layout b)) (dim (bm_layout c)) ->
  told_ok h a sa -> told_ok h b sb -> told_ok h c sc ->
  exists h', matmul kern h alpha a b beta c = Ok h' /\ changes_only (told_cells c sc) h h'.
Proof.
  intros kern h alpha a b beta c sa sb sc Ha Hb Hc Hd Ta Tb Tc.
  rewrite (matmul_unfold kern h alpha a b beta c sa sb sc) by auto.
  apply (for_range_inv _ (fun _ h' => changes_only (told_cells c sc) h h')); [|apply changes_only_refl].
  intros i h1 Hi C1.
  apply (for_range_inv _ (fun _ h' => changes_only (told_cells c sc) h h')); [|auto].
  intros j h2 Hj C2.
  assert (Hx : extends h h2) by apply C2.
  assert (Ta2 : told_ok h2 a sa) by now apply told_ok_extends with h.
  assert (Tb2 : told_ok h2 b sb) by now apply told_ok_extends with h.
  assert (Tc2 : told_ok h2 c sc) by now apply told_ok_extends with h.
  destruct (told_entries_exist h2 a sa Ta2) as (A & EA). destruct (told_entries_exist h2 b sb Tb2) as (B & EB).
  destruct (told_entries_exist h2 c sc Tc2) as (C & EC).
  eexists. split.
  - eapply gemm_entry_ok; eauto; try (apply EC); split; auto.
  - eapply changes_only_weaken; [|eapply changes_only_trans; [exact C2 | apply hset_changes_only]].
    intros q [Hq | ->]; auto. exists (i, j). split; [split; auto|]. now rewrite <- surjective_pairing.
Qed.

Lemma gemm_told : forall kern h alpha a b beta c sa sb sc A B C,
  compatible (dim (bm_layout a)) (dim (bm_layout b)) (dim (bm_layout c)) ->
  told_ok h a sa -> told_ok h b sb -> told_ok h c sc ->
  told_entries h a sa A -> told_entries h b sb B -> told_entries h c sc C ->
  (forall p q, in_range (dim (bm_layout a)) p -> in_range (dim (bm_layout c)) q ->
     told_cell a sa p <> told_cell c sc q) ->
  (forall p q, in_range (dim (bm_layout b)) p -> in_range (dim (bm_layout c)) q ->
     told_cell b sb p <> told_cell c sc q) ->
  (forall p q, in_range (dim (bm_layout c)) p -> in_range (dim (bm_layout c)) q ->
     told_cell c sc p = told_cell c sc q -> p = q) ->
  let sh := mkShape (fst (dim (bm_layout a))) (snd (dim (bm_layout a))) (snd (dim (bm_layout b)))
                    (isizes sa) (isizes sb) (isizes sc) in
  exists h', for_range (fst (dim (bm_layout c))) (fun i h =>
      for_range (snd (dim (bm_layout c))) (fun j h =>
        gemm_entry kern sh alpha (get_pointer a) (get_pointer b) beta (get_pointer c) i j h) h) h = Ok h' /\
    changes_only (told_cells c sc) h h' /\
    told_entries h' c sc (fun i j =>
      kern sh i j alpha (row_and_column (snd (dim (bm_layout a))) A B i j) beta (C i j)).
Proof.
  intros kern h alpha a b beta c sa sb sc A B C Hd Ta Tb Tc EA EB EC Na Nb Dc sh.
  set (F := fun i j => kern sh i j alpha (row_and_column (snd (dim (bm_layout a))) A B i j) beta (C i j)).
  (* the entries before (i, j) are done *)
  set (I := fun (i j : N) (h' : heap) => changes_only (told_cells c sc) h h' /\
    forall i' j', in_range (dim (bm_layout c)) (i', j') ->
      hget h' (fst (told_cell c sc (i', j'))) (snd (told_cell c sc (i', j'))) =
      Some (if (i' <? i) || ((i' =? i) && (j' <? j)) then F i' j' else C i' j')).
  destruct (for_range_inv _ (fun i h' => I i 0 h') (fun i h =>
    for_range (snd (dim (bm_layout c))) (fun j h =>
      gemm_entry kern sh alpha (get_pointer a) (get_pointer b) beta (get_pointer c) i j h) h)
    (fst (dim (bm_layout c))) h) as (h' & E & (Ch & Fh)).
  - intros i h1 Hi I1.
    destruct (for_range_inv _ (fun j h' => I i j h') (fun j h =>
      gemm_entry kern sh alpha (get_pointer a) (get_pointer b) beta (get_pointer c) i j h)
      (snd (dim (bm_layout c))) h1) as (h2 & E2 & (C2 & F2)); auto.
    + intros j h2 Hj (C2 & F2).
      assert (Hp : in_range (dim (bm_layout c)) (i, j)) by (split; auto).
      assert (Hx : extends h h2) by apply C2.
      assert (Ta2 : told_ok h2 a sa) by now apply told_ok_extends with h.
      assert (Tb2 : told_ok h2 b sb) by now apply told_ok_extends with h.
      assert (Tc2 : told_ok h2 c sc) by now apply told_ok_extends with h.
      assert (EA2 : told_entries h2 a sa A).
      { intros i' j' Hq. rewrite <- EA by auto. apply C2. intros (p & Hp' & Ep).
        rewrite <- surjective_pairing in Ep. now apply (Na _ _ Hq Hp'). }
      assert (EB2 : told_entries h2 b sb B).
      { intros i' j' Hq. rewrite <- EB by auto. apply C2. intros (p & Hp' & Ep).
        rewrite <- surjective_pairing in Ep. now apply (Nb _ _ Hq Hp'). }
      pose proof (F2 i j Hp) as EC2.
      replace ((i <? i) || (i =? i) && (j <? j)) with false in EC2 by lia.
      eexists. split; [unfold sh; now apply gemm_entry_ok with (A := A) (B := B) (C := C i j)|].
      fold sh. split.
      * eapply changes_only_weaken; [|eapply changes_only_trans; [exact C2 | apply hset_changes_only]].
        intros q [Hq | ->]; auto. exists (i, j). split; auto.
      * intros i' j' Hq. destruct (N.eq_dec i' i) as [Ei | Ei]; [destruct (N.eq_dec j' j) as [Ej | Ej]|].
        -- subst i' j'. rewrite hget_hset_same with (w := C i j) by auto.
           now replace ((i <? i) || (i =? i) && (j <? j + 1)) with true by lia.
        -- rewrite hget_hset_other.
           2:{ rewrite <- !surjective_pairing. intros X. apply Dc in X; auto. congruence. }
           rewrite F2 by auto. do 2 f_equal.
           replace ((i' <? i) || (i' =? i) && (j' <? j + 1)) with ((i' <? i) || (i' =? i) && (j' <? j)) by lia.
           reflexivity.
        -- rewrite hget_hset_other.
           2:{ rewrite <- !surjective_pairing. intros X. apply Dc in X; auto. congruence. }
           rewrite F2 by auto.
           replace ((i' <? i) || (i' =? i) && (j' <? j + 1)) with ((i' <? i) || (i' =? i) && (j' <? j)) by lia.
           reflexivity.
    + exists h2. split; auto. split; auto. intros i' j' Hq. rewrite F2 by auto.
      destruct Hq as [Hi' Hj']. cbn [fst snd] in *.
      replace ((i' <? i) || (i' =? i) && (j' <? snd (dim (bm_layout c)))) with
        ((i' <? i + 1) || (i' =? i + 1) && (j' <? 0)) by lia. reflexivity.
  - split; [apply changes_only_refl|]. intros i' j' Hq. rewrite EC by auto.
    now replace ((i' <? 0) || (i' =? 0) && (j' <? 0)) with false by lia.
  - exists h'. splits; auto. intros i j Hq. rewrite Fh by auto.
    destruct Hq as [Hi' Hj']. cbn [fst snd] in *.
    now replace ((i <? fst (dim (bm_layout c))) || (i =? fst (dim (bm_layout c))) && (j <? 0)) with true by lia.
Qed.

Lemma matmul_told : forall kern h alpha a b beta c sa sb sc A B C,
  stride (bm_layout a) = Ok sa -> stride (bm_layout b) = Ok sb -> stride (bm_layout c) = Ok sc ->
  compatible (dim (bm_layout a)) (dim (bm_layout b)) (dim (bm_layout c)) ->
  told_ok h a sa -> told_ok h b sb -> told_ok h c sc ->
  told_entries h a sa A -> told_entries h b sb B -> told_entries h c sc C ->
  (forall p q, in_range (dim (bm_layout a)) p -> in_range (dim (bm_layout c)) q ->
     told_cell a sa p <> told_cell c sc q) ->
  (forall p q, in_range (dim (bm_layout b)) p -> in_range (dim (bm_layout c)) q ->
     told_cell b sb p <> told_cell c sc q) ->
  (forall p q, in_range (dim (bm_layout c)) p -> in_range (dim (bm_layout c)) q ->
     told_cell c sc p = told_cell c sc q -> p = q) ->
  let sh := mkShape (fst (dim (bm_layout a))) (snd (dim (bm_layout a))) (snd (dim (bm_layout b)))
                    (isizes sa) (isizes sb) (isizes sc) in
  exists h', matmul kern h alpha a b beta c = Ok h' /\ changes_only (told_cells c sc) h h' /\
    told_entries h' c sc (fun i j =>
      kern sh i j alpha (row_and_column (snd (dim (bm_layout a))) A B i j) beta (C i j)).
Proof.
  intros kern h alpha a b beta c sa sb sc A B C Ha Hb Hc Hd Ta Tb Tc EA EB EC Na Nb Dc sh.
  rewrite (matmul_unfold kern h alpha a b beta c sa sb sc) by auto. fold sh. now apply gemm_told.
Qed.

(** ** Operands with true strides *)

Lemma operand_true : forall l, product_operand l = true -> true_strides l.
Proof.
  intros l H. unfold true_strides.
  destruct l as [d | d | n | n | d s | d s | n s | n s | n]; cbn in H; try discriminate;
    eexists; (split; [reflexivity|]); intros p _; reflexivity.
Qed.

Lemma true_strided_type : forall l, true_strides l -> strided_type l = true.
Proof. intros l (s & E & _). destruct l; try reflexivity. discriminate. Qed.

Lemma strided_stored : forall l p, strided_type l = true -> (stored l p <-> in_range (dim l) p).
Proof.
  intros l p H. split; [intros []; auto|]. intros Hp. split; auto.
  destruct l; cbn in *; discriminate.
Qed.

Lemma true_told : forall h b, base_valid h b -> true_strides (bm_layout b) ->
  exists s, stride (bm_layout b) = Ok s /\ told_ok h b s /\
    forall p, in_range (dim (bm_layout b)) p -> told_cell b s p = entry_cell b p.
Proof.
  intros h b (Hs & Hsm & Hc) Ht. pose proof (true_strided_type _ Ht) as Hty.
  destruct Ht as (s & E & Ht). exists s. splits; auto.
  - split; auto. intros p Hp. unfold told. rewrite <- Ht by auto. apply Hc. now apply strided_stored.
  - intros p Hp. unfold told_cell, told, entry_cell. now rewrite Ht.
Qed.

Lemma told_entries_true : forall h b s F,
  (forall p, in_range (dim (bm_layout b)) p -> told_cell b s p = entry_cell b p) ->
  (told_entries h b s F <-> entries_are h b F).
Proof.
  intros h b s F H. split; intros E i j Hp; specialize (E i j Hp).
  - unfold base_entry. now rewrite <- H.
  - rewrite H by auto. exact E.
Qed.

Lemma entry_cell_in : forall c p q, distinct_cells (bm_layout c) -> strided_type (bm_layout c) = true ->
  in_range (dim (bm_layout c)) p -> in_range (dim (bm_layout c)) q ->
  entry_cell c p = entry_cell c q -> p = q.
Proof.
  intros c p q Hd Ht Hp Hq E. apply entry_cell_inj with (b := c); auto; now apply strided_stored.
Qed.

Lemma c32 : forall kern h alpha a b beta c A B C,
  base_valid h a -> base_valid h b -> base_valid h c ->
  true_strides (bm_layout a) -> true_strides (bm_layout b) -> true_strides (bm_layout c) ->
  no_aliasing (bm_layout c) -> no_overlap a c -> no_overlap b c ->
  compatible (dim (bm_layout a)) (dim (bm_layout b)) (dim (bm_layout c)) ->
  entries_are h a A -> entries_are h b B -> entries_are h c C ->
  exists h' sh, matmul kern h alpha a b beta c = Ok h' /\
    changes_only (fun q => exists p, in_range (dim (bm_layout c)) p /\ q = entry_cell c p) h h' /\
    g_m sh = fst (dim (bm_layout a)) /\ g_k sh = snd (dim (bm_layout a)) /\ g_n sh = snd (dim (bm_layout b)) /\
    entries_are h' c (fun i j =>
      kern sh i j alpha (row_and_column (snd (dim (bm_layout a))) A B i j) beta (C i j)).
Proof.
  intros kern h alpha a b beta c A B C Va Vb Vc Ha Hb Hc Nc Na Nb Hd EA EB EC.
  pose proof (true_strided_type _ Hc) as Tyc.
  destruct (true_told h a Va Ha) as (sa & Sa & Ta & Ca).
  destruct (true_told h b Vb Hb) as (sb & Sb & Tb & Cb).
  destruct (true_told h c Vc Hc) as (sc & Sc & Tc & Cc).
  apply (told_entries_true h a sa) in EA; auto. apply (told_entries_true h b sb) in EB; auto.
  apply (told_entries_true h c sc) in EC; auto.
  destruct (matmul_told kern h alpha a b beta c sa sb sc A B C) as (h' & E & Ch & Eh); auto.
  - intros p q Hp Hq. rewrite Ca, Cc by auto. now apply Na.
  - intros p q Hp Hq. rewrite Cb, Cc by auto. now apply Nb.
  - intros p q Hp Hq. rewrite !Cc by auto. apply entry_cell_in; auto. now apply distinct_no_aliasing.
  - exists h'. eexists. split; [exact E|]. split; [|split; [|split; [|split]]].
    2-4: shelve.
    + eapply changes_only_weaken; [|exact Ch]. intros q (p & Hp & ->). exists p. split; auto.
    + apply (told_entries_true h' c sc) in Eh; auto. exact Eh.
    Unshelve. all: reflexivity.
Qed.

Lemma fold_sum : forall (k : nat) (A B : N -> N -> T) i j,
  fold_left (fun acc p => sadd acc (smul (fst p) (snd p)))
    (map (fun l => (A i (N.of_nat l), B (N.of_nat l) j)) (seq 0 k)) szero =
  sum_below k (fun l => smul (A i l) (B l j)).
Proof.
  intros k A B i j. induction k as [|k IH]; auto.
  rewrite seq_S, map_app, fold_left_app, IH. reflexivity.
Qed.

Lemma computes_entry : forall kern, computes kern -> forall sh k alpha A B beta C i j,
  kern sh i j alpha (row_and_column k A B i j) beta (C i j) = product_entry k alpha A B beta C i j.
Proof.
  intros kern Hk sh k alpha A B beta C i j. rewrite Hk. unfold row_and_column. now rewrite fold_sum.
Qed.

Lemma entries_are_ext : forall h b F G, (forall i j, F i j = G i j) -> entries_are h b F -> entries_are h b G.
Proof. intros h b F G H E i j Hp. rewrite <- H. now apply E. Qed.

Lemma c32_exact : forall kern h alpha a b beta c A B C, computes kern ->
  base_valid h a -> base_valid h b -> base_valid h c ->
  true_strides (bm_layout a) -> true_strides (bm_layout b) -> true_strides (bm_layout c) ->
  no_aliasing (bm_layout c) -> no_overlap a c -> no_overlap b c ->
  compatible (dim (bm_layout a)) (dim (bm_layout b)) (dim (bm_layout c)) ->
  entries_are h a A -> entries_are h b B -> entries_are h c C ->
  exists h', matmul kern h alpha a b beta c = Ok h' /\
    entries_are h' c (product_entry (snd (dim (bm_layout a))) alpha A B beta C).
Proof.
  intros kern h alpha a b beta c A B C Hk Va Vb Vc Ha Hb Hc Nc Na Nb Hd EA EB EC.
  destruct (c32 kern h alpha a b beta c A B C) as (h' & sh & E & _ & _ & _ & _ & Eh); auto.
  exists h'. split; auto. eapply entries_are_ext; [|exact Eh]. intros i j. now apply computes_entry.
Qed.

(** ** C33 *)

Lemma matmul_incompatible : forall kern h alpha a b beta c,
  ~ compatible (dim (bm_layout a)) (dim (bm_layout b)) (dim (bm_layout c)) ->
  matmul kern h alpha a b beta c = Panic.
Proof.
  intros kern h alpha a b beta c H. unfold matmul.
  destruct (matmul_dims_ok _ _ _) eqn:E; auto. apply matmul_dims in E. contradiction.
Qed.

Lemma c33 : forall kern h alpha a b beta c,
  base_valid h a -> base_valid h b -> base_valid h c ->
  true_strides (bm_layout a) -> true_strides (bm_layout b) -> true_strides (bm_layout c) ->
  (panics (matmul kern h alpha a b beta c) <->
   ~ compatible (dim (bm_layout a)) (dim (bm_layout b)) (dim (bm_layout c))) /\
  (compatible (dim (bm_layout a)) (dim (bm_layout b)) (dim (bm_layout c)) ->
   exists h', matmul kern h alpha a b beta c = Ok h' /\
     changes_only (fun q => exists p, in_range (dim (bm_layout c)) p /\ q = entry_cell c p) h h' /\
     forall b', base_valid h b' ->
       (forall p q, stored (bm_layout b') p -> in_range (dim (bm_layout c)) q ->
          entry_cell b' p <> entry_cell c q) ->
       base_valid h' b' /\ forall p, stored (bm_layout b') p -> base_entry h' b' p = base_entry h b' p).
Proof.
  intros kern h alpha a b beta c Va Vb Vc Ha Hb Hc.
  assert (X : compatible (dim (bm_layout a)) (dim (bm_layout b)) (dim (bm_layout c)) ->
   exists h', matmul kern h alpha a b beta c = Ok h' /\
     changes_only (fun q => exists p, in_range (dim (bm_layout c)) p /\ q = entry_cell c p) h h' /\
     forall b', base_valid h b' ->
       (forall p q, stored (bm_layout b') p -> in_range (dim (bm_layout c)) q ->
          entry_cell b' p <> entry_cell c q) ->
       base_valid h' b' /\ forall p, stored (bm_layout b') p -> base_entry h' b' p = base_entry h b' p).
  { intros Hd.
    destruct (true_told h a Va Ha) as (sa & Sa & Ta & Ca).
    destruct (true_told h b Vb Hb) as (sb & Sb & Tb & Cb).
    destruct (true_told h c Vc Hc) as (sc & Sc & Tc & Cc).
    destruct (matmul_safe kern h alpha a b beta c sa sb sc) as (h' & E & Ch); auto.
    assert (Ch' : changes_only (fun q => exists p, in_range (dim (bm_layout c)) p /\ q = entry_cell c p) h h').
    { eapply changes_only_weaken; [|exact Ch]. intros q (p & Hp & ->). exists p. split; auto. }
    exists h'. splits; auto. intros b' Vb' Hn. split.
    - apply base_valid_extends with h; auto. apply Ch'.
    - intros p Hp. unfold base_entry. apply Ch'. rewrite <- surjective_pairing. intros (q & Hq & Eq).
      now apply (Hn p q). }
  split; auto. split.
  - intros Hp Hd. destruct (X Hd) as (h' & E & _). unfold panics in Hp. congruence.
  - apply matmul_incompatible.
Qed.

(** ** C34 *)

Lemma c34_as_dense : forall kern h alpha a b beta c,
  matmul kern h alpha a b beta c = matmul kern h alpha (as_dense a) (as_dense b) beta (as_dense c).
Proof.
  intros kern h alpha a b beta c. unfold matmul, as_dense, get_pointer. cbn [bm_data bm_layout].
  destruct (bm_layout a), (bm_layout b), (bm_layout c); reflexivity.
Qed.

Lemma dense_true : forall l, dense_matrix l = true -> true_strides l.
Proof. intros l H. apply operand_true. destruct l; cbn in *; try discriminate; reflexivity. Qed.

Lemma unbroken_true : forall b mut tl d, dense_matrix (bm_layout b) = true -> unbroken (bm_layout b) d ->
  nonempty d -> true_strides (bm_layout (block_view mut b tl d)).
Proof.
  intros b mut tl d Hl Hu Hd. unfold true_strides, block_view, view. cbn [bm_layout].
  unfold told_stride, order_of, unbroken in *. destruct (bm_layout b) as [D | D | n | n | D s | D s | n s | n s | n];
    cbn [dense_matrix block_order column_ordered dim] in *; try discriminate; eexists; (split; [reflexivity|]);
    intros [i j] [Hi Hj]; cbn [strided_layout cell true_stride dim fst snd] in *.
  - destruct Hu as [Hu | Hu]; [|now rewrite Hu]. replace i with 0 by lia. lia.
  - destruct Hu as [Hu | Hu]; [|now rewrite Hu]. replace j with 0 by lia. lia.
Qed.

Lemma chain_told_ok : forall h b, base_valid h b -> chain (bm_layout b) ->
  told_ok h b (told_stride (bm_layout b)).
Proof.
  intros h b (Hs & Hsm & Hc) Hch. split; auto. intros [i j] Hp.
  assert (Hst : stored (bm_layout b) (i, j)) by now apply chain_stored. specialize (Hc _ Hst).
  eapply N.le_lt_trans; [|exact Hc]. clear Hc Hst. destruct Hp as [Hi Hj]. unfold told, told_stride.
  destruct (bm_layout b) as [[A B] | [A B] | n | n | [A B] [s0 s1] | [A B] [s0 s1] | n s | n s | n];
    cbn [chain dim fst snd block_order cell true_stride] in *; try contradiction; try lia;
    destruct Hch as [-> Hch]; nia.
Qed.

Lemma unbroken_block_ok : forall h x, unbroken_block h x ->
  base_valid h x /\ true_strides (bm_layout x) /\ no_aliasing (bm_layout x).
Proof.
  intros h x (m & mut & p & tl & d & Vp & Hp & Hd & Hi & Hu & E).
  destruct (block_ok m h mut p tl d) as (E' & Vx & _); auto using dense_chain.
  rewrite E in E'. injection E' as ->. splits; auto.
  - now apply unbroken_true.
  - intros _. destruct Hd as [Hd0 Hd1], Hi as [Hi0 Hi1]. unfold block_view, view. cbn [bm_layout].
    unfold told_stride, order_of, separated.
    destruct (bm_layout p) as [D | D | n | n | D s | D s | n s | n s | n];
      cbn [dense_matrix] in *; try discriminate;
      cbn [block_order strided_layout true_stride dim fst snd] in *; lia.
Qed.

Lemma c34 : forall kern h alpha a b beta c A B C, computes kern ->
  (product_operand (bm_layout a) = true /\ base_valid h a \/ unbroken_block h a) ->
  (product_operand (bm_layout b) = true /\ base_valid h b \/ unbroken_block h b) ->
  unbroken_block h c \/ (product_operand (bm_layout c) = true /\ no_aliasing (bm_layout c) /\ base_valid h c) ->
  no_overlap a c -> no_overlap b c ->
  compatible (dim (bm_layout a)) (dim (bm_layout b)) (dim (bm_layout c)) ->
  entries_are h a A -> entries_are h b B -> entries_are h c C ->
  exists h', matmul kern h alpha a b beta c = Ok h' /\
    entries_are h' c (product_entry (snd (dim (bm_layout a))) alpha A B beta C) /\
    changes_only (fun q => exists p, in_range (dim (bm_layout c)) p /\ q = entry_cell c p) h h'.
Proof.
  intros kern h alpha a b beta c A B C Hk Ha Hb Hc Na Nb Hd EA EB EC.
  assert (G : forall x, product_operand (bm_layout x) = true /\ base_valid h x \/ unbroken_block h x ->
    base_valid h x /\ true_strides (bm_layout x)).
  { intros x [[H1 H2] | H]; [split; auto using operand_true|]. apply unbroken_block_ok in H. tauto. }
  destruct (G a Ha) as [Va Sa]. destruct (G b Hb) as [Vb Sb].
  assert (X : base_valid h c /\ true_strides (bm_layout c) /\ no_aliasing (bm_layout c)).
  { destruct Hc as [Hc | (H1 & H2 & H3)]; [now apply unbroken_block_ok|]. splits; auto using operand_true. }
  destruct X as (Vc & Sc & Nc).
  destruct (c32 kern h alpha a b beta c A B C) as (h' & sh & E & Ch & _ & _ & _ & Eh); auto.
  exists h'. splits; auto. eapply entries_are_ext; [|exact Eh]. intros i j. now apply computes_entry.
Qed.

(** ** C35 *)

(** The product into a new matrix of zeros. *)
Lemma dot_fresh : forall kern h h1 a b r,
  base_valid h a -> base_valid h b -> true_strides (bm_layout a) -> true_strides (bm_layout b) ->
  fresh_zeros h h1 r -> product_operand (bm_layout r) = true -> has_strides (bm_layout r) = false ->
  compatible (dim (bm_layout a)) (dim (bm_layout b)) (dim (bm_layout r)) ->
  forall A B, entries_are h a A -> entries_are h b B ->
  exists h' sh, matmul kern h1 sone a b szero r = Ok h' /\
    g_m sh = fst (dim (bm_layout a)) /\ g_k sh = snd (dim (bm_layout a)) /\ g_n sh = snd (dim (bm_layout b)) /\
    fresh_matrix h h' r (fst (dim (bm_layout a)), snd (dim (bm_layout b))) (fun i j =>
      kern sh i j sone (row_and_column (snd (dim (bm_layout a))) A B i j) szero szero).
Proof.
  intros kern h h1 a b r Va Vb Sa Sb (Oa & Vr & Lr & Mr & Zr) Pr Hs Hd A B EA EB.
  pose proof (only_allocates_extends _ _ Oa) as He.
  assert (Old : forall x, base_valid h x -> (r_alloc (c_region (bm_data x)) < length h)%nat).
  { intros x ((Hr & _) & _). now apply region_ok_alloc. }
  assert (Keep : forall x F, base_valid h x -> entries_are h x F -> entries_are h1 x F).
  { intros x F Vx E i j Hp. rewrite <- (E i j Hp). unfold base_entry. apply (only_allocates_hget h h1 Oa).
    now apply Old. }
  assert (No : forall x, base_valid h x -> no_overlap x r).
  { intros x Vx p q _ _ E. unfold entry_cell, cell_of_region in E. injection E as E _.
    pose proof (Old x Vx). lia. }
  destruct (c32 kern h1 sone a b szero r A B (fun _ _ => szero)) as (h' & sh & E & Ch & G1 & G2 & G3 & Eh);
    auto using operand_true; try (now apply base_valid_extends with h).
  - intros X. congruence.
  - intros i j Hp. apply Zr. apply strided_stored; auto. apply true_strided_type. now apply operand_true.
  - exists h', sh. splits; auto. split; [|split; [|split; [|split; [|split]]]]; auto.
    + apply same_hget_only_allocates.
      * apply extends_trans with h1; auto. apply Ch.
      * intros x i Hx. destruct Ch as (_ & _ & Ch). rewrite Ch; [now apply only_allocates_hget|].
        intros (p & _ & Ep). injection Ep as Ex _. lia.
    + apply base_valid_extends with h1; auto. apply Ch.
    + destruct Hd as (D1 & D2 & D3). rewrite <- D2, <- D3. apply surjective_pairing.
Qed.

Lemma dot_panics_ : forall shape kern m h a b,
  snd (dim (bm_layout a)) <> fst (dim (bm_layout b)) -> dot shape kern m h a b = Panic.
Proof.
  intros shape kern m h a b Hne.
  assert (X : forall o : outcome (heap * base_matrix), o <> UB ->
    ('(h1, res) <- o;; h2 <- matmul kern h1 sone a b szero res;; Ok (h2, res)) = Panic).
  { intros [[h1 r] | |] Ho; cbn [bind]; auto; [|congruence].
    rewrite matmul_incompatible; auto. intros (D1 & _). congruence. }
  destruct shape; cbn [dot]; unfold dot_mat_mat, dot_row_mat, dot_mat_col; apply X.
  - apply zeros_not_ub.
  - apply row_zeros_not_ub.
  - apply column_zeros_not_ub.
Qed.

Lemma c35 : forall shape kern m h a b A B,
  base_valid h a -> base_valid h b -> true_strides (bm_layout a) -> true_strides (bm_layout b) ->
  shape_fits shape (dim (bm_layout a)) (dim (bm_layout b)) ->
  entries_are h a A -> entries_are h b B ->
  (snd (dim (bm_layout a)) = fst (dim (bm_layout b)) ->
   fst (dim (bm_layout a)) * snd (dim (bm_layout b)) * Npos ssize <= isize_max ->
   exists h' r sh, dot shape kern m h a b = Ok (h', r) /\
     g_m sh = fst (dim (bm_layout a)) /\ g_k sh = snd (dim (bm_layout a)) /\ g_n sh = snd (dim (bm_layout b)) /\
     fresh_matrix h h' r (fst (dim (bm_layout a)), snd (dim (bm_layout b))) (fun i j =>
       kern sh i j sone (row_and_column (snd (dim (bm_layout a))) A B i j) szero szero)) /\
  (snd (dim (bm_layout a)) <> fst (dim (bm_layout b)) -> panics (dot shape kern m h a b)) /\
  (isize_max < fst (dim (bm_layout a)) * snd (dim (bm_layout b)) * Npos ssize ->
   panics (dot shape kern Checked h a b)).
Proof.
  intros shape kern m h a b A B Va Vb Sa Sb Hsh EA EB. splits.
  - intros Hd Hn.
    assert (X : exists h1 r,
      (match shape with
       | MatrixMatrix => zeros_from_dim m h KRowMajor (fst (dim (bm_layout a))) (snd (dim (bm_layout b)))
       | RowMatrix => row_vector_zeros_from_dim m h (fst (dim (bm_layout a))) (snd (dim (bm_layout b)))
       | MatrixColumn => column_vector_zeros_from_dim m h (fst (dim (bm_layout a))) (snd (dim (bm_layout b)))
       end) = Ok (h1, r) /\
      fresh_zeros h h1 r /\ product_operand (bm_layout r) = true /\ has_strides (bm_layout r) = false /\
      compatible (dim (bm_layout a)) (dim (bm_layout b)) (dim (bm_layout r))).
    { destruct shape; cbn [shape_fits] in Hsh.
      - destruct (zeros_ok m h KRowMajor _ _ _ eq_refl Hn) as (h1 & r & E & L & _ & _ & _ & Z & _).
        exists h1, r. rewrite L. splits; auto. split; [|split]; auto.
      - assert (Hc : snd (dim (bm_layout b)) * N.pos ssize <= isize_max) by (rewrite Hsh in Hn; lia).
        destruct (row_vector_ok m h _ Hc) as (h1 & r & E & L & _ & Z & _).
        exists h1, r. rewrite L. splits; auto; [|split; [|split]; auto].
        unfold row_vector_zeros_from_dim. rewrite Hsh. exact E.
      - assert (Hc : fst (dim (bm_layout a)) * N.pos ssize <= isize_max) by (rewrite Hsh in Hn; lia).
        destruct (column_vector_ok m h _ Hc) as (h1 & r & E & L & _ & Z & _).
        exists h1, r. rewrite L. splits; auto; [|split; [|split]; auto].
        unfold column_vector_zeros_from_dim. rewrite Hsh. exact E. }
    destruct X as (h1 & r & E & Z & Pr & Hs & Hc).
    destruct (dot_fresh kern h h1 a b r Va Vb Sa Sb Z Pr Hs Hc A B EA EB) as (h' & sh & E' & G1 & G2 & G3 & Fr).
    exists h', r, sh. splits; auto.
    destruct shape; cbn [dot]; unfold dot_mat_mat, dot_row_mat, dot_mat_col; rewrite E; cbn [bind];
      rewrite E'; reflexivity.
  - apply dot_panics_.
  - intros Hn. unfold panics. destruct shape; cbn [dot shape_fits] in *;
      unfold dot_mat_mat, dot_row_mat, dot_mat_col.
    + now rewrite (zeros_panic h KRowMajor _ _ _ eq_refl).
    + unfold row_vector_zeros_from_dim. rewrite Hsh in *. cbn [N.eqb Pos.eqb assert_ bind].
      rewrite vector_container_new_panic by lia. reflexivity.
    + unfold column_vector_zeros_from_dim. rewrite Hsh in *. cbn [N.eqb Pos.eqb assert_ bind].
      rewrite vector_container_new_panic by lia. reflexivity.
Qed.

Lemma c35_exact : forall shape kern m h a b A B, computes kern ->
  exact_sums (T := T) ->
  base_valid h a -> base_valid h b -> true_strides (bm_layout a) -> true_strides (bm_layout b) ->
  shape_fits shape (dim (bm_layout a)) (dim (bm_layout b)) ->
  entries_are h a A -> entries_are h b B ->
  snd (dim (bm_layout a)) = fst (dim (bm_layout b)) ->
  fst (dim (bm_layout a)) * snd (dim (bm_layout b)) * Npos ssize <= isize_max ->
  exists h' r, dot shape kern m h a b = Ok (h', r) /\
    fresh_matrix h h' r (fst (dim (bm_layout a)), snd (dim (bm_layout b)))
      (fun i j => sum_below (N.to_nat (snd (dim (bm_layout a)))) (fun l => smul (A i l) (B l j))).
Proof.
  intros shape kern m h a b A B Hk Hu Va Vb Sa Sb Hsh EA EB Hd Hn.
  destruct (c35 shape kern m h a b A B Va Vb Sa Sb Hsh EA EB) as [X _].
  destruct (X Hd Hn) as (h' & r & sh & E & _ & _ & _ & (F1 & F2 & F3 & F4 & F5 & F6)).
  exists h', r. split; auto. unfold fresh_matrix. splits; auto.
  eapply entries_are_ext; [|exact F6]. intros i j. cbn beta.
  rewrite (computes_entry kern Hk sh _ sone A B szero (fun _ _ => szero)). unfold product_entry. apply Hu.
Qed.

(** ** C36 *)

Lemma same_entries_are : forall h b h' b' F, same_entries h b h' b' -> entries_are h b F -> entries_are h' b' F.
Proof. intros h b h' b' F [Hd He] E i j Hp. rewrite <- Hd in Hp. rewrite <- He by auto. now apply E. Qed.

Lemma entries_exist : forall h b, base_valid h b -> strided_type (bm_layout b) = true ->
  exists F, entries_are h b F.
Proof.
  intros h b Vb Ht. exists (fun i j => match base_entry h b (i, j) with Some v => v | None => szero end).
  intros i j Hp. destruct (base_entry_some h b (i, j) Vb) as (v & E & _); [now apply strided_stored|].
  now rewrite E.
Qed.

Lemma c36_products : forall kern h h' alpha a b beta c a' b' c', ignores_strides kern ->
  base_valid h a -> base_valid h b -> base_valid h c ->
  true_strides (bm_layout a) -> true_strides (bm_layout b) -> true_strides (bm_layout c) ->
  no_aliasing (bm_layout c) -> no_overlap a c -> no_overlap b c ->
  base_valid h' a' -> base_valid h' b' -> base_valid h' c' ->
  true_strides (bm_layout a') -> true_strides (bm_layout b') -> true_strides (bm_layout c') ->
  no_aliasing (bm_layout c') -> no_overlap a' c' -> no_overlap b' c' ->
  same_entries h a h' a' -> same_entries h b h' b' -> same_entries h c h' c' ->
  compatible (dim (bm_layout a)) (dim (bm_layout b)) (dim (bm_layout c)) ->
  exists k k', matmul kern h alpha a b beta c = Ok k /\ matmul kern h' alpha a' b' beta c' = Ok k' /\
    same_entries k c k' c'.
Proof.
  intros kern h h' alpha a b beta c a' b' c' Hk Va Vb Vc Sa Sb Sc Nc Oa Ob
    Va' Vb' Vc' Sa' Sb' Sc' Nc' Oa' Ob' Ea Eb Ec Hd.
  destruct (entries_exist h a Va (true_strided_type _ Sa)) as (A & EA).
  destruct (entries_exist h b Vb (true_strided_type _ Sb)) as (B & EB).
  destruct (entries_exist h c Vc (true_strided_type _ Sc)) as (C & EC).
  pose proof (same_entries_are _ _ _ _ _ Ea EA) as EA'. pose proof (same_entries_are _ _ _ _ _ Eb EB) as EB'.
  pose proof (same_entries_are _ _ _ _ _ Ec EC) as EC'.
  destruct (c32 kern h alpha a b beta c A B C) as (k & sh & E & _ & G1 & G2 & G3 & F); auto.
  destruct Ea as [Da Ea], Eb as [Db Eb], Ec as [Dc Ec].
  destruct (c32 kern h' alpha a' b' beta c' A B C) as (k' & sh' & E' & _ & G1' & G2' & G3' & F'); auto.
  { now rewrite <- Da, <- Db, <- Dc. }
  exists k, k'. splits; auto. split; auto. intros [i j] Hp. rewrite F by auto. rewrite F' by now rewrite <- Dc.
  now rewrite (Hk sh sh'), Da by congruence.
Qed.

Lemma computes_ignores : forall kern : kernel T, computes kern ->
  forall sh sh' i j alpha pairs beta old, kern sh i j alpha pairs beta old = kern sh' i j alpha pairs beta old.
Proof. intros kern H sh sh' i j alpha pairs beta old. now rewrite !H. Qed.

End Products.

(** ** C42 *)

Section Complex.
Context {R : Type} (o : real_ops R) (size : positive).

Lemma of_array_add : forall x y : R * R,
  of_array (@sadd _ (array_scalar o size) x y) = @sadd _ (complex_scalar o size) (of_array x) (of_array y).
Proof. intros x y. reflexivity. Qed.

Lemma of_array_mul : forall x y : R * R,
  of_array (@smul _ (array_scalar o size) x y) = @smul _ (complex_scalar o size) (of_array x) (of_array y).
Proof. intros x y. reflexivity. Qed.

Lemma of_to_array : forall z : complex R, of_array (to_array z) = z.
Proof. intros []. reflexivity. Qed.

Lemma complex_computes : forall kern, @computes _ (array_scalar o size) kern ->
  @computes _ (complex_scalar o size) (complex_kernel kern).
Proof.
  intros kern Hk sh i j alpha pairs beta old. unfold complex_kernel. rewrite Hk.
  rewrite of_array_add, !of_array_mul, !of_to_array. do 2 f_equal.
  set (z0 := @szero _ (array_scalar o size)).
  replace (@szero _ (complex_scalar o size)) with (of_array z0) by reflexivity.
  generalize z0. induction pairs as [|[x y] pairs IH]; intros z; auto.
  cbn [map fold_left fst snd]. rewrite IH. f_equal.
Qed.

Lemma c42 : forall kern h alpha a b beta c A B C, @computes _ (array_scalar o size) kern ->
  base_valid h a -> base_valid h b -> base_valid h c ->
  true_strides (bm_layout a) -> true_strides (bm_layout b) -> true_strides (bm_layout c) ->
  no_aliasing (bm_layout c) -> no_overlap a c -> no_overlap b c ->
  compatible (dim (bm_layout a)) (dim (bm_layout b)) (dim (bm_layout c)) ->
  entries_are h a A -> entries_are h b B -> entries_are h c C ->
  exists h', matmul_complex kern h alpha a b beta c = Ok h' /\
    entries_are h' c (@product_entry _ (complex_scalar o size) (snd (dim (bm_layout a))) alpha A B beta C).
Proof.
  intros kern h alpha a b beta c A B C Hk. unfold matmul_complex.
  apply (@c32_exact _ (complex_scalar o size)). now apply complex_computes.
Qed.

End Complex.

(** ** C35 without overflow checks *)

Lemma c35_release : exists (h : @heap Z) a b,
  base_valid h a /\ base_valid h b /\ product_operand (bm_layout a) = true /\
  product_operand (bm_layout b) = true /\ snd (dim (bm_layout a)) = fst (dim (bm_layout b)) /\
  forall kern, dot MatrixMatrix kern Wrapping h a b = UB.
Proof.
  exists [[]; []],
    (mkBase (mkContainer VectorContainer (mkRegion 0 0 0)) (RowMajor (2 ^ 32, 0)) Dynamic Dynamic),
    (mkBase (mkContainer VectorContainer (mkRegion 1 0 0)) (RowMajor (0, 2 ^ 32)) Dynamic Dynamic).
  splits; try reflexivity.
  - apply dense_base_valid with (l := RowMajor (2 ^ 32, 0)); try reflexivity.
    split; [|discriminate]. eexists. split; [reflexivity|discriminate].
  - apply dense_base_valid with (l := RowMajor (0, 2 ^ 32)); try reflexivity.
    split; [|discriminate]. eexists. split; [reflexivity|discriminate].
Qed.
