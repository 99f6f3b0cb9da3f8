(** * Proofs about who owns the memory. *)

From Coq Require Import ZifyBool ZifyNat ZifyN.
From Verif Require Import Machine MachineFacts Layouts Memory Matrix MatMul Spec MatrixSpec ExprSpec ProductSpec.
From Verif Require Import LayoutFacts MemoryFacts AccessFacts AccessProofs ConstructorProofs BlockProofs.
From Verif Require Import ExprProofs ProductProofs Program HistorySpec HistoryProofs HistorySafety Borrow BorrowFacts BorrowProofs.
Local Open Scope N_scope.

Section Owners.
Context {T : Type} {SC : HScalar T} {St : Type}.
Variable kern : kernel T.
Notation heap := (@heap T).
Notation bstate := (bstate T).
Notation action := (action T St).

Definition no_foot (_ : bool) (_ : matrix T) (_ : nat * N) : Prop := False.

Record oinv (bs : bstate) : Prop := {
  o_inv : inv no_foot (st_mats (b_state bs)) (b_slots bs);
  o_placed : all_placed (b_state bs);
  o_lives : forall y w a, usable bs y w -> lives_in a w ->
    owns a w \/ exists p e v, In (p, e) (loans_of (b_slots bs) y) /\ nth_error (st_mats (b_state bs)) p = Some v /\ lives_in a v;
  o_unique : forall x y v w a, usable bs x v -> usable bs y w -> owns a v -> owns a w -> x = y;
  o_once : forall x v a, usable bs x v -> (owners a v <= 1)%nat
}.

Lemma owns_lives : forall a (w : matrix T), owns a w -> lives_in a w.
Proof. intros a w. induction w; cbn [owns lives_in]; tauto. Qed.

Lemma usable_later : forall (bs : bstate) st bt x w, later (b_slots bs) bt -> st_mats st = st_mats (b_state bs) ->
  usable (mkBState st bt) x w -> usable bs x w.
Proof. intros bs st bt x w (_ & _ & _ & L) E [H1 H2]. cbn in *. rewrite E in H2. split; auto. Qed.

(** Fewer live matrices, the same table. *)
Lemma oinv_later : forall bs st bt, oinv bs -> later (b_slots bs) bt -> closed bt ->
  st_mats st = st_mats (b_state bs) -> all_placed st -> oinv (mkBState st bt).
Proof.
  intros bs st bt [I P OL OU OO] L C E P'. constructor; cbn [b_state b_slots]; auto.
  - rewrite E. eapply inv_later; eauto.
  - intros y w a Hy Hl. destruct (OL y w a) as [H|(p & e & v & H1 & H2 & H3)]; auto.
    + eapply usable_later; eauto.
    + right. exists p, e, v. destruct L as (_ & Ln & _). rewrite Ln, E. auto.
  - intros x y v w a Hx Hy. eapply OU; eapply usable_later; eauto.
  - intros x v a Hx. eapply OO; eapply usable_later; eauto.
Qed.

(** New matrices. *)
Lemma oinv_append : forall bs st' news nslots, oinv bs ->
  inv no_foot (st_mats (b_state bs) ++ news) (b_slots bs ++ nslots) ->
  st_mats st' = st_mats (b_state bs) ++ news -> all_placed st' ->
  (forall k w a, nth_error news k = Some w -> lives_in a w -> owns a w \/
     exists p e v, In (p, e) (loans_of nslots k) /\ nth_error (st_mats (b_state bs)) p = Some v /\ lives_in a v) ->
  (forall k w y v a, nth_error news k = Some w -> owns a w -> usable bs y v -> owns a v -> False) ->
  (forall j k v w a, nth_error news j = Some v -> nth_error news k = Some w -> owns a v -> owns a w -> j = k) ->
  (forall k w a, nth_error news k = Some w -> (owners a w <= 1)%nat) ->
  oinv (mkBState st' (b_slots bs ++ nslots)).
Proof.
  intros bs st' news nslots O I E P HL HU HN HO. pose proof (inv_length _ _ _ (o_inv _ O)) as Il.
  assert (CASE : forall x w, usable (mkBState st' (b_slots bs ++ nslots)) x w -> usable bs x w \/
     exists k, x = (length (b_slots bs) + k)%nat /\ nth_error news k = Some w).
  { intros x w [Hx Hw]. cbn in *. rewrite E in Hw. apply nth_new in Hw. destruct Hw as [Hw|(k & -> & Hw)].
    - left. split; auto. rewrite live_app_old in Hx; auto. rewrite Il. apply nth_error_Some. congruence.
    - right. exists k. split; auto. }
  constructor; cbn [b_state b_slots]; auto.
  - now rewrite E.
  - intros y w a Hy Hl. destruct (CASE y w Hy) as [Hy'|(k & -> & Hk)].
    + destruct (o_lives _ O y w a Hy' Hl) as [H|(p & e & v & H1 & H2 & H3)]; auto. right. exists p, e, v.
      rewrite loans_app_old, E, nth_error_app1; auto; [apply nth_error_Some; congruence|]. now apply loans_bound in H1.
    + destruct (HL k w a Hk Hl) as [H|(p & e & v & H1 & H2 & H3)]; auto. right. exists p, e, v.
      rewrite loans_app_new, E, nth_error_app1; auto. apply nth_error_Some. congruence.
  - intros x y v w a Hx Hy Ov Ow. destruct (CASE x v Hx) as [Hx'|(j & -> & Hj)], (CASE y w Hy) as [Hy'|(k & -> & Hk)].
    + eapply (o_unique _ O); eauto.
    + destruct (HU k w x v a); auto.
    + destruct (HU j v y w a); auto.
    + f_equal. eapply HN; eauto.
  - intros x v a Hx. destruct (CASE x v Hx) as [Hx'|(k & -> & Hk)]; eauto. eapply (o_once _ O); eauto.
Qed.

Lemma slice_owns_nothing : forall a b, c_kind (bm_data b) = SliceContainer \/ c_kind (bm_data b) = SliceContainerMut ->
  ~ owns a (@MBase T b).
Proof. intros a b H [_ K]. destruct H as [H|H]; now rewrite H in K. Qed.

Lemma no_conflict_twice : forall x y a b, no_conflict [(x, a); (y, b)] = true -> x = y -> a = Shared /\ b = Shared.
Proof.
  intros x y a b H ->. cbn in H. rewrite Nat.eqb_refl in H. destruct a, b; cbn in H; try discriminate. auto.
Qed.

(** A new expression frees no allocation twice. *)
Lemma derives_once : forall m bs (o : call T St) v bt a, oinv bs -> derives m (b_state bs) o v ->
  admit_uses (b_slots bs) (uses o) = Some bt -> (owners a v <= 1)%nat.
Proof.
  intros m bs o v bt a O Hd Ha.
  destruct (admit_spec _ _ _ (inv_closed _ _ _ (o_inv _ O)) Ha) as (_ & _ & Hu & _).
  assert (B : forall b, (owners a (@MBase T b) <= 1)%nat).
  { intros b. cbn. destruct (c_kind (bm_data b)); try lia; destruct (Nat.eqb _ _); lia. }
  assert (W : forall p x w, In (x, passed_access p) (uses o) -> lookup (b_state bs) x = Some w -> (owners a (wrap p w) <= 1)%nat).
  { intros [] x w Hx Hw; cbn [wrap owners]; [|lia]. apply (o_once _ O x). split; auto. now apply Hu in Hx. }
  destruct Hd; cbn [owners]; try (exact (B _)); try lia; try (eapply W; eauto; now left).
  destruct p; cbn [wrap owners].
  2:{ cbn [plus]. apply (W q y); auto. right. now left. }
  destruct q; cbn [wrap owners].
  2:{ rewrite Nat.add_0_r. apply (W ByValue x); auto. now left. }
  assert (Ux : usable bs x u) by (split; auto; apply (Hu x Moved); now left).
  assert (Uy : usable bs y v) by (split; auto; apply (Hu y Moved); right; now left).
  pose proof (o_once _ O x u a Ux) as H1. pose proof (o_once _ O y v a Uy) as H2.
  destruct (owners a u) eqn:E1; [lia|]. destruct (owners a v) eqn:E2; [lia|]. exfalso.
  assert (Hxy : x = y).
  { apply (o_unique _ O x y u v a); auto; apply owns_owners; lia. }
  unfold admit_uses in Ha. cbv zeta in Ha. cbn [uses passed_access] in Ha.
  destruct (no_conflict _) eqn:Hc; [|discriminate]. apply no_conflict_twice in Hc; auto. destruct Hc; discriminate.
Qed.

Lemma step_oinv : forall m bs (a : action) bs' r, oinv bs -> no_pointers a -> bstep kern m bs a = Some (Ok (bs', r)) -> oinv bs'.
Proof.
  intros m bs a bs' r O Hn H. pose proof O as [I P OL OU OO]. apply bstep_inv in H.
  destruct H as [(o & bt & st' & -> & Ha & Hs & ->)|(x & bt & -> & Ha & -> & _)].
  2:{ destruct (admit_spec _ _ _ (inv_closed _ _ _ I) Ha) as (L & C & _). apply (oinv_later bs); auto. }
  pose proof (step_effect _ _ _ _ _ _ P Hs) as (_ & _ & P').
  pose proof (step_kinds _ _ _ _ _ _ Hn Hs) as K.
  destruct (admit_spec _ _ _ (inv_closed _ _ _ I) Ha) as (L & C & Hu & Hl & Hm).
  pose proof (inv_later _ _ _ _ L C I) as I'. pose proof L as (Ll & Ln & Lp & Lv).
  assert (O' : oinv (mkBState (b_state bs) bt)) by (apply (oinv_later bs); auto).
  assert (N1 : forall (v w : matrix T) k, nth_error [v] k = Some w -> k = 0%nat /\ w = v).
  { intros v w [|[|k]] E; cbn in E; try discriminate. injection E as <-. auto. }
  destruct K as [r Hr E | b E Eb Hlen Ho Hr | v E Eh Hr Hd | x at_ b b0 b1 b2 b3 -> Hb _ Hsp Hh E].
  - rewrite unborrowed_kind by auto. apply (oinv_later bs); auto.
  - rewrite Hr. apply (oinv_append (mkBState (b_state bs) bt) st' [MBase b] _ O'); cbn [b_state b_slots]; auto.
    + apply inv_fresh; auto.
    + intros k w a Hk Hlv. apply N1 in Hk. destruct Hk as [-> ->]. left. cbn in *. split; auto.
    + intros k w y v a Hk Hw [Hy Hv] Hov. apply N1 in Hk. destruct Hk as [-> ->]. cbn [b_state] in Hv.
      apply owns_lives in Hw, Hov. pose proof (lookup_placed _ _ _ P Hv _ Hov). cbn in Hw. lia.
    + intros j k v w a Hj Hk _ _. apply N1 in Hj, Hk. lia.
    + intros k w a Hk. apply N1 in Hk. destruct Hk as [-> ->]. cbn. destruct (c_kind (bm_data b)); try lia; destruct (Nat.eqb _ _); lia.
  - rewrite Hr. pose proof (derives_borrows _ _ _ _ Hd) as BF. pose proof BF as (_ & _ & HL & HO).
    apply (oinv_append (mkBState (b_state bs) bt) st' [v] _ O'); cbn [b_state b_slots]; auto.
    + apply inv_borrow; auto. intros q [].
    + intros k w a Hk Hlv. apply N1 in Hk. destruct Hk as [-> ->].
      destruct (HL a Hlv) as (x & c & u & Hx & Eu & Hlu & Hmv).
      assert (LENT : forall p e, In (p, e) (lent (b_slots bs) (x, c)) -> In (p, e) (flat_map (lent (b_slots bs)) (uses o))).
      { intros p e H. apply in_flat_map. eauto. }
      destruct (Hu x c Hx) as [Lx _].
      destruct c.
      * right. exists x, false, u. splits; auto. apply LENT. now left.
      * right. exists x, true, u. splits; auto. apply LENT. now left.
      * destruct (OL x u a) as [Hown|(p & e & w & Hp & Ew & Hlw)]; auto; [split; auto|].
        right. exists p, e, w. splits; auto.
    + intros k w y u a Hk Hw Hy Hou. apply N1 in Hk. destruct Hk as [-> ->].
      destruct (HO a Hw) as (x & w & Hx & Ew & Hox). destruct (Hu x Moved Hx) as [Lx _].
      destruct Hy as [Hy Hu2]. cbn [b_state b_slots] in *.
      assert (x = y).
      { apply (OU x y w u a); auto; split; auto. }
      subst y. rewrite (Hm x Hx) in Hy. discriminate.
    + intros j k u w a Hj Hk _ _. apply N1 in Hj, Hk. lia.
    + intros k w a Hk. apply N1 in Hk. destruct Hk as [-> ->]. apply (derives_once m bs o v bt a O Hd Ha).
  - pose proof (split_kind _ _ _ _ _ _ _ Hsp) as SK. pose proof (split_alloc _ _ _ _ _ _ _ Hsp) as SA.
    apply lookup_mut_writable in Hb. destruct Hb as [Hb Hbm].
    assert (Q : forall k w, nth_error [MBase (T := T) b0; MBase b1; MBase b2; MBase b3] k = Some w ->
       exists v, w = MBase v /\ allocation v = allocation b /\ forall a, ~ owns a w).
    { intros k w Hk. apply nth_error_In in Hk. rewrite Forall_forall in SK, SA.
      assert (HI : exists v, w = MBase v /\ In v [b0; b1; b2; b3]).
      { cbn in Hk. destruct Hk as [<-|[<-|[<-|[<-|[]]]]]; eexists; split; cbn; eauto 6. }
      destruct HI as (v & -> & Hv). exists v. splits; auto. intros a. apply slice_owns_nothing. auto. }
    cbn [returned].
    apply (oinv_append (mkBState (b_state bs) bt) st' [MBase b0; MBase b1; MBase b2; MBase b3] _ O'); cbn [b_state b_slots]; auto.
    + apply (inv_parts no_foot (st_mats (b_state bs)) (b_slots bs) bt x [MBase b0; MBase b1; MBase b2; MBase b3]); auto.
      * exists (MBase b). auto.
      * intros v q _ [].
    + intros k w a Hk Hlv. right. exists x, true, (MBase b). splits; auto.
      * destruct k as [|[|[|[|k]]]]; cbn; auto. destruct k; discriminate Hk.
      * apply Q in Hk. destruct Hk as (v & -> & Ev & _). cbn in *. congruence.
    + intros k w y v a Hk Hw _ _. apply Q in Hk. destruct Hk as (u & _ & _ & Hno). now apply (Hno a).
    + intros j k v w a Hj _ Hv _. apply Q in Hj. destruct Hj as (u & _ & _ & Hno). now elim (Hno a).
    + intros k w a Hk. apply Q in Hk. destruct Hk as (u & _ & _ & Hno). specialize (Hno a). rewrite owns_owners in Hno. lia.
Qed.

Lemma binitial_oinv : oinv (@binitial T).
Proof.
  constructor; [apply binitial_inv | constructor | | |]; intros x; intros; exfalso;
    repeat match goal with H : usable _ _ _ |- _ => destruct H as [H _]; cbn in H; unfold is_live in H; destruct (nth_error [] _) eqn:?; [destruct x; discriminate | discriminate] end.
Qed.

Lemma run_oinv : forall m (acts : list action) bs bs' rs, oinv bs -> Forall no_pointers acts ->
  brun kern m bs acts = Some (Ok (bs', rs)) -> oinv bs'.
Proof.
  intros m acts. induction acts as [|a acts IH]; intros bs bs' rs O Hn H.
  - cbn in H. injection H as <- <-. exact O.
  - apply brun_cons in H. destruct H as (bs1 & r & rs1 & E & H & ->). inversion Hn; subst.
    apply (IH bs1 bs' rs1); auto. eapply step_oinv; eauto.
Qed.

(** Memory has exactly one owner as long as someone can read it. *)
Lemma owner_exists : forall bs, oinv bs -> forall y w a, usable bs y w -> lives_in a w ->
  exists x v, usable bs x v /\ below (b_slots bs) y x /\ owners a v = 1%nat.
Proof.
  intros bs O y. induction y as [y IH] using (well_founded_induction lt_wf). intros w a Hy Hl.
  destruct (o_lives _ O y w a Hy Hl) as [H|(p & e & v & Hp & Ev & Hlv)].
  - exists y, w. splits; auto; [constructor|]. apply owns_owners in H. pose proof (o_once _ O y w a Hy). lia.
  - pose proof (inv_order _ _ _ (o_inv _ O) _ _ _ Hp) as Hlt.
    assert (Up : usable bs p v).
    { split; auto. eapply (inv_closed _ _ _ (o_inv _ O)); eauto. apply Hy. }
    destruct (IH p Hlt v a Up Hlv) as (x & u & Hx & B & Hone). exists x, u. splits; auto.
    eapply below_step; eauto.
Qed.

Lemma c50 : forall m (acts : list action) bs rs, Forall no_pointers acts ->
  brun kern m (@binitial T) acts = Some (Ok (bs, rs)) ->
  (forall y w a, usable bs y w -> lives_in a w ->
     exists x v, usable bs x v /\ below (b_slots bs) y x /\ owners a v = 1%nat) /\
  (forall x y v w a, usable bs x v -> usable bs y w -> x <> y -> owners a v = 0%nat \/ owners a w = 0%nat) /\
  (forall x v a, usable bs x v -> (owners a v <= 1)%nat).
Proof.
  intros m acts bs rs Hn H. pose proof (run_oinv m acts _ _ _ binitial_oinv Hn H) as O. splits.
  - now apply owner_exists.
  - intros x y v w a Hx Hy Hd. destruct (owners a v) eqn:E1; auto. destruct (owners a w) eqn:E2; auto.
    elim Hd. apply (o_unique _ O x y v w a); auto; apply owns_owners; lia.
  - apply O.
Qed.
End Owners.
