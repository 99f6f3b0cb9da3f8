(** * AdmitProofs: proofs of C59. *)

From Coq Require Import Lia Wf_nat ZifyBool ZifyNat ZifyN.
From Verif Require Import Machine Layouts Memory Matrix MatMul Spec MatrixSpec ExprSpec ProductSpec.
From Verif Require Import MachineFacts Program HistorySpec Borrow BorrowFacts AdmitSpec.

Definition ordered (bt : list slot) : Prop := forall y p e, In (p, e) (loans_of bt y) -> (p < y)%nat.

Lemma conflict_iff : forall a e, conflict a e = true <-> e = true \/ a <> Shared.
Proof. intros [] []; cbn; intuition congruence. Qed.

Lemma below_le : forall bt y x, ordered bt -> below bt y x -> (x <= y)%nat.
Proof. intros bt y x O B. induction B; auto. apply O in H. lia. Qed.

Lemma ended_later : forall bt bt' u y, later bt bt' -> (ended_by bt' u y <-> ended_by bt u y).
Proof.
  intros bt bt' u y L. unfold ended_by. split; intros (z & e & B & H & C); exists z, e; splits; auto;
    try (now apply (later_below _ _ _ _ L)); destruct L as (_ & N & _); congruence.
Qed.

Lemma use_exact : forall bt x a y, closed bt -> ordered bt ->
  (is_live (use bt (x, a)) y = true <-> is_live bt y = true /\ ~ ended_by bt (x, a) y).
Proof.
  intros bt x a y C O. split.
  - intros H. destruct (use_spec bt x a) as (L & C' & K). pose proof L as (_ & N & _ & V). split; auto.
    intros (z & e & B & Hz & Hc). apply (later_below _ _ _ _ L) in B.
    pose proof (below_live _ _ _ C' H B) as Hl. rewrite <- N in Hz. specialize (K _ _ Hl Hz).
    cbn [fst snd] in *. apply conflict_iff in Hc. congruence.
  - revert y. apply (well_founded_ind lt_wf (fun y => _ -> is_live (use bt (x, a)) y = true)).
    intros y IH [Hl He]. unfold use in *. cbn [fst snd] in *.
    destruct (use_from_spec x a bt []) as (bt' & E & L & H). rewrite E in *. cbn [app] in *. clear E.
    unfold is_live. rewrite H. unfold is_live in Hl. destruct (nth_error bt y) as [s|] eqn:Es; [|discriminate].
    cbn [live]. unfold survives. rewrite Hl. cbn [andb]. apply forallb_forall. intros [p e] Hp. cbn [fst snd].
    assert (Hp' : In (p, e) (loans_of bt y)) by (unfold loans_of; now rewrite Es).
    pose proof (O _ _ _ Hp') as Hlt.
    assert (Hlp : is_live bt' p = true).
    { apply IH; auto. split.
      - eapply C; eauto. unfold is_live. now rewrite Es.
      - intros (z & e' & B & Hz & Hc). apply He. exists z, e'. splits; auto. eapply below_step; eauto. }
    apply andb_true_iff. split.
    + unfold is_live in *.
      rewrite <- (firstn_skipn y bt') in Hlp. rewrite nth_error_app1 in Hlp; auto.
      rewrite firstn_length_le; auto. rewrite L. apply Nat.lt_le_incl. apply nth_error_Some. congruence.
    + destruct (Nat.eqb_spec p x) as [->|]; auto. destruct (conflict a e) eqn:Ec; auto. exfalso. apply He.
      exists y, e. splits; auto; [constructor|]. now apply conflict_iff.
Qed.

Lemma ordered_later : forall bt bt', later bt bt' -> ordered bt -> ordered bt'.
Proof. intros bt bt' (_ & N & _) O y p e H. rewrite N in H. eauto. Qed.

Lemma use_all_exact : forall us bt y, closed bt -> ordered bt ->
  (is_live (fold_left use us bt) y = true <-> is_live bt y = true /\ forall u, In u us -> ~ ended_by bt u y).
Proof.
  intros us. induction us as [|[x a] us IH]; intros bt y C O; cbn [fold_left].
  - cbn. intuition.
  - destruct (use_spec bt x a) as (L & C' & K). rewrite IH by eauto using ordered_later. rewrite use_exact by auto.
    split.
    + intros [[H1 H2] H3]. split; auto. intros u [<-|Hu]; auto. intros F. apply (H3 u Hu). now apply (ended_later _ _ _ _ L).
    + intros [H1 H2]. splits; auto.
      * apply H2. now left.
      * intros u Hu F. apply (ended_later _ _ _ _ L) in F. revert F. apply H2. now right.
Qed.

Lemma no_conflict_iff : forall us, no_conflict us = true <-> compatible_uses us.
Proof.
  intros us. unfold compatible_uses. induction us as [|[x a] us IH]; cbn [no_conflict].
  - split; auto. intros _ i j z b c Hi. destruct i; discriminate.
  - rewrite andb_true_iff, forallb_forall, IH. clear IH. split.
    + intros [H1 H2] [|i] [|j] z b c Hi Hj Hn; cbn [nth_error] in *.
      * congruence.
      * injection Hi as -> ->. apply nth_error_In in Hj. specialize (H1 _ Hj). cbn [fst snd] in H1.
        rewrite Nat.eqb_refl in H1. destruct b, c; cbn in H1; try discriminate. auto.
      * injection Hj as -> ->. apply nth_error_In in Hi. specialize (H1 _ Hi). cbn [fst snd] in H1.
        rewrite Nat.eqb_refl in H1. destruct b, c; cbn in H1; try discriminate. auto.
      * eapply H2; eauto.
    + intros H. split.
      * intros [z b] Hz. cbn [fst snd]. destruct (Nat.eqb_spec x z) as [<-|]; auto. cbn [negb orb].
        apply In_nth_error in Hz. destruct Hz as (j & Hj). destruct (H 0%nat (S j) x a b) as [-> ->]; auto.
      * intros i j z b c Hi Hj Hn. apply (H (S i) (S j) z b c); auto.
Qed.

Lemma admit_exact : forall bt us, closed bt -> ordered bt ->
  ((exists bt', admit_uses bt us = Some bt') <-> admissible bt us).
Proof.
  intros bt us C O. unfold admit_uses, admissible. cbv zeta. rewrite <- no_conflict_iff.
  set (f := forallb (fun u => is_live (fold_left use us bt) (fst u)) us).
  assert (F : f = true <-> (forall x a, In (x, a) us -> is_live bt x = true) /\ (forall u v, In u us -> In v us -> ~ ended_by bt u (fst v))).
  { unfold f. rewrite forallb_forall. split.
    - intros H. split.
      + intros x a Hx. specialize (H _ Hx). apply use_all_exact in H; auto. apply H.
      + intros u v Hu Hv. specialize (H _ Hv). apply use_all_exact in H; auto. now apply H.
    - intros [H1 H2] [x a] Hx. apply use_all_exact; auto. split; [eauto|]. intros u Hu. now apply (H2 u (x, a)). }
  destruct (no_conflict us); cbn [andb].
  - destruct f.
    + split; eauto. intros _. destruct (proj1 F eq_refl). auto.
    + split; [intros [? H]; discriminate H|]. intros (H1 & _ & H2). exfalso. enough (false = true) by discriminate. apply F. auto.
  - split; [intros [? H]; discriminate H|]. intros (_ & H & _). discriminate H.
Qed.

Lemma admit_after : forall bt us bt' y, closed bt -> ordered bt -> admit_uses bt us = Some bt' ->
  (is_live bt' y = true <-> is_live bt y = true /\ ~ In (y, Moved) us /\ forall u, In u us -> ~ ended_by bt u y).
Proof.
  intros bt us bt' y C O H. unfold admit_uses in H. cbv zeta in H. destruct (_ && _); [|discriminate]. injection H as <-.
  destruct (end_all_spec us (fold_left use us bt)) as (_ & H'). rewrite H', use_all_exact by auto. tauto.
Qed.

Section Admit.
Context {T : Type} {SC : HScalar T} {St : Type}.
Variable kern : kernel T.

Definition tinv (bt : list slot) : Prop := closed bt /\ ordered bt.

(** What a moved operand borrows from stays usable. *)
Lemma moved_lenders : forall bt us bt' x p e, tinv bt -> admit_uses bt us = Some bt' -> In (x, Moved) us ->
  In (p, e) (loans_of bt x) -> is_live bt' p = true.
Proof.
  intros bt us bt' x p e [C O] H Hx Hp. apply (admit_after bt us bt' p C O H).
  pose proof (proj1 (admit_exact bt us C O) (ex_intro _ _ H)) as (H1 & H2 & H3). splits.
  - eauto.
  - intros Hm. apply (H3 _ _ Hm Hx). exists x, e. splits; auto; [constructor|]. right. discriminate.
  - intros u Hu (z & e' & B & Hz & Hc). apply (H3 _ _ Hu Hx). exists z, e'. splits; auto. eapply below_step; eauto.
Qed.

Lemma returned_loans : forall bt (o : call T St) k p e, In (p, e) (loans_of (returned bt o) k) ->
  (exists a, In (p, a) (uses o) /\ a <> Moved) \/ exists x, In (x, Moved) (uses o) /\ In (p, e) (loans_of bt x).
Proof.
  intros bt o k p e H.
  assert (G : In (p, e) (flat_map (lent bt) (uses o)) ->
    (exists a, In (p, a) (uses o) /\ a <> Moved) \/ exists x, In (x, Moved) (uses o) /\ In (p, e) (loans_of bt x)).
  { intros G. apply in_flat_map in G. destruct G as ([x a] & Hx & G). unfold lent in G. cbn [fst snd] in G. destruct a; cbn [In] in G.
    - destruct G as [G|[]]. injection G as -> <-. left. exists Shared. split; auto. discriminate.
    - destruct G as [G|[]]. injection G as -> <-. left. exists Exclusive. split; auto. discriminate.
    - right. eauto. }
  destruct o; cbn [returned] in H; try (destruct k as [|[|k]]; cbn in H; contradiction);
    try (destruct k as [|[|k]]; cbn [loans_of nth_error borrowing loans] in H; [now apply G|destruct H|destruct H]).
  unfold loans_of in H. destruct (nth_error (repeat _ 4) k) eqn:E; [|destruct H]. apply nth_error_In, repeat_spec in E. subst.
  destruct H as [H|[]]. injection H as <- <-. left. exists Exclusive. split; [now left|discriminate].
Qed.

Lemma returned_live : forall bt (o : call T St) k, (k < length (returned bt o))%nat -> is_live (returned bt o) k = true.
Proof.
  intros bt o k Hk. unfold is_live. destruct (nth_error (returned bt o) k) as [s|] eqn:E.
  - apply nth_error_In in E. destruct o; cbn [returned repeat In] in E; intuition (subst; reflexivity).
  - apply nth_error_None in E. lia.
Qed.

Lemma tinv_step : forall m bs (a : action T St) bs' r, tinv (b_slots bs) -> bstep kern m bs a = Some (Ok (bs', r)) -> tinv (b_slots bs').
Proof.
  intros m bs a bs' r I H. pose proof I as [C O]. destruct a as [o|x]; cbn [bstep] in H.
  - destruct (admit_uses (b_slots bs) (uses o)) as [bt|] eqn:A; [|discriminate]. injection H as H.
    apply bind_ok in H. destruct H as ([st r'] & _ & H). injection H as <- <-. cbn [b_slots].
    destruct (admit_spec _ _ _ C A) as (L & C' & Hu & Hl & Hm).
    assert (I' : tinv bt) by (split; eauto using ordered_later).
    destruct r'; try exact I'.
    assert (Hin : forall k p e, In (p, e) (loans_of (returned (b_slots bs) o) k) -> is_live bt p = true).
    { intros k p e Hp. apply returned_loans in Hp. destruct Hp as [(a & Ha & Hn)|(x & Hx & Hp)]; eauto using moved_lenders. }
    split.
    + intros y p e Hy Hp. destruct (Nat.lt_ge_cases y (length bt)) as [Hlt|Hge].
      * rewrite live_app_old in Hy by auto. rewrite loans_app_old in Hp by auto.
        assert (is_live bt p = true) by eauto. rewrite live_app_old; eauto using is_live_bound.
      * replace y with (length bt + (y - length bt))%nat in Hp by lia. rewrite loans_app_new in Hp.
        apply Hin in Hp. rewrite live_app_old; eauto using is_live_bound.
    + intros y p e Hp. destruct (Nat.lt_ge_cases y (length bt)) as [Hlt|Hge].
      * rewrite loans_app_old in Hp by auto. destruct I' as [_ O']. eauto.
      * replace y with (length bt + (y - length bt))%nat in Hp by lia. rewrite loans_app_new in Hp.
        apply Hin, is_live_bound in Hp. lia.
  - destruct (admit_uses _ _) as [bt|] eqn:A; [|discriminate]. injection H as <- <-. cbn [b_slots].
    destruct (admit_spec _ _ _ C A) as (L & C' & _). split; eauto using ordered_later.
Qed.

Lemma tinv_run : forall m (acts : list (action T St)) bs bs' rs, tinv (b_slots bs) ->
  brun kern m bs acts = Some (Ok (bs', rs)) -> tinv (b_slots bs').
Proof.
  intros m acts. induction acts as [|a acts IH]; intros bs bs' rs I H; cbn [brun] in H; [injection H as <- <-; auto|].
  destruct (bstep kern m bs a) as [[[bs1 r]| |]|] eqn:E; try discriminate.
  destruct (brun kern m bs1 acts) as [o|] eqn:E'; [|discriminate]. injection H as H.
  apply bind_ok in H. destruct H as ([bs2 rs2] & -> & H). injection H as <- <-. eauto using tinv_step.
Qed.

Lemma tinv_initial : tinv [].
Proof. split; [intros y p e H|intros y p e H]; destruct y; try discriminate H; destruct H. Qed.

Lemma c59_admitted : forall m (acts : list (action T St)) bs rs, brun kern m binitial acts = Some (Ok (bs, rs)) ->
  (forall o : call T St, (exists x, bstep kern m bs (Do o) = Some x) <-> admissible (b_slots bs) (uses o)) /\
  (forall x, (exists y, bstep (St := St) kern m bs (Drop x) = Some y) <-> is_live (b_slots bs) x = true).
Proof.
  intros m acts bs rs H. apply tinv_run in H; [|apply tinv_initial]. destruct H as [C O]. split.
  - intros o. rewrite <- admit_exact by auto. cbn [bstep]. destruct (admit_uses _ _).
    + split; eauto.
    + split; intros [? E]; discriminate E.
  - intros x. cbn [bstep]. pose proof (admit_exact (b_slots bs) [(x, Moved)] C O) as E.
    assert (A : admissible (b_slots bs) [(x, Moved)] <-> is_live (b_slots bs) x = true).
    { unfold admissible, compatible_uses. split.
      - intros (H & _). apply (H x Moved). now left.
      - intros H. splits.
        + intros y a [F|[]]. injection F as <- <-. exact H.
        + intros [|[|i]] [|[|j]] y b c Hi Hj; cbn in *; congruence.
        + intros u v [<-|[]] [<-|[]] (z & e & B & Hz & _). cbn [fst] in *. apply O in Hz. apply below_le in B; auto. lia. }
    rewrite <- A, <- E. destruct (admit_uses _ _).
    + split; eauto.
    + split; intros [? F]; discriminate F.
Qed.

Lemma c59_single : forall m (acts : list (action T St)) bs rs, brun kern m binitial acts = Some (Ok (bs, rs)) ->
  forall (o : call T St) x a, uses o = [(x, a)] ->
  ((exists y, bstep kern m bs (Do o) = Some y) <-> is_live (b_slots bs) x = true).
Proof.
  intros m acts bs rs H o x a Hu. destruct (c59_admitted m acts bs rs H) as [A _]. rewrite A, Hu.
  apply tinv_run in H; [|apply tinv_initial]. destruct H as [C O]. unfold admissible, compatible_uses. split.
  - intros (H & _). apply (H x a). now left.
  - intros H. splits.
    + intros y b [F|[]]. injection F as <- <-. exact H.
    + intros [|[|i]] [|[|j]] y b c Hi Hj; cbn in *; congruence.
    + intros u v [<-|[]] [<-|[]] (z & e & B & Hz & _). cbn [fst] in *. apply O in Hz. apply below_le in B; auto. lia.
Qed.

Lemma c59_after : forall m (acts : list (action T St)) bs rs, brun kern m binitial acts = Some (Ok (bs, rs)) ->
  forall (o : call T St) bs' r, bstep kern m bs (Do o) = Some (Ok (bs', r)) ->
  (length (b_slots bs) <= length (b_slots bs'))%nat /\
  forall y, (y < length (b_slots bs'))%nat ->
    (is_live (b_slots bs') y = true <->
     (length (b_slots bs) <= y)%nat \/
     is_live (b_slots bs) y = true /\ ~ In (y, Moved) (uses o) /\ forall u, In u (uses o) -> ~ ended_by (b_slots bs) u y).
Proof.
  intros m acts bs rs H o bs' r Hs. apply tinv_run in H; [|apply tinv_initial]. destruct H as [C O]. cbn [bstep] in Hs.
  destruct (admit_uses (b_slots bs) (uses o)) as [bt|] eqn:A; [|discriminate]. injection Hs as Hs.
  apply bind_ok in Hs. destruct Hs as ([st r'] & _ & Hs). injection Hs as <- <-. cbn [b_slots].
  destruct (admit_spec _ _ _ C A) as (L & _). destruct L as (Ll & _).
  pose proof (fun y => admit_after _ _ _ y C O A) as F.
  assert (X : exists new, (match r' with RNew => bt ++ returned (b_slots bs) o | _ => bt end) = bt ++ new /\
     forall k, (k < length new)%nat -> is_live new k = true).
  { destruct r'; try (exists []; split; [now rewrite app_nil_r|cbn; lia]). eexists. split; [reflexivity|]. apply returned_live. }
  destruct X as (new & -> & Hn). split; [rewrite app_length; lia|]. intros y Hy. rewrite app_length in Hy.
  destruct (Nat.lt_ge_cases y (length bt)) as [Hlt|Hge].
  - rewrite live_app_old, F by auto. split; [auto|]. intros [|]; [lia|auto].
  - replace y with (length bt + (y - length bt))%nat by lia. unfold is_live. rewrite nth_error_app2 by lia.
    replace (length bt + (y - length bt) - length bt)%nat with (y - length bt)%nat by lia.
    split; [left; lia|]. intros _. apply (Hn (y - length bt)%nat). lia.
Qed.

(** ** Readers *)

Definition all_shared (bt : list slot) : Prop :=
  (forall y, (y < length bt)%nat -> is_live bt y = true) /\ (forall y p e, In (p, e) (loans_of bt y) -> e = false).

Lemma reader_uses : forall (o : call T St) x a, reads_only o -> In (x, a) (uses o) -> a = Shared.
Proof.
  intros o x a R H.
  destruct o; cbn [reads_only uses In] in *;
    repeat match goal with
    | H : (_, _) = (_, _) |- _ => injection H as <- <-
    | H : _ \/ _ |- _ => destruct H
    | H : _ /\ _ |- _ => destruct H
    | H : False |- _ => destruct H
    end; subst; try contradiction; try reflexivity.
Qed.

Lemma shared_admissible : forall bt (o : call T St), all_shared bt -> reads_only o ->
  (forall x a, In (x, a) (uses o) -> (x < length bt)%nat) -> admissible bt (uses o).
Proof.
  intros bt o [H1 H2] R E. unfold admissible, compatible_uses. splits.
  - intros x a Hx. apply H1. eauto.
  - intros i j x b c Hi Hj _. apply nth_error_In in Hi, Hj. eauto using reader_uses.
  - intros [x a] v Hu Hv (z & e & B & Hz & Hc). cbn [fst snd] in *. apply reader_uses in Hu; auto. subst.
    apply H2 in Hz. destruct Hc; congruence.
Qed.

Lemma c59_readers : forall m (acts : list (action T St)) bs rs,
  Forall (fun a => match a with Do o => reads_only o | Drop _ => False end) acts ->
  brun kern m binitial acts = Some (Ok (bs, rs)) ->
  (forall y, (y < length (b_slots bs))%nat -> is_live (b_slots bs) y = true) /\
  forall o : call T St, reads_only o -> (forall x a, In (x, a) (uses o) -> (x < length (b_slots bs))%nat) ->
    exists x, bstep kern m bs (Do o) = Some x.
Proof.
  intros m acts bs rs Hf H.
  assert (G : forall (acts : list (action T St)) (bs0 : bstate T) rs, Forall (fun a => match a with Do o => reads_only o | Drop _ => False end) acts ->
     tinv (b_slots bs0) -> all_shared (b_slots bs0) -> brun kern m bs0 acts = Some (Ok (bs, rs)) ->
     tinv (b_slots bs) /\ all_shared (b_slots bs)).
  { clear. intros acts. induction acts as [|a acts IH]; intros bs0 rs Hf I S H; cbn [brun] in H; [injection H as <- <-; auto|].
    inversion Hf as [|? ? Ha Hf']; subst.
    destruct (bstep kern m bs0 a) as [[[bs1 r]| |]|] eqn:E; try discriminate.
    destruct (brun kern m bs1 acts) as [o|] eqn:E'; [|discriminate]. injection H as H.
    apply bind_ok in H. destruct H as ([bs2 rs2] & -> & H). injection H as -> <-.
    pose proof (tinv_step _ _ _ _ _ I E) as I1. apply (IH bs1 rs2); auto. clear IH E'.
    destruct a as [o|x]; [|destruct Ha]. cbn [bstep] in E.
    destruct (admit_uses (b_slots bs0) (uses o)) as [bt|] eqn:A; [|discriminate]. injection E as E.
    apply bind_ok in E. destruct E as ([st r'] & _ & E). injection E as <- <-. cbn [b_slots] in *.
    destruct I as [C O]. destruct S as [S1 S2]. destruct (admit_spec _ _ _ C A) as (L & _). destruct L as (Ll & Ln & _).
    assert (Sb : all_shared bt).
    { split.
      - intros y Hy. apply (admit_after _ _ _ y C O A). splits.
        + apply S1. lia.
        + intros Hm. apply reader_uses in Hm; auto. discriminate Hm.
        + intros [x a] Hu (z & e & B & Hz & Hc). cbn [fst snd] in *. apply reader_uses in Hu; auto. subst.
          apply S2 in Hz. destruct Hc; congruence.
      - intros y p e Hp. rewrite Ln in Hp. eauto. }
    destruct r'; try exact Sb. destruct Sb as [Sb1 Sb2]. split.
    - intros y Hy. rewrite app_length in Hy. destruct (Nat.lt_ge_cases y (length bt)) as [Hlt|Hge].
      + rewrite live_app_old by auto. auto.
      + unfold is_live. rewrite nth_error_app2 by lia. apply (returned_live (b_slots bs0) o). lia.
    - intros y p e Hp. destruct (Nat.lt_ge_cases y (length bt)) as [Hlt|Hge].
      + rewrite loans_app_old in Hp by auto. eauto.
      + replace y with (length bt + (y - length bt))%nat in Hp by lia. rewrite loans_app_new in Hp.
        clear - Ha Hp.
        assert (G : In (p, e) (flat_map (lent (b_slots bs0)) (uses o)) -> e = false).
        { intros G. apply in_flat_map in G. destruct G as ([x a] & Hx & G). apply reader_uses in Hx; auto. subst.
          cbn in G. destruct G as [G|[]]. congruence. }
        remember (y - length bt)%nat as k eqn:Ek. clear Ek.
        destruct o; cbn [returned reads_only] in *; try contradiction; try (destruct k as [|[|k]]; cbn in Hp; contradiction);
          (destruct k as [|[|k]]; cbn [loans_of nth_error borrowing loans] in Hp; [now apply G|destruct Hp|destruct Hp]). }
  destruct (G acts binitial rs Hf) as [I S]; auto.
  { apply tinv_initial. }
  { split; [intros y Hy; cbn in Hy; lia|intros y p e F; destruct y; destruct F]. }
  split; [apply S|]. intros o R E. destruct (c59_admitted m acts bs rs H) as [A _]. apply A. now apply shared_admissible.
Qed.
End Admit.
