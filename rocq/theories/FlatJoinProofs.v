(** * FlatJoinProofs: what the first program finds after its threads. *)

From Coq Require Import Lia ZifyBool ZifyNat ZifyN.
From Verif Require Import Machine MachineFacts Layouts Memory MemoryFacts Matrix MatMul Spec MatrixSpec ExprSpec ProductSpec.
From Verif Require Import Program HistorySpec HistoryProofs Borrow Dealloc Threads ThreadProofs Interleave.
From Verif Require Import AccessFacts HistorySafety BorrowProofs OwnerProofs DeallocProofs AliasProofs FlatJoins FlatProducts.
From Verif Require Import Flat FlatProofs FlatHistory FlatThreads FlatMachine FlatThreadProofs FlatDrops FlatDropMachine FlatDropProofs FlatPrograms FlatScopes FlatScopeProofs.
Local Open Scope N_scope.

Section Table.
Context {T : Type} {SC : HScalar T} {St : Type} {B : Type}.
Variable encode : T -> list B.
Variable decode : list B -> T.
Variable code : gemm_args T -> prog T unit.
Variable choose : nat -> nat -> nat.
Variable m : mode.
Notation dturns := (dturns encode decode code choose m).
Notation dturn := (dturn encode decode code choose m).

Lemma move_same : forall rho place (x : matrix T) q, move_matrix rho x = move_matrix place x -> occupies x q -> rho (fst q) = place (fst q).
Proof.
  intros rho place x q. induction x; cbn [move_matrix occupies]; intros E O; try (injection E; intros; now auto).
  - apply (f_equal (fun y => match y with MBase c => r_alloc (c_region (bm_data c)) | _ => 0%nat end)) in E. destruct O as [O _]. rewrite O. exact E.
  - injection E as E1 E2. destruct O; auto.
Qed.

(** No thread loses or changes an entry of its table. *)
Lemma settle_keeps : forall (M : dmachine T St B) used k t xs M', settle M used k t xs = Goes M' ->
  dm_mem M' = dm_mem M /\ dm_thread M' = put_dthread (dm_thread M) k t.
Proof. intros M used k t xs M' E. unfold settle in E. destruct (give_back_all _ _); inversion E; subst; auto. Qed.

Lemma put_keeps : forall (M : dmachine T St B) k t j, (exists new, dt_table t = dt_table (dm_thread M k) ++ new) ->
  exists new, dt_table (put_dthread (dm_thread M) k t j) = dt_table (dm_thread M j) ++ new.
Proof. intros M k t j H. unfold put_dthread. destruct (Nat.eqb_spec j k) as [->|]; [exact H|]. exists []. now rewrite app_nil_r. Qed.

Lemma turn_keeps : forall (M M' : dmachine T St B) k j, dturn M k = Goes M' -> exists new, dt_table (dm_thread M' j) = dt_table (dm_thread M j) ++ new.
Proof.
  intros M M' k j E. assert (Z : exists new, dt_table (dm_thread M k) = dt_table (dm_thread M k) ++ new) by (exists []; now rewrite app_nil_r).
  unfold FlatDrops.dturn in E. destruct (dt_now (dm_thread M k)) as [[[o new] [[[ms r]| |]|q c'|q v c'|l c']]|].
  - apply settle_keeps in E. destruct E as [_ ->]. apply put_keeps. cbn [dt_table]. eauto.
  - apply settle_keeps in E. destruct E as [_ ->]. apply put_keeps. exact Z.
  - discriminate.
  - injection E as <-. cbn [dm_thread]. apply put_keeps. exact Z.
  - injection E as <-. cbn [dm_thread]. apply put_keeps. exact Z.
  - destruct (grants _ _); [|discriminate]. injection E as <-. cbn [dm_thread]. apply put_keeps. exact Z.
  - destruct (dt_left (dm_thread M k)) as [|[o|x] rest].
    + injection E as <-. exists []. now rewrite app_nil_r.
    + destruct (program code m (dt_table (dm_thread M k)) o).
      * injection E as <-. cbn [dm_thread]. apply put_keeps. exact Z.
      * apply settle_keeps in E. destruct E as [_ ->]. apply put_keeps. exact Z.
    + apply settle_keeps in E. destruct E as [_ ->]. apply put_keeps. exact Z.
Qed.

Lemma turns_keep : forall sched (M M' : dmachine T St B) j, dturns M sched = Goes M' -> exists new, dt_table (dm_thread M' j) = dt_table (dm_thread M j) ++ new.
Proof.
  intros sched. induction sched as [|k sched IH]; intros M M' j E; cbn [FlatDrops.dturns] in E.
  - injection E as <-. exists []. now rewrite app_nil_r.
  - destruct (dturn M k) as [| | |M1] eqn:E1; try discriminate. destruct (turn_keeps _ _ _ j E1) as (n1 & X1). destruct (IH _ _ j E) as (n2 & X2).
    exists (n1 ++ n2). rewrite X2, X1. now rewrite app_assoc.
Qed.

(** A step writes what the thread is about to write, or memory that was not in use. *)
Lemma turn_writes : faithful encode decode -> forall (M M' : dmachine T St B) k x, dturn M k = Goes M' -> (exists b, In b (dm_used M) /\ snd b <> 0 /\ in_block b x) ->
  (forall a, dnext_visit (dm_thread M k) = Some (a, true) -> ~ (a <= x < a + item_size)) -> dm_mem M' x = dm_mem M x.
Proof.
  intros coding M M' k x E (b & Ib & NZ & X) H. unfold FlatDrops.dturn in E. unfold dnext_visit in H.
  destruct (dt_now (dm_thread M k)) as [[[o new] [[[ms r]| |]|q c'|q v c'|l c']]|].
  - apply settle_keeps in E. destruct E as [-> _]. reflexivity.
  - apply settle_keeps in E. destruct E as [-> _]. reflexivity.
  - discriminate.
  - injection E as <-. reflexivity.
  - injection E as <-. cbn [dm_mem]. apply (store_out encode decode coding). now apply H.
  - destruct (grants _ _) eqn:G; [|discriminate]. injection E as <-. cbn [dm_mem take y_mem fst].
    apply (store_all_out encode decode coding). unfold grants in G. cbn [fst snd y_blocks] in G. unfold in_block in X.
    destruct (N.eqb_spec (N.of_nat (length l)) 0) as [Z|Z]; [rewrite Z; lia|]. cbn [orb] in G. apply andb_prop in G. destruct G as [_ G].
    rewrite forallb_forall in G. specialize (G b Ib). unfold blocks_apart in G. cbn [fst snd] in G. clear - G X NZ Z. lia.
  - destruct (dt_left (dm_thread M k)) as [|[o|y] rest].
    + now injection E as <-.
    + destruct (program code m (dt_table (dm_thread M k)) o).
      * injection E as <-. reflexivity.
      * apply settle_keeps in E. destruct E as [-> _]. reflexivity.
    + apply settle_keeps in E. destruct E as [-> _]. reflexivity.
Qed.
End Table.

Section Frame.
Context {T : Type} {SC : HScalar T} {St : Type} {B : Type}.
Variable encode : T -> list B.
Variable decode : list B -> T.
Hypothesis coding : faithful encode decode.
Variable kern : kernel T.
Variable code : gemm_args T -> prog T unit.
Hypothesis impl : implements code kern.
Variable choose : nat -> nat -> nat.
Variables (m : mode) (p : pool T) (acts : nat -> list (taction T St)) (owner : nat -> option nat).
Variables (place : nat -> nat) (M0 : N -> B) (used0 : list (nat * N)).
Hypothesis laid : laid_out decode p place M0 used0.
Hypothesis inside : in_memory p.
Hypothesis disjoint : Threads.apart p.
Hypothesis owners : owned_apart p owner.
Hypothesis plain : forall k, plain_actions kern m (alone p owner k) (acts k).
Hypothesis defined : forall k, exists x, alone_run kern m (alone p owner k) (acts k) = Ok x.
Notation machine_ok := (machine_ok encode decode kern code choose m p acts owner place used0).
Notation dturns := (dturns encode decode code choose m).
Notation dturn := (dturn encode decode code choose m).
Notation start := (dlaunch p place M0 used0 acts).

Section Cell.
Variables (a : nat) (i : N) (l : list T).
Hypothesis here : nth_error (p_heap p) a = Some l.
Hypothesis low : i < N.of_nat (length l).
Hypothesis common : owner a = None.
Hypothesis unwritten : forall k y, In y (p_tabs p k) -> is_writable y = true -> ~ occupies y (a, i).

Lemma cell_block : forall x, qbytes (T := T) (place a, i) x -> in_block (T := T) (place a, N.of_nat (length l)) x.
Proof.
  intros x X. unfold qbytes, address in X. unfold in_block. cbn [fst snd pl_alloc pl_index] in *. pose proof (size_pos (T := T)). nia.
Qed.
Lemma cell_cm : cm p owner place (place a, N.of_nat (length l)).
Proof. exists a, l. split; [exact here|]. split; [|auto]. intros ->. cbn in low. lia. Qed.

Lemma cell_turn : forall own M M' k x, machine_ok own M -> dturn M k = Goes M' -> qbytes (T := T) (place a, i) x -> dm_mem M' x = dm_mem M x.
Proof.
  intros own M M' k x OK E X. apply (turn_writes encode decode code choose m coding M M' k x E).
  - destruct OK as (U & NZ & _). exists (place a, N.of_nat (length l)). assert (I : In (place a, N.of_nat (length l)) (dm_used M)) by (apply U; left; apply cell_cm).
    split; [exact I|]. split; [now apply NZ|now apply cell_block].
  - intros a' V X'. destruct (now_reaches encode decode kern code choose m p acts owner place used0 own M k a' true OK V) as (_ & R).
    destruct (R x X') as [_ W]. specialize (W eq_refl). destruct OK as (_ & _ & _ & AC & _). destruct W as [(b & j & y & Ob & Iy & Wy & Oc & Xb)|(b & Ib & Xb)].
    + assert (HD : held (p_tabs p k) (b, j)) by (exists y; auto).
      destruct (common_block decode kern choose m p acts owner place M0 used0 laid defined k b j x Ob HD Xb) as (l' & E' & NE' & L' & _ & X'').
      destruct (Nat.eq_dec a b) as [<-|D].
      * apply (unwritten k y Iy Wy). replace i with j; [exact Oc|]. clear - X Xb. unfold qbytes, address in *. cbn [fst snd pl_alloc pl_index] in *.
        pose proof (size_pos (T := T)). nia.
      * apply (laid_apart _ _ _ _ _ laid a b l l' here E') with (x := x); auto; [|split; [now apply cell_block|exact X'']].
        intros Z. rewrite Z in low. cbn in low. lia.
    + apply (AC k b (place a, N.of_nat (length l)) Ib cell_cm x). split; [exact Xb|now apply cell_block].
Qed.

Lemma cell_turns : forall sched own M M' x, machine_ok own M -> dturns M sched = Goes M' -> qbytes (T := T) (place a, i) x -> dm_mem M' x = dm_mem M x.
Proof.
  intros sched. induction sched as [|k sched IH]; intros own M M' x OK E X; cbn [FlatDrops.dturns] in E.
  - now injection E as <-.
  - destruct (dturn M k) as [| | |M1] eqn:E1; try discriminate.
    pose proof (goes_on encode decode coding kern code impl choose m p acts owner place M0 used0 laid disjoint defined own M [k] OK) as G.
    cbn [FlatDrops.dturns] in G. rewrite E1 in G. destruct G as (own1 & OK1). rewrite (IH own1 M1 M' x OK1 E X). now apply (cell_turn own M M1 k).
Qed.
End Cell.

(** What no thread may write stays as it was, and stays in use. *)
Lemma c79_frame : forall sched M, dturns start sched = Goes M -> forall q v, hget (p_heap p) (fst q) (snd q) = Some v -> owner (fst q) = None ->
  (forall k y, In y (p_tabs p k) -> is_writable y = true -> ~ occupies y q) -> load decode (dm_mem M) (address (mkPlace (place (fst q)) (snd q))) = v.
Proof.
  intros sched M E [a i] v V O H. cbn [fst snd] in *. rewrite <- (laid_items _ _ _ _ _ laid a i v V). apply (load_ext decode (choose 0%nat)).
  pose proof (hget_inv (choose 0%nat) M0 _ _ _ _ V) as (l & X & NE & _ & L). intros x Xx.
  apply (cell_turns a i l X L O H sched _ start M x (start_ok encode decode kern code choose m p acts owner place M0 used0 laid inside owners plain defined) E).
  exact Xx.
Qed.

Lemma c79_used : forall sched M, dturns start sched = Goes M -> forall a l, nth_error (p_heap p) a = Some l -> l <> [] -> owner a = None ->
  In (place a, N.of_nat (length l)) (dm_used M).
Proof.
  intros sched M E a l X NE O. destruct (reached encode decode coding kern code impl choose m p acts owner place M0 used0 laid inside disjoint owners plain defined sched M E) as (own & U & _).
  apply U. left. exists a, l. auto.
Qed.
End Frame.

Section Items.
Context {T : Type} {SC : HScalar T} {St : Type}.

Lemma sizes_length : forall h h' : @heap T, same_sizes h h' -> length h' = length h.
Proof.
  intros h h' H. destruct (Nat.lt_trichotomy (length h') (length h)) as [L|[L|L]]; auto; exfalso.
  - specialize (H (length h')). rewrite (proj2 (nth_error_None h' (length h'))) in H by lia. apply nth_error_Some in L.
    destruct (nth_error h (length h')); [discriminate|congruence].
  - specialize (H (length h)). rewrite (proj2 (nth_error_None h (length h))) in H by lia. apply nth_error_Some in L.
    destruct (nth_error h' (length h)); [discriminate|congruence].
Qed.

(** The items do not matter. *)
Lemma good_items : forall m (fs : fstate T) bs h', good m fs bs -> same_sizes (st_heap (b_state (f_state fs))) h' ->
  exists hb, good m (with_items fs h') (mkBState (mkState hb (st_mats (b_state bs))) (b_slots bs)).
Proof.
  intros m fs bs h' [F I S D] Z. pose proof (sizes_length _ _ Z) as L'. destruct F as [[Rm Rh Rc Rg Rn] [Oi Op Ol Ou Oo] Sl V].
  destruct Rh as [[Hl Hs] Hf].
  set (hb := map (fun a => nth a (if mem (f_freed fs) a then st_heap (b_state bs) else h') []) (seq 0 (length (st_heap (b_state bs))))).
  assert (LB : length hb = length (st_heap (b_state bs))) by (unfold hb; now rewrite map_length, seq_length).
  assert (NB : forall a, (a < length (st_heap (b_state bs)))%nat -> nth_error hb a = nth_error (if mem (f_freed fs) a then st_heap (b_state bs) else h') a).
  { intros a La. unfold hb. rewrite nth_error_map. rewrite (nth_error_nth' (seq 0 (length (st_heap (b_state bs)))) 0%nat) by now rewrite seq_length.
    rewrite seq_nth by exact La. cbn [option_map Nat.add]. symmetry. apply nth_error_nth'. destruct (mem (f_freed fs) a); lia. }
  assert (EX : extends (st_heap (b_state bs)) hb).
  { intros a l E. assert (La : (a < length (st_heap (b_state bs)))%nat) by (apply nth_error_Some; congruence). rewrite (NB a La).
    destruct (mem (f_freed fs) a) eqn:Mf; [exists l; auto|]. apply mem_out in Mf. specialize (Z a). rewrite (Hs a Mf), E in Z.
    destruct (nth_error h' a) as [l'|]; [|discriminate]. cbn [option_map] in Z. injection Z as Z. eauto. }
  assert (PB : forall ms, Forall (placed (st_heap (b_state bs))) ms -> Forall (placed hb) ms).
  { intros ms H. rewrite Forall_forall in *. intros x Ix a La. rewrite LB. now apply (H x Ix). }
  exists hb. constructor; cbn [with_items f_state b_state b_slots st_heap st_mats f_gone f_freed].
  - constructor; cbn [with_items f_state b_state b_slots st_heap st_mats f_gone f_freed]; auto.
    + constructor; cbn [with_items f_state b_state b_slots st_heap st_mats f_gone f_freed]; auto.
      * split; [split; [congruence|]|now rewrite LB]. intros a Na. destruct (Nat.lt_ge_cases a (length (st_heap (b_state bs)))) as [La|La].
        -- rewrite (NB a La). destruct (mem (f_freed fs) a) eqn:Mf; [apply mem_in in Mf; contradiction|reflexivity].
        -- rewrite (proj2 (nth_error_None h' a)) by lia. symmetry. apply nth_error_None. lia.
      * now rewrite LB.
    + constructor; cbn [b_state b_slots st_heap st_mats]; auto. unfold all_placed. cbn [st_heap st_mats]. now apply PB.
  - destruct I as [I1 I2]. split; [exact I1|]. unfold all_placed in *. cbn [b_state st_heap st_mats]. now apply PB.
  - unfold HistoryProofs.sound in *. cbn [b_state st_heap st_mats]. rewrite Forall_forall in *. intros x Ix. destruct (S x Ix) as [S1 S2].
    split; [|exact S2]. eapply valid_extends; eauto.
  - exact D.
Qed.
End Items.

(** ** Moves *)

Section Moves.
Context {T : Type} {SC : HScalar T} {St : Type}.

Record lighter (fs gs : fstate T) : Prop := {
  li_mats : st_mats (b_state (f_state gs)) = st_mats (b_state (f_state fs));
  li_length : length (st_heap (b_state (f_state gs))) = length (st_heap (b_state (f_state fs)));
  li_freed : forall a, In a (f_freed fs) -> In a (f_freed gs);
  li_rest : forall a, ~ In a (f_freed gs) -> nth_error (st_heap (b_state (f_state gs))) a = nth_error (st_heap (b_state (f_state fs))) a;
  li_empty : (forall a l, In a (f_freed fs) -> nth_error (st_heap (b_state (f_state fs))) a = Some l -> l = []) ->
    forall a l, In a (f_freed gs) -> nth_error (st_heap (b_state (f_state gs))) a = Some l -> l = []
}.
Lemma lighter_refl : forall fs, lighter fs fs.
Proof. intros fs. constructor; auto. Qed.
Lemma lighter_trans : forall fs gs hs, lighter fs gs -> lighter gs hs -> lighter fs hs.
Proof.
  intros fs gs hs [A1 A2 A3 A4 A5] [B1 B2 B3 B4 B5]. constructor; [congruence|congruence|auto| |intros H; exact (B5 (A5 H))].
  intros a N. rewrite B4 by exact N. apply A4. auto.
Qed.
Lemma lighter_same : forall fs gs, b_state (f_state gs) = b_state (f_state fs) -> f_freed gs = f_freed fs -> lighter fs gs.
Proof. intros fs gs E F. constructor; rewrite ?E, ?F; auto. Qed.
Lemma free_lighter : forall fs a gs, free fs a = Ok gs -> lighter fs gs.
Proof.
  intros fs a gs E. unfold free in E. destruct (Dealloc.mem (f_freed fs) a); [discriminate|]. injection E as <-.
  constructor; cbn [f_state set_heap b_state st_heap st_mats f_freed]; auto.
  - apply upd_length.
  - intros b Ib. now right.
  - intros b N. rewrite nth_upd. destruct (Nat.eqb_spec a b) as [->|]; [destruct N; now left|reflexivity].
  - intros H b l Ib X. rewrite nth_upd in X. destruct (Nat.eqb_spec a b) as [->|D].
    + destruct (nth_error _ b); [now injection X as <-|discriminate].
    + destruct Ib as [Ib|Ib]; [congruence|]. eauto.
Qed.
Lemma free_all_lighter : forall l fs gs, free_all fs l = Ok gs -> lighter fs gs.
Proof.
  intros l. induction l as [|a l IH]; intros fs gs E; cbn [free_all] in E; [injection E as <-; apply lighter_refl|].
  apply bind_ok in E. destruct E as (f1 & E1 & E). eauto using lighter_trans, free_lighter.
Qed.
Lemma destroy_lighter : forall fs x gs, destroy fs x = Ok gs -> lighter fs gs.
Proof.
  intros fs x gs E. unfold destroy in E. destruct (nth_error _ x); [|injection E as <-; apply lighter_refl].
  apply free_all_lighter in E. eapply lighter_trans; [|exact E]. now apply lighter_same.
Qed.
Lemma moved_lighter : forall (kern : kernel T) m xs fs gs (rs : list (result T St)), moved_out kern m fs xs = Some (Ok (gs, rs)) -> lighter fs gs.
Proof.
  intros kern m xs. unfold moved_out. induction xs as [|x xs IH]; intros fs gs rs E; cbn [map frun] in E; [injection E as <- _; apply lighter_refl|].
  destruct (fstep kern m fs (Act (Drop x))) as [[[f1 r]| |]|] eqn:E1; try discriminate.
  destruct (frun kern m f1 _) as [[[f2 r2]| |]|] eqn:E2; cbn [bind] in E; try discriminate. injection E as <- _. apply IH in E2.
  eapply lighter_trans; [|exact E2]. cbn [fstep bstep] in E1. destruct (admit_uses (b_slots (f_state fs)) [(x, Moved)]) as [bt|]; [|discriminate].
  cbn [bind] in E1. injection E1 as E1. apply bind_ok in E1. destruct E1 as (f3 & E1 & E3). injection E3 as <- _.
  cbn [moved destroy_all] in E1. apply bind_ok in E1. destruct E1 as (f4 & E1 & E4). injection E4 as <-. apply destroy_lighter in E1.
  eapply lighter_trans; [|exact E1]. now apply lighter_same.
Qed.
Lemma free_all_freed : forall l (fs gs : fstate T), free_all fs l = Ok gs -> forall a, In a (f_freed gs) <-> In a (f_freed fs) \/ In a l.
Proof.
  intros l. induction l as [|b l IH]; intros fs gs E a; cbn [free_all] in E; [injection E as <-; cbn; tauto|].
  apply bind_ok in E. destruct E as (f1 & E1 & E). rewrite (IH _ _ E). unfold free in E1. destruct (Dealloc.mem (f_freed fs) b); [discriminate|].
  injection E1 as <-. cbn [f_freed In]. tauto.
Qed.
Lemma moved_freed : forall (kern : kernel T) m xs fs gs (rs : list (result T St)), moved_out kern m fs xs = Some (Ok (gs, rs)) ->
  forall a, In a (f_freed gs) <-> In a (f_freed fs) \/ exists x v, In x xs /\ nth_error (st_mats (b_state (f_state fs))) x = Some v /\ In a (owned v).
Proof.
  intros kern m xs. unfold moved_out. induction xs as [|x xs IH]; intros fs gs rs E a; cbn [map frun] in E.
  { injection E as <- _. split; [now left|]. intros [F|(x & v & [] & _)]. exact F. }
  destruct (fstep kern m fs (Act (Drop x))) as [[[f1 r]| |]|] eqn:E1; try discriminate.
  assert (L1 : lighter fs f1). { apply (moved_lighter kern m [x] fs f1 (r ++ [])). unfold moved_out. cbn [map frun]. rewrite E1. reflexivity. }
  destruct (frun kern m f1 _) as [[[f2 r2]| |]|] eqn:E2; cbn [bind] in E; try discriminate. injection E as <- _. rewrite (IH _ _ _ E2 a), (li_mats _ _ L1).
  cbn [fstep bstep] in E1. destruct (admit_uses (b_slots (f_state fs)) [(x, Moved)]) as [bt|]; [|discriminate].
  cbn [bind] in E1. injection E1 as E1. apply bind_ok in E1. destruct E1 as (f3 & E1 & E3). injection E3 as <- _.
  cbn [moved destroy_all] in E1. apply bind_ok in E1. destruct E1 as (f4 & E1 & E4). injection E4 as <-. unfold destroy in E1. cbn [f_state b_state st_mats] in E1.
  destruct (nth_error (st_mats (b_state (f_state fs))) x) as [v|] eqn:EX.
  - pose proof (free_all_freed _ _ _ E1 a) as F. cbn [f_freed] in F. rewrite F. split.
    + intros [[X|X]|(y & w & Iy & X)]; [now left|right; exists x, v; repeat split; auto; now left|right; exists y, w; repeat split; try apply X; now right].
    + intros [X|(y & w & [<-|Iy] & X1 & X2)]; [auto|left; right; congruence|right; eauto].
  - injection E1 as <-. cbn [f_freed]. split; (intros [X|(y & w & Iy & X1 & X2)]; [now left|right]).
    + exists y, w. repeat split; auto. now right.
    + destruct Iy as [<-|Iy]; [congruence|eauto].
Qed.
Lemma moved_calls : forall xs, calls (map (fun x => Act (@Drop T St x)) xs) = [] /\ Forall no_split (kept (map (fun x => Act (@Drop T St x)) xs)).
Proof.
  intros xs. induction xs as [|x xs [I1 I2]]; [split; [reflexivity|constructor]|]. split; [exact I1|]. cbn [map]. change (kept (Act (@Drop T St x) :: map (fun x => Act (@Drop T St x)) xs)) with (@Drop T St x :: kept (map (fun x => Act (@Drop T St x)) xs)).
  constructor; [exact Logic.I|exact I2].
Qed.
End Moves.

(** ** After the threads *)

Section Looks.
Context {T : Type} {SC : HScalar T} {B : Type}.
Variable decode : list B -> T.
Variables (mem : N -> B) (place : nat -> nat).

(** What the memory holds at the places of the allocations of [h]. *)
Definition look (a : nat) (l : list T) : list T := map (fun i => load decode mem (address (mkPlace (place a) (N.of_nat i)))) (seq 0 (length l)).
Fixpoint look_heap (n : nat) (h : @heap T) : @heap T :=
  match h with [] => [] | l :: h' => look n l :: look_heap (S n) h' end.

Lemma nth_look : forall h n a, nth_error (look_heap n h) a = option_map (look (n + a)) (nth_error h a).
Proof.
  intros h. induction h as [|l h IH]; intros n [|a]; cbn [look_heap nth_error option_map]; auto.
  - now rewrite Nat.add_0_r.
  - rewrite IH. now rewrite Nat.add_succ_comm.
Qed.
Lemma look_length : forall a l, length (look a l) = length l.
Proof. intros a l. unfold look. now rewrite map_length, seq_length. Qed.
Lemma look_sizes : forall h, same_sizes h (look_heap 0 h).
Proof. intros h a. rewrite nth_look. destruct (nth_error h a); cbn [option_map]; auto. now rewrite look_length. Qed.
Lemma hget_look : forall h a i, hget (look_heap 0 h) a i = option_map (fun _ => load decode mem (address (mkPlace (place a) i))) (hget h a i).
Proof.
  intros h a i. unfold hget. rewrite nth_look. cbn [Nat.add]. destruct (nth_error h a) as [l|]; cbn [option_map]; auto. unfold look. rewrite nth_error_map.
  destruct (Nat.lt_ge_cases (N.to_nat i) (length l)) as [L|L].
  - rewrite (nth_error_nth' (seq 0 (length l)) 0%nat) by now rewrite seq_length. rewrite seq_nth by exact L. cbn [option_map Nat.add]. rewrite N2Nat.id.
    apply nth_error_Some in L. destruct (nth_error l (N.to_nat i)); [reflexivity|congruence].
  - rewrite (proj2 (nth_error_None (seq 0 (length l)) _)) by now rewrite seq_length. now rewrite (proj2 (nth_error_None l _)).
Qed.
End Looks.

Section Joins.
Context {T : Type} {SC : HScalar T} {St : Type} {B : Type}.
Variable encode : T -> list B.
Variable decode : list B -> T.
Hypothesis coding : faithful encode decode.
Variable kern : kernel T.
Variable code : gemm_args T -> prog T unit.
Hypothesis impl : implements code kern.
Variable choose : nat -> nat.
Variable choose' : nat -> nat -> nat.
Variables (m : mode) (fs : fstate T) (bs : bstate T) (rho0 : nat -> nat) (sigma0 : nat -> N) (P : process T B).
Variables (who : nat -> list nat) (owner : nat -> option nat) (progs : nat -> list (faction T St)).
Hypothesis steady : good m fs bs.
Hypothesis rel : FlatHistory.related decode choose rho0 sigma0 fs P.
Hypothesis lends : lends_apart (f_state fs) who.
Notation p := (handed (f_state fs) who).
Hypothesis keeps : kept_apart p owner.
Notation names k := (thread_names fs who k).
Hypothesis safe : forall k, next_safe kern m fs (map (refile (names k)) (progs k)).
Notation acts := (fun k => map erased (progs k)).
Notation dturns := (dturns encode decode code choose' m).
Notation heap0 := (st_heap (b_state (f_state fs))).

Lemma frun_mats : forall k (made : list (faction T St)) fs2 rs2, frun kern m fs (map (refile (names k)) made) = Some (Ok (fs2, rs2)) ->
  exists new, st_mats (b_state (f_state fs2)) = st_mats (b_state (f_state fs)) ++ new.
Proof.
  intros k made fs2 rs2 E.
  destruct (tied_run kern (names k) (st_mats (b_state (f_state fs))) (p_tabs p k) (f_freed fs)
    (scope_names m fs bs who steady lends k) m made fs _ fs2 rs2
    (scope_tied fs who k) E) as (gs & _ & (_ & (new & X & _) & _)).
  eauto.
Qed.

Section Place.
Variable place : nat -> nat.
Hypothesis laid : laid_out decode p place (y_mem (pr_bytes P)) (y_blocks (pr_bytes P)).
Hypothesis inside : in_memory p.
Hypothesis disjoint : Threads.apart p.
Notation start := (dlaunch p place (y_mem (pr_bytes P)) (y_blocks (pr_bytes P)) acts).

Lemma c79_at : forall sched M, dturns start sched = Goes M ->
  (forall q v, hget heap0 (fst q) (snd q) = Some v -> owner (fst q) = None ->
     (forall k w, In w (p_tabs p k) -> is_writable w = true -> ~ occupies w q) ->
     load decode (dm_mem M) (address (mkPlace (place (fst q)) (snd q))) = v) /\
  (forall k, dt_now (dm_thread M k) = None -> exists made left fs2 rs2,
     progs k = made ++ left /\ map erased left = dt_left (dm_thread M k) /\
     frun kern m fs (map (refile (names k)) made) = Some (Ok (fs2, rs2)) /\ dt_done (dm_thread M k) = call_results made rs2 /\
     forall w q v, In w (p_tabs p k) -> occupies w q -> hget (st_heap (b_state (f_state fs2))) (fst q) (snd q) = Some v ->
       load decode (dm_mem M) (address (mkPlace (place (fst q)) (snd q))) = v).
Proof.
  intros sched M E. split.
  - intros q v V O H. exact (c79_frame encode decode coding kern code impl choose' m p acts owner place _ _ laid inside disjoint
      (scope_owned fs who owner keeps) (scope_plain kern choose' m fs bs who owner progs steady lends keeps safe inside)
      (scope_defined kern choose' m fs bs who owner progs steady lends keeps safe inside) sched M E q v V O H).
  - intros k N.
    destruct (c78_at encode decode coding kern code impl choose choose' m fs bs rho0 sigma0 P who owner progs steady rel lends keeps safe place laid inside disjoint)
      as [_ C]. destruct (C sched M E) as (_ & _ & C3 & _). destruct (C3 k) as (made & left & fs2 & rs2 & rho & X1 & X2 & X3 & X4 & X5).
    exists made, left, fs2, rs2. split; [exact X1|]. split; [rewrite X2; unfold now_actions; now rewrite N|]. split; [exact X3|]. split; [exact X4|].
    intros w q v Iw O V. apply In_nth_error in Iw. destruct Iw as (i & Iw).
    destruct (frun_mats k made fs2 rs2 X3) as (new & EM).
    assert (W : nth_error (st_mats (b_state (f_state fs2))) (names k i) = Some w).
    { rewrite EM, <- (scope_names m fs bs who steady lends k new i). rewrite nth_error_app1; [exact Iw|]. apply nth_error_Some. congruence. }
    destruct (X5 i w W) as [Y1 Y2]. rewrite <- (Y2 N q v O V).
    destruct (turns_keep encode decode code choose' m sched _ M k E) as (nw & TB). cbn [dlaunch dm_thread dt_table] in TB.
    rewrite TB, nth_error_app1 in Y1 by (rewrite map_length; apply nth_error_Some; congruence). rewrite (map_nth_error _ _ _ Iw) in Y1.
    injection Y1 as Y1. now rewrite (move_same rho place w q (eq_sym Y1) O).
Qed.

(** The first program goes on. *)
Variables (xs : list nat) (gs : fstate T) (rsd : list (result T St)).
Hypothesis moves : moved_out kern m fs xs = Some (Ok (gs, rsd)).
Hypothesis owns : owns_moved fs gs owner.
Hypothesis cleaned : forall k fs2 rs2 a, frun kern m fs (map (refile (names k)) (progs k)) = Some (Ok (fs2, rs2)) ->
  (a < length (st_heap (b_state (f_state fs2))))%nat -> (length heap0 <= a)%nat \/ owner a = Some k -> In a (f_freed fs2).
Notation heap1 := (st_heap (b_state (f_state gs))).

Lemma c79_freed : forall a l, In a (f_freed gs) -> nth_error heap1 a = Some l -> l = [].
Proof.
  apply (li_empty _ _ (moved_lighter kern m xs fs gs rsd moves)). intros a l F E.
  rewrite (scope_freed decode choose fs rho0 sigma0 P rel a F) in E. now injection E as <-.
Qed.

(** What the first program still has is what no thread owns. *)
Lemma c79_kept : forall a l, l <> [] -> nth_error heap1 a = Some l <-> nth_error heap0 a = Some l /\ owner a = None.
Proof.
  intros a l NE. split.
  - intros E. assert (N : ~ In a (f_freed gs)) by (intros F; apply NE; now apply (c79_freed a)).
    rewrite (li_rest _ _ (moved_lighter kern m xs fs gs rsd moves) a N) in E. split; [exact E|]. destruct (owner a) eqn:O; [|reflexivity].
    destruct N. apply (owns a l E NE). congruence.
  - intros [E O]. rewrite (li_rest _ _ (moved_lighter kern m xs fs gs rsd moves) a); [exact E|]. intros F. apply (owns a l E NE) in F. congruence.
Qed.

Lemma c79_blocks : forall sched M, dturns start sched = Goes M -> all_ended M ->
  NoDup (dm_used M) /\ forall b, In b (dm_used M) <-> exists a l, nth_error heap1 a = Some l /\ l <> [] /\ b = (place a, N.of_nat (length l)).
Proof.
  intros sched M E D. split.
  - destruct (reached encode decode coding kern code impl choose' m p acts owner place _ _ laid inside disjoint
      (scope_owned fs who owner keeps) (scope_plain kern choose' m fs bs who owner progs steady lends keeps safe inside)
      (scope_defined kern choose' m fs bs who owner progs steady lends keeps safe inside) sched M E) as (own & _ & _ & ND & _). exact ND.
  - destruct (c78_at encode decode coding kern code impl choose choose' m fs bs rho0 sigma0 P who owner progs steady rel lends keeps safe place laid inside disjoint)
      as [_ C]. destruct (C sched M E) as (_ & _ & _ & _ & C5). intros b. rewrite (C5 cleaned D b).
    split; [intros (a & l & X1 & X2 & O & X3)|intros (a & l & X1 & X2 & X3)]; exists a, l.
    + split; [now apply c79_kept|auto].
    + apply c79_kept in X1; [|exact X2]. destruct X1 as [X1 O]. auto.
Qed.

Lemma good_moved : exists bs1, good m gs bs1.
Proof.
  destruct (moved_calls (T := T) (St := St) xs) as [K1 K2].
  assert (Q1 : Forall safe_call (calls (map (fun x => Act (@Drop T St x)) xs))) by (rewrite K1; constructor).
  assert (Q2 : m = Checked \/ no_wrap_history kern m (b_state bs) (calls (map (fun x => Act (@Drop T St x)) xs))) by (right; rewrite K1; exact Logic.I).
  destruct (good_run kern m _ _ _ _ steady Q1 K2 Q2 moves) as (gs0 & rs1 & bs1 & X & G1).
  injection X as <- <-. eauto.
Qed.

Lemma c79_related : forall sched M choose2, dturns start sched = Goes M -> all_ended M -> pr_table P = map (move_matrix place) (st_mats (b_state (f_state fs))) ->
  let h := look_heap decode (dm_mem M) place 0 heap1 in
  exists rho sigma, FlatHistory.related decode choose2 rho sigma (with_items gs h) (waited gs P M) /\ fine (waited gs P M).
Proof.
  intros sched M choose2 E D HT h. pose proof (moved_lighter kern m xs fs gs rsd moves) as LI. destruct (c79_blocks sched M E D) as [ND BL].
  pose proof (sizes_length _ _ (look_sizes decode (dm_mem M) place heap1)) as HL. fold h in HL.
  set (rho := fun a => if (a <? length heap1)%nat then place a else choose2 (length (dm_used M) + (a - length heap1))%nat).
  assert (RE : forall a, (a < length heap1)%nat -> rho a = place a).
  { intros a L. unfold rho. destruct (Nat.ltb_spec a (length heap1)); [auto|lia]. }
  assert (NH : forall a l, nth_error h a = Some l -> exists l0, nth_error heap1 a = Some l0 /\ length l0 = length l /\ (a < length heap1)%nat).
  { intros a l X. unfold h in X. rewrite nth_look in X. cbn [Nat.add] in X. destruct (nth_error heap1 a) as [l0|] eqn:X0; [|discriminate].
    cbn [option_map] in X. injection X as <-. exists l0. rewrite look_length. split; [reflexivity|]. split; [reflexivity|]. apply nth_error_Some. congruence. }
  assert (EM : forall l l0 : list T, length l0 = length l -> l <> [] -> l0 <> []) by (intros l l0 X Y ->; destruct l; [congruence|discriminate]).
  pose proof rel as REL. destruct REL as [_ _ _ _ Rp Rk Rs Rf].
  exists rho, sigma0. split; [|intros b Ib; exact Ib].
  constructor; cbn [with_items waited f_state b_state b_slots st_heap st_mats f_gone f_freed pr_bytes pr_table pr_slots pr_gone y_mem]; auto.
  - rewrite HT, (li_mats _ _ LI). symmetry. apply (map_move_ext place rho heap0); [exact Rp|]. intros a L. apply RE. now rewrite (li_length _ _ LI).
  - constructor; cbn [y_mem y_blocks].
    + intros a i v V. unfold h in V. rewrite hget_look in V. destruct (hget heap1 a i) as [v0|] eqn:V0; [|discriminate]. cbn [option_map] in V. injection V as <-.
      rewrite RE; [reflexivity|]. pose proof (hget_inv choose2 (dm_mem M) _ _ _ _ V0) as (l & X & _). apply nth_error_Some. congruence.
    + intros b. rewrite BL. split.
      * intros (a & l & X1 & X2 & ->). exists a, (look decode (dm_mem M) place a l). split; [unfold h; rewrite nth_look, X1; reflexivity|].
        rewrite look_length. split; [|rewrite RE; [reflexivity|apply nth_error_Some; congruence]]. intros Z. apply (f_equal (@length T)) in Z. rewrite look_length in Z. now destruct l.
      * intros (a & l & X1 & X2 & ->). destruct (NH a l X1) as (l0 & Y1 & Y2 & Y3). exists a, l0. split; [exact Y1|]. split; [eauto|]. now rewrite RE, Y2.
    + intros a a' l l' X X' NE NE' DD. destruct (NH a l X) as (l0 & Y1 & Y2 & Y3). destruct (NH a' l' X') as (l1 & Z1 & Z2 & Z3). rewrite !RE by auto. rewrite <- Y2, <- Z2.
      apply dis_apart; cbn [snd].
      * rewrite Y2. destruct l; [congruence|]. cbn [length]. lia.
      * rewrite Z2. destruct l'; [congruence|]. cbn [length]. lia.
      * apply c79_kept in Y1; [|eauto]. apply c79_kept in Z1; [|eauto]. apply (laid_apart _ _ _ _ _ laid); [apply Y1|apply Z1|eauto|eauto|exact DD].
    + exact ND.
    + intros j. rewrite HL. unfold rho, y_count. cbn [y_log]. destruct (Nat.ltb_spec (length heap1 + j) (length heap1)); [lia|]. f_equal. lia.
    + reflexivity.
  - unfold all_placed in *. cbn [st_heap st_mats]. rewrite Forall_forall in *. intros x Ix a La. rewrite HL, (li_length _ _ LI). rewrite (li_mats _ _ LI) in Ix. now apply (Rp x Ix).
  - now rewrite (li_mats _ _ LI).
  - intros a l X. destruct (NH a l X) as (l0 & Y1 & Y2 & Y3). destruct (Dealloc.mem (f_freed gs) a) eqn:Mf; [left; apply mem_in in Mf|right; apply mem_out in Mf].
    + split; [exact Mf|]. rewrite (c79_freed a l0 Mf Y1) in Y2. now destruct l.
    + split; [exact Mf|]. rewrite (li_rest _ _ LI a Mf) in Y1. destruct (Rs a l0 Y1) as [[F _]|[_ F]]; [|now rewrite F, Y2].
      destruct Mf. now apply (li_freed _ _ LI).
  - intros a F. rewrite HL. destruct (good_moved) as (bs1 & G). apply (proj2 (r_heap _ _ (v_rel _ _ (g_finv _ _ _ G)))) in F.
    now rewrite (proj1 (proj1 (r_heap _ _ (v_rel _ _ (g_finv _ _ _ G))))).
Qed.

Lemma c79_on : forall sched M choose2 (rest : list (faction T St)), dturns start sched = Goes M -> all_ended M -> pr_table P = map (move_matrix place) (st_mats (b_state (f_state fs))) ->
  let hs := with_items gs (look_heap decode (dm_mem M) place 0 heap1) in
  Forall safe_call (calls rest) -> Forall no_split (kept rest) ->
  m = Checked \/ (forall h, no_wrap_history kern m (mkState h (st_mats (b_state (f_state fs)))) (calls rest)) ->
  (exists o, frun kern m hs rest = Some o) ->
  exists hs2 rs2, frun kern m hs rest = Some (Ok (hs2, rs2)) /\
    (process_run encode decode code choose2 m (waited gs P M) rest = NoMemory \/
     exists P2 place2, process_run encode decode code choose2 m (waited gs P M) rest = Goes (P2, rs2) /\ holds decode place2 hs2 P2).
Proof.
  intros sched M choose2 rest E D HT hs Hs Hn Hm (o & R). destruct (c79_related sched M choose2 E D HT) as (rho & sigma & REL & FI). fold hs in REL.
  destruct good_moved as (bs1 & G).
  destruct (good_items m gs bs1 _ G (look_sizes decode (dm_mem M) place heap1)) as (hb & GB). fold hs in GB.
  assert (Hm' : m = Checked \/ no_wrap_history kern m (mkState hb (st_mats (b_state bs1))) (calls rest)).
  { destruct Hm as [->|Hm]; [now left|right]. rewrite <- (r_mats _ _ (v_rel _ _ (g_finv _ _ _ G))), (li_mats _ _ (moved_lighter kern m xs fs gs rsd moves)). apply Hm. }
  destruct (good_run kern m rest hs _ o GB Hs Hn Hm' R) as (hs2 & rs2 & bs2 & -> & _). exists hs2, rs2. split; [exact R|].
  destruct GB as [B1 B2 B3 B4].
  pose proof (safe_plain kern m rest hs _ B1 B2 B3 B4 Hs Hn Hm') as PP.
  pose proof (sim_frun encode decode coding choose2 kern code impl m rest _ _ _ _ REL FI PP) as S. rewrite R in S.
  destruct S as [S|(rho2 & sigma2 & P2 & S & REL2 & _)]; [now left|right]. exists P2, rho2. split; [exact S|].
  eapply related_holds; eauto.
Qed.
End Place.

(** What is handed over by value is what the first program moves. *)
Lemma moves_own : forall xs gs (rsd : list (result T St)), hands_over fs who owner -> moved_out kern m fs xs = Some (Ok (gs, rsd)) ->
  (forall x v, nth_error (st_mats (b_state (f_state fs))) x = Some v -> owned v <> [] -> (In x xs <-> exists k, In x (who k))) ->
  owns_moved fs gs owner.
Proof.
  intros xs gs rsd [H _] MV HX a l E NE. rewrite (moved_freed kern m xs fs gs rsd MV a). split.
  - intros O. right. destruct (owner a) as [k|] eqn:O'; [|congruence]. apply H in O'. destruct O' as (x & v & I & X & Y). exists x, v. split; [|auto].
    apply (HX x v X); [intros Z; now rewrite Z in Y|eauto].
  - intros [F|(x & v & I & X & Y)].
    + rewrite (scope_freed decode choose fs rho0 sigma0 P rel a F) in E. congruence.
    + apply (HX x v X) in I; [|intros Z; now rewrite Z in Y]. destruct I as (k & I). intros Z. assert (owner a = Some k) by (apply H; eauto). congruence.
Qed.

Lemma joins_at : forall place xs gs (rsd : list (result T St)), moved_out kern m fs xs = Some (Ok (gs, rsd)) -> owns_moved fs gs owner ->
  (forall k fs2 rs2 a, frun kern m fs (map (refile (names k)) (progs k)) = Some (Ok (fs2, rs2)) ->
     (a < length (st_heap (b_state (f_state fs2))))%nat -> (length heap0 <= a)%nat \/ owner a = Some k -> In a (f_freed fs2)) ->
  holds decode place fs P ->
  forall sched M, dturns (dlaunch p place (y_mem (pr_bytes P)) (y_blocks (pr_bytes P)) acts) sched = Goes M -> all_ended M ->
  let h := look_heap decode (dm_mem M) place 0 (st_heap (b_state (f_state gs))) in
  same_sizes (st_heap (b_state (f_state gs))) h /\
    (forall q v, hget (st_heap (b_state (f_state gs))) (fst q) (snd q) = Some v ->
       (forall k w, In w (p_tabs p k) -> is_writable w = true -> ~ occupies w q) -> hget h (fst q) (snd q) = Some v) /\
    (forall k, exists fs2 rs2, frun kern m fs (map (refile (names k)) (progs k)) = Some (Ok (fs2, rs2)) /\ dt_done (dm_thread M k) = call_results (progs k) rs2 /\
       forall w q v, In w (p_tabs p k) -> occupies w q -> owner (fst q) = None ->
         hget (st_heap (b_state (f_state fs2))) (fst q) (snd q) = Some v -> hget h (fst q) (snd q) = Some v) /\
    forall choose2 (rest : list (faction T St)), Forall safe_call (calls rest) -> Forall no_split (kept rest) ->
      m = Checked \/ (forall h', no_wrap_history kern m (mkState h' (st_mats (b_state (f_state fs)))) (calls rest)) ->
      (exists o, frun kern m (with_items gs h) rest = Some o) ->
      exists hs rs2, frun kern m (with_items gs h) rest = Some (Ok (hs, rs2)) /\
        (process_run encode decode code choose2 m (waited gs P M) rest = NoMemory \/
         exists P2 place2, process_run encode decode code choose2 m (waited gs P M) rest = Goes (P2, rs2) /\ holds decode place2 hs P2).
Proof.
  intros place xs gs rsd MV OW CL HO.
  destruct (start_from T SC B decode choose m fs bs rho0 sigma0 P place who steady rel HO lends) as (LO & IM & AP).
  intros sched M E D. destruct (c79_at place LO IM AP sched M E) as [C1 C2].
  assert (KP : forall q v, hget (st_heap (b_state (f_state gs))) (fst q) (snd q) = Some v <-> hget heap0 (fst q) (snd q) = Some v /\ owner (fst q) = None).
  { intros q v. split.
    - intros V. pose proof (hget_inv choose (dm_mem M) _ _ _ _ V) as (l & X & NE & _). pose proof (proj1 (c79_kept xs gs rsd MV OW (fst q) l NE) X) as [X0 O].
      split; [|exact O]. unfold hget in *. rewrite X in V. now rewrite X0.
    - intros [V O]. pose proof (hget_inv choose (dm_mem M) _ _ _ _ V) as (l & X & NE & _). pose proof (proj2 (c79_kept xs gs rsd MV OW (fst q) l NE) (conj X O)) as X1.
      unfold hget in *. rewrite X in V. now rewrite X1. }
  cbv zeta. split; [apply look_sizes|]. split; [|split].
  - intros q v V H. rewrite hget_look, V. cbn [option_map]. apply KP in V. destruct V as [V O]. now rewrite (C1 q v V O H).
  - intros k. destruct (D k) as [D1 D2]. destruct (C2 k D1) as (made & left & fs2 & rs2 & X1 & X2 & X3 & X4 & X5). rewrite D2 in X2. apply map_eq_nil in X2. subst left.
    rewrite app_nil_r in X1. rewrite X1. exists fs2, rs2. split; [exact X3|]. split; [exact X4|]. intros w q v Iw Oc O V. rewrite hget_look.
    pose proof (laid_inside _ _ _ _ _ LO k w q Iw Oc) as H. cbn [handed p_heap] in H. destruct (hget heap0 (fst q) (snd q)) as [v0|] eqn:V0; [|congruence].
    rewrite (proj2 (KP q v0) (conj V0 O)). cbn [option_map]. now rewrite (X5 w q v Iw Oc V).
  - intros choose2 rest Hs Hn Hm R. destruct HO as [H1 _ _ _ _ _]. exact (c79_on place LO IM AP xs gs rsd MV OW CL sched M choose2 rest E D H1 Hs Hn Hm R).
Qed.
End Joins.

Section FromNothing.
Context {T : Type} {SC : HScalar T} {St : Type} {B : Type}.
Variable encode : T -> list B.
Variable decode : list B -> T.
Hypothesis coding : faithful encode decode.
Variable kern : kernel T.
Variable code : gemm_args T -> prog T unit.
Hypothesis impl : implements code kern.
Variables choose : nat -> nat.
Variable choose' : nat -> nat -> nat.
Variables (m : mode) (M0 : N -> B) (main : list (faction T St)) (fs : fstate T) (rs rs' : list (result T St)) (P : process T B).
Variables (who : nat -> list nat) (owner : nat -> option nat) (progs : nat -> list (faction T St)).
Hypothesis main_safe : safe_program kern m main.
Hypothesis main_runs : frun kern m finitial main = Some (Ok (fs, rs)).
Hypothesis main_bytes : process_run encode decode code choose m (begin_process M0) main = Goes (P, rs').

Lemma c79_moves : forall xs gs (rsd : list (result T St)), hands_over fs who owner -> moved_out kern m fs xs = Some (Ok (gs, rsd)) ->
  (forall x v, nth_error (st_mats (b_state (f_state fs))) x = Some v -> owned v <> [] -> (In x xs <-> exists k, In x (who k))) ->
  owns_moved fs gs owner.
Proof.
  destruct (main_related encode decode coding kern code impl choose m M0 main fs rs rs' P main_safe main_runs main_bytes) as (rho & sigma & REL & _).
  exact (moves_own decode kern choose m fs rho sigma P who owner REL).
Qed.

Hypothesis lends : lends_apart (f_state fs) who.
Notation p := (handed (f_state fs) who).
Hypothesis keeps : kept_apart p owner.
Notation names k := (thread_names fs who k).
Hypothesis safe : forall k, safe_program kern m (main ++ map (refile (names k)) (progs k)).
Notation acts := (fun k => map erased (progs k)).
Notation dturns := (dturns encode decode code choose' m).
Notation heap0 := (st_heap (b_state (f_state fs))).

Lemma c79_after : exists place, holds decode place fs P /\
  forall sched M, dturns (dlaunch p place (y_mem (pr_bytes P)) (y_blocks (pr_bytes P)) acts) sched = Goes M ->
  (forall q v, hget heap0 (fst q) (snd q) = Some v -> owner (fst q) = None ->
     (forall k w, In w (p_tabs p k) -> is_writable w = true -> ~ occupies w q) ->
     load decode (dm_mem M) (address (mkPlace (place (fst q)) (snd q))) = v) /\
  (forall k, dt_now (dm_thread M k) = None -> exists made left fs2 rs2,
     progs k = made ++ left /\ map erased left = dt_left (dm_thread M k) /\
     frun kern m fs (map (refile (names k)) made) = Some (Ok (fs2, rs2)) /\ dt_done (dm_thread M k) = call_results made rs2 /\
     forall w q v, In w (p_tabs p k) -> occupies w q -> hget (st_heap (b_state (f_state fs2))) (fst q) (snd q) = Some v ->
       load decode (dm_mem M) (address (mkPlace (place (fst q)) (snd q))) = v).
Proof.
  destruct (main_related encode decode coding kern code impl choose m M0 main fs rs rs' P main_safe main_runs main_bytes) as (rho & sigma & REL & _).
  destruct (main_good kern m main fs rs main_safe main_runs) as (bs & G). pose proof (related_holds _ _ _ _ _ _ REL) as HO.
  destruct (start_from T SC B decode choose m fs bs rho sigma P rho who G REL HO lends) as (LO & IM & AP).
  exists rho. split; [exact HO|].
  exact (c79_at encode decode coding kern code impl choose choose' m fs bs rho sigma P who owner progs G REL lends keeps
    (fun k => main_next kern m main fs rs main_runs _ (safe k)) rho LO IM AP).
Qed.

Lemma c79_join : forall xs gs (rsd : list (result T St)), moved_out kern m fs xs = Some (Ok (gs, rsd)) -> owns_moved fs gs owner ->
  (forall k fs2 rs2 a, frun kern m fs (map (refile (names k)) (progs k)) = Some (Ok (fs2, rs2)) ->
     (a < length (st_heap (b_state (f_state fs2))))%nat -> (length heap0 <= a)%nat \/ owner a = Some k -> In a (f_freed fs2)) ->
  exists place, holds decode place fs P /\
  forall sched M, dturns (dlaunch p place (y_mem (pr_bytes P)) (y_blocks (pr_bytes P)) acts) sched = Goes M -> all_ended M ->
  exists h, same_sizes (st_heap (b_state (f_state gs))) h /\
    (forall q v, hget (st_heap (b_state (f_state gs))) (fst q) (snd q) = Some v ->
       (forall k w, In w (p_tabs p k) -> is_writable w = true -> ~ occupies w q) -> hget h (fst q) (snd q) = Some v) /\
    (forall k, exists fs2 rs2, frun kern m fs (map (refile (names k)) (progs k)) = Some (Ok (fs2, rs2)) /\ dt_done (dm_thread M k) = call_results (progs k) rs2 /\
       forall w q v, In w (p_tabs p k) -> occupies w q -> owner (fst q) = None ->
         hget (st_heap (b_state (f_state fs2))) (fst q) (snd q) = Some v -> hget h (fst q) (snd q) = Some v) /\
    forall choose2 (rest : list (faction T St)), Forall safe_call (calls rest) -> Forall no_split (kept rest) ->
      m = Checked \/ (forall h', no_wrap_history kern m (mkState h' (st_mats (b_state (f_state fs)))) (calls rest)) ->
      (exists o, frun kern m (with_items gs h) rest = Some o) ->
      exists hs rs2, frun kern m (with_items gs h) rest = Some (Ok (hs, rs2)) /\
        (process_run encode decode code choose2 m (waited gs P M) rest = NoMemory \/
         exists P2 place2, process_run encode decode code choose2 m (waited gs P M) rest = Goes (P2, rs2) /\ holds decode place2 hs P2).
Proof.
  intros xs gs rsd MV OW CL.
  destruct (main_related encode decode coding kern code impl choose m M0 main fs rs rs' P main_safe main_runs main_bytes) as (rho & sigma & REL & _).
  destruct (main_good kern m main fs rs main_safe main_runs) as (bs & G). pose proof (related_holds _ _ _ _ _ _ REL) as HO.
  exists rho. split; [exact HO|]. intros sched M E D. exists (look_heap decode (dm_mem M) rho 0 (st_heap (b_state (f_state gs)))).
  exact (joins_at encode decode coding kern code impl choose choose' m fs bs rho sigma P who owner progs G REL lends keeps
    (fun k => main_next kern m main fs rs main_runs _ (safe k)) rho xs gs rsd MV OW CL HO sched M E D).
Qed.
End FromNothing.
