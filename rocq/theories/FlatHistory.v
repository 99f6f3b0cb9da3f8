(** * Proofs about the histories of [Flat]. *)

From Coq Require Import Lia ZifyBool ZifyNat ZifyN.
From Verif Require Import Machine MachineFacts Layouts Memory MemoryFacts Matrix MatMul Spec MatrixSpec ExprSpec ProductSpec.
From Verif Require Import Program HistorySpec HistoryProofs Borrow Dealloc DeallocProofs Threads Interleave InterleaveProofs Flat FlatProofs.
Local Open Scope N_scope.

Section FlatHistory.
Context {T : Type} {SC : HScalar T} {St : Type} {B : Type}.
Variable encode : T -> list B.
Variable decode : list B -> T.
Hypothesis coding : faithful encode decode.
Variable choose : nat -> nat.
Variable kern : kernel T.
Variable code : gemm_args T -> prog T unit.
Hypothesis impl : implements code kern.
Notation heap := (@heap T).
Notation rep := (rep decode choose).
Notation perform := (perform encode decode choose).

(** ** Changing the names beyond the heap *)

Lemma move_ext : forall (rho rho' : nat -> nat) h (x : matrix T), placed h x -> (forall a, (a < length h)%nat -> rho' a = rho a) ->
  move_matrix rho' x = move_matrix rho x.
Proof.
  intros rho rho' h x. induction x; intros P E; cbn [move_matrix].
  - unfold move_base, move_region. rewrite E; auto. apply P. reflexivity.
  - f_equal. now apply IHx.
  - f_equal. now apply IHx.
  - f_equal. now apply IHx.
  - f_equal; [apply IHx1|apply IHx2]; auto; intros a L; apply P; cbn [lives_in]; auto.
Qed.
Lemma map_move_ext : forall (rho rho' : nat -> nat) h (l : list (matrix T)), Forall (placed h) l -> (forall a, (a < length h)%nat -> rho' a = rho a) ->
  map (move_matrix rho') l = map (move_matrix rho) l.
Proof. intros rho rho' h l H E. apply map_ext_in. intros x I. rewrite Forall_forall in H. apply (move_ext rho rho' h); auto. Qed.

Lemma owned_fst : forall x : matrix T, owned x = map fst (owned_blocks x).
Proof.
  induction x; cbn [owned owned_blocks]; auto.
  - destruct (c_kind (bm_data b)); reflexivity.
  - now rewrite map_app, IHx1, IHx2.
Qed.
Lemma owned_moved : forall rho (x : matrix T), owned_blocks (move_matrix rho x) = map (fun b => (rho (fst b), snd b)) (owned_blocks x).
Proof.
  intros rho x. induction x; cbn [move_matrix owned_blocks]; auto.
  - cbn [move_base bm_data c_kind c_region]. destruct (c_kind (bm_data b)); reflexivity.
  - now rewrite map_app, IHx1, IHx2.
Qed.
Lemma owned_lives : forall (x : matrix T) b, In b (owned_blocks x) -> lives_in (fst b) x.
Proof.
  intros x b. induction x; cbn [owned_blocks lives_in]; try contradiction; auto.
  - unfold allocation. destruct (c_kind (bm_data b0)); cbn [In]; try contradiction; intros [<-|[]]; reflexivity.
  - rewrite in_app_iff. tauto.
Qed.
Lemma known_ext : forall (sigma sigma' : nat -> N) h (x : matrix T), placed h x -> (forall a, (a < length h)%nat -> sigma' a = sigma a) ->
  owns_known sigma x -> owns_known sigma' x.
Proof. intros sigma sigma' h x P E K b I. rewrite (K b I). symmetry. apply E, P, owned_lives, I. Qed.

(** ** The invariant *)

Record related (rho : nat -> nat) (sigma : nat -> N) (fs : fstate T) (P : process T B) : Prop := {
  rel_table : pr_table P = map (move_matrix rho) (st_mats (b_state (f_state fs)));
  rel_slots : pr_slots P = b_slots (f_state fs);
  rel_gone : pr_gone P = f_gone fs;
  rel_rep : rep (y_mem (pr_bytes P)) rho (st_heap (b_state (f_state fs))) (pr_bytes P);
  rel_placed : all_placed (b_state (f_state fs));
  rel_known : Forall (owns_known sigma) (st_mats (b_state (f_state fs)));
  rel_sizes : forall a l, nth_error (st_heap (b_state (f_state fs))) a = Some l ->
    In a (f_freed fs) /\ l = [] \/ ~ In a (f_freed fs) /\ sigma a = N.of_nat (length l);
  rel_freed : forall a, In a (f_freed fs) -> (a < length (st_heap (b_state (f_state fs))))%nat
}.

Lemma rep_rebase : forall before before' rho h Y, rep before rho h Y -> (forall x, outside Y x -> y_mem Y x = before' x) -> rep before' rho h Y.
Proof. intros before before' rho h Y H F. destruct H. constructor; auto. Qed.

(** ** Freeing *)

Lemma block_eqb_true : forall b b', block_eqb b b' = true <-> b = b'.
Proof.
  intros [a n] [a' n']. unfold block_eqb. cbn [fst snd]. rewrite Bool.andb_true_iff, Nat.eqb_eq, N.eqb_eq. split; [intros [-> ->]; auto|].
  intros E. injection E as -> ->. auto.
Qed.
Lemma remove_found : forall b l, In b l -> NoDup l -> exists l', remove_block b l = Some l' /\ NoDup l' /\ forall x, In x l' <-> In x l /\ x <> b.
Proof.
  intros b l. induction l as [|c l IH]; intros I ND; [contradiction|]. cbn [remove_block]. inversion ND as [|? ? N ND']. subst.
  destruct (block_eqb b c) eqn:E.
  - apply block_eqb_true in E. subst c. exists l. split; auto. split; auto. intros x. cbn [In]. split.
    + intros X. split; auto. intros ->. contradiction.
    + intros [[<-|X] D]; [congruence|auto].
  - assert (D : b <> c) by (intros X; apply block_eqb_true in X; congruence).
    destruct I as [->|I]; [congruence|]. destruct (IH I ND') as (l' & R & NDl & H). rewrite R. cbn [option_map]. exists (c :: l').
    split; auto. split.
    + constructor; auto. intros X. apply H in X. tauto.
    + intros x. cbn [In]. rewrite H. split; [intros [<-|[X Y]]; split; auto; congruence|]. intros [[<-|X] Y]; auto.
Qed.
Lemma remove_sub : forall b l l' x, remove_block b l = Some l' -> In x l' -> In x l.
Proof.
  intros b l. induction l as [|c l IH]; intros l' x E I; cbn [remove_block] in E; [discriminate|].
  destruct (block_eqb b c); [injection E as <-; now right|]. destruct (remove_block b l) as [k|]; [|discriminate].
  injection E as <-. destruct I as [<-|I]; [now left|right; eauto].
Qed.

Lemma upd_same : forall (h : heap) a l, nth_error h a = Some l -> upd h a l = h.
Proof.
  intros h a l E. apply nth_error_ext. intros i. rewrite nth_upd. destruct (Nat.eqb_spec a i) as [<-|]; auto. now rewrite E.
Qed.

Definition one_freed (rho : nat -> nat) (h : heap) (Y : bytes B) (a : nat) (l : list T) : Prop :=
  exists Y', give_back Y (rho a, N.of_nat (length l)) = Ok Y' /\ rep (y_mem Y') rho (upd h a []) Y' /\ y_mem Y' = y_mem Y /\ y_log Y' = y_log Y /\
    (forall b, In b (y_blocks Y') -> In b (y_blocks Y)).
Lemma rep_free : forall before rho h Y a l, rep before rho h Y -> nth_error h a = Some l -> one_freed rho h Y a l.
Proof.
  intros before rho h Y a l H E. unfold one_freed, give_back. cbn [snd]. destruct (N.eqb_spec (N.of_nat (length l)) 0) as [Z|Z].
  - exists Y. assert (l = []) by (destruct l; auto; cbn in Z; lia). subst l. rewrite upd_same; auto. repeat split; auto; try apply H.
  - assert (Hl : l <> []) by (intros ->; cbn in Z; congruence).
    assert (I : In (rho a, N.of_nat (length l)) (y_blocks Y)) by (apply (rep_blocks _ _ _ _ _ _ H); exists a, l; auto).
    destruct (remove_found _ _ I (rep_nodup _ _ _ _ _ _ H)) as (k & R & ND & M). rewrite R. eexists. split; [reflexivity|]. cbn [y_mem y_blocks y_log].
    split; [|split; [reflexivity|split; [reflexivity|intros b X; apply M in X; apply X]]].
    assert (NTH : forall a' l', nth_error (upd h a []) a' = Some l' -> l' <> [] -> a' <> a /\ nth_error h a' = Some l').
    { intros a' l' E' Hl'. rewrite nth_upd in E'. destruct (Nat.eqb_spec a a') as [<-|D]; [|split; auto].
      rewrite E in E'. injection E' as <-. congruence. }
    constructor; cbn [y_mem y_blocks].
    + intros a' i v G. apply (hget_inv choose (y_mem Y)) in G. destruct G as (l' & G & Hl' & Gn & _). apply NTH in G; auto. destruct G as [_ G].
      apply (rep_items _ _ _ _ _ _ H). unfold hget. now rewrite G.
    + intros b. rewrite M, (rep_blocks _ _ _ _ _ _ H b). split.
      * intros [(a' & l' & E' & Hl' & ->) D]. exists a', l'. split; auto. rewrite nth_upd. destruct (Nat.eqb_spec a a') as [<-|]; auto.
        rewrite E in E'. injection E' as <-. congruence.
      * intros (a' & l' & E' & Hl' & ->). apply NTH in E'; auto. destruct E' as [D E']. split; [exists a', l'; auto|].
        intros X. injection X as X1 X2. pose proof (rep_apart _ _ _ _ _ _ H _ _ _ _ E' E Hl' Hl D) as A. unfold blocks_apart in A. cbn [fst snd] in A.
        rewrite X1, X2, Bool.orb_true_iff, !N.leb_le in A. pose proof size_pos. nia.
    + intros a1 a2 l1 l2 E1 E2 H1 H2 D. apply NTH in E1; auto. apply NTH in E2; auto. now apply (rep_apart _ _ _ _ _ _ H).
    + exact ND.
    + intros j. rewrite upd_length. apply (rep_next _ _ _ _ _ _ H).
    + reflexivity.
Qed.

Lemma sim_free_all : forall rho sigma l fs fs' Y, free_all fs (map fst l) = Ok fs' ->
  rep (y_mem Y) rho (st_heap (b_state (f_state fs))) Y ->
  (forall b, In b l -> snd b = sigma (fst b) /\ (fst b < length (st_heap (b_state (f_state fs))))%nat) ->
  (forall a k, nth_error (st_heap (b_state (f_state fs))) a = Some k ->
     In a (f_freed fs) /\ k = [] \/ ~ In a (f_freed fs) /\ sigma a = N.of_nat (length k)) ->
  (forall a, In a (f_freed fs) -> (a < length (st_heap (b_state (f_state fs))))%nat) ->
  exists Y', give_back_all Y (map (fun b => (rho (fst b), snd b)) l) = Ok Y' /\
    rep (y_mem Y') rho (st_heap (b_state (f_state fs'))) Y' /\ y_mem Y' = y_mem Y /\ y_log Y' = y_log Y /\
    (forall b, In b (y_blocks Y') -> In b (y_blocks Y)) /\
    st_mats (b_state (f_state fs')) = st_mats (b_state (f_state fs)) /\ b_slots (f_state fs') = b_slots (f_state fs) /\ f_gone fs' = f_gone fs /\
    length (st_heap (b_state (f_state fs'))) = length (st_heap (b_state (f_state fs))) /\
    (forall a k, nth_error (st_heap (b_state (f_state fs'))) a = Some k ->
       In a (f_freed fs') /\ k = [] \/ ~ In a (f_freed fs') /\ sigma a = N.of_nat (length k)) /\
    (forall a, In a (f_freed fs') -> (a < length (st_heap (b_state (f_state fs'))))%nat).
Proof.
  intros rho sigma l. induction l as [|[a n] l IH]; intros fs fs' Y E R K SZ FR; cbn [map free_all give_back_all fst snd] in *.
  - injection E as <-. exists Y. repeat (split; auto).
  - apply bind_ok in E. destruct E as (fs1 & E1 & E). unfold free in E1. destruct (mem (f_freed fs) a) eqn:M; [discriminate|]. injection E1 as <-.
    apply mem_out in M. destruct (K (a, n) (or_introl eq_refl)) as [Ka La]. cbn [fst snd] in Ka, La.
    destruct (nth_error (st_heap (b_state (f_state fs))) a) as [k|] eqn:Ek; [|apply nth_error_None in Ek; lia].
    destruct (SZ a k Ek) as [[X _]|[_ S]]; [contradiction|].
    destruct (rep_free _ _ _ _ _ _ R Ek) as (Y1 & G1 & R1 & M1 & L1 & B1). rewrite Ka, S, G1. cbn [bind].
    destruct (IH _ fs' Y1 E) as (Y2 & G2 & R2 & M2 & L2 & B2 & T1 & T2 & T3 & T4 & T5 & T6).
    + exact R1.
    + intros b I. cbn [f_state set_heap b_state st_heap]. rewrite upd_length. apply K. now right.
    + intros a' k' E'. cbn [f_state set_heap b_state st_heap f_freed] in *. rewrite nth_upd in E'. destruct (Nat.eqb_spec a a') as [<-|D].
      * rewrite Ek in E'. injection E' as <-. left. split; [now left|reflexivity].
      * destruct (SZ _ _ E') as [[X ->]|[X Z]]; [left; split; auto; now right|right; split; auto]. intros [|]; auto.
    + intros a' I. cbn [f_state set_heap b_state st_heap f_freed] in *. rewrite upd_length. destruct I as [<-|I]; auto.
    + exists Y2. cbn [f_state set_heap b_state st_heap st_mats b_slots f_gone] in *. rewrite upd_length in T4.
      split; [exact G2|]. split; [exact R2|]. split; [congruence|]. split; [congruence|]. repeat (split; auto).
Qed.

Definition frame (P P' : process T B) : Prop :=
  y_mem (pr_bytes P') = y_mem (pr_bytes P) /\ y_log (pr_bytes P') = y_log (pr_bytes P) /\
  (forall b, In b (y_blocks (pr_bytes P')) -> In b (y_blocks (pr_bytes P))).
Lemma frame_refl : forall P, frame P P.
Proof. intros P. repeat split; auto. Qed.
Lemma frame_trans : forall P1 P2 P3, frame P1 P2 -> frame P2 P3 -> frame P1 P3.
Proof. intros P1 P2 P3 (A & B1 & C) (A' & B' & C'). repeat split; try congruence. auto. Qed.

Lemma sim_destroy : forall rho sigma fs fs' P x, related rho sigma fs P -> destroy fs x = Ok fs' ->
  exists P', destroy_one P x = Ok P' /\ related rho sigma fs' P' /\ frame P P'.
Proof.
  intros rho sigma fs fs' P x H E. unfold destroy in E. unfold destroy_one. rewrite (rel_table _ _ _ _ H). rewrite nth_error_map.
  destruct (nth_error (st_mats (b_state (f_state fs))) x) as [v|] eqn:V; cbn [option_map]; [|injection E as <-; exists P; auto using frame_refl].
  rewrite owned_fst in E. rewrite owned_moved.
  assert (I : In v (st_mats (b_state (f_state fs)))) by (eapply nth_error_In, V).
  destruct (sim_free_all rho sigma (owned_blocks v) _ fs' (pr_bytes P) E) as (Y & G & R & M & L & BL & T1 & T2 & T3 & T4 & T5 & T6).
  - apply H.
  - intros b Ib. pose proof (rel_known _ _ _ _ H) as K. pose proof (rel_placed _ _ _ _ H) as PL. unfold all_placed in PL. rewrite Forall_forall in K, PL. split; [now apply (K v I)|].
    apply (PL v I). now apply owned_lives.
  - apply H.
  - apply H.
  - rewrite G. cbn [bind f_state f_gone f_freed] in *. eexists. split; [reflexivity|]. split; [|repeat split; auto]. constructor; cbn [pr_table pr_slots pr_gone pr_bytes]; auto.
    + now rewrite T1.
    + rewrite T2. apply H.
    + rewrite T3. cbn [f_gone]. f_equal. apply H.
    + unfold all_placed. rewrite T1. pose proof (rel_placed _ _ _ _ H) as PL. unfold all_placed in PL. eapply Forall_impl; [|exact PL].
      intros w Pw a La. rewrite T4. now apply Pw.
    + rewrite T1. apply H.
Qed.

Lemma sim_destroy_all : forall rho sigma xs fs fs' P, related rho sigma fs P -> destroy_all fs xs = Ok fs' ->
  exists P', destroy_each P xs = Ok P' /\ related rho sigma fs' P' /\ frame P P'.
Proof.
  intros rho sigma xs. induction xs as [|x xs IH]; intros fs fs' P H E; cbn [destroy_all destroy_each] in *.
  - injection E as <-. exists P. auto using frame_refl.
  - apply bind_ok in E. destruct E as (fs1 & E1 & E). destruct (sim_destroy _ _ _ _ _ _ H E1) as (P1 & D1 & H1 & F1). rewrite D1. cbn [bind].
    destruct (IH _ _ _ H1 E) as (P2 & D2 & H2 & F2). exists P2. eauto using frame_trans.
Qed.

(** ** Calls *)

Lemma fits_panic : forall A n (R W : nat * N -> Prop) (c : prog T A) d Q h h', InterleaveProofs.fits n R W d c Q -> (n <= length h)%nat ->
  full c h = (Panic, h') -> d = false /\ forall a, (a < n)%nat -> nth_error h' a = nth_error h a.
Proof.
  intros A n R W c. induction c as [o|p k IH|p v k IH|l k IH]; intros d Q h h' F L E; cbn [InterleaveProofs.fits full] in *.
  - injection E as -> <-. auto.
  - unfold place_read in E. destruct (hget h _ _) as [v|]; [|discriminate]. eapply IH; [apply F| |]; eauto.
  - unfold place_write in E. destruct (hget h _ _) as [w|]; [|discriminate].
    assert (L' : (n <= length (hset h (pl_alloc p) (pl_index p) v))%nat) by now rewrite hset_length.
    destruct (IH _ _ _ _ (proj2 F) L' E) as [D X]. apply Bool.orb_false_iff in D. destruct D as [-> D]. split; auto.
    intros a La. rewrite X by auto. unfold hset. destruct (nth_error h (pl_alloc p)); auto. rewrite nth_upd. destruct (Nat.eqb_spec (pl_alloc p) a) as [<-|]; auto.
    apply Nat.ltb_ge in D. lia.
  - unfold alloc in E. assert (L' : (n <= length (h ++ [l]))%nat) by (rewrite app_length; lia).
    destruct (IH _ d Q (h ++ [l]) h' (F (mkRegion (length h) 0 (N.of_nat (length l))) L) L' E) as [-> X]. split; auto.
    intros a La. rewrite X by auto. apply nth_error_app1. lia.
Qed.

(** What the allocator handed out is in the log. *)
Definition logged (Y : bytes B) : Prop := forall b, In b (y_blocks Y) -> In b (y_log Y).
Definition space (b : nat * N) : Prop := snd b = 0 \/ N.of_nat (fst b) + snd b * item_size <= usize_mod.
Lemma perform_log : forall A (c : prog T A) Y o Y', perform c Y = Some (o, Y') -> logged Y ->
  logged Y' /\ exists new, y_log Y' = new ++ y_log Y /\ Forall space new.
Proof.
  intros A c. induction c as [o|p k IH|p v k IH|l k IH]; intros Y o' Y' E L; cbn [Flat.perform] in E.
  - injection E as <- <-. split; auto. exists []. auto.
  - eauto.
  - destruct (IH _ _ _ E) as (L' & new & N & S); auto. split; auto. exists new. auto.
  - destruct (grants Y _) eqn:G; [|discriminate]. destruct (IH _ _ _ _ E) as (L' & new & N & S).
    + unfold logged, take. cbn [y_blocks y_log snd fst]. intros b I. destruct (_ =? 0); [right; auto|]. destruct I as [<-|I]; [now left|right; auto].
    + split; auto. exists (new ++ [(choose (y_count Y), N.of_nat (length l))]). rewrite N. unfold take. cbn [y_log]. rewrite <- app_assoc. split; auto.
      apply Forall_app. split; auto. constructor; auto. unfold space, grants in *. cbn [fst snd] in *.
      apply Bool.orb_true_iff in G. rewrite Bool.andb_true_iff in G. destruct G as [G|[G _]]; [left; lia|right; lia].
Qed.

(** The memory handed out before stays in the log, and only memory of the log changes. *)
Definition growth (P P' : process T B) : Prop :=
  (exists new, y_log (pr_bytes P') = new ++ y_log (pr_bytes P) /\ Forall space new) /\
  forall x, (forall b, In b (y_log (pr_bytes P')) -> ~ in_block b x) -> y_mem (pr_bytes P') x = y_mem (pr_bytes P) x.
Lemma growth_refl : forall P, growth P P.
Proof. intros P. split; auto. exists []. auto. Qed.
Lemma growth_same : forall P P', pr_bytes P' = pr_bytes P -> growth P P'.
Proof. intros P P' E. unfold growth. rewrite E. apply growth_refl. Qed.
Lemma growth_trans : forall P1 P2 P3, growth P1 P2 -> growth P2 P3 -> growth P1 P3.
Proof.
  intros P1 P2 P3 [(n1 & E1 & S1) F1] [(n2 & E2 & S2) F2]. split.
  - exists (n2 ++ n1). rewrite E2, E1, app_assoc. split; auto. apply Forall_app; auto.
  - intros x H. rewrite F2 by auto. apply F1. intros b I. apply H. rewrite E2. apply in_or_app. now right.
Qed.
Lemma frame_growth : forall P P', frame P P' -> growth P P'.
Proof. intros P P' (M & L & _). split; [exists []; split; auto|]. intros x _. now rewrite M. Qed.
Lemma frame_logged : forall P P', frame P P' -> logged (pr_bytes P) -> logged (pr_bytes P').
Proof. intros P P' (M & L & BL) H b I. rewrite L. auto. Qed.

Lemma covered_any : forall x : matrix T, ThreadProofs.covered (fun _ => True) x.
Proof. intros x q _. exact I. Qed.

Lemma sim_call : forall rho sigma m fs P bt (o : call T St) st' r, related rho sigma fs P -> logged (pr_bytes P) ->
  plain_call (b_state (f_state fs)) o -> step kern m (b_state (f_state fs)) o = Ok (st', r) ->
  (forall c, program code m (pr_table P) o = Some c -> sound encode decode choose c (pr_bytes P)) /\
  (call_process encode decode code choose m P bt o = NoMemory \/
  exists rho' sigma' P', call_process encode decode code choose m P bt o = Goes (P', r) /\
    related rho' sigma' (mkFState (mkBState st' (match r with RNew => bt ++ returned (b_slots (f_state fs)) o | _ => bt end)) (f_gone fs) (f_freed fs)) P' /\
    logged (pr_bytes P') /\ growth P P').
Proof.
  intros rho sigma m fs P bt o st' r H LG PC E.
  pose proof (step_effect _ _ _ _ _ _ (rel_placed _ _ _ _ H) E) as (_ & _ & PL').
  rewrite (step_program code kern impl) in E; [|apply H|exact PC].
  destruct fs as [[[h ms] sl] gone freed]. cbn [f_state b_state b_slots st_heap st_mats f_gone f_freed] in *.
  pose proof (rel_placed _ _ _ _ H) as PL. unfold all_placed in PL. cbn [f_state b_state st_heap st_mats] in PL.
  pose proof (rel_known _ _ _ _ H) as KN. cbn [f_state b_state st_mats] in KN.
  pose proof (rel_rep _ _ _ _ H) as RP. cbn [f_state b_state st_heap] in RP.
  pose proof (rel_freed _ _ _ _ H) as FD. cbn [f_state b_state st_heap f_freed] in FD.
  pose proof (rel_sizes _ _ _ _ H) as SZ. cbn [f_state b_state st_heap f_freed] in SZ.
  unfold call_process. rewrite (rel_table _ _ _ _ H). cbn [f_state b_state st_mats].
  destruct (program code m ms o) as [c|] eqn:PR.
  2: { injection E as <- <-. pose proof (sem_program encode decode coding choose (y_mem (pr_bytes P)) rho sigma kern code m ms o h impl PL KN PC) as S.
       rewrite PR in S. destruct (program code m (map (move_matrix rho) ms) o); [contradiction|]. split; [discriminate|]. right. exists rho, sigma. eexists. split; [reflexivity|].
       split; [|split; [exact LG|now apply growth_same]].
       constructor; cbn [pr_table pr_slots pr_gone pr_bytes f_state b_state b_slots st_mats st_heap f_gone f_freed]; auto. apply H. }
  destruct (full c h) as [oc h'] eqn:FC. pose proof (full_complete _ c h) as CC. rewrite FC in CC. rewrite CC in E.
  set (sigma' := fun a => if (a <? length h)%nat then sigma a else N.of_nat (length (nth a h' []))).
  assert (SE : forall a, (a < length h)%nat -> sigma' a = sigma a).
  { intros a La. unfold sigma'. destruct (Nat.ltb_spec a (length h)); [auto|lia]. }
  assert (KN' : Forall (owns_known sigma') ms).
  { rewrite Forall_forall in *. intros x Ix. eapply known_ext; [apply PL, Ix|exact SE|auto]. }
  assert (SD : sized sigma' h h').
  { intros a l La El. unfold sigma'. destruct (Nat.ltb_spec a (length h)); [lia|]. now rewrite (nth_error_nth h' a [] El). }
  pose proof (sem_program encode decode coding choose (y_mem (pr_bytes P)) rho sigma' kern code m ms o h impl PL KN' PC) as S.
  rewrite PR in S. destruct (program code m (map (move_matrix rho) ms) o) as [c'|]; [|contradiction]. cbn [same_program] in S.
  assert (NU : oc <> UB) by (intros ->; discriminate E).
  destruct (S (pr_bytes P) oc h' RP FC NU SD) as [SO S']. split; [intros c1 E1; injection E1 as <-; exact SO|].
  destruct S' as [N|(o' & Y' & PF & OR & RP')]; [left; now rewrite N|]. rewrite PF.
  destruct (perform_log _ _ _ _ _ PF LG) as (LG' & new0 & NL & SP).
  assert (FR : forall x, (forall b, In b (y_log Y') -> ~ in_block b x) -> y_mem Y' x = y_mem (pr_bytes P) x).
  { intros x Hx. apply (rep_frame _ _ _ _ _ _ RP'). intros b Ib. apply Hx, LG', Ib. }
  destruct (full_grown _ _ _ _ _ FC) as [GL GR].
  destruct oc as [[new r0]| |], o' as [[new' r']| |]; cbn [orel] in OR; try contradiction; try congruence.
  - injection E as <- <-. destruct OR as [OR1 OR2]. cbn [fst snd] in OR1, OR2. subst r'. right. exists rho, sigma'. eexists. split; [reflexivity|].
    split; [|split; [exact LG'|split; [exists new0; auto|exact FR]]].
    assert (NM : new' = map (move_matrix rho) new /\ Forall (owns_known sigma') new).
    { clear -OR1. induction OR1 as [|x x' l l' [-> Hx] _ [-> IH]]; split; constructor; auto. }
    destruct NM as [-> NK].
    constructor; cbn [pr_table pr_slots pr_gone pr_bytes f_state b_state b_slots st_mats st_heap f_gone f_freed] in *; auto.
    + now rewrite map_app.
    + rewrite (rel_slots _ _ _ _ H). reflexivity.
    + apply H.
    + eapply rep_rebase; [exact RP'|auto].
    + apply Forall_app; auto.
    + intros a l El. destruct (Nat.ltb_spec a (length h)) as [La|La].
      * destruct (nth_error h a) as [l0|] eqn:E0; [|apply nth_error_None in E0; lia]. destruct (GR _ _ E0) as (l1 & E1 & L1).
        assert (l1 = l) by congruence. subst l1. rewrite SE by auto. destruct (SZ _ _ E0) as [[X ->]|[X Z]]; [left|right]; split; auto; [|now rewrite L1].
        destruct l; auto. discriminate L1.
      * right. split; [intros X; apply FD in X; lia|]. now apply SD.
    + intros a Ia. apply FD in Ia. lia.
  - injection E as <- <-.
    assert (SAME : forall a, (a < length h)%nat -> nth_error h' a = nth_error h a).
    { pose proof (fits_program (length h) (fun _ => True) (fun _ => True) code kern m ms o c impl) as F.
      specialize (F ltac:(auto) ltac:(auto) ltac:(intros; apply covered_any) ltac:(intros; apply covered_any) PR).
      apply (fits_panic _ _ _ _ _ _ _ _ _ F (le_n _) FC). }
    set (rho' := fun a => if (a <? length h)%nat then rho a else choose (y_count Y' + (a - length h))).
    assert (RE : forall a, (a < length h)%nat -> rho' a = rho a).
    { intros a La. unfold rho'. destruct (Nat.ltb_spec a (length h)); [auto|lia]. }
    right. exists rho', sigma. eexists. split; [reflexivity|]. split; [|split; [|split; [exists new0; auto|exact FR]]].
    2: { intros b Ib. cbn [y_blocks y_log pr_bytes] in *. rewrite NL. apply in_or_app. right. now apply LG. }
    assert (LT : forall a l, nth_error h a = Some l -> (a < length h)%nat) by (intros a l X; apply nth_error_Some; congruence).
    constructor; cbn [pr_table pr_slots pr_gone pr_bytes f_state b_state b_slots st_mats st_heap f_gone f_freed] in *; auto.
    + symmetry. now apply (map_move_ext rho rho' h).
    + apply H.
    + constructor; cbn [y_mem y_blocks y_log].
      * intros a i v G. pose proof (hget_inv choose (y_mem Y') _ _ _ _ G) as (l & El & _). rewrite RE by eauto.
        apply (rep_items _ _ _ _ _ _ RP'). unfold hget in *. rewrite SAME by eauto. exact G.
      * intros b. rewrite (rep_blocks _ _ _ _ _ _ RP b). split; intros (a & l & El & Hl & ->); exists a, l; rewrite RE by eauto; auto.
      * intros a a' l l' E1 E2 H1 H2 D. rewrite !RE by eauto. now apply (rep_apart _ _ _ _ _ _ RP).
      * apply RP.
      * intros j. unfold rho'. destruct (Nat.ltb_spec (length h + j) (length h)); [lia|]. unfold y_count. cbn [y_log]. f_equal. lia.
      * reflexivity.
Qed.

(** ** Histories *)

Definition fine (P : process T B) : Prop := logged (pr_bytes P).

Lemma sim_pass : forall rho sigma fs P xs (r : result T St) fs' rs, related rho sigma fs P -> fine P ->
  match r with
  | RNew => Ok (mkFState (f_state fs) (xs ++ f_gone fs) (f_freed fs), [r])
  | _ => fs' <- destroy_all fs xs ;; Ok (fs', [r])
  end = Ok (fs', rs) ->
  exists P', pass_on P xs r = Goes (P', rs) /\ related rho sigma fs' P' /\ fine P' /\ growth P P'.
Proof.
  intros rho sigma fs P xs r fs' rs H F E.
  assert (D : (fs1 <- destroy_all fs xs ;; Ok (fs1, [r])) = Ok (fs', rs) ->
     exists P', match destroy_each P xs with Ok P' => Goes (P', [r]) | _ => Undefined end = Goes (P', rs) /\ related rho sigma fs' P' /\ fine P' /\ growth P P').
  { intros X. apply bind_ok in X. destruct X as (fs1 & X & Y). injection Y as <- <-. destruct (sim_destroy_all _ _ _ _ _ _ H X) as (P' & D & H' & FR).
    rewrite D. exists P'. split; auto. split; auto. split; [eapply frame_logged; eauto|now apply frame_growth]. }
  unfold pass_on. destruct r; try (apply D; exact E).
  injection E as <- <-. eexists. split; [reflexivity|]. split; [|split; [exact F|now apply growth_same]].
  destruct H. constructor; cbn [pr_table pr_slots pr_gone pr_bytes f_state f_gone f_freed]; auto. now rewrite rel_gone0.
Qed.

Notation pstep := (process_step encode decode code choose).
Notation prun := (process_run encode decode code choose).

Lemma sim_fstep : forall rho sigma m fs P (a : faction T St), related rho sigma fs P -> fine P ->
  match a with
  | Act (Do o) => forall bt, admit_uses (b_slots (f_state fs)) (uses o) = Some bt -> plain_call (b_state (f_state fs)) o
  | _ => True
  end ->
  match fstep kern m fs a with
  | None => pstep m P a = Rejected
  | Some (Ok (fs', rs)) => pstep m P a = NoMemory \/
      exists rho' sigma' P', pstep m P a = Goes (P', rs) /\ related rho' sigma' fs' P' /\ fine P' /\ growth P P'
  | Some _ => True
  end.
Proof.
  intros rho sigma m fs P a H F PC. destruct a as [[o|x]|x]; cbn [fstep process_step bstep].
  - rewrite (rel_slots _ _ _ _ H). destruct (admit_uses (b_slots (f_state fs)) (uses o)) as [bt|]; auto. specialize (PC bt eq_refl).
    destruct (step kern m (b_state (f_state fs)) o) as [[st' r]| |] eqn:E; cbn [bind]; auto.
    destruct (sim_call rho sigma m fs P bt o st' r H F PC E) as [_ [N|(rho' & sigma' & P1 & C & H1 & F1 & G1)]]; rewrite ?N, ?C.
    { match goal with |- match ?X with _ => _ end => destruct X as [[? ?]| |] end; auto. }
    match goal with |- match ?X with _ => _ end => destruct X as [[fs' rs]| |] eqn:Z end; auto.
    destruct (sim_pass rho' sigma' _ P1 (moved (Do o)) r fs' rs H1 F1) as (P2 & C2 & H2 & F2 & G2).
    { cbn [f_state f_gone f_freed]. exact Z. }
    right. exists rho', sigma', P2. split; auto. split; auto. split; auto. eapply growth_trans; eauto.
  - rewrite (rel_slots _ _ _ _ H). destruct (admit_uses (b_slots (f_state fs)) [(x, Moved)]) as [bt|]; auto. cbn [bind moved].
    match goal with |- match ?X with _ => _ end => destruct X as [[fs' rs]| |] eqn:Z end; auto. right. exists rho, sigma.
    assert (H1 : related rho sigma (mkFState (mkBState (b_state (f_state fs)) bt) (f_gone fs) (f_freed fs)) (mkProcess (pr_bytes P) (pr_table P) bt (pr_gone P))).
    { destruct H. constructor; cbn [pr_table pr_slots pr_gone pr_bytes f_state b_state b_slots f_gone f_freed]; auto. }
    destruct (sim_pass rho sigma _ _ [x] (RDone (T := T) (St := St)) fs' rs H1 F Z) as (P2 & C2 & H2 & F2 & G2). exists P2. auto.
  - rewrite (rel_slots _ _ _ _ H), (rel_gone _ _ _ _ H), (rel_table _ _ _ _ H), map_length.
    destruct (_ && _)%bool; auto. destruct (destroy fs x) as [fs'| |] eqn:D; cbn [bind]; auto.
    destruct (sim_destroy _ _ _ _ _ _ H D) as (P' & E & H' & FR). rewrite E. right. exists rho, sigma, P'. split; auto. split; auto.
    split; [eapply frame_logged; eauto|now apply frame_growth].
Qed.

Lemma sim_frun : forall m (acts : list (faction T St)) rho sigma fs P, related rho sigma fs P -> fine P -> plain_products kern m fs acts ->
  match frun kern m fs acts with
  | None => prun m P acts = Rejected \/ prun m P acts = NoMemory
  | Some (Ok (fs', rs)) => prun m P acts = NoMemory \/
      exists rho' sigma' P', prun m P acts = Goes (P', rs) /\ related rho' sigma' fs' P' /\ fine P' /\ growth P P'
  | Some _ => True
  end.
Proof.
  intros m acts. induction acts as [|a acts IH]; intros rho sigma fs P H F PP; cbn [frun process_run plain_products] in *.
  - right. exists rho, sigma, P. auto using growth_refl.
  - destruct PP as [PC PP]. pose proof (sim_fstep rho sigma m fs P a H F PC) as S.
    destruct (fstep kern m fs a) as [[[fs1 r]| |]|] eqn:E; auto.
    + destruct S as [S|(rho1 & sigma1 & P1 & S & H1 & F1 & G1)]; rewrite S.
      * destruct (frun kern m fs1 acts) as [[[fs2 rs]| |]|]; cbn [bind]; auto.
      * specialize (IH rho1 sigma1 fs1 P1 H1 F1 (PP _ _ eq_refl)). destruct (frun kern m fs1 acts) as [[[fs2 rs]| |]|]; cbn [bind]; auto.
        -- destruct IH as [IH|(rho2 & sigma2 & P2 & R2 & H2 & F2 & G2)]; rewrite ?IH, ?R2; auto.
           right. exists rho2, sigma2, P2. split; auto. split; auto. split; auto. eapply growth_trans; eauto.
        -- destruct IH as [IH|IH]; rewrite IH; auto.
    + rewrite S. auto.
Qed.

(** Every load and store is one of an item of a block in use. *)
Lemma sim_visits : forall m (acts : list (faction T St)) rho sigma fs P, related rho sigma fs P -> fine P -> plain_products kern m fs acts ->
  (forall o, frun kern m fs acts = Some o -> exists x, o = Ok x) ->
  forall a bs, In (a, bs) (process_visits encode decode code choose m P acts) -> item_of bs a.
Proof.
  intros m acts. induction acts as [|act acts IH]; intros rho sigma fs P H F PP NU a bs I; cbn [frun process_visits plain_products] in *; [destruct I|].
  destruct PP as [PC PP]. apply in_app_or in I. destruct I as [I|I].
  - destruct act as [[o|x]|x]; cbn [step_visits] in I; try contradiction. rewrite (rel_slots _ _ _ _ H) in I.
    destruct (admit_uses (b_slots (f_state fs)) (uses o)) as [bt|] eqn:A; [|contradiction].
    destruct (program code m (pr_table P) o) as [c|] eqn:PR; [|contradiction]. specialize (PC bt eq_refl).
    cbn [fstep bstep] in NU. rewrite A in NU.
    destruct (step kern m (b_state (f_state fs)) o) as [[st' r]| |] eqn:E; cbn [bind] in NU.
    + destruct (sim_call rho sigma m fs P bt o st' r H F PC E) as [SO _]. exact (SO c PR a bs I).
    + now destruct (NU _ eq_refl).
    + now destruct (NU _ eq_refl).
  - pose proof (sim_fstep rho sigma m fs P act H F PC) as S.
    destruct (fstep kern m fs act) as [[[fs1 r]| |]|] eqn:E.
    + destruct S as [S|(rho1 & sigma1 & P1 & S & H1 & F1 & G1)]; rewrite S in I; [destruct I|].
      apply (IH rho1 sigma1 fs1 P1 H1 F1 (PP _ _ eq_refl)); auto. intros o Ho. rewrite Ho in NU.
      destruct (NU _ eq_refl) as [x Hx]. destruct o as [o| |]; try discriminate Hx. eauto.
    + now destruct (NU _ eq_refl).
    + now destruct (NU _ eq_refl).
    + rewrite S in I. destruct I.
Qed.

Lemma begin_related : forall M, related (fun a => choose a) (fun _ => 0) finitial (begin_process M).
Proof.
  intros M. constructor; cbn; auto.
  - constructor; cbn; auto.
    + intros [|a] i v E; discriminate E.
    + intros b. split; [intros []|]. intros ([|a] & l & E & _); discriminate E.
    + intros [|a] a' l l' E; discriminate E.
    + constructor.
  - constructor.
  - intros [|a] l E; discriminate E.
  - intros a [].
Qed.

Lemma related_holds : forall rho sigma fs P, related rho sigma fs P -> holds decode rho fs P.
Proof.
  intros rho sigma fs P H. pose proof (rel_rep _ _ _ _ H) as R. constructor; try apply H; try apply R.
  intros a a' l l' E E' Hl Hl' D x [X X']. pose proof (rep_apart _ _ _ _ _ _ R _ _ _ _ E E' Hl Hl' D) as A.
  unfold in_block, blocks_apart in *. cbn [fst snd] in *. rewrite Bool.orb_true_iff, !N.leb_le in A. lia.
Qed.

(** ** The property *)

Lemma c70_same : forall m M (acts : list (faction T St)) fs rs, plain_products kern m finitial acts ->
  frun kern m finitial acts = Some (Ok (fs, rs)) ->
  prun m (begin_process M) acts = NoMemory \/
  exists place P, prun m (begin_process M) acts = Goes (P, rs) /\ holds decode place fs P.
Proof.
  intros m M acts fs rs PP E. pose proof (sim_frun m acts _ _ _ _ (begin_related M) (fun b (I : In b []) => I) PP) as S.
  rewrite E in S. destruct S as [S|(rho & sigma & P & S & H & _)]; auto. right. exists rho, P. split; auto. eapply related_holds; eauto.
Qed.

Lemma c70_rejected : forall m M (acts : list (faction T St)), plain_products kern m finitial acts ->
  frun kern m finitial acts = None ->
  prun m (begin_process M) acts = Rejected \/ prun m (begin_process M) acts = NoMemory.
Proof.
  intros m M acts PP E. pose proof (sim_frun m acts _ _ _ _ (begin_related M) (fun b (I : In b []) => I) PP) as S.
  now rewrite E in S.
Qed.

Lemma safe_cases : forall m M (acts : list (faction T St)), Forall safe_call (calls acts) ->
  m = Checked \/ no_wrap_history kern m (@initial T) (calls acts) -> plain_products kern m finitial acts ->
  (frun kern m finitial acts = None /\ (prun m (begin_process M) acts = Rejected \/ prun m (begin_process M) acts = NoMemory)) \/
  exists fs rs, frun kern m finitial acts = Some (Ok (fs, rs)) /\
    (prun m (begin_process M) acts = NoMemory \/ exists place P, prun m (begin_process M) acts = Goes (P, rs) /\ holds decode place fs P).
Proof.
  intros m M acts Hs Hm PP. destruct (frun kern m finitial acts) as [o|] eqn:E.
  - right. destruct (c54_safe kern m acts Hs Hm o E) as (fs & rs & ->). exists fs, rs. split; auto. now apply c70_same.
  - left. split; auto. now apply c70_rejected.
Qed.

Lemma c70_safe : forall m M (acts : list (faction T St)), Forall safe_call (calls acts) ->
  m = Checked \/ no_wrap_history kern m (@initial T) (calls acts) -> plain_products kern m finitial acts ->
  prun m (begin_process M) acts <> Undefined.
Proof.
  intros m M acts Hs Hm PP E. destruct (safe_cases m M acts Hs Hm PP) as [(_ & [S|S])|(fs & rs & _ & [S|(place & P & S & _)])]; congruence.
Qed.

Lemma c70_bytes : forall m M (acts : list (faction T St)) fs rs P rs', plain_products kern m finitial acts ->
  frun kern m finitial acts = Some (Ok (fs, rs)) -> prun m (begin_process M) acts = Goes (P, rs') ->
  (forall b, In b (y_log (pr_bytes P)) -> snd b = 0 \/ N.of_nat (fst b) + snd b * item_size <= usize_mod) /\
  (forall b, In b (y_blocks (pr_bytes P)) -> In b (y_log (pr_bytes P))) /\
  forall x, (forall b, In b (y_log (pr_bytes P)) -> ~ in_block b x) -> y_mem (pr_bytes P) x = M x.
Proof.
  intros m M acts fs rs P rs' PP E R. pose proof (sim_frun m acts _ _ _ _ (begin_related M) (fun b (I : In b []) => I) PP) as S.
  rewrite E in S. destruct S as [S|(rho & sigma & P' & S & _ & F & (new & N & SP) & G)]; [congruence|].
  assert (P' = P) as -> by congruence. split; [|split; auto]. rewrite N. cbn [begin_process pr_bytes y_log]. rewrite app_nil_r.
  intros b I. rewrite Forall_forall in SP. exact (SP b I).
Qed.

Lemma c72_defined : forall m M (acts : list (faction T St)), plain_products kern m finitial acts ->
  (forall o, frun kern m finitial acts = Some o -> exists x, o = Ok x) ->
  forall a bs, In (a, bs) (process_visits encode decode code choose m (begin_process M) acts) -> item_of bs a.
Proof. intros m M acts PP. exact (sim_visits m acts _ _ _ _ (begin_related M) (fun b (I : In b []) => I) PP). Qed.

Lemma c72_in_use : forall m M (acts : list (faction T St)), Forall safe_call (calls acts) ->
  m = Checked \/ no_wrap_history kern m (@initial T) (calls acts) -> plain_products kern m finitial acts ->
  forall a bs, In (a, bs) (process_visits encode decode code choose m (begin_process M) acts) -> item_of bs a.
Proof.
  intros m M acts Hs Hm PP. apply (sim_visits m acts _ _ _ _ (begin_related M) (fun b (I : In b []) => I) PP).
  intros o E. destruct (c54_safe kern m acts Hs Hm o E) as (fs & rs & ->). eauto.
Qed.

(** All blocks are as the allocator granted them. *)
Section Blocks.
Variable Q : nat * N -> Prop.
Hypothesis granted : forall Y n, let b := (choose (y_count Y), n) in grants (B := B) Y b = true -> snd b <> 0 -> Q b.
Definition all_blocks (Y : bytes B) : Prop := forall b, In b (y_blocks Y) -> Q b.

Lemma blocks_take : forall Y l, grants Y (choose (y_count Y), N.of_nat (length l)) = true -> all_blocks Y ->
  all_blocks (take encode Y (choose (y_count Y), N.of_nat (length l)) l).
Proof.
  intros Y l G A b I. unfold take in I. cbn [y_blocks snd] in I. destruct (N.eqb_spec (N.of_nat (length l)) 0) as [Z|Z]; [now apply A|].
  destruct I as [<-|I]; [|now apply A]. now apply granted.
Qed.
Lemma blocks_perform : forall A (c : prog T A) Y, all_blocks Y ->
  (forall a bs, In (a, bs) (visits encode decode choose c Y) -> forall b, In b bs -> Q b) /\
  forall o Y', perform c Y = Some (o, Y') -> all_blocks Y'.
Proof.
  intros A c. induction c as [o|p k IH|p v k IH|l k IH]; intros Y H; cbn [visits Flat.perform].
  - split; [intros a bs []|]. intros o' Y' E. injection E as _ <-. exact H.
  - destruct (IH (load decode (y_mem Y) (address p)) Y H) as [V X]. split; auto. intros a bs [I|I]; [injection I as _ <-; exact H|eauto].
  - destruct (IH (mkBytes (store encode (y_mem Y) (address p) v) (y_blocks Y) (y_log Y)) H) as [V X]. split; auto.
    intros a bs [I|I]; [injection I as _ <-; exact H|eauto].
  - destruct (grants Y _) eqn:G; [|split; [intros a bs []|discriminate]]. apply IH. now apply blocks_take.
Qed.
Lemma removed_in : forall b l l', remove_block b l = Some l' -> forall x, In x l' -> In x l.
Proof.
  intros b l. induction l as [|c l IH]; intros l' E x I; cbn [remove_block] in E; [discriminate|].
  destruct (block_eqb b c); [injection E as <-; now right|]. destruct (remove_block b l) as [l1|]; [|discriminate].
  injection E as <-. destruct I as [<-|I]; [now left|right; eauto].
Qed.
Lemma blocks_back : forall l Y Y', give_back_all Y l = Ok Y' -> all_blocks Y -> all_blocks Y'.
Proof.
  intros l. induction l as [|b l IH]; intros Y Y' E H; cbn [give_back_all] in E; [injection E as <-; exact H|].
  apply bind_ok in E. destruct E as (Y1 & E1 & E2). apply (IH Y1 Y' E2). unfold give_back in E1.
  destruct (snd b =? 0); [injection E1 as <-; exact H|]. destruct (remove_block b (y_blocks Y)) as [l1|] eqn:R; [|discriminate].
  injection E1 as <-. intros x I. apply H. eapply removed_in; eauto.
Qed.
Lemma blocks_destroy : forall (P P' : process T B) x, destroy_one P x = Ok P' -> all_blocks (pr_bytes P) -> all_blocks (pr_bytes P').
Proof.
  intros P P' x E H. unfold destroy_one in E. destruct (nth_error (pr_table P) x) as [v|]; [|injection E as <-; exact H].
  apply bind_ok in E. destruct E as (Y & E & F). injection F as <-. eapply blocks_back; eauto.
Qed.
Lemma blocks_each : forall xs (P P' : process T B), destroy_each P xs = Ok P' -> all_blocks (pr_bytes P) -> all_blocks (pr_bytes P').
Proof.
  intros xs. induction xs as [|x xs IH]; intros P P' E H; cbn [destroy_each] in E; [injection E as <-; exact H|].
  apply bind_ok in E. destruct E as (P1 & E1 & E2). eapply IH; eauto. eapply blocks_destroy; eauto.
Qed.
Lemma blocks_pass : forall P xs (r : result T St) P' rs, pass_on P xs r = Goes (P', rs) -> all_blocks (pr_bytes P) -> all_blocks (pr_bytes P').
Proof.
  intros P xs r P' rs E H. unfold pass_on in E.
  assert (D : (match destroy_each P xs with Ok P' => Goes (P', [r]) | _ => Undefined end) = Goes (P', rs) -> all_blocks (pr_bytes P')).
  { intros X. destruct (destroy_each P xs) as [P1| |] eqn:D; try discriminate X. injection X as <- _. exact (blocks_each xs P P1 D H). }
  destruct r; auto. injection E as <- _. exact H.
Qed.
Lemma blocks_step : forall m P (a : faction T St), all_blocks (pr_bytes P) ->
  (forall x bs, In (x, bs) (step_visits encode decode code choose m P a) -> forall b, In b bs -> Q b) /\
  forall P' rs, pstep m P a = Goes (P', rs) -> all_blocks (pr_bytes P').
Proof.
  intros m P a H. destruct a as [[o|x]|x]; cbn [step_visits process_step].
  - destruct (admit_uses (pr_slots P) (uses o)) as [bt|]; [|split; [intros x bs []|discriminate]].
    unfold call_process. destruct (program code m (pr_table P) o) as [c|].
    + destruct (blocks_perform _ c (pr_bytes P) H) as [V X]. split; auto. intros P' rs E.
      destruct (perform c (pr_bytes P)) as [[[[new r]| |] Y]|]; try discriminate; (eapply blocks_pass; [exact E|]); cbn [pr_bytes]; eauto.
    + split; [intros x bs []|]. intros P' rs E. eapply blocks_pass; [exact E|]. exact H.
  - split; [intros y bs []|]. destruct (admit_uses _ _); [|discriminate]. intros P' rs E. eapply blocks_pass; [exact E|]. exact H.
  - split; [intros y bs []|]. destruct (_ && _)%bool; [|discriminate]. intros P' rs E.
    destruct (destroy_one P x) as [P1| |] eqn:D; try discriminate. injection E as <- _. eapply blocks_destroy; eauto.
Qed.
Lemma blocks_visits : forall m (acts : list (faction T St)) P, all_blocks (pr_bytes P) ->
  forall x bs, In (x, bs) (process_visits encode decode code choose m P acts) -> forall b, In b bs -> Q b.
Proof.
  intros m acts. induction acts as [|a acts IH]; intros P H x bs I; cbn [process_visits] in I; [destruct I|].
  destruct (blocks_step m P a H) as [V X]. apply in_app_or in I. destruct I as [I|I]; [now apply (V x)|].
  destruct (pstep m P a) as [| | |[P1 r]]; try contradiction. apply (IH P1) with (x := x); auto. now apply (X P1 r).
Qed.
End Blocks.

Lemma c72_aligned : forall m M (acts : list (faction T St)) align, Forall safe_call (calls acts) ->
  m = Checked \/ no_wrap_history kern m (@initial T) (calls acts) -> plain_products kern m finitial acts ->
  (align | item_size) -> (forall n, (align | N.of_nat (choose n))) ->
  forall a bs, In (a, bs) (process_visits encode decode code choose m (begin_process M) acts) ->
  (align | a) /\ a + item_size <= usize_mod.
Proof.
  intros m M acts align Hs Hm PP [s Hsz] Al a bs I. destruct (c72_in_use m M acts Hs Hm PP a bs I) as (b & k & Ib & Hk & ->).
  assert (G : (align | N.of_nat (fst b)) /\ N.of_nat (fst b) + snd b * item_size <= usize_mod).
  { apply (blocks_visits (fun b => (align | N.of_nat (fst b)) /\ N.of_nat (fst b) + snd b * item_size <= usize_mod)) with (3 := I); auto.
    - intros Y n b0 G Z. subst b0. cbn [fst snd] in *. split; auto. unfold grants in G. cbn [fst snd] in G.
      apply Bool.orb_true_iff in G. rewrite Bool.andb_true_iff in G. destruct G as [G|[G _]]; lia.
    - intros b0 []. }
  destruct G as [[t Ht] G]. split; [|nia]. exists (t + k * s). rewrite Hsz at 1. rewrite Ht. lia.
Qed.

(** Ending the scopes needs no memory. *)
Lemma pass_memory : forall (P : process T B) xs (r : result T St), pass_on P xs r <> NoMemory.
Proof. intros P xs r. unfold pass_on. destruct r; try discriminate; destruct (destroy_each P xs); discriminate. Qed.
Lemma ending_memory : forall m (acts : list (faction T St)) P, Forall ending acts -> prun m P acts <> NoMemory.
Proof.
  intros m acts. induction acts as [|a acts IH]; intros P H; cbn [process_run]; [discriminate|]. inversion H as [|? ? Ha Hr]; subst.
  assert (N : process_step encode decode code choose m P a <> NoMemory).
  { destruct a as [[o|x]|x]; cbn [process_step]; [destruct Ha| |].
    - destruct (admit_uses _ _); [apply pass_memory|discriminate].
    - destruct (_ && _)%bool; [|discriminate]. destruct (destroy_one P x); discriminate. }
  destruct (process_step encode decode code choose m P a) as [| | |[P1 r]]; try congruence.
  specialize (IH P1 Hr). destruct (prun m P1 acts) as [| | |[P2 rs]]; congruence.
Qed.
Lemma ending_plain : forall m (acts : list (faction T St)) fs, Forall ending acts -> plain_products kern m fs acts.
Proof.
  intros m acts. induction acts as [|a acts IH]; intros fs H; cbn [plain_products]; auto. inversion H as [|? ? Ha Hr]; subst.
  split; auto. destruct a as [[o|x]|x]; auto. destruct Ha.
Qed.

Lemma c70_leak : forall m M (acts : list (faction T St)) fs rs P, Forall no_pointers (kept acts) -> plain_products kern m finitial acts ->
  frun kern m finitial acts = Some (Ok (fs, rs)) -> prun m (begin_process M) acts = Goes (P, rs) ->
  exists (acts' : list (faction T St)) P' rs', Forall ending acts' /\ prun m P acts' = Goes (P', rs') /\ y_blocks (pr_bytes P') = [].
Proof.
  intros m M acts fs rs P Hn PP E R. pose proof (sim_frun m acts _ _ _ _ (begin_related M) (fun b (I : In b []) => I) PP) as S.
  rewrite E in S. destruct S as [S|(rho & sigma & P' & S & H & F & _)]; [congruence|]. assert (P' = P) as -> by congruence.
  destruct (c54_leak kern m acts fs rs Hn E) as (acts' & fs' & rs' & N & E' & L & A).
  rewrite (frun_app kern m acts acts' _ _ _ E) in E'. destruct (frun kern m fs acts') as [o|] eqn:E1; [|discriminate].
  destruct o as [[fs2 rs2]| |]; cbn [bind] in E'; try discriminate. injection E' as <- _.
  pose proof (sim_frun m acts' _ _ _ _ H F (ending_plain m acts' fs N)) as S'. rewrite E1 in S'.
  destruct S' as [S'|(rho' & sigma' & P1 & S' & H' & _)]; [exfalso; eapply ending_memory; eauto|].
  exists acts', P1, rs2. split; auto. split; auto. destruct (y_blocks (pr_bytes P1)) as [|b l] eqn:Y; auto. exfalso.
  assert (I : In b (y_blocks (pr_bytes P1))) by (rewrite Y; now left).
  apply (holds_blocks _ _ _ _ (related_holds _ _ _ _ H')) in I. destruct I as (a & v & X & V & _).
  assert (La : (a < length (st_heap (b_state (f_state fs2))))%nat) by (apply nth_error_Some; congruence).
  rewrite L in La. destruct (rel_sizes _ _ _ _ H' a v X) as [[_ Z]|[Z _]]; [congruence|]. auto.
Qed.

End FlatHistory.

(** Which allocator, which encoding, which memory at the beginning: all the same. *)
Lemma c70_independent : forall (T : Type) (SC : HScalar T) (St B B' : Type)
    (encode : T -> list B) (decode : list B -> T) (encode' : T -> list B') (decode' : list B' -> T)
    choose choose' (code code' : gemm_args T -> prog T unit) kern m M M' (acts : list (faction T St)) P rs,
  faithful encode decode -> faithful encode' decode' -> implements code kern -> implements code' kern ->
  Forall safe_call (calls acts) -> m = Checked \/ no_wrap_history kern m (@initial T) (calls acts) ->
  plain_products kern m finitial acts ->
  process_run encode decode code choose m (begin_process M) acts = Goes (P, rs) ->
  process_run encode' decode' code' choose' m (begin_process M') acts = NoMemory \/
  exists P', process_run encode' decode' code' choose' m (begin_process M') acts = Goes (P', rs).
Proof.
  intros T SC St B B' encode decode encode' decode' choose choose' code code' kern m M M' acts P rs C C' I I' Hs Hm PP R.
  destruct (safe_cases encode decode C choose kern code I m M acts Hs Hm PP) as [(_ & [S|S])|(fs & rs1 & E & [S|(place & P1 & S & _)])]; try congruence.
  assert (rs1 = rs) as -> by congruence.
  destruct (c70_same encode' decode' C' choose' kern code' I' m M' acts fs rs PP E) as [S'|(place' & P' & S' & _)]; eauto.
Qed.

(** Without [matmul] there is nothing to demand of products. *)
Lemma c70_plain : forall (T : Type) (SC : HScalar T) (St : Type) kern m (acts : list (faction T St)) fs, 
  (forall alpha a b beta c, ~ In (Act (Do (CMatmul alpha a b beta c))) acts) -> plain_products kern m fs acts.
Proof.
  intros T SC St kern m acts. induction acts as [|a acts IH]; intros fs H; cbn [plain_products]; auto. split.
  - destruct a as [[o|x]|x]; auto. intros bt _. destruct o; cbn; auto. exfalso. eapply H. left. reflexivity.
  - intros fs' r _. apply IH. intros alpha x b beta c I. eapply H. right. exact I.
Qed.
