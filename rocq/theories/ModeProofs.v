(** * Proofs of C37: a call that completes with overflow checks does the same
    without them. *)

From Verif Require Import Machine MachineFacts Layouts Memory Matrix MatMul Spec MatrixSpec ExprSpec ProductSpec.
From Verif Require Import Program HistorySpec.
Local Open Scope N_scope.

(** [f] gives in every mode what it gives with overflow checks. *)
Definition agrees {A : Type} (f : mode -> outcome A) : Prop :=
  forall m a, f Checked = Ok a -> f m = Ok a.

Lemma agrees_const : forall (A : Type) (x : outcome A), agrees (fun _ => x).
Proof. intros A x m a H. exact H. Qed.

Lemma agrees_bind : forall (A B : Type) (f : mode -> outcome A) (g : A -> mode -> outcome B),
  agrees f -> (forall a, agrees (g a)) -> agrees (fun m => bind (f m) (fun a => g a m)).
Proof.
  intros A B f g Hf Hg m b H. cbv beta in *. apply bind_ok in H. destruct H as (a & E & H).
  rewrite (Hf m a E). cbn [bind]. now apply Hg.
Qed.

Lemma agrees_uadd : forall a b, agrees (fun m => uadd m a b).
Proof. intros a b m c. apply uadd_mode. Qed.
Lemma agrees_usub : forall a b, agrees (fun m => usub m a b).
Proof. intros a b m c. apply usub_mode. Qed.
Lemma agrees_umul : forall a b, agrees (fun m => umul m a b).
Proof. intros a b m c. apply umul_mode. Qed.

Create HintDb agree discriminated.

Ltac agree :=
  repeat match goal with
    | |- agrees (fun _ => ?x) => exact (agrees_const _ x)
    | |- agrees (fun m => bind _ _) => apply agrees_bind; [|intro]
    | |- agrees (fun m => uadd m _ _) => apply agrees_uadd
    | |- agrees (fun m => usub m _ _) => apply agrees_usub
    | |- agrees (fun m => umul m _ _) => apply agrees_umul
    | |- agrees (fun _ => match ?p with (_, _) => _ end) => destruct p
    | |- agrees (fun _ => if ?b then _ else _) => destruct b
    | |- agrees (fun _ => match ?o with Some _ => _ | None => _ end) => destruct o
    | |- agrees _ => solve [auto with agree nocore]
    end.

Lemma agrees_number_of_elements : forall l, agrees (fun m => number_of_elements m l).
Proof.
  intros [d | d | n | n | d s | d s | n s | n s | n]; cbn [number_of_elements]; agree.
Qed.

Lemma agrees_convert_2d_raw : forall l r c, agrees (fun m => convert_2d_raw m l r c).
Proof.
  intros [d | d | n | n | d s | d s | n s | n s | n] r c; cbn [convert_2d_raw];
    unfold row_major_2d_1d, column_major_2d_1d, strided_raw, upper_triangular_2d_1d; agree.
Qed.

Lemma agrees_convert_1d_raw : forall l i, agrees (fun m => convert_1d_raw m l i).
Proof.
  intros [d | d | n | n | d s | d s | n s | n s | n] i; cbn [convert_1d_raw];
    unfold strided_raw; agree.
Qed.
#[export] Hint Resolve agrees_number_of_elements agrees_convert_2d_raw agrees_convert_1d_raw : agree.

Section Mode.
Context {T : Type} {SC : HScalar T} {St : Type}.
Notation heap := (@heap T).

Lemma agrees_from_data : forall rs cs c l, agrees (fun m => from_data m rs cs c l).
Proof. intros. unfold from_data. agree. Qed.
Hint Resolve agrees_from_data : agree.

Lemma agrees_base_get : forall (h : heap) b r c, agrees (fun m => base_get_unchecked m h b r c).
Proof. intros. unfold base_get_unchecked. agree. Qed.
Lemma agrees_base_get1d : forall (h : heap) b i, agrees (fun m => base_get1d_unchecked m h b i).
Proof. intros. unfold base_get1d_unchecked. agree. Qed.
Lemma agrees_base_get_mut : forall b r c, agrees (fun m => base_get_unchecked_mut m b r c).
Proof. intros. unfold base_get_unchecked_mut. agree. Qed.
Lemma agrees_base_get1d_mut : forall b i, agrees (fun m => base_get1d_unchecked_mut m b i).
Proof. intros. unfold base_get1d_unchecked_mut. agree. Qed.
Hint Resolve agrees_base_get agrees_base_get1d agrees_base_get_mut agrees_base_get1d_mut : agree.

Lemma agrees_get_unchecked : forall (h : heap) x r c, agrees (fun m => get_unchecked m h x r c).
Proof.
  intros h x r c. induction x; cbn [get_unchecked]; agree.
Qed.
Lemma agrees_get1d_unchecked : forall (h : heap) x i, agrees (fun m => get1d_unchecked m h x i).
Proof. intros h x i. induction x; cbn [get1d_unchecked]; agree. Qed.
Lemma agrees_get_unchecked_mut : forall (x : matrix T) r c, agrees (fun m => get_unchecked_mut m x r c).
Proof. intros x r c. induction x; cbn [get_unchecked_mut]; agree. Qed.
Lemma agrees_get1d_unchecked_mut : forall (x : matrix T) i, agrees (fun m => get1d_unchecked_mut m x i).
Proof. intros x i. induction x; cbn [get1d_unchecked_mut]; agree. Qed.
Hint Resolve agrees_get_unchecked agrees_get1d_unchecked agrees_get_unchecked_mut
  agrees_get1d_unchecked_mut : agree.

Lemma agrees_get : forall (h : heap) x r c, agrees (fun m => get m h x r c).
Proof. intros. unfold get. agree. Qed.
Lemma agrees_get1d : forall (h : heap) x i, agrees (fun m => get1d m h x i).
Proof. intros. unfold get1d. agree. Qed.
Lemma agrees_set : forall (h : heap) x r c v, agrees (fun m => set m h x r c v).
Proof. intros. unfold set, get_mut. agree. Qed.
Lemma agrees_set1d : forall (h : heap) x i v, agrees (fun m => set1d m h x i v).
Proof. intros. unfold set1d, get1d_mut. agree. Qed.

Lemma agrees_zeros : forall (h : heap) k rows cols, agrees (fun m => zeros_from_dim m h k rows cols).
Proof. intros. unfold zeros_from_dim. agree. Qed.
Lemma agrees_zeros_fixed : forall (h : heap) k rs cs, agrees (fun m => zeros_fixed m h k rs cs).
Proof. intros. unfold zeros_fixed, array_container_new, alloc. agree. Qed.
Lemma agrees_zeros_fixed_vector : forall (h : heap) rs cs k n,
  agrees (fun m => zeros_fixed_vector m h rs cs k n).
Proof. intros. unfold zeros_fixed_vector, array_container_new, alloc. agree. Qed.
Lemma agrees_row : forall (h : heap) n, agrees (fun m => row_vector_zeros_from_length m h n).
Proof. intros. unfold row_vector_zeros_from_length. agree. Qed.
Lemma agrees_column : forall (h : heap) n, agrees (fun m => column_vector_zeros_from_length m h n).
Proof. intros. unfold column_vector_zeros_from_length. agree. Qed.
Lemma agrees_row_dim : forall (h : heap) r c, agrees (fun m => row_vector_zeros_from_dim m h r c).
Proof. intros. unfold row_vector_zeros_from_dim. agree. Qed.
Lemma agrees_column_dim : forall (h : heap) r c, agrees (fun m => column_vector_zeros_from_dim m h r c).
Proof. intros. unfold column_vector_zeros_from_dim. agree. Qed.
Lemma agrees_from_pointer : forall mut o p d, agrees (fun m => from_pointer m mut o p d).
Proof. intros. unfold from_pointer. agree. Qed.
Lemma agrees_from_pointer_strided : forall mut o p d s,
  agrees (fun m => from_pointer_strided m mut o p d s).
Proof. intros. unfold from_pointer_strided. agree. Qed.
Hint Resolve agrees_get agrees_get1d agrees_set agrees_set1d agrees_zeros agrees_zeros_fixed
  agrees_zeros_fixed_vector agrees_row agrees_column agrees_row_dim agrees_column_dim
  agrees_from_pointer agrees_from_pointer_strided : agree.

Lemma agrees_block : forall mut b tl d, agrees (fun m => block m mut b tl d).
Proof. intros. unfold block. agree. Qed.
Lemma agrees_split : forall b s, agrees (fun m => split_in_four_mut m b s).
Proof. intros. unfold split_in_four_mut. agree. Qed.
Hint Resolve agrees_block agrees_split : agree.

Lemma agrees_for_range : forall (S : Type) n (f : mode -> N -> S -> outcome S) s,
  (forall i t, agrees (fun m => f m i t)) -> agrees (fun m => for_range n (f m) s).
Proof.
  intros S n f s Hf m a H. cbv beta in *. apply for_range_mono with (f := f Checked); [|exact H].
  intros k t t' E. now apply Hf.
Qed.

Lemma agrees_eval : forall (h : heap) x, agrees (fun m => eval m h x).
Proof.
  intros. unfold eval. agree.
  apply (agrees_for_range _ _ (fun m index h => v <- get1d_unchecked m h x index ;;
    p <- base_get1d_unchecked_mut m b index ;; place_write h p v)). intros. agree.
Qed.

Lemma agrees_dot : forall shape (kern : kernel T) (h : heap) a b, agrees (fun m => dot shape kern m h a b).
Proof. intros [] kern h a b; cbn [dot]; unfold dot_mat_mat, dot_row_mat, dot_mat_col; agree. Qed.
Hint Resolve agrees_eval agrees_dot : agree.

(** Loops that end without a panic. *)
Lemma agrees_for_each_loop : forall (S : Type) b (f : closure S) m n i (hs : heap * S) hs',
  for_each_loop Checked b f n i hs = Ok (hs', false) -> for_each_loop m b f n i hs = Ok (hs', false).
Proof.
  intros S b f m n. induction n as [|n IH]; intros i hs hs' H; cbn [for_each_loop] in *; [exact H|].
  unfold call_closure in *. destruct hs as [h s].
  destruct (base_get1d_unchecked_mut Checked b i) as [p| |] eqn:E; cbn [bind] in H; try discriminate H.
  rewrite (agrees_base_get1d_mut b i m p E).
  destruct (place_read h p) as [v| |]; cbn [bind] in *; try discriminate H.
  destruct (f s v) as [[s' v'] pn]. destruct (place_write h p v') as [h'| |]; cbn [bind] in *; try discriminate H.
  destruct pn; [discriminate H|]. now apply IH.
Qed.

Lemma agrees_for_each : forall (S : Type) m (h : heap) b (f : closure S) s hs',
  for_each Checked h b f s = Ok (hs', false) -> for_each m h b f s = Ok (hs', false).
Proof.
  intros S m h b f s hs' H. unfold for_each in *. apply bind_ok in H. destruct H as (n & E & H).
  rewrite (agrees_number_of_elements _ m n E). cbn [bind]. now apply agrees_for_each_loop.
Qed.

Variable kern : kernel T.

Lemma agrees_step : forall (o : call T St) st st' r, completed r ->
  step kern Checked st o = Ok (st', r) -> forall m, step kern m st o = Ok (st', r).
Proof.
  assert (G : forall (f : mode -> option (outcome (state T * result T St))) st st' r,
     completed r ->
     (f Checked = None -> forall m, f m = None) ->
     (forall g, f Checked = Some g -> forall m, exists g', f m = Some g' /\ (forall a, completed (snd a) -> g = Ok a -> g' = Ok a)) ->
     match f Checked with None => Ok (st, RSkipped) | Some Panic => Ok (st, RPanicked) | Some r => r end = Ok (st', r) ->
     forall m, match f m with None => Ok (st, RSkipped) | Some Panic => Ok (st, RPanicked) | Some r => r end = Ok (st', r)).
  { intros f st st' r Hr Hn Hs H m. destruct (f Checked) as [g|] eqn:E.
    - destruct (Hs g eq_refl m) as (g' & E' & A). rewrite E'. destruct g as [a| |].
      + injection H as ->. now rewrite (A (st', r) Hr eq_refl).
      + injection H as <- <-. destruct Hr.
      + discriminate H.
    - now rewrite (Hn eq_refl m). }
  intros o st st' r Hr H. unfold step in *. apply (G (fun m => exec kern m st o)); auto; clear H G.
  - destruct o; cbn [exec]; unfold typed, when; intros H m; try discriminate H;
      repeat match type of H with
        | match ?x with _ => _ end = _ => destruct x; try discriminate H
        end; try reflexivity; exact H.
  - assert (K : forall A (f : mode -> outcome A) (k : A -> outcome (state T * result T St)) g, agrees f ->
       Some (bind (f Checked) k) = Some g -> forall m, exists g', Some (bind (f m) k) = Some g' /\
         (forall a, completed (snd a) -> g = Ok a -> g' = Ok a)).
    { intros A f k g Hf E m. injection E as <-. eexists. split; [reflexivity|].
      intros a _ H. apply bind_ok in H. destruct H as (x & E & H). now rewrite (Hf m x E). }
    destruct o; cbn [exec]; unfold typed, when, new1, new_view, item, done, looped; intros g H m;
      repeat match type of H with
        | match ?x with _ => _ end = _ => destruct x; try discriminate H
        end;
      try (match type of H with Some (bind (matmul _ _ _ _ _ _ _) _) = _ => idtac | Some (Ok _) = _ => idtac | Some (new_expr _ _) = _ => idtac end;
           exists g; split; [exact H|]; intros ? ? ->; reflexivity);
      try (match type of H with Some (bind ?x ?k) = Some ?g =>
             let f := eval pattern Checked in x in
             match f with ?f _ => refine (K _ f k g _ H m) end end; cbv beta; unfold array_container_new, alloc; now agree).
    + injection H as <-. eexists. split; [reflexivity|]. intros [st1 r1] Hc E.
      apply bind_ok in E. destruct E as (((h1, s1), pn) & E & E1). injection E1 as <- <-.
      cbn [snd completed] in Hc. subst pn. now rewrite (agrees_for_each _ m _ _ _ _ _ E).
    + injection H as <-. eexists. split; [reflexivity|]. intros [st1 r1] Hc E.
      apply bind_ok in E. destruct E as (((h1, s1), pn) & E & E1). injection E1 as <- <-.
      cbn [snd completed] in Hc. subst pn. unfold fill_from_rand in *.
      now rewrite (agrees_for_each _ m _ _ _ _ _ E).
Qed.

Lemma c37_run : forall (os : list (call T St)) st st' rs,
  run kern Checked st os = Ok (st', rs) -> Forall completed rs ->
  forall m, run kern m st os = Ok (st', rs).
Proof.
  induction os as [|o os IH]; intros st st' rs H Hc m; cbn [run] in *; [exact H|].
  apply bind_ok in H. destruct H as ((st1, r) & E & H).
  apply bind_ok in H. destruct H as ((st2, rs2) & E2 & H). injection H as <- <-.
  inversion Hc; subst. rewrite (agrees_step o st st1 r H1 E m). cbn [bind].
  now rewrite (IH _ _ _ E2 H2 m).
Qed.

End Mode.
