(* SchedProps.v -- C88: the learning-rate schedule of data generation. *)
From Verif Require Import Base SchedModel SchedSpec SchedProofs.
From Coq Require Import Lia Lqa.
Open Scope Q_scope.

Lemma cut_unique a w l k : cut a w l k -> forall k', cut a w l k' -> k' = k.
Proof.
  intro C. induction C as [w l N|w seg l k J C IH]; intros k' C'.
  - inversion C' as [|? seg l' k0 [S _] C0]; subst; [reflexivity|]. exfalso. apply (N seg l'); [reflexivity|exact S].
  - inversion C' as [? ? N|? seg' l' k0 J' C0 E1 E]; subst.
    + exfalso. destruct J as [S _]. apply (N seg l); [reflexivity|exact S].
    + assert (seg' = seg /\ l' = l) as [-> ->].
      { destruct J as [S M], J' as [S' M']. apply app_eq_app in E. destruct E as (m & [[E1 E2]|[E1 E2]]).
        - destruct m as [|y m]; [rewrite app_nil_r in E1; auto|]. exfalso. apply (M' seg (y :: m)); [exact E1|discriminate|exact S].
        - destruct m as [|y m]; [rewrite app_nil_r in E1; auto|]. exfalso. apply (M seg' (y :: m)); [exact E1|discriminate|exact S']. }
      f_equal. apply IH. exact C0.
Qed.
Lemma floors_nth a n fl i : floors a n = Ok fl -> (i < n)%nat -> nth i fl 0 = floor_of a i.
Proof.
  unfold floors, floor_of. destruct (s_floor a) as [q|l]; [intro E; injection E as <-; intro H|destruct (Nat.eqb (length l) n); congruence].
  revert i H. induction n; intros i H; [lia|]. destruct i; [reflexivity|]. cbn. apply IHn. lia.
Qed.
Lemma run_form a rates losses : sched_run a rates losses =
  if Qle_bool 1 (s_factor a) then Err E_critical else match floors a (length rates) with Err e => Err e | Ok fl => Ok (st_rates (fold_left (sched_step a fl) losses (SState None 0 0 rates))) end.
Proof. unfold sched_run, sched_init. destruct (Qle_bool 1 (s_factor a)); [reflexivity|]. destruct (floors a (length rates)) eqn:E; cbn; [cbn in E; try rewrite E; reflexivity|reflexivity]. Qed.

(* The schedule can be made exactly if the factor is below one and there is one floor per parameter group. *)
Theorem schedule_made_iff : forall a rates losses,
  (exists r, sched_run a rates losses = Ok r) <->
  s_factor a < 1 /\ (forall l, s_floor a = Many l -> length l = length rates).
Proof.
  intros a rates losses. rewrite run_form. destruct (Qle_bool 1 (s_factor a)) eqn:F.
  - apply Qle_bool_iff in F. split; [intros [r H]; discriminate|]. intros [H _]. lra.
  - assert (s_factor a < 1) as F1 by (destruct (Qlt_le_dec (s_factor a) 1) as [H|H]; [exact H|apply Qle_bool_iff in H; congruence]).
    unfold floors. destruct (s_floor a) as [q|l].
    + split; [intros _; split; [exact F1|discriminate]|intros _; eexists; reflexivity].
    + destruct (Nat.eqb_spec (length l) (length rates)) as [E|E].
      * split; [intros _; split; [exact F1|]; intros l' H; congruence|intros _; eexists; reflexivity].
      * split; [intros [r H]; discriminate|]. intros [_ H]. destruct E. apply H. reflexivity.
Qed.
Print Assumptions schedule_made_iff.

(* The losses of a run can be cut in exactly one way at the points where they have stalled, and each rate has been
   multiplied by the factor once per cut, as long as it stays above its floor and the changes above eps. *)
Theorem rate_lowered_when_stalled : forall a rates losses rates',
  sched_run a rates losses = Ok rates' ->
  exists k, cut a 0 losses k /\ (forall k', cut a 0 losses k' -> k' = k) /\ length rates' = length rates /\
    forall i, (i < length rates)%nat ->
      (k = 0%nat -> nth i rates' 0 = nth i rates 0) /\
      (0 < s_factor a -> 0 < nth i rates 0 -> floor_of a i <= nth i rates 0 * qpow (s_factor a) k ->
       (k = 0%nat \/ s_eps a < nth i rates 0 * qpow (s_factor a) (pred k) * (1 - s_factor a)) ->
       nth i rates' 0 == nth i rates 0 * qpow (s_factor a) k).
Proof.
  intros a rates losses rates' H. pose proof (proj1 (schedule_made_iff a rates losses) (ex_intro _ _ H)) as [F1 _].
  rewrite run_form in H. destruct (Qle_bool 1 (s_factor a)); [discriminate|]. destruct (floors a (length rates)) as [fl|] eqn:E; [|discriminate]. injection H as <-.
  destruct (cut_exists a losses 0) as [k C]. exists k. split; [exact C|]. split; [exact (cut_unique a 0 losses k C)|].
  rewrite (run_cut a fl 0 losses k C). split; [apply iter_reduce_length|]. intros i Hi. pose proof (floors_spec _ _ _ E) as L.
  rewrite (iter_reduce_nth a fl rates i k L Hi), (floors_nth a _ fl i E Hi). split; [intros ->; reflexivity|].
  intros F0 R Hf He. apply iter_lower_scale; assumption.
Qed.
Print Assumptions rate_lowered_when_stalled.

(* No loss ever raises a rate, and no rate falls below both its floor and its first value. *)
Theorem rates_bounded : forall a rates losses x before after, 0 <= s_eps a ->
  sched_run a rates losses = Ok before -> sched_run a rates (losses ++ [x]) = Ok after ->
  forall i, (i < length rates)%nat -> nth i after 0 <= nth i before 0 /\ nth i before 0 <= nth i rates 0 /\
    (forall c, c <= floor_of a i -> c <= nth i rates 0 -> c <= nth i after 0).
Proof.
  intros a rates losses x before after He H1 H2 i Hi. rewrite run_form in H1, H2.
  destruct (Qle_bool 1 (s_factor a)); [discriminate|]. destruct (floors a (length rates)) as [fl|] eqn:E; [|discriminate].
  injection H1 as <-. injection H2 as <-. pose proof (floors_spec _ _ _ E) as L. rewrite fold_left_app. cbn [fold_left].
  destruct (cut_exists a losses 0) as [k C]. destruct (cut_exists a (losses ++ [x]) 0) as [k' C'].
  assert (forall s, nth i (st_rates (sched_step a fl s x)) 0 <= nth i (st_rates s) 0 \/ length (st_rates s) <> length fl) as M.
  { intro s. unfold sched_step. destruct (Nat.ltb (s_patience a) _); cbn [st_rates]; [|left; lra].
    destruct (Nat.eq_dec (length (st_rates s)) (length fl)) as [Es|Es]; [left|right; exact Es]. rewrite reduce_nth by congruence.
    destruct (Nat.ltb_spec i (length (st_rates s))); [apply lower_le; exact He|]. rewrite nth_overflow by assumption. lra. }
  split; [|split].
  - destruct (M (fold_left (sched_step a fl) losses (SState None 0 0 rates))) as [G|G]; [exact G|]. exfalso. apply G.
    rewrite (run_cut a fl 0 losses k C), iter_reduce_length. congruence.
  - rewrite (run_cut a fl 0 losses k C), (iter_reduce_nth a fl rates i k L Hi). clear -He. induction k; [cbn; lra|]. eapply Qle_trans; [apply iter_lower_le; exact He|exact IHk].
  - intros c Hf Hr. change (c <= nth i (st_rates (fold_left (sched_step a fl) [x] (fold_left (sched_step a fl) losses (SState None 0 0 rates)))) 0).
    rewrite <- fold_left_app, (run_cut a fl 0 _ k' C'), (iter_reduce_nth a fl rates i k' L Hi), (floors_nth a _ fl i E Hi). apply iter_lower_ge; assumption.
Qed.
Print Assumptions rates_bounded.

(* The run can be cut once per patience + 1 losses at most, and data generation lowers a rate fewer than fifty times. *)
Theorem reductions_bounded : forall a losses k, cut a 0 losses k ->
  (k * S (s_patience a) + pred k * s_cooldown a <= length losses)%nat.
Proof. intros a losses k C. pose proof (proj1 (cut_length a 0 losses k C)). rewrite <- Nat.sub_1_r. exact H. Qed.
Print Assumptions reductions_bounded.
Theorem data_generation_rate : forall n_iter losses rate rate', (length losses <= n_iter)%nat -> 0 < rate ->
  sched_run (data_generation_args n_iter) [rate] losses = Ok [rate'] ->
  exists k, (k < 50)%nat /\ cut (data_generation_args n_iter) 0 losses k /\
    (1#10000 <= rate * qpow (1#2) k -> rate' == rate * qpow (1#2) k) /\ rate' <= rate /\ (1#10000 <= rate -> 1#10000 <= rate').
Proof.
  intros n losses rate rate' L R H. destruct (rate_lowered_when_stalled _ _ _ _ H) as (k & C & _ & _ & K).
  specialize (K 0%nat ltac:(cbn; lia)). exists k. pose proof (reductions_bounded _ _ _ C) as B. cbn [s_patience s_cooldown data_generation_args] in B.
  split; [pose proof (Nat.mod_upper_bound n 50 ltac:(lia)); pose proof (Nat.div_mod n 50 ltac:(lia)); nia|]. split; [exact C|].
  destruct K as [_ K]. cbn [nth s_factor floor_of s_floor data_generation_args s_eps] in K. split; [|split].
  - intro Hf. apply K; [lra|exact R|exact Hf|]. destruct k as [|k]; [left; reflexivity|right]. cbn [pred qpow] in *. lra.
  - destruct (sched_run (data_generation_args n) [rate] (losses ++ [0])) as [r|e] eqn:E; [|rewrite run_form in E; cbn in E; discriminate].
    exact (proj1 (proj2 (rates_bounded (data_generation_args n) [rate] losses 0 [rate'] r ltac:(cbn; lra) H E 0%nat ltac:(cbn; lia)))).
  - intro Hf. destruct losses as [|x l _] using rev_ind; [rewrite run_form in H; cbn in H; injection H as <-; exact Hf|].
    destruct (sched_run (data_generation_args n) [rate] l) as [r|e] eqn:E; [|rewrite run_form in E; cbn in E; discriminate].
    apply (proj2 (proj2 (rates_bounded (data_generation_args n) [rate] l x r [rate'] ltac:(cbn; lra) E H 0%nat ltac:(cbn; lia)))); cbn; [lra|exact Hf].
Qed.
Print Assumptions data_generation_rate.

(* an instance: patience one, two steps without improvement lower the rate, also after a reset *)
Definition demo_args : sargs := SArgs Smin (1#2) 1 (1#10) Trel 0 (One (1#100)) (1#1000).
Example demo_run : sched_run demo_args [1] [10; 8; 8; 8; 9; 9; 9] = Ok [1 * (1#2) * (1#2)].
Proof. reflexivity. Qed.

(* FINDING (data_generation/pytorch/optimization_functions/lr_scheduler.py L174-176, keras L152-154): the relative threshold
   is applied to the signed loss.  For a negative loss "better than the best" asks for less than an improvement, so a loss
   that stays at the same negative value counts as improving forever and the rate is never lowered; the loss of the default
   output loss (negative_min_max_diff) is negative. *)
Theorem flat_negative_loss_refuted : forall n_iter n rate, sched_run (data_generation_args n_iter) [rate] (repeat (-(1)) n) = Ok [rate].
Proof.
  intros n_iter n rate. rewrite run_form. cbn [Qle_bool s_factor data_generation_args]. cbn [floors length s_floor data_generation_args repeat].
  assert (forall fl m b, (b = None \/ b = Some (-(1))) -> st_rates (fold_left (sched_step (data_generation_args n_iter) fl) (repeat (-(1)) m) (SState b 0 0 [rate])) = [rate]) as A.
  { intros fl m. induction m as [|m IH]; intros b Hb; [reflexivity|]. cbn [repeat fold_left].
    replace (sched_step (data_generation_args n_iter) fl (SState b 0 0 [rate]) (- (1))) with (SState (Some (-(1))) 0 0 [rate]); [apply IH; right; reflexivity|].
    unfold sched_step. cbn [st_best st_bad st_cool st_rates]. replace (is_better (data_generation_args n_iter) (- (1)) b) with true by (destruct Hb; subst b; reflexivity).
    reflexivity. }
  cbn. f_equal. apply A. left. reflexivity.
Qed.
Print Assumptions flat_negative_loss_refuted.
(* while the same losses, positive, are recognized *)
Example flat_positive_loss : exists r, sched_run (data_generation_args 0) [1] [1; 1; 1] = Ok [r] /\ r == 1#2.
Proof. eexists. split; [reflexivity|reflexivity]. Qed.

(* losses that go on improving -- positive, each below the one before by more than the threshold -- leave the rate of data generation alone *)
Fixpoint improving (b : Q) (l : list Q) : Prop := match l with [] => True | x :: r => 0 < x /\ x < b * (1 - (1#10000)) /\ improving x r end.
Theorem improving_loss_keeps_rate : forall n_iter x losses rate, 0 < x -> improving x losses -> sched_run (data_generation_args n_iter) [rate] (x :: losses) = Ok [rate].
Proof.
  intros n_iter x losses rate Hx H. rewrite run_form. cbn [Qle_bool s_factor data_generation_args]. cbn [floors length s_floor data_generation_args repeat].
  assert (forall fl l b, improving b l -> st_rates (fold_left (sched_step (data_generation_args n_iter) fl) l (SState (Some b) 0 0 [rate])) = [rate]) as A.
  { intros fl l. induction l as [|y l IH]; intros b Hb; [reflexivity|]. destruct Hb as (Py & By & Hl). cbn [fold_left].
    replace (sched_step (data_generation_args n_iter) fl (SState (Some b) 0 0 [rate]) y) with (SState (Some y) 0 0 [rate]); [apply IH; exact Hl|].
    unfold sched_step. cbn [st_best st_bad st_cool st_rates]. replace (is_better (data_generation_args n_iter) y (Some b)) with true; [reflexivity|].
    symmetry. unfold is_better. cbn [s_mode s_tmode s_threshold data_generation_args]. apply negb_true_iff. destruct (Qle_bool (b * (1 - (1 # 10000))) y) eqn:E; [|reflexivity].
    apply Qle_bool_iff in E. lra. }
  cbn [Qle_bool]. change (Ok (st_rates (fold_left (sched_step (data_generation_args n_iter) [1#10000]) losses (SState (Some x) 0 0 [rate]))) = Ok [rate]). f_equal. apply A. exact H.
Qed.
Print Assumptions improving_loss_keeps_rate.
Example improving_case : improving 4 [2; 1; 1#2].
Proof. cbn. repeat split; lra. Qed.
