(* AnnealProps.v -- C42: annealing schedules and gradual activation quantization. *)
From Coq Require Import Lqa.
From Verif Require Import AnnealModel.
Open Scope Q_scope.

(* a schedule as the constructor accepts it *)
Definition valid (s : sched) : Prop := (0 <= t_start s < t_end s)%Z.
Theorem schedule_accepted : forall ts te i t, (exists s, mk_sched ts te i t = Ok s) <-> (0 <= ts < te)%Z.
Proof.
  intros ts te i t. unfold mk_sched. destruct (Z.leb_spec 0 ts), (Z.ltb_spec ts te); cbn; split; intro H1; try (destruct H1; discriminate); try lia; eexists; reflexivity.
Qed.
Print Assumptions schedule_accepted.
Lemma mk_sched_ok ts te i t s : mk_sched ts te i t = Ok s -> s = Sched ts te i t /\ valid s.
Proof. unfold mk_sched, valid. destruct (Z.leb_spec 0 ts), (Z.ltb_spec ts te); cbn; intro E; try discriminate. injection E as <-. cbn. split; [reflexivity|lia]. Qed.

Lemma clip_cases x lo hi : lo <= hi -> (x <= lo /\ clip x lo hi == lo) \/ (lo <= x <= hi /\ clip x lo hi == x) \/ (hi <= x /\ clip x lo hi == hi).
Proof.
  intro L. unfold clip, Qmin_, Qmax_. destruct (Qle_bool x lo) eqn:A; [apply Qle_bool_iff in A|assert (B : ~ x <= lo) by (rewrite <- Qle_bool_iff; congruence)].
  - destruct (Qle_bool lo hi) eqn:C; [left; split; [exact A|reflexivity]|]. assert (~ lo <= hi) by (rewrite <- Qle_bool_iff; congruence). lra.
  - destruct (Qle_bool x hi) eqn:C; [apply Qle_bool_iff in C|assert (~ x <= hi) by (rewrite <- Qle_bool_iff; congruence)].
    + right; left. split; [split; lra|reflexivity].
    + right; right. split; [lra|reflexivity].
Qed.
Lemma inj_lt a b : (a < b)%Z -> inject_Z a < inject_Z b. Proof. rewrite <- Zlt_Qlt. auto. Qed.
Lemma inj_le a b : (a <= b)%Z -> inject_Z a <= inject_Z b. Proof. rewrite <- Zle_Qle. auto. Qed.
Lemma factor_cases s t : valid s -> ((t <= t_start s)%Z /\ factor s t == 0) \/ ((t_start s <= t <= t_end s)%Z /\ inject_Z (t_end s - t_start s) * factor s t == inject_Z (t - t_start s)) \/ ((t_end s <= t)%Z /\ factor s t == 1).
Proof.
  intros [V0 V]. pose proof (inj_lt 0 (t_end s - t_start s) ltac:(lia)) as D. change (inject_Z 0) with 0 in D. unfold factor. set (d := inject_Z (t_end s - t_start s)) in *. set (n := inject_Z (t - t_start s)).
  destruct (Z.le_gt_cases t (t_start s)) as [A|A].
  - left. split; [exact A|]. assert (n <= 0) by (apply (inj_le (t - t_start s) 0); lia). assert (n / d <= 0). { apply Qle_shift_div_r; [exact D|]. lra. } destruct (clip_cases (n / d) 0 1 ltac:(lra)) as [[_ G1]|[[G1 G2]|[G1 _]]]; lra.
  - destruct (Z.le_gt_cases (t_end s) t) as [B|B].
    + right; right. split; [exact B|]. assert (d <= n) by (apply inj_le; lia). assert (1 <= n / d). { apply Qle_shift_div_l; [exact D|]. lra. } destruct (clip_cases (n / d) 0 1 ltac:(lra)) as [[G1 _]|[[G1 G2]|[_ G1]]]; lra.
    + right; left. split; [lia|]. assert (0 <= n) by (apply (inj_le 0 (t - t_start s)); lia). assert (n <= d) by (apply inj_le; lia). assert (0 <= n / d) by (apply Qle_shift_div_l; [exact D|lra]). assert (n / d <= 1) by (apply Qle_shift_div_r; [exact D|lra]).
      assert (E : clip (n / d) 0 1 == n / d) by (destruct (clip_cases (n / d) 0 1 ltac:(lra)) as [[G1 G2]|[[G1 G2]|[G1 G2]]]; lra). rewrite E. field. lra.
Qed.
Lemma factor_range s t : valid s -> 0 <= factor s t <= 1.
Proof. intros _. unfold factor. destruct (clip_cases (inject_Z (t - t_start s) / inject_Z (t_end s - t_start s)) 0 1 ltac:(lra)) as [[_ ->]|[[H ->]|[_ ->]]]; lra. Qed.
Lemma factor_mono s t t' : valid s -> (t <= t')%Z -> factor s t <= factor s t'.
Proof.
  intros V L. pose proof (factor_range s t V). pose proof (factor_range s t' V). destruct (factor_cases s t V) as [[_ E]|[[A E]|[A E]]]; [lra| |].
  - destruct (factor_cases s t' V) as [[B F]|[[B F]|[B F]]]; [|clear A B|lra].
    + assert (t = t_start s) by lia. assert (inject_Z (t - t_start s) == 0) by (replace (t - t_start s)%Z with 0%Z by lia; reflexivity). assert (D := inj_lt 0 (t_end s - t_start s) ltac:(destruct V; lia)). change (inject_Z 0) with 0 in D. nra.
    + assert (D := inj_lt 0 (t_end s - t_start s) ltac:(destruct V; lia)). change (inject_Z 0) with 0 in D. assert (inject_Z (t - t_start s) <= inject_Z (t' - t_start s)) by (apply inj_le; lia). nra.
  - destruct (factor_cases s t' V) as [[B F]|[[B F]|[B F]]]; [destruct V; lia| |lra]. assert (t' = t_end s) by lia. replace (t' - t_start s)%Z with (t_end s - t_start s)%Z in F by lia. assert (D := inj_lt 0 (t_end s - t_start s) ltac:(destruct V; lia)). change (inject_Z 0) with 0 in D. nra.
Qed.

(* ---- the endpoints, the straight line between them, and monotonicity ---- *)
Theorem schedule_endpoints : forall s t, valid s ->
  ((t <= t_start s)%Z -> sched_at s t == initial_val s) /\ ((t_end s <= t)%Z -> sched_at s t == target_val s) /\
  ((t_start s <= t <= t_end s)%Z -> inject_Z (t_end s - t_start s) * (sched_at s t - initial_val s) == inject_Z (t - t_start s) * (target_val s - initial_val s)).
Proof.
  intros s t V. unfold sched_at. assert (D := inj_lt 0 (t_end s - t_start s) ltac:(destruct V; lia)). change (inject_Z 0) with 0 in D.
  destruct (factor_cases s t V) as [[A E]|[[A E]|[A E]]]; (split; [|split]); intro H; try (destruct V; lia); rewrite ?E.
  - ring.
  - assert (t = t_start s) as -> by lia. replace (t_start s - t_start s)%Z with 0%Z by lia. change (inject_Z 0) with 0. ring.
  - assert (F : factor s t == 0). { assert (inject_Z (t - t_start s) == 0) by (replace (t - t_start s)%Z with 0%Z by lia; reflexivity). nra. } rewrite F. ring.
  - assert (F : factor s t == 1). { replace (t - t_start s)%Z with (t_end s - t_start s)%Z in E by lia. nra. } rewrite F. ring.
  - rewrite <- E. ring.
  - ring.
  - assert (t = t_end s) as -> by lia. ring.
Qed.
Print Assumptions schedule_endpoints.
Theorem schedule_between : forall s t, valid s ->
  (initial_val s <= target_val s -> initial_val s <= sched_at s t <= target_val s) /\ (target_val s <= initial_val s -> target_val s <= sched_at s t <= initial_val s).
Proof. intros s t V. unfold sched_at. pose proof (factor_range s t V). split; intro; split; nra. Qed.
Print Assumptions schedule_between.
Theorem schedule_monotone : forall s t t', valid s -> (t <= t')%Z ->
  (initial_val s <= target_val s -> sched_at s t <= sched_at s t') /\ (target_val s <= initial_val s -> sched_at s t' <= sched_at s t).
Proof. intros s t t' V L. unfold sched_at. pose proof (factor_mono s t t' V L). split; intro; nra. Qed.
Print Assumptions schedule_monotone.

(* ---- gradual quantization.  A configuration that was accepted, and its schedule ---- *)
Lemma mk_qfraction_ok i t st e c : mk_qfraction i t st e = Ok c -> c = QFraction i t st e /\ 0 <= i /\ i < t /\ t <= 1 /\ (0 <= st)%Z /\ (forall e', e = Some e' -> (st < e')%Z).
Proof.
  unfold mk_qfraction. destruct (Qle_bool 0 i) eqn:A; cbn [andb negb]; [|discriminate]. destruct (Qle_bool t i) eqn:B; cbn [andb negb]; [discriminate|]. destruct (Qle_bool t 1) eqn:C; cbn [andb negb]; [|discriminate].
  apply Qle_bool_iff in A, C. assert (B' : ~ t <= i) by (rewrite <- Qle_bool_iff; congruence). destruct (Z.ltb_spec st 0); [discriminate|]. intro E. assert (F : c = QFraction i t st e /\ forall e', e = Some e' -> (st < e')%Z).
  { destruct e as [e'|]; [destruct (Z.leb_spec e' st); [discriminate|]|]; injection E as <-; (split; [reflexivity|]); intros ? Q; [injection Q as <-; lia|discriminate]. }
  destruct F as [F1 F2]. repeat split; try assumption; lra || lia.
Qed.
Theorem gradual_accepted : forall i t st e, (exists c, mk_qfraction i t st e = Ok c) <-> 0 <= i /\ i < t /\ t <= 1 /\ (0 <= st)%Z /\ (forall e', e = Some e' -> (st < e')%Z).
Proof.
  intros. split; [intros [c H]; apply mk_qfraction_ok in H; tauto|]. intros (A & B & C & D & E). unfold mk_qfraction. rewrite (proj2 (Qle_bool_iff 0 i) A), (proj2 (Qle_bool_iff t 1) C). destruct (Qle_bool t i) eqn:F; [apply Qle_bool_iff in F; lra|]. cbn. destruct (Z.ltb_spec st 0); [lia|]. destruct e as [e'|]; [|eauto]. specialize (E e' eq_refl). destruct (Z.leb_spec e' st); [lia|eauto].
Qed.
Print Assumptions gradual_accepted.
(* the schedule ends at the configured step, or with the training; a training that ends before the start is refused *)
Definition ends_at (e : option Z) (total : Z) : Z := match e with Some e' => e' | None => total end.
Theorem gradual_schedule_of_config : forall i t st e c total, mk_qfraction i t st e = Ok c ->
  gradual_schedule (Some c) total = if (st <? ends_at e total)%Z then Ok (Some (Sched st (ends_at e total) i t)) else Err E_value.
Proof.
  intros i t st e c total H. apply mk_qfraction_ok in H. destruct H as (-> & A & B & C & D & E). unfold gradual_schedule, ends_at. cbn [q_end q_start q_initial q_target].
  assert (F : match e with Some e' => if (e' =? 0)%Z then total else e' | None => total end = ends_at e total). { destruct e as [e'|]; [|reflexivity]. specialize (E e' eq_refl). destruct (Z.eqb_spec e' 0); [lia|reflexivity]. }
  rewrite F. unfold mk_sched. destruct (Z.leb_spec 0 st); [|lia]. cbn [andb]. fold (ends_at e total). destruct (st <? ends_at e total)%Z; reflexivity.
Qed.
Print Assumptions gradual_schedule_of_config.

Lemma gradual_nth s q n xs k x : nth_error xs k = Some x -> nth_error (gradual_calls s q n xs) k = Some (fst (gradual_call s q (n + Z.of_nat k) x)).
Proof.
  revert n k. induction xs as [|y xs IH]; intros n [|k] H; cbn in H; try discriminate.
  - injection H as ->. cbn. rewrite Z.add_0_r. reflexivity.
  - cbn [gradual_calls]. unfold gradual_call at 1. cbn [nth_error]. rewrite (IH (n + 1)%Z k H). do 3 f_equal. lia.
Qed.
Lemma mix_nth (f : Q) x y j : length y = length x -> (j < length x)%nat -> nth j (map (fun p => (1 - f) * fst p + f * snd p) (combine x y)) 0 = (1 - f) * nth j x 0 + f * nth j y 0.
Proof.
  revert y j. induction x as [|a x IH]; intros [|b y] [|j] L J; cbn in *; try lia; try reflexivity. apply IH; lia.
Qed.
(* the k-th call computes a mixture of its input and the quantized input, with the fraction of step k: every entry lies
   between the two, the whole input before the start if the fraction starts at 0, the quantized input from the end on if it ends at 1 *)
Theorem gradual_mixture : forall s quantizer xs k x, valid s -> 0 <= initial_val s -> initial_val s <= target_val s -> target_val s <= 1 ->
  nth_error xs k = Some x -> length (quantizer x) = length x ->
  exists out, nth_error (gradual_calls s quantizer 0 xs) k = Some out /\ length out = length x /\
  forall j, (j < length x)%nat -> let a := nth j x 0 in let b := nth j (quantizer x) 0 in let o := nth j out 0 in
    (a <= b -> a <= o <= b) /\ (b <= a -> b <= o <= a) /\ o == a + sched_at s (Z.of_nat k) * (b - a) /\
    ((Z.of_nat k <= t_start s)%Z -> initial_val s == 0 -> o == a) /\ ((t_end s <= Z.of_nat k)%Z -> target_val s == 1 -> o == b).
Proof.
  intros s q xs k x V I0 IT T1 H L. eexists. split; [apply (gradual_nth s q 0 xs k x H)|]. cbn [gradual_call fst]. rewrite Z.add_0_l. split; [rewrite map_length, combine_length, L; apply Nat.min_id|]. intros j J.
  cbv zeta. rewrite (mix_nth _ x (q x) j L J).
  pose proof (proj1 (schedule_between s (Z.of_nat k) V) IT) as [B1 B2]. destruct (schedule_endpoints s (Z.of_nat k) V) as (E1 & E2 & _). set (f := sched_at s (Z.of_nat k)) in *. set (a := nth j x 0). set (b := nth j (q x) 0).
  repeat split; try nra; try ring; intros Q1 Q2; [specialize (E1 Q1)|specialize (E2 Q1)]; [assert (F : f == 0) by lra|assert (F : f == 1) by lra]; rewrite F; ring.
Qed.
Print Assumptions gradual_mixture.

(* without an end step the fraction stays below its target in every step of the training *)
Theorem target_not_reached_in_training_refuted : forall i t st c total s k, mk_qfraction i t st None = Ok c -> gradual_schedule (Some c) total = Ok (Some s) -> (0 <= k < total)%Z ->
  sched_at s k < t.
Proof.
  intros i t st c total s k H G K. pose proof (gradual_schedule_of_config i t st None c total H) as G'. cbn [ends_at] in G'. rewrite G in G'. destruct (Z.ltb_spec st total) as [L|]; [|discriminate]. injection G' as ->. apply mk_qfraction_ok in H. destruct H as (_ & A & B & C & D & _).
  assert (V : valid (Sched st total i t)) by (split; cbn; lia). unfold sched_at. cbn [initial_val target_val]. assert (F : factor (Sched st total i t) k < 1); [|nra].
  destruct (factor_cases _ k V) as [[_ E]|[[_ E]|[E _]]]; cbn [t_start t_end] in E; [lra| |lia]. pose proof (factor_range _ k V). assert (inject_Z (k - st) < inject_Z (total - st)) by (apply inj_lt; lia). assert (0 < inject_Z (total - st)) by (apply (inj_lt 0); lia). nra.
Qed.
Print Assumptions target_not_reached_in_training_refuted.
(* inside a traced function the count does not advance: with the default configuration activations are never quantized *)
Theorem traced_schedule_refuted : forall s quantizer xs x k, valid s -> initial_val s == 0 -> nth_error xs k = Some x -> length (quantizer x) = length x ->
  exists out, nth_error (traced_calls s quantizer 0 xs) k = Some out /\ forall j, (j < length x)%nat -> nth j out 0 == nth j x 0.
Proof.
  intros s q xs x k V I H L. unfold traced_calls. rewrite nth_error_map, H. eexists. split; [reflexivity|]. intros j J. cbn [gradual_call fst].
  rewrite (mix_nth _ x (q x) j L J).
  destruct (schedule_endpoints s 0 V) as (E1 & _). assert (F : sched_at s 0 == 0) by (rewrite <- I; apply E1; destruct V; lia). rewrite F. ring.
Qed.
Print Assumptions traced_schedule_refuted.

(* ---- the regularization: from 20 to 2, constant in the first fifth of the steps; no steps are refused ---- *)
Theorem regularization_beta : forall total s, regularization_schedule total = Ok s ->
  (0 < total)%Z /\ valid s /\ forall t t', (t <= t')%Z -> 2 <= sched_at s t' <= 20 /\ sched_at s t' <= sched_at s t /\ ((5 * t <= total - 4)%Z -> sched_at s t == 20) /\ ((total <= t)%Z -> sched_at s t == 2).
Proof.
  intros total s H. unfold regularization_schedule in H. destruct (mk_sched_ok _ _ _ _ _ H) as [-> V]. split; [destruct V; cbn in *; Z.to_euclidean_division_equations; lia|]. split; [exact V|]. intros t t' L.
  pose proof (schedule_between _ t' V) as [_ B]. pose proof (schedule_monotone _ t t' V L) as [_ M]. pose proof (schedule_endpoints _ t V) as (E1 & E2 & _). cbn [initial_val target_val t_start t_end] in *.
  assert (T : inject_Z 2 <= inject_Z 20) by (apply inj_le; lia). specialize (B T). specialize (M T). split; [exact B|]. split; [exact M|]. split; intro Q; [apply E1; Z.to_euclidean_division_equations; lia|apply E2; exact Q].
Qed.
Print Assumptions regularization_beta.
Theorem regularization_accepted : forall total, (exists s, regularization_schedule total = Ok s) <-> (0 < total)%Z.
Proof. intro total. unfold regularization_schedule. rewrite schedule_accepted. Z.to_euclidean_division_equations. lia. Qed.
Print Assumptions regularization_accepted.

(* ---- instances ---- *)
Example anneal_ex : exists c s, mk_qfraction 0 1 1 (Some 3%Z) = Ok c /\ gradual_schedule (Some c) 9 = Ok (Some s) /\ valid s /\ Qeq_bool (sched_at s 2) (1 # 2) = true.
Proof. eexists. eexists. split; [reflexivity|]. split; [reflexivity|]. split; [split; cbn; lia|reflexivity]. Qed.
Example reg_ex : exists s, regularization_schedule 10 = Ok s /\ Qeq_bool (sched_at s 6) 11 = true.
Proof. eexists. split; reflexivity. Qed.
