(* MomentLimProps.v -- C108: the integrals to infinity, and the variance after a ReLU. *)
From Coq Require Import Reals Lra Lia.
From Coquelicot Require Import Coquelicot.
From Verif Require Import Base LinNode LinSpec BnModel BnSpec LinGraph EqualizeModel EqualizeSpec EqualizeProps MomentProps GaussProofs.
Open Scope R_scope.

(* F tends to l as its argument grows *)
Definition tends_to (F : R -> R) (l : R) : Prop := forall eps, 0 < eps -> exists M, forall b, M <= b -> Rabs (F b - l) < eps.

Section Limits.
Variables mu sd : R.
Hypothesis P : 0 < sd.
Lemma rests z : 1 <= z -> 0 <= 1 - erf z <= 2 / z /\ 0 <= exp (- (z * z)) <= 1 / z /\ z * exp (- (z * z)) <= 1 / z.
Proof.
  intro Z. pose proof (exp_pos (- (z * z))) as E0. assert (Z2 : 0 < z * z) by nra.
  assert (E : exp (- (z * z)) <= 1 / (z * z)).
  { rewrite exp_Ropp. unfold Rdiv. rewrite Rmult_1_l. apply Rinv_le_contravar; [exact Z2|]. pose proof (exp_ineq1 (z * z)). lra. }
  assert (I1 : 1 / (z * z) <= 1 / z). { unfold Rdiv. apply Rmult_le_compat_l; [lra|]. apply Rinv_le_contravar; nra. }
  split; [|split].
  - destruct (erf_near_one z ltac:(lra)) as [A B]. split; [exact A|]. eapply Rle_trans; [exact B|].
    assert (4 / PI <= 2). { pose proof PI2_3_2. apply Rmult_le_reg_r with PI; [lra|]. unfold Rdiv. rewrite Rmult_assoc, Rinv_l; lra. }
    apply Rle_trans with (2 * (1 / z)); [apply Rmult_le_compat; try lra; apply Rlt_le, Rdiv_lt_0_compat; [lra|apply PI_RGT_0]|lra].
  - lra.
  - apply Rle_trans with (z * (1 / (z * z))); [apply Rmult_le_compat_l; lra|]. right. field. lra.
Qed.
Lemma far K eps : 0 <= K -> 0 < eps -> exists M, forall b, M <= b -> 1 <= arg mu sd b /\ K * (1 / arg mu sd b) < eps.
Proof.
  intros HK HE. pose proof kp as k0. exists (mu + sqrt 2 * sd * (1 + K / eps)). intros b Hb.
  assert (S : 0 < sqrt 2 * sd) by (apply Rmult_lt_0_compat; assumption).
  assert (KE : 0 <= K / eps) by (apply Rmult_le_pos; [exact HK|left; apply Rinv_0_lt_compat, HE]).
  assert (Z : 1 + K / eps <= arg mu sd b).
  { unfold arg. apply Rmult_le_reg_r with (sqrt 2 * sd); [exact S|]. unfold Rdiv at 2. rewrite Rmult_assoc, Rinv_l by lra. lra. }
  split; [lra|]. apply Rmult_lt_reg_r with (arg mu sd b); [lra|]. replace (K * (1 / arg mu sd b) * arg mu sd b) with K by (field; lra).
  apply Rlt_le_trans with (eps * (1 + K / eps)); [|apply Rmult_le_compat_l; lra]. replace (eps * (1 + K / eps)) with (eps + K) by (field; lra). lra.
Qed.
Lemma kq1 : 0 < sd / (sqrt 2 * sqrt PI) <= sd.
Proof.
  pose proof kp. pose proof pp. pose proof k2. pose proof p2. pose proof PI2_3_2. assert (1 <= sqrt 2) by nra. assert (1 <= sqrt PI) by nra.
  assert (1 <= sqrt 2 * sqrt PI) by nra. split; [apply Rdiv_lt_0_compat; lra|].
  apply Rmult_le_reg_r with (sqrt 2 * sqrt PI); [lra|]. unfold Rdiv. rewrite Rmult_assoc, Rinv_l by lra. nra.
Qed.
Lemma bound_mul a x y w : Rabs x <= y * w -> Rabs (a * x) <= Rabs a * y * w.
Proof. intro H. rewrite Rabs_mult, Rmult_assoc. apply Rmult_le_compat_l; [apply Rabs_pos|exact H]. Qed.
Lemma F0_lim : tends_to (fun b => erf (arg mu sd b)) 1.
Proof.
  intros eps HE. destruct (far 2 eps ltac:(lra) HE) as [M HM]. exists M. intros b Hb. destruct (HM b Hb) as [Z L]. destruct (rests _ Z) as [U _].
  rewrite Rabs_minus_sym, Rabs_right by lra. lra.
Qed.
Lemma F1_lim : tends_to (F1 mu sd) (mu / 2).
Proof.
  intros eps HE. pose proof kq1 as KQ. set (c := sd / (sqrt 2 * sqrt PI)) in *.
  destruct (far (Rabs (mu / 2) * 2 + Rabs (- c) * 1) eps) as [M HM]; [|exact HE|].
  { pose proof (Rabs_pos (mu / 2)). pose proof (Rabs_pos (- c)). lra. }
  exists M. intros b Hb. destruct (HM b Hb) as [Z L]. destruct (rests _ Z) as (U & V & _). unfold F1. fold c.
  replace (mu / 2 * erf (arg mu sd b) + - c * exp (- (arg mu sd b * arg mu sd b)) - mu / 2)
    with (mu / 2 * (erf (arg mu sd b) - 1) + - c * exp (- (arg mu sd b * arg mu sd b))) by ring.
  eapply Rle_lt_trans; [apply Rabs_triang|]. eapply Rle_lt_trans; [apply Rplus_le_compat|].
  - apply (bound_mul (mu / 2) _ 2 (1 / arg mu sd b)). rewrite Rabs_minus_sym, Rabs_right by lra. lra.
  - apply (bound_mul (- c) _ 1 (1 / arg mu sd b)). rewrite Rabs_right by lra. lra.
  - lra.
Qed.
Lemma F2_lim : tends_to (F2 mu sd) ((mu * mu + sd * sd) / 2).
Proof.
  intros eps HE. pose proof kp as k0. set (c := sd / (sqrt 2 * sqrt PI)) in *. set (s := (mu * mu + sd * sd) / 2) in *.
  destruct (far (Rabs s * 2 + Rabs (- c * (sqrt 2 * sd)) * 1 + Rabs (- c * (2 * mu)) * 1) eps) as [M HM]; [|exact HE|].
  { pose proof (Rabs_pos s). pose proof (Rabs_pos (- c * (sqrt 2 * sd))). pose proof (Rabs_pos (- c * (2 * mu))). lra. }
  exists M. intros b Hb. destruct (HM b Hb) as [Z L]. destruct (rests _ Z) as (U & V & Y). unfold F2. fold c s.
  set (z := arg mu sd b) in *. set (v := exp (- (z * z))) in *.
  replace (s * erf z + - c * (b + mu) * v - s) with (s * (erf z - 1) + - c * (sqrt 2 * sd) * (z * v) + - c * (2 * mu) * v).
  2:{ replace b with (mu + sqrt 2 * sd * z) at 1 by (unfold z, arg; field; split; lra). ring. }
  eapply Rle_lt_trans; [apply Rabs_triang|]. eapply Rle_lt_trans; [apply Rplus_le_compat; [eapply Rle_trans; [apply Rabs_triang|apply Rplus_le_compat]|]|].
  - apply (bound_mul s _ 2 (1 / z)). rewrite Rabs_minus_sym, Rabs_right by lra. lra.
  - apply (bound_mul (- c * (sqrt 2 * sd)) _ 1 (1 / z)). rewrite Rabs_right; [lra|]. apply Rle_ge, Rmult_le_pos; lra.
  - apply (bound_mul (- c * (2 * mu)) _ 1 (1 / z)). rewrite Rabs_right by lra. lra.
  - lra.
Qed.
End Limits.

(* the mean and the second moment of max(X, 0) *)
Theorem mean_after_relu mu sd : 0 < sd -> tends_to (fun b => RInt (fun x => x * density mu sd x) 0 b) (fixed_mean_after_relu erf mu sd).
Proof.
  intros P eps HE. destruct (F1_lim mu sd P eps HE) as [M HM]. exists M. intros b Hb.
  rewrite (integral_by (F1 mu sd) (fun x => x * density mu sd x)); [|apply F1_derive, P|].
  - rewrite (mean_alt mu sd P). replace (F1 mu sd b - F1 mu sd 0 - (mu / 2 - F1 mu sd 0)) with (F1 mu sd b - mu / 2) by ring. apply HM, Hb.
  - intro x. apply (continuous_mult (fun x => x) (density mu sd)); [apply continuous_id|apply density_continuous].
Qed.
Print Assumptions mean_after_relu.
Theorem second_moment_after_relu mu sd : 0 < sd -> tends_to (fun b => RInt (fun x => x * x * density mu sd x) 0 b) (fixed_second_moment_after_relu erf mu sd).
Proof.
  intros P eps HE. destruct (F2_lim mu sd P eps HE) as [M HM]. exists M. intros b Hb.
  rewrite (integral_by (F2 mu sd) (fun x => x * x * density mu sd x)); [|apply F2_derive, P|].
  - rewrite (second_alt mu sd P). replace (F2 mu sd b - F2 mu sd 0 - ((mu * mu + sd * sd) / 2 - F2 mu sd 0)) with (F2 mu sd b - (mu * mu + sd * sd) / 2) by ring. apply HM, Hb.
  - intro x. apply (continuous_mult (fun x => x * x) (density mu sd)); [apply (ex_derive_continuous (fun x : R => x * x)); auto_derive; exact I|apply density_continuous].
Qed.
Print Assumptions second_moment_after_relu.

Lemma erf_lower x : - 1 <= erf x.
Proof.
  destruct (Rle_lt_dec 0 x) as [H|H].
  - rewrite erf_A. pose proof (A_nonneg x H). pose proof pp. assert (0 <= 2 / sqrt PI * A x); [|lra]. apply Rmult_le_pos; [left; apply Rdiv_lt_0_compat; lra|assumption].
  - pose proof (erf_near_one (- x) ltac:(lra)) as [E _]. rewrite erf_odd in E. lra.
Qed.
Section Variance.
Variables mu sd m : R.
Hypothesis P : 0 < sd.
Definition F3 (x : R) : R := F2 mu sd x + - (2 * m) * F1 mu sd x + m * m / 2 * erf (arg mu sd x).
Lemma F3_derive (x : R) : is_derive F3 x ((x - m) * (x - m) * density mu sd x).
Proof.
  unfold F3. pose proof kp. pose proof pp. evar_last.
  - apply (is_derive_plus (fun x => F2 mu sd x + - (2 * m) * F1 mu sd x) (fun x => m * m / 2 * erf (arg mu sd x))).
    + apply (is_derive_plus (F2 mu sd) (fun x => - (2 * m) * F1 mu sd x)); [apply F2_derive, P|]. apply (is_derive_scal (F1 mu sd) x (- (2 * m))). apply F1_derive, P.
    + apply (is_derive_scal (fun x => erf (arg mu sd x)) x (m * m / 2)). apply erf_part, P.
  - unfold plus, scal, mult; cbn; unfold mult; cbn. rewrite (density_alt mu sd P x). match goal with |- @eq _ ?a ?c => change (@eq R a c) end. field. repeat split; lra.
Qed.
Lemma density_pos x : 0 < density mu sd x.
Proof. pose proof kp. pose proof pp. rewrite (density_alt mu sd P). apply Rdiv_lt_0_compat; [apply exp_pos|]. repeat apply Rmult_lt_0_compat; assumption. Qed.
Lemma F3_incr a b : a <= b -> F3 a <= F3 b.
Proof.
  intro H. destruct (MVT_gen F3 a b (fun x => (x - m) * (x - m) * density mu sd x)) as [c [_ E]].
  - intros x _. apply F3_derive.
  - intros x _. apply continuity_pt_filterlim, (ex_derive_continuous F3). eexists. apply F3_derive.
  - assert (0 <= (c - m) * (c - m) * density mu sd c * (b - a)); [|lra]. pose proof (density_pos c). pose proof (Rle_0_sqr (c - m)) as SQ. unfold Rsqr in SQ. apply Rmult_le_pos; [apply Rmult_le_pos|]; lra.
Qed.
Lemma F3_incr_strict a b : m < a -> a < b -> F3 a < F3 b.
Proof.
  intros Hm H. destruct (MVT_gen F3 a b (fun x => (x - m) * (x - m) * density mu sd x)) as [c [C E]].
  - intros x _. apply F3_derive.
  - intros x _. apply continuity_pt_filterlim, (ex_derive_continuous F3). eexists. apply F3_derive.
  - rewrite Rmin_left in C by lra. assert (0 < (c - m) * (c - m) * density mu sd c * (b - a)); [|lra]. pose proof (density_pos c). apply Rmult_lt_0_compat; [apply Rmult_lt_0_compat; [apply Rmult_lt_0_compat|]|]; lra.
Qed.
Lemma F3_limit_above : exists d, 0 < d /\ F3 0 + d <= (mu * mu + sd * sd) / 2 + - (2 * m) * (mu / 2) + m * m / 2.
Proof.
  set (l := (mu * mu + sd * sd) / 2 + - (2 * m) * (mu / 2) + m * m / 2). set (a := Rmax 0 m + 1).
  assert (Ha : 0 < a /\ m < a) by (unfold a; pose proof (Rmax_l 0 m); pose proof (Rmax_r 0 m); lra).
  set (d := F3 (a + 1) - F3 a). assert (D : 0 < d) by (unfold d; pose proof (F3_incr_strict a (a + 1)); lra).
  exists d. split; [exact D|]. apply Rnot_lt_le. intro N. set (e := (F3 0 + d - l) / 4). assert (E : 0 < e) by (unfold e; lra).
  set (K := 1 + 2 * Rabs m + m * m / 2). assert (HK : 1 <= K) by (unfold K; pose proof (Rabs_pos m); nra).
  assert (EK : 0 < e / K) by (apply Rdiv_lt_0_compat; lra).
  destruct (F2_lim mu sd P (e / K) EK) as [M2 L2]. destruct (F1_lim mu sd P (e / K) EK) as [M1 L1]. destruct (F0_lim mu sd P (e / K) EK) as [M0 L0].
  set (b := Rmax (Rmax M2 M1) (Rmax M0 (a + 1))).
  assert (Hb : M2 <= b /\ M1 <= b /\ M0 <= b /\ a + 1 <= b).
  { unfold b. pose proof (Rmax_l (Rmax M2 M1) (Rmax M0 (a + 1))). pose proof (Rmax_r (Rmax M2 M1) (Rmax M0 (a + 1))). pose proof (Rmax_l M2 M1). pose proof (Rmax_r M2 M1). pose proof (Rmax_l M0 (a + 1)). pose proof (Rmax_r M0 (a + 1)). lra. }
  destruct Hb as (B2 & B1 & B0 & BA). specialize (L2 b B2). specialize (L1 b B1). specialize (L0 b B0).
  assert (G : F3 0 + d <= F3 b). { pose proof (F3_incr (a + 1) b BA). pose proof (F3_incr 0 a ltac:(lra)). unfold d. lra. }
  assert (U : F3 b - l <= e).
  { unfold F3, l.
    assert (Q2 : F2 mu sd b - (mu * mu + sd * sd) / 2 <= 1 * (e / K)). { pose proof (Rle_abs (F2 mu sd b - (mu * mu + sd * sd) / 2)). lra. }
    assert (Q1 : - (2 * m) * (F1 mu sd b - mu / 2) <= 2 * Rabs m * (e / K)).
    { eapply Rle_trans; [apply Rle_abs|]. rewrite Rabs_mult, Rabs_Ropp, Rabs_mult, (Rabs_right 2) by lra. apply Rmult_le_compat_l; [pose proof (Rabs_pos m); lra|lra]. }
    assert (Q0 : m * m / 2 * (erf (arg mu sd b) - 1) <= m * m / 2 * (e / K)). { apply Rmult_le_compat_l; [nra|]. pose proof (Rle_abs (erf (arg mu sd b) - 1)). lra. }
    assert (QE : K * (e / K) = e) by (field; lra). unfold K in QE at 1. rewrite !Rmult_plus_distr_r in QE. lra. }
  unfold e in *. lra.
Qed.
End Variance.

(* the variance after a ReLU is positive *)
Theorem variance_after_relu_positive mu sd : 0 < sd -> 0 < fixed_variance erf mu sd.
Proof.
  intro P. unfold fixed_variance. set (m := fixed_mean_after_relu erf mu sd). destruct (F3_limit_above mu sd m P) as (d & D & H).
  assert (E : m = mu / 2 - F1 mu sd 0) by (apply mean_alt, P). rewrite (second_alt mu sd P). unfold F3 in H. pose proof (erf_lower (arg mu sd 0)) as L.
  assert (Q : 0 <= m * m / 2 * (1 + erf (arg mu sd 0))) by (apply Rmult_le_pos; nra).
  assert (Z : F1 mu sd 0 = mu / 2 - m) by lra. rewrite Z in H. nra.
Qed.
Print Assumptions variance_after_relu_positive.

(* it is the variance of max(X, 0): the part above zero, and the mass below zero at distance m from the mean *)
Theorem variance_after_relu mu sd : 0 < sd -> let m := fixed_mean_after_relu erf mu sd in
  tends_to (fun b => RInt (fun x => (x - m) * (x - m) * density mu sd x) 0 b + m * m * ((1 - erf (mu / (sqrt 2 * sd))) / 2)) (fixed_variance erf mu sd).
Proof.
  intros P m eps HE. pose proof kp as k0.
  set (K := 1 + 2 * Rabs m + m * m / 2). assert (HK : 1 <= K) by (unfold K; pose proof (Rabs_pos m); nra).
  assert (EK : 0 < eps / K) by (apply Rdiv_lt_0_compat; lra).
  destruct (F2_lim mu sd P _ EK) as [M2 L2]. destruct (F1_lim mu sd P _ EK) as [M1 L1]. destruct (F0_lim mu sd P _ EK) as [M0 L0].
  exists (Rmax (Rmax M2 M1) M0). intros b Hb. pose proof (Rmax_l (Rmax M2 M1) M0). pose proof (Rmax_r (Rmax M2 M1) M0). pose proof (Rmax_l M2 M1). pose proof (Rmax_r M2 M1).
  specialize (L2 b ltac:(lra)). specialize (L1 b ltac:(lra)). specialize (L0 b ltac:(lra)).
  rewrite (integral_by (F3 mu sd m) (fun x => (x - m) * (x - m) * density mu sd x)).
  2:{ intro x. apply F3_derive, P. }
  2:{ intro x. apply (continuous_mult (fun x => (x - m) * (x - m)) (density mu sd)); [apply (ex_derive_continuous (fun x : R => (x - m) * (x - m))); auto_derive; exact I|apply density_continuous]. }
  assert (Z : F1 mu sd 0 = mu / 2 - m) by (pose proof (mean_alt mu sd P) as E; fold m in E; lra).
  assert (G : erf (arg mu sd 0) = - erf (mu / (sqrt 2 * sd))).
  { rewrite <- erf_odd. f_equal. unfold arg. field. split; lra. }
  unfold fixed_variance. fold m. rewrite (second_alt mu sd P). unfold F3. rewrite Z, G.
  match goal with |- Rabs ?a < _ => replace a with ((F2 mu sd b - (mu * mu + sd * sd) / 2) + (- (2 * m) * (F1 mu sd b - mu / 2) + m * m / 2 * (erf (arg mu sd b) - 1))) by field end.
  assert (QE : K * (eps / K) = eps) by (field; lra). unfold K in QE at 1. rewrite !Rmult_plus_distr_r in QE.
  assert (Q1 : Rabs (- (2 * m) * (F1 mu sd b - mu / 2)) <= 2 * Rabs m * (eps / K)).
  { rewrite Rabs_mult, Rabs_Ropp, Rabs_mult, (Rabs_right 2) by lra. apply Rmult_le_compat_l; [pose proof (Rabs_pos m); lra|lra]. }
  assert (Q0 : Rabs (m * m / 2 * (erf (arg mu sd b) - 1)) <= m * m / 2 * (eps / K)).
  { rewrite Rabs_mult, (Rabs_right (m * m / 2)) by nra. apply Rmult_le_compat_l; [nra|lra]. }
  eapply Rle_lt_trans; [apply Rabs_triang|]. pose proof (Rabs_triang (- (2 * m) * (F1 mu sd b - mu / 2)) (m * m / 2 * (erf (arg mu sd b) - 1))). lra.
Qed.
Print Assumptions variance_after_relu.
(* the factor: v is the variance after the ReLU; a channel is divided by its deviation if that is above one *)
Theorem factor_of_statistics mean std c v : at_ std [c]%list <> 0 ->
  (let m := fixed_mean_after_relu erf (at_ mean [c]%list) (Rabs (at_ std [c]%list)) in
   tends_to (fun b => RInt (fun x => (x - m) * (x - m) * density (at_ mean [c]%list) (Rabs (at_ std [c]%list)) x) 0 b + m * m * ((1 - erf (at_ mean [c]%list / (sqrt 2 * Rabs (at_ std [c]%list)))) / 2)) v) ->
  let f := at_ (calculate_scale_correction erf mean std) [c]%list in 0 < v /\ (v <= 1 -> f = 1) /\ (1 <= v -> f * f * v = 1 /\ 0 < f <= 1).
Proof.
  intros H T f. assert (S : 0 < Rabs (at_ std [c]%list)) by (apply Rabs_pos_lt, H).
  set (fv := fixed_variance erf (at_ mean [c]%list) (Rabs (at_ std [c]%list))).
  assert (V : v = fv).
  { pose proof (variance_after_relu (at_ mean [c]%list) _ S) as T'. cbv zeta in T, T'. fold fv in T'. destruct (Req_dec v fv) as [E|N]; [exact E|exfalso].
    set (d := Rabs (v - fv)). assert (D : 0 < d) by (apply Rabs_pos_lt; lra). destruct (T (d / 2) ltac:(lra)) as [M1 L1]. destruct (T' (d / 2) ltac:(lra)) as [M2 L2].
    specialize (L1 (Rmax M1 M2) (Rmax_l _ _)). specialize (L2 (Rmax M1 M2) (Rmax_r _ _)). cbv beta in L1, L2. rewrite Rabs_minus_sym in L1.
    match type of L1 with Rabs (_ - ?y) < _ => set (w := y) in * end. pose proof (Rabs_triang (v - w) (w - fv)) as TR.
    replace (v - w + (w - fv)) with (v - fv) in TR by ring. fold d in TR. lra. }
  pose proof (variance_after_relu_positive (at_ mean [c]%list) _ S) as VP. fold fv in VP. rewrite <- V in VP.
  unfold f. cbn [calculate_scale_correction at_]. fold fv. rewrite <- V. set (r := sqrt v). assert (R0 : 0 < r) by (apply sqrt_lt_R0, VP). assert (R2 : r * r = v) by (apply sqrt_sqrt; lra).
  assert (I : 0 < 1 / r) by (apply Rdiv_lt_0_compat; lra). assert (IR : 1 / r * r = 1) by (field; lra).
  split; [exact VP|]. destruct (Rle_lt_dec 1 v) as [L|L].
  - assert (1 <= r) by nra. assert (1 / r <= 1) by nra. rewrite Rmin_left by assumption.
    assert (E : 1 / r * (1 / r) * v = 1) by (rewrite <- R2; field; lra). split; [|intros _; lra]. intro. assert (E1 : r = 1) by nra. rewrite E1. field.
  - assert (r < 1) by nra. assert (1 <= 1 / r) by nra. rewrite Rmin_right by assumption. split; intros; lra.
Qed.
Print Assumptions factor_of_statistics.

(* so the factors are defined for every mean and every standard deviation other than zero, and the outputs are unchanged *)
Theorem equalization_of_statistics l1 l2 mean std : lin_wf l1 -> lin_wf l2 -> l_in l2 = l_out l1 -> scales_outputs l1 -> scales_inputs l2 -> shp mean = [l_out l1]%list ->
  (forall c, (c < l_out l1)%nat -> at_ std [c]%list <> 0) ->
  (forall c, (c < l_out l1)%nat -> 0 < at_ (calculate_scale_correction erf mean std) [c]%list <= 1) /\
  exists l1' l2', equalize erf l1 l2 (Some (mean, std)) true = Ok (l1', l2') /\ same_node l1' l1 /\ same_node l2' l2 /\
    forall G hw hw' x o p, homogeneous G -> (o < l_out l2)%nat -> lin_val l2' hw' (fun c => G (lin_val l1' hw x c)) o p = lin_val l2 hw' (fun c => G (lin_val l1 hw x c)) o p.
Proof.
  intros W1 W2 CI SO SI S H. assert (V : forall c, (c < l_out l1)%nat -> 0 < fixed_variance erf (at_ mean [c]%list) (Rabs (at_ std [c]%list))).
  { intros c C. apply variance_after_relu_positive, Rabs_pos_lt, H, C. }
  split; [intros c C; apply equalization_factors, V, C|]. exact (equalization_pass erf l1 l2 mean std W1 W2 CI SO SI S V).
Qed.
Print Assumptions equalization_of_statistics.
(* two convolutions with two channels in between, means 3 and 3, standard deviations 2 *)
From Verif Require Import BnExProps CollapseExProps EqualizeGraphProps  EqualizeExProps.
From Coq Require Import List.
Import ListNotations.
Example e12_of_statistics : exists l1 l2, equalize erf e1 e2 (Some (Nd [2%nat] (fun _ => 3), Nd [2%nat] (fun _ => 2))) true = Ok (l1, l2) /\
  forall hw hw' x p, lin_val l2 hw' (fun c q => relu (lin_val l1 hw x c q)) 0%nat p = lin_val e2 hw' (fun c q => relu (lin_val e1 hw x c q)) 0%nat p.
Proof.
  destruct (equalization_of_statistics e1 e2 (Nd [2%nat] (fun _ => 3)) (Nd [2%nat] (fun _ => 2))) as (_ & l1 & l2 & E & _ & _ & H); [wfk 1%nat 1%nat|wfk 1%nat 1%nat|reflexivity|exact I|reflexivity|reflexivity|intros; cbn; lra|].
  exists l1, l2. split; [exact E|]. intros hw hw' x p. apply (H (fun f q => relu (f q))); [exact relu_homogeneous|cbn; lia].
Qed.
