(* MomentProps.v -- C108: the moments after a ReLU used by scale equalization are those of a rectified normal variable. *)
From Coq Require Import Reals Lra Lia.
From Coquelicot Require Import Coquelicot.
From Verif Require Import EqualizeModel.
Open Scope R_scope.

(* the error function, and the density of the normal distribution *)
Definition erf (x : R) : R := 2 / sqrt PI * RInt (fun t => exp (- (t * t))) 0 x.
Definition density (mu sd x : R) : R := exp (- ((x - mu) * (x - mu) / (2 * (sd * sd)))) / (sd * sqrt (2 * PI)).

Lemma gauss_continuous x : continuous (fun t => exp (- (t * t))) x.
Proof. apply (ex_derive_continuous (fun t => exp (- (t * t)))). auto_derive. exact I. Qed.
Lemma erf_derive x : is_derive erf x (2 / sqrt PI * exp (- (x * x))).
Proof.
  unfold erf. apply (is_derive_scal (fun x => RInt (fun t => exp (- (t * t))) 0 x)).
  apply (is_derive_RInt (fun t => exp (- (t * t))) _ 0 x); [|apply gauss_continuous].
  exists (mkposreal 1 Rlt_0_1). intros y _. apply (RInt_correct (fun t => exp (- (t * t)))).
  apply (ex_RInt_continuous (fun t => exp (- (t * t)))). intros z _. apply gauss_continuous.
Qed.
Lemma erf_odd x : erf (- x) = - erf x.
Proof.
  unfold erf. rewrite Ropp_mult_distr_r. f_equal.
  assert (H : is_RInt (fun t => exp (- (t * t))) 0 x (RInt (fun t => exp (- (t * t))) 0 x)).
  { apply (RInt_correct (fun t => exp (- (t * t)))), (ex_RInt_continuous (fun t => exp (- (t * t)))). intros z _. apply gauss_continuous. }
  apply is_RInt_unique. rewrite <- Ropp_0 at 1.
  apply (is_RInt_ext (fun t => opp (opp (exp (- (- t * - t)))))).
  - intros t _. unfold opp. cbn. rewrite Ropp_involutive. f_equal. ring.
  - apply (is_RInt_opp (fun t => opp (exp (- (- t * - t))))). apply (is_RInt_comp_opp (fun t => exp (- (t * t))) (-0) (-x)). rewrite !Ropp_involutive. exact H.
Qed.

Section One.
Variables mu sd : R.
Hypothesis P : 0 < sd.
Definition arg (x : R) : R := (x - mu) / (sqrt 2 * sd).
Lemma k2 : sqrt 2 * sqrt 2 = 2. Proof. apply sqrt_sqrt. lra. Qed.
Lemma kp : 0 < sqrt 2. Proof. apply sqrt_lt_R0. lra. Qed.
Lemma p2 : sqrt PI * sqrt PI = PI. Proof. apply sqrt_sqrt. left. apply PI_RGT_0. Qed.
Lemma pp : 0 < sqrt PI. Proof. apply sqrt_lt_R0, PI_RGT_0. Qed.
Lemma arg2 x : arg x * arg x = (x - mu) * (x - mu) / (2 * (sd * sd)).
Proof.
  unfold arg. pose proof kp. replace (2 * (sd * sd)) with ((sqrt 2 * sd) * (sqrt 2 * sd)); [field; split; lra|].
  transitivity (sqrt 2 * sqrt 2 * (sd * sd)); [ring|rewrite k2; reflexivity].
Qed.
Lemma density_alt x : density mu sd x = exp (- (arg x * arg x)) / (sd * (sqrt 2 * sqrt PI)).
Proof. unfold density. rewrite arg2, sqrt_mult; [reflexivity|lra|left; apply PI_RGT_0]. Qed.
Lemma arg_derive x : is_derive arg x (1 / (sqrt 2 * sd)).
Proof. unfold arg. pose proof kp. auto_derive; [exact I|]. field. split; lra. Qed.
Lemma erf_part x : is_derive (fun x => erf (arg x)) x (1 / (sqrt 2 * sd) * (2 / sqrt PI * exp (- (arg x * arg x)))).
Proof. apply (is_derive_comp erf arg x); [apply erf_derive|apply arg_derive]. Qed.
Lemma exp_part x : is_derive (fun x => exp (- (arg x * arg x))) x (1 / (sqrt 2 * sd) * (- (2 * arg x) * exp (- (arg x * arg x)))).
Proof. apply (is_derive_comp (fun z => exp (- (z * z))) arg x); [|apply arg_derive]. auto_derive; [exact I|]. ring. Qed.
Lemma density_continuous x : continuous (density mu sd) x.
Proof. apply (ex_derive_continuous (density mu sd)). unfold density. auto_derive. exact I. Qed.

Definition F1 (x : R) : R := mu / 2 * erf (arg x) + - (sd / (sqrt 2 * sqrt PI)) * exp (- (arg x * arg x)).
Definition F2 (x : R) : R := (mu * mu + sd * sd) / 2 * erf (arg x) + (- (sd / (sqrt 2 * sqrt PI)) * (x + mu)) * exp (- (arg x * arg x)).
Lemma F1_derive x : is_derive F1 x (x * density mu sd x).
Proof.
  pose proof kp. pose proof pp. unfold F1.
  evar_last. { apply (is_derive_plus (fun x => mu / 2 * erf (arg x)) (fun x => - (sd / (sqrt 2 * sqrt PI)) * exp (- (arg x * arg x)))); apply is_derive_scal; [apply erf_part|apply exp_part]. }
  rewrite density_alt. unfold plus, scal, mult; cbn. unfold mult; cbn. unfold arg at 3 4. set (e := exp _). generalize k2. set (k := sqrt 2) in *. set (q := sqrt PI) in *. intro K.
  field_simplify_eq; [|repeat split; lra]. replace (k ^ 2) with 2 by (rewrite <- K; ring). ring.
Qed.
Lemma F2_derive x : is_derive F2 x (x * x * density mu sd x).
Proof.
  pose proof kp. pose proof pp. unfold F2.
  evar_last. { apply (is_derive_plus (fun x => (mu * mu + sd * sd) / 2 * erf (arg x)) (fun x => (- (sd / (sqrt 2 * sqrt PI)) * (x + mu)) * exp (- (arg x * arg x)))).
    - apply is_derive_scal, erf_part.
    - apply (is_derive_mult (fun x => - (sd / (sqrt 2 * sqrt PI)) * (x + mu)) (fun x => exp (- (arg x * arg x))) x (- (sd / (sqrt 2 * sqrt PI)))); [|apply exp_part|intros; apply Rmult_comm].
      auto_derive; [exact I|ring]. }
  rewrite density_alt. unfold plus, scal, mult; cbn. unfold mult; cbn. set (e := exp _). unfold arg. generalize k2. set (k := sqrt 2) in *. set (q := sqrt PI) in *. intro K.
  field_simplify_eq; [|repeat split; lra]. replace (k ^ 2) with 2 by (rewrite <- K; ring). ring.
Qed.
Lemma mean_alt : fixed_mean_after_relu erf mu sd = mu / 2 - F1 0.
Proof.
  pose proof kp. pose proof pp. unfold fixed_mean_after_relu, F1. cbv zeta.
  replace (- 1 * (mu * mu) / (2 * (sd * sd))) with (- (arg 0 * arg 0)) by (rewrite arg2; field; lra).
  replace (arg 0) with (- (mu / (sqrt 2 * sd))) by (unfold arg; field; split; lra). rewrite erf_odd.
  pose proof PI_RGT_0. rewrite (sqrt_mult (2 * (sd * sd)) PI), (sqrt_mult 2 (sd * sd)), (sqrt_div PI 2), (sqrt_square sd) by (try lra; nra).
  generalize k2. set (e := exp _). set (r := erf _). set (k := sqrt 2) in *. set (q := sqrt PI) in *. intro K.
  field_simplify_eq; [|repeat split; lra]. replace (k ^ 2) with 2 by (rewrite <- K; ring). ring.
Qed.
Lemma second_alt : fixed_second_moment_after_relu erf mu sd = (mu * mu + sd * sd) / 2 - F2 0.
Proof.
  pose proof kp. pose proof pp. unfold fixed_second_moment_after_relu, F2. cbv zeta.
  replace (- 1 * (mu * mu) / (2 * (sd * sd))) with (- (arg 0 * arg 0)) by (rewrite arg2; field; lra).
  replace (arg 0) with (- (mu / (sqrt 2 * sd))) by (unfold arg; field; split; lra). rewrite erf_odd.
  pose proof PI_RGT_0. rewrite (sqrt_mult (2 * (sd * sd)) PI), (sqrt_mult 2 (sd * sd)), (sqrt_div PI 2), (sqrt_square sd) by (try lra; nra).
  generalize k2. set (e := exp _). set (r := erf _). set (k := sqrt 2) in *. set (q := sqrt PI) in *. intro K.
  field_simplify_eq; [|repeat split; lra]. replace (k ^ 2) with 2 by (rewrite <- K; ring). ring.
Qed.
End One.

Lemma integral_by (F f : R -> R) b : (forall x, is_derive F x (f x)) -> (forall x, continuous f x) -> RInt f 0 b = F b - F 0.
Proof.
  intros D C. apply is_RInt_unique. evar_last; [apply (is_RInt_derive F f); intros; [apply D|apply C]|]. reflexivity.
Qed.
Lemma tail_density mu sd b : 0 < sd -> sd * sd * density mu sd b = sd / (sqrt 2 * sqrt PI) * exp (- (arg mu sd b * arg mu sd b)).
Proof. intro P. pose proof kp. pose proof pp. rewrite (density_alt mu sd P). field. repeat split; lra. Qed.

(* what is missing from the mean when the integral stops at b; both terms vanish as b grows *)
Theorem mean_of_rectified mu sd b : 0 < sd ->
  RInt (fun x => x * density mu sd x) 0 b =
  fixed_mean_after_relu erf mu sd - (mu / 2 * (1 - erf ((b - mu) / (sqrt 2 * sd))) + sd * sd * density mu sd b).
Proof.
  intro P. rewrite (integral_by (F1 mu sd) (fun x => x * density mu sd x)).
  - rewrite (mean_alt mu sd P), (tail_density mu sd b P). unfold F1 at 1. fold (arg mu sd b). match goal with |- @eq _ ?a ?c => change (@eq R a c) end. ring.
  - apply F1_derive, P.
  - intro x. apply (continuous_mult (fun x => x) (density mu sd)); [apply continuous_id|apply density_continuous].
Qed.
Print Assumptions mean_of_rectified.
Theorem second_moment_of_rectified mu sd b : 0 < sd ->
  RInt (fun x => x * x * density mu sd x) 0 b =
  fixed_second_moment_after_relu erf mu sd -
  ((mu * mu + sd * sd) / 2 * (1 - erf ((b - mu) / (sqrt 2 * sd))) + sd * sd * (b + mu) * density mu sd b).
Proof.
  intro P. rewrite (integral_by (F2 mu sd) (fun x => x * x * density mu sd x)).
  - rewrite (second_alt mu sd P). replace (sd * sd * (b + mu) * density mu sd b) with ((b + mu) * (sd * sd * density mu sd b)) by ring.
    rewrite (tail_density mu sd b P). unfold F2 at 1. fold (arg mu sd b). match goal with |- @eq _ ?a ?c => change (@eq R a c) end. ring.
  - apply F2_derive, P.
  - intro x. apply (continuous_mult (fun x => x * x) (density mu sd)); [apply (ex_derive_continuous (fun x : R => x * x)); auto_derive; exact I|apply density_continuous].
Qed.
Print Assumptions second_moment_of_rectified.
