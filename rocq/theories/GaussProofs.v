(* GaussProofs.v -- the error function tends to one. *)
From Coq Require Import Reals Lra Lia.
From Coquelicot Require Import Coquelicot.
From Verif Require Import MomentProps.
Open Scope R_scope.

Definition g (t : R) : R := exp (- (t * t)).
Definition h (x t : R) : R := exp (- (x * x * (1 + t * t))) / (1 + t * t).
Definition A (x : R) : R := RInt g 0 x.
Definition B (x : R) : R := RInt (h x) 0 1.
Lemma pos1 t : 0 < 1 + t * t. Proof. nra. Qed.
Lemma g_cont (x : R) : continuous g x. Proof. apply gauss_continuous. Qed.
Lemma g_int a b : ex_RInt g a b. Proof. apply (ex_RInt_continuous g). intros. apply g_cont. Qed.
Lemma A_derive (x : R) : is_derive A x (g x).
Proof.
  apply (is_derive_RInt g A 0 x); [|apply g_cont]. exists (mkposreal 1 Rlt_0_1). intros y _. apply (RInt_correct g), g_int.
Qed.
Lemma h_derive (x t : R) : is_derive (fun u => h u t) x (- (2 * x) * exp (- (x * x * (1 + t * t)))).
Proof. unfold h. pose proof (pos1 t). auto_derive; [lra|]. field. lra. Qed.
Lemma h_cont (x t : R) : continuous (h x) t.
Proof. apply (ex_derive_continuous (h x)). unfold h. pose proof (pos1 t). auto_derive. lra. Qed.
Lemma h_int x : ex_RInt (h x) 0 1. Proof. apply (ex_RInt_continuous (h x)). intros. apply h_cont. Qed.
Lemma B_derive0 (x : R) : is_derive B x (RInt (fun t => Derive (fun u => h u t) x) 0 1).
Proof.
  unfold B. apply (is_derive_RInt_param h 0 1 x).
  - exists (mkposreal 1 Rlt_0_1). intros y _ t _. exists (- (2 * y) * exp (- (y * y * (1 + t * t)))). apply h_derive.
  - intros t _. apply (continuity_2d_pt_ext (fun u v => - (2 * u) * exp (- (u * u * (1 + v * v))))).
    + intros u v. symmetry. apply is_derive_unique, h_derive.
    + apply continuity_2d_pt_mult.
      * apply continuity_2d_pt_opp, continuity_2d_pt_mult; [apply continuity_2d_pt_const|apply continuity_2d_pt_id1].
      * apply (continuity_1d_2d_pt_comp exp (fun u v => - (u * u * (1 + v * v)))); [apply derivable_continuous_pt, derivable_pt_exp|].
        apply continuity_2d_pt_opp, continuity_2d_pt_mult; [apply continuity_2d_pt_mult; apply continuity_2d_pt_id1|].
        apply continuity_2d_pt_plus; [apply continuity_2d_pt_const|apply continuity_2d_pt_mult; apply continuity_2d_pt_id2].
  - exists (mkposreal 1 Rlt_0_1). intros y _. apply h_int.
Qed.
Lemma B_derive (x : R) : is_derive B x (- (2 * g x * A x)).
Proof.
  evar_last; [apply B_derive0|]. apply is_RInt_unique.
  apply (is_RInt_ext (fun t => scal (- (2 * g x)) (scal x (g (x * t + 0))))).
  - intros t _. symmetry. transitivity (- (2 * x) * exp (- (x * x * (1 + t * t)))); [apply is_derive_unique, h_derive|].
    unfold scal; cbn. unfold mult; cbn. unfold g. replace (- (x * x * (1 + t * t))) with (- (x * x) + - ((x * t + 0) * (x * t + 0))) by ring. rewrite exp_plus.
    match goal with |- @eq _ ?a ?c => change (@eq R a c) end. ring.
  - assert (G : is_RInt g (x * 0 + 0) (x * 1 + 0) (A x)).
    { replace (x * 0 + 0) with 0 by ring. replace (x * 1 + 0) with x by ring. apply (RInt_correct g). apply g_int. }
    evar_last. { apply (is_RInt_scal (fun t => scal x (g (x * t + 0)))). apply (is_RInt_comp_lin g x 0 0 1). exact G. }
    unfold scal; cbn. unfold mult; cbn. match goal with |- @eq _ ?a ?c => change (@eq R a c) end. ring.
Qed.
Lemma sum_const (x : R) : A x * A x + B x = PI / 4.
Proof.
  assert (D : forall y, is_derive (fun y => A y * A y + B y) y 0).
  { intro y. evar_last; [apply (is_derive_plus (fun y => A y * A y) B); [apply (is_derive_mult A A y (g y) (g y)); [apply A_derive|apply A_derive|intros; apply Rmult_comm]|apply B_derive]|].
    unfold plus, mult; cbn. match goal with |- @eq _ ?a ?c => change (@eq R a c) end. ring. }
  assert (E : A x * A x + B x = A 0 * A 0 + B 0).
  { assert (I : is_RInt (fun _ => 0) 0 x (minus (A x * A x + B x) (A 0 * A 0 + B 0))).
    { apply (is_RInt_derive (fun y => A y * A y + B y) (fun _ => 0)); intros; [apply D|apply continuous_const]. }
    pose proof (is_RInt_unique (V := R_CompleteNormedModule) (fun _ => 0) 0 x _ I) as I'. clear I. rename I' into I. rewrite RInt_const in I.
    change ((x - 0) * 0 = A x * A x + B x + - (A 0 * A 0 + B 0)) in I. lra. }
  rewrite E. assert (A0 : A 0 = 0) by (unfold A; rewrite RInt_point; reflexivity).
  assert (B0 : B 0 = PI / 4); [|rewrite A0, B0; ring].
  unfold B. apply is_RInt_unique. apply (is_RInt_ext (fun t => / (1 + t²))).
  - intros t _. unfold h, Rsqr. pose proof (pos1 t). match goal with |- @eq _ ?a ?c => change (@eq R a c) end. rewrite !Rmult_0_l, Ropp_0, exp_0. field. lra.
  - evar_last; [apply (is_RInt_derive atan (fun t => / (1 + t²))); intros|].
    + apply is_derive_atan.
    + apply (ex_derive_continuous (fun t => / (1 + t²))). unfold Rsqr. pose proof (pos1 x0). auto_derive. lra.
    + unfold minus, plus, opp; cbn. match goal with |- @eq _ ?a ?c => change (@eq R a c) end. rewrite atan_1, atan_0. ring.
Qed.
Lemma B_bounds (x : R) : 0 <= B x <= exp (- (x * x)).
Proof.
  split.
  - apply RInt_ge_0; [lra|apply h_int|]. intros t _. unfold h. apply Rlt_le, Rdiv_lt_0_compat; [apply exp_pos|apply pos1].
  - replace (exp (- (x * x))) with (RInt (fun _ => exp (- (x * x))) 0 1).
    + apply RInt_le; [lra|apply h_int|apply ex_RInt_const|]. intros t _. unfold h. pose proof (pos1 t).
      apply Rle_trans with (exp (- (x * x)) / 1); [|lra]. apply Rmult_le_compat; [left; apply exp_pos|left; apply Rinv_0_lt_compat; assumption| |apply Rinv_le_contravar; nra].
      destruct (Req_dec (x * t) 0) as [Z|Z].
      * right. f_equal. replace (x * x * (1 + t * t)) with (x * x + (x * t) * (x * t)) by ring. rewrite Z. ring.
      * left. apply exp_increasing. assert (0 < (x * t) * (x * t)) by (apply Rsqr_pos_lt; exact Z). nra.
    + rewrite RInt_const. unfold scal; cbn. unfold mult; cbn. match goal with |- @eq _ ?a ?c => change (@eq R a c) end. ring.
Qed.
Lemma A_nonneg (x : R) : 0 <= x -> 0 <= A x.
Proof. intro H. apply RInt_ge_0; [exact H|apply g_int|]. intros t _. left. apply exp_pos. Qed.

Lemma erf_A x : erf x = 2 / sqrt PI * A x. Proof. reflexivity. Qed.
(* the part missing to one is at most 4/pi exp(-x^2) *)
Lemma erf_near_one x : 0 <= x -> 0 <= 1 - erf x <= 4 / PI * exp (- (x * x)).
Proof.
  intro H. pose proof (sum_const x) as S. pose proof (B_bounds x) as [B1 B2]. pose proof (A_nonneg x H) as An. pose proof PI_RGT_0 as Pp.
  pose proof pp as Qp. pose proof p2 as Q2. set (q := sqrt PI) in *.
  assert (E0 : 0 <= erf x) by (rewrite erf_A; fold q; apply Rmult_le_pos; [apply Rlt_le, Rdiv_lt_0_compat; lra|exact An]).
  assert (E2 : erf x * erf x = 1 - 4 / PI * B x).
  { rewrite erf_A. fold q. replace (2 / q * A x * (2 / q * A x)) with (4 / (q * q) * (A x * A x)) by (field; lra). rewrite Q2.
    replace (A x * A x) with (PI / 4 - B x) by lra. field. lra. }
  assert (C1 : 0 <= 4 / PI * B x) by (apply Rmult_le_pos; [apply Rlt_le, Rdiv_lt_0_compat; lra|exact B1]).
  assert (C2 : 4 / PI * B x <= 4 / PI * exp (- (x * x))) by (apply Rmult_le_compat_l; [apply Rlt_le, Rdiv_lt_0_compat; lra|exact B2]).
  assert (E1 : erf x <= 1) by nra. split; nra.
Qed.
