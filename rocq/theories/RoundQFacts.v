(* RoundQFacts.v -- facts about the numeric primitives of RoundQ.v. *)
From Verif Require Import RoundQ.
From Coq Require Import QArith Qround Qpower ZArith Bool Lia Lqa Setoid Morphisms.
Open Scope Q_scope.

Lemma Qlt_b_iff a b : Qlt_b a b = true <-> a < b.
Proof.
  unfold Qlt_b. rewrite negb_true_iff. split; intro H.
  - apply Qnot_le_lt. intro Hc. apply Qle_bool_iff in Hc. congruence.
  - apply not_true_is_false. intro Hc. apply Qle_bool_iff in Hc. lra.
Qed.
Lemma Qlt_b_false a b : Qlt_b a b = false <-> b <= a.
Proof.
  split; intro H.
  - apply Qnot_lt_le. intro Hc. apply Qlt_b_iff in Hc. congruence.
  - apply not_true_is_false. intro Hc. apply Qlt_b_iff in Hc. lra.
Qed.
Lemma Qle_bool_false a b : Qle_bool a b = false <-> b < a.
Proof.
  split; intro H.
  - apply Qnot_le_lt. intro Hc. apply Qle_bool_iff in Hc. congruence.
  - apply not_true_is_false. intro Hc. apply Qle_bool_iff in Hc. lra.
Qed.

Lemma Qle_bool_spec a b : BoolSpec (a <= b) (b < a) (Qle_bool a b).
Proof. destruct (Qle_bool a b) eqn:E; constructor; [apply Qle_bool_iff in E | apply Qle_bool_false in E]; exact E. Qed.
Lemma Qlt_b_spec a b : BoolSpec (a < b) (b <= a) (Qlt_b a b).
Proof. destruct (Qlt_b a b) eqn:E; constructor; [apply Qlt_b_iff in E | apply Qlt_b_false in E]; exact E. Qed.

Lemma Qmax_ub_l a b : a <= Qmax_ a b.
Proof. unfold Qmax_; destruct (Qle_bool_spec a b); lra. Qed.
Lemma Qmax_ub_r a b : b <= Qmax_ a b.
Proof. unfold Qmax_; destruct (Qle_bool_spec a b); lra. Qed.
Lemma Qmax_case a b : Qmax_ a b = a \/ Qmax_ a b = b.
Proof. unfold Qmax_; destruct (Qle_bool a b); auto. Qed.
Lemma Qmin_lb_l a b : Qmin_ a b <= a.
Proof. unfold Qmin_; destruct (Qle_bool_spec a b); lra. Qed.
Lemma Qmin_lb_r a b : Qmin_ a b <= b.
Proof. unfold Qmin_; destruct (Qle_bool_spec a b); lra. Qed.
Lemma Qmin_case a b : Qmin_ a b = a \/ Qmin_ a b = b.
Proof. unfold Qmin_; destruct (Qle_bool a b); auto. Qed.

(* floor as a pair of inequalities *)
Lemma Qfloor_bounds q : inject_Z (Qfloor q) <= q /\ q < inject_Z (Qfloor q) + 1.
Proof.
  split; [apply Qfloor_le|]. pose proof (Qlt_floor q) as H.
  rewrite inject_Z_plus in H. exact H.
Qed.

(* the three cases of rounding, as inequalities *)
Lemma round_cases q :
  (round_half_even q = Qfloor q /\ q - inject_Z (Qfloor q) < 1#2) \/
  (round_half_even q = (Qfloor q + 1)%Z /\ (1#2) < q - inject_Z (Qfloor q)) \/
  (q - inject_Z (Qfloor q) == 1#2 /\
   round_half_even q = (if Z.even (Qfloor q) then Qfloor q else Qfloor q + 1)%Z).
Proof.
  unfold round_half_even.
  destruct (Qcompare_spec (q - inject_Z (Qfloor q)) (1#2)) as [H|H|H]; auto.
Qed.

Lemma round_error q : - (1#2) <= inject_Z (round_half_even q) - q <= 1#2.
Proof.
  pose proof (Qfloor_bounds q) as [H1 H2].
  destruct (round_cases q) as [[E H]|[[E H]|[H E]]]; rewrite E.
  - lra.
  - rewrite inject_Z_plus. change (inject_Z 1) with 1. lra.
  - destruct (Z.even (Qfloor q)); rewrite ?inject_Z_plus; change (inject_Z 1) with 1; lra.
Qed.

Lemma ZQ_le a b : (a <= b)%Z -> inject_Z a <= inject_Z b.
Proof. rewrite Zle_Qle. tauto. Qed.
Lemma QZ_le a b : inject_Z a <= inject_Z b -> (a <= b)%Z.
Proof. rewrite Zle_Qle. tauto. Qed.
Lemma ZQ_lt a b : (a < b)%Z -> inject_Z a < inject_Z b.
Proof. rewrite Zlt_Qlt. tauto. Qed.
Lemma QZ_lt a b : inject_Z a < inject_Z b -> (a < b)%Z.
Proof. rewrite Zlt_Qlt. tauto. Qed.

Lemma Qfloor_eq_iff q z : inject_Z z <= q -> q < inject_Z z + 1 -> Qfloor q = z.
Proof.
  intros H1 H2. pose proof (Qfloor_bounds q) as [F1 F2].
  assert (inject_Z (Qfloor q) < inject_Z (z + 1)) as A by (rewrite inject_Z_plus; change (inject_Z 1) with 1; lra).
  assert (inject_Z z < inject_Z (Qfloor q + 1)) as B by (rewrite inject_Z_plus; change (inject_Z 1) with 1; lra).
  apply QZ_lt in A. apply QZ_lt in B. lia.
Qed.

#[global] Instance round_proper : Proper (Qeq ==> eq) round_half_even.
Proof.
  intros a b H. unfold round_half_even.
  assert (Qfloor a = Qfloor b) as E by (apply Qfloor_comp; exact H).
  rewrite E. cbn zeta.
  assert ((a - inject_Z (Qfloor b) ?= 1#2) = (b - inject_Z (Qfloor b) ?= 1#2)) as -> by (rewrite H; reflexivity).
  reflexivity.
Qed.

Lemma round_Z z : round_half_even (inject_Z z) = z.
Proof.
  destruct (round_cases (inject_Z z)) as [[E H]|[[E H]|[H E]]]; rewrite Qfloor_Z in *.
  - exact E.
  - exfalso. lra.
  - exfalso. lra.
Qed.

Lemma round_mono a b : a <= b -> (round_half_even a <= round_half_even b)%Z.
Proof.
  intro H.
  assert (Qfloor a <= Qfloor b)%Z as F by (apply Qfloor_resp_le; exact H).
  destruct (Z.eq_dec (Qfloor a) (Qfloor b)) as [E|NE].
  - destruct (round_cases a) as [[Ea Ha]|[[Ea Ha]|[Ha Ea]]];
    destruct (round_cases b) as [[Eb Hb]|[[Eb Hb]|[Hb Eb]]];
    rewrite Ea, Eb; rewrite ?E in *; try lia; try (exfalso; lra);
    destruct (Z.even (Qfloor b)); lia.
  - assert (Qfloor a + 1 <= Qfloor b)%Z by lia.
    destruct (round_cases a) as [[Ea Ha]|[[Ea Ha]|[Ha Ea]]];
    destruct (round_cases b) as [[Eb Hb]|[[Eb Hb]|[Hb Eb]]]; rewrite Ea, Eb;
    try (destruct (Z.even (Qfloor a))); try (destruct (Z.even (Qfloor b))); lia.
Qed.

Lemma round_ge z q : inject_Z z <= q -> (z <= round_half_even q)%Z.
Proof. intro H. rewrite <- (round_Z z). apply round_mono; exact H. Qed.
Lemma round_le z q : q <= inject_Z z -> (round_half_even q <= z)%Z.
Proof. intro H. rewrite <- (round_Z z). apply round_mono; exact H. Qed.

(* innermost comparisons first *)
Ltac qcases :=
  repeat match goal with
         | |- context [Qle_bool ?a ?b] =>
             lazymatch a with
             | context [Qle_bool _ _] => fail
             | _ => lazymatch b with context [Qle_bool _ _] => fail | _ => destruct (Qle_bool_spec a b) end
             end
         end.

(* clip *)
Lemma clip_range x lo hi : lo <= hi -> lo <= clip x lo hi <= hi.
Proof.
  intro H. unfold clip. pose proof (Qmax_ub_l x lo). pose proof (Qmax_ub_r x lo).
  split; [unfold Qmin_; destruct (Qle_bool_spec (Qmax_ x lo) hi); lra | apply Qmin_lb_r].
Qed.
Lemma clip_id x lo hi : lo <= x -> x <= hi -> clip x lo hi == x.
Proof.
  intros H1 H2. unfold clip, Qmin_, Qmax_.
  destruct (Qle_bool_spec x lo); [destruct (Qle_bool_spec lo hi)|destruct (Qle_bool_spec x hi)]; lra.
Qed.
Lemma clip_above x lo hi : lo <= hi -> hi <= x -> clip x lo hi == hi.
Proof.
  intros H1 H2. unfold clip, Qmin_, Qmax_.
  destruct (Qle_bool_spec x lo); [destruct (Qle_bool_spec lo hi)|destruct (Qle_bool_spec x hi)]; lra.
Qed.
Lemma clip_below x lo hi : lo <= hi -> x <= lo -> clip x lo hi == lo.
Proof.
  intros H1 H2. unfold clip, Qmin_, Qmax_.
  destruct (Qle_bool_spec x lo); [destruct (Qle_bool_spec lo hi)|destruct (Qle_bool_spec x hi)]; lra.
Qed.
Lemma clip_mono x y lo hi : x <= y -> clip x lo hi <= clip y lo hi.
Proof.
  intros H. unfold clip, Qmin_, Qmax_.
  qcases; lra.
Qed.
#[global] Instance clip_proper : Proper (Qeq ==> Qeq ==> Qeq ==> Qeq) clip.
Proof.
  intros x x' Hx a a' Ha b b' Hb. unfold clip, Qmin_, Qmax_.
  qcases; lra.
Qed.

(* powers of two *)
Lemma pow2_pos k : 0 < Qpower 2 k.
Proof. apply Qpower_0_lt. reflexivity. Qed.
Lemma pow2_succ k : Qpower 2 (k + 1) == 2 * Qpower 2 k.
Proof. rewrite Qpower_plus by discriminate. change (Qpower 2 1) with 2. ring. Qed.
Lemma pow2_lt a b : (a < b)%Z -> Qpower 2 a < Qpower 2 b.
Proof. intro H. apply Qpower_lt_compat_l; [exact H|reflexivity]. Qed.
Lemma pow2_le a b : (a <= b)%Z -> Qpower 2 a <= Qpower 2 b.
Proof. intro H. apply Qpower_le_compat_l; [exact H|discriminate]. Qed.
Lemma pow2_Z k : (0 <= k)%Z -> Qpower 2 k == inject_Z (2 ^ k).
Proof. intro H. rewrite Qpower.Zpower_Qpower by exact H. reflexivity. Qed.
Lemma pow2_minus_one_pos n : (1 <= n)%Z -> 0 < Qpower 2 n - 1.
Proof.
  intro H. pose proof (pow2_le 1 n H) as A. change (Qpower 2 1) with 2 in A. lra.
Qed.

Lemma clog2_upper q : 0 < q -> q <= Qpower 2 (clog2 q).
Proof.
  intro Hq. unfold clog2.
  set (e := (Z.log2 (Qnum q) - Z.log2 (Zpos (Qden q)))%Z). cbv zeta.
  destruct (Qle_bool_spec q (Qpower 2 e)) as [H|H]; [exact H|].
  destruct q as [n d]. cbn [Qnum Qden] in *.
  assert (0 < n)%Z as Hn by (unfold Qlt in Hq; cbn in Hq; lia).
  pose proof (Z.log2_spec n Hn) as [_ L1].
  pose proof (Z.log2_spec (Zpos d) eq_refl) as [L2 _].
  pose proof (Z.log2_nonneg n) as N1. pose proof (Z.log2_nonneg (Zpos d)) as N2.
  apply Qle_trans with (inject_Z (2 ^ (Z.succ (Z.log2 n))) / inject_Z (2 ^ Z.log2 (Zpos d))).
  - apply Qle_shift_div_l; [change 0 with (inject_Z 0); rewrite <- Zlt_Qlt; apply Z.pow_pos_nonneg; lia|].
    unfold Qle, Qmult, inject_Z; cbn [Qnum Qden]. rewrite Pos.mul_1_r, !Z.mul_1_r. nia.
  - rewrite <- !pow2_Z by lia. unfold e.
    replace (Z.log2 n - Z.log2 (Zpos d) + 1)%Z with (Z.succ (Z.log2 n) - Z.log2 (Zpos d))%Z by lia.
    unfold Z.sub. rewrite Qpower_plus by discriminate. rewrite Qpower_opp. apply Qle_refl.
Qed.

Lemma clog2_lower q : 0 < q -> Qpower 2 (clog2 q - 1) < q.
Proof.
  intro Hq. unfold clog2.
  set (e := (Z.log2 (Qnum q) - Z.log2 (Zpos (Qden q)))%Z). cbv zeta.
  destruct (Qle_bool_spec q (Qpower 2 e)) as [H|H].
  2:{ replace (e + 1 - 1)%Z with e by lia. exact H. }
  destruct q as [n d]. cbn [Qnum Qden] in *.
  assert (0 < n)%Z as Hn by (unfold Qlt in Hq; cbn in Hq; lia).
  pose proof (Z.log2_spec n Hn) as [L1 _].
  pose proof (Z.log2_spec (Zpos d) eq_refl) as [_ L2].
  pose proof (Z.log2_nonneg n) as N1. pose proof (Z.log2_nonneg (Zpos d)) as N2.
  apply Qle_lt_trans with (inject_Z (2 ^ (Z.log2 n)) / inject_Z (2 ^ Z.succ (Z.log2 (Zpos d)))).
  - rewrite <- !pow2_Z by lia. unfold e.
    replace (Z.log2 n - Z.log2 (Zpos d) - 1)%Z with (Z.log2 n + - Z.succ (Z.log2 (Zpos d)))%Z by lia.
    rewrite Qpower_plus by discriminate. rewrite Qpower_opp. apply Qle_refl.
  - apply Qlt_shift_div_r; [change 0 with (inject_Z 0); rewrite <- Zlt_Qlt; apply Z.pow_pos_nonneg; lia|].
    unfold Qlt, Qmult, inject_Z; cbn [Qnum Qden]. rewrite Pos.mul_1_r, !Z.mul_1_r. nia.
Qed.

Lemma clog2_le_iff q k : 0 < q -> q <= Qpower 2 k -> (clog2 q <= k)%Z.
Proof.
  intros Hq H. pose proof (clog2_lower q Hq) as L.
  destruct (Z_le_gt_dec (clog2 q) k) as [G|G]; [exact G|exfalso].
  pose proof (pow2_le k (clog2 q - 1)). assert (Qpower 2 k <= Qpower 2 (clog2 q - 1)) by (apply pow2_le; lia). lra.
Qed.
Lemma clog2_unique q k : 0 < q -> q <= Qpower 2 k -> Qpower 2 (k - 1) < q -> clog2 q = k.
Proof.
  intros Hq H1 H2. apply Z.le_antisymm; [apply clog2_le_iff; assumption|].
  pose proof (clog2_upper q Hq) as U.
  destruct (Z_le_gt_dec k (clog2 q)) as [G|G]; [exact G|exfalso].
  assert (Qpower 2 (clog2 q) <= Qpower 2 (k - 1)) by (apply pow2_le; lia). lra.
Qed.
#[global] Instance clog2_proper_pos : Proper (Qeq ==> eq) (fun q => if Qlt_b 0 q then clog2 q else 0%Z).
Proof.
  intros a b H. destruct (Qlt_b_spec 0 a) as [Ha|Ha]; destruct (Qlt_b_spec 0 b) as [Hb|Hb]; try lra; [|reflexivity].
  apply clog2_unique; auto; rewrite H; [apply clog2_upper|apply clog2_lower]; auto.
Qed.
