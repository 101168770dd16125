From Coq Require Import Lia Reals Qreals.
From Coq Require Lra.
From Coq Require Import Lqa.
From Verif Require Import Base RoundQ QuantModel SearchModel SearchProofs KLModel KLProofs CollectModel CollectSpec CollectProofs ActParamModel ActParamSpec ActParamProofs.
Open Scope Q_scope.

Lemma q2r0 : Q2R 0 = 0%R. Proof. unfold Q2R. cbn. Lra.lra. Qed.
Lemma sample_sum (g : Q -> Q) (G : R -> R) : (forall b, Q2R (g b) = G (Q2R b)) -> forall l c, length l = length c ->
  fold_right (fun p a => (G (fst p) * snd p + a)%R) 0%R (map (fun p => (Q2R (fst p), Q2R (snd p))) (combine l c)) = Q2R (wsum (map g l) c).
Proof.
  intros E. induction l as [|b l IH]; intros [|c cs] H; cbn in H; try discriminate; [cbn; symmetry; apply q2r0|].
  cbn [combine map fold_right fst snd map2]. unfold wsum in *. cbn [map map2]. change (sumQ (g b * c :: map2 Qmult (map g l) cs)) with (g b * c + sumQ (map2 Qmult (map g l) cs)).
  rewrite Q2R_plus, Q2R_mult, <- IH by lia. rewrite E. reflexivity.
Qed.
Lemma sample_total : forall l c, length l = length c ->
  rtotal (map (fun p => (Q2R (fst p), Q2R (snd p))) (combine l c)) = Q2R (sumQ c).
Proof.
  induction l as [|b l IH]; intros [|c cs] H; cbn in H; try discriminate; [cbn; symmetry; apply q2r0|].
  cbn [combine map]. unfold rtotal in *. cbn [fold_right fst snd]. change (sumQ (c :: cs)) with (c + sumQ cs). rewrite Q2R_plus, IH by lia. reflexivity.
Qed.
Lemma map_id_q l : map (fun b : Q => b) l = l. Proof. induction l; cbn; congruence. Qed.

Lemma sample_mean bins counts : length (removelast bins) = length counts -> ~ sumQ counts == 0 ->
  rmean (hsample bins counts) = Q2R (h_mu (removelast bins) counts).
Proof.
  intros L N. unfold rmean, hsample. rewrite (sample_sum (fun b => b) (fun r => r)) by auto. rewrite sample_total by auto.
  rewrite map_id_q. unfold h_mu. rewrite Q2R_div by exact N. reflexivity.
Qed.
Lemma sample_std bins counts : length (removelast bins) = length counts -> ~ sumQ counts == 0 ->
  rstd (hsample bins counts) = sqrt (Q2R (h_var (removelast bins) counts)).
Proof.
  intros L N. unfold rstd. f_equal. rewrite sample_mean by auto. unfold hsample.
  set (mu := h_mu (removelast bins) counts).
  rewrite (sample_sum (fun b => (b - mu) * (b - mu)) (fun r => ((r - Q2R mu) * (r - Q2R mu))%R)); [|intro b; rewrite Q2R_mult, Q2R_minus; reflexivity|exact L].
  rewrite sample_total by auto. unfold h_var. fold mu. rewrite Q2R_div by exact N. reflexivity.
Qed.

Lemma abs_div_gt (d s z : R) : (0 < s)%R -> (0 <= z)%R -> ((Rabs d / sqrt s > z)%R <-> (z * z * s < d * d)%R).
Proof.
  intros Hs Hz. pose proof (sqrt_lt_R0 s Hs) as Hq. pose proof (sqrt_sqrt s (Rlt_le _ _ Hs)) as Eq. set (q := sqrt s) in *.
  assert (d * d = Rabs d * Rabs d)%R as -> by (rewrite <- Rabs_mult; symmetry; apply Rabs_pos_eq; apply Rle_0_sqr).
  pose proof (Rabs_pos d) as Hd. set (a := Rabs d) in *. rewrite <- Eq.
  assert ((a / q > z)%R <-> (z * q < a)%R) as ->.
  { split; intro H.
    - apply Rgt_lt in H. apply (Rmult_lt_compat_r q) in H; [|exact Hq]. unfold Rdiv in H. rewrite Rmult_assoc, Rinv_l in H by Lra.lra. Lra.lra.
    - apply Rlt_gt. apply (Rmult_lt_reg_r q); [exact Hq|]. unfold Rdiv. rewrite Rmult_assoc, Rinv_l by Lra.lra. Lra.lra. }
  replace (z * z * (q * q))%R with ((z * q) * (z * q))%R by ring.
  assert (0 <= z * q)%R as H0 by (apply Rmult_le_pos; Lra.lra). split; intro H.
  - apply Rmult_le_0_lt_compat; assumption.
  - apply Rnot_le_lt. intro H1. pose proof (Rmult_le_compat a (z * q) a (z * q) Hd Hd H1 H1). Lra.lra.
Qed.

Lemma map2_nth {A B C} (f : A -> B -> C) : forall l m i a b, nth_error l i = Some a -> nth_error m i = Some b -> nth_error (map2 f l m) i = Some (f a b).
Proof. induction l as [|x l IH]; intros [|y m] [|i] a b H1 H2; cbn in *; try discriminate; [congruence|eauto]. Qed.

Lemma zfilter_inv z bins counts out : z_score_filter z bins counts = Ok out -> ~ sumQ counts == 0 ->
  length (removelast bins) = length counts /\
  out = map2 (fun b c => if is_outlier z (h_mu (removelast bins) counts) (h_var (removelast bins) counts) b then 0 else c) (removelast bins) counts.
Proof.
  unfold z_score_filter. intros H N. destruct (Nat.eqb _ _) eqn:E; [|discriminate]. apply Nat.eqb_eq in E. cbn [negb] in H.
  destruct (Qeq_bool (sumQ counts) 0) eqn:E0; [apply Qeq_bool_iff in E0; contradiction|]. injection H as <-. auto.
Qed.

Lemma sq_nn (a : Q) : 0 <= a * a. Proof. destruct (Qlt_le_dec a 0); [|apply mul_nn; assumption]. setoid_replace (a * a) with ((- a) * (- a)) by ring. apply mul_nn; lra. Qed.
Lemma wsum_cons x xs c cs : wsum (x :: xs) (c :: cs) == x * c + wsum xs cs. Proof. reflexivity. Qed.
Lemma var_nonneg bins counts : Forall (fun c => 0 <= c) counts -> 0 < sumQ counts -> 0 <= h_var bins counts.
Proof.
  intros N P. unfold h_var. apply Qle_shift_div_l; [exact P|]. rewrite Qmult_0_l. generalize (h_mu bins counts) as mu. intro mu. clear P.
  revert counts N. induction bins as [|b bins IH]; intros [|c cs] N; try (cbn; lra). cbn [map]. rewrite wsum_cons. inversion N; subst.
  specialize (IH cs ltac:(assumption)). pose proof (sq_nn (b - mu)) as Hs. pose proof (mul_nn _ c Hs ltac:(assumption)). lra.
Qed.
Lemma var_total bins counts : 0 < sumQ counts ->
  wsum (map (fun b => (b - h_mu bins counts) * (b - h_mu bins counts)) bins) counts == h_var bins counts * sumQ counts.
Proof. intro P. unfold h_var. field. lra. Qed.

(* the weight of the outliers, generally *)
Lemma cheb mu v z : 0 <= z -> forall bins counts, Forall (fun c => 0 <= c) counts -> length bins = length counts -> 0 <= v ->
  z * z * v * (sumQ counts - sumQ (map2 (fun b c => if is_outlier (Some z) mu v b then 0 else c) bins counts))
   <= wsum (map (fun b => (b - mu) * (b - mu)) bins) counts.
Proof.
  intros Hz. induction bins as [|b bins IH]; intros [|c cs] N L Hv; cbn in L; try discriminate; [cbn; lra|].
  inversion N as [|? ? Nc Ncs]; subst. specialize (IH cs Ncs ltac:(lia) Hv). cbn [map map2]. rewrite wsum_cons, !sumQ_cons.
  pose proof (sq_nn (b - mu)) as Hsq. pose proof (mul_nn _ c Hsq Nc) as Hm.
  unfold is_outlier at 1. rewrite (qlt_f z 0) by exact Hz.
  set (D := (b - mu) * (b - mu)) in *. set (W := z * z * v) in *.
  destruct (Qlt_b W D) eqn:E.
  - apply qlt_iff in E. pose proof (mul_nn (D - W) c ltac:(lra) Nc).
    match type of IH with W * (?a - ?b') <= _ => set (A := a) in *; set (B := b') in * end. lra.
  - match type of IH with W * (?a - ?b') <= _ => set (A := a) in *; set (B := b') in * end. lra.
Qed.

Lemma kept_lem z mu v : 1 <= z -> 0 <= v -> forall bins counts, Forall (fun c => 0 <= c) counts -> length bins = length counts ->
  (forall i b c, nth_error bins i = Some b -> nth_error counts i = Some c -> 0 < c -> is_outlier (Some z) mu v b = true) ->
  v * sumQ counts <= wsum (map (fun b => (b - mu) * (b - mu)) bins) counts /\
  (0 < sumQ counts -> v * sumQ counts < wsum (map (fun b => (b - mu) * (b - mu)) bins) counts).
Proof.
  intros Hz Hv. induction bins as [|b bins IH]; intros [|c cs] N L H; cbn in L; try discriminate; [cbn; split; lra|].
  inversion N as [|? ? Nc Ncs]; subst. destruct (IH cs Ncs ltac:(lia)) as [I1 I2].
  { intros i b' c' H1 H2 H3. apply (H (S i) b' c'); assumption. }
  cbn [map]. rewrite wsum_cons, sumQ_cons. specialize (H 0%nat b c eq_refl eq_refl). unfold is_outlier in H. rewrite (qlt_f z 0) in H by lra.
  set (D := (b - mu) * (b - mu)) in *. set (A := sumQ cs) in *. set (B := wsum _ cs) in *.
  pose proof (mul_nn (z - 1) (z + 1) ltac:(lra) ltac:(lra)) as Hz2.
  pose proof (mul_nn ((z - 1) * (z + 1)) v Hz2 Hv) as Hz3.
  assert (v <= z * z * v) as Hzz by lra.
  destruct (Qlt_le_dec 0 c) as [Hc|Hc].
  - specialize (H Hc). apply qlt_iff in H. pose proof (mul_pos (D - v) c ltac:(lra) Hc). split; [lra|intros _; lra].
  - assert (c == 0) as Ec by lra. split.
    + setoid_replace (D * c) with 0 by (rewrite Ec; ring). setoid_replace (v * (c + A)) with (v * A) by (rewrite Ec; ring). lra.
    + intro Hp. setoid_replace (D * c) with 0 by (rewrite Ec; ring). setoid_replace (v * (c + A)) with (v * A) by (rewrite Ec; ring).
      assert (0 < A) by lra. specialize (I2 H0). lra.
Qed.
