(* SoftRoundProps.v -- C66: weights after rounding training. *)
From Coq Require Import Lra Lia.
From Verif Require Import TrainQModel TrainQSpec TrainQProofs.
Local Open Scope R_scope.

(* ---- soft targets ---- *)
Lemma target_range : forall al, 0 <= soft_target al <= 1.
Proof.
  intro al. unfold soft_target. destruct (clip_cases (sigmoid al * (zeta - gamma) + gamma) 0 1) as [[_ ->] | [[H ->] | [_ ->]]]; lra.
Qed.

Lemma target_of_rest : forall r, 0 <= r <= 1 -> soft_target (alpha_of r) = r.
Proof.
  intros r H. unfold soft_target, alpha_of, sigmoid. rewrite Ropp_involutive.
  assert (P : 0 < r - gamma) by (unfold gamma; lra).
  assert (Q : 0 < zeta - gamma - (r - gamma)) by (unfold gamma, zeta; lra).
  assert (Y : 0 < (zeta - gamma) / (r - gamma) - 1).
  { replace ((zeta - gamma) / (r - gamma) - 1) with ((zeta - gamma - (r - gamma)) / (r - gamma)) by (field; lra).
    apply Rdiv_lt_0_compat; assumption. }
  rewrite exp_ln by exact Y.
  replace (1 / (1 + ((zeta - gamma) / (r - gamma) - 1)) * (zeta - gamma) + gamma) with r.
  - unfold clip. rewrite Rmax_left by lra. apply Rmin_left. lra.
  - field. split; [lra |]. unfold gamma, zeta. lra.
Qed.

Lemma safe_is_plain : forall r, 0 <= r <= 1 -> alpha_safe r = alpha_of r.
Proof.
  intros r H. unfold alpha_safe, alpha_of. f_equal. f_equal. apply Rmax_left.
  assert (P : 0 < r - gamma) by (unfold gamma; lra).
  assert (Y : / 11 <= (zeta - gamma) / (r - gamma) - 1).
  { apply Rmult_le_reg_r with (r - gamma); [exact P |].
    replace (((zeta - gamma) / (r - gamma) - 1) * (r - gamma)) with (zeta - gamma - (r - gamma)) by (field; lra).
    unfold gamma, zeta. lra. }
  apply Rle_trans with (/ 11); [| exact Y]. apply Rinv_le_contravar; [lra |]. simpl. lra.
Qed.

Lemma rest_range : forall x, 0 <= rest_of x < 1.
Proof. intro x. unfold rest_of. destruct (floor_bounds x). lra. Qed.

Lemma aux_range : forall tr al, 0 <= aux_var tr al <= 1.
Proof.
  intros tr al. unfold aux_var. destruct tr; [apply target_range |]. destruct (Rle_dec _ _); lra.
Qed.

Lemma hard_aux : forall al, aux_var false al = IZR (if Rle_dec (1 / 2) (soft_target al) then 1 else 0).
Proof. intro al. unfold aux_var. destruct (Rle_dec _ _); reflexivity. Qed.

(* ---- the integer level chosen ---- *)
Lemma delta_pos : forall t n s, 0 < t -> 0 < delta t n s.
Proof. intros. unfold delta. apply Rdiv_lt_0_compat; [assumption | apply n_pos_pos]. Qed.

Definition used (pot : bool) (t : R) : R := if pot then pot_max t else t.
Lemma used_pos : forall pot t, 0 < t -> 0 < used pot t.
Proof. intros [] t T; [apply pot_max_pos | exact T]. Qed.

Lemma soft_symmetric_val : forall w aux t n pot,
  soft_symmetric w aux t n pot = delta (used pot t) n true *
    clip (IZR (rfloor (w / delta (used pot t) n true)) + aux) (IZR (lo_level n true)) (IZR (hi_level n true)).
Proof. intros. unfold soft_symmetric. rewrite ste_clip_val, <- min_int_IZR, <- max_int_IZR. reflexivity. Qed.

Lemma soft_hard_val : forall w al t n pot, exists j, (j = 0 \/ j = 1)%Z /\ aux_var false al = IZR j /\
  soft_symmetric w (aux_var false al) t n pot = delta (used pot t) n true *
    IZR (zclip (rfloor (w / delta (used pot t) n true) + j) (lo_level n true) (hi_level n true)).
Proof.
  intros. exists (if Rle_dec (1 / 2) (soft_target al) then 1 else 0)%Z. rewrite hard_aux. split; [| split].
  - destruct (Rle_dec _ _); auto.
  - reflexivity.
  - rewrite soft_symmetric_val, <- plus_IZR, clip_int. reflexivity.
Qed.

Lemma zclip_range : forall k lo hi, (lo <= hi)%Z -> (lo <= zclip k lo hi <= hi)%Z.
Proof. intros. unfold zclip. lia. Qed.

(* a clipped floor or floor + 1 is a neighbour *)
Lemma clipped_neighbour : forall d z lo hi x j, 0 < d -> (lo <= hi)%Z -> (j = 0 \/ j = 1)%Z ->
  neighbour d z lo hi x (z + d * IZR (zclip (rfloor ((x - z) / d) + j) lo hi)).
Proof.
  intros d z lo hi x j D LH J. split; [eexists; split; [apply zclip_range; exact LH | reflexivity] |].
  intros p (k & K & ->). destruct (floor_bounds ((x - z) / d)) as [F1 F2]. set (f := rfloor ((x - z) / d)) in *.
  assert (X : x = z + d * ((x - z) / d)) by (field; lra). set (y := (x - z) / d) in *.
  split; intros [H1 H2].
  - rewrite X in H1. assert (G1 : y < IZR k) by (apply Rmult_lt_reg_l with d; lra).
    assert (G2 : IZR k < IZR (zclip (f + j) lo hi)) by (apply Rmult_lt_reg_l with d; lra).
    apply lt_IZR in G2. assert (f < k)%Z by (apply lt_IZR; lra). unfold zclip in G2. lia.
  - rewrite X in H2. assert (G1 : IZR k < y) by (apply Rmult_lt_reg_l with d; lra).
    assert (G2 : IZR (zclip (f + j) lo hi) < IZR k) by (apply Rmult_lt_reg_l with d; lra).
    apply lt_IZR in G2. assert (k < f + 1)%Z by (apply lt_IZR; rewrite plus_IZR; lra). unfold zclip in G2. lia.
Qed.

(* rounding to the nearest, after clipping *)
Lemma clipped_nearest : forall d z lo hi x k, 0 < d -> (lo <= hi)%Z -> Rabs (IZR k - (x - z) / d) <= 1 / 2 ->
  nearest d z lo hi x (z + d * IZR (zclip k lo hi)).
Proof.
  intros d z lo hi x k D LH K. split; [eexists; split; [apply zclip_range; exact LH | reflexivity] |].
  intros p (m & M & ->). assert (X : x = z + d * ((x - z) / d)) by (field; lra). set (y := (x - z) / d) in *.
  replace (z + d * IZR (zclip k lo hi) - x) with (d * (IZR (zclip k lo hi) - y)) by (rewrite X; ring).
  replace (z + d * IZR m - x) with (d * (IZR m - y)) by (rewrite X; ring).
  rewrite !Rabs_mult, (Rabs_pos_eq d) by lra. apply Rmult_le_compat_l; [lra |].
  apply Rabs_def2 in K || (revert K; unfold Rabs at 1; destruct (Rcase_abs _); intro K).
  all: assert (C : zclip k lo hi = k \/ (zclip k lo hi = lo /\ k < lo)%Z \/ (zclip k lo hi = hi /\ hi < k)%Z) by (unfold zclip; lia).
  all: destruct C as [-> | [[-> C] | [-> C]]].
  all: try (assert (IZR k + 1 <= IZR lo) by (rewrite <- plus_IZR; apply IZR_le; lia)).
  all: try (assert (IZR hi + 1 <= IZR k) by (rewrite <- plus_IZR; apply IZR_le; lia)).
  all: destruct M as [M1 M2]; apply IZR_le in M1; apply IZR_le in M2.
  all: try (unfold Rabs; repeat destruct (Rcase_abs _); lra).
  all: destruct (Z.lt_trichotomy m k) as [G | [-> | G]]; [| lra |].
  all: try (assert (IZR m + 1 <= IZR k) by (rewrite <- plus_IZR; apply IZR_le; lia)).
  all: try (assert (IZR k + 1 <= IZR m) by (rewrite <- plus_IZR; apply IZR_le; lia)).
  all: unfold Rabs; repeat destruct (Rcase_abs _); lra.
Qed.

Lemma lo_hi : forall n s, (lo_level n s <= hi_level n s)%Z.
Proof. intros. generalize (level_order n s). lia. Qed.

(* ---- symmetric thresholds ---- *)
Definition learned_scale (learn pot : bool) (s : R) : R := if learn && negb pot then eff_scale s else 1.

Lemma eff_scale_pos : forall s, 0 < eff_scale s.
Proof. intro s. unfold eff_scale. destruct (Rle_dec s 0); [apply min_threshold_pos | lra]. Qed.
Lemma learned_scale_pos : forall l p s, 0 < learned_scale l p s.
Proof. intros. unfold learned_scale. destruct (l && negb p); [apply eff_scale_pos | lra]. Qed.
Lemma call_scaled : forall tr l p n t al s w,
  symmetric_call tr l p n t al s w = soft_symmetric w (aux_var tr al) t n p * learned_scale l p s.
Proof. intros. unfold symmetric_call, learned_scale. destruct (l && negb p); ring. Qed.
Lemma export_scaled : forall l p t s, symmetric_export l p t s = used p t * learned_scale l p s.
Proof. intros. unfold symmetric_export, used, learned_scale. destruct p, l; simpl; ring. Qed.
Lemma delta_scaled : forall t c n s, delta (t * c) n s = delta t n s * c.
Proof. intros. unfold delta. field. generalize (n_pos_pos n s). lra. Qed.

(* after training, whatever the trained variables are, every weight is a point of the exported grid, and quantizing it with the
   exported threshold changes nothing *)
Theorem trained_weight_on_exported_grid : forall (learn pot : bool) n t alpha s w, (1 <= n)%nat -> 0 < t ->
  let q := symmetric_call false learn pot n t alpha s w in
  let t' := symmetric_export learn pot t s in
  0 < t' /\ on_grid (t' / 2 ^ (n - 1)) 0 (lo_level n true) (hi_level n true) q /\ infer_symmetric t' n true q = q.
Proof.
  intros learn pot n t alpha s w Hn T q t'. subst q t'. rewrite export_scaled, call_scaled.
  generalize (used_pos pot t T) (learned_scale_pos learn pot s). intros U C.
  assert (TP : 0 < used pot t * learned_scale learn pot s) by (apply Rmult_lt_0_compat; assumption).
  destruct (soft_hard_val w alpha t n pot) as (j & J & EJ & E). rewrite E.
  split; [exact TP |]. split.
  - exists (zclip (rfloor (w / delta (used pot t) n true) + j) (lo_level n true) (hi_level n true)).
    split; [apply zclip_range, lo_hi |].
    change (used pot t * learned_scale learn pot s / 2 ^ (n - 1)) with (delta (used pot t * learned_scale learn pot s) n true).
    rewrite delta_scaled. ring.
  - set (k := zclip _ _ _).
    replace (delta (used pot t) n true * IZR k * learned_scale learn pot s)
      with (delta (used pot t * learned_scale learn pot s) n true * IZR k) by (rewrite delta_scaled; ring).
    apply infer_symmetric_grid; [assumption | assumption | apply zclip_range, lo_hi].
Qed.
Print Assumptions trained_weight_on_exported_grid.

(* and it is, up to the learned scale, a neighbour of the original weight on the original grid *)
Theorem trained_weight_neighbour : forall (learn pot : bool) n t alpha s w, (1 <= n)%nat -> 0 < t ->
  exists p, neighbour ((if pot then pot_max t else t) / 2 ^ (n - 1)) 0 (lo_level n true) (hi_level n true) w p /\
    symmetric_call false learn pot n t alpha s w = p * (if learn && negb pot then eff_scale s else 1).
Proof.
  intros learn pot n t alpha s w Hn T. exists (soft_symmetric w (aux_var false alpha) t n pot).
  split; [| apply call_scaled].
  destruct (soft_hard_val w alpha t n pot) as (j & J & EJ & ->).
  generalize (clipped_neighbour (delta (used pot t) n true) 0 (lo_level n true) (hi_level n true) w j
    (delta_pos _ n true (used_pos pot t T)) (lo_hi n true) J).
  rewrite Rplus_0_l, Rminus_0_r. exact (fun H => H).
Qed.
Print Assumptions trained_weight_neighbour.

(* which one is decided by the soft target *)
Theorem soft_target_decides : forall (pot : bool) n t alpha s w, (1 <= n)%nat -> 0 < t ->
  let d := (if pot then pot_max t else t) / 2 ^ (n - 1) in
  d * IZR (lo_level n true) <= w < d * IZR (hi_level n true) ->
  let q := symmetric_call false false pot n t alpha s w in
  (1 / 2 <= soft_target alpha -> w < q <= w + d) /\ (soft_target alpha < 1 / 2 -> w - d < q <= w).
Proof.
  intros pot n t alpha s w Hn T d W q. subst q. rewrite call_scaled. unfold learned_scale. simpl andb. cbv iota. rewrite Rmult_1_r.
  change d with (delta (used pot t) n true) in *. clear d. set (d := delta (used pot t) n true) in *.
  assert (D : 0 < d) by (apply delta_pos, used_pos, T).
  unfold aux_var. rewrite soft_symmetric_val. fold d.
  assert (X : w = d * (w / d)) by (field; lra). destruct (floor_bounds (w / d)) as [F1 F2].
  assert (B1 : (lo_level n true <= rfloor (w / d))%Z).
  { rewrite <- (floor_int (lo_level n true)). apply floor_mono. apply Rmult_le_reg_l with d; lra. }
  assert (B2 : (rfloor (w / d) < hi_level n true)%Z).
  { apply lt_IZR. apply Rle_lt_trans with (w / d); [lra |]. apply Rmult_lt_reg_l with d; lra. }
  split; intro H.
  - destruct (Rle_dec _ _); [| lra]. 
    replace (IZR (rfloor (w / d)) + 1) with (IZR (rfloor (w / d) + 1)) by (rewrite plus_IZR; reflexivity). rewrite clip_int.
    replace (zclip (rfloor (w / d) + 1) (lo_level n true) (hi_level n true)) with (rfloor (w / d) + 1)%Z by (unfold zclip; lia).
    rewrite plus_IZR. rewrite X at 1 4. split.
    + apply Rmult_lt_compat_l; lra.
    + rewrite Rmult_plus_distr_l, Rmult_1_r. apply Rplus_le_compat_r. apply Rmult_le_compat_l; lra.
  - destruct (Rle_dec _ _); [lra |]. rewrite Rplus_0_r, clip_int.
    replace (zclip (rfloor (w / d)) (lo_level n true) (hi_level n true)) with (rfloor (w / d))%Z by (unfold zclip; lia).
    rewrite X at 1 4. split.
    + replace (d * (w / d) - d) with (d * (w / d - 1)) by ring. apply Rmult_lt_compat_l; lra.
    + apply Rmult_le_compat_l; lra.
Qed.
Print Assumptions soft_target_decides.

(* both frameworks start from soft targets for which the quantized weight is the float weight, clamped to the grid's range *)
Lemma start_aux : forall x lo hi r, (lo <= hi)%Z ->
  r = rest_of (clip x (IZR lo) (IZR hi)) \/ r = rest_of x ->
  clip (IZR (rfloor x) + r) (IZR lo) (IZR hi) = clip x (IZR lo) (IZR hi).
Proof.
  intros x lo hi r LH [-> | ->].
  - destruct (clip_cases x (IZR lo) (IZR hi) (IZR_le _ _ LH)) as [[A EC] | [[A EC] | [A EC]]]; rewrite EC; unfold rest_of.
    + rewrite floor_int, Rminus_eq_0, Rplus_0_r, clip_int. unfold zclip.
      apply floor_mono in A. rewrite floor_int in A. f_equal. lia.
    + replace (IZR (rfloor x) + (x - IZR (rfloor x))) with x by ring. exact EC.
    + rewrite floor_int, Rminus_eq_0, Rplus_0_r, clip_int. unfold zclip.
      apply floor_mono in A. rewrite floor_int in A. f_equal. lia.
  - unfold rest_of. f_equal. ring.
Qed.

Lemma init_target : forall (keras : bool) w t n,
  soft_target (if keras then init_symmetric_keras w t n else init_symmetric w t n)
  = if keras then rest_of (w / delta t n true) else rest_of (clip (w / delta t n true) (IZR (lo_level n true)) (IZR (hi_level n true))).
Proof.
  intros keras w t n. assert (R : forall x, 0 <= rest_of x <= 1) by (intro x; generalize (rest_range x); lra).
  unfold init_symmetric_keras, init_symmetric. destruct keras.
  - rewrite safe_is_plain by apply R. apply target_of_rest, R.
  - rewrite min_int_IZR, max_int_IZR. apply target_of_rest, R.
Qed.

Theorem soft_rounding_starts_at_weight : forall (keras learn pot : bool) n t w, (1 <= n)%nat -> 0 < t ->
  (pot = true -> is_pot t /\ min_threshold <= t) ->
  symmetric_call true learn pot n t (if keras then init_symmetric_keras w t n else init_symmetric w t n) initial_scale w
  = clamp (- t) (t - t / 2 ^ (n - 1)) w.
Proof.
  intros keras learn pot n t w Hn T P. rewrite call_scaled.
  assert (EU : used pot t = t) by (unfold used; destruct pot; [destruct (P eq_refl); apply pot_max_fixed; assumption | reflexivity]).
  assert (ES : learned_scale learn pot initial_scale = 1).
  { unfold learned_scale, initial_scale, eff_scale. destruct (learn && negb pot); [| reflexivity]. destruct (Rle_dec 1 0); lra. }
  rewrite ES, Rmult_1_r, soft_symmetric_val, EU. unfold aux_var.
  change (t / 2 ^ (n - 1)) with (delta t n true).
  set (d := delta t n true). assert (D : 0 < d) by (apply delta_pos, T).
  assert (EA : soft_target (if keras then init_symmetric_keras w t n else init_symmetric w t n)
    = if keras then rest_of (w / d) else rest_of (clip (w / d) (IZR (lo_level n true)) (IZR (hi_level n true)))).
  { apply init_target. }
  rewrite EA, start_aux; [| apply lo_hi | destruct keras; auto].
  rewrite clip_scale by exact D.
  assert (TE : t = d * n_pos n true) by (unfold d, delta; field; generalize (n_pos_pos n true); lra).
  replace (d * (w / d)) with w by (field; lra).
  replace (d * IZR (lo_level n true)) with (- t) by (rewrite <- min_int_IZR; unfold min_int; rewrite TE at 1; ring).
  replace (d * IZR (hi_level n true)) with (t - d) by (rewrite <- max_int_IZR; unfold max_int; rewrite TE at 1; ring).
  apply clamp_clip.
  assert (1 <= n_pos n true) by (rewrite n_pos_IZR; apply IZR_le, pow2_pos).
  assert (NP : 1 <= n_pos n true) by assumption. clearbody d.
  generalize (Rmult_le_compat_l d 1 (n_pos n true) (Rlt_le _ _ D) NP). lra.
Qed.
Print Assumptions soft_rounding_starts_at_weight.

(* with the initial variables the exported weight is the nearest grid point: training starts from plain rounding *)
Theorem soft_rounding_starts_nearest : forall (keras learn pot : bool) n t w, (1 <= n)%nat -> 0 < t ->
  (pot = true -> is_pot t /\ min_threshold <= t) ->
  nearest (t / 2 ^ (n - 1)) 0 (lo_level n true) (hi_level n true) w
    (symmetric_call false learn pot n t (if keras then init_symmetric_keras w t n else init_symmetric w t n) initial_scale w).
Proof.
  intros keras learn pot n t w Hn T P. rewrite call_scaled.
  assert (EU : used pot t = t) by (unfold used; destruct pot; [destruct (P eq_refl); apply pot_max_fixed; assumption | reflexivity]).
  assert (ES : learned_scale learn pot initial_scale = 1).
  { unfold learned_scale, initial_scale, eff_scale. destruct (learn && negb pot); [| reflexivity]. destruct (Rle_dec 1 0); lra. }
  rewrite ES, Rmult_1_r, soft_symmetric_val, EU. 
  change (t / 2 ^ (n - 1)) with (delta t n true).
  set (d := delta t n true). assert (D : 0 < d) by (apply delta_pos, T).
  assert (EA : soft_target (if keras then init_symmetric_keras w t n else init_symmetric w t n)
    = if keras then rest_of (w / d) else rest_of (clip (w / d) (IZR (lo_level n true)) (IZR (hi_level n true)))).
  { apply init_target. }
  rewrite hard_aux, EA, <- plus_IZR, clip_int.
  set (r := if keras then _ else _). 
  assert (K : exists k, Rabs (IZR k - w / d) <= 1 / 2 /\
    zclip (rfloor (w / d) + (if Rle_dec (1 / 2) r then 1 else 0)) (lo_level n true) (hi_level n true)
    = zclip k (lo_level n true) (hi_level n true)).
  { destruct (floor_bounds (w / d)) as [F1 F2].
    assert (RD : r = rest_of (w / d) \/ (r = 0 /\ (w / d <= IZR (lo_level n true) \/ IZR (hi_level n true) <= w / d))).
    { unfold r. destruct keras; [left; reflexivity |].
      destruct (clip_cases (w / d) (IZR (lo_level n true)) (IZR (hi_level n true)) (IZR_le _ _ (lo_hi n true)))
        as [[A ->] | [[A ->] | [A ->]]]; [right | left; reflexivity | right];
        (split; [unfold rest_of; rewrite floor_int; ring | auto]). }
    destruct RD as [RD | [RD O]].
    - exists (rfloor (w / d) + (if Rle_dec (1 / 2) r then 1 else 0))%Z. split; [| reflexivity].
      rewrite plus_IZR. unfold rest_of in RD. destruct (Rle_dec _ _); apply Rabs_le; lra.
    - exists (rround (w / d)). split; [apply round_bounds |].
      destruct (Rle_dec _ _); [lra |]. rewrite Z.add_0_r. unfold zclip.
      destruct O as [O | O].
      + generalize (round_mono _ _ O) (floor_mono _ _ O). rewrite round_int, floor_int. lia.
      + generalize (round_mono _ _ O) (floor_mono _ _ O). rewrite round_int, floor_int. lia. }
  destruct K as (k & K & ->).
  generalize (clipped_nearest d 0 (lo_level n true) (hi_level n true) w k D (lo_hi n true)).
  rewrite Rplus_0_l, Rminus_0_r. intro H. apply H. exact K.
Qed.
Print Assumptions soft_rounding_starts_nearest.

(* during training the weight stays between the two grid points the export chooses from *)
Theorem soft_weight_between : forall (learn pot : bool) n t alpha s w, (1 <= n)%nat -> 0 < t ->
  exists lo hi, neighbour ((if pot then pot_max t else t) / 2 ^ (n - 1)) 0 (lo_level n true) (hi_level n true) w lo /\
    neighbour ((if pot then pot_max t else t) / 2 ^ (n - 1)) 0 (lo_level n true) (hi_level n true) w hi /\
    let c := if learn && negb pot then eff_scale s else 1 in
    lo * c <= symmetric_call true learn pot n t alpha s w <= hi * c /\
    (symmetric_call false learn pot n t alpha s w = lo * c \/ symmetric_call false learn pot n t alpha s w = hi * c).
Proof.
  intros learn pot n t alpha s w Hn T.
  change ((if pot then pot_max t else t) / 2 ^ (n - 1)) with (delta (used pot t) n true).
  set (d := delta (used pot t) n true). assert (D : 0 < d) by (apply delta_pos, used_pos, T).
  generalize (learned_scale_pos learn pot s). intro C.
  exists (d * IZR (zclip (rfloor (w / d)) (lo_level n true) (hi_level n true))),
         (d * IZR (zclip (rfloor (w / d) + 1) (lo_level n true) (hi_level n true))).
  split; [| split].
  - generalize (clipped_neighbour d 0 (lo_level n true) (hi_level n true) w 0 D (lo_hi n true) (or_introl eq_refl)).
    rewrite Rplus_0_l, Rminus_0_r, Z.add_0_r. exact (fun H => H).
  - generalize (clipped_neighbour d 0 (lo_level n true) (hi_level n true) w 1 D (lo_hi n true) (or_intror eq_refl)).
    rewrite Rplus_0_l, Rminus_0_r. exact (fun H => H).
  - intro c. change c with (learned_scale learn pot s). rewrite !call_scaled. split.
    + rewrite soft_symmetric_val. fold d. destruct (aux_range true alpha) as [A1 A2].
      rewrite <- !clip_int, plus_IZR. split; apply Rmult_le_compat_r; try lra; apply Rmult_le_compat_l; try lra; apply clip_mono; lra.
    + destruct (soft_hard_val w alpha t n pot) as (j & [-> | ->] & EJ & ->); fold d; [left | right]; rewrite ?Z.add_0_r; reflexivity.
Qed.
Print Assumptions soft_weight_between.

(* ---- uniform ranges ---- *)
Lemma soft_uniform_val : forall d z n w aux a b, (1 <= n)%nat -> 0 < d ->
  fix_range a b n = (- d * IZR z, - d * IZR z + d * levels n) ->
  soft_uniform w aux a b n = d * clip (IZR (rfloor ((w - - d * IZR z) / d)) + aux) (IZR 0) (IZR (hi_level n false)) + - d * IZR z.
Proof.
  intros d z n w aux a b Hn D E. generalize (levels_pos n Hn). intro L. unfold soft_uniform. rewrite E. cbn [fst snd].
  replace (delta_uniform (- d * IZR z) (- d * IZR z + d * levels n) n) with d by (unfold delta_uniform; field; lra).
  rewrite ste_clip_val, ste_floor_val, levels_IZR. reflexivity.
Qed.

Theorem trained_uniform_weight_on_exported_grid : forall n a b alpha w, (1 <= n)%nat -> a < b ->
  let q := uniform_call false n a b alpha w in
  let lo := fst (fix_range a b n) in let d := (snd (fix_range a b n) - lo) / (2 ^ n - 1) in
  neighbour d lo 0 (hi_level n false) w q /\ infer_uniform (fst (uniform_export a b)) (snd (uniform_export a b)) n q = q.
Proof.
  intros n a b alpha w Hn AB q lo d. subst q lo d. generalize (levels_pos n Hn). intro L.
  destruct (fix_range_spec a b n Hn AB) as (d & z & D & Z & E).
  unfold uniform_call, uniform_export. cbn [fst snd]. rewrite (soft_uniform_val d z n w _ a b Hn D E), hard_aux, <- plus_IZR, clip_int.
  rewrite E. cbn [fst snd].
  replace ((- d * IZR z + d * levels n - - d * IZR z) / (2 ^ n - 1)) with d by (fold (levels n); field; lra).
  set (j := if Rle_dec _ _ then 1%Z else 0%Z). assert (J : (j = 0 \/ j = 1)%Z) by (unfold j; destruct (Rle_dec _ _); auto).
  generalize (level_order n false). unfold lo_level. intro LO.
  split.
  - rewrite Rplus_comm. apply clipped_neighbour; [exact D | lia | exact J].
  - set (k := zclip _ _ _). rewrite (infer_uniform_on d z n _ a b Hn D E).
    replace ((d * IZR k + - d * IZR z) / d + IZR z) with (IZR k) by (field; lra).
    rewrite round_int.
    replace (zclip k 0 (hi_level n false)) with k; [ring |]. unfold k. unfold zclip. lia.
Qed.
Print Assumptions trained_uniform_weight_on_exported_grid.

(* PyTorch, with a range that already has zero on its grid: the start is the clamped float weight *)
Theorem uniform_soft_rounding_starts_at_weight : forall n a b w, (1 <= n)%nat -> a < b -> fix_range a b n = (a, b) ->
  uniform_call true n a b (init_uniform w a b n) w = clamp a b w.
Proof.
  intros n a b w Hn AB EF. generalize (levels_pos n Hn). intro L.
  destruct (fix_range_spec a b n Hn AB) as (d & z & D & Z & E).
  rewrite E in EF. injection EF as EA EB.
  unfold uniform_call, aux_var, init_uniform. rewrite (soft_uniform_val d z n w _ a b Hn D E).
  replace (delta_uniform a b n) with d by (unfold delta_uniform; rewrite <- EA, <- EB; field; lra).
  rewrite target_of_rest by (generalize (rest_range (clip ((w - a) / d) 0 (levels n))); lra).
  rewrite EA. rewrite (start_aux ((w - a) / d) 0 (hi_level n false)); [| apply (level_order n false) | left; rewrite levels_IZR; reflexivity].
  rewrite clip_scale by exact D. rewrite clip_plus, <- levels_IZR.
  replace (d * ((w - a) / d) + a) with w by (field; lra).
  replace (d * 0 + a) with a by ring. replace (d * levels n + a) with b by (rewrite <- EB, EA; ring).
  apply clamp_clip. lra.
Qed.
Print Assumptions uniform_soft_rounding_starts_at_weight.

(* FINDING (gptq/keras/quantizer/soft_rounding/uniform_soft_quantizer.py L146): clip is called with the two bounds in the other
   order, so the normalised weight is always 0 and every soft target starts at 0: training starts from the grid point below the
   weight, whatever the weight is *)
Theorem keras_uniform_start_floors : forall n a b w, (1 <= n)%nat -> a < b -> fix_range a b n = (a, b) -> a <= w <= b ->
  soft_target (init_uniform_keras w a b n) = 0 /\
  forall training, uniform_call training n a b (init_uniform_keras w a b n) w <= w /\
    forall p, on_grid ((b - a) / (2 ^ n - 1)) a 0 (hi_level n false) p -> p <= w ->
      p <= uniform_call training n a b (init_uniform_keras w a b n) w.
Proof.
  intros n a b w Hn AB EF W. generalize (levels_pos n Hn). intro L.
  assert (ST : soft_target (init_uniform_keras w a b n) = 0).
  { unfold init_uniform_keras. assert (K : kclip ((w - a) / delta_uniform a b n) 0 (levels n) = 0).
    { unfold kclip, Rmin, Rmax. destruct (Rle_dec _ (levels n)), (Rle_dec _ 0); lra. }
    rewrite K. unfold rest_of. rewrite (floor_int 0). replace (0 - 0) with 0 by ring.
    rewrite safe_is_plain by lra. apply target_of_rest. lra. }
  split; [exact ST |]. intro tr.
  destruct (fix_range_spec a b n Hn AB) as (d & z & D & Z & E). rewrite E in EF. injection EF as EA EB.
  assert (AV : aux_var tr (init_uniform_keras w a b n) = 0).
  { unfold aux_var. rewrite ST. destruct tr; [reflexivity |]. destruct (Rle_dec _ _); [lra | reflexivity]. }
  unfold uniform_call. rewrite AV, (soft_uniform_val d z n w _ a b Hn D E), EA, Rplus_0_r, clip_int.
  replace ((b - a) / (2 ^ n - 1)) with d by (fold (levels n); rewrite <- EB, <- EA; field; lra).
  destruct (floor_bounds ((w - a) / d)) as [F1 F2].
  assert (X : w = d * ((w - a) / d) + a) by (field; lra).
  assert (G0 : (0 <= rfloor ((w - a) / d))%Z).
  { rewrite <- (floor_int 0). apply floor_mono. apply Rmult_le_reg_l with d; lra. }
  assert (G1 : (rfloor ((w - a) / d) <= hi_level n false)%Z).
  { rewrite <- (floor_int (hi_level n false)). apply floor_mono. rewrite <- levels_IZR. apply Rmult_le_reg_l with d; lra. }
  replace (zclip (rfloor ((w - a) / d)) 0 (hi_level n false)) with (rfloor ((w - a) / d)) by (unfold zclip; lia).
  split.
  - rewrite X at 2. apply Rplus_le_compat_r, Rmult_le_compat_l; lra.
  - intros p (k & K & ->) PW. assert (IZR k <= (w - a) / d) by (apply Rmult_le_reg_l with d; lra).
    assert (k <= rfloor ((w - a) / d))%Z by (rewrite <- (floor_int k); apply floor_mono; assumption).
    apply IZR_le in H0. generalize (Rmult_le_compat_l d _ _ (Rlt_le _ _ D) H0). lra.
Qed.
Print Assumptions keras_uniform_start_floors.

(* ---- regularization ---- *)
Lemma rpow_unit : forall x b, 0 < b -> 0 <= x <= 1 -> 0 <= rpow x b <= 1 /\ (rpow x b = 1 <-> x = 1).
Proof.
  intros x b B X. unfold rpow. destruct (Req_EM_T x 0) as [-> | NZ].
  - destruct (Req_EM_T b 0); [lra |]. split; [lra |]. split; lra.
  - assert (P : 0 < x) by lra. unfold Rpower.
    assert (LN : ln x <= 0) by (rewrite <- ln_1; destruct (Req_dec x 1) as [-> | NE]; [lra | left; apply ln_increasing; lra]).
    assert (BL : b * ln x <= 0) by (replace 0 with (b * 0) by ring; apply Rmult_le_compat_l; lra).
    split; [split; [left; apply exp_pos | rewrite <- exp_0; apply exp_le; exact BL] |].
    split.
    + intro H. rewrite <- exp_0 in H. apply exp_inv in H.
      assert (ln x = 0) by (apply Rmult_integral in H; destruct H; lra).
      rewrite <- ln_1 in H0. apply ln_inv in H0; lra.
    + intros ->. rewrite ln_1, Rmult_0_r. apply exp_0.
Qed.

Lemma loss_term : forall b al, 0 < b -> 0 <= 1 - rpow (Rabs (soft_target al - 1 / 2) * 2) b /\
  (1 - rpow (Rabs (soft_target al - 1 / 2) * 2) b = 0 <-> soft_target al = 0 \/ soft_target al = 1).
Proof.
  intros b al B. generalize (target_range al). set (s := soft_target al). intro S.
  assert (U : 0 <= Rabs (s - 1 / 2) * 2 <= 1) by (unfold Rabs; destruct (Rcase_abs _); lra).
  destruct (rpow_unit _ b B U) as [R I]. split; [lra |]. split.
  - intro H. assert (H' : Rabs (s - 1 / 2) * 2 = 1) by (apply I; lra). unfold Rabs in H'. destruct (Rcase_abs _); lra.
  - intro H. assert (Rabs (s - 1 / 2) * 2 = 1) by (unfold Rabs; destruct (Rcase_abs _); lra). apply I in H0. lra.
Qed.

Lemma rsum_zero : forall l, (forall x, In x l -> 0 <= x) -> 0 <= rsum l /\ (rsum l = 0 <-> forall x, In x l -> x = 0).
Proof.
  induction l as [| x l IH]; intro P; simpl.
  - split; [lra |]. split; [intros _ y [] | reflexivity].
  - destruct IH as [N I]; [intros; apply P; right; assumption |]. generalize (P x (or_introl eq_refl)). intro X.
    split; [lra |]. split.
    + intros H y [<- | Y]; [lra |]. apply I; [lra | exact Y].
    + intro H. rewrite (H x (or_introl eq_refl)). rewrite (proj2 I); [lra |]. intros; apply H; right; assumption.
Qed.

Lemma soft_loss_zero : forall b al, 0 < b -> 0 <= soft_loss b al /\
  (soft_loss b al = 0 <-> forall a, In a al -> soft_target a = 0 \/ soft_target a = 1).
Proof.
  intros b al B. unfold soft_loss.
  destruct (rsum_zero (map (fun al => 1 - rpow (Rabs (soft_target al - 1 / 2) * 2) b) al)) as [N I].
  - intros x X. apply in_map_iff in X. destruct X as (a & <- & _). apply loss_term. exact B.
  - split; [exact N |]. split.
    + intros H a A. apply (loss_term b a B). apply (proj1 I H). apply in_map_iff. exists a. auto.
    + intro H. apply I. intros x X. apply in_map_iff in X. destruct X as (a & <- & A). apply (loss_term b a B). auto.
Qed.

Lemma rmax_list_pos : forall l, l <> [] -> (forall x, In x l -> 0 < x) -> 0 < rmax_list l.
Proof.
  induction l as [| x l IH]; intros N P; [congruence |]. destruct l as [| y l].
  - apply P. left. reflexivity.
  - change (rmax_list (x :: y :: l)) with (Rmax x (rmax_list (y :: l))).
    apply Rlt_le_trans with x; [apply P; left; reflexivity | apply Rmax_l].
Qed.

Lemma in_combine_exists : forall (A B : Type) (l : list A) (m : list B) a, length m = length l -> In a l -> exists b, In (a, b) (combine l m).
Proof.
  induction l as [| x l IH]; intros [| y m] a E I; try contradiction; try discriminate. destruct I as [-> | I].
  - exists y. left. reflexivity.
  - destruct (IH m a) as [c C]; [injection E; auto | exact I |]. exists c. right. exact C.
Qed.

(* the regularization term is not negative, and it vanishes exactly when every weight of every layer has settled, that is when the
   weights of the trained model are those that will be exported *)
Theorem regularization_zero_iff_settled : forall b e layers weights r,
  0 < b -> 0 < e -> (forall x, In x weights -> 0 < x) -> regularization b e layers weights = Ok r ->
  0 <= r /\
  (r = 0 <-> forall alphas alpha, In alphas layers -> In alpha alphas -> soft_target alpha = 0 \/ soft_target alpha = 1).
Proof.
  intros b e layers weights r B E W H. unfold regularization in H.
  destruct (negb _) eqn:EL; [discriminate |]. apply negb_false_iff, Nat.eqb_eq in EL.
  assert (NE : weights <> []) by (intros ->; discriminate).
  assert (ER : r = e * (rsum (map (fun lw => snd lw * soft_loss b (fst lw)) (combine layers weights)) / rmax_list weights)) by (destruct weights; [discriminate | injection H as <-; reflexivity]).
  clear H. generalize (rmax_list_pos weights NE W). intro M.
  destruct (rsum_zero (map (fun lw => snd lw * soft_loss b (fst lw)) (combine layers weights))) as [N I].
  { intros x X. apply in_map_iff in X. destruct X as ([al w] & <- & X). cbn [fst snd].
    apply Rmult_le_pos; [left; apply W; eapply in_combine_r; exact X | apply soft_loss_zero; exact B]. }
  set (S := rsum _) in *. subst r.
  assert (MI : 0 < / rmax_list weights) by (apply Rinv_0_lt_compat; exact M).
  split; [apply Rmult_le_pos; [lra |]; apply Rmult_le_pos; lra |].
  assert (Z : e * (S / rmax_list weights) = 0 <-> S = 0).
  { split; intro H; [| rewrite H; unfold Rdiv; ring]. apply Rmult_integral in H. destruct H as [H | H]; [lra |].
    apply Rmult_integral in H. destruct H; lra. }
  rewrite Z, I. split.
  - intros H alphas alpha L A. destruct (in_combine_exists _ _ layers weights alphas EL L) as [w C].
    assert (w * soft_loss b alphas = 0) by (apply H; apply in_map_iff; exists (alphas, w); auto).
    assert (0 < w) by (apply W; eapply in_combine_r; exact C).
    apply Rmult_integral in H0. destruct H0; [lra |]. apply (soft_loss_zero b alphas B); assumption.
  - intros H x X. apply in_map_iff in X. destruct X as ([al w] & <- & X). cbn [fst snd].
    rewrite (proj2 (proj2 (soft_loss_zero b al B))); [ring |]. intros a A. apply (H al); [eapply in_combine_l; exact X | exact A].
Qed.
Print Assumptions regularization_zero_iff_settled.

Theorem settled_means_exported : forall alpha, soft_target alpha = 0 \/ soft_target alpha = 1 ->
  (forall learn pot n t s w, symmetric_call true learn pot n t alpha s w = symmetric_call false learn pot n t alpha s w) /\
  (forall n a b w, uniform_call true n a b alpha w = uniform_call false n a b alpha w).
Proof.
  intros alpha H. assert (A : aux_var true alpha = aux_var false alpha).
  { unfold aux_var. destruct H as [-> | ->]; destruct (Rle_dec _ _); lra. }
  split; intros; [unfold symmetric_call | unfold uniform_call]; rewrite A; reflexivity.
Qed.
Print Assumptions settled_means_exported.

(* one weight per layer is required *)
Theorem regularization_needs_matching_weights : forall b e layers weights,
  is_ok (regularization b e layers weights) = true <-> length weights = length layers /\ weights <> [].
Proof.
  intros b e layers weights. unfold regularization. destruct (Nat.eqb_spec (length weights) (length layers)) as [EL | NE]; simpl.
  - destruct weights; simpl; split; try discriminate; intuition congruence.
  - split; [discriminate | intros [? _]; contradiction].
Qed.
Print Assumptions regularization_needs_matching_weights.

(* ---- straight-through rounding ---- *)
Lemma perturbed_val : forall w aux t n pot lsbs, perturbed w aux t n pot lsbs =
  delta (used pot t) n true * IZR (zclip (rround (IZR (rround (w / delta (used pot t) n true)) +
    clip aux (- (delta (used pot t) n true * lsbs)) (delta (used pot t) n true * lsbs) / delta (used pot t) n true)) (lo_level n true) (hi_level n true)).
Proof.
  intros. unfold perturbed. fold (used pot t). rewrite !ste_clip_val, !ste_round_val, round_round, min_int_IZR, max_int_IZR, clip_int. reflexivity.
Qed.

Theorem ste_frameworks_agree : forall per_channel pot lsbs n t aux w,
  ste_call true per_channel pot lsbs n t aux w = ste_call false per_channel pot lsbs n t aux w.
Proof.
  intros. unfold ste_call. set (L := if per_channel then lsbs else max_lsb_change).
  rewrite perturbed_val. unfold perturbed_keras. fold (used pot t). set (d := delta (used pot t) n true).
  rewrite !kclip_val, ste_round_val, min_int_IZR, max_int_IZR, clip_int. do 4 f_equal. f_equal.
  rewrite (Rmult_comm L d). unfold Rdiv. ring.
Qed.
Print Assumptions ste_frameworks_agree.

(* the weight moves by at most max_lsbs_change steps (1 without per-channel thresholds) from plain quantization, and stays on the
   grid; with the initial auxiliary variable it is plain quantization *)
Theorem ste_rounding_bounded : forall (keras per_channel pot : bool) L n t aux w, (2 <= n)%nat -> 0 < t -> (0 <= L)%Z ->
  (pot = true -> is_pot t /\ min_threshold <= t) ->
  let q := ste_call keras per_channel pot (IZR L) n t aux w in
  let d := ste_export t / 2 ^ (n - 1) in
  on_grid d 0 (lo_level n true) (hi_level n true) q /\
  infer_symmetric (ste_export t) n true q = q /\
  Rabs (q - infer_symmetric (ste_export t) n true w) <= d * IZR (if per_channel then L else 1) /\
  ste_call keras per_channel pot (IZR L) n t initial_aux w = infer_symmetric (ste_export t) n true w.
Proof.
  intros keras per_channel pot L n t aux w Hn T HL P q d. subst q d. unfold ste_export.
  assert (EK : forall x, ste_call keras per_channel pot (IZR L) n t x w = ste_call false per_channel pot (IZR L) n t x w)
    by (intro; destruct keras; [apply ste_frameworks_agree | reflexivity]).
  rewrite !EK. clear EK. unfold ste_call.
  assert (EU : used pot t = t) by (unfold used; destruct pot; [destruct (P eq_refl); apply pot_max_fixed; assumption | reflexivity]).
  change (t / 2 ^ (n - 1)) with (delta t n true).
  assert (EM : (if per_channel then IZR L else max_lsb_change) = IZR (if per_channel then L else 1)) by (destruct per_channel; reflexivity).
  rewrite EM. set (M := if per_channel then L else 1%Z). assert (M0 : (0 <= M)%Z) by (unfold M; destruct per_channel; lia).
  rewrite !perturbed_val, EU. set (d := delta t n true). assert (D : 0 < d) by (apply delta_pos, T).
  assert (M1 : 0 <= IZR M) by (apply (IZR_le 0); exact M0).
  assert (DM : 0 <= d * IZR M) by (apply Rmult_le_pos; lra).
  split; [| split; [| split]].
  - eexists. split; [| rewrite Rplus_0_l; reflexivity]. apply zclip_range, lo_hi.
  - apply infer_symmetric_grid; [lia | exact T | apply zclip_range, lo_hi].
  - rewrite infer_symmetric_on; [| lia | auto | exact T]. fold d.
    rewrite <- Rmult_minus_distr_l, Rabs_mult, (Rabs_pos_eq d) by lra. apply Rmult_le_compat_l; [lra |].
    rewrite <- !clip_int. eapply Rle_trans; [apply clip_lipschitz |].
    set (c := clip aux (- (d * IZR M)) (d * IZR M)).
    assert (CB : - IZR M <= c / d <= IZR M).
    { assert (C0 : - (d * IZR M) <= c <= d * IZR M).
      { unfold c. destruct (clip_cases aux (- (d * IZR M)) (d * IZR M)) as [[A ->] | [[A ->] | [A ->]]]; lra. }
      split; apply Rmult_le_reg_l with d; try lra; replace (d * (c / d)) with c by (field; lra); lra. }
    destruct CB as [C1 C2].
    assert (R1 : (rround (w / d) - M <= rround (IZR (rround (w / d)) + c / d))%Z).
    { rewrite <- (round_int (rround (w / d) - M)). apply round_mono. rewrite minus_IZR. lra. }
    assert (R2 : (rround (IZR (rround (w / d)) + c / d) <= rround (w / d) + M)%Z).
    { rewrite <- (round_int (rround (w / d) + M)). apply round_mono. rewrite plus_IZR. lra. }
    apply IZR_le in R1. apply IZR_le in R2. rewrite minus_IZR in R1. rewrite plus_IZR in R2. apply Rabs_le. lra.
  - rewrite infer_symmetric_on; [| lia | auto | exact T]. fold d.
    assert (C0 : clip initial_aux (- (d * IZR M)) (d * IZR M) = 0).
    { unfold initial_aux. destruct (clip_cases 0 (- (d * IZR M)) (d * IZR M)) as [[A ->] | [[A ->] | [A ->]]]; lra. }
    rewrite C0. replace (IZR (rround (w / d)) + 0 / d) with (IZR (rround (w / d))) by (field; lra). rewrite round_int. reflexivity.
Qed.
Print Assumptions ste_rounding_bounded.

(* Keras: every weight has its own variable, and any combination of shifts within the limit can be reached *)
Theorem ste_keras_any_shift : forall pot L n t ws (shift : nat -> Z), (2 <= n)%nat -> 0 < t -> (forall i, (Z.abs (shift i) <= L)%Z) ->
  (pot = true -> is_pot t /\ min_threshold <= t) ->
  exists aux, forall i w, nth_error ws i = Some w ->
    nth_error (ste_channel true pot (IZR L) n t aux ws) i =
    Some (t / 2 ^ (n - 1) * IZR (Z.min (Z.max (rround (w / (t / 2 ^ (n - 1))) + shift i) (lo_level n true)) (hi_level n true))).
Proof.
  intros pot L n t ws shift Hn T SH P. change (t / 2 ^ (n - 1)) with (delta t n true). set (d := delta t n true).
  assert (D : 0 < d) by (apply delta_pos, T).
  exists (fun i => d * IZR (shift i)). intros i w W.
  assert (I : (i < length ws)%nat) by (apply nth_error_Some; congruence).
  unfold ste_channel. rewrite nth_error_map.
  assert (EC : forall (l : list R) k j x, nth_error l j = Some x -> nth_error (combine (seq k (length l)) l) j = Some ((k + j)%nat, x)).
  { induction l as [| y l IH]; intros k [| j] x H; try discriminate; simpl.
    - injection H as ->. rewrite Nat.add_0_r. reflexivity.
    - rewrite (IH (S k) j x H). do 2 f_equal. lia. }
  rewrite (EC ws 0%nat i w W). cbn [option_map fst snd Nat.add]. f_equal.
  rewrite ste_frameworks_agree. unfold ste_call. rewrite perturbed_val.
  assert (EU : used pot t = t) by (unfold used; destruct pot; [destruct (P eq_refl); apply pot_max_fixed; assumption | reflexivity]).
  rewrite EU. fold d. f_equal. f_equal. unfold zclip. do 2 f_equal.
  assert (SL : - IZR L <= IZR (shift i) <= IZR L) by (specialize (SH i); rewrite <- opp_IZR; split; apply IZR_le; lia).
  assert (EC' : clip (d * IZR (shift i)) (- (d * IZR L)) (d * IZR L) = d * IZR (shift i)).
  { rewrite Ropp_mult_distr_r, <- clip_scale by exact D. f_equal. unfold clip. rewrite Rmax_left by lra. apply Rmin_left. lra. }
  rewrite EC'. replace (d * IZR (shift i) / d) with (IZR (shift i)) by (field; lra). rewrite <- plus_IZR. apply round_int.
Qed.
Print Assumptions ste_keras_any_shift.

(* both neighbours, and everything between them, can be reached by training *)
Theorem soft_target_onto : forall r, 0 <= r <= 1 -> exists alpha, soft_target alpha = r.
Proof. intros r H. exists (alpha_of r). apply target_of_rest. exact H. Qed.
Print Assumptions soft_target_onto.
