(* TrainQProofs.v -- rounding, ranges and the two inference quantizers on integers. *)
From Coq Require Import Lra Lia.
From Verif Require Import TrainQModel TrainQSpec.
Local Open Scope R_scope.

(* ---- rounding ---- *)
Lemma floor_bounds : forall x, IZR (rfloor x) <= x < IZR (rfloor x) + 1.
Proof. intro x. unfold rfloor. destruct (base_Int_part x). lra. Qed.

Lemma floor_unique : forall x k, IZR k <= x < IZR k + 1 -> rfloor x = k.
Proof.
  intros x k [H1 H2]. destruct (floor_bounds x) as [F1 F2].
  assert (A : (rfloor x < k + 1)%Z) by (apply lt_IZR; rewrite plus_IZR; lra).
  assert (B : (k < rfloor x + 1)%Z) by (apply lt_IZR; rewrite plus_IZR; lra).
  lia.
Qed.

Lemma floor_int : forall k, rfloor (IZR k) = k.
Proof. intro k. apply floor_unique. lra. Qed.

Lemma floor_mono : forall x y, x <= y -> (rfloor x <= rfloor y)%Z.
Proof.
  intros x y H. destruct (floor_bounds x), (floor_bounds y).
  assert (rfloor x < rfloor y + 1)%Z by (apply lt_IZR; rewrite plus_IZR; lra). lia.
Qed.

Lemma ceil_bounds : forall x, IZR (rceil x) - 1 < x <= IZR (rceil x).
Proof.
  intro x. unfold rceil. rewrite opp_IZR. generalize (floor_bounds (- x)). unfold rfloor. intros [? ?]. lra.
Qed.

Lemma ceil_unique : forall x k, IZR k - 1 < x <= IZR k -> rceil x = k.
Proof.
  intros x k [H1 H2]. destruct (ceil_bounds x) as [F1 F2].
  assert (A : (rceil x < k + 1)%Z) by (apply lt_IZR; rewrite plus_IZR; lra).
  assert (B : (k < rceil x + 1)%Z) by (apply lt_IZR; rewrite plus_IZR; lra).
  lia.
Qed.

Lemma round_cases : forall x,
  (rround x = rfloor x /\ x - IZR (rfloor x) <= 1 / 2) \/
  (rround x = (rfloor x + 1)%Z /\ 1 / 2 <= x - IZR (rfloor x)).
Proof.
  intro x. unfold rround, rfloor. destruct (Rlt_dec _ _); [left; split; [reflexivity | lra] |].
  destruct (Rlt_dec _ _); [right; split; [reflexivity | lra] |].
  destruct (Z.even _); [left | right]; (split; [reflexivity | lra]).
Qed.

Lemma round_bounds : forall x, Rabs (IZR (rround x) - x) <= 1 / 2.
Proof.
  intro x. destruct (floor_bounds x). destruct (round_cases x) as [[-> H'] | [-> H']]; rewrite ?plus_IZR;
    apply Rabs_le; lra.
Qed.

Lemma round_int : forall k, rround (IZR k) = k.
Proof.
  intro k. destruct (round_cases (IZR k)) as [[-> _] | [_ H]].
  - apply floor_int.
  - rewrite floor_int in H. lra.
Qed.

Lemma round_mono : forall x y, x <= y -> (rround x <= rround y)%Z.
Proof.
  intros x y H. generalize (floor_mono x y H). intro F.
  destruct (Z.eq_dec (rfloor x) (rfloor y)) as [EQ | NE].
  - unfold rround. unfold rfloor in EQ. rewrite <- EQ.
    repeat destruct (Rlt_dec _ _); destruct (Z.even (Int_part x)); try lia; try lra.
  - destruct (round_cases x) as [[-> _] | [-> _]], (round_cases y) as [[-> _] | [-> _]]; lia.
Qed.

Lemma round_shift_even : forall x m, rround (x + IZR (2 * m)) = (rround x + 2 * m)%Z.
Proof.
  intros x m.
  assert (F : Int_part (x + IZR (2 * m)) = (Int_part x + 2 * m)%Z).
  { apply (floor_unique (x + IZR (2 * m)) (Int_part x + 2 * m)). rewrite plus_IZR.
    generalize (floor_bounds x). unfold rfloor. lra. }
  unfold rround. rewrite F, plus_IZR.
  replace (x + IZR (2 * m) - (IZR (Int_part x) + IZR (2 * m))) with (x - IZR (Int_part x)) by ring.
  rewrite Z.even_add_mul_2.
  destruct (Rlt_dec _ _); [reflexivity |]. destruct (Rlt_dec _ _); [lia |]. destruct (Z.even _); lia.
Qed.

Lemma round_round : forall x, rround (IZR (rround x)) = rround x.
Proof. intro x. apply round_int. Qed.

(* ---- forward values ---- *)
Lemma ste_floor_val : forall x, ste_floor x = IZR (rfloor x).
Proof. intro. unfold ste_floor. ring. Qed.
Lemma ste_ceil_val : forall x, ste_ceil x = IZR (rceil x).
Proof. intro. unfold ste_ceil. ring. Qed.
Lemma ste_round_val : forall x, ste_round x = IZR (rround x).
Proof. intro. unfold ste_round. ring. Qed.
Lemma ste_clip_val : forall x lo hi, ste_clip x lo hi = clip x lo hi.
Proof. intros. unfold ste_clip. ring. Qed.
Lemma grad_scale_val : forall x s, grad_scale x s = x.
Proof. intros. unfold grad_scale. ring. Qed.
Lemma kclip_val : forall x hi lo, kclip x hi lo = clip x lo hi.
Proof. reflexivity. Qed.

(* ---- clipping ---- *)
Definition zclip (k lo hi : Z) : Z := Z.min (Z.max k lo) hi.

Lemma clip_cases : forall x lo hi, lo <= hi ->
  (x <= lo /\ clip x lo hi = lo) \/ (lo <= x <= hi /\ clip x lo hi = x) \/ (hi <= x /\ clip x lo hi = hi).
Proof.
  intros x lo hi H. unfold clip, Rmin, Rmax.
  destruct (Rle_dec x lo), (Rle_dec _ hi); lra.
Qed.

Lemma clip_int : forall k lo hi, clip (IZR k) (IZR lo) (IZR hi) = IZR (zclip k lo hi).
Proof.
  intros k lo hi. unfold clip, zclip.
  assert (M : Rmax (IZR k) (IZR lo) = IZR (Z.max k lo)).
  { unfold Rmax. destruct (Rle_dec _ _) as [H | H].
    - apply le_IZR in H. rewrite Z.max_r by lia. reflexivity.
    - rewrite Z.max_l; [reflexivity |]. destruct (Z.le_gt_cases lo k); [assumption |].
      exfalso. apply H. apply IZR_le. lia. }
  rewrite M. unfold Rmin. destruct (Rle_dec _ _) as [H | H].
  - apply le_IZR in H. rewrite Z.min_l by lia. reflexivity.
  - rewrite Z.min_r; [reflexivity |]. destruct (Z.le_gt_cases hi (Z.max k lo)); [assumption |].
    exfalso. apply H. apply IZR_le. lia.
Qed.

Lemma clip_lipschitz : forall x y lo hi, Rabs (clip x lo hi - clip y lo hi) <= Rabs (x - y).
Proof.
  intros. unfold clip, Rmin, Rmax, Rabs.
  repeat (destruct (Rle_dec _ _) || destruct (Rcase_abs _)); lra.
Qed.

Lemma clip_mono : forall x y lo hi, x <= y -> clip x lo hi <= clip y lo hi.
Proof.
  intros. unfold clip, Rmin, Rmax. repeat destruct (Rle_dec _ _); lra.
Qed.

Lemma clip_scale : forall d x lo hi, 0 < d -> d * clip x lo hi = clip (d * x) (d * lo) (d * hi).
Proof.
  intros d x lo hi D. unfold clip.
  rewrite (RmaxRmult x lo d) by lra.
  unfold Rmin at 1. destruct (Rle_dec _ _) as [H | H].
  - unfold Rmin. destruct (Rle_dec _ _) as [H' | H']; [reflexivity |]. exfalso. apply H'. apply Rmult_le_compat_l; lra.
  - unfold Rmin. destruct (Rle_dec _ _) as [H' | H']; [| reflexivity].
    apply Rmult_le_reg_l in H'; lra.
Qed.

Lemma clip_plus : forall z x lo hi, clip x lo hi + z = clip (x + z) (lo + z) (hi + z).
Proof.
  intros. unfold clip, Rmin, Rmax. repeat destruct (Rle_dec _ _); lra.
Qed.

Lemma clamp_clip : forall lo hi x, lo <= hi -> clip x lo hi = clamp lo hi x.
Proof.
  intros lo hi x H. unfold clip, clamp, Rmin, Rmax.
  destruct (Rle_dec x lo), (Rlt_dec x lo), (Rlt_dec hi x), (Rle_dec _ hi); lra.
Qed.

Lemma round_clip : forall x lo hi, (lo <= hi)%Z ->
  rround (clip x (IZR lo) (IZR hi)) = zclip (rround x) lo hi.
Proof.
  intros x lo hi H. destruct (clip_cases x (IZR lo) (IZR hi) (IZR_le _ _ H)) as [[A ->] | [[A ->] | [A ->]]].
  - rewrite round_int. apply round_mono in A. rewrite round_int in A. unfold zclip. lia.
  - destruct A as [A B]. apply round_mono in A, B. rewrite round_int in A, B. unfold zclip. lia.
  - rewrite round_int. apply round_mono in A. rewrite round_int in A. unfold zclip. lia.
Qed.

(* ---- levels ---- *)
Lemma pow_IZR2 : forall k, 2 ^ k = IZR (2 ^ Z.of_nat k).
Proof. intro k. change 2 with (IZR 2) at 1. apply pow_IZR. Qed.

Lemma pos_pow : forall k, 0 < 2 ^ k.
Proof. intro. apply pow_lt. lra. Qed.

Lemma n_pos_IZR : forall n s, n_pos n s = IZR (2 ^ Z.of_nat (n - if s then 1 else 0)).
Proof. intros. unfold n_pos. apply pow_IZR2. Qed.

Lemma n_pos_pos : forall n s, 0 < n_pos n s.
Proof. intros. unfold n_pos. apply pos_pow. Qed.

Lemma max_int_IZR : forall n s, max_int n s = IZR (hi_level n s).
Proof.
  intros n s. unfold max_int, hi_level. rewrite n_pos_IZR, minus_IZR.
  replace (n - (if s then 1 else 0))%nat with (if s then n - 1 else n)%nat by (destruct s; lia). reflexivity.
Qed.

Lemma min_int_IZR : forall n s, min_int n s = IZR (lo_level n s).
Proof.
  intros n s. unfold min_int, lo_level. destruct s; [| reflexivity].
  rewrite n_pos_IZR, <- opp_IZR. reflexivity.
Qed.

Lemma levels_IZR : forall n, levels n = IZR (hi_level n false).
Proof. intro n. unfold levels, hi_level. rewrite pow_IZR2, minus_IZR. reflexivity. Qed.

Lemma pow2_split : forall n, (1 <= n)%nat -> (2 ^ Z.of_nat n = 2 * 2 ^ Z.of_nat (n - 1))%Z.
Proof.
  intros n H. replace (Z.of_nat n) with (Z.succ (Z.of_nat (n - 1))) by lia. apply Z.pow_succ_r. lia.
Qed.

Lemma pow2_pos : forall n, (1 <= 2 ^ Z.of_nat n)%Z.
Proof. intro n. generalize (Z.pow_pos_nonneg 2 (Z.of_nat n)). lia. Qed.

Lemma levels_split : forall n s, (1 <= n)%nat -> (hi_level n s - lo_level n s = hi_level n false)%Z.
Proof.
  intros n s H. unfold hi_level, lo_level. destruct s; [| lia]. rewrite (pow2_split n H). lia.
Qed.

Lemma level_order : forall n s, (lo_level n s <= 0 <= hi_level n s)%Z.
Proof.
  intros n s. unfold lo_level, hi_level. generalize (pow2_pos (n - 1)), (pow2_pos n). destruct s; lia.
Qed.

Lemma levels_pos : forall n, (1 <= n)%nat -> 1 <= levels n.
Proof.
  intros n H. rewrite levels_IZR. apply IZR_le. unfold hi_level. rewrite (pow2_split n H). generalize (pow2_pos (n - 1)). lia.
Qed.

(* ---- the range with zero on the grid ---- *)
Lemma fix_range_adjusted : forall d z n, (1 <= n)%nat -> 0 < d -> (0 <= z <= hi_level n false)%Z ->
  fix_range (- d * IZR z) (- d * IZR z + d * levels n) n = (- d * IZR z, - d * IZR z + d * levels n).
Proof.
  intros d z n Hn D [Z0 Z1]. generalize (levels_pos n Hn). intro L.
  apply IZR_le in Z0. apply IZR_le in Z1. rewrite <- levels_IZR in Z1.
  assert (A : - d * IZR z <= 0) by (apply Ropp_le_cancel; rewrite Ropp_0, Ropp_mult_distr_l, Ropp_involutive; apply Rmult_le_pos; lra).
  assert (B : 0 <= - d * IZR z + d * levels n) by (replace (- d * IZR z + d * levels n) with (d * (levels n - IZR z)) by ring; apply Rmult_le_pos; lra).
  unfold fix_range.
  destruct (Rlt_dec 0 (- d * IZR z)); [lra |]. destruct (Rlt_dec (- d * IZR z + d * levels n) 0); [lra |].
  replace ((- d * IZR z + d * levels n - - d * IZR z) / levels n) with d by (field; lra).
  replace (- d * IZR z / d) with (IZR (- z)) by (rewrite opp_IZR; field; lra).
  rewrite round_int, opp_IZR. f_equal; ring.
Qed.

(* the adjusted range starts a whole number of steps below zero *)
Lemma fix_range_spec : forall a b n, (1 <= n)%nat -> a < b ->
  exists d z, 0 < d /\ (0 <= z <= hi_level n false)%Z /\
    fix_range a b n = (- d * IZR z, - d * IZR z + d * levels n).
Proof.
  intros a b n Hn AB. generalize (levels_pos n Hn). intro L.
  unfold fix_range. destruct (Rlt_dec 0 a) as [P | P].
  - exists (b / levels n), 0%Z. split; [apply Rdiv_lt_0_compat; lra |]. split; [generalize (level_order n false); lia |].
    destruct (Rlt_dec b 0); [lra |]. f_equal; [ring |]. field. lra.
  - destruct (Rlt_dec b 0) as [M | M].
    + exists (- a / levels n), (hi_level n false). split; [apply Rdiv_lt_0_compat; lra |].
      split; [generalize (level_order n false); lia |]. rewrite <- levels_IZR. f_equal; field; lra.
    + set (d := (b - a) / levels n).
      assert (D : 0 < d) by (unfold d; apply Rdiv_lt_0_compat; lra).
      assert (EA : b - a = d * levels n) by (unfold d; field; lra).
      exists d, (- rround (a / d))%Z. split; [exact D |]. split.
      * assert (U : a / d <= 0) by (apply Rmult_le_reg_r with d; [lra |]; replace (a / d * d) with a by (field; lra); lra).
        assert (W : - levels n <= a / d).
        { apply Rmult_le_reg_r with d; [lra |]. replace (a / d * d) with a by (field; lra). lra. }
        apply round_mono in U. rewrite (round_int 0) in U.
        rewrite levels_IZR, <- opp_IZR in W. apply round_mono in W. rewrite round_int in W. lia.
      * rewrite opp_IZR. f_equal; [ring |]. rewrite EA. ring.
Qed.

(* quantizing on an adjusted range *)
Lemma infer_uniform_on : forall d z n x a b, (1 <= n)%nat -> 0 < d ->
  fix_range a b n = (- d * IZR z, - d * IZR z + d * levels n) ->
  infer_uniform a b n x = d * IZR (zclip (rround (x / d + IZR z)) 0 (hi_level n false)) - d * IZR z.
Proof.
  intros d z n x a b Hn D E. generalize (levels_pos n Hn). intro L. unfold infer_uniform. rewrite E. cbn [fst snd].
  replace ((- d * IZR z + d * levels n - - d * IZR z) / levels n) with d by (field; lra).
  replace ((clip x (- d * IZR z) (- d * IZR z + d * levels n) - - d * IZR z) / d)
    with (clip (x / d + IZR z) (IZR 0) (IZR (hi_level n false))).
  - rewrite round_clip by (generalize (level_order n false); lia). ring.
  - rewrite <- levels_IZR. apply (Rmult_eq_reg_l d); [| lra]. rewrite clip_scale by lra.
    match goal with |- _ = d * (?u / d) => replace (d * (u / d)) with u by (field; lra) end.
    unfold Rminus. rewrite clip_plus. f_equal; [field; lra | ring | ring].
Qed.

Lemma symmetric_range : forall t n (s : bool), (1 <= n)%nat -> 0 < t ->
  fix_range (if s then - t else 0) (t - delta t n s) n
  = (- delta t n s * IZR (- lo_level n s), - delta t n s * IZR (- lo_level n s) + delta t n s * levels n).
Proof.
  intros t n s Hn T. set (d := delta t n s).
  assert (D : 0 < d) by (unfold d, delta; apply Rdiv_lt_0_compat; [lra | apply n_pos_pos]).
  assert (ET : t = d * n_pos n s) by (unfold d, delta; field; generalize (n_pos_pos n s); lra).
  assert (EA : (if s then - t else 0) = - d * IZR (- lo_level n s)).
  { rewrite opp_IZR, <- min_int_IZR. unfold min_int. destruct s; [rewrite ET; ring | ring]. }
  assert (EB : t - d = - d * IZR (- lo_level n s) + d * levels n).
  { rewrite levels_IZR, <- (levels_split n s Hn), minus_IZR, opp_IZR, <- max_int_IZR. unfold max_int. rewrite ET. ring. }
  rewrite EA, EB. apply fix_range_adjusted; [assumption | assumption |].
  generalize (level_order n s), (levels_split n s Hn). lia.
Qed.

Lemma infer_symmetric_on : forall t n s x, (1 <= n)%nat -> (s = true -> (2 <= n)%nat) -> 0 < t ->
  infer_symmetric t n s x = delta t n s * IZR (zclip (rround (x / delta t n s)) (lo_level n s) (hi_level n s)).
Proof.
  intros t n s x Hn H2 T.
  assert (D : 0 < delta t n s) by (unfold delta; apply Rdiv_lt_0_compat; [lra | apply n_pos_pos]).
  unfold infer_symmetric. rewrite (infer_uniform_on _ _ n x _ _ Hn D (symmetric_range t n s Hn T)).
  rewrite <- (levels_split n s Hn).
  assert (EV : exists m, (- lo_level n s = 2 * m)%Z).
  { unfold lo_level. destruct s; [| exists 0%Z; lia]. exists (2 ^ Z.of_nat (n - 1 - 1))%Z.
    specialize (H2 eq_refl). rewrite Z.opp_involutive. apply pow2_split. lia. }
  destruct EV as [m EV]. rewrite EV, round_shift_even, <- Rmult_minus_distr_l, <- minus_IZR. do 2 f_equal.
  unfold zclip. lia.
Qed.

(* grid points are left alone, for every number of bits *)
Lemma infer_symmetric_grid : forall t n s k, (1 <= n)%nat -> 0 < t -> (lo_level n s <= k <= hi_level n s)%Z ->
  infer_symmetric t n s (delta t n s * IZR k) = delta t n s * IZR k.
Proof.
  intros t n s k Hn T K.
  assert (D : 0 < delta t n s) by (unfold delta; apply Rdiv_lt_0_compat; [lra | apply n_pos_pos]).
  unfold infer_symmetric. rewrite (infer_uniform_on _ _ n _ _ _ Hn D (symmetric_range t n s Hn T)).
  replace (delta t n s * IZR k / delta t n s + IZR (- lo_level n s)) with (IZR (k - lo_level n s))
    by (rewrite minus_IZR, opp_IZR; field; lra).
  rewrite round_int, <- (levels_split n s Hn), <- Rmult_minus_distr_l, <- minus_IZR. do 2 f_equal.
  unfold zclip. lia.
Qed.

(* ---- powers of two ---- *)
Lemma ln2_pos : 0 < ln 2.
Proof. rewrite <- ln_1. apply ln_increasing; lra. Qed.

Lemma powerRZ_exp : forall k, powerRZ 2 k = exp (IZR k * ln 2).
Proof. intro k. rewrite powerRZ_Rpower by lra. reflexivity. Qed.

Lemma rlog2_pot : forall k, rlog2 (powerRZ 2 k) = IZR k.
Proof. intro k. unfold rlog2. rewrite powerRZ_exp, ln_exp. generalize ln2_pos. intro. field. lra. Qed.

Lemma exp_rlog2 : forall t, 0 < t -> exp (rlog2 t * ln 2) = t.
Proof. intros t T. unfold rlog2. generalize ln2_pos. intro. replace (ln t / ln 2 * ln 2) with (ln t) by (field; lra). apply exp_ln. exact T. Qed.

Lemma pot_up_fixed : forall t, is_pot t -> pot_up t = t.
Proof.
  intros t [k ->]. unfold pot_up. rewrite rlog2_pot. f_equal. apply ceil_unique. lra.
Qed.

Lemma pot_up_pot : forall t, is_pot (pot_up t).
Proof. intro t. unfold pot_up, is_pot. exists (rceil (rlog2 t)). reflexivity. Qed.

Lemma pot_up_pos : forall t, 0 < pot_up t.
Proof. intro t. unfold pot_up. apply powerRZ_lt. lra. Qed.

Lemma exp_le : forall x y, x <= y -> exp x <= exp y.
Proof. intros x y [H | ->]; [left; apply exp_increasing; exact H | right; reflexivity]. Qed.

Lemma pot_up_range : forall t, 0 < t -> t <= pot_up t < 2 * t.
Proof.
  intros t T. unfold pot_up. rewrite powerRZ_exp. destruct (ceil_bounds (rlog2 t)) as [C1 C2]. generalize ln2_pos. intro L.
  split.
  - rewrite <- (exp_rlog2 t T) at 1. apply exp_le. apply Rmult_le_compat_r; lra.
  - rewrite <- (exp_rlog2 t T) at 2. rewrite <- (exp_ln 2) at 2 by lra. rewrite <- exp_plus.
    apply exp_increasing. replace (ln 2 + rlog2 t * ln 2) with ((1 + rlog2 t) * ln 2) by ring.
    apply Rmult_lt_compat_r; lra.
Qed.

Lemma pot_max_up : forall t, pot_max t = pot_up (Rmax t min_threshold).
Proof. reflexivity. Qed.

Lemma min_threshold_pos : 0 < min_threshold.
Proof. unfold min_threshold. apply Rinv_0_lt_compat. lra. Qed.

Lemma pot_max_pos : forall t, 0 < pot_max t.
Proof. intro t. rewrite pot_max_up. apply pot_up_pos. Qed.

Lemma pot_max_pot : forall t, is_pot (pot_max t).
Proof. intro t. rewrite pot_max_up. apply pot_up_pot. Qed.

Lemma pot_max_fixed : forall t, is_pot t -> min_threshold <= t -> pot_max t = t.
Proof.
  intros t P M. rewrite pot_max_up. rewrite Rmax_left by exact M. apply pot_up_fixed. exact P.
Qed.
