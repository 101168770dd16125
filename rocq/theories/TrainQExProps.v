(* TrainQExProps.v -- instances and refutations for C66 and C67. *)
From Coq Require Import Lra Lia.
From Verif Require Import TrainQModel TrainQSpec TrainQProofs SoftRoundProps TrainExportProps.
Local Open Scope R_scope.

Lemma round_unique : forall x k, IZR k - 1 / 2 < x < IZR k + 1 / 2 -> rround x = k.
Proof.
  intros x k H. generalize (round_bounds x). intro B. apply Rabs_le_inv in B || (unfold Rabs in B; destruct (Rcase_abs _)).
  all: assert (A1 : (rround x < k + 1)%Z) by (apply lt_IZR; rewrite plus_IZR; lra).
  all: assert (A2 : (k < rround x + 1)%Z) by (apply lt_IZR; rewrite plus_IZR; lra).
  all: lia.
Qed.

Lemma pot_up_val : forall t k, powerRZ 2 (k - 1) < t <= powerRZ 2 k -> pot_up t = powerRZ 2 k.
Proof.
  intros t k [H1 H2]. generalize ln2_pos. intro L.
  assert (T : 0 < t) by (apply Rlt_trans with (powerRZ 2 (k - 1)); [apply powerRZ_lt; lra | exact H1]).
  unfold pot_up. f_equal. apply ceil_unique. rewrite powerRZ_exp in H1, H2. rewrite <- (exp_rlog2 t T) in H1, H2. split.
  - apply exp_lt_inv in H1. apply Rmult_lt_reg_r in H1; [| exact L]. rewrite minus_IZR in H1. lra.
  - destruct H2 as [H2 | H2]; [apply exp_lt_inv in H2; apply Rmult_lt_reg_r in H2; lra |].
    apply exp_inv in H2. apply Rmult_eq_reg_r in H2; lra.
Qed.

(* a power-of-two threshold in 4 bits: the hypotheses of the start theorems hold, and the weight 5/16 of threshold 1 starts at
   itself *)
Example start_ex : symmetric_call true true true 4 1 (init_symmetric (5 / 16) 1 4) initial_scale (5 / 16) = 5 / 16.
Proof.
  rewrite (soft_rounding_starts_at_weight false true true 4 1 (5 / 16)); [| lia | lra |].
  - unfold clamp. destruct (Rlt_dec _ _); [lra |]. destruct (Rlt_dec _ _) as [H | H]; [| reflexivity]. exfalso.
    replace (2 ^ (4 - 1)) with 8 in H by (simpl; ring). lra.
  - intros _. split; [exists 0%Z; reflexivity | unfold min_threshold; lra].
Qed.

(* a range with zero on its grid *)
Example adjusted_ex : fix_range (-1) 2 2 = (-1, 2) /\ -1 < 2.
Proof.
  split; [| lra]. generalize (fix_range_adjusted 1 1 2). unfold levels, hi_level. simpl. intro H.
  replace (- (1) * 1) with (-1) in H by ring. replace (-1 + 1 * (2 * (2 * 1) - 1)) with 2 in H by ring. apply H; [lia | lra | lia].
Qed.

(* two layers, a settled and an unsettled one *)
Example regularization_ex : forall r, regularization 20 (1 / 2) [[alpha_of 0; alpha_of 1]; [alpha_of (1 / 2)]] [1; 2] = Ok r -> 0 < r.
Proof.
  intros r H. destruct (regularization_zero_iff_settled 20 (1 / 2) [[alpha_of 0; alpha_of 1]; [alpha_of (1 / 2)]] [1; 2] r ltac:(lra) ltac:(lra)) as [N I].
  - intros x [<- | [<- | []]]; lra.
  - exact H.
  - destruct N as [N | N]; [exact N |]. exfalso. symmetry in N. destruct (proj1 I N [alpha_of (1 / 2)] (alpha_of (1 / 2))) as [A | A];
      [right; left; reflexivity | left; reflexivity | |]; rewrite target_of_rest in A; lra.
Qed.

(* FINDING (gptq/pytorch/quantizer/soft_rounding/uniform_soft_quantizer.py L124-127): the initial soft targets are computed on the
   stored range, the weights are quantized on the range moved to include zero; unless the stored range was adjusted already, training
   does not start at the float weight.  Here 2 bits on [-0.7, 2.3]: the weight 0 starts at 0.7 *)
Theorem uniform_start_refuted : exists n a b w, (1 <= n)%nat /\ a < b /\ a <= w <= b /\
  uniform_call true n a b (init_uniform w a b n) w <> w.
Proof.
  exists 2%nat, (-7 / 10), (23 / 10), 0. split; [lia |]. split; [lra |]. split; [lra |].
  assert (L : levels 2 = 3) by (unfold levels; simpl; ring).
  assert (F : fix_range (-7 / 10) (23 / 10) 2 = (- (1) * IZR 1, - (1) * IZR 1 + 1 * levels 2)).
  { unfold fix_range. rewrite L. destruct (Rlt_dec 0 (-7 / 10)); [lra |]. destruct (Rlt_dec (23 / 10) 0); [lra |].
    replace ((23 / 10 - -7 / 10) / 3) with 1 by field.
    rewrite (round_unique (-7 / 10 / 1) (-1)) by lra. f_equal; lra. }
  unfold uniform_call. rewrite (soft_uniform_val 1 1 2 0 _ (-7 / 10) (23 / 10)); [| lia | lra | exact F].
  unfold aux_var, init_uniform, delta_uniform. rewrite L.
  replace ((0 - -7 / 10) / ((23 / 10 - -7 / 10) / 3)) with (7 / 10) by field.
  assert (C : clip (7 / 10) 0 3 = 7 / 10) by (unfold clip; rewrite Rmax_left by lra; apply Rmin_left; lra).
  rewrite C. assert (RE : rest_of (7 / 10) = 7 / 10) by (unfold rest_of; rewrite (floor_unique (7 / 10) 0) by lra; lra).
  rewrite RE, target_of_rest by lra. rewrite (floor_unique ((0 - - (1) * 1) / 1) 1) by lra.
  rewrite <- levels_IZR, L. assert (C' : clip (1 + 7 / 10) 0 3 = 17 / 10) by (unfold clip; rewrite Rmax_left by lra; rewrite Rmin_left; lra).
  rewrite C'. lra.
Qed.
Print Assumptions uniform_start_refuted.

(* FINDING (gptq/keras/quantizer/soft_rounding/uniform_soft_quantizer.py L146): the start is neither the float weight nor the nearest
   grid point, even on an adjusted range.  Here 2 bits on [-1, 2]: the weight 3/4 starts, soft and hard, at 0 *)
Theorem keras_uniform_start_refuted : exists n a b w, (1 <= n)%nat /\ a < b /\ fix_range a b n = (a, b) /\ a <= w <= b /\
  uniform_call true n a b (init_uniform_keras w a b n) w <> w /\
  ~ nearest ((b - a) / (2 ^ n - 1)) a 0 (hi_level n false) w (uniform_call false n a b (init_uniform_keras w a b n) w).
Proof.
  exists 2%nat, (-1), 2, (3 / 4). destruct adjusted_ex as [F _]. split; [lia |]. split; [lra |]. split; [exact F |]. split; [lra |].
  destruct (keras_uniform_start_floors 2 (-1) 2 (3 / 4)) as [_ K]; [lia | lra | exact F | lra |].
  assert (S3 : (2 - -1) / (2 ^ 2 - 1) = 1) by (simpl; field).
  assert (Q : forall tr, uniform_call tr 2 (-1) 2 (init_uniform_keras (3 / 4) (-1) 2 2) (3 / 4) <= 3 / 4 /\
    0 <= uniform_call tr 2 (-1) 2 (init_uniform_keras (3 / 4) (-1) 2 2) (3 / 4)).
  { intro tr. destruct (K tr) as [K1 K2]. split; [exact K1 |]. apply K2; [| lra]. rewrite S3. exists 1%Z.
    split; [unfold hi_level; simpl; lia | simpl; ring]. }
  assert (Z0 : forall tr, uniform_call tr 2 (-1) 2 (init_uniform_keras (3 / 4) (-1) 2 2) (3 / 4) = 0).
  { intro tr. destruct (keras_uniform_start_floors 2 (-1) 2 (3 / 4)) as [ST _]; [lia | lra | exact F | lra |].
    assert (AV : aux_var tr (init_uniform_keras (3 / 4) (-1) 2 2) = IZR 0).
    { unfold aux_var. rewrite ST. destruct tr; [reflexivity |]. destruct (Rle_dec _ _); [lra | reflexivity]. }
    unfold uniform_call. rewrite AV.
    rewrite (soft_uniform_val 1 1 2 (3 / 4) _ (-1) 2); [| lia | lra |].
    - rewrite <- plus_IZR, clip_int. rewrite (floor_unique ((3 / 4 - - (1) * 1) / 1) 1) by lra.
      replace (zclip (1 + 0) 0 (hi_level 2 false)) with 1%Z by reflexivity. ring.
    - rewrite F. unfold levels. simpl. f_equal; ring. }
  split; [rewrite Z0; lra |]. intros [_ N]. rewrite Z0 in N. rewrite S3 in N. specialize (N 1).
  assert (on_grid 1 (-1) 0 (hi_level 2 false) 1) by (exists 2%Z; split; [unfold hi_level; simpl; lia | simpl; ring]).
  specialize (N H). unfold Rabs in N. repeat destruct (Rcase_abs _); lra.
Qed.
Print Assumptions keras_uniform_start_refuted.

(* FINDING (gptq/pytorch/quantizer/ste_rounding/symmetric_ste.py L125): the auxiliary variable has the shape of the thresholds, so all
   the weights of a channel are shifted together; shifts that Keras reaches are out of reach.  Here 3 bits, threshold 4: the weights 0
   and 1 cannot become 1 and 0 *)
Theorem ste_pytorch_shared_shift_refuted : exists n t ws target,
  (exists aux, ste_channel true false 1 n t aux ws = target) /\ ~ (exists aux, ste_channel false false 1 n t aux ws = target).
Proof.
  exists 3%nat, 4, [0; 1], [1; 0].
  assert (D : delta 4 3 true = 1) by (unfold delta, n_pos; simpl; field).
  assert (V : forall keras aux w, ste_call keras true false 1 3 4 aux w = IZR (zclip (rround (IZR (rround w) + clip aux (-1) 1)) (-4) 3)).
  { intros keras aux w. assert (E : ste_call keras true false 1 3 4 aux w = ste_call false true false 1 3 4 aux w)
      by (destruct keras; [apply ste_frameworks_agree | reflexivity]).
    rewrite E. unfold ste_call. rewrite perturbed_val. unfold used. rewrite D.
    replace (w / 1) with w by field. replace (- (1 * 1)) with (-1) by ring. replace (1 * 1) with 1 by ring.
    replace (clip aux (-1) 1 / 1) with (clip aux (-1) 1) by field.
    unfold lo_level, hi_level. simpl Z.of_nat. rewrite Rmult_1_l. reflexivity. }
  split.
  - exists (fun i => match i with O => 1 | _ => -1 end). unfold ste_channel. cbn [map combine seq length fst snd]. rewrite !V.
    assert (C1 : clip 1 (-1) 1 = IZR 1) by (unfold clip, Rmin, Rmax; repeat destruct (Rle_dec _ _); lra).
    assert (C2 : clip (-1) (-1) 1 = IZR (-1)) by (unfold clip, Rmin, Rmax; repeat destruct (Rle_dec _ _); lra).
    rewrite C1, C2, !round_int, <- !plus_IZR, !round_int. reflexivity.
  - intros [aux H]. unfold ste_channel in H. cbn [map combine seq length fst snd] in H. rewrite !V in H. injection H as H1 H2.
    rewrite !round_int in H1, H2.
    apply eq_IZR in H1. apply eq_IZR in H2. set (c := clip (aux 0%nat) (-1) 1) in *.
    assert (M : (rround (0 + c) <= rround (1 + c))%Z) by (apply round_mono; lra). unfold zclip in H1, H2. lia.
Qed.
Print Assumptions ste_pytorch_shared_shift_refuted.

(* FINDING (symmetric_ste.py L176-181, Keras L163-168): with one threshold for the tensor the limit max_lsbs_change is not passed on;
   a weight that must not move moves by a step *)
Theorem ste_per_tensor_limit_refuted : forall keras, exists n t aux w,
  ste_call keras false false 0 n t aux w <> infer_symmetric (ste_export t) n true w /\
  ste_call keras true false 0 n t aux w = infer_symmetric (ste_export t) n true w.
Proof.
  intro keras. exists 3%nat, 4, 1, 0. unfold ste_export.
  assert (D : delta 4 3 true = 1) by (unfold delta, n_pos; simpl; field).
  rewrite infer_symmetric_on; [| lia | auto | lra]. rewrite D. replace (0 / 1) with (IZR 0) by field. rewrite round_int.
  assert (V : forall pc, ste_call keras pc false 0 3 4 1 0 = IZR (zclip (rround (clip 1 (- if pc then 0 else 1) (if pc then 0 else 1))) (-4) 3)).
  { intro pc. assert (E : ste_call keras pc false 0 3 4 1 0 = ste_call false pc false 0 3 4 1 0)
      by (destruct keras; [apply ste_frameworks_agree | reflexivity]).
    rewrite E. unfold ste_call. rewrite perturbed_val. unfold used. rewrite D.
    replace (0 / 1) with (IZR 0) by field. rewrite round_int.
    replace (if pc then 0 else max_lsb_change) with (if pc then 0 else 1) by reflexivity.
    replace (1 * (if pc then 0 else 1)) with (if pc then 0 else 1) by ring.
    unfold lo_level, hi_level. simpl Z.of_nat. rewrite Rmult_1_l. do 3 f_equal. field. }
  rewrite !V. cbv iota.
  assert (C1 : clip 1 (- (1)) 1 = IZR 1) by (unfold clip, Rmin, Rmax; repeat destruct (Rle_dec _ _); lra).
  assert (C2 : clip 1 (- 0) 0 = IZR 0) by (unfold clip, Rmin, Rmax; repeat destruct (Rle_dec _ _); lra).
  rewrite C1, C2, !round_int. change (zclip 1 (-4) 3) with 1%Z. change (zclip 0 (-4) 3) with 0%Z.
  change (zclip 0 (lo_level 3 true) (hi_level 3 true)) with 0%Z. split; lra.
Qed.
Print Assumptions ste_per_tensor_limit_refuted.

(* FINDING (convert2inferable of qat/pytorch/quantizer/lsq/symmetric_lsq.py L107-113 and of the activation quantizers lsq L102-107,
   ste L101-106): with a power-of-two method the threshold is trained freely but exported rounded up to a power of two, so the exported
   model computes other values than the trained one.  Here 2 bits, trained threshold 3: 1.5 stays 1.5 in training and becomes 2 *)
Theorem trained_pot_conversion_refuted : forall q scale,
  In q [T_lsq_weight true 3; T_lsq_act true true 3; T_ste_act true true 3] ->
  exists n x, tq_call q n scale x = x /\ iq_call (convert q n) n x <> x.
Proof.
  intros q scale Q. exists 2%nat, (3 / 2).
  assert (P : pot_up 3 = 4) by (rewrite (pot_up_val 3 2); simpl; lra).
  assert (D3 : delta 3 2 true = 3 / 2) by (unfold delta, n_pos; simpl; field).
  assert (D4 : delta 4 2 true = 2) by (unfold delta, n_pos; simpl; field).
  assert (V : tq_call q 2 scale (3 / 2) = symmetric_quantizer (3 / 2) 3 2 true).
  { destruct Q as [<- | [<- | [<- | []]]]; cbn [tq_call]; rewrite ?symmetric_lsq_val; reflexivity. }
  assert (W : iq_call (convert q 2) 2 (3 / 2) = infer_symmetric 4 2 true (3 / 2)).
  { destruct Q as [<- | [<- | [<- | []]]]; cbn [convert iq_call]; rewrite P; reflexivity. }
  rewrite V, W, symmetric_quantizer_val, D3, infer_symmetric_on, D4; [| lia | lia | lra].
  rewrite (round_unique (3 / 2 / (3 / 2)) 1) by lra. rewrite (round_unique (3 / 2 / 2) 1) by lra.
  change (zclip 1 (lo_level 2 true) (hi_level 2 true)) with 1%Z. lra.
Qed.
Print Assumptions trained_pot_conversion_refuted.

(* the number of bits matters: with one signed bit a value half way between the two levels is rounded up by the trained quantizer and
   down by quantize_tensor *)
Theorem one_bit_conversion_refuted : exists t x, 0 < t /\
  iq_call (convert (T_ste_weight false t) 1) 1 x <> tq_call (T_ste_weight false t) 1 1 x.
Proof.
  exists 1, (- (1 / 2)). split; [lra |]. cbn [convert iq_call tq_call].
  assert (D : delta 1 1 true = 1) by (unfold delta, n_pos; simpl; field).
  unfold infer_symmetric. rewrite (infer_uniform_on 1 1 1 (- (1 / 2)) (- (1)) (1 - delta 1 1 true)); [| lia | lra |].
  - rewrite ste_clip_val, ste_round_val, min_int_IZR, max_int_IZR, clip_int.
    replace (1 / n_pos 1 true) with 1 by (unfold n_pos; simpl; field).
    assert (R1 : rround (- (1 / 2) / 1 + 1) = 0%Z).
    { unfold rround. change Int_part with rfloor. rewrite (floor_unique (- (1 / 2) / 1 + 1) 0) by lra.
      destruct (Rlt_dec _ _); [reflexivity |]. destruct (Rlt_dec _ _); [lra | reflexivity]. }
    assert (R2 : rround (- (1 / 2) / 1) = 0%Z).
    { unfold rround. change Int_part with rfloor. rewrite (floor_unique (- (1 / 2) / 1) (-1)) by lra.
      destruct (Rlt_dec _ _); [lra |]. destruct (Rlt_dec _ _); [lra | reflexivity]. }
    rewrite R1, R2. change (zclip 0 0 (hi_level 1 false)) with 0%Z.
    change (zclip 0 (lo_level 1 true) (hi_level 1 true)) with 0%Z. lra.
  - rewrite D. generalize (symmetric_range 1 1 true). rewrite D. unfold lo_level. simpl. intro H. apply H; [lia | lra].
Qed.
Print Assumptions one_bit_conversion_refuted.
