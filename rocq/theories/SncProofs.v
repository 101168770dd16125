(* SncProofs.v -- the sums of a kernel, and padding by a node of its own. *)
From Coq Require Import FunctionalExtensionality.
From Verif Require Import LinNode LinSpec BnModel BnSpec LinProofs BnProofs LinGraph GraphModel SncModel SncSpec.

(* the channels of one group *)
Lemma rsum_group g ip q (f : nat -> R) : (0 < ip)%nat -> (q < g)%nat -> rsum (g * ip) (fun i => if Nat.eqb (i / ip) q then f (i mod ip)%nat else 0) = rsum ip f.
Proof.
  intros P. revert q. induction g as [|g IH]; intros q Q; [lia|]. replace (S g * ip)%nat with (g * ip + ip)%nat by lia. rewrite rsum_add. destruct (Nat.eq_dec q g) as [->|N].
  - rewrite rsum_zero.
    + rewrite Rplus_0_l. apply rsum_ext. intros k K. destruct (mulmod g k ip K) as [-> ->]. rewrite Nat.eqb_refl. reflexivity.
    + intros k K. rewrite (proj2 (Nat.eqb_neq _ _)); [reflexivity|]. intro E. assert ((k / ip < g)%nat) by (apply Nat.div_lt_upper_bound; lia). lia.
  - rewrite IH by lia. rewrite (rsum_zero ip (fun k => if Nat.eqb ((g * ip + k) / ip) q then f ((g * ip + k) mod ip)%nat else 0)); [ring|]. intros k K. destruct (mulmod g k ip K) as [-> ->]. rewrite (proj2 (Nat.eqb_neq g q)) by lia. reflexivity.
Qed.
Definition weight_total (l : lin) (o : nat) : R := rsum (fst (ksize l)) (fun h => rsum (snd (ksize l)) (fun w => rsum (l_in l) (fun i => weight l h w i o))).
Lemma flatten_1 a n : shp a = [n] -> shp (flatten a) = [n] /\ forall o, (o < n)%nat -> at_ (flatten a) [o] = at_ a [o].
Proof.
  intro H. unfold flatten, reshape_to. rewrite H. cbn -[Nat.div Nat.modulo]. rewrite Nat.mul_1_r. split; [reflexivity|]. intros o O. rewrite Nat.mul_1_r, Nat.add_0_r, Nat.div_1_r. reflexivity.
Qed.
Lemma flatten_2 a n m : shp a = [n; m] -> shp (flatten a) = [n * m]%nat /\ forall o, (o < n * m)%nat -> at_ (flatten a) [o] = at_ a [o / m; o mod m]%nat.
Proof.
  intro H. unfold flatten, reshape_to. rewrite H. cbn -[Nat.div Nat.modulo Nat.mul]. rewrite !Nat.mul_1_r. split; [reflexivity|]. intros o O. rewrite ?Nat.mul_1_r, ?Nat.add_0_r, ?Nat.mul_1_r, ?Nat.div_1_r. reflexivity.
Qed.
Lemma kernel_sums l s : lin_wf l -> corrected_kind (l_kind l) = true -> let c := flatten (nmap (Rmult s) (nsum (sum_axes l) (l_kernel l))) in
  shp c = [l_out l] /\ forall o, (o < l_out l)%nat -> at_ c [o] = s * weight_total l o.
Proof.
  intros W K. pose proof (ksize_shape l W) as SH. unfold kernel_shape in SH. cbv zeta. unfold sum_axes, weight_total. set (kh := fst (ksize l)) in *. set (kw := snd (ksize l)) in *.
  pose proof (lw_in l W) as I0. pose proof (lw_out l W) as O0. pose proof (lw_groups l W) as G0. pose proof (lw_div_in l W) as DI. pose proof (lw_div_out l W) as DO.
  assert (IP : (0 < in_per l)%nat) by (destruct (in_per l); lia). assert (OP : (0 < out_per l)%nat) by (destruct (out_per l); lia).
  assert (GR : forall o, (o < l_out l)%nat -> (o / out_per l < l_groups l)%nat) by (intros o O; apply Nat.div_lt_upper_bound; lia).
  destruct (l_kind l) eqn:KD; try discriminate; rewrite SH; cbn [length seq out_axis in_axis filter Nat.eqb negb].
  - (* K_conv *) set (a := nmap _ _). assert (SA : shp a = [l_out l]) by (unfold a; cbn; rewrite SH; reflexivity). destruct (flatten_1 a _ SA) as [F1 F2]. split; [exact F1|]. intros o O. rewrite F2 by exact O. unfold a. cbn [nmap nsum at_ shp]. rewrite SH. cbn. f_equal.
    apply rsum_ext. intros h _. apply rsum_ext. intros w _. unfold weight. rewrite KD. replace (rsum (l_in l)) with (rsum (l_groups l * in_per l)) by congruence. symmetry. apply (rsum_group (l_groups l) (in_per l) (o / out_per l) (fun j => at_ (l_kernel l) [h; w; j; o])); [exact IP|apply GR, O].
  - (* K_dw *) pose proof (lw_dw l W KD) as DW. set (mult := (l_out l / l_in l)%nat) in *. assert (M0 : (0 < mult)%nat) by (destruct mult; lia). set (a := nmap _ _). assert (SA : shp a = [l_in l; mult]) by (unfold a; cbn; rewrite SH; reflexivity). destruct (flatten_2 a _ _ SA) as [F1 F2]. split; [rewrite F1; congruence|]. intros o O. rewrite F2 by lia. unfold a. cbn [nmap nsum at_ shp]. rewrite SH. cbn -[Nat.div Nat.modulo]. f_equal.
    apply rsum_ext. intros h _. apply rsum_ext. intros w _. assert ((o / mult < l_in l)%nat) by (apply Nat.div_lt_upper_bound; lia).
    rewrite (rsum_one (l_in l) (o / mult)%nat); [unfold weight; rewrite KD; fold mult; rewrite Nat.eqb_refl; reflexivity|assumption|]. intros k Kk N. unfold weight. rewrite KD. fold mult. rewrite (proj2 (Nat.eqb_neq _ _) N). reflexivity.
  - (* K_dense *) set (a := nmap _ _). assert (SA : shp a = [l_out l]) by (unfold a; cbn; rewrite SH; reflexivity). destruct (flatten_1 a _ SA) as [F1 F2]. split; [exact F1|]. intros o O. rewrite F2 by exact O. unfold a. cbn [nmap nsum at_ shp]. rewrite SH. cbn. f_equal.
    replace kh with 1%nat by (unfold kh, ksize; rewrite KD; reflexivity). replace kw with 1%nat by (unfold kw, ksize; rewrite KD; reflexivity). cbn. rewrite !Rplus_0_l. apply rsum_ext. intros i _. unfold weight. rewrite KD. reflexivity.
  - (* T_conv *) set (a := nmap _ _). assert (SA : shp a = [l_out l]) by (unfold a; cbn; rewrite SH; reflexivity). destruct (flatten_1 a _ SA) as [F1 F2]. split; [exact F1|]. intros o O. rewrite F2 by exact O. unfold a. cbn [nmap nsum at_ shp]. rewrite SH. cbn. f_equal.
    rewrite rsum_swap. apply rsum_ext. intros h _. rewrite rsum_swap. apply rsum_ext. intros w _. unfold weight. rewrite KD. replace (rsum (l_in l)) with (rsum (l_groups l * in_per l)) by congruence. symmetry. apply (rsum_group (l_groups l) (in_per l) (o / out_per l) (fun j => at_ (l_kernel l) [o; j; h; w])); [exact IP|apply GR, O].
  - (* T_linear *) set (a := nmap _ _). assert (SA : shp a = [l_out l]) by (unfold a; cbn; rewrite SH; reflexivity). destruct (flatten_1 a _ SA) as [F1 F2]. split; [exact F1|]. intros o O. rewrite F2 by exact O. unfold a. cbn [nmap nsum at_ shp]. rewrite SH. cbn. f_equal.
    replace kh with 1%nat by (unfold kh, ksize; rewrite KD; reflexivity). replace kw with 1%nat by (unfold kw, ksize; rewrite KD; reflexivity). cbn. rewrite !Rplus_0_l. apply rsum_ext. intros i _. unfold weight. rewrite KD. reflexivity.
Qed.
(* the corrected bias *)
Lemma bias_correction_spec l s : lin_wf l -> corrected_kind (l_kind l) = true -> exists b, op2d_bias_correction l s = Ok (set_weights l (l_kernel l) (Some b) true) /\ shp b = [l_out l] /\ forall o, (o < l_out l)%nat -> at_ b [o] = bias_val l o - s * weight_total l o.
Proof.
  intros W K. destruct (kernel_sums l s W K) as [C1 C2]. set (c := flatten _) in *.
  destruct (isvec_bop (l_out l) Rminus (opt (l_bias l) 0) c _ _ (isvec_opt _ _ 0 (wf_bias l W)) (isvec_of _ c C1)) as (r & R1 & R2 & R3).
  unfold op2d_bias_correction. fold c. rewrite R1. cbn [bind]. exists r. assert (SR : shp r = [l_out l]) by (apply R3; auto). split; [|split; [exact SR|]].
  - f_equal. f_equal. pose proof (lw_bias l W) as LB. destruct (l_bias l); [apply LB|reflexivity].
  - intros o O. rewrite (isvec_at _ _ _ R2 SR o O), C2, (bias_val_par l o W) by exact O. reflexivity.
Qed.
(* if every kernel position reads an input position at p, adding s to the input adds s times the sum of the weights *)
Lemma lin_val_shift l b s hw x y o p : (forall h w, (h < fst (ksize l))%nat -> (w < snd (ksize l))%nat -> exists q, tap l hw h w p = Some q /\ forall i, (i < l_in l)%nat -> y i q = x i q + s) ->
  bias_val (set_weights l (l_kernel l) b true) o = bias_val l o - s * weight_total l o ->
  lin_val (set_weights l (l_kernel l) b true) hw y o p = lin_val l hw x o p.
Proof.
  intros T B. unfold lin_val. rewrite B, ksize_set by reflexivity. cbn [set_weights l_in].
  assert (X : forall h, (h < fst (ksize l))%nat -> rsum (snd (ksize l)) (fun w => match tap (set_weights l (l_kernel l) b true) hw h w p with Some q => rsum (l_in l) (fun i => weight (set_weights l (l_kernel l) b true) h w i o * y i q) | None => 0 end)
    = rsum (snd (ksize l)) (fun w => match tap l hw h w p with Some q => rsum (l_in l) (fun i => weight l h w i o * x i q) | None => 0 end) + s * rsum (snd (ksize l)) (fun w => rsum (l_in l) (fun i => weight l h w i o))).
  { intros h Hh. rewrite <- rsum_scal, <- rsum_plus. apply rsum_ext. intros w Hw. rewrite tap_set by reflexivity. destruct (T h w Hh Hw) as (q & -> & Y). rewrite <- rsum_scal, <- rsum_plus. apply rsum_ext. intros i Hi. rewrite Y by exact Hi. change (weight (set_weights l (l_kernel l) b true) h w i o) with (weight l h w i o). ring. }
  rewrite (rsum_ext _ _ _ X). rewrite rsum_plus, rsum_scal. unfold weight_total. ring.
Qed.

(* ---- geometry ---- *)
Lemma within_some n q : (0 <= q < n)%Z -> within n q = Some q.
Proof. intro H. unfold within. rewrite (proj2 (Z.leb_le 0 q)), (proj2 (Z.ltb_lt q n)) by lia. reflexivity. Qed.
(* the taps of an unpadded convolution stay inside *)
Lemma valid_taps n k s d h y : (0 < s)%Z -> (0 <= d)%Z -> (0 <= h < k)%Z -> (0 <= y < (n - d * (k - 1) - 1) / s + 1)%Z -> (0 <= s * y + d * h < n)%Z.
Proof.
  intros S D H Y. assert (A : (s * y <= n - d * (k - 1) - 1)%Z). { apply Z.le_trans with (s * ((n - d * (k - 1) - 1) / s))%Z; [nia|apply Z.mul_div_le; lia]. } nia.
Qed.
Lemma ceil_bounds n s : (0 < s)%Z -> ((ceil_div n s - 1) * s < n <= ceil_div n s * s)%Z.
Proof. intro S. unfold ceil_div. pose proof (Z.mul_div_le (- n) s S). pose proof (Z.mul_succ_div_gt (- n) s S). nia. Qed.
Lemma same_out n k s t : (0 < s)%Z -> t = same_total n k s -> ((n + t - k) / s + 1 = ceil_div n s)%Z.
Proof. intros S ->. unfold same_total. replace (n + ((ceil_div n s - 1) * s + k - n) - k)%Z with ((ceil_div n s - 1) * s)%Z by ring. rewrite Z.div_mul by lia. ring. Qed.
Lemma same_out_neg n k s : (0 < s)%Z -> (0 < k)%Z -> (same_total n k s <= 0)%Z -> ((n - k) / s + 1 = ceil_div n s)%Z.
Proof.
  intros S K T. unfold same_total in T. pose proof (ceil_bounds n s S). assert ((ceil_div n s - 1 <= (n - k) / s)%Z) by (apply Z.div_le_lower_bound; nia). assert (((n - k) / s < ceil_div n s)%Z) by (apply Z.div_lt_upper_bound; nia). lia.
Qed.
(* in one direction: pb rows before and pa rows after replace the padding of the layer by the padding pad0 *)
Record dim_ok (l : lin) (pad0 : padding) (prj : nat * nat -> nat) (n pb pa : Z) : Prop := {
  do_before : before (l_pad l) (same_before n (Z.of_nat (prj (ksize l))) (Z.of_nat (prj (l_stride l))) (Z.of_nat (prj (l_dil l)))) prj = pb;
  do_none : before pad0 (same_before (n + pb + pa) (Z.of_nat (prj (ksize l))) (Z.of_nat (prj (l_stride l))) (Z.of_nat (prj (l_dil l)))) prj = 0%Z;
  do_out : out_dim (set_pad l pad0) prj (n + pb + pa) = out_dim l prj n;
  do_taps : forall h y, (h < prj (ksize l))%nat -> (0 <= y < out_dim l prj n)%Z -> (0 <= Z.of_nat (prj (l_stride l)) * y + Z.of_nat (prj (l_dil l)) * Z.of_nat h < n + pb + pa)%Z
}.
Lemma tap1_padded l pad0 prj n pb pa h y : transposed (l_kind l) = false -> dim_ok l pad0 prj n pb pa -> (h < prj (ksize l))%nat -> (0 <= y < out_dim l prj n)%Z ->
  exists q, tap1 (set_pad l pad0) prj (n + pb + pa) h y = Some q /\ tap1 l prj n h y = within n (q - pb).
Proof.
  intros T [B N O K] H Y. specialize (K h y H Y). unfold tap1. cbn [set_pad l_kind]. rewrite T. unfold conv_tap. change (ksize (set_pad l pad0)) with (ksize l). cbn [set_pad l_stride l_dil l_pad]. rewrite B, N.
  exists (Z.of_nat (prj (l_stride l)) * y + Z.of_nat (prj (l_dil l)) * Z.of_nat h)%Z. rewrite Z.sub_0_r. split; [apply within_some, K|reflexivity].
Qed.
Lemma within_case n q : within n q = if ((0 <=? q) && (q <? n))%Z then Some q else None.
Proof. reflexivity. Qed.
(* padding by a node *)
Lemma pad_node_core l pad0 hw d s b : dense (l_kind l) = false -> transposed (l_kind l) = false ->
  dim_ok l pad0 fst (fst hw) (p_top d) (p_btm d) -> dim_ok l pad0 snd (snd hw) (p_left d) (p_right d) ->
  out_hw (set_pad l pad0) (pad_hw d hw) = out_hw l hw /\
  forall x y o p, pos_in (out_hw l hw) p -> (forall c q, (c < l_in l)%nat -> pos_in hw q -> y c q = x c q + s) -> bias_val (set_weights (set_pad l pad0) (l_kernel l) b true) o = bias_val l o - s * weight_total l o ->
    lin_val (set_weights (set_pad l pad0) (l_kernel l) b true) (pad_hw d hw) (pad_val d s hw y) o p = lin_val l hw x o p.
Proof.
  intros D T D1 D2. assert (OH : out_hw (set_pad l pad0) (pad_hw d hw) = out_hw l hw). { unfold out_hw, pad_hw. cbn [fst snd]. rewrite (do_out _ _ _ _ _ _ D1), (do_out _ _ _ _ _ _ D2). reflexivity. }
  split; [exact OH|]. intros x y o p [P1 P2] Y B.
  assert (TP : forall h w, (h < fst (ksize l))%nat -> (w < snd (ksize l))%nat -> exists q, tap (set_pad l pad0) (pad_hw d hw) h w p = Some q /\ tap l hw h w p = (let r := (fst q - p_top d, snd q - p_left d)%Z in if inside_hw hw r then Some r else None)).
  { intros h w Hh Hw. unfold tap. cbn [set_pad l_kind]. rewrite D. cbn [fst snd pad_hw].
    destruct (tap1_padded l pad0 fst (fst hw) (p_top d) (p_btm d) h (fst p) T D1 Hh) as (q1 & A1 & A2); [exact P1|]. destruct (tap1_padded l pad0 snd (snd hw) (p_left d) (p_right d) w (snd p) T D2 Hw) as (q2 & B1 & B2); [exact P2|].
    change (Lin (l_kind l) (l_kernel l) (l_bias l) (l_use_bias l) (l_groups l) (l_in l) (l_out l) (l_stride l) (l_dil l) pad0) with (set_pad l pad0).
    rewrite A1, A2, B1, B2. exists (q1, q2). split; [reflexivity|]. cbv zeta. cbn [fst snd]. unfold within, inside_hw. cbn [fst snd]. destruct (0 <=? q1 - p_top d)%Z, (q1 - p_top d <? fst hw)%Z, (0 <=? q2 - p_left d)%Z, (q2 - p_left d <? snd hw)%Z; reflexivity. }
  rewrite (lin_val_shift (set_pad l pad0) b s (pad_hw d hw) (pad_val d 0 hw x)).
  - unfold lin_val. change (bias_val (set_pad l pad0) o) with (bias_val l o). change (ksize (set_pad l pad0)) with (ksize l). f_equal. apply rsum_ext. intros h Hh. apply rsum_ext. intros w Hw. destruct (TP h w Hh Hw) as (q & -> & ->). cbv zeta. change (l_in (set_pad l pad0)) with (l_in l). unfold pad_val. destruct (inside_hw hw _).
    + apply rsum_ext. reflexivity.
    + apply rsum_zero. intros i _. ring.
  - change (ksize (set_pad l pad0)) with (ksize l). change (l_in (set_pad l pad0)) with (l_in l). intros h w Hh Hw. destruct (TP h w Hh Hw) as (q & E & _). exists q. split; [exact E|]. intros i Hi. unfold pad_val. destruct (inside_hw hw (fst q - p_top d, snd q - p_left d)%Z) eqn:I; [apply Y; [exact Hi|apply inside_hw_spec, I]|ring].
  - exact B.
Qed.
(* without padding: no node *)
Definition no_pads : pads := Pads 0 0 0 0.
Lemma pad_hw_none hw : pad_hw no_pads hw = hw.
Proof. destruct hw. unfold pad_hw. cbn. f_equal; ring. Qed.
Lemma pad_val_none s hw y c q : pos_in hw q -> pad_val no_pads s hw y c q = y c q.
Proof. intro P. unfold pad_val. cbn. rewrite !Z.sub_0_r. destruct q as [a b]. cbn [fst snd]. rewrite (proj2 (inside_hw_spec hw (a, b)) P). reflexivity. Qed.
Lemma no_pad_core l pad0 hw s b : dense (l_kind l) = false -> transposed (l_kind l) = false ->
  dim_ok l pad0 fst (fst hw) 0 0 -> dim_ok l pad0 snd (snd hw) 0 0 ->
  out_hw (set_pad l pad0) hw = out_hw l hw /\
  forall x y o p, pos_in (out_hw l hw) p -> (forall c q, (c < l_in l)%nat -> pos_in hw q -> y c q = x c q + s) -> bias_val (set_weights (set_pad l pad0) (l_kernel l) b true) o = bias_val l o - s * weight_total l o ->
    lin_val (set_weights (set_pad l pad0) (l_kernel l) b true) hw y o p = lin_val l hw x o p.
Proof.
  intros D T D1 D2. destruct (pad_node_core l pad0 hw no_pads s b D T D1 D2) as [A B]. rewrite pad_hw_none in A, B. split; [exact A|]. intros x y o p P Y BV. rewrite <- (B x y o p P Y BV). apply lin_val_ext; [exact D|]. intros i q _ Q. symmetry. apply pad_val_none, Q.
Qed.
Lemma set_pad_same l : set_pad l (l_pad l) = l.
Proof. destruct l; reflexivity. Qed.
(* Keras 'same' *)
Lemma dim_same_pos l prj n : dense (l_kind l) = false -> transposed (l_kind l) = false -> (0 < prj (l_stride l))%nat -> prj (l_dil l) = 1%nat -> (0 < prj (ksize l))%nat -> l_pad l = P_same ->
  let t := same_total n (Z.of_nat (prj (ksize l))) (Z.of_nat (prj (l_stride l))) in (0 <= t)%Z -> dim_ok l P_valid prj n (t / 2) (t - t / 2).
Proof.
  intros D T S DL K P t T0. set (k := Z.of_nat (prj (ksize l))) in *. set (s := Z.of_nat (prj (l_stride l))) in *. assert (s0 : (0 < s)%Z) by (unfold s; lia).
  assert (OV : out_dim (set_pad l P_valid) prj (n + t / 2 + (t - t / 2)) = out_dim l prj n).
  { unfold out_dim. cbn [set_pad l_kind l_stride l_dil l_pad]. change (ksize (set_pad l P_valid)) with (ksize l). rewrite D, T, P, DL. fold k s. replace (n + t / 2 + (t - t / 2) - Z.of_nat 1 * (k - 1) - 1)%Z with (n + t - k)%Z by lia. apply same_out; [exact s0|reflexivity]. }
  split; fold k s.
  - rewrite P, DL. cbn [before]. unfold same_before. replace ((ceil_div n s - 1) * s + (k - 1) * Z.of_nat 1 + 1 - n)%Z with t by (unfold t, same_total; lia). rewrite Z.max_r by exact T0. reflexivity.
  - reflexivity.
  - exact OV.
  - intros h y H Y. rewrite <- OV in Y. unfold out_dim in Y. cbn [set_pad l_kind l_stride l_dil l_pad] in Y. change (ksize (set_pad l P_valid)) with (ksize l) in Y. rewrite D, T, DL in Y. fold k s in Y. rewrite DL. apply (valid_taps _ k); try lia.
Qed.
Lemma dim_same_neg l prj n : dense (l_kind l) = false -> transposed (l_kind l) = false -> (0 < prj (l_stride l))%nat -> prj (l_dil l) = 1%nat -> (0 < prj (ksize l))%nat -> l_pad l = P_same ->
  (same_total n (Z.of_nat (prj (ksize l))) (Z.of_nat (prj (l_stride l))) <= 0)%Z -> dim_ok l P_valid prj n 0 0.
Proof.
  intros D T S DL K P T0. set (k := Z.of_nat (prj (ksize l))) in *. set (s := Z.of_nat (prj (l_stride l))) in *. assert (s0 : (0 < s)%Z) by (unfold s; lia). assert (k0 : (0 < k)%Z) by (unfold k; lia).
  assert (OV : out_dim (set_pad l P_valid) prj (n + 0 + 0) = out_dim l prj n).
  { unfold out_dim. cbn [set_pad l_kind l_stride l_dil l_pad]. change (ksize (set_pad l P_valid)) with (ksize l). rewrite D, T, P, DL. fold k s. replace (n + 0 + 0 - Z.of_nat 1 * (k - 1) - 1)%Z with (n - k)%Z by lia. apply same_out_neg; assumption. }
  split; fold k s.
  - rewrite P, DL. cbn [before]. unfold same_before. replace ((ceil_div n s - 1) * s + (k - 1) * Z.of_nat 1 + 1 - n)%Z with (same_total n k s) by (unfold same_total; lia). rewrite Z.max_l by exact T0. reflexivity.
  - reflexivity.
  - exact OV.
  - intros h y H Y. rewrite <- OV in Y. unfold out_dim in Y. cbn [set_pad l_kind l_stride l_dil l_pad] in Y. change (ksize (set_pad l P_valid)) with (ksize l) in Y. rewrite D, T, DL in Y. fold k s in Y. rewrite DL. apply (valid_taps _ k); try lia.
Qed.
(* a kernel of one row needs no padding *)
Lemma dim_one l prj n : dense (l_kind l) = false -> transposed (l_kind l) = false -> (0 < prj (l_stride l))%nat -> prj (ksize l) = 1%nat -> l_pad l = P_same -> dim_ok l P_same prj n 0 0.
Proof.
  intros D T S K P. set (s := Z.of_nat (prj (l_stride l))) in *. assert (s0 : (0 < s)%Z) by (unfold s; lia). pose proof (ceil_bounds n s s0) as CB.
  assert (B : forall d, same_before n (Z.of_nat 1) s d = 0%Z). { intro d. unfold same_before. replace (Z.of_nat 1 - 1)%Z with 0%Z by lia. rewrite Z.mul_0_l, Z.max_l by lia. reflexivity. }
  split; fold s; rewrite ?K, ?P, ?Z.add_0_r; cbn [before]; auto.
  - unfold out_dim. cbn [set_pad l_kind l_stride l_dil l_pad]. rewrite D, T, P. reflexivity.
  - intros h y H Y. replace h with 0%nat by lia. unfold out_dim in Y. rewrite D, T, P in Y. fold s in Y. nia.
Qed.
(* unpadded layers *)
Lemma dim_valid l prj n : dense (l_kind l) = false -> transposed (l_kind l) = false -> (0 < prj (l_stride l))%nat -> l_pad l = P_valid -> dim_ok l P_valid prj n 0 0.
Proof.
  intros D T S P. split; rewrite ?P, ?Z.add_0_r; cbn [before]; auto.
  - unfold out_dim. cbn [set_pad l_kind l_stride l_dil l_pad]. rewrite D, T, P. reflexivity.
  - intros h y H Y. unfold out_dim in Y. rewrite D, T, P in Y. apply (valid_taps _ (Z.of_nat (prj (ksize l)))); lia.
Qed.
(* PyTorch *)
Lemma dim_num l prj n a b : dense (l_kind l) = false -> transposed (l_kind l) = false -> (0 < prj (l_stride l))%nat -> l_pad l = P_num a b -> (prj (0, 0) = 0)%nat -> dim_ok l (P_num 0 0) prj n (Z.of_nat (prj (a, b))) (Z.of_nat (prj (a, b))).
Proof.
  intros D T S P Z0. set (c := Z.of_nat (prj (a, b))).
  assert (OV : out_dim (set_pad l (P_num 0 0)) prj (n + c + c) = out_dim l prj n).
  { unfold out_dim. cbn [set_pad l_kind l_stride l_dil l_pad]. change (ksize (set_pad l (P_num 0 0))) with (ksize l). rewrite D, T, P, Z0. fold c. f_equal. f_equal. lia. }
  split; rewrite ?P; cbn [before]; [reflexivity|rewrite Z0; reflexivity|exact OV|].
  intros h y H Y. rewrite <- OV in Y. unfold out_dim in Y. cbn [set_pad l_kind l_stride l_dil l_pad] in Y. change (ksize (set_pad l (P_num 0 0))) with (ksize l) in Y. rewrite D, T, Z0 in Y. replace (2 * Z.of_nat 0)%Z with 0%Z in Y by lia. rewrite Z.add_0_r in Y. apply (valid_taps _ (Z.of_nat (prj (ksize l)))); lia.
Qed.
