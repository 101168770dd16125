(* ActBiasProofs.v -- the activation correction term, its application, and the estimate from the histogram. *)
From Verif Require Import LinNode LinSpec BnModel BnSpec LinProofs BnProofs LinGraph SncModel SncSpec SncProofs BiasModel BiasSpec BiasProofs ActBiasModel ActBiasSpec.
Local Open Scope R_scope.

Lemma flatten_1 a n : shp a = [n] -> shp (flatten a) = [n] /\ forall o, (o < n)%nat -> at_ (flatten a) [o] = at_ a [o].
Proof.
  intro S. unfold flatten, reshape_to. cbn [shp at_]. rewrite S. split; [cbn; f_equal; lia|]. intros o O. cbn [unflat flat prod]. rewrite ?Nat.mul_1_r, ?Nat.add_0_r, ?Nat.mul_1_r, ?Nat.div_1_r. reflexivity.
Qed.
Lemma flatten_2 a n m : shp a = [n; m] -> shp (flatten a) = [n * m]%nat /\ forall o, (o < n * m)%nat -> at_ (flatten a) [o] = at_ a [o / m; o mod m]%nat.
Proof.
  intro S. unfold flatten, reshape_to. cbn [shp at_]. rewrite S. split; [cbn; f_equal; lia|]. intros o O. cbn [unflat flat prod]. rewrite ?Nat.mul_1_r, ?Nat.add_0_r, ?Nat.mul_1_r, ?Nat.div_1_r. reflexivity.
Qed.
Lemma act_term_spec l d : lin_wf l -> corrected_groups l ->
  shp (act_term (l_kind l) (l_kernel l) d) = [l_out l] /\
  forall o, (o < l_out l)%nat -> at_ (act_term (l_kind l) (l_kernel l) d) [o] = d * over_reads l (fun h w i => weight l h w i o).
Proof.
  intros W CG. pose proof (ksize_shape l W) as SH. unfold kernel_shape in SH.
  pose proof (lw_in l W) as I0. pose proof (lw_out l W) as O0. pose proof (lw_groups l W) as G0. pose proof (lw_div_in l W) as DI. pose proof (lw_div_out l W) as DO.
  assert (IP : (0 < in_per l)%nat) by (destruct (in_per l); lia). assert (OP : (0 < out_per l)%nat) by (destruct (out_per l); lia).
  unfold over_reads. set (kh := fst (ksize l)) in *. set (kw := snd (ksize l)) in *.
  assert (KW1 : dense (l_kind l) = true -> kh = 1%nat /\ kw = 1%nat) by (unfold kh, kw, ksize; destruct (l_kind l); try discriminate; auto).
  assert (MD : forall i n, (i < n)%nat -> (i mod n = i)%nat) by (intros; apply Nat.mod_small; assumption).
  assert (D1 : forall i n, (i < n)%nat -> (i / n = 0)%nat) by (intros; apply Nat.div_small; assumption).
  assert (ONE : forall (a : nd) (f : nat -> R), shp a = [l_out l] -> (forall o, (o < l_out l)%nat -> at_ a [o] = d * f o) -> shp (flatten a) = [l_out l] /\ forall o, (o < l_out l)%nat -> at_ (flatten a) [o] = d * f o).
  { intros a f S A. destruct (flatten_1 a _ S) as [F1 F2]. split; [exact F1|]. intros o O. rewrite F2 by exact O. apply A, O. }
  unfold act_term. Opaque Nat.div Nat.modulo Nat.mul flatten.
  destruct (l_kind l) eqn:KD; rewrite SH; cbn [out_axis in_axis Nat.eqb length seq filter negb].
  - (* K_conv *) apply (ONE _ (fun o => rsum kh (fun h => rsum kw (fun w => rsum (l_in l) (fun i => weight l h w i o))))); [cbn; rewrite SH; reflexivity|]. intros o O. cbn. rewrite SH. cbn. f_equal. apply rsum_ext. intros h _. apply rsum_ext. intros w _. unfold weight. rewrite KD, DI. symmetry. apply (rsum_group (l_groups l) (in_per l) (o / out_per l) (fun j => at_ (l_kernel l) [h; w; j; o])); [exact IP|]. apply Nat.div_lt_upper_bound; lia.
  - (* K_dw *) pose proof (lw_dw l W KD) as DW. set (mult := (l_out l / l_in l)%nat) in *. assert (M0 : (0 < mult)%nat) by (destruct mult; lia).
    destruct (flatten_2 (nmap (fun x => d * x) (nsum [0; 1]%nat (l_kernel l))) (l_in l) mult) as [F1 F2]; [cbn; rewrite SH; reflexivity|]. split; [rewrite F1; congruence|]. intros o O. rewrite F2 by congruence. cbn. rewrite SH. cbn. f_equal. apply rsum_ext. intros h _. apply rsum_ext. intros w _. unfold weight. rewrite KD. fold mult.
    rewrite (rsum_one (l_in l) (o / mult)%nat); [rewrite Nat.eqb_refl; reflexivity|apply Nat.div_lt_upper_bound; lia|]. intros k _ N. rewrite (proj2 (Nat.eqb_neq _ _) N). reflexivity.
  - (* K_convT *) apply (ONE _ (fun o => rsum kh (fun h => rsum kw (fun w => rsum (l_in l) (fun i => weight l h w i o))))); [cbn; rewrite SH; reflexivity|]. intros o O. cbn. rewrite SH. cbn. f_equal. apply rsum_ext. intros h _. apply rsum_ext. intros w _. unfold weight. rewrite KD. reflexivity.
  - (* K_dense *) destruct (KW1 eq_refl) as [K1 K2]. apply (ONE _ (fun o => rsum kh (fun h => rsum kw (fun w => rsum (l_in l) (fun i => weight l h w i o))))); [cbn; rewrite SH; reflexivity|]. intros o O. cbn. rewrite SH, K1, K2. cbn. f_equal. rewrite !Rplus_0_l. unfold weight. rewrite KD. reflexivity.
  - (* T_conv *) apply (ONE _ (fun o => rsum kh (fun h => rsum kw (fun w => rsum (l_in l) (fun i => weight l h w i o))))); [cbn; rewrite SH; reflexivity|]. intros o O. cbn. rewrite SH. cbn. f_equal. rewrite <- rsum3. apply rsum_ext. intros h _. apply rsum_ext. intros w _. unfold weight. rewrite KD, DI. symmetry. apply (rsum_group (l_groups l) (in_per l) (o / out_per l) (fun j => at_ (l_kernel l) [o; j; h; w])); [exact IP|]. apply Nat.div_lt_upper_bound; lia.
  - (* T_convT *) specialize (CG KD). assert (OE : out_per l = l_out l) by (rewrite CG in DO; lia). assert (IE : in_per l = l_in l) by (rewrite CG in DI; lia). apply (ONE _ (fun o => rsum kh (fun h => rsum kw (fun w => rsum (l_in l) (fun i => weight l h w i o))))); [cbn; rewrite SH; cbn; congruence|]. intros o O. cbn. rewrite SH. cbn. f_equal. rewrite <- rsum3. apply rsum_ext. intros h _. apply rsum_ext. intros w _. apply rsum_ext. intros i I. unfold weight. rewrite KD, OE, IE, !D1, MD by assumption. reflexivity.
  - (* T_linear *) destruct (KW1 eq_refl) as [K1 K2]. apply (ONE _ (fun o => rsum kh (fun h => rsum kw (fun w => rsum (l_in l) (fun i => weight l h w i o))))); [cbn; rewrite SH; reflexivity|]. intros o O. cbn. rewrite SH, K1, K2. cbn. f_equal. rewrite !Rplus_0_l. unfold weight. rewrite KD. reflexivity.
Qed.
Transparent Nat.div Nat.modulo Nat.mul flatten.

Lemma apply_act_term_same l t : apply_act_term l t = apply_term l t.
Proof. unfold apply_act_term, apply_term. destruct (l_bias l); reflexivity. Qed.

(* averages *)
Lemma average_total S f : S <> [] -> total S f = INR (length S) * average S f.
Proof. intro N. unfold average. destruct S; [congruence|]. field. apply not_0_INR. discriminate. Qed.
Lemma quantized_output q l o s : output l o (quantized q s) = bias_val l o + over_reads l (fun h w i => weight l h w i o * reads_through l h w i (quantized q s)).
Proof. apply output_reads. Qed.
Lemma over_reads_ext l f g : (forall h w i, (h < fst (ksize l))%nat -> (w < snd (ksize l))%nat -> (i < l_in l)%nat -> f h w i = g h w i) -> over_reads l f = over_reads l g.
Proof. intro H. unfold over_reads. apply rsum_ext. intros h Hh. apply rsum_ext. intros w Hw. apply rsum_ext. intros i Hi. apply H; assumption. Qed.
Lemma over_reads_plus l f g : over_reads l (fun h w i => f h w i + g h w i) = over_reads l f + over_reads l g.
Proof. unfold over_reads. rewrite <- rsum_plus. apply rsum_ext. intros h _. rewrite <- rsum_plus. apply rsum_ext. intros w _. apply rsum_plus. Qed.
Lemma over_reads_scal l c f : over_reads l (fun h w i => c * f h w i) = c * over_reads l f.
Proof. unfold over_reads. rewrite <- rsum_scal. apply rsum_ext. intros h _. rewrite <- rsum_scal. apply rsum_ext. intros w _. apply rsum_scal. Qed.
Lemma average_output l o S (t : sample -> sample) : S <> [] -> average S (fun s => output l o (t s)) = bias_val l o + over_reads l (fun h w i => weight l h w i o * average S (fun s => reads_through l h w i (t s))).
Proof.
  intro N. assert (P : INR (length S) <> 0) by (destruct S; [congruence|]; apply not_0_INR; discriminate).
  apply Rmult_eq_reg_l with (INR (length S)); [|exact P]. rewrite <- average_total by exact N.
  rewrite (total_ext S _ _ (fun s _ => output_reads l o (t s))), total_plus, total_const, Rmult_plus_distr_l. f_equal. unfold over_reads. rewrite total_rsum, <- rsum_scal. apply rsum_ext. intros h _. rewrite total_rsum, <- rsum_scal. apply rsum_ext. intros w _. rewrite total_rsum, <- rsum_scal. apply rsum_ext. intros i _.
  rewrite total_scal, average_total by exact N. ring.
Qed.

Lemma average_output_id l o S : S <> [] -> average S (output l o) = bias_val l o + over_reads l (fun h w i => weight l h w i o * average S (reads_through l h w i)).
Proof. exact (average_output l o S (fun s => s)). Qed.

(* ---- the histogram ---- *)
Lemma hist_len e c data : histogram_of e c data -> length e = S (length c) /\ length c = length data.
Proof. induction 1 as [|a b e c d rest _ _ H [IH1 IH2]]; cbn in *; lia. Qed.
Lemma INR_len {A} (l : list A) : INR (length (l)) >= 0.
Proof. pose proof (pos_INR (length l)). lra. Qed.
Lemma lsum_app a b : lsum (a ++ b) = lsum a + lsum b.
Proof. unfold lsum. induction a as [|x a IH]; cbn; [ring|]. rewrite IH. ring. Qed.
Lemma hist_count e c data : histogram_of e c data -> lsum c = INR (length (concat data)).
Proof. induction 1 as [|a b e c d rest _ _ H IH]; [reflexivity|]. cbn [concat lsum fold_right]. change (fold_right Rplus 0 c) with (lsum c). rewrite IH, app_length, plus_INR. reflexivity. Qed.
Lemma bin_close q a b (B : R) data : monotone q -> (b - a) + (q b - q a) <= 2 * B -> Forall (fun x => a <= x <= b) data ->
  Rabs (((q a + q b) / 2 * INR (length data) - (a + b) / 2 * INR (length data)) - (lsum (map q data) - lsum data)) <= B * INR (length data).
Proof.
  intros M HB F. induction F as [|x data [X1 X2] F IH]; [cbn; rewrite Rabs_right; lra|].
  cbn [length map lsum fold_right]. change (fold_right Rplus 0 (map q data)) with (lsum (map q data)). change (fold_right Rplus 0 data) with (lsum data). rewrite S_INR. set (n := INR (length data)) in *.
  pose proof (M _ _ X1) as Q1. pose proof (M _ _ X2) as Q2. revert IH. unfold Rabs. destruct (Rcase_abs _), (Rcase_abs _); intro; lra.
Qed.
Lemma hist_close q e c data (B : R) : monotone q -> histogram_of e c data -> (forall k a b, nth_error e k = Some a -> nth_error e (S k) = Some b -> (b - a) + (q b - q a) <= 2 * B) ->
  Rabs ((lsum (map (fun p => fst p * snd p) (combine (bin_centers (map q e)) c)) - lsum (map (fun p => fst p * snd p) (combine (bin_centers e) c))) - (lsum (map q (concat data)) - lsum (concat data))) <= B * INR (length (concat data)).
Proof.
  intros M H. induction H as [e|a b e c data rest AB F H IH]; intro W; [cbn; rewrite Rabs_right; lra|].
  specialize (IH (fun k x y => W (S k) x y)). pose proof (bin_close q a b B data M (W 0%nat a b eq_refl eq_refl) F) as BC.
  cbn [concat]. rewrite map_app, !lsum_app, app_length, plus_INR.
  change (bin_centers (map q (a :: b :: e))) with ((q a + q b) / 2 :: bin_centers (map q (b :: e))). change (bin_centers (a :: b :: e)) with ((a + b) / 2 :: bin_centers (b :: e)).
  cbn [combine map fst snd lsum fold_right] in *. fold (lsum) in *.
  change (fold_right Rplus 0) with lsum in *. set (u := lsum (map _ (combine _ c))) in *. set (v := lsum (map _ (combine (bin_centers (b :: e)) c))) in *.
  revert IH BC. unfold Rabs. repeat destruct (Rcase_abs _); intros; lra.
Qed.
Lemma mean_shift_close q e c data (B : R) : monotone q -> histogram_of e c data -> concat data <> [] -> (forall k a b, nth_error e k = Some a -> nth_error e (S k) = Some b -> (b - a) + (q b - q a) <= 2 * B) ->
  Rabs (mean_shift q e c - (meanR (map q (concat data)) - meanR (concat data))) <= B.
Proof.
  intros M H N W. pose proof (hist_close q e c data B M H W) as C. pose proof (hist_count e c data H) as L.
  assert (P : 0 < INR (length (concat data))) by (destruct (concat data); [congruence|]; apply lt_0_INR; cbn; lia).
  unfold mean_shift, weighted_mean, meanR. rewrite L, map_length. change (fold_right Rplus 0) with lsum. set (n := INR (length (concat data))) in *. set (u := lsum (map _ (combine (bin_centers (map q e)) c))) in *. set (v := lsum (map _ (combine (bin_centers e) c))) in *.
  replace (u / n - v / n - (lsum (map q (concat data)) / n - lsum (concat data) / n)) with ((u - v - (lsum (map q (concat data)) - lsum (concat data))) * / n) by (field; lra).
  rewrite Rabs_mult, (Rabs_right (/ n)) by (left; apply Rinv_0_lt_compat; exact P). apply Rmult_le_reg_r with n; [exact P|]. rewrite Rmult_assoc, Rinv_l, Rmult_1_r by lra. exact C.
Qed.
