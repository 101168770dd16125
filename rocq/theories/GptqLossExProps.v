(* GptqLossExProps.v -- C91: instances, and what does not hold of the losses. *)
From Coq Require Import Reals Lra Lia List.
From Verif Require Import Nd.
From Verif Require Import Base GptqLossModel GptqLossSpec GptqLossProofs GptqLossProps.
Import ListNotations.
Open Scope R_scope.
Open Scope res_scope.

Definition cell (x : R) : nd := Nd [1%nat; 1%nat] (fun _ => x).
Definition two : list (nd * nd) := [(cell 1, cell 2); (cell 3, cell 1)].
Lemma two_compared : compared two.
Proof. split; [discriminate|]. repeat constructor. Qed.
Lemma power_cell x : power (cell x) = x ^ 2.
Proof. unfold power, avg. cbn. field. Qed.
Lemma mse_cell y x : mse (cell y) (cell x) = (y - x) ^ 2.
Proof. unfold mse, avg. cbn. field. Qed.
Lemma two_signal f : has_signal f two.
Proof. intros _ [|[|i]] I; [| |cbn in I; lia]; cbn [float two nth snd]; rewrite power_cell; lra. Qed.
Lemma pair_signal f a b c d : c <> 0 -> d <> 0 -> has_signal f [(cell a, cell c); (cell b, cell d)].
Proof. intros C D _ [|[|i]] I; [| |cbn in I; lia]; cbn [float nth snd]; rewrite power_cell; apply pow_nonzero; assumption. Qed.
Lemma dist_two f a b c d : distance f [(cell a, cell c); (cell b, cell d)] 0 = (if relative f then (a - c) ^ 2 / c ^ 2 else (a - c) ^ 2) /\
  distance f [(cell a, cell c); (cell b, cell d)] 1 = (if relative f then (b - d) ^ 2 / d ^ 2 else (b - d) ^ 2).
Proof. unfold distance. cbn [quantized float nth fst snd]. rewrite !mse_cell, !power_cell. split; reflexivity. Qed.
Definition w2 (a b : R) : nd := vec [a; b].

(* relative errors 1/4 and 4, weights 4 and 1, a batch of three: (1 + 4) / 2 *)
Example torch_instance : step_loss L_torch 3 two (w2 4 1) = Ok (5 / 2).
Proof.
  rewrite torch_step_loss; [|exact two_compared|apply two_signal|lia|reflexivity]. f_equal. unfold avg. cbn [length two rsum quantized float nth fst snd].
  rewrite !mse_cell, !power_cell. cbn. field.
Qed.
Example keras_instance : step_loss (L_keras_default false) 3 two (w2 4 1) = Ok 24.
Proof.
  rewrite keras_step_loss; [|discriminate|exact two_compared|apply two_signal|lia|reflexivity]. f_equal. unfold two. cbn [length rsum].
  destruct (dist_two (L_keras_default false) 1 3 2 1) as [E0 E1]. rewrite E0, E1. cbn. field.
Qed.

(* FINDING (gptq/keras/gptq_loss.py L32): The Keras mse_loss divides by the mean square when it is not to be normalized. *)
Theorem keras_normalized_refuted : ~ (forall y x, shp y = shp x -> power x <> 0 -> keras_mse true y x = Ok (mse y x / power x)).
Proof.
  intro H. specialize (H (cell 1) (cell 2) eq_refl). rewrite power_cell in H. specialize (H ltac:(lra)). unfold keras_mse in H. rewrite nmean_sqdiff, mse_cell in H. injection H as H. lra.
Qed.
Print Assumptions keras_normalized_refuted.
(* FINDING (gptq/keras/gptq_loss.py L65, L147): The same outputs in each of the samples, a batch twice as large: the Keras loss is
   twice as large, and with it the share of the loss against the rounding regularization. *)
Theorem keras_batch_refuted : ~ (forall norm B B' ps w, compared ps -> has_signal (L_keras_default norm) ps -> (0 < B)%nat -> (0 < B')%nat -> shp w = [length ps] ->
  step_loss (L_keras_default norm) B ps w = step_loss (L_keras_default norm) B' ps w).
Proof.
  intro H. specialize (H false 1%nat 2%nat two (w2 4 1) two_compared (two_signal _) ltac:(lia) ltac:(lia) eq_refl).
  rewrite !keras_step_loss in H by (discriminate || exact two_compared || apply two_signal || lia || reflexivity). injection H as H.
  cbn [length two rsum] in H. destruct (dist_two (L_keras_default false) 1 3 2 1) as [E0 E1]. unfold two in H. rewrite E0, E1 in H. cbn in H. lra.
Qed.
Print Assumptions keras_batch_refuted.
(* FINDING (gptq/pytorch/gptq_loss.py L63, gptq_training.py L141): The equal weights 1 / n do not give the average error: the mean
   divides by the number of layers once more. *)
Theorem torch_average_refuted : ~ (forall B ps, compared ps -> has_signal L_torch ps -> (0 < B)%nat ->
  step_loss L_torch B ps (equal_weights (length ps)) = multi_loss L_torch ps None).
Proof.
  intro H. specialize (H 1%nat two two_compared (two_signal _) ltac:(lia)).
  rewrite equal_step_loss, unweighted_loss in H by (exact two_compared || apply two_signal || lia). injection H as H.
  unfold avg in H. cbn [length two rsum] in H. destruct (dist_two L_torch 1 3 2 1) as [E0 E1]. unfold two in H. rewrite E0, E1 in H. cbn in H. lra.
Qed.
Print Assumptions torch_average_refuted.
(* FINDING (gptq/common/gptq_training.py L212-213): With log_norm switched off the scores do not weight their layers. *)
Theorem column_weights_refuted : ~ (forall c S s B ps, log_norm c = false -> compared ps -> has_signal L_torch ps -> (0 < B)%nat -> (0 < S)%nat ->
  (let! w := hessian_weights c (score_tensor S (length ps) s) in step_loss L_torch B ps w) =
  Ok (avg (length ps) (fun i => score c S (length ps) s i * distance L_torch ps i))).
Proof.
  intro H. specialize (H (HCfg false false false) 1%nat (fun _ i => INR i) 1%nat two eq_refl two_compared (two_signal _) ltac:(lia) ltac:(lia)).
  rewrite column_weights in H by (reflexivity || exact two_compared || apply two_signal || lia). injection H as H.
  unfold avg, score, avg in H. cbn [norm_scores length two rsum] in H. destruct (dist_two L_torch 1 3 2 1) as [E0 E1]. unfold two in H. rewrite E0, E1 in H. cbn in H. lra.
Qed.
Print Assumptions column_weights_refuted.

(* the hypotheses on the scores are met: scores 1 and 10 of one image *)
Definition sc (_ i : nat) : R := match i with O => 1 | _ => 10 end.
Lemma sc_at i : score (HCfg false true false) 1 2 sc i = sc 0 i.
Proof. unfold score, avg. cbn. field. Qed.
Lemma sc_pos i : 0 < sc 0 i.
Proof. destruct i; cbn; lra. Qed.
Lemma sc_least : least_positive 2 (score (HCfg false true false) 1 2 sc) 1.
Proof. split; [lra|]. split; [exists 0%nat; split; [lia|apply sc_at]|]. intros i _ _. rewrite sc_at. destruct i; cbn; lra. Qed.
Lemma sc_weights : exists w, hessian_weights (HCfg false true false) (score_tensor 1 2 sc) = Ok w /\ shp w = [2%nat] /\ at_ w [0%nat] = 0 /\ at_ w [1%nat] = 1.
Proof.
  destruct (log_weights (HCfg false true false) 1 2 sc 1 eq_refl eq_refl (Nat.le_refl 2)) as (w & k & E & Sw & K & H).
  - intros i _. rewrite sc_at. left. apply sc_pos.
  - exact sc_least.
  - intros i j _ _ Gi. rewrite sc_at in Gi. pose proof (sc_pos i). lra.
  - assert (F : forall i, filled (score (HCfg false true false) 1 2 sc) 1 i = sc 0 i).
    { intro i. unfold filled. rewrite sc_at. pose proof (sc_pos i). destruct (Req_EM_T (sc 0 i) 0); [lra|reflexivity]. }
    exists w. split; [exact E|]. split; [exact Sw|]. destruct (H 0%nat ltac:(lia)) as [L0 A0]. destruct (H 1%nat ltac:(lia)) as [L1 A1]. rewrite !F in *.
    assert (k = 0%nat) as -> by (destruct k as [|k]; [reflexivity|cbn in L0; lra]). rewrite A0, A1. cbn [sc]. pose proof ln10_pos.
    replace (1 / 1) with 1 by lra. replace (10 / 1) with 10 by lra. rewrite ln_1. split; field; lra.
Qed.
(* FINDING (gptq/common/gptq_training.py L229): The layer of the least score has weight zero: with the default configuration its
   error has no part in the loss, which is zero although the outputs of that layer differ. *)
Theorem least_layer_refuted : ~ (forall S s B ps, compared ps -> has_signal L_torch ps -> (0 < B)%nat -> (forall i, (i < length ps)%nat -> 0 < score (HCfg false true false) S (length ps) s i) ->
  (let! w := hessian_weights (HCfg false true false) (score_tensor S (length ps) s) in step_loss L_torch B ps w) = Ok 0 ->
  forall i, (i < length ps)%nat -> same (quantized ps i) (float ps i)).
Proof.
  intro H. set (ps := [(cell 1, cell 2); (cell 1, cell 1)]). assert (C : compared ps) by (split; [discriminate|repeat constructor]).
  assert (Sg : has_signal L_torch ps) by (apply pair_signal; lra).
  specialize (H 1%nat sc 1%nat ps C Sg ltac:(lia)). cbn [length ps] in H.
  specialize (H ltac:(intros i _; rewrite sc_at; apply sc_pos)).
  destruct sc_weights as (w & E & Sw & W0 & W1). rewrite E in H. cbn [bind] in H.
  rewrite (torch_step_loss 1 ps w C Sg ltac:(lia) Sw) in H.
  assert (Z : avg (length ps) (fun i => at_ w [i] * (mse (quantized ps i) (float ps i) / power (float ps i))) = 0).
  { unfold avg. cbn [length ps rsum]. rewrite W0, W1. unfold ps. cbn [quantized float nth fst snd]. rewrite !mse_cell, !power_cell. cbn. field. }
  rewrite Z in H. specialize (H eq_refl 0%nat ltac:(lia) [0%nat; 0%nat] ltac:(repeat constructor)). cbn in H. lra.
Qed.
Print Assumptions least_layer_refuted.

(* one layer of two rows, one column and one channel: the distance is 4 per position; the Keras loss is 8 *)
Definition rows (x : R) : nd := Nd [1%nat; 2%nat; 1%nat; 1%nat] (fun _ => x).
(* FINDING (gptq/keras/gptq_loss.py L93): the intended distance per sample is not what Keras computes. *)
Theorem keras_sla_rows_refuted : ~ (forall ps B w H W C m, ps <> [] ->
  (forall i, (i < length ps)%nat -> shp (float ps i) = [B; H i; W i; C i] /\ (0 < H i)%nat /\ (0 < W i)%nat /\ (0 < C i)%nat) ->
  largest (length ps) (fun i => avg B (fun b => w b i)) m -> m <> 0 ->
  sla_loss ps B w = Ok (rsum (length ps) (fun i => avg B (fun b => w b i * last_axis_distance (H i) (W i) (C i) (quantized ps i) (float ps i) b)) / m)).
Proof.
  intro A. set (ps := [(rows 2, rows 0)]).
  assert (Sh : forall i, (i < length ps)%nat -> shp (float ps i) = [1%nat; 2%nat; 1%nat; 1%nat] /\ (0 < 2)%nat /\ (0 < 1)%nat /\ (0 < 1)%nat).
  { intros [|i] I; [|cbn in I; lia]. cbn. repeat split; lia. }
  assert (M : largest (length ps) (fun i => avg 1 (fun b => 1)) 1).
  { split; [exists 0%nat; split; [cbn; lia|]|intros i _]; unfold avg; cbn; lra. }
  assert (N : ps <> []) by discriminate. assert (Z : 1 <> 0) by lra.
  specialize (A ps 1%nat (fun _ _ => 1) (fun _ => 2%nat) (fun _ => 1%nat) (fun _ => 1%nat) 1 N Sh M Z).
  rewrite (keras_sla_loss ps 1 (fun _ _ => 1) (fun _ => 2%nat) (fun _ => 1%nat) (fun _ => 1%nat) 1 N Sh M Z) in A. injection A as A.
  unfold avg, last_axis_distance, avg in A. cbn in A. lra.
Qed.
Print Assumptions keras_sla_rows_refuted.
(* two samples with scores 1 and 3 of one layer with two channels: the distances are 2 and 0, the loss (1 * 2 + 3 * 0) / 2 / 2 *)
Definition sample_scores (b i : nat) : R := match b with O => 1 | _ => 3 end.
Definition chan (f : nat -> R) : nd := Nd [2%nat; 2%nat] (fun i => f (hd 0%nat i)).
Example sla_instance : sla_loss [(chan (fun b => match b with O => 1 | _ => 5 end), chan (fun b => match b with O => 0 | _ => 5 end))] 2 sample_scores = Ok (1 / 2).
Proof.
  rewrite (torch_sla_loss _ 2 sample_scores (fun _ => 2%nat) (fun _ => []) 2).
  - destruct (Req_EM_T 2 0); [lra|]. f_equal. unfold avg, first_axis_distance, avg. cbn. field.
  - discriminate.
  - intros [|i] I; [reflexivity|cbn in I; lia].
  - split; [exists 0%nat; split; [cbn; lia|]|intros i _]; unfold avg; cbn; lra.
Qed.
