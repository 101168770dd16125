(* GptqLossProps.v -- C91: the loss GPTQ training minimizes, and the weights of the layers in it. *)
From Coq Require Import Reals Lra Lia List.
From Verif Require Import Nd.
From Verif Require Import Base GptqLossModel GptqLossSpec GptqLossProofs.
Import ListNotations.
Open Scope R_scope.
Open Scope res_scope.

(* The loss of a PyTorch training step: the average over the layers of weight times relative error, for every batch size. *)
Theorem torch_step_loss : forall B ps w, compared ps -> has_signal L_torch ps -> (0 < B)%nat -> shp w = [length ps] ->
  step_loss L_torch B ps w = Ok (avg (length ps) (fun i => at_ w [i] * (mse (quantized ps i) (float ps i) / power (float ps i)))).
Proof. intros B ps w C Sg HB Sw. exact (step_row L_torch B ps C Sg HB w Sw). Qed.
Print Assumptions torch_step_loss.

(* A layer whose float output is zero everywhere makes the relative loss no number. *)
Theorem zero_output : forall f B ps w i, compared ps -> relative f = true -> (i < length ps)%nat -> power (float ps i) = 0 ->
  step_loss f B ps w = Err E_zero_div.
Proof.
  intros f B ps w i [_ F] R I P. unfold step_loss, multi_loss. rewrite (points_nosignal f ps i R F I P). reflexivity.
Qed.
Print Assumptions zero_output.

(* FINDING (gptq/keras/gptq_loss.py L65, L147; gptq/keras/gptq_training.py L183-195): The weights are stacked once per sample and
   the products are summed, so the Keras loss is the weighted sum of the errors times the number of samples of the batch. *)
Theorem keras_step_loss : forall f B ps w, f <> L_torch -> compared ps -> has_signal f ps -> (0 < B)%nat -> shp w = [length ps] ->
  step_loss f B ps w = Ok (INR B * rsum (length ps) (fun i => at_ w [i] * distance f ps i)).
Proof. intros f B ps w Nf C Sg HB Sw. rewrite (step_row f B ps C Sg HB w Sw). destruct f; [contradiction|reflexivity|reflexivity]. Qed.
Print Assumptions keras_step_loss.

(* Without Hessian scores every layer has weight 1 / n: PyTorch divides the average by n once more, Keras multiplies it by the
   batch size. *)
Theorem equal_step_loss : forall f B ps, compared ps -> has_signal f ps -> (0 < B)%nat ->
  step_loss f B ps (equal_weights (length ps)) =
  Ok (match f with L_torch => avg (length ps) (distance f ps) / INR (length ps) | _ => INR B * avg (length ps) (distance f ps) end).
Proof.
  intros f B ps C Sg HB. rewrite (step_row f B ps C Sg HB) by reflexivity.
  assert (E : rsum (length ps) (fun i => at_ (equal_weights (length ps)) [i] * distance f ps i) = avg (length ps) (distance f ps)).
  { unfold avg. cbn [equal_weights at_]. rewrite rsum_scal. field. apply Rgt_not_eq. apply (lt_0_INR). destruct C as [N _]. destruct ps; [contradiction|cbn; lia]. }
  f_equal. destruct f; try (rewrite E; reflexivity). unfold avg at 1. rewrite E. reflexivity.
Qed.
Print Assumptions equal_step_loss.
(* called without weights the functions return the average *)
Theorem unweighted_loss : forall f ps, compared ps -> has_signal f ps -> multi_loss f ps None = Ok (avg (length ps) (distance f ps)).
Proof. intros f ps C Sg. apply unweighted; assumption. Qed.
Print Assumptions unweighted_loss.

(* The loss is not negative, and it is zero exactly if the outputs agree in every layer of positive weight. *)
Theorem step_loss_zero_iff : forall f B ps w, compared ps -> has_signal f ps -> (0 < B)%nat -> shp w = [length ps] -> (forall i, (i < length ps)%nat -> 0 <= at_ w [i]) ->
  exists l, step_loss f B ps w = Ok l /\ 0 <= l /\ (l = 0 <-> forall i, (i < length ps)%nat -> 0 < at_ w [i] -> same (quantized ps i) (float ps i)).
Proof.
  intros f B ps w C Sg HB Sw W. rewrite (step_row f B ps C Sg HB w Sw). eexists. split; [reflexivity|].
  apply weighted_zero; assumption.
Qed.
Print Assumptions step_loss_zero_iff.

(* ---- the weights of the layers ---- *)
(* The default (log_norm): the weight of a layer is the logarithm of its score relative to the least score.  Scores are averages
   over the images of the share of the layer (norm_scores) or of the score.  One zero score counts as the least positive one. *)
Theorem log_weights : forall c S n s y, log_norm c = true -> scale_log_norm c = false -> (2 <= n)%nat -> (forall i, (i < n)%nat -> 0 <= score c S n s i) ->
  least_positive n (score c S n s) y -> (forall i j, (i < n)%nat -> (j < n)%nat -> score c S n s i = 0 -> score c S n s j = 0 -> i = j) ->
  exists w k, hessian_weights c (score_tensor S n s) = Ok w /\ shp w = [n] /\ (k < n)%nat /\
    forall i, (i < n)%nat -> filled (score c S n s) y k <= filled (score c S n s) y i /\
                             at_ w [i] = ln (filled (score c S n s) y i / filled (score c S n s) y k) / ln 10.
Proof. intros c S n s y L Sc N G0 Y U. exact (weights_log c S n s L N G0 y Y U Sc). Qed.
Print Assumptions log_weights.
(* So the weights are not negative, one of them is zero, and they are ordered as the scores. *)
Theorem log_weights_order : forall c S n s y, log_norm c = true -> scale_log_norm c = false -> (2 <= n)%nat -> (forall i, (i < n)%nat -> 0 <= score c S n s i) ->
  least_positive n (score c S n s) y -> (forall i j, (i < n)%nat -> (j < n)%nat -> score c S n s i = 0 -> score c S n s j = 0 -> i = j) ->
  exists w, hessian_weights c (score_tensor S n s) = Ok w /\ shp w = [n] /\ (exists k, (k < n)%nat /\ at_ w [k] = 0) /\
    forall i j, (i < n)%nat -> (j < n)%nat -> 0 <= at_ w [i] /\ (0 < score c S n s i -> 0 < score c S n s j -> (at_ w [i] <= at_ w [j] <-> score c S n s i <= score c S n s j)).
Proof.
  intros c S n s y L Sc N G0 Y U. destruct (weights_log c S n s L N G0 y Y U Sc) as (w & k & E & Sw & K & H).
  pose proof (filled_pos c S n s G0 y Y) as P. set (g := score c S n s) in *.
  exists w. split; [exact E|]. split; [exact Sw|]. pose proof ln10_pos as T. split.
  - exists k. split; [exact K|]. destruct (H k K) as [_ ->]. rewrite ln_div by (apply P; exact K). unfold Rdiv. ring.
  - intros i j I J. destruct (H i I) as [Li ->]. destruct (H j J) as [Lj ->]. rewrite !ln_div by (apply P; assumption). split.
    + apply Rmult_le_pos; [|left; apply Rinv_0_lt_compat; exact T]. pose proof (proj2 (ln_le_iff _ _ (P k K) (P i I)) Li). lra.
    + intros Gi Gj. assert (F : forall x, 0 < g x -> filled g y x = g x) by (intros x X; unfold filled; destruct (Req_EM_T (g x) 0); [lra|reflexivity]).
      rewrite (F i Gi), (F j Gj), <- (ln_le_iff _ _ Gi Gj). generalize (ln (filled g y k)) (ln (g i)) (ln (g j)). intros z p q. split; intro X.
      * assert (Ti : 0 < / ln 10) by (apply Rinv_0_lt_compat; exact T). apply (Rmult_le_reg_r (/ ln 10) _ _ Ti) in X. lra.
      * apply Rmult_le_compat_r; [left; apply Rinv_0_lt_compat; exact T|lra].
Qed.
Print Assumptions log_weights_order.
(* scale_log_norm: the same logarithms relative to the largest, so the weights lie between 0 and 1 and reach both. *)
Theorem scaled_weights : forall c S n s y, log_norm c = true -> scale_log_norm c = true -> (2 <= n)%nat -> (forall i, (i < n)%nat -> 0 <= score c S n s i) ->
  least_positive n (score c S n s) y -> (forall i j, (i < n)%nat -> (j < n)%nat -> score c S n s i = 0 -> score c S n s j = 0 -> i = j) ->
  (exists i j, (i < n)%nat /\ (j < n)%nat /\ filled (score c S n s) y i <> filled (score c S n s) y j) ->
  exists w k k', hessian_weights c (score_tensor S n s) = Ok w /\ shp w = [n] /\ (k < n)%nat /\ (k' < n)%nat /\ at_ w [k] = 0 /\ at_ w [k'] = 1 /\
    forall i, (i < n)%nat -> 0 <= at_ w [i] <= 1 /\
      at_ w [i] = ln (filled (score c S n s) y i / filled (score c S n s) y k) / ln (filled (score c S n s) y k' / filled (score c S n s) y k).
Proof.
  intros c S n s y L Sc N G0 Y U D. destruct (weights_scaled c S n s L N G0 y Y U Sc D) as (w & k & k' & E & Sw & K & K' & Lt & H).
  pose proof (filled_pos c S n s G0 y Y) as P. set (g := score c S n s) in *.
  exists w, k, k'. split; [exact E|]. split; [exact Sw|]. split; [exact K|]. split; [exact K'|].
  pose proof (ln_increasing _ _ (P k K) Lt) as Ll. split; [|split].
  - destruct (H k K) as [_ ->]. rewrite !ln_div by (apply P; assumption). unfold Rdiv. ring.
  - destruct (H k' K') as [_ ->]. rewrite !ln_div by (apply P; assumption). field. lra.
  - intros i I. destruct (H i I) as [[A B] ->]. split; [|reflexivity]. rewrite !ln_div by (apply P; assumption).
    pose proof (proj2 (ln_le_iff _ _ (P k K) (P i I)) A). pose proof (proj2 (ln_le_iff _ _ (P i I) (P k' K')) B).
    assert (0 < / (ln (filled g y k') - ln (filled g y k))) by (apply Rinv_0_lt_compat; lra). split.
    + apply Rmult_le_pos; lra.
    + apply (Rmult_le_reg_r (ln (filled g y k') - ln (filled g y k))); [lra|]. unfold Rdiv. rewrite Rmult_assoc, Rinv_l by lra. lra.
Qed.
Print Assumptions scaled_weights.
(* The cases the formula does not cover: two scores that are zero (the replacement of a zero is the second smallest score), equal
   scores with scale_log_norm, and a model with one trained layer, whose weight vector has lost its axis. *)
Theorem two_zero_scores : forall c S n s i j, log_norm c = true -> (2 <= n)%nat -> (forall i, (i < n)%nat -> 0 <= score c S n s i) ->
  (i < n)%nat -> (j < n)%nat -> i <> j -> score c S n s i = 0 -> score c S n s j = 0 -> hessian_weights c (score_tensor S n s) = Err E_zero_div.
Proof. intros c S n s i j L N G0 I J D Gi Gj. exact (weights_two_zeros c S n s L N G0 i j I J D Gi Gj). Qed.
Print Assumptions two_zero_scores.
Theorem equal_scores_scaled : forall c S n s x, log_norm c = true -> scale_log_norm c = true -> (2 <= n)%nat -> 0 < x -> (forall i, (i < n)%nat -> score c S n s i = x) ->
  hessian_weights c (score_tensor S n s) = Err E_zero_div.
Proof.
  intros c S n s x L Sc N P H. apply (weights_scaled_equal c S n s L N) with (y := x); try exact Sc.
  - intros i I. rewrite H by exact I. lra.
  - split; [exact P|]. split; [exists 0%nat; split; [lia|apply H; lia]|]. intros i I _. rewrite H by exact I. lra.
  - intros i j I _ Gi _. rewrite H in Gi by exact I. lra.
  - intros i j I J. unfold filled. rewrite !H by assumption. reflexivity.
Qed.
Print Assumptions equal_scores_scaled.
(* FINDING (gptq/common/gptq_training.py L216-219): np.squeeze removes the axis of the layers as well when there is one layer,
   and np.partition refuses the number that is left: GPTQ with Hessian weights stops on a model with one trained layer. *)
Theorem single_layer_refuted : forall c S s, log_norm c = true -> hessian_weights c (score_tensor S 1 s) = Err E_index.
Proof. intros c S s L. apply weights_single; [exact L|reflexivity]. Qed.
Print Assumptions single_layer_refuted.

(* The training step with the default weights: each layer counts with the logarithm of its relative score. *)
Theorem torch_hessian_loss : forall c S s y B ps, log_norm c = true -> scale_log_norm c = false -> compared ps -> has_signal L_torch ps -> (0 < B)%nat -> (2 <= length ps)%nat ->
  (forall i, (i < length ps)%nat -> 0 <= score c S (length ps) s i) -> least_positive (length ps) (score c S (length ps) s) y ->
  (forall i j, (i < length ps)%nat -> (j < length ps)%nat -> score c S (length ps) s i = 0 -> score c S (length ps) s j = 0 -> i = j) ->
  exists k, (k < length ps)%nat /\ (forall i, (i < length ps)%nat -> filled (score c S (length ps) s) y k <= filled (score c S (length ps) s) y i) /\
    (let! w := hessian_weights c (score_tensor S (length ps) s) in step_loss L_torch B ps w) =
    Ok (avg (length ps) (fun i => ln (filled (score c S (length ps) s) y i / filled (score c S (length ps) s) y k) / ln 10 * (mse (quantized ps i) (float ps i) / power (float ps i)))).
Proof.
  intros c S s y B ps L Sc C Sg HB N G0 Y U. destruct (weights_log c S (length ps) s L N G0 y Y U Sc) as (w & k & E & Sw & K & H).
  exists k. split; [exact K|]. split; [intros i I; apply H; exact I|]. rewrite E. cbn [bind]. rewrite (torch_step_loss B ps w C Sg HB Sw). f_equal.
  unfold avg. f_equal. apply rsum_ext. intros i I. destruct (H i I) as [_ ->]. reflexivity.
Qed.
Print Assumptions torch_hessian_loss.

(* FINDING (gptq/common/gptq_training.py L209-213): Without log_norm the scores keep an axis of length one, so the weights of the
   samples are columns; multiplied with the vector of the errors each weight meets each error.  The loss is the average weight
   times the average error: which layer has which weight does not matter. *)
Theorem column_weights : forall c S s f B ps, log_norm c = false -> compared ps -> has_signal f ps -> (0 < B)%nat ->
  (let! w := hessian_weights c (score_tensor S (length ps) s) in step_loss f B ps w) =
  Ok (match f with
      | L_torch => avg (length ps) (score c S (length ps) s) * avg (length ps) (distance f ps)
      | _ => INR B * (rsum (length ps) (score c S (length ps) s) * rsum (length ps) (distance f ps))
      end).
Proof.
  intros c S s f B ps L C Sg HB. destruct (weights_plain c S (length ps) s L) as (w & E & Sw & A). rewrite E. cbn [bind].
  rewrite (step_col f B ps C Sg HB w Sw). f_equal.
  assert (R : rsum (length ps) (fun i => at_ w [i; 0%nat]) = rsum (length ps) (score c S (length ps) s)) by (apply rsum_ext; intros i _; apply A).
  destruct f; unfold avg; rewrite R; reflexivity.
Qed.
Print Assumptions column_weights.

(* ---- sample-layer attention ---- *)
(* PyTorch: the squared distance of a sample's outputs (summed over the channels, averaged over the positions), weighted with
   the score of the sample and the layer, averaged over the samples, summed over the layers, relative to the largest mean score
   of a layer.  If that is zero, the loss is no number. *)
Theorem torch_sla_loss : forall ps B w C rest m, ps <> [] -> (forall i, (i < length ps)%nat -> shp (float ps i) = B :: C i :: rest i) ->
  largest (length ps) (fun i => avg B (fun b => w b i)) m ->
  sla_loss ps B w = if Req_EM_T m 0 then Err E_zero_div
                    else Ok (rsum (length ps) (fun i => avg B (fun b => w b i * first_axis_distance (C i) (rest i) (quantized ps i) (float ps i) b)) / m).
Proof.
  intros ps B w C rest m N H M. apply sla_value; [exact N| |exact M]. intros i b I Hb. apply (norm_first B (C i) (rest i)); [apply H; exact I|exact Hb].
Qed.
Print Assumptions torch_sla_loss.
(* FINDING (gptq/keras/gptq_loss.py L93): Keras outputs end with the channels, the sum over axis 1 is over the rows.  A layer
   counts with its number of rows divided by its number of channels on top of its weight. *)
Theorem keras_sla_loss : forall ps B w H W C m, ps <> [] ->
  (forall i, (i < length ps)%nat -> shp (float ps i) = [B; H i; W i; C i] /\ (0 < H i)%nat /\ (0 < W i)%nat /\ (0 < C i)%nat) ->
  largest (length ps) (fun i => avg B (fun b => w b i)) m -> m <> 0 ->
  sla_loss ps B w = Ok (rsum (length ps) (fun i => INR (H i) / INR (C i) * avg B (fun b => w b i * last_axis_distance (H i) (W i) (C i) (quantized ps i) (float ps i) b)) / m).
Proof.
  intros ps B w H W C m N A M Z. rewrite (torch_sla_loss ps B w H (fun i => [W i; C i]) m N) by (exact M || (intros i I; apply A; exact I)).
  destruct (Req_EM_T m 0); [contradiction|]. f_equal. f_equal. apply rsum_ext. intros i I. destruct (A i I) as (_ & Hh & Hw & Hc).
  unfold avg at 1 2. unfold Rdiv at 1. rewrite (rsum_ext B _ (fun b => INR (H i) / INR (C i) * (w b i * last_axis_distance (H i) (W i) (C i) (quantized ps i) (float ps i) b))).
  - rewrite rsum_scal. unfold Rdiv. ring.
  - intros b _. rewrite first_last by assumption. ring.
Qed.
Print Assumptions keras_sla_loss.
(* multiplying all scores with a positive number changes nothing *)
Theorem sla_scale : forall ps B w a, ps <> [] -> 0 < a -> sla_loss ps B (fun b i => a * w b i) = sla_loss ps B w.
Proof. exact sla_scaled. Qed.
Print Assumptions sla_scale.
(* with positive scores the loss is zero exactly if all outputs agree *)
Theorem sla_zero_iff : forall ps B w C rest, ps <> [] -> (0 < B)%nat -> (forall i b, (i < length ps)%nat -> (b < B)%nat -> 0 < w b i) ->
  (forall i, (i < length ps)%nat -> shp (float ps i) = B :: C i :: rest i /\ (0 < prod (rest i))%nat) ->
  exists l, sla_loss ps B w = Ok l /\ 0 <= l /\ (l = 0 <-> forall i, (i < length ps)%nat -> same (quantized ps i) (float ps i)).
Proof. exact sla_zero. Qed.
Print Assumptions sla_zero_iff.
