(* TrainQModel.v -- quantizers with trained parameters: soft rounding and straight-through rounding of GPTQ, and the QAT
   weight / trainable activation quantizers, with the parameters they export.
   Sources (model_compression_toolkit/):
     gptq/pytorch/quantizer/quant_utils.py L20-109, gptq/keras/quantizer/quant_utils.py L21-150,
     gptq/pytorch/quantizer/soft_rounding/symmetric_soft_quantizer.py L38-247, uniform_soft_quantizer.py L37-193,
     soft_quantizer_reg.py L42-72, and the Keras files of the same names,
     gptq/pytorch/quantizer/ste_rounding/symmetric_ste.py L37-181, gptq/keras/quantizer/ste_rounding/symmetric_ste.py L36-181,
     trainable_infrastructure/pytorch/quantizer_utils.py L20-226,
     qat/pytorch/quantizer/{lsq,ste_rounding}/{symmetric,uniform}_{lsq,ste}.py,
     trainable_infrastructure/pytorch/activation_quantizers/{lsq,ste}/{symmetric,uniform}_{lsq,ste}.py,
     core/common/quantization/quantizers/quantizers_helpers.py L25-124 and L273-299 (what the exported quantizer computes).
   One tensor entry at a time: reshaping and broadcasting the per-channel parameters over the tensor is not modelled, the
   parameters below are those of the entry's channel.  Real numbers stand for floating point numbers; only forward values are
   modelled, no gradients.  The number of bits is positive. *)
From Coq Require Export Reals ZArith List Bool.
From Verif Require Export Base.
Import ListNotations.
Open Scope R_scope.

(* ---- rounding ---- *)
(* torch.floor, tf.floor *)
Definition rfloor (x : R) : Z := Int_part x.
(* torch.ceil, np.ceil *)
Definition rceil (x : R) : Z := (- Int_part (- x))%Z.
(* torch.round, tf.round, np.round: halves go to the even neighbour *)
Definition rround (x : R) : Z :=
  let f := Int_part x in
  if Rlt_dec (x - IZR f) (1 / 2) then f
  else if Rlt_dec (1 / 2) (x - IZR f) then (f + 1)%Z
  else if Z.even f then f else (f + 1)%Z.
(* torch.clip(x, min, max) = min(max(x, min), max) *)
Definition clip (x lo hi : R) : R := Rmin (Rmax x lo) hi.
(* quant_utils.py (PyTorch) L45-80: (f(x) - x).detach() + x *)
Definition ste_ceil (x : R) : R := IZR (rceil x) - x + x.
Definition ste_floor (x : R) : R := IZR (rfloor x) - x + x.
Definition ste_round (x : R) : R := IZR (rround x) - x + x.
Definition ste_clip (x lo hi : R) : R := clip x lo hi - x + x.
(* quant_utils.py (Keras) L108-119: the upper bound is the second argument, the lower one the third *)
Definition kclip (x max_val min_val : R) : R := Rmin (Rmax x min_val) max_val.

(* MIN_THRESHOLD, constants.py L24 *)
Definition min_threshold : R := / 65536.
Definition rlog2 (x : R) : R := ln x / ln 2.
(* quant_utils.py (PyTorch) L20-24, (Keras) L65-71; quantizers_helpers.py L25-41 with min_threshold = MIN_THRESHOLD *)
Definition pot_max (t : R) : R := powerRZ 2 (rceil (rlog2 (Rmax t min_threshold))).
(* 2 ** np.ceil(np.log2(t)) in the convert2inferable methods: no lower limit *)
Definition pot_up (t : R) : R := powerRZ 2 (rceil (rlog2 t)).
(* quant_utils.py L27-33; num_bits - int(signed) *)
Definition n_pos (n : nat) (signed : bool) : R := 2 ^ (n - if signed then 1 else 0)%nat.
Definition delta (t : R) (n : nat) (signed : bool) : R := t / n_pos n signed.
Definition min_int (n : nat) (signed : bool) : R := if signed then - n_pos n signed else 0.
Definition max_int (n : nat) (signed : bool) : R := n_pos n signed - 1.
(* quant_utils.py L36-42 *)
Definition levels (n : nat) : R := 2 ^ n - 1.
Definition delta_uniform (a b : R) (n : nat) : R := (b - a) / levels n.
(* fix_range_to_include_zero (quant_utils.py PyTorch L83-109, Keras L122-150; quantizers_helpers.py L273-299),
   adjust_range_to_include_zero (trainable_infrastructure/pytorch/quantizer_utils.py L63-92) *)
Definition fix_range (a b : R) (n : nat) : R * R :=
  let min_pos := if Rlt_dec 0 a then 1 else 0 in
  let max_neg := if Rlt_dec b 0 then 1 else 0 in
  let mid := if Rlt_dec 0 a then 0 else if Rlt_dec b 0 then 0 else 1 in
  let scale := (b - a) / levels n in
  let a' := scale * IZR (rround (a / scale)) in
  let b' := b - a + a' in
  (a' * mid + max_neg * a, b' * mid + min_pos * b).

(* ---- what the exported quantizer computes ---- *)
(* uniform_quantize_tensor, quantizers_helpers.py L96-124 *)
Definition infer_uniform (a b : R) (n : nat) (x : R) : R :=
  let r := fix_range a b n in
  let d := (snd r - fst r) / levels n in
  d * IZR (rround ((clip x (fst r) (snd r) - fst r) / d)) + fst r.
(* quantize_tensor, quantizers_helpers.py L63-93 *)
Definition infer_symmetric (t : R) (n : nat) (signed : bool) (x : R) : R :=
  infer_uniform (if signed then - t else 0) (t - delta t n signed) n x.

(* ---- soft rounding ---- *)
(* SOFT_ROUNDING_GAMMA, SOFT_ROUNDING_ZETA, gptq/common/gptq_constants.py *)
Definition gamma : R := - (1 / 10).
Definition zeta : R := 11 / 10.
Definition sigmoid (a : R) : R := 1 / (1 + exp (- a)).
(* get_soft_targets: symmetric L154-163, uniform L135-144; Keras clip(..., 1, 0) *)
Definition soft_target (alpha : R) : R := clip (sigmoid alpha * (zeta - gamma) + gamma) 0 1.
(* __call__: symmetric L205-207, uniform L180-182 *)
Definition aux_var (training : bool) (alpha : R) : R :=
  if training then soft_target alpha else if Rle_dec (1 / 2) (soft_target alpha) then 1 else 0.
(* soft_rounding_symmetric_quantizer L38-68 (Keras L37-66); weights are signed *)
Definition soft_symmetric (w aux t : R) (n : nat) (pot : bool) : R :=
  let t := if pot then pot_max t else t in
  let d := delta t n true in
  d * ste_clip (IZR (rfloor (w / d)) + aux) (min_int n true) (max_int n true).
(* soft_rounding_unifrom_quantizer L37-62 (Keras L36-61) *)
Definition soft_uniform (w aux a b : R) (n : nat) : R :=
  let r := fix_range a b n in
  let d := delta_uniform (fst r) (snd r) n in
  d * ste_clip (ste_floor ((w - fst r) / d) + aux) 0 (levels n) + fst r.
(* initialize_quantization: alpha such that the soft target is rest; L133-136 *)
Definition alpha_of (rest : R) : R := - ln ((zeta - gamma) / (rest - gamma) - 1).
(* Keras: safe_log with eps = 1e-16, quant_utils.py L37-47 *)
Definition alpha_safe (rest : R) : R := - ln (Rmax ((zeta - gamma) / (rest - gamma) - 1) (/ 10 ^ 16)).
Definition rest_of (x : R) : R := x - IZR (rfloor x).
(* PyTorch symmetric L131-136: the stored threshold, not rounded to a power of two *)
Definition init_symmetric (w t : R) (n : nat) : R :=
  alpha_of (rest_of (clip (w / delta t n true) (min_int n true) (max_int n true))).
(* Keras symmetric L143-148 *)
Definition init_symmetric_keras (w t : R) (n : nat) : R := alpha_safe (rest_of (w / delta t n true)).
(* PyTorch uniform L124-127: the stored range, not adjusted to include zero *)
Definition init_uniform (w a b : R) (n : nat) : R :=
  alpha_of (rest_of (clip ((w - a) / delta_uniform a b n) 0 (levels n))).
(* Keras uniform L145-148: qutils.clip(x, 0, 2 ** num_bits - 1) *)
Definition init_uniform_keras (w a b : R) (n : nat) : R :=
  alpha_safe (rest_of (kclip ((w - a) / delta_uniform a b n) 0 (levels n))).

(* the learned scale, L229-232: torch.where(scale <= 0, MIN_THRESHOLD, scale); initially 1 (L144-152) *)
Definition eff_scale (s : R) : R := if Rle_dec s 0 then min_threshold else s.
Definition initial_scale : R := 1.
(* SymmetricSoftRoundingGPTQ.__call__ L186-247; learn = quantization_parameter_learning *)
Definition symmetric_call (training learn pot : bool) (n : nat) (t alpha s w : R) : R :=
  let q := soft_symmetric w (aux_var training alpha) t n pot in
  if learn && negb pot then q * eff_scale s else q.
(* get_quant_config L165-184 *)
Definition symmetric_export (learn pot : bool) (t s : R) : R :=
  if pot then pot_max t else if learn then t * eff_scale s else t.
(* UniformSoftRoundingGPTQ.__call__ L160-193 *)
Definition uniform_call (training : bool) (n : nat) (a b alpha w : R) : R :=
  soft_uniform w (aux_var training alpha) a b n.
(* get_quant_config L146-158 *)
Definition uniform_export (a b : R) : R * R := (a, b).

(* ---- the regularization of soft rounding ---- *)
(* torch.pow(x, b) for x >= 0 *)
Definition rpow (x b : R) : R := if Req_EM_T x 0 then (if Req_EM_T b 0 then 1 else 0) else Rpower x b.
Definition rsum (l : list R) : R := fold_right Rplus 0 l.
(* soft_quantizer_reg.py L66 *)
Definition soft_loss (b : R) (alphas : list R) : R :=
  rsum (map (fun al => 1 - rpow (Rabs (soft_target al - 1 / 2) * 2) b) alphas).
(* layer_weights.max() *)
Fixpoint rmax_list (l : list R) : R :=
  match l with [] => 0 | [x] => x | x :: l' => Rmax x (rmax_list l') end.
(* soft_quantizer_reg.py L53-72; max() of an empty tensor raises a RuntimeError *)
Definition regularization (b entropy_reg : R) (layers : list (list R)) (weights : list R) : result R :=
  if negb (length weights =? length layers)%nat then Err E_value
  else match weights with
       | [] => Err E_runtime
       | _ => Ok (entropy_reg * (rsum (map (fun lw => snd lw * soft_loss b (fst lw)) (combine layers weights)) / rmax_list weights))
       end.

(* ---- straight-through rounding of GPTQ ---- *)
(* pertubation_symmetric_quantizer, PyTorch L37-74; weights are signed *)
Definition perturbed (w aux t : R) (n : nat) (pot : bool) (lsbs : R) : R :=
  let t := if pot then pot_max t else t in
  let d := delta t n true in
  let c := ste_clip aux (- (d * lsbs)) (d * lsbs) / d in
  d * ste_clip (ste_round (ste_round (IZR (rround (w / d)) + c))) (min_int n true) (max_int n true).
(* Keras L36-67 *)
Definition perturbed_keras (w aux t : R) (n : nat) (pot : bool) (lsbs : R) : R :=
  let t := if pot then pot_max t else t in
  let d := delta t n true in
  let c := (kclip aux (lsbs * d) (- (lsbs * d)) - aux + aux) / d in
  d * (kclip (ste_round (IZR (rround (w / d)) + c)) (max_int n true) (min_int n true)).
(* MAX_LSB_CHANGE *)
Definition max_lsb_change : R := 1.
(* __call__ L145-181 (Keras L132-168): only the per-channel branch passes max_lsbs_change *)
Definition ste_call (keras per_channel pot : bool) (lsbs : R) (n : nat) (t aux w : R) : R :=
  (if keras then perturbed_keras else perturbed) w aux t n pot (if per_channel then lsbs else max_lsb_change).
(* get_quant_config L133-143 *)
Definition ste_export (t : R) : R := t.
(* the weights of one channel with their auxiliary variables; initialize_quantization: PyTorch L125 torch.zeros(self.threshold_shape),
   one variable for all the weights of a channel; Keras L122-126, one for every weight *)
Definition ste_channel (keras pot : bool) (lsbs : R) (n : nat) (t : R) (aux : nat -> R) (ws : list R) : list R :=
  map (fun iw => ste_call keras true pot lsbs n t (aux (if keras then fst iw else 0%nat)) (snd iw)) (combine (seq 0 (length ws)) ws).
Definition initial_aux : R := 0.

(* ---- QAT and trainable activation quantizers ---- *)
(* quantizer_utils.py L48-60 *)
Definition grad_scale (x s : R) : R := x - x * s + x * s.
(* symmetric_quantizer L95-129 *)
Definition symmetric_quantizer (x t : R) (n : nat) (sign : bool) : R :=
  let d := t / n_pos n sign in
  d * ste_clip (ste_round (x / d)) (min_int n sign) (max_int n sign).
(* uniform_quantizer L132-163 *)
Definition uniform_quantizer (x a b : R) (n : nat) : R :=
  let r := fix_range a b n in
  let d := (snd r - fst r) / levels n in
  d * ste_clip (ste_round ((x - fst r) / d)) 0 (levels n) + fst r.
(* symmetric_lsq_quantizer L167-194 *)
Definition symmetric_lsq (x t : R) (n : nat) (sign : bool) (scale : R) : R :=
  let d := grad_scale (t / n_pos n sign) scale in
  d * clip (ste_round (x / d)) (min_int n sign) (max_int n sign).
(* uniform_lsq_quantizer L198-226 *)
Definition uniform_lsq (x a b : R) (n : nat) (scale : R) : R :=
  let r := fix_range a b n in
  let d := grad_scale ((snd r - fst r) / levels n) scale in
  d * clip (ste_round ((x - fst r) / d)) 0 (levels n) + fst r.

(* the trained quantizers; the parameters are the current values of the trained variables *)
Inductive tq : Type :=
| T_lsq_weight (pot : bool) (t : R)                       (* LSQWeightQATQuantizer *)
| T_ste_weight (pot : bool) (t : R)                       (* STEWeightQATQuantizer *)
| T_lsq_act (pot sign : bool) (t : R)                     (* LSQSymmetricActivationTrainableQuantizer *)
| T_ste_act (pot sign : bool) (t : R)                     (* STESymmetricActivationTrainableQuantizer *)
| T_lsq_uniform (a b : R)                                 (* LSQUniformWeightQATQuantizer, LSQUniformActivationTrainableQuantizer *)
| T_ste_uniform (a b : R).                                (* STEUniformWeightQATQuantizer, STEUniformActivationTrainableQuantizer *)
(* the exported (inferable) quantizers *)
Inductive iq : Type := I_symmetric (signed : bool) (t : R) | I_uniform (a b : R).
(* __init__: the threshold a quantizer starts from; LSQ weights L56-58, STE weights L56-62, activations as given *)
Definition start_threshold (weights pot : bool) (t : R) : R := if weights && pot then pot_max t else t.
(* __call__; scale is the LSQ gradient scale of the call *)
Definition tq_call (q : tq) (n : nat) (scale x : R) : R :=
  match q with
  | T_lsq_weight _ t => symmetric_lsq x t n true scale
  | T_ste_weight _ t => let d := t / n_pos n true in d * ste_clip (ste_round (x / d)) (min_int n true) (max_int n true)
  | T_lsq_act _ s t => symmetric_lsq x t n s scale
  | T_ste_act _ s t => symmetric_quantizer x t n s
  | T_lsq_uniform a b => uniform_lsq x a b n scale
  | T_ste_uniform a b => uniform_quantizer x a b n
  end.
(* convert2inferable *)
Definition convert (q : tq) (n : nat) : iq :=
  match q with
  | T_lsq_weight pot t | T_ste_weight pot t => I_symmetric true (if pot then pot_up t else t)
  | T_lsq_act pot s t | T_ste_act pot s t => I_symmetric s (if pot then pot_up t else t)
  | T_lsq_uniform a b => I_uniform (fst (fix_range a b n)) (snd (fix_range a b n))
  | T_ste_uniform a b => I_uniform a b
  end.
Definition iq_call (q : iq) (n : nat) (x : R) : R :=
  match q with
  | I_symmetric s t => infer_symmetric t n s x
  | I_uniform a b => infer_uniform a b n x
  end.
