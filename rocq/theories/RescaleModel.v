(* RescaleModel.v -- rewrites that rescale or shift a layer and compensate for it in its neighbours.
   Sources: core/keras/graph_substitutions/substitutions/relu_bound_to_power_of_2.py L29-97 and the PyTorch file L30-118,
     core/keras/graph_substitutions/substitutions/input_scaling.py L27-135, core/common/user_info.py L34-42,
     gptq/common/gptq_training.py L97-102, gptq/keras/gptq_training.py L393 (use of the input scale),
     core/common/substitutions/softmax_shift.py L41-72, core/common/collectors/min_max_per_channel_collector.py L45-90 (scale, shift).
   Which nodes are handed to a rewrite is a walk of the graph (GraphModel.walk_filter).  Real numbers stand for floating point
   numbers.  Of the statistics of a node only the observed range is kept.  The new quantization parameters that input scaling
   computes for the kernel are not modelled. *)
From Verif Require Import LinNode.

(* ---- the bound of a ReLU ---- *)
(* the non-linear node: Keras ReLU(max_value, threshold, negative_slope); torch.nn.ReLU6; torch.nn.Hardtanh(min_val, max_val);
   torch.nn.functional.relu6; torch.nn.functional.hardtanh with the keyword arguments min_val, max_val, inplace that were written *)
Inductive act : Type :=
| A_relu (max : option R) (thr slope : R)
| A_relu6
| A_hardtanh (lo hi : R)
| A_f_relu6
| A_f_hardtanh (lo hi : option R) (inplace : bool).
(* torch.nn.functional.hardtanh.__defaults__[0:2]: one value for the whole process *)
Definition defaults : Type := (R * R)%type.

(* np.log2(m).astype(int) - np.log2(m) == 0; np.log2 of a number that is not positive is no integer *)
Definition rlog2 (m : R) : R := ln m / ln 2.
Definition trunc (x : R) : Z := if Rle_dec 0 x then Int_part x else (- Int_part (- x))%Z.
Definition pot_bound (m : R) : bool :=
  if Rlt_dec 0 m then (if Req_EM_T (IZR (trunc (rlog2 m)) - rlog2 m) 0 then true else false) else false.
(* RELU_POT_BOUND, core/keras/constants.py L112 and core/pytorch/constants.py L75 *)
Definition relu_pot_bound : R := 8.
(* Keras L89-95, PyTorch L111-117; None / scale_factor raises TypeError *)
Definition rescale (l1 l2 : lin) (s : R) : result (lin * lin) :=
  match l_bias l1 with
  | None => Err E_type
  | Some b => Ok (set_weights l1 (nmap (fun v => v / s) (l_kernel l1)) (Some (nmap (fun v => v / s) b)) (l_use_bias l1),
                  set_kernel l2 (nmap (fun v => s * v) (l_kernel l2)))
  end.
Definition with_act (l1 l2 : lin) (s : R) (a : act) (d : defaults) : result (lin * act * lin * defaults) :=
  let! r := rescale l1 l2 s in Ok (fst r, a, snd r, d).
(* Keras L54-97; PyTorch L57-118 *)
Definition relu_bound (d : defaults) (l1 : lin) (a : act) (l2 : lin) : result (lin * act * lin * defaults) :=
  let same := Ok (l1, a, l2, d) in
  match a with
  | A_relu None _ _ => same
  | A_relu (Some m) t g => if pot_bound m then same else with_act l1 l2 (m / relu_pot_bound) (A_relu (Some relu_pot_bound) t g) d
  | A_relu6 => with_act l1 l2 (6 / relu_pot_bound) (A_hardtanh 0 relu_pot_bound) d
  | A_f_relu6 => with_act l1 l2 (6 / relu_pot_bound) (A_f_hardtanh None None false) (0, relu_pot_bound)
  | A_hardtanh lo hi =>
      if Req_EM_T lo 0 then
        if pot_bound hi then same else with_act l1 l2 (hi / relu_pot_bound) (A_hardtanh lo relu_pot_bound) d
      else same
  | A_f_hardtanh None _ _ => Err E_key
  | A_f_hardtanh (Some lo) hi inplace =>
      if Req_EM_T lo 0 then
        match hi with
        | None => Err E_key
        | Some m => if pot_bound m then same else if negb inplace then Err E_key
                    else with_act l1 l2 (m / relu_pot_bound) a (0, relu_pot_bound)      (* __defaults__ is set, the keyword arguments stay *)
        end
      else same
  end.

(* ---- input scaling ---- *)
(* input_scaling.py L64-110 *)
(* threshold of the input's activation quantization; observed range; the layer.  The result: the input scale if it is set, the layer,
   the range.  1 / scale_factor for a range that is only zero: ZeroDivisionError (an infinite number if the threshold is a numpy scalar). *)
Definition input_scaling (thr : option R) (range : R * R) (l : lin) : result (option R * lin * (R * R)) :=
  match thr with
  | None => Ok (None, l, range)
  | Some t =>
      let tf := Rmax (Rabs (fst range)) (snd range) in
      if Rlt_dec tf t then
        let s := tf / t in
        if Req_EM_T s 0 then Err E_zero_div else
        Ok (Some (1 / s), set_kernel l (nmap (fun v => v * s) (l_kernel l)), (1 / s * fst range, 1 / s * snd range))
      else Ok (None, l, range)
  end.
(* the matches in turn; user_info holds one input scale, 1 at first *)
Definition scale_inputs (ms : list (option R * (R * R) * lin)) : result (R * list lin) :=
  foldM (fun st m => let '(scale, ls) := st in let '(thr, range, l) := m in
    let! r := input_scaling thr range l in let '(s, l', _) := r in
    Ok (match s with Some v => v | None => scale end, ls ++ [l'])) ms (1, []).

(* ---- softmax shift ---- *)
(* softmax_shift.py L41-72 *)
(* quantized: is_activation_quantization_enabled(); stats: the range of a StatsCollector, None for a collector of another type.
   A bias that is missing becomes a number; framework_attr[USE_BIAS] stays. *)
Definition softmax_shift (quantized : bool) (stats : option (R * R)) (l : lin) : lin * option (R * R) :=
  match quantized, stats with
  | true, Some (lo, hi) =>
      let c := - 1 * (hi + lo) / 2 in
      let b := match l_bias l with Some b => nmap (fun v => v + c) b | None => scalar (0 + c) end in
      (set_weights l (l_kernel l) (Some b) (l_use_bias l), Some (lo + c, hi + c))
  | _, _ => (l, stats)
  end.
