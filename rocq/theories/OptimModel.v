(* OptimModel.v -- which optimizer trains which parameter.
   Sources: gptq/common/gptq_training.py L97-229 (get_optimizer_with_param and its caller),
     gptq/pytorch/graph_info.py L25-58, gptq/keras/graph_info.py L28-64 (get_gptq_trainable_parameters),
     gptq/pytorch/gptq_training.py (train), gptq/keras/gptq_training.py (compute_gradients).
   Parameters and optimizer objects are numbers. *)
From Verif Require Export Base.

(* a wrapped layer: the variables of its kernel quantizer in the two groups, and its bias if there is one *)
Record glayer := GLayer { g_weights : list nat; g_qparams : list nat; g_bias : option nat }.
(* gptq_training.py L116-119: the three lists, flattened; graph_info.py *)
Definition trainable (layers : list glayer) (add_bias : bool) : list nat * list nat * list nat :=
  (flat_map g_weights layers,
   if add_bias then flat_map (fun l => match g_bias l with Some b => [b] | None => [] end) layers else [],
   flat_map g_qparams layers).

Record gptq_cfg := GptqCfg {
  o_main : nat;                 (* optimizer *)
  o_rest : option nat;          (* optimizer_rest *)
  o_bias : option nat;          (* optimizer_bias *)
  o_qparam : option nat;        (* optimizer_quantization_parameter *)
  train_bias : bool;
  learn_qparams : bool          (* gptq_quantizer_params_override[QUANT_PARAM_LEARNING_STR] *)
}.
(* L175-229 *)
Definition get_optimizer_with_param (c : gptq_cfg) (weights bias qparams : list nat) : result (list (nat * list nat)) :=
  let opt := [(o_main c, weights)] in
  if train_bias c || learn_qparams c then
    let! (opt, res) :=
      if train_bias c then
        match o_bias c with
        | Some o => Ok (opt ++ [(o, bias)], [])
        | None => match o_rest c with None => Err E_critical | Some _ => Ok (opt, bias) end
        end
      else Ok (opt, []) in
    let! (opt, res) :=
      if learn_qparams c then
        let '(opt, res) := match o_qparam c with Some o => (opt ++ [(o, qparams)], res) | None => (opt, res ++ qparams) end in
        match o_rest c with None => Err E_critical | Some _ => Ok (opt, res) end
      else Ok (opt, res) in
    if Nat.ltb 0 (length res)
    then match o_rest c with None => Err E_critical | Some o => Ok (opt ++ [(o, res)]) end
    else Ok opt
  else Ok opt.

(* PyTorch train(): param_groups.clear() and add_param_group for every pair; groups: the parameter groups of each optimizer *)
Definition set_groups (groups : nat -> list (list nat)) (p : nat * list nat) : nat -> list (list nat) :=
  fun o => if Nat.eqb o (fst p) then [snd p] else groups o.
Definition attach (groups : nat -> list (list nat)) (ps : list (nat * list nat)) : nat -> list (list nat) := fold_left set_groups ps groups.

(* Keras compute_gradients: gradients of all parameters in one list, cut into the lists of the optimizers *)
Fixpoint cut {G} (grads : list G) (i : nat) (ps : list (nat * list nat)) : list (list G) :=
  match ps with [] => [] | (_, p) :: r => firstn (length p) (skipn i grads) :: cut grads (i + length p) r end.
Definition keras_gradients {G} (gradient : nat -> G) (ps : list (nat * list nat)) : list (list G) :=
  let param2grad := flat_map snd ps in cut (map gradient param2grad) 0 ps.
