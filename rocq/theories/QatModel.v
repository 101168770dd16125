(* QatModel.v -- C100: preparing a model for quantization-aware training.
   Model of trainable_infrastructure/common/{get_quantizers,get_quantizer_config,base_trainable_quantizer}.py,
   qat/common/qat_config.py, qat/{pytorch,keras}/quantizer/quantization_builder.py and the wrapper functions of
   qat/{pytorch,keras}/quantization_facade.py; the class choice of gptq/{pytorch,keras}/quantizer/quantization_builder.py.
   Simplified: values that are only passed on (quantization parameters, minimal thresholds, functions, error methods) are
   numbers standing for them; attribute configurations are found by their exact names (the search by part of a name is
   not modelled here); the checks of signatures and of @mark_quantizer (base_trainable_quantizer L55-71), which all built-in classes
   pass, are left out.  What the quantizers compute is in TrainQModel. *)
From Coq Require Import List Arith Bool Lia.
From Verif Require Import Base.
Import ListNotations.
Open Scope nat_scope.
Open Scope res_scope.

(* mct_quantizers QuantizationMethod *)
Inductive qmethod := M_pot | M_sym | M_uni | M_lut_pot | M_lut_sym.
Definition qmethod_eqb (a b : qmethod) : bool :=
  match a, b with M_pot, M_pot | M_sym, M_sym | M_uni, M_uni | M_lut_pot, M_lut_pot | M_lut_sym, M_lut_sym => true | _, _ => false end.
(* mct_quantizers QuantizationTarget *)
Inductive target := T_weights | T_activation.
Definition target_eqb (a b : target) : bool := match a, b with T_weights, T_weights | T_activation, T_activation => true | _, _ => false end.
(* identifiers of classes: trainable_infrastructure/common/training_method.py TrainingMethod, gptq/common/gptq_config.py RoundingType *)
Inductive ident := I_ste | I_dqa | I_lsq | I_round_ste | I_round_soft.
Definition ident_eqb (a b : ident) : bool :=
  match a, b with I_ste, I_ste | I_dqa, I_dqa | I_lsq, I_lsq | I_round_ste, I_round_ste | I_round_soft, I_round_soft => true | _, _ => false end.
(* core/common/quantization/node_quantization_config.py ActivationQuantizationMode *)
Inductive mode := Q_quant | Q_fln | Q_preserve | Q_no | Q_fln_no.
Definition mode_eqb (a b : mode) : bool :=
  match a, b with Q_quant, Q_quant | Q_fln, Q_fln | Q_preserve, Q_preserve | Q_no, Q_no | Q_fln_no, Q_fln_no => true | _, _ => false end.

(* a quantizer class: what @mark_quantizer set on it, and the keyword arguments of its constructor; freeze_quant_params is keyword 0 *)
Record qclass := QClass { c_name : nat; c_target : option target; c_methods : option (list qmethod); c_id : option ident; c_keywords : list nat }.
Definition freeze : nat := 0.

(* get_quantizers.py L25-61 *)
Definition fits (t : target) (id : ident) (m : qmethod) (c : qclass) : bool :=
  match c_target c with Some t' => target_eqb t' t | None => false end
  && match c_methods c with Some ms => existsb (qmethod_eqb m) ms | None => false end
  && match c_id c with Some i => ident_eqb i id | None => false end.
Definition quantizer_class (classes : list qclass) (t : target) (id : ident) (m : qmethod) : result qclass :=
  match classes with
  | [] => Err E_critical
  | _ => match filter (fits t id m) classes with [c] => Ok c | _ => Err E_critical end
  end.

(* the classes imported by qat/{pytorch,keras}/quantizer/__init__.py; DQA/dqa_uniform.py is not among them *)
Inductive framework := Pytorch | Keras.
Definition qat_weight_classes (fw : framework) : list qclass :=
  [ QClass 1 (Some T_weights) (Some [M_pot; M_sym]) (Some I_ste) [];     (* ste_rounding/symmetric_ste.py *)
    QClass 2 (Some T_weights) (Some [M_uni]) (Some I_ste) [];            (* ste_rounding/uniform_ste.py *)
    QClass 3 (Some T_weights) (Some [M_pot; M_sym]) (Some I_lsq) [];     (* lsq/symmetric_lsq.py *)
    QClass 4 (Some T_weights) (Some [M_uni]) (Some I_lsq) [] ].          (* lsq/uniform_lsq.py *)
(* trainable_infrastructure/{pytorch,keras}/activation_quantizers; only the STE ones take freeze_quant_params *)
Definition activation_classes (fw : framework) : list qclass :=
  [ QClass 5 (Some T_activation) (Some [M_pot; M_sym]) (Some I_ste) [freeze];
    QClass 6 (Some T_activation) (Some [M_uni]) (Some I_ste) [freeze];
    QClass 7 (Some T_activation) (Some [M_pot; M_sym]) (Some I_lsq) [];
    QClass 8 (Some T_activation) (Some [M_uni]) (Some I_lsq) [] ].
(* gptq/{pytorch,keras}/quantizer: soft rounding for all three methods, straight-through rounding for the symmetric ones *)
Definition gptq_classes (fw : framework) : list qclass :=
  [ QClass 9 (Some T_weights) (Some [M_pot; M_sym]) (Some I_round_soft) [];
    QClass 10 (Some T_weights) (Some [M_uni]) (Some I_round_soft) [];
    QClass 11 (Some T_weights) (Some [M_pot; M_sym]) (Some I_round_ste) [] ].

(* WeightsAttrQuantizationConfig; a_other: the functions, error method and norm *)
Record attr_cfg := Attr { a_method : qmethod; a_bits : nat; a_params : nat; a_enabled : bool; a_axis : nat * nat; a_per_channel : bool; a_other : nat }.
(* NodeWeightsQuantizationConfig *)
Record weights_cfg := Weights { w_attrs : list (nat * attr_cfg); w_min : nat }.
(* NodeActivationQuantizationConfig *)
Record act_cfg := Act { x_method : qmethod; x_bits : nat; x_params : nat; x_mode : mode; x_min : nat; x_other : nat }.
(* CandidateNodeQuantizationConfig *)
Record cand := Cand { k_weights : weights_cfg; k_act : act_cfg }.
(* BaseNode: the kernel attribute, the candidates, the final configurations and the number of output shapes *)
Record node := Node { n_kernel : option nat; n_cands : list cand; n_final_w : option weights_cfg; n_final_a : option act_cfg; n_outs : nat }.

(* node_quantization_config.py L355-363 and L221-234: what equality (and the hash) of configurations compares; not the parameters *)
Definition attr_eqb (a b : attr_cfg) : bool :=
  qmethod_eqb (a_method a) (a_method b) && (a_bits a =? a_bits b) && Bool.eqb (a_enabled a) (a_enabled b)
  && (fst (a_axis a) =? fst (a_axis b)) && (snd (a_axis a) =? snd (a_axis b)) && Bool.eqb (a_per_channel a) (a_per_channel b) && (a_other a =? a_other b).
Definition act_eqb (a b : act_cfg) : bool :=
  qmethod_eqb (x_method a) (x_method b) && (x_bits a =? x_bits b) && mode_eqb (x_mode a) (x_mode b) && (x_min a =? x_min b) && (x_other a =? x_other b).

(* node_quantization_config.py L452-485 *)
Definition get_attr (w : weights_cfg) (k : nat) : result attr_cfg :=
  match find (fun p => fst p =? k) (w_attrs w) with Some p => Ok (snd p) | None => Err E_critical end.
(* base_node.py L223-245; candidates that disagree are only logged (L239-241, Logger.error does not raise) *)
Definition weights_enabled (n : node) (k : nat) : result bool :=
  match n_final_w n with
  | Some w => let! a := get_attr w k in Ok (a_enabled a)
  | None => let! l := mapM (fun c => get_attr (k_weights c) k) (n_cands n) in
            Ok (forallb a_enabled l)
  end.
(* base_node.py L182-197 *)
Definition act_enabled (n : node) : result bool :=
  match n_final_a n with
  | Some a => Ok (mode_eqb (x_mode a) Q_quant)
  | None => match n_cands n with
            | [] => Err E_assert
            | c :: r => if forallb (fun d => mode_eqb (x_mode (k_act d)) (x_mode (k_act c))) r then Ok (mode_eqb (x_mode (k_act c)) Q_quant) else Err E_assert
            end
  end.

(* trainable_quantizer_config.py *)
Record cand_conf := CandConf { t_bits : nat; t_params : nat }.
Inductive conf :=
  | WConf (m : qmethod) (bits params : nat) (enabled : bool) (axis : nat) (per_channel : bool) (min : nat) (cands : option (list cand_conf))
  | AConf (m : qmethod) (bits params : nat) (enabled : bool) (min : nat) (cands : option (list cand_conf)).

(* get_quantizer_config.py L23-52 *)
Definition weights_config (n : node) (k : nat) (cs : option (list cand_conf)) : result conf :=
  match n_final_w n with
  | None => Err E_critical
  | Some w => let! a := get_attr w k in
      Ok (WConf (a_method a) (a_bits a) (a_params a) (a_enabled a) (fst (a_axis a)) (a_per_channel a) (w_min w) cs)
  end.
(* get_quantizer_config.py L55-80 *)
Definition activation_config (n : node) (cs : option (list cand_conf)) : result conf :=
  match n_final_a n with
  | None => Err E_critical
  | Some a => Ok (AConf (x_method a) (x_bits a) (x_params a) (mode_eqb (x_mode a) Q_quant) (x_min a) cs)
  end.

(* the length of a set of methods is at most one *)
Definition same_method (ms : list qmethod) : bool := match ms with [] => true | m :: r => forallb (qmethod_eqb m) r end.
(* base_node.py L598-603, L614-619: the first of each set of equal configurations *)
Fixpoint unique {A} (eqb : A -> A -> bool) (l seen : list A) : list A :=
  match l with [] => [] | x :: r => if existsb (eqb x) seen then unique eqb r seen else x :: unique eqb r (x :: seen) end.
(* get_quantizer_config.py L83-130; for no attribute the list of weights candidates is empty (base_node.py L592-596) *)
Definition quantization_candidates (n : node) (k : option nat) : result (list cand_conf * list cand_conf) :=
  let! ws := match k with
             | None => Ok []
             | Some k => let! l := mapM (fun c => get_attr (k_weights c) k) (n_cands n) in
                         if same_method (map a_method l) then Ok l else Err E_critical
             end in
  let acts := map k_act (n_cands n) in
  if same_method (map x_method acts)
  then Ok (map (fun a => CandConf (a_bits a) (a_params a)) (unique attr_eqb ws []), map (fun a => CandConf (x_bits a) (x_params a)) (unique act_eqb acts []))
  else Err E_critical.

(* a quantizer: its class, its configuration and the keyword arguments it was made with *)
Record quantizer := Quantizer { q_class : qclass; q_conf : conf; q_args : list (nat * nat) }.
Definition in_methods (m : qmethod) (c : qclass) : bool := match c_methods c with Some ms => existsb (qmethod_eqb m) ms | None => false end.
(* calling the class: a keyword that the constructor does not have is a TypeError; base_trainable_quantizer.py L73-85 *)
Definition construct (c : qclass) (cf : conf) (args : list (nat * nat)) : result quantizer :=
  if forallb (fun p => existsb (Nat.eqb (fst p)) (c_keywords c)) args then
    match c_target c, cf with
    | Some T_weights, WConf m _ _ _ _ _ _ _ => if in_methods m c then Ok (Quantizer c cf args) else Err E_critical
    | Some T_activation, AConf m _ _ _ _ _ => if in_methods m c then Ok (Quantizer c cf args) else Err E_critical
    | _, _ => Err E_critical
    end
  else Err E_type.

(* qat_config.py L36-60 *)
Record qat_config := QatConfig { g_weights : ident; g_act : ident; g_weights_args : list (nat * nat); g_act_args : list (nat * nat) }.

(* qat/{pytorch,keras}/quantizer/quantization_builder.py: the weights part and the activation part *)
Definition build_weights (fw : framework) (n : node) (cfg : qat_config) (kernel : option nat) (cs : option (list cand_conf)) : result (list (nat * quantizer)) :=
  match kernel with
  | None => Ok []
  | Some k =>
      let! e := weights_enabled n k in
      if e then
        match n_final_w n with
        | None => Err E_attr
        | Some w =>
            let! a := get_attr w k in
            let! c := quantizer_class (qat_weight_classes fw) T_weights (g_weights cfg) (a_method a) in
            let! cf := weights_config n k cs in
            let! q := construct c cf (g_weights_args cfg) in
            Ok [(k, q)]
        end
      else Ok []
  end.
Definition build_activation (fw : framework) (n : node) (cfg : qat_config) (cs : option (list cand_conf)) : result (list quantizer) :=
  let! e := act_enabled n in
  if e then
    match n_final_a n with
    | None => Err E_attr
    | Some a =>
        let! c := quantizer_class (activation_classes fw) T_activation (g_act cfg) (x_method a) in
        let! cf := activation_config n cs in
        let! q := construct c cf (g_act_args cfg) in
        Ok (repeat q (match fw with Pytorch => 1 | Keras => n_outs n end))
    end
  else Ok [].
(* PyTorch L57-105, Keras L56-110 *)
Definition builder (fw : framework) (n : node) (cfg : qat_config) (kernel : option nat) : result (list (nat * quantizer) * list quantizer) :=
  let! cs := (if 1 <? length (n_cands n)
              then let! p := quantization_candidates n kernel in Ok (Some (fst p), Some (snd p))
              else Ok (None, None)) in
  let! ws := build_weights fw n cfg kernel (fst cs) in
  let! xs := build_activation fw n cfg (snd cs) in
  Ok (ws, xs).

(* qat_config.py L22-33 *)
Definition applicable (n : node) : result bool :=
  let! w := match n_kernel n with None => Ok false | Some k => weights_enabled n k end in
  if w then Ok true else act_enabled n.
(* qat_wrapper: the quantizers the layer is wrapped with; None when the layer is given back as it is *)
Definition wrap (fw : framework) (cfg : qat_config) (n : node) : result (option (list (nat * quantizer))) :=
  let! ap := applicable n in
  if ap then
    let! p := builder fw n cfg (n_kernel n) in
    Ok (match fst p with [] => None | qs => Some qs end)
  else Ok None.
(* get_activation_quantizer_holder: PyTorch L32-54, Keras L32-53; called for nodes with activation quantization *)
Definition holder (fw : framework) (cfg : qat_config) (n : node) : result quantizer :=
  let! p := builder fw n cfg None in
  match snd p with [q] => Ok q | _ => Err E_critical end.
