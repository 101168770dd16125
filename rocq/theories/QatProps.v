(* QatProps.v -- C100: which quantizers a model prepared for quantization-aware training has *)
From Coq Require Import List Arith Bool Lia.
From Verif Require Import Base QatModel QatSpec QatProofs.
Import ListNotations.
Open Scope nat_scope.
Open Scope res_scope.

(* a class is found exactly when one, and only one, class suits the target, the training method and the quantization method *)
Theorem quantizer_class_exact : forall cls t id m c,
  quantizer_class cls t id m = Ok c <->
  exists l1 l2, cls = l1 ++ c :: l2 /\ suits t id m c /\ forall d, In d (l1 ++ l2) -> ~ suits t id m d.
Proof. exact class_exact. Qed.
Print Assumptions quantizer_class_exact.
Example class_found : quantizer_class (qat_weight_classes Keras) T_weights I_lsq M_sym = Ok (QClass 3 (Some T_weights) (Some [M_pot; M_sym]) (Some I_lsq) []).
Proof. reflexivity. Qed.

(* the built-in classes: STE and LSQ for power-of-two, symmetric and uniform quantization *)
Theorem qat_classes_available : forall fw id m,
  (is_ok (quantizer_class (qat_weight_classes fw) T_weights id m) = true <-> trainable id m)
  /\ (is_ok (quantizer_class (activation_classes fw) T_activation id m) = true <-> trainable id m).
Proof.
  intros fw id m. pose proof (weight_classes_table fw id m) as W. pose proof (act_classes_table fw id m) as A. split.
  - destruct (quantizer_class (qat_weight_classes fw) _ _ _); cbn; destruct W as [W V]; [tauto|]. split; [discriminate | contradiction].
  - destruct (quantizer_class (activation_classes fw) _ _ _); cbn; destruct A as [U V]; [tauto|]. split; [discriminate | contradiction].
Qed.
Print Assumptions qat_classes_available.

(* a layer comes back wrapped only when its kernel is quantized; it has then one quantizer, of a class that suits the training
   method and the quantization method, with the final configuration of the kernel and the first of each set of equal candidates *)
Theorem qat_wrapped_layer : forall fw cfg n w r, n_final_w n = Some w -> wrap fw cfg n = Ok r ->
  match r with
  | None => n_kernel n = None \/ exists k a, n_kernel n = Some k /\ attr_of w k a /\ a_enabled a = false
  | Some qs => exists k a q cs, n_kernel n = Some k /\ attr_of w k a /\ a_enabled a = true /\ qs = [(k, q)]
      /\ suits T_weights (g_weights cfg) (a_method a) (q_class q) /\ In (q_class q) (qat_weight_classes fw)
      /\ q_conf q = WConf (a_method a) (a_bits a) (a_params a) true (fst (a_axis a)) (a_per_channel a) (w_min w) cs
      /\ weight_cands n k cs /\ q_args q = g_weights_args cfg
  end.
Proof. exact wrap_value. Qed.
Print Assumptions qat_wrapped_layer.

(* when wrapping a layer with quantized kernel succeeds: candidates agree, there are classes for kernel and activations, and the
   keyword arguments are those the constructors take -- none for weights *)
Theorem qat_wrap_succeeds : forall fw cfg n w x k a,
  n_final_w n = Some w -> n_final_a n = Some x -> n_kernel n = Some k -> attr_of w k a -> a_enabled a = true ->
  (is_ok (wrap fw cfg n) = true <->
   agrees n (Some k) /\ trainable (g_weights cfg) (a_method a) /\ g_weights_args cfg = [] /\
   (x_mode x = Q_quant -> trainable (g_act cfg) (x_method x) /\ accepted (g_act cfg) (g_act_args cfg))).
Proof. exact wrap_succeeds. Qed.
Print Assumptions qat_wrap_succeeds.

(* the quantizer of the activations of a node *)
Theorem qat_activation_quantizer : forall fw cfg n x q, n_final_a n = Some x -> holder fw cfg n = Ok q ->
  x_mode x = Q_quant /\ suits T_activation (g_act cfg) (x_method x) (q_class q) /\ In (q_class q) (activation_classes fw)
  /\ (exists cs, act_cands n cs /\ q_conf q = AConf (x_method x) (x_bits x) (x_params x) true (x_min x) cs) /\ q_args q = g_act_args cfg.
Proof. exact holder_value. Qed.
Print Assumptions qat_activation_quantizer.
Theorem qat_activation_succeeds : forall fw cfg n x, n_final_a n = Some x -> x_mode x = Q_quant ->
  (is_ok (holder fw cfg n) = true <->
   agrees n None /\ trainable (g_act cfg) (x_method x) /\ accepted (g_act cfg) (g_act_args cfg) /\ (fw = Keras -> n_outs n = 1)).
Proof. exact holder_succeeds. Qed.
Print Assumptions qat_activation_succeeds.

(* an example: a convolution with two candidates, kernel 0 and bias 1 quantized *)
Definition kern (b : nat) : attr_cfg := Attr M_pot b (100 + b) true (3, 2) true 0.
Definition bias : attr_cfg := Attr M_sym 8 7 true (0, 0) false 0.
Definition conv_w (b : nat) : weights_cfg := Weights [(0, kern b); (1, bias)] 5.
Definition act8 : act_cfg := Act M_uni 8 9 Q_quant 5 0.
Definition conv : node := Node (Some 0) [Cand (conv_w 8) act8; Cand (conv_w 4) act8; Cand (conv_w 8) act8] (Some (conv_w 4)) (Some act8) 1.
Definition plain_cfg : qat_config := QatConfig I_ste I_lsq [] [].
Example conv_wrapped : wrap Pytorch plain_cfg conv =
  Ok (Some [(0, Quantizer (QClass 1 (Some T_weights) (Some [M_pot; M_sym]) (Some I_ste) [])
                          (WConf M_pot 4 104 true 3 true 5 (Some [CandConf 8 108; CandConf 4 104])) [])]).
Proof. reflexivity. Qed.
Example conv_held : holder Keras plain_cfg conv =
  Ok (Quantizer (QClass 8 (Some T_activation) (Some [M_uni]) (Some I_lsq) []) (AConf M_uni 8 9 true 5 (Some [CandConf 8 9])) []).
Proof. reflexivity. Qed.

(* FINDING (qat/{pytorch,keras}/quantization_facade.py qat_wrapper, the TODO there): weights other than the kernel are never
   wrapped, though their quantization is enabled -- the bias of this convolution stays in float, and so do the constants of a
   node without kernel; post-training quantization of the same node quantizes them *)
Theorem qat_other_weights_refuted :
  (forall fw cfg n w qs k q, n_final_w n = Some w -> wrap fw cfg n = Ok (Some qs) -> In (k, q) qs -> n_kernel n = Some k)
  /\ exists cfg n w r, n_final_w n = Some w /\ attr_of w 1 bias /\ a_enabled bias = true
     /\ (forall fw, wrap fw cfg n = Ok (Some (r fw)) /\ ~ In 1 (map fst (r fw))).
Proof.
  split.
  - intros fw cfg n w qs k q F H I. destruct (wrap_value _ _ _ _ _ F H) as (k' & a & q' & cs & K & _ & _ & -> & _).
    destruct I as [E|[]]. injection E as -> ->. exact K.
  - exists plain_cfg, conv, (conv_w 4), (fun _ => [(0, Quantizer (QClass 1 (Some T_weights) (Some [M_pot; M_sym]) (Some I_ste) [])
                          (WConf M_pot 4 104 true 3 true 5 (Some [CandConf 8 108; CandConf 4 104])) [])]).
    split; [reflexivity|]. split; [exists [(0, kern 4)], []; split; [reflexivity | cbn; intuition congruence]|]. split; [reflexivity|].
    intros fw. split; [reflexivity | cbn; intuition congruence].
Qed.
Print Assumptions qat_other_weights_refuted.

(* FINDING (qat/pytorch/quantizer/__init__.py): TrainingMethod.DQA is offered, but the module with its class is not imported
   (and there is none for Keras or for activations): every layer with a quantized kernel is refused *)
Theorem dqa_refuted : forall fw cfg n w x k a,
  n_final_w n = Some w -> n_final_a n = Some x -> n_kernel n = Some k -> attr_of w k a -> a_enabled a = true ->
  g_weights cfg = I_dqa -> is_ok (wrap fw cfg n) = false.
Proof.
  intros fw cfg n w x k a F FA K G E D. destruct (is_ok (wrap fw cfg n)) eqn:O; [|reflexivity].
  apply (wrap_succeeds fw cfg n w x k a F FA K G E) in O. destruct O as (_ & [[T|T] _] & _); congruence.
Qed.
Print Assumptions dqa_refuted.

(* kernels quantized by lookup tables cannot be trained *)
Theorem qat_lut_refused : forall fw cfg n w x k a,
  n_final_w n = Some w -> n_final_a n = Some x -> n_kernel n = Some k -> attr_of w k a -> a_enabled a = true ->
  a_method a = M_lut_pot \/ a_method a = M_lut_sym -> is_ok (wrap fw cfg n) = false.
Proof.
  intros fw cfg n w x k a F FA K G E D. destruct (is_ok (wrap fw cfg n)) eqn:O; [|reflexivity].
  apply (wrap_succeeds fw cfg n w x k a F FA K G E) in O. destruct O as (_ & [_ [T|[T|T]]] & _), D; congruence.
Qed.
Print Assumptions qat_lut_refused.

(* FINDING (qat/keras/quantizer/quantization_builder.py L108): the Keras builder makes a quantizer for each output, which the
   holder then refuses: a node with several quantized outputs cannot be prepared in Keras; in PyTorch the same node can *)
Theorem qat_keras_outputs_refuted :
  (forall cfg n x, n_final_a n = Some x -> x_mode x = Q_quant -> n_outs n <> 1 -> is_ok (holder Keras cfg n) = false)
  /\ exists cfg n x, n_final_a n = Some x /\ x_mode x = Q_quant /\ n_outs n <> 1 /\ is_ok (holder Pytorch cfg n) = true.
Proof.
  split.
  - intros cfg n x F M O. destruct (is_ok (holder Keras cfg n)) eqn:R; [|reflexivity].
    apply (holder_succeeds Keras cfg n x F M) in R. destruct R as (_ & _ & _ & R). specialize (R eq_refl). contradiction.
  - exists plain_cfg, (Node None [] None (Some act8) 2), act8. repeat split; try reflexivity. cbn. lia.
Qed.
Print Assumptions qat_keras_outputs_refuted.

(* FINDING (trainable_infrastructure/{pytorch,keras}/activation_quantizers/lsq): freezing the quantization parameters of
   activations, which the base class provides for, is refused for LSQ because its constructors do not take the argument; STE takes it *)
Theorem qat_freeze_lsq_refuted : forall fw v n x, n_final_a n = Some x -> x_mode x = Q_quant ->
  is_ok (holder fw (QatConfig I_ste I_lsq [] [(freeze, v)]) n) = false
  /\ (plain (x_method x) -> agrees n None -> (fw = Keras -> n_outs n = 1) -> is_ok (holder fw (QatConfig I_ste I_ste [] [(freeze, v)]) n) = true).
Proof.
  intros fw v n x F M. split.
  - destruct (is_ok _) eqn:O; [|reflexivity]. apply (holder_succeeds _ _ n x F M) in O. destruct O as (_ & _ & [A|[A _]] & _); discriminate.
  - intros P A K. apply (holder_succeeds _ _ n x F M). split; [exact A|]. split; [split; [left; reflexivity | exact P]|]. split; [|exact K].
    right. split; [reflexivity|]. intros p [<-|[]]. reflexivity.
Qed.
Print Assumptions qat_freeze_lsq_refuted.

(* GPTQ: soft rounding exists for the three methods; straight-through rounding only for the symmetric ones
   FINDING (gptq/{pytorch,keras}/quantizer/ste_rounding): uniform kernels are refused with RoundingType.STE *)
Theorem gptq_ste_uniform_refuted : forall fw m,
  (is_ok (quantizer_class (gptq_classes fw) T_weights I_round_soft m) = true <-> plain m)
  /\ (is_ok (quantizer_class (gptq_classes fw) T_weights I_round_ste m) = true <-> m = M_pot \/ m = M_sym).
Proof. intros fw m. unfold plain. destruct m; cbn; intuition congruence. Qed.
Print Assumptions gptq_ste_uniform_refuted.

(* Candidates are taken for the same when they differ in nothing but their parameters. *)
Theorem qat_equal_candidates :
  (forall a b, attr_eqb a b = true <-> exists p, b = Attr (a_method a) (a_bits a) p (a_enabled a) (a_axis a) (a_per_channel a) (a_other a)) /\
  (forall a b, act_eqb a b = true <-> exists p, b = Act (x_method a) (x_bits a) p (x_mode a) (x_min a) (x_other a)).
Proof.
  split; intros a b; unfold attr_eqb, act_eqb; rewrite !andb_true_iff, ?Nat.eqb_eq, ?Bool.eqb_true_iff.
  - destruct a as [m1 b1 p1 e1 [x1 y1] c1 o1], b as [m2 b2 p2 e2 [x2 y2] c2 o2]; cbn. split.
    + intros [[[[[[M <-] <-] <-] <-] <-] <-]. exists p2. f_equal. destruct m1, m2; try discriminate; reflexivity.
    + intros [p E]. injection E as -> -> -> -> -> -> -> ->. repeat split; try reflexivity. destruct m1; reflexivity.
  - destruct a as [m1 b1 p1 e1 x1 o1], b as [m2 b2 p2 e2 x2 o2]; cbn. split.
    + intros [[[[M <-] E] <-] <-]. exists p2. f_equal; [destruct m1, m2; try discriminate; reflexivity | destruct e1, e2; try discriminate; reflexivity].
    + intros [p E]. injection E as -> -> -> -> -> ->. repeat split; try reflexivity; [destruct m1; reflexivity | destruct e1; reflexivity].
Qed.
Print Assumptions qat_equal_candidates.
