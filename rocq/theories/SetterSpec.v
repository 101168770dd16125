(* SetterSpec.v -- which candidate a mixed-precision configuration gives to a node. *)
From Coq Require Import String.
From Verif Require Import Base SDict MPModel HessianModel FilterModel PlatModel LookupModel CandModel CandSpec SetterModel.
Local Open Scope list_scope.

(* the node's activations are quantized with different configurations, or -- unless it reuses a layer -- its kernel is *)
Definition act_varies (cs : list cand) : Prop :=
  all_mode M_quant cs /\ exists a b, In a cs /\ In b cs /\ (cd_bits a <> cd_bits b \/ cd_method a <> cd_method b).
Definition weights_vary (n : snode) : Prop :=
  sn_reuse n = false /\ cn_kernel (sn_node n) <> Some EmptyString /\ kernel_quantized (cn_kernel (sn_node n)) (sn_cands n) /\
  exists a b wa wb, In a (sn_cands n) /\ In b (sn_cands n) /\ kernel_is (cn_kernel (sn_node n)) a wa /\ kernel_is (cn_kernel (sn_node n)) b wb /\ wa <> wb.
Definition configurable (n : snode) : Prop := weights_vary n \/ act_varies (sn_cands n).

(* the configuration has one index for each configurable node, in topological order: n is given index i *)
Inductive assigns : list snode -> list nat -> snode -> nat -> Prop :=
| as_here n g i cfg : configurable n -> assigns (n :: g) (i :: cfg) n i
| as_next m g i cfg n j : configurable m -> assigns g cfg n j -> assigns (m :: g) (i :: cfg) n j
| as_skip m g cfg n j : ~ configurable m -> assigns g cfg n j -> assigns (m :: g) cfg n j.

(* some weight of the node is quantized in all candidates *)
Definition some_weight (n : snode) : Prop :=
  exists a, In a (sn_attrs n) /\ forall c, In c (sn_cands n) -> exists w, attr_cfg c a = Ok w /\ wc_enable w = true.
(* the parts of the first candidate that are in use *)
Definition first_candidate (n : snode) (f : final) : Prop :=
  (all_mode M_quant (sn_cands n) -> f_act f = hd_error (sn_cands n)) /\ (~ all_mode M_quant (sn_cands n) -> f_act f = None) /\
  (some_weight n -> f_weights f = hd_error (sn_cands n)) /\ (~ some_weight n -> f_weights f = None).
