(* ReconSpec.v -- what it means that a configuration of the virtual graph and a configuration of the original graph
   agree. *)
From Coq Require Import String.
From Verif Require Import Base SDict ReconModel.
Local Open Scope list_scope.

(* the original node whose activation, or whose weights, a node of the virtual graph contains *)
Definition act_part (v : vnode) : option onode :=
  match v with VReg n | VSplitA n | VAW n _ => Some n | VSplitW _ => None end.
Definition wts_part (v : vnode) : option onode :=
  match v with VReg n => if o_weights n then Some n else None | VSplitW n | VAW _ n => Some n | VSplitA _ => None end.

Definition configurable (n : onode) : bool := o_conf_a n || o_conf_w n.

(* Graphs as they reach the search: names are unique; every node has candidates, no two candidates of a node are
   equal, and a quantization that is switched off does not vary over the candidates (the candidate filter sees to
   both); nodes with a kernel have weights; edges join nodes of the graph. *)
Record graph_ok (g : ograph) : Prop := {
  gk_names : NoDup (map o_name (og_nodes g));
  gk_some : forall n, In n (og_nodes g) -> o_cands n <> [];
  gk_distinct : forall n, In n (og_nodes g) -> NoDup (o_cands n);
  gk_off_a : forall n c d, In n (og_nodes g) -> o_a_on n = false -> In c (o_cands n) -> In d (o_cands n) -> c_a c = c_a d;
  gk_off_w : forall n c d, In n (og_nodes g) -> o_weights n && o_w_on n = false -> In c (o_cands n) -> In d (o_cands n) -> c_w c = c_w d;
  gk_kernel : forall n, In n (og_nodes g) -> o_kernel n = true -> o_weights n = true }.

(* within a node, the number of bits determines the configuration *)
Definition bits_decide (bits_a bits_w : nat -> nat) (n : onode) : Prop :=
  forall c d, In c (o_cands n) -> In d (o_cands n) ->
    (bits_a (c_a c) = bits_a (c_a d) -> c_a c = c_a d) /\ (bits_w (c_w c) = bits_w (c_w d) -> c_w c = c_w d).

(* an assignment gives every configurable node of the virtual graph, and no other, one of its candidates *)
Record assignment (bits_a bits_w : nat -> nat) (vs : list vnode) (cfg : vcfg) : Prop := {
  as_once : NoDup (map fst cfg);
  as_nodes : forall v, In v (map fst cfg) <-> In v vs /\ v_configurable bits_a bits_w v = true;
  as_index : forall v j, In (v, j) cfg -> (j < length (v_cands bits_a bits_w v))%nat }.

(* candidate i of the original node n has the activation (weights) configuration given to the virtual node that
   contains the activation (weights) of n *)
Definition activation_agrees (bits_a bits_w : nat -> nat) (cfg : vcfg) (n : onode) (i : nat) : Prop :=
  exists v j q c, In (v, j) cfg /\ act_part v = Some n /\ nth_error (v_cands bits_a bits_w v) j = Some q /\
                  nth_error (o_cands n) i = Some c /\ c_a c = c_a q.
Definition weights_agree (bits_a bits_w : nat -> nat) (cfg : vcfg) (n : onode) (i : nat) : Prop :=
  exists v j q c, In (v, j) cfg /\ wts_part v = Some n /\ nth_error (v_cands bits_a bits_w v) j = Some q /\
                  nth_error (o_cands n) i = Some c /\ c_w c = c_w q.
