(* LookupSpec.v -- which options apply to a node, and which nodes consume its output. *)
From Coq Require Import String.
From Verif Require Import Base SDict FilterModel FilterSpec PlatModel PlatSpec HessianModel LookupModel.
Local Open Scope list_scope.

(* the options registered for a layer filter that selects the node / for a layer type of the node *)
Definition filter_for (f : fqc) (n : fnode) (q : qco) : Prop := exists flt, In (flt, q) (q_filters f) /\ selects flt n.
Definition layer_for (f : fqc) (n : fnode) (q : qco) : Prop := exists id nm, In ((id, nm), q) (q_layers f) /\ of_type n id nm.

(* filters first, then layer types, then the default *)
Inductive chosen (f : fqc) (n : fnode) : qco -> Prop :=
| C_filter q : filter_for f n q -> chosen f n q
| C_layer q : (forall q', ~ filter_for f n q') -> layer_for f n q -> chosen f n q
| C_default : (forall q', ~ filter_for f n q') -> (forall q', ~ layer_for f n q') -> chosen f n (q_default f).

Definition conflict (f : fqc) (n : fnode) : Prop :=
  (exists q q', filter_for f n q /\ filter_for f n q' /\ ~ same_qco q q') \/
  (exists q q', layer_for f n q /\ layer_for f n q' /\ ~ same_qco q q').

Definition wf_fqc (f : fqc) : Prop :=
  Forall (fun p => wf_qco (snd p)) (q_filters f) /\ Forall (fun p => wf_qco (snd p)) (q_layers f).

(* no comparison of a filter for this node's type raises *)
Definition filters_defined (f : fqc) (n : fnode) : Prop :=
  forall flt q, In (flt, q) (q_filters f) -> forall c, In c (lf_conds flt) -> defined (layer_config n) c.

(* a table entry that the platform description calls for: the operator set's layers (a custom mapping first) with the
   operator set's options, or the default ones, and the attribute names of that layer *)
Definition entry (custom builtin : list (string * oplayers)) (t : tpc2) (k : lkey) (q : qco) : Prop :=
  exists s o, In s (or_old (t2_opsets t) []) /\
    (sget (os_name s) custom = Some o \/ (sget (os_name s) custom = None /\ sget (os_name s) builtin = Some o)) /\
    In k (ol_layers o) /\
    q = qco_map_keys (option_map (map (fun kv => (fst kv, dd_get (snd kv) k))) (ol_attr o)) (or_old (os_qco s) (t2_default t)).

(* the first option of a node preserves the quantization of its input *)
Definition preserving (f : fqc) (g : lgraph) (n : nat) : Prop :=
  exists q c r, opts_at f g n = Ok q /\ qo_cfgs q = c :: r /\ oc_preserve c = true.
(* m consumes the output of n, directly or through preserving nodes *)
Inductive feeds (f : fqc) (g : lgraph) (n : nat) : nat -> Prop :=
| F_next m : In (n, m) (lg_edges g) -> feeds f g n m
| F_through k m : feeds f g n k -> preserving f g k -> In (k, m) (lg_edges g) -> feeds f g n m.
(* options accept an input of b bits: each quantized or preserving one lists a bit-width of at least b *)
Definition takes (q : qco) (b : Z) : Prop :=
  forall c, In c (qo_cfgs q) -> oc_enable c = true \/ oc_preserve c = true ->
  exists l z, oc_inputs c = I_tuple l /\ In z l /\ (b <= z)%Z.

(* nodes listed in topological order *)
Definition topological (g : lgraph) : Prop :=
  NoDup (map gn_id (lg_nodes g)) /\
  (forall e, In e (lg_edges g) -> In (snd e) (map gn_id (lg_nodes g))) /\
  (forall pre x post e, lg_nodes g = pre ++ x :: post -> In e (lg_edges g) -> snd e = gn_id x -> In (fst e) (map gn_id pre)).

(* the mode of all the configurations of a node *)
Definition has_mode (st : list (nat * nodecfg)) (n : nat) (m : amode) : Prop :=
  exists c, dict_get n st = Some c /\ forall d, d = nc_base c \/ In d (nc_cands c) -> cd_mode d = m.
(* the value at the node's output was quantized: by the node, or by the only input of a preserving node *)
Inductive quantized_source (g : lgraph) (st : list (nat * nodecfg)) : nat -> Prop :=
| QS_quant n : has_mode st n M_quant -> quantized_source g st n
| QS_preserve n p : has_mode st n M_preserve -> lprev g n = [p] -> quantized_source g st p -> quantized_source g st n.

(* the mode a node gets from one of its options *)
Inductive mode_rule (g : lgraph) (st : list (nat * nodecfg)) (n : gnode) (o : opcfg) : amode -> Prop :=
| R_off : gn_act n = false -> mode_rule g st n o M_no
| R_quant : gn_act n = true -> oc_enable o = true -> mode_rule g st n o M_quant
| R_none : gn_act n = true -> oc_enable o = false -> oc_preserve o = false -> mode_rule g st n o M_no
| R_preserve p m : gn_act n = true -> oc_enable o = false -> oc_preserve o = true ->
    lprev g (gn_id n) = [p] -> has_mode st p m -> m <> M_no -> mode_rule g st n o M_preserve
| R_source_off p : gn_act n = true -> oc_enable o = false -> oc_preserve o = true ->
    lprev g (gn_id n) = [p] -> has_mode st p M_no -> mode_rule g st n o M_no
| R_not_single : gn_act n = true -> oc_enable o = false -> oc_preserve o = true ->
    length (lprev g (gn_id n)) <> 1%nat -> mode_rule g st n o M_no.

(* a layer of the framework implements the operator set named s; a layer stands for a member of a fusing pattern *)
Definition layer_named (ops : list oplayers) (s : string) (k : lkey) : Prop := exists o, In o ops /\ ol_name o = s /\ In k (ol_layers o).
Definition stands_for (ops : list oplayers) (k : lkey) (p : opgroup) : Prop :=
  match p with
  | G_set s => layer_named ops (os_name s) k
  | G_group nm l => layer_named ops nm k \/
      ((forall o, In o ops -> ol_name o <> nm) /\ exists s, In s l /\ layer_named ops (os_name s) k)
  end.
