(* PlatSpec.v -- what it means for platform configurations to be the same and well formed. *)
From Coq Require Import String.
From Verif Require Import Base SDict PlatModel.
Local Open Scope list_scope.

(* two operator configurations are the same: all fields agree, and every weight attribute has the same configuration *)
Definition same_cfg (a b : opcfg) : Prop :=
  oc_default a = oc_default b /\ (forall k, sget k (oc_attrs a) = sget k (oc_attrs b)) /\ oc_method a = oc_method b /\
  oc_bits a = oc_bits b /\ oc_inputs a = oc_inputs b /\ oc_enable a = oc_enable b /\ oc_preserve a = oc_preserve b /\
  oc_signed a = oc_signed b /\ oc_scale a = oc_scale b /\ oc_zero a = oc_zero b /\ oc_simd a = oc_simd b.

(* all fields but the attribute dictionary agree *)
Definition same_but_attrs (a b : opcfg) : Prop :=
  oc_default a = oc_default b /\ oc_method a = oc_method b /\ oc_bits a = oc_bits b /\ oc_inputs a = oc_inputs b /\
  oc_enable a = oc_enable b /\ oc_preserve a = oc_preserve b /\ oc_signed a = oc_signed b /\ oc_scale a = oc_scale b /\
  oc_zero a = oc_zero b /\ oc_simd a = oc_simd b.

(* attribute names form a dictionary *)
Definition wf_cfg (c : opcfg) : Prop := NoDup (skeys (oc_attrs c)).

(* a usable set of options: at least one, the base configuration is one of them *)
Definition well_formed (q : qco) : Prop :=
  (exists c, In c (qo_cfgs q) /\ same_cfg (qo_base q) c) /\ wf_cfg (qo_base q) /\ Forall wf_cfg (qo_cfgs q).

Definition same_qco (a b : qco) : Prop := same_cfg (qo_base a) (qo_base b) /\ Forall2 same_cfg (qo_cfgs a) (qo_cfgs b).
Definition wf_qco (q : qco) : Prop := wf_cfg (qo_base q) /\ Forall wf_cfg (qo_cfgs q).

Definition same_opset (a b : opset) : Prop :=
  os_name a = os_name b /\
  match os_qco a, os_qco b with Some x, Some y => same_qco x y | None, None => True | _, _ => False end.
Definition wf_opset (s : opset) : Prop := match os_qco s with Some q => wf_qco q | None => True end.

Inductive same_group : opgroup -> opgroup -> Prop :=
| SG_set s t : same_opset s t -> same_group (G_set s) (G_set t)
| SG_group n l k : Forall2 same_opset l k -> same_group (G_group n l) (G_group n k).
Definition wf_group (g : opgroup) : Prop := match g with G_set s => wf_opset s | G_group _ l => Forall wf_opset l end.
Definition wf_fusing (f : fusing) : Prop := Forall wf_group (fu_groups f).

(* position [a] of a pattern accepts position [b] of another: equal, or b an operator set in the group a *)
Inductive accepts : opgroup -> opgroup -> Prop :=
| A_same a b : same_group a b -> accepts a b
| A_member n l s t : In t l -> same_opset s t -> accepts (G_group n l) (G_set s).

(* the operator sets of [other] appear contiguously in [self] *)
Definition contiguous (self other : list opgroup) : Prop :=
  exists pre mid post, self = pre ++ mid ++ post /\ Forall2 accepts mid other.
