(* SaveSpec.v -- C102: what an exported file should compute *)
From Coq Require Import String List Bool Arith.
From Verif Require Import Base SaveModel.
Import ListNotations.
Open Scope nat_scope.
Open Scope res_scope.

(* the model, with activations quantized only to the bits that are kept *)
Fixpoint meaning {T} (keep : nat -> bool) (m : module T) (args : list T) : result T :=
  match m with
  | Layer f => f args
  | Holder b q => match args with [] => Err E_type | x :: _ => Ok (if keep b then q x else x) end
  | Wrapped w => wrapper_call w args
  | Block ch fw => fw (fun name a => (fix go l := match l with
                                                  | [] => Err E_attr
                                                  | (n, c) :: r => if String.eqb name n then meaning keep c a else go r end) ch) args
  end.

(* the modules somewhere in a model *)
Inductive inside {T} (c : module T) : module T -> Prop :=
| inside_self : inside c c
| inside_block : forall ch fw n d, In (n, d) ch -> inside c d -> inside c (Block ch fw).

(* every quantizer of a wrapper has its weight; attributes exist *)
Definition ready {T} (w : wrapper T) : Prop :=
  forall k q, In (k, q) (w_quantizers w) -> assoc key_eqb k (w_vars w) <> None /\ forall s, k = Named s -> assoc String.eqb s (w_attrs w) <> None.

(* Keras layers and what stands for them in the file *)
Inductive written_as {T} : klayer (T := T) -> klayer (T := T) -> Prop :=
| as_depthwise : forall fl qw bias k, assoc String.eqb "depthwise_kernel"%string qw = Some k ->
    written_as (KWrapped Depthwise true fl qw bias) (KLayer Depthwise (k :: match bias with Some b => [b] | None => [] end))
| as_conv : forall fl qw bias k, assoc String.eqb "kernel"%string qw = Some k ->
    written_as (KWrapped Conv_like true fl qw bias) (KLayer Conv_like (k :: match bias with Some b => [b] | None => [] end))
| as_fake_quant : forall lo hi n, written_as (KHolder (Ranged [lo] [hi] n)) (KFakeQuant lo hi n)
| as_unquantized : forall kind fl qw bias, written_as (KWrapped kind false fl qw bias) (KWrapped kind false fl qw bias)
| as_layer : forall kind ws, written_as (KLayer kind ws) (KLayer kind ws)
| as_fq : forall lo hi n, written_as (KFakeQuant lo hi n) (KFakeQuant lo hi n)
| as_other : forall i, written_as (KOther i) (KOther i).
