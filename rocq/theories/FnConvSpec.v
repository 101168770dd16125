(* FnConvSpec.v -- C97: what a call of torch.nn.functional.conv2d, conv_transpose2d or linear means. *)
From Coq Require Import List Arith String Bool.
From Verif Require Import Base FnConvModel.
Import ListNotations.
Open Scope string_scope.
Open Scope nat_scope.

(* the arguments by the names of the parameters *)
Definition bindings (f : fn) (c : call) : list (string * arg) := (combine (sig f) (c_args c) ++ c_kwargs c)%list.
Definition bound (f : fn) (c : call) (p : string) : option arg := kw (bindings f c) p.
(* a call Python accepts, in which only input, weight and bias are tensors *)
Definition valid_call (f : fn) (c : call) : Prop :=
  List.length (c_args c) <= List.length (sig f)
  /\ NoDup (map fst (bindings f c))
  /\ (forall p a, In (p, a) (bindings f c) -> In p (sig f))
  /\ (forall p a, In (p, a) (bindings f c) -> p <> "input" -> p <> "weight" -> p <> "bias" -> exists v, a = AVal v).
(* the value of a parameter that is no tensor *)
Definition param (f : fn) (c : call) (p : string) : val := match bound f c p with Some (AVal v) => v | _ => default p end.
(* the input is the output of a node, the weight is a constant, the bias is another one or None *)
Definition const_call (f : fn) (c : call) (x w : nat) (b : option nat) : Prop :=
  bound f c "input" = Some (AVar x) /\ bound f c "weight" = Some (AConst w) /\ x <> w /\
  match b with
  | Some b => bound f c "bias" = Some (AConst b) /\ b <> x /\ b <> w
  | None => bound f c "bias" = None \/ bound f c "bias" = Some (AVal VNone)
  end.
(* the input is written before the weight and the bias *)
Definition input_first (f : fn) (c : call) : Prop :=
  exists pre a post, bindings f c = (pre ++ ("input", a) :: post)%list /\ forall p a', In (p, a') pre -> exists v, a' = AVal v.
(* stride, padding, dilation, groups are given by keyword *)
Definition by_keyword (c : call) : Prop := List.length (c_args c) <= 3.
(* the parameters of the convolutions other than the tensors *)
Definition params (f : fn) : list string := skipn 3 (sig f).
(* a weight whose shape is right for the function without groups, with its bias *)
Definition shapes_ok {W} (wshape : W -> list nat) (f : fn) (w : W) (b : option W) : Prop :=
  exists o i k, wshape w = match f with FConvT => i :: o :: k | _ => o :: i :: k end /\ (f = FLinear -> k = nil) /\ match b with Some b => wshape b = [o] | None => True end.
