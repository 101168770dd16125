(* KCallSpec.v -- which parameter of a function a call gives which value. *)
From Verif Require Import Base HessianModel KCallModel.
Local Open Scope nat_scope.

(* a constant, a sequence of numbers, and the numpy array made of it count as the same value *)
Fixpoint plain (v : val) : val :=
  match v with VA v => plain v | VSeq b l => VSeq b (map plain l) | _ => v end.
(* Python's rules: positional arguments go to the first parameters, keywords to the parameters of their names *)
Definition valid_call (ps : params) (args : list val) (kw : kwargs) : Prop :=
  length args <= length ps /\ NoDup (map fst kw) /\ (forall k, In k (map fst kw) -> In k (skipn (length args) ps)).
Definition gives (ps : params) (args : list val) (kw : kwargs) (k : nat) : option val :=
  match position k ps with
  | None => None
  | Some i => match nth_error args i with Some v => Some v | None => dict_get k kw end
  end.
(* the two calls give every parameter the same value *)
Definition same_call (ps : params) (args : list val) (kw : kwargs) (args' : list val) (kw' : kwargs) : Prop :=
  valid_call ps args' kw' /\ forall k, option_map plain (gives ps args' kw' k) = option_map plain (gives ps args kw k).

(* concat, stack or add_n given a list of operands *)
Definition operand_list (list_fn : bool) (args : list val) : Prop := list_fn = true /\ exists l rest, args = VSeq true l :: rest.

(* a sequence is not empty and no tensor of the model is inside it *)
Definition simple (v : val) : Prop := match v with VSeq _ l => l <> [] /\ tensors_in v = [] | _ => True end.
Definition constant (v : val) : Prop := is_const v = Ok true.
Definition tensor (v : val) : Prop := exists t, v = VT t.

(* the tensors are the first arguments and no keyword is a tensor *)
Definition tensors_first (args : list val) (kw : kwargs) : Prop :=
  (exists ts others, args = map VT ts ++ others /\ forall v, In v others -> ~ tensor v) /\
  (forall k v, In (k, v) kw -> ~ tensor v).
(* every parameter between the positional arguments and a constant keyword is given *)
Definition no_gap (ps : params) (args : list val) (kw : kwargs) : Prop :=
  forall k v i j p, In (k, v) kw -> constant v -> position k ps = Some i -> length args <= j -> j < i ->
    nth_error ps j = Some p -> In p (map fst kw).
(* the tensors among the keywords come in the order of the parameters when they are sorted by name *)
Definition names_ordered (ps : params) (kw : kwargs) : Prop :=
  forall k1 k2 t1 t2 i1 i2, In (k1, VT t1) kw -> In (k2, VT t2) kw -> position k1 ps = Some i1 -> position k2 ps = Some i2 ->
    i1 < i2 -> k1 < k2.
