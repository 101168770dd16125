(* FilterModel.v -- attribute filters and layer filters of the platform description.

   Modelled (all under model_compression_toolkit/target_platform_capabilities/targetplatform2framework/):
     attribute_filter.py        AttributeFilter L39-131, OrAttributeFilter L134-169, AndAttributeFilter L172-201,
                                Greater .. Contains L204-282
     layer_filter_params.py     LayerFilterParams.__eq__ L48-74 (and the dictionary key equality, L39-46)
   and BaseNode.is_match_filter_params (core/common/graph/base_node.py L658-690), is_match_type L646-656,
   FunctionalNode.is_match_type (functional_node.py L92-106).

   Simplifications: attribute values are numbers (True/False are 1/0), strings, None or tuples of numbers;
   a filter's class name and repr are not modelled, except that hashing goes by the rendered name. *)
From Coq Require Import String Ascii.
From Verif Require Import Base SDict.
Local Open Scope list_scope.

Inductive val :=
| V_num (q : Q)
| V_str (s : string)
| V_none
| V_tuple (l : list Q).

(* Python == on such values *)
Fixpoint qlist_eqb (a b : list Q) : bool :=
  match a, b with
  | [], [] => true
  | x :: a', y :: b' => Qeq_bool x y && qlist_eqb a' b'
  | _, _ => false
  end.
Definition val_eqb (a b : val) : bool :=
  match a, b with
  | V_num x, V_num y => Qeq_bool x y
  | V_str x, V_str y => String.eqb x y
  | V_none, V_none => true
  | V_tuple x, V_tuple y => qlist_eqb x y
  | _, _ => false
  end.

(* Python < / <= on tuples: the first differing position decides, otherwise the lengths *)
Fixpoint qlist_lt (strict : bool) (a b : list Q) : bool :=
  match a, b with
  | [], [] => negb strict
  | [], _ :: _ => true
  | _ :: _, [] => false
  | x :: a', y :: b' => if Qeq_bool x y then qlist_lt strict a' b' else Qle_bool x y
  end.
Definition Qlt_bool (x y : Q) : bool := negb (Qle_bool y x).
Definition str_lt (strict : bool) (x y : string) : bool := if strict then String.ltb x y else String.leb x y.

(* a < b (strict) or a <= b; a TypeError for incomparable types *)
Definition val_lt (strict : bool) (a b : val) : result bool :=
  match a, b with
  | V_num x, V_num y => Ok (if strict then Qlt_bool x y else Qle_bool x y)
  | V_str x, V_str y => Ok (str_lt strict x y)
  | V_tuple x, V_tuple y => Ok (qlist_lt strict x y)
  | _, _ => Err E_type
  end.

(* operator.contains(a, b), i.e. b in a *)
Definition str_contains (s sub : string) : bool := match index 0 sub s with Some _ => true | None => false end.
Definition val_contains (a b : val) : result bool :=
  match a, b with
  | V_str s, V_str t => Ok (str_contains s t)
  | V_tuple l, V_num x => Ok (existsb (fun y => Qeq_bool y x) l)
  | V_tuple _, _ => Ok false
  | _, _ => Err E_type
  end.

(* the operators of the concrete filters, attribute_filter.py L204-282 *)
Inductive fop := O_gt | O_ge | O_lt | O_le | O_ne | O_eq | O_in.
Definition fop_eqb (a b : fop) : bool :=
  match a, b with
  | O_gt, O_gt | O_ge, O_ge | O_lt, O_lt | O_le, O_le | O_ne, O_ne | O_eq, O_eq | O_in, O_in => true
  | _, _ => false
  end.
Definition apply_op (o : fop) (x v : val) : result bool :=
  match o with
  | O_gt => val_lt true v x
  | O_ge => val_lt false v x
  | O_lt => val_lt true x v
  | O_le => val_lt false x v
  | O_ne => Ok (negb (val_eqb x v))
  | O_eq => Ok (val_eqb x v)
  | O_in => val_contains x v
  end.

(* a filter object; [i] is the identity of an Or/And object (they define no __eq__, L134-201) *)
Inductive filt :=
| F_attr (attr : string) (o : fop) (v : val)
| F_or (i : nat) (l : list filt)
| F_and (i : nat) (l : list filt).

(* AttributeFilter.match L107-120; OrAttributeFilter.match L146-161; AndAttributeFilter.match L180-193 *)
Fixpoint fmatch (f : filt) (cfg : list (string * val)) : result bool :=
  match f with
  | F_attr a o v => match sget a cfg with Some x => apply_op o x v | None => Ok false end
  | F_or _ l =>
      (fix any (l : list filt) : result bool :=
         match l with
         | [] => Ok false
         | g :: r => let! b := fmatch g cfg in if b then Ok true else any r
         end) l
  | F_and _ l =>
      (fix all (l : list filt) : result bool :=
         match l with
         | [] => Ok true
         | g :: r => let! b := fmatch g cfg in if b then all r else Ok false
         end) l
  end.

(* AttributeFilter.__or__ L78-91 and __and__ L93-105.  The Or/And classes define neither, so using one of
   them on the left raises TypeError, on the right Logger.critical.  [i] is the fresh object's identity. *)
Definition is_attr (f : filt) : bool := match f with F_attr _ _ _ => true | _ => false end.
Definition f_or (i : nat) (f g : filt) : result filt :=
  if is_attr f then if is_attr g then Ok (F_or i [f; g]) else Err E_critical else Err E_type.
Definition f_and (i : nat) (f g : filt) : result filt :=
  if is_attr f then if is_attr g then Ok (F_and i [f; g]) else Err E_critical else Err E_type.

(* == on filter objects: AttributeFilter.__eq__ L61-76, identity for the others *)
Definition filt_eqb (f g : filt) : bool :=
  match f, g with
  | F_attr a o v, F_attr b p w => String.eqb a b && val_eqb v w && fop_eqb o p
  | F_or i _, F_or j _ => Nat.eqb i j
  | F_and i _, F_and j _ => Nat.eqb i j
  | _, _ => false
  end.

(* LayerFilterParams L24-37; [lf_layer] the layer class/function, [lf_name] its __name__ *)
Record lfilter := LFilter { lf_layer : nat; lf_name : string; lf_conds : list filt; lf_kwargs : list (string * val) }.

(* LayerFilterParams.__eq__ L48-74: zip stops at the shorter list; self's keywords must be in other *)
Fixpoint zip_eqb (a b : list filt) : bool :=
  match a, b with
  | x :: a', y :: b' => filt_eqb x y && zip_eqb a' b'
  | _, _ => true
  end.
Definition lf_eqb (a b : lfilter) : bool :=
  zip_eqb (lf_conds a) (lf_conds b) &&
  forallb (fun kv => match sget (fst kv) (lf_kwargs b) with Some w => val_eqb w (snd kv) | None => false end) (lf_kwargs a).

(* a graph node as filters see it: its type and framework attributes (with the call keyword arguments of a
   functional node), base_node.py L677-680; [fn_func] is the __name__ of the operator of a functional node *)
Record fnode := FNode { fn_type : nat; fn_func : option string; fn_attrs : list (string * val); fn_call : list (string * val) }.
(* BaseNode.is_match_type L646-656 and FunctionalNode.is_match_type (functional_node.py L92-106) *)
Definition is_match_type (n : fnode) (layer : nat) (name : string) : bool :=
  match fn_func n with Some f => String.eqb name f | None => false end || Nat.eqb layer (fn_type n).
Definition layer_config (n : fnode) : list (string * val) :=
  fold_left (fun d kv => sset (fst kv) (snd kv) d) (fn_call n) (fn_attrs n).
Definition cfg_get (k : string) (cfg : list (string * val)) : val := match sget k cfg with Some v => v | None => V_none end.

Fixpoint conds_match (l : list filt) (cfg : list (string * val)) : result bool :=
  match l with
  | [] => Ok true
  | c :: r => let! b := fmatch c cfg in if b then conds_match r cfg else Ok false
  end.

(* BaseNode.is_match_filter_params L658-690 *)
Definition lf_match (n : fnode) (f : lfilter) : result bool :=
  if negb (is_match_type n (lf_layer f) (lf_name f)) then Ok false else
  let cfg := layer_config n in
  if existsb (fun kv => negb (val_eqb (cfg_get (fst kv) cfg) (snd kv))) (lf_kwargs f) then Ok false else
  conds_match (lf_conds f) cfg.
