(* FilterSpec.v -- what a filter means, independently of how it is evaluated. *)
From Coq Require Import String Ascii.
From Verif Require Import Base SDict FilterModel.
Local Open Scope list_scope.

(* equality of attribute values *)
Inductive same_val : val -> val -> Prop :=
| SV_num x y : (x == y)%Q -> same_val (V_num x) (V_num y)
| SV_str s : same_val (V_str s) (V_str s)
| SV_none : same_val V_none V_none
| SV_tuple l m : Forall2 Qeq l m -> same_val (V_tuple l) (V_tuple m).

(* lexicographic order of strings by character code *)
Inductive str_less : string -> string -> Prop :=
| SL_nil c s : str_less EmptyString (String c s)
| SL_head c d s t : (nat_of_ascii c < nat_of_ascii d)%nat -> str_less (String c s) (String d t)
| SL_tail c s t : str_less s t -> str_less (String c s) (String c t).

(* lexicographic order of tuples *)
Inductive tuple_less : list Q -> list Q -> Prop :=
| TL_nil y m : tuple_less [] (y :: m)
| TL_head x y l m : (x < y)%Q -> tuple_less (x :: l) (y :: m)
| TL_tail x y l m : (x == y)%Q -> tuple_less l m -> tuple_less (x :: l) (y :: m).

Inductive val_less : val -> val -> Prop :=
| VL_num x y : (x < y)%Q -> val_less (V_num x) (V_num y)
| VL_str s t : str_less s t -> val_less (V_str s) (V_str t)
| VL_tuple l m : tuple_less l m -> val_less (V_tuple l) (V_tuple m).

(* two values Python can order *)
Definition comparable (a b : val) : Prop :=
  match a, b with
  | V_num _, V_num _ | V_str _, V_str _ | V_tuple _, V_tuple _ => True
  | _, _ => False
  end.

Definition has_member (a b : val) : Prop :=
  match a, b with
  | V_str s, V_str t => exists pre post, s = String.append pre (String.append t post)
  | V_tuple l, V_num x => exists y, In y l /\ (y == x)%Q
  | _, _ => False
  end.

Definition op_holds (o : fop) (x v : val) : Prop :=
  match o with
  | O_gt => val_less v x
  | O_ge => val_less v x \/ (comparable v x /\ same_val v x)
  | O_lt => val_less x v
  | O_le => val_less x v \/ (comparable x v /\ same_val x v)
  | O_ne => ~ same_val x v
  | O_eq => same_val x v
  | O_in => has_member x v
  end.

(* a filter as a boolean formula over the layer's attributes; a missing attribute satisfies no atom *)
Fixpoint holds (cfg : list (string * val)) (f : filt) : Prop :=
  match f with
  | F_attr a o v => exists x, sget a cfg = Some x /\ op_holds o x v
  | F_or _ l => (fix ex l := match l with [] => False | g :: r => holds cfg g \/ ex r end) l
  | F_and _ l => (fix al l := match l with [] => True | g :: r => holds cfg g /\ al r end) l
  end.

(* no comparison in the filter raises on this layer *)
Definition op_defined (o : fop) (x v : val) : Prop :=
  match o with
  | O_ne | O_eq => True
  | O_in => match x with V_str _ => match v with V_str _ => True | _ => False end | V_tuple _ => True | _ => False end
  | _ => comparable x v
  end.
Fixpoint defined (cfg : list (string * val)) (f : filt) : Prop :=
  match f with
  | F_attr a o v => forall x, sget a cfg = Some x -> op_defined o x v
  | F_or _ l | F_and _ l => (fix al l := match l with [] => True | g :: r => defined cfg g /\ al r end) l
  end.

(* a node is of a layer type: the same class or function, or a function of the same name *)
Definition of_type (n : fnode) (layer : nat) (name : string) : Prop := fn_type n = layer \/ fn_func n = Some name.
(* a layer filter selects a node: its type, its keyword arguments (a missing attribute counts as None) and
   all its conditions *)
Definition selects (f : lfilter) (n : fnode) : Prop :=
  of_type n (lf_layer f) (lf_name f) /\
  (forall k v, In (k, v) (lf_kwargs f) -> same_val (cfg_get k (layer_config n)) v) /\
  (forall c, In c (lf_conds f) -> holds (layer_config n) c).
