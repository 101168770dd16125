(* ImmutModel.v -- freezing of platform objects and the block that defines one.

   Modelled (under model_compression_toolkit/target_platform_capabilities/):
     immutable.py                                              ImmutableClass L20-55
     targetplatform2framework/framework_quantization_capabilities.py
         append_component L137-148, __enter__ L150-155, __exit__ L157-170
     targetplatform2framework/operations_to_layers.py          OperationsSetToLayers.__init__ L31-46, OperationsToLayers.__add__,
                                                               validate_op_sets L105-150
     targetplatform2framework/current_tpc.py                   _CurrentTPC L30-62
   Attributes are a dictionary from names to values; only the truth value of _initialized matters.  object.__setattr__ called
   from outside is not modelled.  Layers are numbers (for layer filters == is more subtle, see FilterModel). *)
From Coq Require Import String.
From Verif Require Import Base SDict.
Local Open Scope list_scope.

Inductive value := V_bool (b : bool) | V_data (n : nat).
Definition truthy (v : value) : bool := match v with V_bool b => b | V_data n => negb (Nat.eqb n 0) end.
(* the instance dictionary *)
Definition obj := list (string * value).
Definition init_attr : string := "_initialized".
(* self._initialized: the class attribute is False, L24 *)
Definition is_init (o : obj) : bool := match sget init_attr o with Some v => truthy v | None => false end.
(* __setattr__ L29-45 *)
Definition set_attr (k : string) (v : value) (o : obj) : result obj := if is_init o then Err E_critical else Ok (sset k v o).
(* initialized_done L47-55 *)
Definition init_done (o : obj) : result obj := if is_init o then Err E_critical else set_attr init_attr (V_bool true) o.
(* object.__delattr__, which the class does not override *)
Fixpoint sdel {V} (k : string) (d : list (string * V)) : list (string * V) :=
  match d with [] => [] | (k', v) :: r => if String.eqb k k' then r else (k', v) :: sdel k r end.
Definition del_attr (k : string) (o : obj) : result obj :=
  match sget k o with Some _ => Ok (sdel k o) | None => Err E_attr end.

Inductive act := A_set (k : string) (v : value) | A_done | A_del (k : string).
Definition perform (a : act) (o : obj) : result obj :=
  match a with A_set k v => set_attr k v o | A_done => init_done o | A_del k => del_attr k o end.
(* a history: the caller survives exceptions; an action that raises leaves the object as it was *)
Fixpoint history (l : list act) (o : obj) : list (option err) * obj :=
  match l with
  | [] => ([], o)
  | a :: r => match perform a o with
              | Ok o' => let '(es, o2) := history r o' in (None :: es, o2)
              | Err e => let '(es, o2) := history r o in (Some e :: es, o2)
              end
  end.

(* ---- the definition block ---- *)
Definition opset := (string * list nat)%type.
Record fqc := FQC { q_frozen : bool; q_ops : list opset; q_mapped : list opset }.
(* the objects and which of them is current *)
Record world := World { w_objs : nat -> fqc; w_current : option nat }.
Definition upd (i : nat) (x : fqc) (w : world) : world := World (fun j => if Nat.eqb j i then x else w_objs w j) (w_current w).

(* validate_op_sets L105-150 *)
Fixpoint add_layers (ls : list nat) (seen : list nat) : result (list nat) :=
  match ls with
  | [] => Ok seen
  | l :: r => if existsb (Nat.eqb l) seen then Err E_critical else add_layers r (seen ++ [l])
  end.
Fixpoint validate (l : list opset) (names : list string) (seen : list nat) : result unit :=
  match l with
  | [] => Ok tt
  | (n, ls) :: r =>
      if existsb (String.eqb n) names then Err E_assert else
      let! seen' := add_layers ls seen in
      validate r (names ++ [n]) seen'
  end.

(* what may happen around platform objects: entering an object's block, creating a component, leaving the block of an object
   normally or because of an exception *)
Inductive event := Enter (i : nat) | Component (c : opset) | Leave (i : nat) | Leave_raising (i : nat).
Definition happen (e : event) (w : world) : result world :=
  match e with
  | Enter i => Ok (World (w_objs w) (Some i))
  | Component c =>
      match w_current w with
      | None => Err E_critical
      | Some i => let q := w_objs w i in
                  let! _ := validate (q_ops q ++ [c]) [] [] in
                  if q_frozen q then Err E_critical else Ok (upd i (FQC false (q_ops q ++ [c]) (q_mapped q)) w)
      end
  | Leave i =>
      let q := w_objs w i in
      if q_frozen q then Err E_critical else
      Ok (World (w_objs (upd i (FQC true (q_ops q) (q_ops q)) w)) None)
  | Leave_raising i => Err E_runtime
  end.
(* a history of events, exceptions being caught by the caller *)
Fixpoint world_after (l : list event) (w : world) : world :=
  match l with
  | [] => w
  | e :: r => world_after r (match happen e w with Ok w' => w' | Err _ => w end)
  end.
(* with fqc: c1; c2; ...   an exception inside leaves the block at once *)
Fixpoint block_body (cs : list opset) (w : world) : world * option err :=
  match cs with
  | [] => (w, None)
  | c :: r => match happen (Component c) w with Ok w' => block_body r w' | Err e => (w, Some e) end
  end.
Definition with_block (i : nat) (cs : list opset) (w : world) : world * option err :=
  match block_body cs (World (w_objs w) (Some i)) with
  | (w1, Some e) => (w1, Some e)
  | (w1, None) => match happen (Leave i) w1 with Ok w2 => (w2, None) | Err e => (w1, Some e) end
  end.
