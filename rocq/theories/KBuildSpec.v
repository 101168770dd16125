(* KBuildSpec.v -- what a graph of layers computes when it is run, and which names of layers are considered. *)
From Coq Require Import Permutation Sorted String.
From Verif Require Import Base GraphModel FxModel FxSpec KReadModel KReadSpec KBuildModel.
Local Open Scope nat_scope.

Section Run.
Context {V : Type} (op : nat -> nat -> list V -> ores V) (quant : nat -> option (V -> V)) (lay : nat -> nat).

Definition tensors (o : ores V) : list V := match o with One v => [v] | Many l => l end.
(* raw n is what node n returns and val n what its readers see, when the graph runs on the inputs xs: every
   node is its own layer, called on the tensors its edges point to, in the order of the input indices *)
Record runs (g : graph) (xs : list V) (raw val : nat -> ores V) : Prop := {
  run_input : Forall2 (fun n v => raw n = One v) (g_in g) xs;
  run_op : forall n, In n (g_nodes g) -> ~ In n (g_in g) -> exists es l,
    Permutation es (filter (fun e => Nat.eqb (snk e) n) (g_edges g)) /\ StronglySorted (fun a b => ti a <= ti b) es /\
    Forall2 (fun e v => nth_error (tensors (val (src e))) (si e) = Some v) es l /\ raw n = op (lay n) n l;
  run_quant : forall n, In n (g_nodes g) -> val n = quantized quant n (raw n)
}.
(* op as a function of the index of the output, for KReadSpec.v *)
Definition op_at (d : V) (n : nat) (l : list V) (k : nat) : V := nth k (tensors (op (lay n) n l)) d.
End Run.

(* a graph whose nodes without incoming edges are its inputs, and whose edges have different input indices *)
Record layered (g : graph) : Prop := {
  lg_in : NoDup (g_in g);
  lg_in_nodes : incl (g_in g) (g_nodes g);
  lg_out_nodes : forall o, In o (g_out g) -> In (fst o) (g_nodes g);
  lg_input : forall n, In n (g_nodes g) -> (In n (g_in g) <-> filter (fun e => Nat.eqb (snk e) n) (g_edges g) = []);
  lg_index : forall n, NoDup (map ti (filter (fun e => Nat.eqb (snk e) n) (g_edges g)))
}.
(* names by which every node finds its layer: no name is used twice, and a node marked as a further call of a
   layer is named after a node that is the first call *)
Record well_named (g : graph) (lay : nat -> nat) (bs : list bnode) : Prop := {
  wn_ids : Permutation (map b_id bs) (g_nodes g);
  wn_nodup : NoDup (map b_id bs);
  wn_names : NoDup (map b_name bs);
  wn_layer : forall b, In b bs -> b_layer b = lay (b_id b);
  wn_base : forall b, In b bs -> b_reuse b = true ->
    exists k i, In k bs /\ b_reuse k = false /\ b_name b = reused_name (b_name k) i /\ b_layer k = b_layer b
}.

(* the names of the layers that end up in the graph: once per level and name *)
Fixpoint layer_names (top : bool) (m : kmodel) : list nat :=
  match m with KModel ns _ _ =>
    nodup Nat.eq_dec (map kname (filter (kept_node top) ns)) ++
    flat_map (fun n => match n with KNode _ _ (LModel inner) _ _ => layer_names false inner | _ => [] end) ns end.
Fixpoint all_names (m : kmodel) : list nat :=
  match m with KModel ns _ _ =>
    flat_map (fun n => match n with KNode _ k la _ _ => k :: match la with LModel inner => all_names inner | _ => [] end end) ns end.
(* no two levels use one layer name, and no layer is named like a further call of another *)
Definition plain_names (nm : nat -> string) (m : kmodel) : Prop :=
  (forall a b, nm a = nm b -> a = b) /\ NoDup (layer_names true m) /\
  forall a b i, In a (all_names m) -> In b (all_names m) -> nm a <> reused_name (nm b) i.
(* calls of one name on one level are calls of one layer object, and an input layer is no other layer *)
Fixpoint same_layers (lay : nat -> nat) (m : kmodel) : Prop :=
  match m with KModel ns _ _ =>
    (forall a b, In a ns -> In b ns -> kname a = kname b -> lay (uid a) = lay (uid b) /\ is_input a = is_input b) /\
    (fix all (l : list knode) : Prop :=
       match l with
       | [] => True
       | KNode _ _ (LModel inner) _ _ :: r => same_layers lay inner /\ all r
       | _ :: r => all r
       end) ns
  end.
