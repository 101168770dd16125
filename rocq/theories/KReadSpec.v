(* KReadSpec.v -- what a Keras model and a flat graph compute, and which models are considered. *)
From Coq Require Import Permutation.
From Verif Require Import Base GraphModel GraphSpec KReadModel.
Local Open Scope nat_scope.

Section Values.
Context {V : Type} (op : nat -> list V -> nat -> V).

(* val gives every tensor of the model a value: each operation gives its outputs from its inputs, and a
   nested model is run on the values of the tensors it is called on *)
Fixpoint model_run (m : kmodel) (val : nat -> V) : Prop :=
  match m with KModel ns _ _ =>
    (fix all (l : list knode) : Prop :=
       match l with
       | [] => True
       | KNode u _ lay i o :: r =>
           match lay with
           | LInput => True
           | LOp => forall k t, nth_error o k = Some t -> val t = op u (map val i) k
           | LModel inner => exists val', model_run inner val' /\
                               map val' (ins_of inner) = map val i /\ map val' (outs_of inner) = map val o
           end /\ all r
       end) ns
  end.
(* the model gives the outputs ys on the inputs xs *)
Definition model_gives (m : kmodel) (xs ys : list V) : Prop :=
  exists val, model_run m val /\ map val (ins_of m) = xs /\ map val (outs_of m) = ys.

(* the graph gives the outputs ys on the inputs xs: every node but the inputs computes its operation on
   what it reads, in the order of the input indices *)
Definition graph_gives (g : graph) (xs ys : list V) : Prop :=
  exists val, (forall n, In n (g_nodes g) -> ~ In n (g_in g) ->
                 forall l, reads g val n l -> forall k, val n k = op n l k) /\
              map (fun n => val n 0) (g_in g) = xs /\ outputs g val = ys.
End Values.

Definition is_model (n : knode) : bool := match layer n with LModel _ => true | _ => false end.
Definition disjoint (a b : list nat) : Prop := forall x, In x a -> ~ In x b.

(* the internal nodes of a model and of the models nested in it; the operations among them *)
Fixpoint ids (m : kmodel) : list nat :=
  match m with KModel ns _ _ =>
    flat_map (fun n => match n with KNode u _ lay _ _ => u :: match lay with LModel i => ids i | _ => [] end end) ns end.
Fixpoint op_ids (m : kmodel) : list nat :=
  match m with KModel ns _ _ =>
    flat_map (fun n => match n with KNode u _ lay _ _ => match lay with LModel i => op_ids i | LOp => [u] | LInput => [] end end) ns end.
Definition input_ids (m : kmodel) : list nat := map uid (filter is_input (nodes_of m)).

(* one level of a Keras functional model *)
Record level_ok (ns : list knode) (ins outs : list nat) : Prop := {
  made_once : NoDup (flat_map kout ns);
  made_here : forall n t, In n ns -> In t (kin n) -> exists p, In p ns /\ In t (kout p);
  outs_made : forall t, In t outs -> exists p, In p ns /\ In t (kout p);
  not_own : forall n, In n ns -> is_input n = false -> disjoint (kin n) (kout n);
  ins_once : NoDup ins;
  ins_are : forall t, In t ins -> exists n, In n ns /\ is_input n = true /\ kout n = [t];
  inputs_listed : forall n, In n ns -> is_input n = true -> exists t, kin n = [t] /\ kout n = [t] /\ In t ins;
  (* no layer is called on one tensor at two positions *)
  read_once : forall n, In n ns -> NoDup (kin n)
}.
(* the calls of nested models: of the right numbers of tensors, one call per model, and a nested model that
   neither lists a tensor twice among its outputs nor returns an input as it is *)
Definition call_ok (ns : list knode) (n : knode) (inner : kmodel) : Prop :=
  length (kin n) = length (ins_of inner) /\ length (kout n) = length (outs_of inner) /\
  NoDup (outs_of inner) /\ disjoint (outs_of inner) (ins_of inner) /\
  (forall p, In p ns -> kname p = kname n -> p = n).
Fixpoint levels_ok (m : kmodel) : Prop :=
  match m with KModel ns ins outs =>
    level_ok ns ins outs /\
    (fix all (l : list knode) : Prop :=
       match l with
       | [] => True
       | n :: r => match n with KNode _ _ (LModel inner) _ _ => call_ok ns n inner /\ levels_ok inner | _ => True end /\ all r
       end) ns
  end.
Definition keras_model (m : kmodel) : Prop := levels_ok m /\ NoDup (ids m).

(* in every nested model, the operations read the input layers at the first position only *)
Definition inputs_read_first (m : kmodel) : Prop :=
  forall n i t, In n (nodes_of m) -> layer n = LOp -> nth_error (kin n) i = Some t -> In t (ins_of m) -> i = 0.
Fixpoint nested_read_first (m : kmodel) : Prop :=
  match m with KModel ns _ _ =>
    (fix all (l : list knode) : Prop :=
       match l with
       | [] => True
       | KNode _ _ (LModel inner) _ _ :: r => (inputs_read_first inner /\ nested_read_first inner) /\ all r
       | _ :: r => all r
       end) ns
  end.

(* ai and ao give the numbers of tensors each call of the model, at any level, takes and returns *)
Fixpoint calls (m : kmodel) : list (nat * (nat * nat)) :=
  match m with KModel ns _ _ =>
    flat_map (fun n => match n with KNode u _ lay i o => (u, (length i, length o)) :: match lay with LModel inner => calls inner | _ => [] end end) ns end.
Definition shaped (ai ao : nat -> nat) (m : kmodel) : Prop := forall u i o, In (u, (i, o)) (calls m) -> ai u = i /\ ao u = o.
