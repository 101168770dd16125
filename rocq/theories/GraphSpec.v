(* GraphSpec.v -- what editing a graph should do, and what a graph computes. *)
From Coq Require Import Permutation Sorted.
From Verif Require Import Base GraphModel.

(* the edge e with its source (its sink) c replaced by n *)
Definition resrc (c n : nat) (e : edge) : edge := if Nat.eqb (src e) c then Edge n (snk e) (si e) (ti e) else e.
Definition resnk (c n : nat) (e : edge) : edge := if Nat.eqb (snk e) c then Edge (src e) n (si e) (ti e) else e.
Definition rename (c n m : nat) : nat := if Nat.eqb m c then n else m.
Definition reout (c n : nat) (o : nat * nat) : nat * nat := (rename c n (fst o), snd o).

(* no node is listed twice and edges join nodes of the graph *)
Record wf (g : graph) : Prop := {
  wf_nodes : NoDup (g_nodes g);
  wf_ends : forall e, In e (g_edges g) -> In (src e) (g_nodes g) /\ In (snk e) (g_nodes g)
}.

(* ---- what a graph computes: the node n maps its inputs, ordered by input index, to its outputs ---- *)
Section Values.
Context {V : Type} (op : nat -> list V -> nat -> V).
Definition reads (g : graph) (val : nat -> nat -> V) (n : nat) (l : list V) : Prop :=
  exists es, Permutation es (filter (fun e => Nat.eqb (snk e) n) (g_edges g)) /\
             StronglySorted (fun a b => ti a <= ti b)%nat es /\ l = map (fun e => val (src e) (si e)) es.
Definition computes (g : graph) (val : nat -> nat -> V) : Prop :=
  forall n, In n (g_nodes g) -> forall l, reads g val n l -> forall k, val n k = op n l k.
Definition outputs (g : graph) (val : nat -> nat -> V) : list V := map (fun o => val (fst o) (snd o)) (g_out g).
End Values.

(* a walk along the edges of the graph *)
Definition linked (g : graph) (a b : nat) : Prop := exists e, In e (g_edges g) /\ src e = a /\ snk e = b.
Fixpoint walk (g : graph) (l : list nat) : Prop :=
  match l with a :: ((b :: _) as r) => linked g a b /\ walk g r | _ => True end.
Definition out_degree (g : graph) (n : nat) : nat := length (filter (fun e => Nat.eqb (src e) n) (g_edges g)).
