(* FuseSpec.v -- what is promised about fused operations. *)
From Coq Require Import Permutation Sorted String.
From Verif Require Import Base GraphModel GraphSpec FuseModel.
Open Scope list_scope.

Section Spec.
Context {E : Type}.
Variable name : nat -> string.
Variable matches : E -> nat -> bool.

(* the operation op lists a node called nm *)
Definition lists (data : list (string * list nat)) (op nm : string) : Prop :=
  exists ns n, In (op, ns) data /\ In n ns /\ name n = nm.
(* no operation has two entries and no name occurs in two operations *)
Definition separate (data : list (string * list nat)) : Prop :=
  NoDup (map fst data) /\ forall o1 o2 nm, lists data o1 nm -> lists data o2 nm -> o1 = o2.
(* the nodes match the pattern element by element *)
Definition full_match (p : list E) (ns : list nat) : Prop := Forall2 (fun x n => matches x n = true) p ns.
(* the configuration of an operation is that of the first pattern its nodes match *)
Definition config_of (patterns : list (@pattern E)) (ns : list nat) (c : option (option qcfg)) : Prop :=
  (exists pre p post, patterns = pre ++ p :: post /\ (forall q, In q pre -> ~ full_match (fp_layers q) ns) /\ full_match (fp_layers p) ns /\ c = Some (fp_cfg p)) \/
  ((forall q, In q patterns -> ~ full_match (fp_layers q) ns) /\ c = None).
Record consistent (f : @finfo E) : Prop := {
  co_sep : separate (fi_data f);
  co_map : forall nm op, op_of_node f nm = Some op <-> lists (fi_data f) op nm;
  co_cfg : forall op ns, In (op, ns) (fi_data f) -> (2 <= length ns)%nat -> config_of (fi_patterns f) ns (sget op (fi_cfg f));
  co_cfg_known : forall op c, sget op (fi_cfg f) = Some c -> In op (map fst (fi_data f))
}.

(* ---- chains of a graph ---- *)
(* b is the only consumer of a, by a single edge *)
Definition only_next (g : graph) (a b : nat) : Prop := exists e, filter (fun x => Nat.eqb (src x) a) (g_edges g) = [e] /\ snk e = b.
Definition only_prev (g : graph) (a b : nat) : Prop := exists e, filter (fun x => Nat.eqb (snk x) b) (g_edges g) = [e] /\ src e = a.
Fixpoint steps (R : nat -> nat -> Prop) (l : list nat) : Prop :=
  match l with a :: ((b :: _) as r) => R a b /\ steps R r | _ => True end.
Definition chain (g : graph) (ns : list nat) : Prop := steps (only_next g) ns.
(* the nodes match the beginning of the pattern *)
Definition begins (p : list E) (ns : list nat) : Prop := exists a b, p = a ++ b /\ full_match a ns.
(* the longest chain from n that some pattern begins with *)
Definition longest (g : graph) (layers : list (list E)) (n : nat) (ns : list nat) : Prop :=
  chain g ns /\ (ns = [] \/ exists p, hd_error ns = Some n /\ In p layers /\ begins p ns) /\
  forall ns' p, hd_error ns' = Some n -> chain g ns' -> In p layers -> begins p ns' -> exists r, ns = ns' ++ r.
(* edges lead forward in the order *)
Definition topological (g : graph) (topo : list nat) : Prop :=
  Permutation topo (g_nodes g) /\ forall e, In e (g_edges g) -> exists p q r, topo = p ++ src e :: q ++ snk e :: r.
End Spec.

(* ---- fusing the nodes ns into f ---- *)
Definition rep (ns : list nat) (f m : nat) : nat := if mem m ns then f else m.
Definition inside (ns : list nat) (e : edge) : bool := mem (src e) ns && mem (snk e) ns.
Definition collapse (ns : list nat) (f : nat) (e : edge) : edge := Edge (rep ns f (src e)) (rep ns f (snk e)) (si e) (ti e).
(* f takes the place of the nodes ns, keeping the edges that satisfy keep *)
Definition fused_with (keep : edge -> bool) (g : graph) (ns : list nat) (f : nat) (g' : graph) : Prop :=
  Permutation (g_edges g') (map (collapse ns f) (filter keep (g_edges g))) /\
  (forall m, In m (g_nodes g') <-> (In m (g_nodes g) /\ ~ In m ns) \/ m = f) /\
  g_in g' = g_in g /\ g_out g' = map (fun o => (rep ns f (fst o), snd o)) (g_out g).
(* what should happen: every edge but those inside the group is kept *)
Definition fused (g : graph) (ns : list nat) (f : nat) (g' : graph) : Prop := fused_with (fun e => negb (inside ns e)) g ns f g'.
(* an edge that enters the group behind its first node *)
Definition enters_late (ns : list nat) (e : edge) : bool := mem (snk e) (tl ns).
(* every node but the last is read by its successor only, no two edges join an end of the group to the
   same outside node, and at most one output is taken, from the last node *)
Record fusible (g : graph) (ns : list nat) (f : nat) : Prop := {
  fu_wf : wf g;
  fu_new : ~ In f (g_nodes g);
  fu_nodup : NoDup ns;
  fu_two : (2 <= length ns)%nat;
  fu_nodes : forall n, In n ns -> In n (g_nodes g);
  fu_next : steps (only_next g) ns;
  fu_in : forall a, hd_error ns = Some a -> NoDup (map src (filter (fun e => Nat.eqb (snk e) a) (g_edges g)));
  fu_out : forall z r, ns = r ++ [z] -> NoDup (map snk (filter (fun e => Nat.eqb (src e) z) (g_edges g))) /\
             (forall e, In e (g_edges g) -> src e = z -> ~ In (snk e) ns) /\
             (forall o, In o (g_out g) -> In (fst o) ns -> fst o = z) /\
             (length (filter (fun o => Nat.eqb (fst o) z) (g_out g)) <= 1)%nat;
  fu_not_in : forall n, In n ns -> ~ In n (g_in g)
}.
(* no node but the first reads anything but its predecessor in the group *)
Definition no_side_inputs (g : graph) (ns : list nat) : Prop := steps (only_prev g) ns.

(* ---- fusing several groups at once: the operation op becomes the node fused_of op ---- *)
Section All.
Variables (data : list (string * list nat)) (fused_of : string -> nat).
Definition rep_all (m : nat) : nat := match find (fun kv => mem m (snd kv)) data with Some kv => fused_of (fst kv) | None => m end.
Definition collapse_all (e : edge) : edge := Edge (rep_all (src e)) (rep_all (snk e)) (si e) (ti e).
Definition fused_all_with (keep : edge -> bool) (g g' : graph) : Prop :=
  Permutation (g_edges g') (map collapse_all (filter keep (g_edges g))) /\
  (forall m, In m (g_nodes g') <-> (In m (g_nodes g) /\ forall op ns, In (op, ns) data -> ~ In m ns) \/ exists op ns, In (op, ns) data /\ m = fused_of op) /\
  g_in g' = g_in g /\ g_out g' = map (fun o => (rep_all (fst o), snd o)) (g_out g).
End All.

(* what a fused node computes: the later nodes applied to the first in turn, each reading the given output
   of the node before *)
Definition compose {V} (op : nat -> list V -> nat -> V) (first : nat) (later : list (nat * nat)) (l : list V) : nat -> V :=
  fold_left (fun v ni => op (fst ni) [v (snd ni)]) later (op first l).
