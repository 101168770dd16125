(* ConcatSpec.v -- what C95 is stated with. *)
From Coq Require Import List Arith QArith Bool.
From Verif Require Import Base ConcatModel.
Import ListNotations.

(* a graph: distinct nodes, edges between nodes, candidates at every node *)
Definition graph_ok (g : graph) : Prop :=
  NoDup (map n_id (g_nodes g)) /\ (forall s d, In (s, d) (g_edges g) -> In s (map n_id (g_nodes g)) /\ In d (map n_id (g_nodes g))) /\
  Forall (fun n => n_cands n <> []) (g_nodes g).
(* one of the two operations a and b themselves *)
Definition is_concat (a b : ty) (n : node) : Prop := tobj (n_ty n) = tobj a \/ tobj (n_ty n) = tobj b.
(* what is taken for a concatenation is one of the two operations (no function of the same name) *)
Definition unambiguous (a b : ty) (g : graph) : Prop := Forall (fun n => matched a b n = true -> is_concat a b n) (g_nodes g).
(* the only edge from n leads to m *)
Definition feeds_only (g : graph) (n m : node) : Prop := filter (fun e => Nat.eqb (fst e) (n_id n)) (g_edges g) = [(n_id n, n_id m)].
(* m has one candidate, with threshold t *)
Definition has_threshold (m : node) (t : Q) : Prop := exists c, n_cands m = [c] /\ c_thr c = Some t.
(* n is no concatenation, and its output goes to a concatenation with threshold t and nowhere else *)
Definition gets (a b : ty) (g : graph) (n : node) (t : Q) : Prop :=
  ~ is_concat a b n /\ exists m, In m (g_nodes g) /\ is_concat a b m /\ feeds_only g n m /\ has_threshold m t.
(* n' is n with threshold t in its first candidate *)
Definition with_threshold (t : Q) (n n' : node) : Prop :=
  n_id n' = n_id n /\ n_ty n' = n_ty n /\ exists c r c', n_cands n = c :: r /\ n_cands n' = c' :: r /\ c_method c' = c_method c /\ c_rest c' = c_rest c /\ c_thr c' = Some t.
