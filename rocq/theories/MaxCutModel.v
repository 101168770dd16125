(* MaxCutModel.v -- activation-memory scheduling (max cut of the memory graph).
   Sources (model_compression_toolkit/core/common/graph/memory_graph/): memory_graph.py L38-140, bipartite_graph.py,
   memory_element.py L60-115, cut.py L24-80, max_cut_astar.py L84-331, L390-425, compute_graph_max_cut.py L28-75.
   Simplifications:
   - operations are natural numbers (distinct names), the dummy operations / tensors are separate constructors (the code
     recognises them by a substring of their name); the getitem re-indexing of out edges is left out;
   - tensor sizes are natural numbers given by a function;
   - [Cut.__hash__] is [id], so membership of a fresh cut in open_list / closed_list / costs is always false: the cost and
     the route are stored with the open cut and the closed list, which can never contain a fresh cut, is left out;
   - the order of python sets and the last component of the sorting key (the signature string) only break ties; they are
     replaced by an arbitrary tie-breaking function [pick], over which all theorems quantify;
   - op_record always holds the same operations as op_order; both are kept. *)
From Verif Require Import Base RoundQ.
Open Scope nat_scope.

Inductive opn := Op (n : nat) | SrcA | TgtA | TgtA2.
Inductive ten := Ten (n i : nat) | SrcB | TgtB | TgtB2.
Definition opn_eq_dec (a b : opn) : {a = b} + {a <> b}. Proof. decide equality; apply Nat.eq_dec. Defined.
Definition ten_eq_dec (a b : ten) : {a = b} + {a <> b}. Proof. decide equality; apply Nat.eq_dec. Defined.
Definition edge_eq_dec (a b : ten * opn) : {a = b} + {a <> b}.
Proof. decide equality; [apply opn_eq_dec|apply ten_eq_dec]. Defined.
Definition op_in (o : opn) (l : list opn) : bool := if in_dec opn_eq_dec o l then true else false.
Definition ten_in (t : ten) (l : list ten) : bool := if in_dec ten_eq_dec t l then true else false.

(* The model graph: operations, number of outputs of each, sizes of the output tensors, edges (source, source index, sink). *)
Record mgraph := { g_ops : list nat; g_nout : nat -> nat; g_size : nat -> nat -> nat; g_edges : list (nat * nat * nat) }.

(* bipartite graph: edges operation -> tensor and tensor -> operation (a DiGraph has no repeated edges) *)
Record bip := { b_ab : list (opn * ten); b_ba : list (ten * opn) }.
Definition op_children (b : bip) (o : opn) : list ten := map snd (filter (fun e => if opn_eq_dec (fst e) o then true else false) (b_ab b)).
Definition op_parents (b : bip) (o : opn) : list ten := map fst (filter (fun e => if opn_eq_dec (snd e) o then true else false) (b_ba b)).
Definition ten_children (b : bip) (t : ten) : list opn := map snd (filter (fun e => if ten_eq_dec (fst e) t then true else false) (b_ba b)).
Definition ten_parents (b : bip) (t : ten) : list opn := map fst (filter (fun e => if ten_eq_dec (snd e) t then true else false) (b_ab b)).

(* memory_graph.py L38-73 *)
Definition tensors (g : mgraph) : list (nat * nat) := flat_map (fun n => map (fun i => (n, i)) (seq 0 (g_nout g n))) (g_ops g).
Definition memory_graph (g : mgraph) : bip :=
  {| b_ab := map (fun ni => (Op (fst ni), Ten (fst ni) (snd ni))) (tensors g);
     b_ba := nodup edge_eq_dec
               (flat_map (fun ni => map (fun e => (Ten (fst ni) (snd ni), Op (snd e)))
                                        (filter (fun e => Nat.eqb (fst (fst e)) (fst ni) && Nat.eqb (snd (fst e)) (snd ni)) (g_edges g)))
                         (tensors g)) |}.
(* L99-115 *)
Definition sources_a (g : mgraph) (b : bip) : list opn :=
  filter (fun o => match op_parents b o with [] => true | _ => false end) (map Op (g_ops g)).
Definition sinks_b (g : mgraph) (b : bip) : list ten :=
  filter (fun t => match ten_children b t with [] => true | _ => false end) (map (fun ni => Ten (fst ni) (snd ni)) (tensors g)).

(* max_cut_astar.py L84-124: dummy source and targets *)
Definition astar_graph (g : mgraph) : bip :=
  let b := memory_graph g in
  {| b_ab := b_ab b ++ [(SrcA, SrcB); (TgtA, TgtB); (TgtA2, TgtB2)];
     b_ba := b_ba b ++ map (fun o => (SrcB, o)) (sources_a g b) ++ map (fun t => (t, TgtA)) (sinks_b g b) ++ [(TgtB, TgtA2)] |}.

Definition ten_size (g : mgraph) (t : ten) : nat := match t with Ten n i => g_size g n i | _ => 0 end.
Definition sum_nat (l : list nat) : nat := fold_right Nat.add 0 l.

Record cut := { c_order : list opn; c_record : list opn; c_elems : list ten; c_size : nat }.

Section Astar.
Variable g : mgraph.
Let b := astar_graph g.
Notation size := (ten_size g).

Definition src_cut : cut := {| c_order := [SrcA]; c_record := [SrcA]; c_elems := [SrcB]; c_size := 0 |}.
(* L122-124; equality of cuts is equality of the element sets *)
Definition target_elems : list ten := [TgtB; TgtB2].
Definition is_target (c : cut) : bool :=
  forallb (fun t => ten_in t target_elems) (c_elems c) && forallb (fun t => ten_in t (c_elems c)) target_elems.

(* L241-260 *)
Definition clean (c : cut) : cut :=
  let kept := filter (fun t => negb (forallb (fun ch => op_in ch (c_record c)) (ten_children b t))) (c_elems c) in
  {| c_order := c_order c; c_record := c_record c; c_elems := kept; c_size := sum_nat (map size kept) |}.
(* L262-276 *)
Definition can_expand (o : opn) (c : cut) : bool :=
  negb (op_in o (c_record c)) && negb (match c_elems c with [] => true | _ => false end) &&
  forallb (fun t => ten_in t (c_elems (clean c))) (op_parents b o).
(* L278-312 *)
Definition candidates (cc : cut) : list opn :=
  fold_left (fun cands t => cands ++ filter (fun o => can_expand o cc && negb (op_in o cands)) (ten_children b t)) (c_elems cc) [].
Definition add_elements (es new : list ten) : list ten := fold_left (fun acc t => if ten_in t acc then acc else acc ++ [t]) new es.
Definition expand_by (cc : cut) (o : opn) : cut :=
  {| c_order := c_order cc ++ [o];
     c_record := c_record cc ++ [o];
     c_elems := add_elements (c_elems cc) (op_children b o);
     c_size := c_size cc + sum_nat (map size (op_children b o)) |}.
Definition expand (c : cut) : list cut := let cc := clean c in map (expand_by cc) (candidates cc).
(* L314-331 *)
Definition is_pivot (c : cut) : bool :=
  Nat.eqb (length (nodup opn_eq_dec (concat (map (ten_parents b) (c_elems (clean c)))))) 1.

(* an open cut with its cost and its route (most recent cut first) *)
Record entry := { e_cut : cut; e_cost : nat; e_route : list cut }.
Definition natq (n : nat) : Q := inject_Z (Z.of_nat n).
Definition prio (estimate : Q) (e : entry) : Q := Qmax_ (natq (e_cost e)) estimate.
(* L218-239: e comes no later than e' in the sorted open list *)
Definition key_le (estimate : Q) (e e' : entry) : bool :=
  Qlt_b (prio estimate e) (prio estimate e') ||
  (Qeq_bool (prio estimate e) (prio estimate e') && Nat.leb (length (e_route e')) (length (e_route e))).
Definition minimal (estimate : Q) (open : list entry) (e : entry) : bool := forallb (key_le estimate e) open.
Fixpoint extract {A} (f : A -> bool) (l : list A) : option (A * list A) :=
  match l with
  | [] => None
  | x :: r => if f x then Some (x, r) else match extract f r with Some (y, r') => Some (y, x :: r') | None => None end
  end.
(* the cut to expand: any one with a minimal key; [pick] rotates the list, i.e. chooses among equals *)
Definition rotate {A} (k : nat) (l : list A) : list A := skipn k l ++ firstn k l.
Definition choose (pick : list entry -> nat) (estimate : Q) (open : list entry) : option (entry * list entry) :=
  extract (minimal estimate open) (rotate (pick open) open).

(* L390-425 *)
Definition real_ops (l : list opn) : list nat := flat_map (fun o => match o with Op n => [n] | _ => [] end) l.
Definition real_tens (l : list ten) : list (nat * nat) := flat_map (fun t => match t with Ten n i => [(n, i)] | _ => [] end) l.

(* L126-197; the result is schedule, cost and the cuts of the route without dummy tensors (latest first) *)
Fixpoint solve_loop (pick : list entry -> nat) (estimate : Q) (limit : nat) (open : list entry)
  : option (list nat * nat * list (list (nat * nat))) :=
  match limit with
  | O => None
  | S limit' =>
      match choose pick estimate open with
      | None => None
      | Some (e, rest) =>
          if is_target (e_cut e)
          then Some (real_ops (match e_route e with c :: _ => c_order c | [] => [] end), e_cost e,
                     map (fun c => real_tens (c_elems c)) (e_route e))
          else
            let rest' := if is_pivot (e_cut e) then [] else rest in
            let new := map (fun c => {| e_cut := c; e_cost := Nat.max (e_cost e) (c_size c); e_route := c :: e_route e |}) (expand (e_cut e)) in
            solve_loop pick estimate limit' (rest' ++ new)
      end
  end.
Definition solve pick estimate limit :=
  solve_loop pick estimate limit [{| e_cut := src_cut; e_cost := 0; e_route := [src_cut] |}].

(* memory_graph.py L78-87: max over operations of the size of outputs plus inputs (an operation without inputs counts its
   outputs); [memory_graph] is the graph without dummies *)
Definition lbound_single_op : nat :=
  fold_right Nat.max 0 (map (fun n => sum_nat (map size (op_children (memory_graph g) (Op n))) +
                                      sum_nat (map size (op_parents (memory_graph g) (Op n)))) (g_ops g)).
Definition total_memory : nat := sum_nat (map (fun ni => g_size g (fst ni) (snd ni)) (tensors g)).

(* compute_graph_max_cut.py L28-75; [tmo it] says that the solver times out in iteration it (never in the first one,
   which has no time limit) *)
Definition solution := option (list nat * nat * list (list (nat * nat))).
Fixpoint driver (pick : nat -> list entry -> nat) (tmo : nat -> bool) (astar_n_iter : nat) (eps : Q) (n it : nat) (l u : Q) (last : solution)
  : result solution :=
  match n with
  | O => Ok last
  | S n' =>
      let estimate := ((u + l) / 2)%Q in
      if negb (Nat.eqb it 0) && tmo it
      then match last with None => Err E_critical | Some _ => Ok last end
      else match solve (pick it) estimate astar_n_iter with
           | None => driver pick tmo astar_n_iter eps n' (S it) estimate u last
           | Some r =>
               let u' := Qmin_ estimate (natq (snd (fst r))) in
               if Qle_bool u' (l * (1 + eps))%Q then Ok (Some r)
               else driver pick tmo astar_n_iter eps n' (S it) l u' (Some r)
           end
  end.
Definition max_cut pick tmo n_iter astar_n_iter eps : result solution :=
  driver pick tmo astar_n_iter eps n_iter 0 (natq lbound_single_op) (natq (2 * total_memory) - natq lbound_single_op)%Q None.
End Astar.
