(* ConcatModel.v -- C95: inputs of a concatenation get its threshold.
   Model of core/keras/graph_substitutions/substitutions/concat_threshold_update.py (ConcatThresholdUpdate L26-66), of its PyTorch
   counterpart (L27-65), of core/common/substitutions/apply_substitutions.py (substitute L21-37) and of the matching of node types
   (core/common/graph/graph_matchers.py NodeOperationMatcher L37-52, base_node.py is_match_type L646-656, functional_node.py L92-106).
   Of a candidate the activation quantization parameters are kept: the dictionary is a threshold and a rest that is not touched. *)
From Coq Require Import List Arith ZArith QArith Bool String.
From Verif Require Import Base.
Import ListNotations.
Open Scope res_scope.

(* the type of a node: a layer class or a function, with the name and the identity of the object *)
Record ty := mk_ty { functional : bool; tname : string; tobj : nat }.
Inductive method := Pot | Sym | Uni.
Record cand := mk_cand { c_method : method; c_thr : option Q; c_rest : nat }.
Record node := mk_node { n_id : nat; n_ty : ty; n_cands : list cand }.
(* edges in the order of the underlying multigraph, a source and a sink *)
Record graph := mk_graph { g_nodes : list node; g_edges : list (nat * nat) }.
(* is_match_type *)
Definition match_type (op : ty) (n : node) : bool :=
  if functional (n_ty n) then String.eqb (tname op) (tname (n_ty n)) || Nat.eqb (tobj op) (tobj (n_ty n)) else Nat.eqb (tobj op) (tobj (n_ty n)).
(* NodeOperationMatcher a | NodeOperationMatcher b *)
Definition matched (a b : ty) (n : node) : bool := match_type a n || match_type b n.
Definition find (g : graph) (i : nat) : result node := match List.find (fun n => Nat.eqb (n_id n) i) (g_nodes g) with Some n => Ok n | None => Err E_key end.
Definition prev_nodes (g : graph) (i : nat) : list nat := map fst (filter (fun e => Nat.eqb (snd e) i) (g_edges g)).
Definition next_nodes (g : graph) (i : nat) : list nat := map snd (filter (fun e => Nat.eqb (fst e) i) (g_edges g)).
Definition update (g : graph) (i : nat) (f : node -> node) : graph := mk_graph (map (fun n => if Nat.eqb (n_id n) i then f n else n) (g_nodes g)) (g_edges g).
(* candidates_quantization_cfg[0].activation_quantization_cfg.activation_quantization_params[THRESHOLD] = t *)
Definition set_thr (t : Q) (n : node) : node :=
  mk_node (n_id n) (n_ty n) (match n_cands n with c :: r => mk_cand (c_method c) (Some t) (c_rest c) :: r | [] => [] end).
(* L62-64: one of the previous nodes *)
Definition one_prev (a b : ty) (t : Q) (g : graph) (p : nat) : result graph :=
  let! n := find g p in
  if Nat.eqb (length (next_nodes g p)) 1 && negb (Nat.eqb (tobj (n_ty n)) (tobj a)) && negb (Nat.eqb (tobj (n_ty n)) (tobj b))
  then match n_cands n with [] => Err E_index | _ => Ok (update g p (set_thr t)) end else Ok g.
(* L59-66 *)
Definition substitute1 (a b : ty) (g : graph) (i : nat) : result graph :=
  let! n := find g i in
  match n_cands n with
  | [c] => match c_thr c with Some t => foldM (one_prev a b t) (prev_nodes g i) g | None => Ok g end
  | _ => Ok g
  end.
(* apply_substitutions.py L31-36 *)
Definition concat_update (a b : ty) (g : graph) : result graph :=
  foldM (substitute1 a b) (map n_id (filter (matched a b) (g_nodes g))) g.
