(* MPSearchModel.v -- the mixed-precision search: configurable nodes, extreme candidates, sensitivity table, the integer
   program and the reading of its solution, and the greedy refinement.

   Sources (under model_compression_toolkit/core/common): graph/base_graph.py, graph/base_node.py,
   mixed_precision/mixed_precision_search_manager.py, mixed_precision/search_methods/linear_programming.py,
   mixed_precision/solution_refinement_procedure.py.

   The search below is the one on the original graph (no virtual graph, mixed_precision_search_manager.py L262-270 with
   the condition false).  The solver (PuLP/CBC) is a parameter: a function from the program to the values of the
   indicator variables, or None when its status is not Optimal. *)
From Verif Require Import Base HessianModel MPModel.

(* get_weights_configurable_nodes / get_activation_configurable_nodes / get_configurable_sorted_nodes,
   base_graph.py L554-630, include_reused_nodes = False *)
Definition is_configurable (n : node) : result bool :=
  let! w := match n_kernel n with
            | Some k => let! c := configurable_weight n k in Ok (c && negb (n_reuse n))
            | None => Ok false
            end in
  let! a := configurable_act n in Ok (w || a).
Definition configurable_nodes (g : graph) : result (list node) := filterM is_configurable (g_nodes g).

(* lexicographic order of Python tuples of ints *)
Fixpoint lex_lt (a b : list Z) : bool :=
  match a, b with
  | [], [] => false
  | [], _ :: _ => true
  | _ :: _, [] => false
  | x :: r, y :: s => if Z.ltb x y then true else if Z.ltb y x then false else lex_lt r s
  end.
Fixpoint zlist_eqb (a b : list Z) : bool :=
  match a, b with [], [] => true | x :: r, y :: s => Z.eqb x y && zlist_eqb r s | _, _ => false end.
Definition aw_nbits (c : cand) : list Z := a_bits (c_act c) :: map (fun p => w_bits (snd p)) (c_w c).
(* indices i with p (nth i l) *)
Definition indices_where {A} (p : A -> bool) (l : list A) : list nat :=
  map fst (filter (fun q => p (snd q)) (combine (seq 0 (length l)) l)).
(* any(nb[i] < m[i] for i in range(len(m)) for nb in l), with the IndexError of a shorter tuple ignored *)
Definition any_below (m : list Z) (l : list (list Z)) : bool :=
  existsb (fun nb => existsb (fun p => Z.ltb (fst p) (snd p)) (combine nb m)) l.
(* find_min_candidate_index, base_node.py L550-563 *)
Definition find_min_candidate (n : node) : result nat :=
  let l := map aw_nbits (n_cands n) in
  match l with
  | [] => Err E_value
  | x :: r =>
      let m := fold_left (fun best y => if lex_lt y best then y else best) r x in
      match indices_where (fun y => zlist_eqb m y) l with
      | [i] => if any_below m l then Err E_value else Ok i
      | _ => Err E_value
      end
  end.
(* find_max_candidate_index, base_node.py L565-578 *)
Definition any_above (m : list Z) (l : list (list Z)) : bool :=
  existsb (fun nb => existsb (fun p => Z.ltb (snd p) (fst p)) (combine nb m)) l.
Definition find_max_candidate (n : node) : result nat :=
  let l := map aw_nbits (n_cands n) in
  match l with
  | [] => Err E_value
  | x :: r =>
      let m := fold_left (fun best y => if lex_lt best y then y else best) r x in
      match indices_where (fun y => zlist_eqb m y) l with
      | [i] => if any_above m l then Err E_value else Ok i
      | _ => Err E_value
      end
  end.
(* get_min_candidates_config, base_graph.py L649-663 *)
Definition min_config (conf : list node) : result mpcfg :=
  mapM (fun n => let! i := find_min_candidate n in Ok (n_name n, i)) conf.

(* ---- sensitivity table, mixed_precision_search_manager.py L161-241 and L311-332 ---- *)
Inductive norm := N_none | N_maxbit | N_minbit.
Definition list_max_Q (l : list Q) : result Q :=
  match l with [] => Err E_value | x :: r => Ok (fold_left q_max r x) end.
Definition scale_by (d : Q) (l : list Q) : result (list Q) :=
  if Qeq_bool d 0 then Err E_zero_div else Ok (map (fun x => (x / d)%Q) l).
(* normalize, L178-191; numpy's division by zero (inf/nan) is an error here *)
Definition normalize (nm : norm) (n : node) (mx : nat) (ms : list Q) : result (list Q) :=
  match nm with
  | N_none => Ok ms
  | N_maxbit => match nth_error ms mx with Some d => scale_by d ms | None => Err E_index end
  | N_minbit => let! i := find_min_candidate n in
                match nth_error ms i with Some d => scale_by d ms | None => Err E_index end
  end.
(* ensure_maxbit_minimal_metric, L193-201 *)
Definition ensure_maxbit (eps : option Q) (mx : nat) (ms : list Q) : result (list Q) :=
  match eps with
  | None => Ok ms
  | Some e => match nth_error ms mx with
              | None => Err E_index
              | Some v => Ok (map (fun p => if Nat.eqb (fst p) mx then v else q_max (snd p) (v + e)%Q)
                                  (combine (seq 0 (length ms)) ms))
              end
  end.
Section Search.
Variable metric : nat -> nat -> Q.   (* sensitivity_evaluator.compute_metric for {node: candidate}, L206-215 *)
Variables (nm : norm) (eps : option Q) (threshold : Q).

Definition node_sensitivity (n : node) : result (list Q) :=
  let raw := map (metric (n_name n)) (seq 0 (length (n_cands n))) in
  let! mx := find_max_candidate n in
  let! l := normalize nm n mx raw in
  ensure_maxbit eps mx l.
Definition sensitivity_table (conf : list node) : result (list (list Q)) :=
  let! t := mapM node_sensitivity conf in
  let! mx := list_max_Q (concat t) in
  if Qle_bool threshold mx then mapM (scale_by mx) t else Ok t.

(* ---- the integer program, linear_programming.py L27-148 ---- *)
(* lp_sens: sensitivities per layer and candidate; lp_rows: resource constraints, coefficients over the concatenated
   indicator variables and the bound *)
Record lp := mkLP { lp_sens : list (list Q); lp_rows : list (list Q * Q) }.
Fixpoint dot (a b : list Q) : Q :=
  match a, b with x :: r, y :: s => (x * y + dot r s)%Q | _, _ => 0%Q end.
(* what the formulation asks of an assignment [x] of the indicators and [s] of the objective variables:
   L85-92 (integer in [0,1]; s_i >= 0), L111-118, L141-148 *)
Definition lp_layer (sens x : list Q) (s : Q) : Prop :=
  length x = length sens /\ Forall (fun v => v == 0 \/ v == 1)%Q x /\ (dot x sens == s)%Q /\ (0 <= s)%Q /\
  (fold_right Qplus 0 x == 1)%Q.
Inductive lp_layers : list (list Q) -> list (list Q) -> list Q -> Prop :=
| LL_nil : lp_layers [] [] []
| LL_cons c cs x xs s ss : lp_layer c x s -> lp_layers cs xs ss -> lp_layers (c :: cs) (x :: xs) (s :: ss).
Definition lp_feasible (p : lp) (x : list (list Q)) (s : list Q) : Prop :=
  lp_layers (lp_sens p) x s /\ Forall (fun row => (dot (fst row) (concat x) <= snd row)%Q) (lp_rows p).
Definition lp_optimal (p : lp) (x : list (list Q)) (s : list Q) : Prop :=
  lp_feasible p x s /\ forall x' s', lp_feasible p x' s' -> (fold_right Qplus 0 s <= fold_right Qplus 0 s')%Q.

(* [v.varValue for v in vars].index(1.), L71-73 *)
Fixpoint index_one (i : nat) (x : list Q) : result nat :=
  match x with [] => Err E_value | v :: r => if Qeq_bool v 1 then Ok i else index_one (S i) r end.

(* ---- the search, mixed_precision_search_manager.py L105-159 and L272-289 ---- *)
Variable solver : lp -> option (list (list Q)).

Definition uflat (u : uvec) : list Q := u_w u ++ u_a u ++ u_t u ++ u_b u.
Definition spread (t : option Q) (l : list Q) : list Q := match t with Some q => map (fun _ => q) l | None => [] end.
Definition tflat (t : ru) (u : uvec) : list Q :=
  spread (ru_w t) (u_w u) ++ spread (ru_a t) (u_a u) ++ spread (ru_t t) (u_t u) ++ spread (ru_b t) (u_b u).
Definition minus (a b : list Q) : list Q := map (fun p => (fst p - snd p)%Q) (combine a b).
Definition column (j : nat) (rows : list (list Q)) : list Q := map (fun r => nth j r 0%Q) rows.

(* _compute_relative_ru_matrices, L272-289: one row per configurable node and candidate *)
Definition relative_rows (g : graph) (tg : targets) (conf : list node) (mincfg : mpcfg) (minu : uvec)
  : result (list (list Q)) :=
  let! rows := mapM (fun n => mapM (fun i =>
      let! u := if match dict_get (n_name n) mincfg with Some j => Nat.eqb i j | None => false end then Ok minu
                else compute_utilization g tg (dict_set (n_name n) i mincfg) in
      Ok (minus (uflat u) (uflat minu))) (seq 0 (length (n_cands n)))) conf in
  Ok (concat rows).

Definition search (g : graph) (target : ru) : result mpcfg :=
  let tg := restricted_targets target in
  let! conf := configurable_nodes g in
  let! mincfg := min_config conf in
  let! minu := compute_utilization g tg mincfg in
  let! rows := relative_rows g tg conf mincfg minu in
  let rel := minus (tflat target minu) (uflat minu) in
  if existsb (fun q => negb (Qle_bool 0 q)) rel then Err E_value else
  let! sens := sensitivity_table conf in
  let p := mkLP sens (map (fun j => (column j rows, nth j rel 0%Q)) (seq 0 (length rel))) in
  match solver p with
  | None => Err E_runtime
  | Some x => let! idx := mapM (index_one 0) x in Ok (combine (map n_name conf) idx)
  end.
End Search.
