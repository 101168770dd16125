(* RefineModel.v -- greedy refinement of a mixed-precision solution.
   Source: model_compression_toolkit/core/common/mixed_precision/solution_refinement_procedure.py L27-194 *)
From Verif Require Import Base HessianModel MPModel MPSearchModel.

(* all(f(x) for x in l): stops at the first False *)
Fixpoint allM {A} (f : A -> result bool) (l : list A) : result bool :=
  match l with [] => Ok true | x :: r => let! b := f x in if b then allM f r else Ok false end.

(* candidate_weight_bits[attr], L158-161: KeyError when absent *)
Definition wn (c : cand) (a : nat) : result Z := match dict_get a (c_w c) with Some w => Ok (w_bits w) | None => Err E_key end.
Definition attrs (c : cand) : list nat := map fst (c_w c).

(* is_valid_candidate, L166-190 *)
Definition valid_candidate (act_restricted weight_restricted : bool) (cur c : cand) : result bool :=
  let cmp (op : Z -> Z -> bool) (a : nat) := let! x := wn c a in let! y := wn cur a in Ok (op x y) in
  let ca := a_bits (c_act c) in
  let ka := a_bits (c_act cur) in
  let! same := if Z.eqb ca ka then allM (cmp Z.eqb) (attrs cur) else Ok false in
  if same then Ok false else
  let! vw := allM (cmp (if weight_restricted then Z.geb else Z.eqb)) (attrs cur) in
  let va := if act_restricted then Z.geb ca ka else Z.eqb ca ka in
  Ok (vw && va).

(* _get_valid_candidates_indices, L118-194 *)
Definition valid_candidates (ar wr : bool) (n : node) (i : nat) : result (list nat) :=
  match nth_error (n_cands n) i with
  | None => Err E_index
  | Some cur => filterM (fun j => match nth_error (n_cands n) j with
                                  | Some c => valid_candidate ar wr cur c
                                  | None => Err E_index
                                  end) (seq 0 (length (n_cands n)))
  end.

(* the sort key (total, weights, activation); an absent value is infinite *)
Definition olt (x y : option Q) : bool :=
  match x, y with Some a, Some b => negb (Qle_bool b a) | Some _, None => true | None, _ => false end.
Definition key_lt (r s : ru) : bool :=
  if olt (ru_t r) (ru_t s) then true else if olt (ru_t s) (ru_t r) then false else
  if olt (ru_w r) (ru_w s) then true else if olt (ru_w s) (ru_w r) then false else olt (ru_a r) (ru_a s).
(* sorted(l, key=...)[0]: the sort is stable, so the first of the least *)
Definition least {A} (l : list (A * ru)) : option (A * ru) :=
  match l with [] => None | x :: r => Some (fold_left (fun b y => if key_lt (snd y) (snd b) then y else b) r x) end.

Section Refine.
Variables (g : graph) (target : ru).
Let ar : bool := restricted (ru_a target) || restricted (ru_t target) || restricted (ru_b target).   (* L57 *)
Let wr : bool := restricted (ru_w target) || restricted (ru_t target) || restricted (ru_b target).   (* L58 *)

(* L68-97: the best upgrade of one node, or None *)
Definition node_upgrade (sol : mpcfg) (n : node) : result (option (nat * nat * ru)) :=
  match dict_get (n_name n) sol with
  | None => Err E_key
  | Some i =>
      let! mx := find_max_candidate n in
      if Nat.eqb i mx then Ok None else
      let! vs := valid_candidates ar wr n i in
      let! rus := mapM (fun j => let! r := ru_for_config g (restricted_targets target) (dict_set (n_name n) j sol) in Ok (j, r)) vs in
      match least (filter (fun p => is_satisfied_by target (snd p)) rus) with
      | None => Ok None
      | Some (j, r) => Ok (Some (n_name n, j, r))
      end
  end.
(* one round, L64-108 *)
Definition refine_round (conf : list node) (sol : mpcfg) : result (option mpcfg) :=
  let! ups := mapM (node_upgrade sol) conf in
  match least (flat_map (fun o => match o with Some (k, j, r) => [((k, j), r)] | None => [] end) ups) with
  | None => Ok None
  | Some ((k, j), _) => Ok (Some (dict_set k j sol))
  end.
(* the while loop, L63; the number of rounds is bounded by [fuel] here, see refine_terminates *)
Fixpoint refine_loop (fuel : nat) (conf : list node) (sol : mpcfg) : result mpcfg :=
  match fuel with
  | 0 => Err E_fuel
  | S f => let! o := refine_round conf sol in
           match o with None => Ok sol | Some s => refine_loop f conf s end
  end.
Definition refine (fuel : nat) (conf : list node) (sol : mpcfg) : result mpcfg :=
  if restricted (ru_b target) then Ok sol else refine_loop fuel conf sol.   (* L49-53 *)
End Refine.
