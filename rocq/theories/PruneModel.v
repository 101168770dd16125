(* PruneModel.v -- choosing the channels to prune: SIMD grouping of the channels of a layer, the
   per-group and per-channel masks, the greedy choice of the groups that remain, and the unrolling of
   group scores to channels.
   Sources (under model_compression_toolkit/core/common):
     pruning/channels_grouping.py, pruning/mask/per_channel_mask.py, pruning/mask/per_simd_group_mask.py,
     pruning/greedy_mask_calculator.py, pruning/pruning_info.py, graph/base_node.py (get_simd).
   Nodes are natural numbers (their identity); a Python dict keyed by nodes is an association list in
   insertion order (HessianModel.dict_get/dict_set).  Importance scores are rationals. *)
From Verif Require Import Base HessianModel.
Open Scope Q_scope.
Open Scope res_scope.

Definition from_key {A} (o : option A) : result A := match o with Some a => Ok a | None => Err E_key end.
Definition from_index {A} (o : option A) : result A := match o with Some a => Ok a | None => Err E_index end.

(* l[i] = v *)
Fixpoint set_nth {A} (i : nat) (v : A) (l : list A) : result (list A) :=
  match l, i with
  | [], _ => Err E_index
  | _ :: r, O => Ok (v :: r)
  | x :: r, S j => let! r' := set_nth j v r in Ok (x :: r')
  end.

(* base_node.py get_simd L692-710: the smallest SIMD size among the candidates (sizes are integers) *)
Definition get_simd (sizes : list Z) : result nat :=
  match sizes with
  | [] => Err E_critical
  | s :: r => let m := fold_left Z.min r s in if Z.leb m 0 then Err E_critical else Ok (Z.to_nat m)
  end.

(* channels_grouping.py _group_node_scores L66-87.  [order] is np.argsort(-scores), any order of the
   indices by decreasing score (numpy's default sort is not stable); [n] is len(scores).  The local
   scores_groups is never read and is left out. *)
Definition group_node_scores (order : list nat) (n simd : nat) : result (list (list nat)) :=
  if Nat.eqb simd 0 then Err E_zero_div else
  let full := map (fun i => firstn (simd * (i + 1) - simd * i) (skipn (simd * i) order)) (seq 0 (n / simd)) in
  let remainder := (n mod simd)%nat in
  Ok (if Nat.eqb remainder 0 then full else full ++ [skipn (length order - remainder) order]).

(* channels_grouping.py group_scores_by_simd_groups L51-64: score_by_node lists every node with the
   order and the number of its scores, and the SIMD sizes of its candidates. *)
Definition group_all (score_by_node : list (nat * (list nat * nat * list Z))) : result (list (nat * list (list nat))) :=
  foldM (fun d kv =>
           let '(node, (order, n, sizes)) := kv in
           let! simd := get_simd sizes in
           let! g := group_node_scores order n simd in Ok (dict_set node g d)) score_by_node [].

(* per_channel_mask.py L27-35 *)
Definition PRUNED : Z := 0.
Definition REMAINED : Z := 1.

Record masks := Masks { m_simd : list (nat * list Z); m_chan : list (nat * list Z) }.

Section Masks.
Variable groups : list (nat * list (list nat)).      (* simd_groups_indices *)
Variable num_oc : nat -> nat.                        (* kernel.shape[channel_axis.output], per_channel_mask.py L96-108 *)

(* per_channel_mask.py L62-73 *)
Definition set_channel (node : nat) (v : Z) (m : list (nat * list Z)) (idx : nat) : result (list (nat * list Z)) :=
  let! l := from_key (dict_get node m) in
  let! l' := set_nth idx v l in Ok (dict_set node l' m).

(* per_simd_group_mask.py set_mask_value_for_simd_group L66-87.  The mask indicator is one of the two
   enum members, so the check of L78-79 is left out. *)
Definition set_group (m : masks) (node group : nat) (v : Z) : result masks :=
  let! sm := from_key (dict_get node (m_simd m)) in
  let! sm' := set_nth group v sm in
  let! gs := from_key (dict_get node groups) in
  let! idxs := from_index (nth_error gs group) in
  let! ch := foldM (set_channel node v) idxs (m_chan m) in
  Ok (Masks (dict_set node sm' (m_simd m)) ch).

(* per_simd_group_mask.py L29-46, L97-118 and per_channel_mask.py L39-51, L84-94 *)
Definition new_masks (nodes : list nat) : result masks :=
  let ch := fold_left (fun d n => dict_set n (repeat PRUNED (num_oc n)) d) nodes [] in
  let! sm := foldM (fun d n => let! gs := from_key (dict_get n groups) in
                               Ok (dict_set n (repeat PRUNED (length gs)) d)) nodes [] in
  foldM (fun m n => set_group m n 0 REMAINED) nodes (Masks sm ch).

(* per_channel_mask.py L75-82 *)
Definition has_pruned_channel (m : masks) : bool :=
  existsb (fun kv => existsb (Z.eqb PRUNED) (snd kv)) (m_chan m).

(* int(np.argmax(mask == 0)): the first zero, 0 when there is none *)
Fixpoint first_zero_from (i : nat) (mask : list Z) : nat :=
  match mask with [] => 0%nat | x :: r => if Z.eqb x 0 then i else first_zero_from (S i) r end.
Definition argmax_zero (mask : list Z) : result nat :=
  match mask with [] => Err E_value | _ => Ok (first_zero_from 0 mask) end.

(* A group score; None stands for a value that is not greater than -inf (NaN or -inf itself). *)
Variable scores : list (nat * list (option Q)).      (* simd_groups_scores *)

(* greedy_mask_calculator.py _get_most_sensitive_simd_group_candidate L113-141; the state is
   (best_score, best_node, best_group_idx), None at -inf/None/-1. *)
Definition better (s : option Q) (best : option (Q * (nat * nat))) : bool :=
  match s, best with
  | None, _ => false
  | Some _, None => true
  | Some q, Some (b, _) => negb (Qle_bool q b)
  end.
Definition candidate_step (best : option (Q * (nat * nat))) (kv : nat * list Z) : result (option (Q * (nat * nat))) :=
  let! g := argmax_zero (snd kv) in
  if Nat.eqb g 0 then Ok best else
  let! ss := from_key (dict_get (fst kv) scores) in
  let! s := from_index (nth_error ss g) in
  Ok (if better s best then match s with Some q => Some (q, (fst kv, g)) | None => best end else best).
Definition most_sensitive (m : masks) : result (option (nat * nat)) :=
  let! b := foldM candidate_step (m_simd m) None in Ok (option_map snd b).

Variable memory : list (nat * list Z) -> result Q.   (* get_pruned_graph_memory, see PruneMemModel *)
Variable target : option Q.                          (* weights_memory; None is infinity *)
Definition below (x : Q) : bool := match target with None => true | Some t => negb (Qle_bool t x) end.
Definition above (x : Q) : bool := match target with None => false | Some t => negb (Qle_bool x t) end.

(* greedy_mask_calculator.py L93-109.  [last] is (node_to_remain, group_to_remain_idx); it is bound
   whenever L106 is reached with too much memory.  When no candidate exists, set_mask_value_for_simd_group
   is called with the node None: KeyError. *)
Fixpoint greedy_loop (fuel : nat) (m : masks) (current : Q) (last : option (nat * nat)) : result masks :=
  if below current && has_pruned_channel m then
    match fuel with
    | O => Err E_fuel
    | S f =>
        let! c := most_sensitive m in
        match c with
        | None => Err E_key
        | Some (n, g) =>
            let! m' := set_group m n g REMAINED in
            let! cur := memory (m_chan m') in
            greedy_loop f m' cur (Some (n, g))
        end
    end
  else if above current then
    match last with None => Err E_runtime | Some (n, g) => set_group m n g PRUNED end
  else Ok m.

(* greedy_mask_calculator.py L39-70 and compute_mask L81-109 *)
Definition compute_mask (fuel : nat) (nodes : list nat) : result masks :=
  let! m := new_masks nodes in
  let! cur := memory (m_chan m) in
  if above cur then Err E_critical else greedy_loop fuel m cur None.
End Masks.

(* pruning_info.py unroll_simd_scores_to_per_channel_scores L63-90 (both arguments given) *)
Definition unroll_node (node_scores : list Q) (gs : list (list nat)) : result (list Q) :=
  foldM (fun l sg => foldM (fun l i => set_nth i (fst sg) l) (snd sg) l) (combine node_scores gs)
        (repeat 0 (list_sum (map (@length nat) gs))).
Definition unroll (simd_scores : list (nat * list Q)) (groups : list (nat * list (list nat))) : result (list (nat * list Q)) :=
  foldM (fun d kv =>
           let! ns := from_key (dict_get (fst kv) simd_scores) in
           let! l := unroll_node ns (snd kv) in Ok (dict_set (fst kv) l d)) groups [].
