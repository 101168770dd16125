(* PruneRunModel.v -- one call of the pruner: entry layers, groups of channels, masks, pruned graph and
   pruning information.  core/common/pruning/pruner.py *)
From Coq Require Import String.
From Verif Require Import Base HessianModel FilterModel PruneModel PruneMemModel PruneBuildModel.
Open Scope Z_scope.
Local Open Scope res_scope.

(* mask/per_channel_mask.py _compute_num_of_out_channels L96-108 *)
Definition out_channels (f : fw) (n : pnode) : result nat :=
  let! a := axis_of fst (channel_axis f (pn_kind n)) in
  let! k := kernel_of f n in dim k a.
(* the same looked up by layer; 0 for a layer without one, which entry_counts below rejects first *)
Definition channels_at (f : fw) (g : pgraph) (i : nat) : nat :=
  match (let! n := node_of g i in out_channels f n) with Ok k => k | Err _ => O end.
Definition entry_counts (f : fw) (es : list pnode) : result (list (pnode * nat)) :=
  mapM (fun n => let! k := out_channels f n in Ok (n, k)) es.

(* What the importance metric contributes (importance_metrics/lfh_importance_metric.py L59-93): for every
   entry layer the channels by decreasing score, and for the groups made of them one score each.  The metric
   itself is arbitrary here; its scores are numbers (no NaN). *)
Record metric := Metric { me_order : nat -> list nat; me_scores : list (nat * list (list nat)) -> list (nat * list Q) }.

(* model, masks and channel scores *)
Record pruned := Pruned { pr_nodes : list pnode; pr_masks : masks_t; pr_scores : list (nat * list Q) }.

(* pruner.py prune_graph L69-99, get_score_per_entry_point L101-116, get_pruning_info L118-128.
   [padded] is the platform's is_simd_padding, [target] the weights memory, infinite for None.  The masks
   computed are those of GreedyMaskCalculator; the loop gets one round for each channel. *)
Definition prune_call (f : fw) (padded : bool) (g : pgraph) (me : metric) (target : option Q) : result pruned :=
  let! es := entry_nodes f g in
  let! counts := entry_counts f es in
  let! groups := group_all (map (fun nk => (pn_id (fst nk), (me_order me (pn_id (fst nk)), snd nk, pn_simd (fst nk)))) counts) in
  let scores := me_scores me groups in
  let! m := compute_mask groups (channels_at f g) (map (fun kv => (fst kv, map Some (snd kv))) scores) (graph_memory f padded g) target
              (list_sum (map snd counts)) (map pn_id es) in
  let! nodes := pruned_nodes f g (m_chan m) in
  let! info := unroll scores groups in
  Ok (Pruned nodes (m_chan m) info).
