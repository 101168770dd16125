(* LfhModel.v -- importance of the channels to prune from Hessian scores and weights.
   Sources (under model_compression_toolkit/core/common/pruning): importance_metrics/lfh_importance_metric.py L61-277.
   Numbers are rationals; the square of np.linalg.norm is the sum of the squares.  The Hessian service is the argument
   [fetch]: the scores of one node, one list per sample (C13).  A kernel is its shape and its entries in row-major order.
   [argsort] is np.argsort(-scores) of channels_grouping.py (see PruneModel). *)
From Verif Require Import Base HessianModel SearchModel PruneModel.
Open Scope Q_scope.
Open Scope res_scope.

Record kernel := Kernel { k_shape : list nat; k_data : list Q }.
(* an entry node: its name, kernel, channel_axis.output, SIMD sizes of the candidates *)
Record enode := ENode { e_id : nat; e_name : nat; e_kernel : kernel; e_axis : option nat; e_simd : list Z }.
Definition nprod (l : list nat) : nat := fold_right Nat.mul 1%nat l.

(* L238-255: the number of output channels; the axis is an integer or None *)
Definition oc_info (e : enode) : result (nat * nat) :=
  match e_axis e with
  | None => Err E_critical
  | Some a => match nth_error (k_shape (e_kernel e)) a with None => Err E_index | Some d => Ok (a, d) end
  end.
(* np.split into slices of one channel, each flattened (L225, L233) *)
Definition channel (k : kernel) (axis dim c : nat) : list Q :=
  let inner := nprod (skipn (S axis) (k_shape k)) in
  flat_map (fun o => map (fun i => nth ((o * dim + c) * inner + i) (k_data k) 0) (seq 0 inner)) (seq 0 (nprod (firstn axis (k_shape k)))).
(* L257-277: slices joined along the first axis, flattened *)
Definition concat_channels (channels : list (list Q)) (index_list : list (list nat)) : result (list (list Q)) :=
  mapM (fun idx => let! ts := mapM (fun i => from_index (nth_error channels i)) idx in Ok (concat ts)) index_list.
Definition sum_squares (l : list Q) : Q := sumQ (map (fun x => x * x) l).
(* L206-236 for one node *)
Definition squared_norms (e : enode) (groups : option (list (list nat))) : result (list Q) :=
  let! ad := oc_info e in
  let channels := map (channel (e_kernel e) (fst ad) (snd ad)) (seq 0 (snd ad)) in
  let! cs := match groups with None => Ok channels | Some g => concat_channels channels g end in
  Ok (map sum_squares cs).
(* L182-204 for one node *)
Definition oc_nparams (e : enode) : result (list Q) :=
  let! ad := oc_info e in
  Ok (repeat (inject_Z (Z.of_nat (nprod (k_shape (e_kernel e)))) / inject_Z (Z.of_nat (snd ad))) (snd ad)).
(* np.mean(rows, axis=0) *)
Definition mean_rows (n : nat) (rows : list (list Q)) : list Q := map (fun c => meanQ (map (fun r => nth c r 0) rows)) (seq 0 n).
(* v[g] for an index array, L95-96 *)
Definition gather (v : list Q) (g : list nat) : result (list Q) := mapM (fun i => from_index (nth_error v i)) g.
(* elementwise product / quotient of three vectors; vectors of different lengths are refused (numpy also accepts length 1) *)
Fixpoint score3 (h l p : list Q) : result (list Q) :=
  match h, l, p with
  | [], [], [] => Ok []
  | x :: h, y :: l, z :: p => let! r := score3 h l p in Ok (x * y / z :: r)
  | _, _, _ => Err E_value
  end.

Section Lfh.
Variable fetch : enode -> result (list (list Q)).
Variable argsort : list Q -> list nat.
(* L101-144: the mean Hessian scores by node (through the dict keyed by name, L126-137), and the channel scores *)
Definition hessian_scores (nodes : list enode) : result (list (nat * list Q)) :=
  let! byname := foldM (fun d e => let! rows := fetch e in Ok (dict_set (e_name e) rows d)) nodes [] in
  foldM (fun d e => let! rows := from_key (dict_get (e_name e) byname) in
                    Ok (dict_set (e_id e) (mean_rows (length (hd [] rows)) rows) d)) nodes [].
Definition channel_score (hs : list (nat * list Q)) (e : enode) : result (list Q) :=
  let! h := from_key (dict_get (e_id e) hs) in
  let! l := squared_norms e None in
  let! p := oc_nparams e in
  score3 h l p.
(* L88-97 for one node *)
Definition simd_score (hs : list (nat * list Q)) (groups : list (nat * list (list nat))) (e : enode) : result (list Q) :=
  let! h := from_key (dict_get (e_id e) hs) in
  let! g := from_key (dict_get (e_id e) groups) in
  let! l := squared_norms e (if match groups with [] => true | _ => false end then None else Some g) in
  let! p := oc_nparams e in
  let! hg := mapM (fun g => let! v := gather h g in Ok (sumQ v)) g in
  let! pg := mapM (fun g => let! v := gather p g in Ok (sumQ v)) g in
  score3 hg l pg.
(* L61-99 *)
Definition lfh_scores (nodes : list enode) : result (list (nat * list Q) * list (nat * list (list nat))) :=
  let! hs := hessian_scores nodes in
  let! cs := mapM (fun e => let! s := channel_score hs e in Ok (e_id e, (argsort s, length s, e_simd e))) nodes in
  let! groups := group_all cs in
  let! ss := foldM (fun d e => let! s := simd_score hs groups e in Ok (dict_set (e_id e) s d)) nodes [] in
  Ok (ss, groups).
End Lfh.
