(* StatsModel.v -- which nodes collect activation statistics, and which tensor and which Hessian weights each collector receives.
   Sources (model_compression_toolkit/core/common/): model_collector.py L32-73 (create_stats_collector_for_node,
   create_tensor2node), L76-113 (ensure_matching_data_lengths), L138-204 (ModelCollector.__init__), L206-257 (infer);
   graph/base_graph.py L183-240 (set_out_stats_collector_to_node, out-collectors only); hessian/hessian_info_service.py
   L142-191 (fetch_hessian with compute_from_tensors), L277-304 (_compute_hessian_for_batch), L306-321 (_get_primary_node);
   pytorch/hessian/activation_hessian_scores_calculator_pytorch.py L82-138 (_prep_tensors_for_compute, compute);
   collectors/weighted_histogram_collector.py L21-114.
   Simplifications: nodes are numbers (a node's name is its number); tensors are opaque; the gradient-based score of a target
   tensor with respect to a list of output tensors is an opaque function; the float model returns, for the list of nodes it
   is asked to output, the value of each of these nodes. *)
From Coq Require Import Arith.
From Verif Require Import Base RoundQ QuantModel SearchModel CollectModel.
Local Open Scope nat_scope.

(* ---- assignment of collectors ---- *)
Inductive collector := NoStats | Stats (init_min init_max : option Q).
(* one collector, or a list of collectors for a node with several outputs *)
Inductive container := One (c : collector) | Many (l : list collector).

Record ninfo := { act_quantized : bool;        (* is_activation_quantization_enabled *)
                  fln_quantized : bool;        (* is_fln_quantization and quantized by the fusing information *)
                  kernel_quantized : bool;     (* kernel_attr is not None and its quantization is enabled *)
                  prior_range : option Q * option Q;   (* prior_info.min_output / max_output *)
                  n_outputs : nat;             (* 1 for a tuple output_shape, else len(output_shape) *)
                  primary : nat }.             (* the node itself, or the primary node of its reuse group *)

Record sgraph := { info : nat -> ninfo;
                   topo : list nat;            (* graph.get_topo_sorted_nodes() *)
                   order : list nat;           (* graph.nodes(): order of insertion *)
                   gedges : list (nat * nat);  (* (source, sink) *)
                   outs : list nat }.          (* nodes of graph.get_outputs() *)

Definition colls := nat -> option container.
Definition upd {A} (f : nat -> A) (n : nat) (a : A) : nat -> A := fun m => if Nat.eqb m n then a else f m.

(* model_collector.py L32-56 *)
Definition create_stats_collector_for_node (i : ninfo) : collector :=
  if act_quantized i || fln_quantized i then Stats (fst (prior_range i)) (snd (prior_range i)) else NoStats.
(* base_graph.py L183-240: one copy of the collector per output *)
Definition set_out_stats_collector_to_node (g : sgraph) (s : colls) (n : nat) (c : collector) : colls :=
  upd s n (Some (if Nat.eqb (n_outputs (info g n)) 1 then One c else Many (repeat c (n_outputs (info g n))))).
Definition is_nostats (c : collector) : bool := match c with NoStats => true | _ => false end.
(* L59-73 *)
Definition create_tensor2node (g : sgraph) (s : colls) (n : nat) : colls :=
  if match s n with
     | None => true
     | Some (One c) => is_nostats c
     | Some (Many l) => Nat.eqb (length (filter (fun c => negb (is_nostats c)) l)) 0
     end
  then set_out_stats_collector_to_node g s n (Stats None None) else s.
(* L157-169; [bc]: qc.weights_bias_correction *)
Definition assign_node (g : sgraph) (bc : bool) (s : colls) (n : nat) : colls :=
  let c := create_stats_collector_for_node (info g n) in
  let s1 := if bc && kernel_quantized (info g n)
            then fold_left (create_tensor2node g) (map fst (filter (fun e => Nat.eqb (snd e) n) (gedges g))) s
            else s in
  set_out_stats_collector_to_node g s1 n c.
Definition assign_collectors (g : sgraph) (bc : bool) : colls := fold_left (assign_node g bc) (topo g) (fun _ => None).

(* L174-191: nodes whose container collects *)
Definition collecting (s : colls) (n : nat) : bool :=
  match s n with
  | None => false
  | Some (One c) => negb (is_nostats c)
  | Some (Many l) => Nat.ltb 0 (length (filter (fun c => negb (is_nostats c)) l))
  end.
Definition outputs_nodes (g : sgraph) (s : colls) : list nat := filter (collecting s) (order g).
Definition memn (n : nat) (l : list nat) : bool := existsb (Nat.eqb n) l.
(* L193 *)
Definition intermediate (g : sgraph) (s : colls) : list nat :=
  filter (fun n => negb (memn n (outs g))) (outputs_nodes g s).
(* L198 *)
Definition append2output (g : sgraph) (s : colls) : list nat :=
  outputs_nodes g s ++ filter (fun n => negb (memn n (outputs_nodes g s))) (outs g).

(* ---- one batch ---- *)
Section Infer.
Context {T W : Type}.
Inductive value := V1 (t : T) | VL (l : list T).
(* score of a target tensor with respect to the given output tensors; for a target that is a list of tensors the
   gradient of the first one is taken (autograd.grad(...)[0]) *)
Variable hess : list value -> value -> W.
Variable absw : W -> W.      (* np.abs after conversion to numpy *)

(* python dict built from pairs: a repeated key keeps its first position and takes the last value *)
Fixpoint dset {B} (d : list (nat * B)) (k : nat) (b : B) : list (nat * B) :=
  match d with [] => [(k, b)] | (k', b') :: r => if Nat.eqb k k' then (k', b) :: r else (k', b') :: dset r k b end.
Definition dict_of {B} (l : list (nat * B)) : list (nat * B) := fold_left (fun d kb => dset d (fst kb) (snd kb)) l [].

(* activation_hessian_scores_calculator_pytorch.py L82-94, L137: the first tensors are the targets, the rest the outputs *)
Definition compute_scores (n_targets : nat) (tensors : list value) : list W :=
  map (hess (skipn n_targets tensors)) (firstn n_targets tensors).
(* hessian_info_service.py L142-191 and L277-304 *)
Definition fetch_hessian (g : sgraph) (targets : list nat) (tensors : list value) : list (nat * W) :=
  let prims := map (fun n => primary (info g n)) targets in
  dict_of (combine prims (compute_scores (length prims) tensors)).

(* an update of the collector of output [k] of a node *)
Record update := { u_node : nat; u_out : nat; u_tensor : T; u_weight : option W }.

(* L76-113 and L247-257 for one container; [h]: the weights, None if there are none.  Weights of a node with a list of
   collectors are one array, not a list: ensure_matching_data_lengths fails *)
Definition update_container (n : nat) (c : container) (v : value) (h : option W) : result (list update) :=
  match c, v with
  | One _, V1 t => Ok [{| u_node := n; u_out := 0; u_tensor := t; u_weight := option_map absw h |}]
  | One _, VL _ => Err E_attr
  | Many l, VL ts =>
      match h with
      | Some _ => Err E_critical
      | None => if Nat.eqb (length ts) (length l)
                then Ok (map (fun kt => {| u_node := n; u_out := fst kt; u_tensor := snd kt; u_weight := None |})
                           (combine (seq 0 (length l)) ts))
                else Err E_critical
      end
  | Many _, V1 _ => Err E_critical
  end.

(* L240-245: list(d.values()) followed by None *)
Definition pad_none {A} (l : list A) (n : nat) : list (option A) := map Some l ++ repeat None (n - length l).

(* containers are paired with nodes: stats_containers_list follows outputs_nodes *)
Definition infer (g : sgraph) (bc hmse : bool) (env : nat -> value) : result (list update) :=
  let s := assign_collectors g bc in
  let nodes := outputs_nodes g s in
  let tensors := map env (append2output g s) in
  let hs := if hmse then map snd (fetch_hessian g (intermediate g s) tensors) else [] in
  let! us := mapM (fun x => match x with
                            | (v, (h, n)) => match s n with Some c => update_container n c v h | None => Err E_attr end
                            end)
               (combine tensors (combine (pad_none hs (length tensors)) nodes)) in
  Ok (concat us).
End Infer.
Arguments value : clear implicits.
Arguments update : clear implicits.

(* ---- weighted histogram ---- *)
Local Open Scope Q_scope.
(* an array: its shape and the element at each index *)
Record arr := { ashape : list nat; aget : list nat -> Q }.
(* all indices in row-major order *)
Fixpoint indices (s : list nat) : list (list nat) :=
  match s with [] => [[]] | d :: r => concat (map (fun i => map (cons i) (indices r)) (seq 0 d)) end.

(* dimensions [sw] can be stretched to [sx] *)
Fixpoint dims_fit (sx sw : list nat) : bool :=
  match sx, sw with x :: sx', w :: sw' => (Nat.eqb x w || Nat.eqb w 1) && dims_fit sx' sw' | _, _ => true end.
(* index into the unstretched array *)
Fixpoint squeeze (sw idx : list nat) : list nat :=
  match sw, idx with w :: sw', i :: idx' => (if Nat.eqb w 1 then O else i) :: squeeze sw' idx' | _, _ => [] end.
(* L21-47: dimensions aligned at the end *)
Definition check_broadcastable (sx sw : list nat) : result unit :=
  if Nat.ltb (length sx) (length sw) then Err E_critical
  else if dims_fit sx (repeat 1%nat (length sx - length sw) ++ sw) then Ok tt else Err E_critical.
(* L97-108: dimensions aligned at the beginning; np.broadcast_to raises ValueError *)
Definition stretch (sx : list nat) (w : arr) : result (list nat -> Q) :=
  let sw := ashape w ++ repeat 1%nat (length sx - length (ashape w)) in
  if dims_fit sx sw then Ok (fun idx => aget w (firstn (length (ashape w)) (squeeze sw idx))) else Err E_value.
(* L85-108: the weight of each element *)
Definition element_weights (sx : list nat) (w : option arr) : result (list nat -> Q) :=
  match w with
  | None => Ok (fun _ => 1)
  | Some w => if forallb (fun i => Qeq_bool (aget w i) 0) (indices (ashape w)) then Ok (fun _ => 1)
              else let! _ := check_broadcastable sx (ashape w) in stretch sx w
  end.
(* np.histogram with weights *)
Definition wsum (f : Q -> bool) (xw : list (Q * Q)) : Q := sumQ (map snd (filter (fun p => f (fst p)) xw)).
Fixpoint wcount_bins (xw : list (Q * Q)) (edges : list Q) : list Q :=
  match edges with
  | [l; r] => [wsum (fun v => Qle_bool l v && Qle_bool v r) xw]
  | l :: ((r :: _) as rest) => wsum (fun v => Qle_bool l v && Qlt_b v r) xw :: wcount_bins xw rest
  | _ => []
  end.
Definition weighted_histogram (x : arr) (w : option arr) (n : nat) : result (list Q * list Q) :=
  let! f := element_weights (ashape x) w in
  let xs := map (aget x) (indices (ashape x)) in
  let! (_, edges) := np_histogram xs n in
  Ok (wcount_bins (map (fun i => (aget x i, f i)) (indices (ashape x))) edges, edges).
