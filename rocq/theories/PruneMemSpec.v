(* PruneMemSpec.v -- pruning sections and the parameters a layer has left, stated without the code's
   counting: a parameter is a position of a weight tensor, and it is left when the channels it belongs to
   remain. *)
From Coq Require Import String Permutation.
From Verif Require Import Base HessianModel FilterModel PruneModel PruneMemModel.
Open Scope Z_scope.

(* all positions of a tensor of a given shape *)
Fixpoint positions (shape : list nat) : list (list nat) :=
  match shape with [] => [[]] | d :: r => flat_map (fun i => map (cons i) (positions r)) (seq 0 d) end.
(* the coordinate of the position along [axis] is a channel that remains *)
Definition remains (mask : option (list Z)) (axis : option nat) (pos : list nat) : bool :=
  match mask, axis with Some m, Some a => negb (Z.eqb (nth (nth a pos 0%nat) m 0) 0) | _, _ => true end.

(* the axes of the output and input channels of a weight *)
Definition weight_axes (f : fw) (n : pnode) (kw : wkey * tensor) : option nat * option nat :=
  match kernel_attr f (pn_kind n) with
  | Some k =>
      match fst kw with
      | WS name => if str_contains name k
                   then match channel_axis f (pn_kind n) with Some (o, i) => (Some o, Some i) | None => (None, None) end
                   else (Some 0%nat, None)
      | WI _ => (None, None)
      end
  | None =>
      (if match f with Pytorch => Nat.leb (list_sum (map (fun kv => t_size (snd kv)) (pn_weights n))) 1 | Keras => false end
       then None else Some (length (t_shape (snd kw)) - 1)%nat, None)
  end.

(* parameters of a weight, and of a layer, left under an input and an output channel mask *)
Definition weight_left (f : fw) (n : pnode) (im om : option (list Z)) (kw : wkey * tensor) : Z :=
  Z.of_nat (length (filter (fun pos => remains om (fst (weight_axes f n kw)) pos && remains im (snd (weight_axes f n kw)) pos)
                           (positions (t_shape (snd kw))))).
Definition layer_left (f : fw) (n : pnode) (im om : option (list Z)) : Z :=
  fold_right Z.add 0 (map (weight_left f n im om) (pn_weights n)).

(* With padding, the number of channels is rounded up to a multiple of the SIMD size and every channel is
   charged the (rounded up) average number of parameters. *)
Definition charged (f : fw) (padded : bool) (n : pnode) (im om : option (list Z)) (p : Z) : Prop :=
  if padded then
    exists oc simd, 1 <= oc /\ 0 < simd /\ In simd (pn_simd n) /\ (forall s, In s (pn_simd n) -> simd <= s) /\
      match om with Some m => oc = fold_right Z.add 0 m | None => num_channels n = Ok oc end /\
      exists channels per, p = channels * per /\ (channels mod simd = 0 /\ oc <= channels < oc + simd) /\
                           (layer_left f n im om <= per * oc < layer_left f n im om + oc)
  else p = layer_left f n im om.

(* ---- pruning sections ---- *)
(* the only consumer of a is b and the only producer of b is a, by a single edge *)
Definition only_link (g : pgraph) (a b : pnode) : Prop :=
  out_edges g (pn_id a) = [(pn_id a, pn_id b)] /\ in_edges g (pn_id b) = [(pn_id a, pn_id b)].
Fixpoint chain (g : pgraph) (a : pnode) (l : list pnode) (b : pnode) : Prop :=
  match l with [] => only_link g a b | x :: r => only_link g a x /\ chain g x r b end.
(* from an edge layer, through layers that may lie inside a section, to an edge layer whose input
   channels are the output channels of the first *)
Definition is_section (f : fw) (g : pgraph) (e : pnode) (inter : list pnode) (x : pnode) : Prop :=
  In e (pg_nodes g) /\ In x (pg_nodes g) /\ (forall n, In n inter -> In n (pg_nodes g) /\ is_inter n = true) /\
  is_edge e = true /\ is_edge x = true /\ matching f x e = Ok true /\ chain g e inter x.

(* the channel masks that apply to a layer: its own output mask when it is the entry or exit of a section,
   that of the section's entry inside a section; on the input side that of the section it belongs to or ends *)
Inductive applies (f : fw) (g : pgraph) (masks : masks_t) (n : pnode) : option (list Z) -> option (list Z) -> Prop :=
| A_outside : (forall e i x, is_section f g e i x -> n <> e /\ n <> x /\ ~ In n i) -> applies f g masks n None None
| A_entry i x : is_section f g n i x -> (forall e i, ~ is_section f g e i n) ->
    applies f g masks n None (dict_get (pn_id n) masks)
| A_exit e i : is_section f g e i n -> applies f g masks n (dict_get (pn_id e) masks) (dict_get (pn_id n) masks)
| A_inter e i x : is_section f g e i x -> In n i ->
    applies f g masks n (dict_get (pn_id e) masks) (dict_get (pn_id e) masks).

(* nodes are told apart by their identity, edges join nodes of the graph, and pg_topo is a topological order *)
Definition before (l : list pnode) (a b : nat) : Prop :=
  exists p q r x y, l = p ++ x :: q ++ y :: r /\ pn_id x = a /\ pn_id y = b.
Record wf_graph (g : pgraph) : Prop := {
  wf_ids : NoDup (map pn_id (pg_nodes g));
  wf_topo : Permutation (pg_topo g) (pg_nodes g);
  wf_edges : forall a b, In (a, b) (pg_edges g) -> before (pg_topo g) a b
}.

(* ---- the layout of kernels in both frameworks, and which layers end or fill a section ---- *)
Inductive role := R_out | R_in | R_space | R_multiplier.
Definition layout (f : fw) (k : kind) : list role :=
  match f, k with
  | Keras, K_conv false _ => [R_space; R_space; R_in; R_out]
  | Keras, K_conv true _ => [R_space; R_space; R_out; R_in]
  | Keras, K_dense => [R_in; R_out]
  | Keras, K_depthwise => [R_space; R_space; R_in; R_multiplier]
  | Pytorch, K_conv false _ => [R_out; R_in; R_space; R_space]
  | Pytorch, K_conv true _ => [R_in; R_out; R_space; R_space]
  | Pytorch, K_dense => [R_out; R_in]
  | _, _ => []
  end.
(* size of the kernel along the axis with the given role *)
Definition size_along (f : fw) (n : pnode) (r : role) (s : nat) : Prop :=
  exists w a, kernel_of f n = Ok w /\ nth_error (layout f (pn_kind n)) a = Some r /\ nth_error (t_shape w) a = Some s.
Definition ungrouped (k : kind) : Prop := k = K_dense \/ exists t, k = K_conv t 1.
Definition no_kernel (k : kind) : Prop := k = K_bn \/ k = K_other \/ exists p, k = K_prelu p.
