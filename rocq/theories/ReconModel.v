(* ReconModel.v -- the virtual graph of the bit-operations search and the way back from its configurations.
   Sources (model_compression_toolkit/core/common/):
     substitutions/weights_activation_split.py L34-87, substitutions/virtual_activation_weights_composition.py L27-92,
     graph/virtual_activation_weights_node.py L26-205,
     graph/base_node.py L247-274, L475-502, L580-619 (configurable, unique candidates),
     mixed_precision/mixed_precision_search_manager.py L335-526 (ConfigReconstructionHelper).
   Simplifications: an activation configuration is a number, and so is the configuration of the kernel, the only
   weight whose configuration may vary between the candidates (L138-141 of the virtual node raises otherwise);
   number 0 is the disabled configuration written by the split.  Nodes are identified by their names.  The weights which
   the activation node adds to a composed node are never configurable and are left out. *)
From Coq Require Import String.
From Verif Require Import Base SDict.
Local Open Scope list_scope.
Local Open Scope nat_scope.

Record cand : Set := Cand { c_a : nat; c_w : nat }.

(* a node of the original graph: does it have a kernel, does it have weights, is the quantization of its activation
   and of its kernel enabled *)
Record onode : Set := ONode { o_name : string; o_kernel : bool; o_weights : bool; o_a_on : bool; o_w_on : bool; o_cands : list cand }.

Definition all_equal (l : list nat) : bool := match l with [] => true | x :: r => forallb (Nat.eqb x) r end.
(* has_configurable_activation and has_any_configurable_weight *)
Definition conf_a (on : bool) (cs : list cand) : bool := on && negb (all_equal (map c_a cs)).
Definition conf_w (on : bool) (cs : list cand) : bool := on && negb (all_equal (map c_w cs)).
Definition o_conf_a (n : onode) : bool := conf_a (o_a_on n) (o_cands n).
Definition o_conf_w (n : onode) : bool := o_weights n && conf_w (o_w_on n) (o_cands n).

(* get_unique_activation_candidates, get_unique_weights_candidates: first candidate of every configuration *)
Fixpoint uniq (key : cand -> nat) (seen : list nat) (cs : list cand) : list cand :=
  match cs with
  | [] => []
  | c :: r => if existsb (Nat.eqb (key c)) seen then uniq key seen r else c :: uniq key (key c :: seen) r
  end.
Definition uniq_a (cs : list cand) : list cand := uniq c_a [] cs.
Definition uniq_w (cs : list cand) : list cand := uniq c_w [] cs.

(* the nodes of the virtual graph *)
Inductive vnode : Set :=
| VReg (n : onode)              (* unchanged *)
| VSplitW (n : onode)           (* VirtualSplitWeightsNode *)
| VSplitA (n : onode)           (* VirtualSplitActivationNode *)
| VAW (p n : onode).            (* VirtualActivationWeightsNode: the activation of p before the kernel of n *)

Definition split_w_cands (n : onode) : list cand := map (fun c => Cand 0 (c_w c)) (uniq_w (o_cands n)).
Definition split_a_cands (n : onode) : list cand := map (fun c => Cand (c_a c) 0) (uniq_a (o_cands n)).

Section Bits.
(* numbers of bits of the configurations, for sorting *)
Variables bits_a bits_w : nat -> nat.

(* key (weights bits, activation bits), descending; a stable sort *)
Definition before (x y : cand) : bool :=
  Nat.ltb (bits_w (c_w y)) (bits_w (c_w x)) ||
  Nat.eqb (bits_w (c_w y)) (bits_w (c_w x)) && Nat.leb (bits_a (c_a y)) (bits_a (c_a x)).
Fixpoint insert (x : cand) (l : list cand) : list cand :=
  match l with [] => [x] | y :: r => if before x y then x :: l else y :: insert x r end.
Definition sort (l : list cand) : list cand := fold_right insert [] l.

(* the candidates of a virtual node; in the composition the activation part is the split activation of a node with a
   kernel, or the whole node *)
Definition v_cands (v : vnode) : list cand :=
  match v with
  | VReg n => o_cands n
  | VSplitW n => split_w_cands n
  | VSplitA n => split_a_cands n
  | VAW p n =>
      sort (flat_map (fun ca => map (fun cw => Cand (c_a ca) (c_w cw)) (uniq_w (split_w_cands n)))
                     (if o_kernel p then split_a_cands p else o_cands p))
  end.

Definition v_conf_a (v : vnode) : bool :=
  match v with
  | VReg n => o_conf_a n
  | VSplitW _ => false
  | VSplitA n => conf_a (o_a_on n) (v_cands v)
  | VAW p _ => conf_a (o_a_on p) (v_cands v)
  end.
Definition v_conf_w (v : vnode) : bool :=
  match v with
  | VReg n => o_conf_w n
  | VSplitW n => o_weights n && conf_w (o_w_on n) (v_cands v)
  | VSplitA _ => false
  | VAW _ n => o_weights n && conf_w (o_w_on n) (v_cands v)
  end.
Definition v_configurable (v : vnode) : bool := v_conf_a v || v_conf_w v.

(* ---- building the virtual graph ---- *)
Record ograph : Set := OGraph { og_nodes : list onode; og_edges : list (string * string) }.
Definition find_node (g : ograph) (name : string) : result onode :=
  match find (fun n => String.eqb (o_name n) name) (og_nodes g) with Some n => Ok n | None => Err E_key end.
Definition preds (g : ograph) (name : string) : list string :=
  map fst (filter (fun e => String.eqb (snd e) name) (og_edges g)).
Definition out_degree (g : ograph) (name : string) : nat := length (filter (fun e => String.eqb (fst e) name) (og_edges g)).

(* the check of the split, L61-78: all combinations of the numbers of bits occur *)
Definition composite (n : onode) : bool :=
  forallb (fun w => forallb (fun a => existsb (fun c => Nat.eqb (bits_w (c_w c)) (bits_w (c_w w)) && Nat.eqb (bits_a (c_a c)) (bits_a (c_a a))) (o_cands n))
                            (uniq_a (o_cands n))) (uniq_w (o_cands n)).
(* get_input_activation_if_composable, L66-92, and the constructor of the composed node; splitting does not change the edges between different nodes *)
Definition composable (g : ograph) (n : onode) : result (option onode) :=
  match preds g (o_name n) with
  | [p] => if Nat.ltb 1 (out_degree g p) then Ok None else
           let! pn := find_node g p in
           (* VirtualActivationWeightsNode, L130-136: the split activation of a node with a kernel has no weights *)
           if negb (o_kernel pn) && o_conf_w pn then Err E_runtime else Ok (Some pn)
  | _ => Err E_assert
  end.
(* is the activation of the node taken into a composed node *)
Definition consumed (g : ograph) (p : onode) : bool :=
  existsb (fun n => o_kernel n && match composable g n with Ok (Some q) => String.eqb (o_name q) (o_name p) | _ => false end) (og_nodes g).
Definition virtual_nodes_of (g : ograph) (n : onode) : result (list vnode) :=
  if o_kernel n
  then if o_conf_w n && o_conf_a n && negb (composite n) then Err E_critical else
       let! c := composable g n in
       Ok ((match c with Some p => VAW p n | None => VSplitW n end) :: (if consumed g n then [] else [VSplitA n]))
  else Ok (if consumed g n then [] else [VReg n]).
Definition virtual_nodes (g : ograph) : result (list vnode) :=
  let! l := mapM (virtual_nodes_of g) (og_nodes g) in Ok (concat l).

(* ---- the way back ---- *)
Definition vcfg : Type := list (vnode * nat).

Definition candidate (v : vnode) (i : nat) : result cand :=
  match nth_error (v_cands v) i with Some c => Ok c | None => Err E_index end.
Definition matching (f : cand -> bool) (cs : list cand) : list nat :=
  map fst (filter (fun ic => f (snd ic)) (combine (seq 0 (length cs)) cs)).
Definition matched (g : ograph) (o : onode) (f : cand -> bool) : result (option (onode * list nat)) :=
  match matching f (o_cands o) with
  | [] => Err E_value
  | l => let! n := find_node g (o_name o) in Ok (Some (n, l))
  end.

(* _retrieve_matching_orig_a_candidates *)
Definition retrieve_a (g : ograph) (v : vnode) (i : nat) : result (option (onode * list nat)) :=
  match v with
  | VReg n => let! n' := find_node g (o_name n) in Ok (Some (n', [i]))
  | VSplitW _ => Ok None
  | VSplitA n | VAW n _ => let! q := candidate v i in matched g n (fun c => Nat.eqb (c_a c) (c_a q))
  end.
(* _retrieve_matching_orig_w_candidates: only the configurable weights are compared *)
Definition retrieve_w (g : ograph) (v : vnode) (i : nat) : result (option (onode * list nat)) :=
  match v with
  | VReg n => if o_weights n then let! n' := find_node g (o_name n) in Ok (Some (n', [i])) else Ok None
  | VSplitA _ => Ok None
  | VSplitW n | VAW _ n =>
      let! q := candidate v i in matched g n (fun c => negb (v_conf_w v) || Nat.eqb (c_w c) (c_w q))
  end.

Definition ncands : Type := list (string * (onode * list nat)).
(* the assertion "not in" and the assignment *)
Definition add_new (d : ncands) (r : option (onode * list nat)) (wanted : onode -> bool) : result ncands :=
  match r with
  | Some (n, l) => if wanted n then match sget (o_name n) d with Some _ => Err E_assert | None => Ok (d ++ [(o_name n, (n, l))]) end else Ok d
  | None => Ok d
  end.
Definition collect (g : ograph) (all : bool) (cfg : vcfg) : result (ncands * ncands) :=
  foldM (fun (st : ncands * ncands) (vi : vnode * nat) =>
    let '(v, i) := vi in
    if negb (v_configurable v) then Err E_assert else
    let! ra := retrieve_a g v i in
    let! da := add_new (fst st) ra (fun n => all || o_conf_a n) in
    let! rw := retrieve_w g v i in
    let! dw := add_new (snd st) rw (fun n => all || o_conf_w n) in
    Ok (da, dw)) cfg ([], []).

Definition intersect (a b : list nat) : list nat := filter (fun x => existsb (Nat.eqb x) b) a.
(* reconstruct_full_configuration.  The lists of candidate indices have no repetitions, so the intersection of the
   lists is the intersection of the sets. *)
Definition reconstruct_full (g : ograph) (all : bool) (cfg : vcfg) : result (list (string * nat)) :=
  let! (da, dw) := collect g all cfg in
  let in_dict (d : ncands) (k : string) := match sget k d with Some _ => true | None => false end in
  let! common := mapM (fun kv : string * (onode * list nat) =>
      match sget (fst kv) dw with
      | None => Ok []
      | Some (_, lw) =>
          match intersect (snd (snd kv)) lw with
          | [i] => Ok (if o_conf_a (fst (snd kv)) || o_conf_w (fst (snd kv)) then [(fst kv, i)] else [])
          | _ => Err E_value
          end
      end) da in
  let! rest_a := mapM (fun kv : string * (onode * list nat) =>
      if in_dict dw (fst kv) then Ok [] else
      if o_conf_w (fst (snd kv)) then Err E_assert else
      match snd (snd kv) with
      | [i] => Ok (if all || o_conf_a (fst (snd kv)) then [(fst kv, i)] else [])
      | _ => Err E_assert
      end) da in
  let! rest_w := mapM (fun kv : string * (onode * list nat) =>
      if in_dict da (fst kv) then Ok [] else
      if o_conf_a (fst (snd kv)) then Err E_assert else
      match snd (snd kv) with
      | [i] => Ok (if all || o_conf_w (fst (snd kv)) then [(fst kv, i)] else [])
      | _ => Err E_assert
      end) dw in
  Ok (concat common ++ concat rest_a ++ concat rest_w).

(* reconstruct_separate_aw_configs *)
Definition first_candidate (d : list (string * nat)) (r : option (onode * list nat)) (wanted : onode -> bool) : result (list (string * nat)) :=
  match r with
  | Some (n, l) => if wanted n then match l with i :: _ => Ok (sset (o_name n) i d) | [] => Err E_index end else Ok d
  | None => Ok d
  end.
Definition reconstruct_separate (g : ograph) (all : bool) (cfg : vcfg) : result (list (string * nat) * list (string * nat)) :=
  foldM (fun (st : list (string * nat) * list (string * nat)) (vi : vnode * nat) =>
    let '(v, i) := vi in
    let! ra := retrieve_a g v i in
    let! da := first_candidate (fst st) ra (fun n => all || o_conf_a n) in
    let! rw := retrieve_w g v i in
    let! dw := first_candidate (snd st) rw (fun n => all || o_conf_w n) in
    Ok (da, dw)) cfg ([], []).
End Bits.
