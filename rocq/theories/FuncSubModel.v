(* FuncSubModel.v -- replacing calls of torch.nn.functional by layers (PyTorch).
   Sources (model_compression_toolkit/core/pytorch/graph_substitutions/substitutions/): functional_batch_norm.py L41-106,
   functional_layer_norm.py L42-100, scaled_dot_product_attention.py L47-230.  The fields of the node of a call
   (op_call_args, op_call_kwargs, tensor_input_allocs, weights) are those the reader computes (FxModel.v).
   Simplifications: real numbers; layers run in evaluation mode; weights are vectors indexed by number; attention works
   on one matrix per tensor, the leading dimensions being treated alike; output shapes are not modelled. *)
From Coq Require Import String.
From Verif Require Import Base GraphModel FxModel.
From Coq Require Import Reals.
Open Scope res_scope.
Local Open Scope nat_scope.

(* plain Python values among the arguments *)
Inductive pv := PNone | PBool (b : bool) | PNum (r : R).

Section Sub.
Variable dec : nat -> pv.

Fixpoint wget (ws : list (nat * nat)) (i : nat) : result nat :=
  match ws with [] => Err E_key | (j, c) :: r => if Nat.eqb i j then Ok c else wget r i end.
Definition has_pos (ws : list (nat * nat)) (i : nat) : bool := existsb (fun p => Nat.eqb (fst p) i) ws.
(* list.index(key) *)
Fixpoint key_index (k : name) (l : list alloc) : option nat :=
  match l with
  | [] => None
  | Key k' :: r => if String.eqb k k' then Some 0 else option_map S (key_index k r)
  | Pos _ :: r => option_map S (key_index k r)
  end.
Definition kwget (kw : list (name * arg)) (k : name) : option arg :=
  option_map snd (find (fun kv => String.eqb (fst kv) k) kw).
Definition in_kw (kw : list (name * arg)) (k : name) : bool := match kwget kw k with Some _ => true | None => false end.

(* a normalization layer: None stands for ones (gamma) or zeros (beta) *)
Record norm_layer := { nl_mean : nat; nl_var : nat; nl_gamma : option nat; nl_beta : option nat; nl_eps : option arg }.

(* functional_batch_norm.py L60-69, functional_layer_norm.py L60-69 *)
Definition affine_param (nd : fxnode) (ws : list (nat * nat)) (key : name) (pos : nat) : result (option nat) :=
  match key_index key (tensor_input_alloc nd) with
  | Some i => let! c := wget ws i in Ok (Some c)
  | None => if in_kw (op_call_kwargs nd) key then Ok None else let! c := wget ws pos in Ok (Some c)
  end.

(* functional_batch_norm.py L41-106; the result None: the graph is unchanged *)
Definition substitute_batch_norm (consts : list nat) (rank : nat) (nd : fxnode) : result (option norm_layer) :=
  if negb (Nat.eqb rank 4) then Ok None else
  let ws := const_weights consts nd in
  if negb (has_pos ws 1) && negb (has_pos ws 2) then Err E_critical else
  let! m := wget ws 1 in
  let! v := wget ws 2 in
  let! g := affine_param nd ws "weight" 3 in
  let! b := affine_param nd ws "bias" 4 in
  Ok (Some {| nl_mean := m; nl_var := v; nl_gamma := g; nl_beta := b; nl_eps := kwget (op_call_kwargs nd) "eps" |}).

(* functional_layer_norm.py L42-100: the normalized shape is the last dimension of the input *)
Record ln_layer := { ln_size : nat; ln_gamma : option nat; ln_beta : option nat; ln_eps : option arg }.
Definition substitute_layer_norm (consts : list nat) (last_dim : nat) (nd : fxnode) : result ln_layer :=
  let ws := const_weights consts nd in
  let! g := affine_param nd ws "weight" 1 in
  let! b := affine_param nd ws "bias" 2 in
  Ok {| ln_size := last_dim; ln_gamma := g; ln_beta := b; ln_eps := kwget (op_call_kwargs nd) "eps" |}.

(* ---- scaled dot product attention ---- *)
(* L47-58 *)
Definition get_input_by_name (nd : fxnode) (nm : name) (i : nat) : option arg :=
  match kwget (op_call_kwargs nd) nm with
  | Some a => Some a
  | None => nth_error (op_call_args nd) i
  end.
Definition truthy (a : option arg) : bool :=
  match a with
  | None => false
  | Some (AConst c) => match dec c with PNone => false | PBool b => b | PNum r => if Req_EM_T r 0 then false else true end
  | Some (AList l) => negb (match l with [] => true | _ => false end)
  | Some (ANode _) => true
  end.
(* the operations of the nodes added to the graph and where their inputs come from *)
Inductive asrc := SQ | SK | SV | SNode (i : nat).
Inductive aop := OTranspose | OMatmul | OScale (a : option arg) | OMask (c : nat) | OSoftmax | ODropout (p : option arg).
(* the nodes of the query, key and value, and the added nodes; the last one replaces the call *)
Record attention := { at_q : nat; at_k : nat; at_v : nat; at_nodes : list (aop * list asrc) }.

(* L156-174; [supported]: the constant is of a float type and finite *)
Definition attention_mask (supported : nat -> bool) (consts : list nat) (nd : fxnode) : result (option nat) :=
  if truthy (get_input_by_name nd "is_causal" 2) then Err E_runtime else
  match const_weights consts nd with
  | [] => Ok None
  | (_, c) :: _ => if supported c then Ok (Some c) else Err E_runtime
  end.
(* L60-64, L186-230; [prev]: the source nodes of the call's incoming edges by sink index *)
Definition substitute_attention (supported : nat -> bool) (consts prev : list nat) (nd : fxnode) : result attention :=
  match prev with
  | q :: k :: v :: more =>
      let scale := get_input_by_name nd "scale" 3 in
      let! mask := attention_mask supported consts nd in
      let nodes :=
        [(OTranspose, [SK]); (OMatmul, [SQ; SNode 0]); (OScale (if truthy scale then scale else None), [SNode 1])] ++
        (match mask with Some c => [(OMask c, [SNode 2])] | None => [] end) in
      let last := length nodes - 1 in
      let all := nodes ++ [(OSoftmax, [SNode last]); (ODropout (kwget (op_call_kwargs nd) "dropout_p"), [SNode (S last)]);
                           (OMatmul, [SNode (S (S last)); SV])] in
      (* remove_node fails if an edge is left *)
      match more with [] => Ok {| at_q := q; at_k := k; at_v := v; at_nodes := all |} | _ => Err E_assert end
  | _ => Err E_index
  end.
Definition sdpa_prev (prog : list fxnode) (nd : fxnode) : list nat :=
  map src (sort_by ti (in_edges (Graph (graph_ids prog) (edges_builder prog) [] []) (f_id nd))).
End Sub.

(* ---- what layers and added nodes compute ---- *)
Section Run.
Variable dec : nat -> pv.
Local Open Scope R_scope.
Definition default_eps : R := 1 / 100000.
Definition eps_of (a : option arg) : R :=
  match a with Some (AConst c) => match dec c with PNum e => e | _ => default_eps end | _ => default_eps end.
Variable cv : nat -> nat -> R.     (* constant vectors *)
Definition or_ones (c : option nat) (i : nat) : R := match c with Some c => cv c i | None => 1 end.
Definition or_zeros (c : option nat) (i : nat) : R := match c with Some c => cv c i | None => 0 end.

(* nn.BatchNorm2d in evaluation mode: a batch is a list of positions, each a vector over channels *)
Definition run_batch_norm (l : norm_layer) (xs : list (nat -> R)) : list (nat -> R) :=
  map (fun x c => (x c - cv (nl_mean l) c) / sqrt (cv (nl_var l) c + eps_of (nl_eps l)) * or_ones (nl_gamma l) c + or_zeros (nl_beta l) c) xs.

(* consecutive pieces of d elements *)
Fixpoint pieces (fuel d : nat) (l : list R) : list (list R) :=
  match fuel, l with
  | O, _ | _, [] => []
  | S f, _ => firstn d l :: pieces f d (skipn d l)
  end.
Definition sumR (l : list R) : R := fold_right Rplus 0 l.
Definition meanR (l : list R) : R := sumR l / INR (length l).
Definition varR (l : list R) : R := meanR (map (fun x => (x - meanR l) * (x - meanR l)) l).
Definition imap {A B} (f : nat -> A -> B) (l : list A) : list B := map (fun p => f (fst p) (snd p)) (combine (seq 0 (length l)) l).
Definition normalize (eps : R) (g b : nat -> R) (l : list R) : list R :=
  imap (fun i x => (x - meanR l) / sqrt (varR l + eps) * g i + b i) l.
(* nn.LayerNorm: the tensor is the list of its elements in row-major order *)
Definition run_layer_norm (l : ln_layer) (x : list R) : list R :=
  concat (map (normalize (eps_of (ln_eps l)) (or_ones (ln_gamma l)) (or_zeros (ln_beta l))) (pieces (length x) (ln_size l) x)).

Record mat := { rows : nat; cols : nat; el : nat -> nat -> R }.
Variable cm : nat -> nat -> nat -> R.   (* constant matrices *)
Definition sumN (n : nat) (f : nat -> R) : R := sumR (map f (seq 0 n)).
Definition mtranspose (m : mat) : mat := {| rows := cols m; cols := rows m; el := fun i j => el m j i |}.
Definition mmul (a b : mat) : mat := {| rows := rows a; cols := cols b; el := fun i j => sumN (cols a) (fun l => el a i l * el b l j) |}.
Definition mmap (f : nat -> nat -> R -> R) (m : mat) : mat := {| rows := rows m; cols := cols m; el := fun i j => f i j (el m i j) |}.
Definition msoftmax (m : mat) : mat :=
  mmap (fun i _ x => exp x / sumN (cols m) (fun l => exp (el m i l))) m.
(* scale factor 1/sqrt(d) if none is given: L86-87 *)
Definition scale_of (d : nat) (a : option arg) : R :=
  match a with Some (AConst c) => match dec c with PNum r => r | PBool true => 1 | PBool false => 0 | PNone => 1 / sqrt (INR d) end | _ => 1 / sqrt (INR d) end.
Definition run_op (d : nat) (o : aop) (ins : list mat) : result mat :=
  match o, ins with
  | OTranspose, [m] => Ok (mtranspose m)
  | OMatmul, [a; b] => Ok (mmul a b)
  | OScale a, [m] => Ok (mmap (fun _ _ x => x * scale_of d a) m)
  | OMask c, [m] => Ok (mmap (fun i j x => x + cm c i j) m)
  | OSoftmax, [m] => Ok (msoftmax m)
  | ODropout _, [m] => Ok m                      (* nn.Dropout in evaluation mode *)
  | _, _ => Err E_type
  end.
Definition src_mat (q k v : mat) (env : list mat) (s : asrc) : result mat :=
  match s with
  | SQ => Ok q | SK => Ok k | SV => Ok v
  | SNode i => match nth_error env i with Some m => Ok m | None => Err E_key end
  end.
(* runs the added nodes in order; the result is the value of the last one *)
Fixpoint run_nodes (d : nat) (q k v : mat) (env : list mat) (last : result mat) (l : list (aop * list asrc)) : result mat :=
  match l with
  | [] => last
  | (o, ss) :: r => let! ins := mapM (src_mat q k v env) ss in
                    let! m := run_op d o ins in
                    run_nodes d q k v (env ++ [m]) (Ok m) r
  end.
Definition run_attention (a : attention) (val : nat -> mat) : result mat :=
  run_nodes (cols (val (at_q a))) (val (at_q a)) (val (at_k a)) (val (at_v a)) [] (Err E_type) (at_nodes a).
End Run.
