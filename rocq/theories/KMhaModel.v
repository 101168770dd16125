(* KMhaModel.v -- the Keras layer MultiHeadAttention replaced by elementary layers
   (core/keras/graph_substitutions/substitutions/multi_head_attention_decomposition.py).
   A node of the new part of the graph is its operation and the nodes its in-edges come from, in order
   (add_node_with_in_edges): a node that feeds two others is written twice.  Names of the new nodes and the
   input_shape/output_shape fields that are only carried along are left out.  Sizes recorded on the node are
   natural numbers (an unknown size other than the batch makes the products of L63-67 raise TypeError). *)
From Coq Require Import String.
From Verif Require Import Base Nd GraphModel.
Local Open Scope R_scope.

(* what is read from the node: framework_attr (L48-57) and the weights with their names, in order.
   The shapes include the batch axis, whose entry is never used. *)
Record kmha := KMha {
  k_reuse : bool;
  k_heads : nat; k_use_bias : bool; k_key_dim : nat; k_value_dim : nat;
  k_qshape : list nat; k_kshape : list nat; k_vshape : list nat;
  k_out : option nat;
  k_axes : list nat;
  k_weights : list (string * nd) }.

(* ---- MHAParams, L60-86 ---- *)
(* L56 *)
Definition d_model (m : kmha) : nat := match k_out m with None => List.last (k_qshape m) 0%nat | Some o => o end.
(* L61: enumerate(zip(query_shape[1:-1], key_shape[1:-1])), i + 1 *)
Definition inner_axes (m : kmha) : list nat := seq 1 (Nat.min (length (k_qshape m) - 2) (length (k_kshape m) - 2)).
Definition size (s : list nat) (a : nat) : nat := nth a s 0%nat.
(* L60-67 *)
Definition iter_axes (m : kmha) : list nat := filter (fun a => negb (memb a (k_axes m))) (inner_axes m).
Definition att_axes (m : kmha) : list nat := filter (fun a => memb a (k_axes m)) (inner_axes m).
Definition iter_prod (m : kmha) : nat := prod (map (size (k_qshape m)) (iter_axes m)).
Definition q_att_prod (m : kmha) : nat := prod (map (size (k_qshape m)) (att_axes m)).
Definition kv_att_prod (m : kmha) : nat := prod (map (size (k_kshape m)) (att_axes m)).
(* L68 *)
Definition perm_dims (m : kmha) : list nat := [0%nat] ++ iter_axes m ++ k_axes m ++ [(length (k_qshape m) - 1)%nat].
(* L69: list.index *)
Definition output_perm_dims (m : kmha) : result (list nat) :=
  mapM (fun i => if memb i (perm_dims m) then Ok (index_of i (perm_dims m)) else Err E_value) (seq 0 (length (perm_dims m))).
(* L70-72 *)
Definition permuted (m : kmha) (s : list nat) : result (list nat) :=
  mapM (fun i => if Nat.ltb i (length s) then Ok (size s i) else Err E_index) (perm_dims m).
(* L73-75 without the batch axis *)
Definition q_reshape (m : kmha) : list nat := [iter_prod m; q_att_prod m; List.last (k_qshape m) 0%nat].
Definition k_reshape (m : kmha) : list nat := [iter_prod m; kv_att_prod m; List.last (k_kshape m) 0%nat].
Definition v_reshape (m : kmha) : list nat := [iter_prod m; kv_att_prod m; List.last (k_vshape m) 0%nat].

(* ---- the operations of the new nodes ---- *)
Inductive kop :=
  | KPermute (dims : list nat)                                   (* Permute: axes after the batch axis, counted from 1 *)
  | KReshape (target : list nat)                                 (* Reshape: the batch axis is kept *)
  | KConv (filters : nat) (use_bias : bool) (kernel bias : nd)   (* Conv2D with kernel_size 1, linear *)
  | KSlice (begin_ end_ : list nat) (begin_mask end_mask : nat)  (* tf.strided_slice *)
  | KMatmul
  | KSoftmax
  | KStack (axis : nat)                                          (* tf.stack *)
  | KConcat.                                                     (* Concatenate, last axis *)
Inductive kexpr := KIn (k : nat) | KOp (o : kop) (ins : list kexpr).

Definition sub_dims (n : nat) (dims : list nat) : bool :=
  Nat.eqb (length dims) n && forallb (fun a => memb a dims) (seq 1 n).
Fixpoint same_shapes (s : list nat) (ts : list nd) : bool :=
  match ts with [] => true | t :: r => (if list_eq_dec Nat.eq_dec (shp t) s then true else false) && same_shapes s r end.
Fixpoint cat_last (ts : list nd) (pre : list nat) (j : nat) : R :=
  match ts with
  | [] => 0
  | t :: r => let n := List.last (shp t) 0%nat in if Nat.ltb j n then at_ t (pre ++ [j]) else cat_last r pre (j - n)
  end.
Definition slice_lo (b : list nat) (bm j : nat) : nat := if Nat.testbit bm j then 0%nat else nth j b 0%nat.
Definition slice_hi (s e : list nat) (em j : nat) : nat :=
  if Nat.testbit em j then nth j s 0%nat else Nat.min (nth j e 0%nat) (nth j s 0%nat).
(* what the operations give; ValueError for inputs they reject *)
Definition krun (o : kop) (ts : list nd) : result nd :=
  match o, ts with
  | KPermute dims, [t] => if sub_dims (length (shp t) - 1) dims then Ok (transpose (0%nat :: dims) t) else Err E_value
  | KReshape target, [t] =>
      match shp t with
      | n :: r => if Nat.eqb (prod target) (prod r) then Ok (reshape_to t (n :: target)) else Err E_value
      | [] => Err E_value
      end
  | KConv f ub w b, [t] =>
      match shp t, shp w with
      | [n; h; x; c], [1%nat; 1%nat; c'; f'] =>
          if Nat.eqb c c' && Nat.eqb f f'
          then Ok (Nd [n; h; x; f] (fun i => rsum c (fun j => at_ t [nth 0 i 0%nat; nth 1 i 0%nat; nth 2 i 0%nat; j] * at_ w [0%nat; 0%nat; j; nth 3 i 0%nat])
                                             + if ub then at_ b [nth 3 i 0%nat] else 0))
          else Err E_value
      | _, _ => Err E_value
      end
  | KSlice b e bm em, [t] =>
      let axes := seq 0 (length (shp t)) in
      Ok (Nd (map (fun j => (slice_hi (shp t) e em j - slice_lo b bm j)%nat) axes)
             (fun i => at_ t (map (fun j => (nth j i 0 + slice_lo b bm j)%nat) axes)))
  | KMatmul, [s; t] =>
      match shp s, shp t with
      | [n; a; c], [n'; c'; d] =>
          if Nat.eqb n n' && Nat.eqb c c'
          then Ok (Nd [n; a; d] (fun i => rsum c (fun j => at_ s [nth 0 i 0%nat; nth 1 i 0%nat; j] * at_ t [nth 0 i 0%nat; j; nth 2 i 0%nat])))
          else Err E_value
      | _, _ => Err E_value
      end
  | KSoftmax, [t] =>
      Ok (Nd (shp t) (fun i => exp (at_ t i) / rsum (List.last (shp t) 0%nat) (fun j => exp (at_ t (removelast i ++ [j])))))
  | KStack axis, t :: _ =>
      if same_shapes (shp t) ts
      then Ok (Nd (firstn axis (shp t) ++ [length ts] ++ skipn axis (shp t))
                  (fun i => at_ (nth (nth axis i 0%nat) ts t) (firstn axis i ++ skipn (S axis) i)))
      else Err E_value
  (* keras_model_builder.py L278-279: a single input is passed without the list, and Concatenate refuses it *)
  | KConcat, t :: _ :: _ =>
      if same_shapes (removelast (shp t)) (map (fun u => Nd (removelast (shp u)) (at_ u)) ts)
      then Ok (Nd (removelast (shp t) ++ [list_sum (map (fun u => List.last (shp u) 0%nat) ts)])
                  (fun i => cat_last ts (removelast i) (List.last i 0%nat)))
      else Err E_value
  | _, _ => Err E_value
  end.
Fixpoint keval (ins : list nd) (e : kexpr) : result nd :=
  match e with
  | KIn k => match nth_error ins k with Some t => Ok t | None => Err E_value end
  | KOp o l =>
      let! ts := (fix go (l : list kexpr) : result (list nd) :=
                    match l with [] => Ok [] | x :: r => let! y := keval ins x in let! ys := go r in Ok (y :: ys) end) l in
      krun o ts
  end.

(* ---- L104-106: the first weight whose name contains the string ---- *)
Fixpoint contains (p s : string) : bool :=
  prefix p s || match s with EmptyString => false | String _ r => contains p r end.
Definition weight (m : kmha) (w_str : string) : result nd :=
  match filter (fun kw => contains w_str (fst kw)) (k_weights m) with kw :: _ => Ok (snd kw) | [] => Err E_index end.

(* L109-151; the three inputs of the new part are 0: query, 1: value, 2: key.  With two inputs the key is the value. *)
Definition standardized (m : kmha) (target : list nat) (k : nat) : kexpr :=
  KOp (KReshape target) [KOp (KPermute (tl (perm_dims m))) [KIn k]].
Definition key_input (inputs : nat) : nat := if Nat.eqb inputs 3 then 2%nat else 1%nat.
(* w[:, h, :][np.newaxis, np.newaxis, ...] * f (L228-236) and b[h, :] * f *)
Definition head_kernel (w : nd) (h : nat) (f : R) : nd :=
  Nd [1%nat; 1%nat; size (shp w) 0; size (shp w) 2] (fun i => at_ w [nth 2 i 0%nat; h; nth 3 i 0%nat] * f).
Definition head_bias (b : nd) (h : nat) (f : R) : nd := Nd [size (shp b) 1] (fun i => at_ b [h; nth 0 i 0%nat] * f).
(* L209-255: the three projections of one head *)
Definition project_inputs (m : kmha) (h : nat) (q k v : kexpr) : result (kexpr * kexpr * kexpr) :=
  let factor := / sqrt (INR (k_key_dim m)) in
  let! qk := weight m "/query/kernel" in
  let! kk := weight m "/key/kernel" in
  let! vk := weight m "/value/kernel" in
  let! qb := weight m "/query/bias" in
  let! kb := weight m "/key/bias" in
  let! vb := weight m "/value/bias" in
  Ok (KOp (KConv (k_key_dim m) (k_use_bias m) (head_kernel qk h factor) (head_bias qb h factor)) [q],
      KOp (KConv (k_key_dim m) (k_use_bias m) (head_kernel kk h 1) (head_bias kb h 1)) [k],
      KOp (KConv (k_value_dim m) (k_use_bias m) (head_kernel vk h 1) (head_bias vb h 1)) [v]).
(* L153-207: one iteration of query, key or value; 13 masks every axis but axis 1 *)
Definition slice_iter (i : nat) (target : list nat) (e : kexpr) : kexpr :=
  KOp (KReshape target) [KOp (KSlice [0; i; 0; 0]%nat [0; i + 1; 0; 0]%nat 13 13) [e]].
(* L257-303 *)
Definition attention_head (q k v : kexpr) : kexpr :=
  let kt := KOp (KPermute [2; 1]%nat) [k] in
  KOp KMatmul [KOp KSoftmax [KOp KMatmul [q; kt]]; v].
(* L305-332; stack_shape[1:] is (iterations, positions of the query, value_dim) *)
Definition stack_iters (m : kmha) (l : list kexpr) : kexpr :=
  if Nat.eqb (iter_prod m) 1 then KOp (KReshape [iter_prod m; q_att_prod m; k_value_dim m]) l else KOp (KStack 1) l.
(* L462-478: one head *)
Definition head (m : kmha) (q k v : kexpr) (h : nat) : result kexpr :=
  let! p := project_inputs m h q k v in
  let '(pq, pk, pv) := p in
  Ok (stack_iters m (map (fun i => attention_head (slice_iter i [q_att_prod m; k_key_dim m] pq)
                                                  (slice_iter i [kv_att_prod m; k_key_dim m] pk)
                                                  (slice_iter i [kv_att_prod m; k_value_dim m] pv)) (seq 0 (iter_prod m)))).
(* L354-373 *)
Definition project_output (m : kmha) (e : kexpr) : result kexpr :=
  let! w := weight m "/attention_output/kernel" in
  let! w := reshape w [Some 1%nat; Some 1%nat; None; Some (d_model m)] in
  let! b := weight m "/attention_output/bias" in
  Ok (KOp (KConv (d_model m) (k_use_bias m) w b) [e]).
(* substitute (L432-493): the node that takes the place of the layer *)
Definition expand (m : kmha) (inputs : nat) : result kexpr :=
  if k_reuse m then Err E_critical else
  let! outp := output_perm_dims m in
  let! qp := permuted m (k_qshape m) in
  let! _ := permuted m (k_kshape m) in
  let! _ := permuted m (k_vshape m) in
  if negb (Nat.eqb inputs 2 || Nat.eqb inputs 3) then Err E_assert else
  let q := standardized m (q_reshape m) 0 in
  let v := standardized m (v_reshape m) 1 in
  let k := if Nat.eqb inputs 3 then standardized m (k_reshape m) 2 else v in
  let! hs := mapM (head m q k v) (seq 0 (k_heads m)) in
  let! out := project_output m (KOp KConcat hs) in
  (* L375-398 *)
  Ok (KOp (KPermute (tl outp)) [KOp (KReshape (removelast (tl qp) ++ [d_model m])) [out]]).

(* ---- L400-431: which tensors (node, output index) become query, value and key of the new part.
   graph.in_edges lists the edges grouped by their source; get_edge_data(u, v, 0) is the first edge between u and v ---- *)
Definition edge_tensor (g : graph) (e : edge) : result (nat * nat) :=
  match between g (src e) (snk e) with f :: _ => Ok (src e, si f) | [] => Err E_attr end.
Definition taken (g : graph) (n : nat) : result (list (nat * nat)) :=
  match in_edges g n with
  | [q; v; k] => mapM (edge_tensor g) [q; v; k]
  | [q; v] => mapM (edge_tensor g) [q; v]
  | _ => Err E_assert
  end.
