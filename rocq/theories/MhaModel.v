(* MhaModel.v -- decomposing a multi-head attention layer (PyTorch).
   Source: model_compression_toolkit/core/pytorch/graph_substitutions/substitutions/multi_head_attention_decomposition.py L34-749.
   The added nodes are listed in the order of creation with the sources of their inputs (MatMulModel.msrc).
   Not modelled: node names and classes, the recorded input and output shapes of the added nodes. *)
From Verif Require Import Base GraphModel MatMulModel.
From Coq Require Import Reals.
Open Scope res_scope.
Local Open Scope nat_scope.

(* nn.MultiheadAttention as a node of the graph: framework attributes (None: the attribute is missing) and weights.
   m_bias_k, m_bias_v: whether the key is among the weights, and if so whether its value is not None. *)
Record mha := { m_reuse : bool; m_batch_first : option bool; m_zero_attn : option bool; m_bias_k : option bool; m_bias_v : option bool;
  m_embed : nat; m_heads : nat; m_kdim : nat; m_vdim : nat;
  m_in_w : option tensor; m_qw : option tensor; m_kw : option tensor; m_vw : option tensor; m_in_b : option tensor;
  m_out_w : tensor; m_out_b : option tensor }.

Inductive hop :=
| HTranspose (i j : nat) | HConv1d (inc outc : nat) (bias : bool) (w : tensor) (b : option tensor)
| HReshape (s : list nat) | HSplit | HGetitem (i : nat) | HMatmul | HSoftmax | HCat.

(* MHAParams: L47-114 *)
Record hparams := { h_B : nat; h_qdim : nat; h_qseq : nat; h_kvseq : nat; h_q_input : list nat }.
Definition same (a b : option nat) : bool := match a, b with Some x, Some y => Nat.eqb x y | _, _ => false end.
Definition get_dim (s : list nat) (i : nat) : result nat := match nth_error s i with Some d => Ok d | None => Err E_index end.
Definition mha_params (m : mha) (shapes : list (list nat)) : result hparams :=
  let! _ := match m_batch_first m with Some true => Ok tt | _ => Err E_critical end in
  let! _ := match m_zero_attn m with Some true => Err E_critical | _ => Ok tt end in
  let! _ := match m_bias_v m with
            | None => Ok tt
            | Some v => match m_bias_k m with None => Err E_key | Some k => if k && v then Err E_critical else Ok tt end
            end in
  let! _ := if Nat.eqb (m_heads m) 0 then Err E_zero_div else Ok tt in
  match shapes with
  | [q; k; v] =>
      let! q0 := get_dim q 0 in let! k0 := get_dim k 0 in let! v0 := get_dim v 0 in
      let! _ := if Nat.eqb q0 k0 && Nat.eqb k0 v0 then Ok tt else Err E_assert in
      let! k1 := get_dim k 1 in let! v1 := get_dim v 1 in
      let! _ := if Nat.eqb k1 v1 then Ok tt else Err E_assert in
      let! k2 := get_dim k 2 in
      let! _ := if Nat.eqb (m_kdim m) k2 then Ok tt else Err E_assert in
      let! v2 := get_dim v 2 in
      let! _ := if Nat.eqb (m_vdim m) v2 then Ok tt else Err E_assert in
      let! q1 := get_dim q 1 in
      Ok {| h_B := q0; h_qdim := m_embed m / m_heads m; h_qseq := q1; h_kvseq := k1; h_q_input := q |}
  | _ => Err E_value
  end.

(* ---- the weights of the projections: L158-187 ---- *)
Definition expand_last (t : tensor) : tensor := {| sh := sh t ++ [1]; at_ := fun idx => at_ t (removelast idx) |}.
Definition scale (f : R) (t : tensor) : tensor := {| sh := sh t; at_ := fun idx => (f * at_ t idx)%R |}.
(* rows lo .. lo+len-1 *)
Definition rows (lo len : nat) (t : tensor) : tensor :=
  {| sh := len :: tl (sh t); at_ := fun idx => at_ t (match idx with i :: r => lo + i :: r | [] => [] end) |}.
Definition split3 (t : tensor) : result (tensor * tensor * tensor) :=
  match sh t with
  | [] => Err E_value
  | d :: _ => if Nat.eqb (d mod 3) 0 then Ok (rows 0 (d / 3) t, rows (d / 3) (d / 3) t, rows (2 * (d / 3)) (d / 3) t) else Err E_value
  end.
Definition weight_of (t : option tensor) : result tensor := match t with Some t => Ok t | None => Err E_key end.
Definition in_weights (m : mha) (p : hparams) : result (tensor * tensor * tensor * option (tensor * tensor * tensor)) :=
  let factor := (/ sqrt (INR (h_qdim p)))%R in
  let! (qk, kk, vk) := match m_in_w m with
    | Some w => let! (q, k, v) := split3 (expand_last w) in Ok (scale factor q, k, v)
    | None => let! q := weight_of (m_qw m) in let! k := weight_of (m_kw m) in let! v := weight_of (m_vw m) in
              Ok (expand_last (scale factor q), expand_last k, expand_last v)
    end in
  match m_in_b m with
  | Some b => let! (qb, kb, vb) := split3 b in Ok (qk, kk, vk, Some (scale factor qb, kb, vb))
  | None => Ok (qk, kk, vk, None)
  end.

(* ---- the nodes ---- *)
Definition hnodes := list (hop * list msrc).
Definition addn (ns : hnodes) (o : hop) (srcs : list nat) : hnodes * nat := (ns ++ [(o, map SN srcs)], length ns).
Definition bias_of (b : option (tensor * tensor * tensor)) (sel : tensor * tensor * tensor -> tensor) : option tensor := option_map sel b.
Definition is_some {A} (o : option A) : bool := match o with Some _ => true | None => false end.
(* L189-272 *)
Definition project_input (m : mha) (p : hparams) (ns : hnodes) : result (hnodes * (nat * nat * nat) * (nat * nat * nat)) :=
  let! (qk, kk, vk, ib) := in_weights m p in
  let E := m_embed m in
  let '(ns, qt) := addn ns (HTranspose 1 2) [] in
  let '(ns, q) := addn ns (HConv1d E E (is_some ib) qk (bias_of ib (fun b => fst (fst b)))) [qt] in
  let '(ns, kt) := addn ns (HTranspose 1 2) [] in
  let '(ns, k) := addn ns (HConv1d (m_kdim m) E (is_some ib) kk (bias_of ib (fun b => snd (fst b)))) [kt] in
  let '(ns, vt) := addn ns (HTranspose 1 2) [] in
  let '(ns, v) := addn ns (HConv1d (m_vdim m) E (is_some ib) vk (bias_of ib (fun b => snd b))) [vt] in
  Ok (ns, (qt, kt, vt), (q, k, v)).
(* L275-363 *)
Definition arrange (m : mha) (p : hparams) (q k v : nat) (ns : hnodes) : hnodes * (nat * nat * nat) :=
  let '(ns, qr) := addn ns (HReshape [h_B p; m_heads m; h_qdim p; h_qseq p]) [q] in
  let '(ns, qt) := addn ns (HTranspose 2 3) [qr] in
  let '(ns, kr) := addn ns (HReshape [h_B p; m_heads m; h_qdim p; h_kvseq p]) [k] in
  let '(ns, vr) := addn ns (HReshape [h_B p; m_heads m; h_qdim p; h_kvseq p]) [v] in
  let '(ns, vt) := addn ns (HTranspose 2 3) [vr] in
  (ns, (qt, kr, vt)).
(* L366-431 *)
Definition split_projected (q k v : nat) (ns : hnodes) : hnodes * (nat * nat * nat) :=
  let '(ns, qs) := addn ns HSplit [q] in
  let '(ns, ks) := addn ns HSplit [k] in
  let '(ns, vs) := addn ns HSplit [v] in
  (ns, (qs, ks, vs)).
(* L434-537 *)
Definition attention_head (q k v h : nat) (ns : hnodes) : hnodes * nat :=
  let '(ns, gq) := addn ns (HGetitem h) [q] in
  let '(ns, gk) := addn ns (HGetitem h) [k] in
  let '(ns, mm) := addn ns HMatmul [gq; gk] in
  let '(ns, sm) := addn ns HSoftmax [mm] in
  let '(ns, gv) := addn ns (HGetitem h) [v] in
  addn ns HMatmul [sm; gv].
(* L727-735 *)
Definition heads_loop (q k v n : nat) (ns : hnodes) : hnodes * list nat :=
  fold_left (fun st h => let '(ns, outs) := st in let '(ns, o) := attention_head q k v h ns in (ns, outs ++ [o])) (seq 0 n) (ns, []).
(* L540-595 *)
Definition cat_heads (p : hparams) (outs : list nat) (ns : hnodes) : hnodes * nat :=
  let '(ns, c) := addn ns HCat outs in
  let '(ns, t) := addn ns (HTranspose 1 2) [c] in
  addn ns (HReshape (h_q_input p)) [t].
(* L597-664 *)
Definition project_output (m : mha) (a : nat) (ns : hnodes) : hnodes * nat :=
  let E := m_embed m in
  let '(ns, t) := addn ns (HTranspose 1 2) [a] in
  let '(ns, o) := addn ns (HConv1d E E (is_some (m_out_b m)) (expand_last (m_out_w m)) (m_out_b m)) [t] in
  addn ns (HTranspose 1 2) [o].
(* L667-690; [sources]: the sources of graph.in_edges(mha_node), in that order *)
Definition set_src (i : nat) (s : nat) (ns : hnodes) : hnodes :=
  map (fun q => if Nat.eqb (fst q) i then (fst (snd q), snd (snd q) ++ [SG s]) else snd q) (enumerate_from 0 ns).
Definition connect_mha (sources : list nat) (qt kt vt : nat) (ns : hnodes) : result hnodes :=
  match sources with
  | [q; k; v] => Ok (set_src vt v (set_src kt k (set_src qt q ns)))
  | _ => Err E_value
  end.
(* L692-749: the added nodes and the number of the one replacing the attention layer *)
Definition substitute_mha (m : mha) (shapes : list (list nat)) (sources : list nat) : result (hnodes * nat) :=
  if m_reuse m then Err E_critical else
  let! p := mha_params m shapes in
  let! (ns, (qt, kt, vt), (q, k, v)) := project_input m p [] in
  let '(ns, (q, k, v)) := arrange m p q k v ns in
  let '(ns, (q, k, v)) := split_projected q k v ns in
  let '(ns, outs) := heads_loop q k v (m_heads m) ns in
  let '(ns, a) := cat_heads p outs ns in
  let '(ns, out) := project_output m a ns in
  let! ns := connect_mha sources qt kt vt ns in
  Ok (ns, out).

(* ---- running the nodes ---- *)
Section Run.
Local Open Scope R_scope.
Definition swap_at {A} (i j : nat) (l : list A) : list A :=
  match nth_error l i, nth_error l j with
  | Some x, Some y => map (fun p => if Nat.eqb (fst p) i then y else if Nat.eqb (fst p) j then x else snd p) (enumerate_from 0 l)
  | _, _ => l
  end.
Definition transpose (i j : nat) (t : tensor) : tensor := {| sh := swap_at i j (sh t); at_ := fun idx => at_ t (swap_at i j idx) |}.
Definition list_eqb (a b : list nat) : bool := if list_eq_dec Nat.eq_dec a b then true else false.
(* kernel size 1; the weights are loaded into a layer built from the attributes *)
Definition conv1d (inc outc : nat) (bias : bool) (w : tensor) (b : option tensor) (x : tensor) : result tensor :=
  if negb (list_eqb (sh w) [outc; inc; 1%nat]) then Err E_runtime
  else if negb (match b with Some b => bias && list_eqb (sh b) [outc] | None => negb bias end) then Err E_runtime
  else match sh x with
  | [B; c; T] =>
      if Nat.eqb c inc then
        Ok {| sh := [B; outc; T];
              at_ := fun idx => sum_n inc (fun i => at_ w [nth 1 idx 0%nat; i; 0%nat] * at_ x [nth 0 idx 0%nat; i; nth 2 idx 0%nat])
                                + match b with Some b => at_ b [nth 1 idx 0%nat] | None => 0 end |}
      else Err E_runtime
  | _ => Err E_runtime
  end.
Definition reshape_to (s : list nat) (t : tensor) : result tensor :=
  if Nat.eqb (prod s) (prod (sh t)) then Ok {| sh := s; at_ := fun idx => at_ t (unravel (sh t) (ravel s idx)) |} else Err E_runtime.
(* torch.split(t, 1, dim=1) *)
Definition split1 (t : tensor) : list tensor :=
  map (fun h => {| sh := match sh t with b :: _ :: r => b :: 1%nat :: r | s => s end;
                   at_ := fun idx => at_ t (match idx with b :: i :: r => b :: (h + i)%nat :: r | i => i end) |}) (seq 0 (nth 1 (sh t) 0%nat)).
(* matmul of 4-D tensors with the same leading dimensions; broadcasting is not modelled *)
Definition matmul4 (a b : tensor) : result tensor :=
  match sh a, sh b with
  | [ba; ca; m; p], [bb; cb; p'; n] =>
      if Nat.eqb ba bb && Nat.eqb ca cb && Nat.eqb p p' then
        Ok {| sh := [ba; ca; m; n];
              at_ := fun idx => sum_n p (fun l => at_ a [nth 0 idx 0%nat; nth 1 idx 0%nat; nth 2 idx 0%nat; l] *
                                                  at_ b [nth 0 idx 0%nat; nth 1 idx 0%nat; l; nth 3 idx 0%nat]) |}
      else Err E_runtime
  | _, _ => Err E_runtime
  end.
Definition softmax_last (t : tensor) : result tensor :=
  match sh t with
  | [] => Err E_index
  | s => Ok {| sh := s; at_ := fun idx => exp (at_ t idx) / sum_n (last s 0%nat) (fun l => exp (at_ t (removelast idx ++ [l]))) |}
  end.
(* torch.cat(l, dim=1) of tensors with 1 in dimension 1 *)
Definition cat1 (l : list tensor) : result tensor :=
  match l with
  | [] => Err E_runtime
  | t :: _ => if forallb (fun u => list_eqb (sh u) (sh t) && Nat.eqb (nth 1 (sh u) 0%nat) 1) l then
                Ok {| sh := match sh t with b :: _ :: r => b :: length l :: r | s => s end;
                      at_ := fun idx => match idx with b :: h :: r => at_ (nth h l t) (b :: 0%nat :: r) | _ => 0 end |}
              else Err E_runtime
  end.
Definition first_index (i : nat) (t : tensor) : tensor := {| sh := tl (sh t); at_ := fun idx => at_ t (i :: idx) |}.
Definition run_hop (o : hop) (ins : list value) : result value :=
  match o, ins with
  | HTranspose i j, [VT t] => Ok (VT (transpose i j t))
  | HConv1d inc outc bias w b, [VT t] => let! t := conv1d inc outc bias w b t in Ok (VT t)
  | HReshape s, [VT t] => let! t := reshape_to s t in Ok (VT t)
  | HSplit, [VT t] => Ok (VL (split1 t))
  | HGetitem i, [VL l] => match nth_error l i with Some t => Ok (VT t) | None => Err E_index end
  | HGetitem i, [VT t] => if Nat.ltb i (hd 0%nat (sh t)) then Ok (VT (first_index i t)) else Err E_index
  | HMatmul, [VT a; VT b] => let! t := matmul4 a b in Ok (VT t)
  | HSoftmax, [VT t] => let! t := softmax_last t in Ok (VT t)
  | HCat, _ => let! l := mapM (fun v => match v with VT t => Ok t | VL _ => Err E_type end) ins in let! t := cat1 l in Ok (VT t)
  | _, _ => Err E_type
  end.
Fixpoint run_hnodes (val : nat -> tensor) (env : list value) (l : hnodes) : result (list value) :=
  match l with
  | [] => Ok env
  | (o, ss) :: r => let! ins := mapM (read_src val env) ss in let! v := run_hop o ins in run_hnodes val (env ++ [v]) r
  end.
Definition run_mha (val : nat -> tensor) (nodes : hnodes) (out : nat) : result tensor :=
  let! env := run_hnodes val [] nodes in
  match nth_error env out with Some (VT t) => Ok t | _ => Err E_key end.
End Run.
