(* MhaProps.v -- C75: a multi-head attention layer is decomposed into nodes computing the same. *)
From Coq Require Import Lia.
From Verif Require Import Base GraphModel FxModel MatMulModel MhaModel MhaSpec MhaProofs.
From Coq Require Import Reals Lra.
Local Open Scope nat_scope.

(* batch first, no zero attention, no key and value biases, with or without biases of the projections, projections stored
   together or apart: the added nodes compute the layer for every query, key and value of the traced shapes *)
Theorem attention_layer_decomposed m B T S q k v : supported m -> weights_ok m ->
  exists nodes out, substitute_mha m [[B; T; m_embed m]; [B; S; m_kdim m]; [B; S; m_vdim m]] [q; k; v] = Ok (nodes, out) /\
    forall val, sh (val q) = [B; T; m_embed m] -> sh (val k) = [B; S; m_kdim m] -> sh (val v) = [B; S; m_vdim m] ->
      exists t, run_mha val nodes out = Ok t /\ sh t = [B; T; m_embed m] /\
        forall b s o, b < B -> s < T -> o < m_embed m -> at_ t [b; s; o] = mha_output m (val q) (val k) (val v) S b s o.
Proof. exact (mha_decomposed_lem m B T S q k v). Qed.
Print Assumptions attention_layer_decomposed.

Theorem unsupported_attention_refused m shapes sources :
  m_reuse m = true \/ m_batch_first m <> Some true \/ m_zero_attn m = Some true \/ (m_bias_k m = Some true /\ m_bias_v m = Some true) ->
  substitute_mha m shapes sources = Err E_critical.
Proof.
  intro H. unfold substitute_mha. destruct (m_reuse m); [reflexivity|]. unfold mha_params.
  destruct (m_batch_first m) as [[|]|] eqn:Eb; try reflexivity. cbn [bind]. destruct (m_zero_attn m) as [[|]|] eqn:Ez; try reflexivity; cbn [bind];
    (destruct H as [H|[H|[H|[H1 H2]]]]; [discriminate|exfalso; apply H; reflexivity|discriminate|rewrite H1, H2; reflexivity]).
Qed.
Print Assumptions unsupported_attention_refused.

(* inputs whose batch sizes, sequence lengths or dimensions contradict the layer are refused *)
Theorem mismatched_attention_refused m q k v sources : m_reuse m = false -> length q = 3 -> length k = 3 -> length v = 3 ->
  (nth 0 q 0 <> nth 0 k 0 \/ nth 0 k 0 <> nth 0 v 0 \/ nth 1 k 0 <> nth 1 v 0 \/ nth 2 k 0 <> m_kdim m \/ nth 2 v 0 <> m_vdim m) ->
  is_ok (substitute_mha m [q; k; v] sources) = false.
Proof.
  intros Hr Lq Lk Lv H. destruct q as [|q0 [|q1 [|q2 [|? ?]]]]; try discriminate. destruct k as [|k0 [|k1 [|k2 [|? ?]]]]; try discriminate. destruct v as [|v0 [|v1 [|v2 [|? ?]]]]; try discriminate. cbn [nth] in H.
  unfold substitute_mha. rewrite Hr. unfold mha_params.
  destruct (match m_batch_first m with Some true => Ok tt | _ => Err E_critical end); [|reflexivity]. cbn [bind].
  destruct (match m_zero_attn m with Some true => Err E_critical | _ => Ok tt end); [|reflexivity]. cbn [bind].
  destruct (match m_bias_v m with None => Ok tt | Some v => match m_bias_k m with None => Err E_key | Some k => if k && v then Err E_critical else Ok tt end end); [|reflexivity]. cbn [bind]. destruct (Nat.eqb (m_heads m) 0); [reflexivity|]. cbn [bind get_dim nth_error].
  destruct (Nat.eqb_spec q0 k0); [|reflexivity]. destruct (Nat.eqb_spec k0 v0); [|reflexivity]. cbn [andb bind].
  destruct (Nat.eqb_spec k1 v1); [|reflexivity]. cbn [bind]. destruct (Nat.eqb_spec (m_kdim m) k2); [|reflexivity]. cbn [bind]. destruct (Nat.eqb_spec (m_vdim m) v2); [|reflexivity]. exfalso. lia.
Qed.
Print Assumptions mismatched_attention_refused.

Definition mat (s : list nat) (x : R) : tensor := {| sh := s; at_ := fun _ => x |}.
Definition two_heads : mha := {| m_reuse := false; m_batch_first := Some true; m_zero_attn := Some false; m_bias_k := None; m_bias_v := None;
  m_embed := 4; m_heads := 2; m_kdim := 3; m_vdim := 5; m_in_w := None; m_qw := Some (mat [4; 4] 1%R); m_kw := Some (mat [4; 3] 1%R); m_vw := Some (mat [4; 5] 1%R);
  m_in_b := Some (mat [12] 1%R); m_out_w := mat [4; 4] 1%R; m_out_b := None |}.
Example two_heads_supported : supported two_heads /\ weights_ok two_heads.
Proof.
  split.
  - repeat split; try discriminate; [left; reflexivity|cbn; lia|exists 2; cbn; lia].
  - repeat split. eexists _, _, _. repeat split.
Qed.
Definition hop_code (o : hop) : nat := match o with HTranspose _ _ => 0 | HConv1d _ _ _ _ _ => 1 | HReshape _ => 2 | HSplit => 3 | HGetitem _ => 4 | HMatmul => 5 | HSoftmax => 6 | HCat => 7 end.
Example two_heads_nodes : match substitute_mha two_heads [[2; 6; 4]; [2; 7; 3]; [2; 7; 5]] [10; 11; 12] with
  | Ok (ns, out) => map (fun p => hop_code (fst p)) ns = [0; 1; 0; 1; 0; 1; 2; 0; 2; 2; 0; 3; 3; 3; 4; 4; 5; 6; 4; 5; 4; 4; 5; 6; 4; 5; 7; 0; 2; 0; 1; 0] /\ out = 31
  | Err _ => False end.
Proof. vm_compute. split; reflexivity. Qed.

(* FINDING (multi_head_attention_decomposition.py L73): input_shape holds one shape per distinct input tensor, so
   self-attention, mha(x, x, x), raises ValueError; so does attention whose key and value are one tensor. *)
Theorem self_attention_refuted m nd shape sources : f_args nd = [ANode 0; ANode 0; ANode 0] \/ f_args nd = [ANode 0; ANode 1; ANode 1] -> f_kwargs nd = [] -> supported m ->
  substitute_mha m (map shape (all_input_nodes nd)) sources = Err E_value.
Proof.
  intros Ha Hk [Hr [Hb [Hz [Hkv [Hh _]]]]]. unfold substitute_mha. rewrite Hr. unfold mha_params. rewrite Hb. cbn [bind].
  assert (match m_zero_attn m with Some true => Err E_critical | _ => Ok tt end = Ok tt) as -> by (destruct (m_zero_attn m) as [[|]|]; congruence). cbn [bind].
  assert (match m_bias_v m with None => Ok tt | Some v => match m_bias_k m with None => Err E_key | Some k => if k && v then Err E_critical else Ok tt end end = Ok tt) as -> by (destruct Hkv as [->|[-> ->]]; reflexivity). cbn [bind].
  destruct (Nat.eqb_spec (m_heads m) 0); [lia|]. cbn [bind]. unfold all_input_nodes. rewrite Hk. destruct Ha as [-> | ->]; reflexivity.
Qed.
Print Assumptions self_attention_refuted.

(* FINDING (multi_head_attention_decomposition.py L84-111): the reshapes keep the batch size of tracing, so the model fails on
   any other batch size (the substitution making reshapes independent of the batch size runs before). *)
Theorem attention_batch_size_refuted m B T S q k v B' : supported m -> weights_ok m -> 0 < T -> B' <> B ->
  exists nodes out, substitute_mha m [[B; T; m_embed m]; [B; S; m_kdim m]; [B; S; m_vdim m]] [q; k; v] = Ok (nodes, out) /\
    forall val, sh (val q) = [B'; T; m_embed m] -> sh (val k) = [B'; S; m_kdim m] -> sh (val v) = [B'; S; m_vdim m] -> run_mha val nodes out = Err E_runtime.
Proof.
  intros Sup HW PT DB. pose proof (mha_params_ok m B T S Sup) as HP. set (p := {| h_B := B; h_qdim := m_embed m / m_heads m; h_qseq := T; h_kvseq := S; h_q_input := [B; T; m_embed m] |}) in *.
  destruct (in_weights_ok m p HW) as [qk [kk [vk [ib [HI [[Sqk [Sqb _]] [[Skk [Skb _]] [Svk [Svb _]]]]]]]]].
  destruct Sup as [Hr [_ [_ [_ [PH [d [Pd HE]]]]]]]. assert (m_embed m / m_heads m = d) as Ed by (rewrite HE, Nat.mul_comm; apply Nat.div_mul; lia).
  rewrite (structure _ _ _ q k v _ _ _ _ Hr HP HI). eexists _, _. split; [reflexivity|]. intros val Vq Vk Vv.
  assert (is3 (val q) B' T (m_embed m) (fun b t i => at_ (val q) [b; t; i])) as Iq by (split; [exact Vq|reflexivity]).
  assert (is3 (val k) B' S (m_kdim m) (fun b t i => at_ (val k) [b; t; i])) as Ik by (split; [exact Vk|reflexivity]).
  assert (is3 (val v) B' S (m_vdim m) (fun b t i => at_ (val v) [b; t; i])) as Iv by (split; [exact Vv|reflexivity]).
  apply transpose12_3 in Iq, Ik, Iv.
  assert (forall b : option (tensor * tensor * tensor), forall sel : tensor * tensor * tensor -> tensor, is_some b = is_some (bias_of b sel)) as IS by (intros [x|] sel; reflexivity).
  destruct (conv1d_ok _ (m_embed m) _ _ _ _ _ _ Sqk Sqb Iq) as [cq [Rq [Cq _]]]. destruct (conv1d_ok _ (m_embed m) _ _ _ _ _ _ Skk Skb Ik) as [ck [Rk _]]. destruct (conv1d_ok _ (m_embed m) _ _ _ _ _ _ Svk Svb Iv) as [cv [Rv _]].
  unfold run_mha. assert (forall r, run_hnodes val [] (pfx m p q k v qk kk vk ib ++ r) = Err E_runtime) as K.
  { intro r. unfold pfx. cbn [p h_B h_qdim h_qseq h_kvseq app].
    rewrite (step _ _ _ _ _ [VT (val q)] (VT (transpose 1 2 (val q)))) by reflexivity. cbn [app].
    rewrite (step _ _ _ _ _ [VT (transpose 1 2 (val q))] (VT cq)); [|reflexivity|cbn [run_hop]; rewrite (IS ib (fun b => fst (fst b))), Rq; reflexivity]. cbn [app].
    rewrite (step _ _ _ _ _ [VT (val k)] (VT (transpose 1 2 (val k)))) by reflexivity. cbn [app].
    rewrite (step _ _ _ _ _ [VT (transpose 1 2 (val k))] (VT ck)); [|reflexivity|cbn [run_hop]; rewrite (IS ib (fun b => snd (fst b))), Rk; reflexivity]. cbn [app].
    rewrite (step _ _ _ _ _ [VT (val v)] (VT (transpose 1 2 (val v)))) by reflexivity. cbn [app].
    rewrite (step _ _ _ _ _ [VT (transpose 1 2 (val v))] (VT cv)); [|reflexivity|cbn [run_hop]; rewrite (IS ib (fun b => snd b)), Rv; reflexivity]. cbn [app].
    cbn [run_hnodes mapM read_src nth_error bind run_hop]. unfold reshape_to. rewrite Cq. rewrite Ed, HE.
    destruct (Nat.eqb_spec (prod [B; m_heads m; d; T]) (prod [B'; m_heads m * d; T])) as [Q|_]; [|reflexivity]. exfalso. unfold prod in Q. cbn [fold_right] in Q. apply DB.
    assert (0 < m_heads m * d * T) as Pos by nia. nia. }
  rewrite K. reflexivity.
Qed.
Print Assumptions attention_batch_size_refuted.

(* FINDING (multi_head_attention_decomposition.py L690): the layer returns a pair (output, weights), the node replacing it a
   tensor; indexing it with [0], which took the output, now takes the first sample of the batch. *)
Theorem attention_indexing_refuted : forall t w B T E, sh t = [B; T; E] -> 0 < B ->
  run_hop (HGetitem 0) [VL [t; w]] = Ok (VT t) /\ exists u, run_hop (HGetitem 0) [VT t] = Ok (VT u) /\ sh u = [T; E].
Proof.
  intros t w B T E Hs Pb. split; [reflexivity|]. cbn [run_hop]. rewrite Hs. cbn [hd]. apply Nat.ltb_lt in Pb. rewrite Pb. eexists. split; [reflexivity|]. cbn [first_index sh]. rewrite Hs. reflexivity.
Qed.
Print Assumptions attention_indexing_refuted.

(* FINDING (multi_head_attention_decomposition.py L683-686): the incoming edges are taken in the order of the graph, not by their
   position: with the arguments given as query, value=..., key=... key and value are exchanged. *)
Definition tiny : mha := {| m_reuse := false; m_batch_first := Some true; m_zero_attn := Some false; m_bias_k := None; m_bias_v := None;
  m_embed := 1; m_heads := 1; m_kdim := 1; m_vdim := 1; m_in_w := Some (mat [3; 1] 1%R); m_qw := None; m_kw := None; m_vw := None; m_in_b := None; m_out_w := mat [1; 1] 1%R; m_out_b := None |}.
Theorem attention_keyword_order_refuted : exists m val nodes out t,
  supported m /\ weights_ok m /\ substitute_mha m [[1; 1; 1]; [1; 1; 1]; [1; 1; 1]] [0; 2; 1] = Ok (nodes, out) /\ run_mha val nodes out = Ok t /\
  at_ t [0; 0; 0] <> mha_output m (val 0) (val 1) (val 2) 1 0 0 0.
Proof.
  assert (supported tiny) as Sup by (repeat split; try discriminate; [left; reflexivity|cbn; lia|exists 1; cbn; lia]).
  assert (weights_ok tiny) as HW by (repeat split).
  destruct (attention_layer_decomposed tiny 1 1 1 0 2 1 Sup HW) as [nodes [out [HS HR]]].
  destruct (HR (fun i => mat [1; 1; 1] (INR i)) eq_refl eq_refl eq_refl) as [t [Ht [_ A]]].
  exists tiny, (fun i => mat [1; 1; 1] (INR i)), nodes, out, t. repeat split; try assumption; try (cbn; lia).
  - discriminate.
  - left. reflexivity.
  - exists 1. cbn. lia.
  - rewrite A by (cbn; lia).
    assert (forall x y z, mha_output tiny (mat [1; 1; 1] x) (mat [1; 1; 1] y) (mat [1; 1; 1] z) 1 0 0 0 = z) as F.
    { intros x y z. unfold mha_output, context, attention, total. cbn [map seq fold_right m_embed tiny m_out_b]. unfold projected, total, in_bias, in_matrix. cbn.
      set (s := score _ _ _ _ _ _ _). pose proof (exp_pos s). field. lra. }
    rewrite !F. cbn. lra.
Qed.
Print Assumptions attention_keyword_order_refuted.
