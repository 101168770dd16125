(* FuncSubProps.v -- C73: functional batch_norm, layer_norm and scaled_dot_product_attention are replaced by layers that
   compute the same. *)
From Coq Require Import String Lia.
From Verif Require Import Base GraphModel GraphProofs FxModel FxSpec FxProofs FuncSubModel FuncSubSpec FuncSubProofs FuncSubAttProofs.
From Coq Require Import Reals Lra.
Local Open Scope string_scope.

(* F.batch_norm(x, mean, var[, w[, b]], ...) outside training: the layer computes what the call computes, for every batch;
   weight and bias may be given by position, by keyword in any order, or be None *)
Theorem functional_batch_norm_replaced dec consts nd x m v affine cv :
  batch_norm_call consts nd x m v affine -> flag dec (arg_for bn_sig nd "training") = false ->
  (exists l, substitute_batch_norm consts 4 nd = Ok (Some l) /\ forall xs, run_batch_norm dec cv l xs = torch_batch_norm dec cv nd xs) /\
  forall rank, rank <> 4%nat -> substitute_batch_norm consts rank nd = Ok None.
Proof.
  intros C F. split; [exact (batch_norm_lem dec consts nd x m v affine cv C F)|]. intros r H. unfold substitute_batch_norm. apply Nat.eqb_neq in H. rewrite H. reflexivity.
Qed.
Print Assumptions functional_batch_norm_replaced.

(* A batch_norm whose mean or variance is computed in the model is refused, whatever follows in the call: with a critical
   message when both are, with a KeyError when one is. *)
Theorem batch_norm_statistics_required : forall consts nd x m v rest, f_args nd = ANode x :: ANode m :: ANode v :: rest ->
  NoDup (nodes_in (f_args nd) ++ nodes_in (map snd (f_kwargs nd))) -> ~ In m consts \/ ~ In v consts ->
  (~ In m consts /\ ~ In v consts -> substitute_batch_norm consts 4 nd = Err E_critical) /\
  (In m consts \/ In v consts -> substitute_batch_norm consts 4 nd = Err E_key).
Proof.
  intros consts nd x m v rest A N H. unfold substitute_batch_norm. cbn [Nat.eqb negb]. set (ws := const_weights consts nd).
  assert (ws = filter (fun p => mem (snd p) consts) (enumerate_from 0 (x :: m :: v :: nodes_in rest ++ nodes_in (map snd (f_kwargs nd))))) as E.
  { unfold ws, const_weights, first_list. rewrite A, ains_occ, firsts_id by exact N. unfold occ. rewrite A. reflexivity. }
  assert (forall l i j, i < j -> has_pos (filter (fun p => mem (snd p) consts) (enumerate_from j l)) i = false)%nat as F.
  { clear. induction l as [|y l IH]; intros i j L; [reflexivity|]. cbn [enumerate_from filter snd]. destruct (mem y consts); [|apply IH; lia]. unfold has_pos in *. cbn [existsb fst]. rewrite IH by lia. destruct (Nat.eqb_spec j i); [lia|reflexivity]. }
  assert (forall l i, has_pos l i = false -> wget l i = Err E_key) as G.
  { clear. induction l as [|[j c] l IH]; intros i Q; [reflexivity|]. unfold has_pos in Q. cbn in Q. apply orb_false_iff in Q. cbn [wget]. rewrite Nat.eqb_sym. destruct Q as [-> Q]. apply IH, Q. }
  assert (has_pos ws 1 = mem m consts) as P1.
  { rewrite E. cbn [enumerate_from filter snd]. destruct (mem x consts), (mem m consts), (mem v consts); unfold has_pos in *; cbn [existsb fst Nat.eqb orb]; try reflexivity; apply F; lia. }
  assert (has_pos ws 2 = mem v consts) as P2.
  { rewrite E. cbn [enumerate_from filter snd]. destruct (mem x consts), (mem m consts), (mem v consts); unfold has_pos in *; cbn [existsb fst Nat.eqb orb]; try reflexivity; apply F; lia. }
  rewrite P1, P2. destruct (mem m consts) eqn:M1; [apply mem_spec in M1|apply mem_false in M1]; (destruct (mem v consts) eqn:M2; [apply mem_spec in M2|apply mem_false in M2]); cbn [negb andb]; split; intro Q; try tauto.
  - rewrite (G ws 2%nat P2). assert (exists c, wget ws 1 = Ok c) as [c ->]; [|reflexivity]. clear -P1. induction ws as [|[j c] l IH]; [discriminate|]. cbn in P1. cbn [wget]. rewrite Nat.eqb_sym. destruct (Nat.eqb j 1); [eauto|]. apply IH, P1.
  - rewrite (G ws 1%nat P1). reflexivity.
Qed.
Print Assumptions batch_norm_statistics_required.

(* F.layer_norm over the last dimension: the layer computes what the call computes, for every tensor *)
Theorem functional_layer_norm_replaced dec consts nd x shape affine cv dim input_shape :
  layer_norm_call consts nd x shape affine ->
  length (dims_of dim (arg_for ln_sig nd "normalized_shape")) = 1%nat ->
  (exists outer, input_shape = (outer ++ dims_of dim (arg_for ln_sig nd "normalized_shape"))%list) ->
  Forall (fun d => 0 < d)%nat input_shape ->
  exists l, substitute_layer_norm consts (last input_shape 0%nat) nd = Ok l /\ forall t, torch_layer_norm dec cv dim nd t (run_layer_norm dec cv l t).
Proof. exact (layer_norm_lem dec consts nd x shape affine cv dim input_shape). Qed.
Print Assumptions functional_layer_norm_replaced.

(* scaled_dot_product_attention(q, k, v, ...), not causal and without dropout: the added nodes compute softmax(q kT scale + mask) v *)
Theorem attention_decomposed dec supported prog nd q k v rest mask cm :
  wf_prog prog -> In nd prog -> attention_call prog nd q k v rest mask ->
  (forall c, In c mask -> supported c = true) ->
  (arg_for sdpa_sig nd "is_causal" = None \/ exists c, arg_for sdpa_sig nd "is_causal" = Some (AConst c) /\ dec c = PBool false) ->
  (keyword "scale" (f_kwargs nd) = None \/ exists c, keyword "scale" (f_kwargs nd) = Some (AConst c) /\ (dec c = PNone \/ exists r, dec c = PNum r /\ r <> 0%R)) ->
  number dec 0%R (arg_for sdpa_sig nd "dropout_p") = 0%R ->
  exists a, substitute_attention dec supported (const_ids prog) (sdpa_prev prog nd) nd = Ok a /\
    forall val keep, exists y, run_attention dec cm a val = Ok y /\ torch_attention dec cm keep nd (val q) (val k) (val v) y.
Proof. exact (attention_lem dec supported prog nd q k v rest mask cm). Qed.
Print Assumptions attention_decomposed.

(* a causal call is refused, not silently computed without the mask *)
Theorem causal_attention_refused dec supported prog nd q k v rest c :
  wf_prog prog -> In nd prog -> attention_call prog nd q k v rest [] ->
  arg_for sdpa_sig nd "is_causal" = Some (AConst c) -> dec c = PBool true ->
  substitute_attention dec supported (const_ids prog) (sdpa_prev prog nd) nd = Err E_runtime.
Proof.
  intros W I C A D. destruct (attention_inputs prog nd q k v rest [] W I C) as [Ep _]. unfold substitute_attention. rewrite Ep. unfold attention_mask.
  rewrite (causal_read_all _ _ _ _ _ _ _ C A). cbn [truthy]. rewrite D. reflexivity.
Qed.
Print Assumptions causal_attention_refused.

(* so is a mask of booleans or with infinite values *)
Theorem unsupported_mask_refused dec supported prog nd q k v rest c :
  wf_prog prog -> In nd prog -> attention_call prog nd q k v rest [c] -> supported c = false ->
  substitute_attention dec supported (const_ids prog) (sdpa_prev prog nd) nd = Err E_runtime.
Proof.
  intros W I C Hs. destruct (attention_inputs prog nd q k v rest [c] W I C) as [Ep Ew]. unfold substitute_attention. rewrite Ep. unfold attention_mask.
  destruct (truthy _ _); [reflexivity|]. destruct (const_weights (const_ids prog) nd) as [|[i d] ws]; [discriminate|]. cbn [map snd] in Ew. injection Ew as -> _. rewrite Hs. reflexivity.
Qed.
Print Assumptions unsupported_mask_refused.
