(* KMhaProps.v -- C86: the elementary layers that replace a Keras MultiHeadAttention compute the layer. *)
From Coq Require Import String.
From Verif Require Import Base Nd GraphModel KMhaModel KMhaSpec KMhaProofs KMhaRunProofs KMhaMainProofs.
Local Open Scope R_scope.

(* three inputs (query x, value z, key y): for every number of inner axes, every choice and order of attention axes,
   all sizes, heads and weights, every entry of the result is that of the layer *)
Theorem kmha_decomposed : forall m L dq dk cq ck cv out x y z B,
  axes_ok (axes L) dq dk -> describes m L dq dk cq ck cv out -> weight_shapes L cq ck cv out ->
  Forall (fun d => 0 < d)%nat dq -> (0 < out)%nat -> (0 < value_dim L)%nat -> (2 <= heads L)%nat ->
  shp x = B :: dq ++ [cq] -> shp y = B :: dk ++ [ck] -> shp z = B :: dk ++ [cv] ->
  exists e t, expand m 3 = Ok e /\ keval [x; z; y] e = Ok t /\ shp t = B :: dq ++ [out] /\
    forall n p o, (n < B)%nat -> inb dq p -> (o < out)%nat -> at_ t (n :: p ++ [o]) = layer_output L x y z cq ck cv dk n p o.
Proof.
  intros m L dq dk cq ck cv out x y z B AX D WS PQ PO PV PH Sx Sy Sz.
  apply (expand_ok m L dq dk cq ck cv out AX D WS PQ PO PV PH [x; z; y] 3 x y z B); auto.
Qed.
Print Assumptions kmha_decomposed.

(* two inputs: the value is the key as well *)
Theorem kmha_decomposed_two_inputs : forall m L dq dk cq cv out x z B,
  axes_ok (axes L) dq dk -> describes m L dq dk cq cv cv out -> weight_shapes L cq cv cv out ->
  Forall (fun d => 0 < d)%nat dq -> (0 < out)%nat -> (0 < value_dim L)%nat -> (2 <= heads L)%nat ->
  shp x = B :: dq ++ [cq] -> shp z = B :: dk ++ [cv] ->
  exists e t, expand m 2 = Ok e /\ keval [x; z] e = Ok t /\ shp t = B :: dq ++ [out] /\
    forall n p o, (n < B)%nat -> inb dq p -> (o < out)%nat -> at_ t (n :: p ++ [o]) = layer_output L x z z cq cv cv dk n p o.
Proof.
  intros m L dq dk cq cv out x z B AX D WS PQ PO PV PH Sx Sz.
  apply (expand_ok m L dq dk cq cv cv out AX D WS PQ PO PV PH [x; z] 2 x z z B); auto.
Qed.
Print Assumptions kmha_decomposed_two_inputs.

(* the tensors that become query, value and key are those the layer was called with, in order, when the edges into the
   layer are listed in the order of its inputs, a source met twice is met without another one in between, and edges
   from one source carry the same output of it *)
Theorem kmha_inputs_taken : forall g n es,
  filter (fun e => Nat.eqb (snk e) n) (g_edges g) = es -> (length es = 2%nat \/ length es = 3%nat) ->
  (forall e f, In e es -> In f es -> src e = src f -> si e = si f) ->
  (forall a b c, es = [a; b; c] -> src a = src c -> src b = src a) ->
  taken g n = Ok (map (fun e => (src e, si e)) es).
Proof.
  intros g n es E Len Same Adj.
  assert (forall u, between g u n = filter (fun e => Nat.eqb (src e) u) es) as BT.
  { intro u. unfold between. rewrite <- E. generalize (g_edges g) as l. induction l as [|e l IH]; [reflexivity|].
    cbn. unfold is_between at 1. destruct (Nat.eqb (src e) u) eqn:Q1, (Nat.eqb (snk e) n) eqn:Q2; cbn; rewrite ?Q1, IH; reflexivity. }
  assert (forall e, In e es -> edge_tensor g e = Ok (src e, si e)) as ET.
  { intros e I. assert (snk e = n) as S by (rewrite <- E in I; apply filter_In in I; apply Nat.eqb_eq; exact (proj2 I)).
    unfold edge_tensor. rewrite S, BT. destruct (filter (fun e0 => Nat.eqb (src e0) (src e)) es) as [|f l] eqn:F.
    - assert (In e []) as J by (rewrite <- F; apply filter_In; split; [exact I|apply Nat.eqb_refl]). destruct J.
    - assert (In f (f :: l)) as J by (left; reflexivity). rewrite <- F in J. apply filter_In in J. destruct J as [J K].
      apply Nat.eqb_eq in K. rewrite (Same f e J I K). reflexivity. }
  assert (in_edges g n = es) as IE.
  { unfold in_edges. rewrite E. rewrite (flat_map_ext _ _ BT). destruct es as [|a [|b [|c [|d es]]]]; cbn in Len; try lia.
    - cbn. destruct (Nat.eqb_spec (src a) (src b)) as [H|H]; cbn; rewrite ?Nat.eqb_refl; cbn.
      + rewrite H, !Nat.eqb_refl. reflexivity.
      + assert (Nat.eqb (src b) (src a) = false) as H' by (apply Nat.eqb_neq; congruence). rewrite H', (proj2 (Nat.eqb_neq _ _) H). reflexivity.
    - specialize (Adj a b c eq_refl). cbn.
      destruct (Nat.eqb_spec (src b) (src c)) as [H1|H1], (Nat.eqb_spec (src a) (src b)) as [H2|H2], (Nat.eqb_spec (src a) (src c)) as [H3|H3];
        try (exfalso; congruence); try (exfalso; apply H2; symmetry; apply Adj; assumption); cbn;
        repeat match goal with
        | H : src _ = src _ |- _ => rewrite H in *; clear H
        | H : src ?u <> src ?v |- _ => pose proof (proj2 (Nat.eqb_neq _ _) H); pose proof (proj2 (Nat.eqb_neq (src v) (src u)) (fun Q => H (eq_sym Q))); clear H
        end;
        repeat match goal with H : Nat.eqb _ _ = false |- _ => rewrite H end; cbn; rewrite ?Nat.eqb_refl; cbn;
        repeat match goal with H : Nat.eqb _ _ = false |- _ => rewrite H end; rewrite ?Nat.eqb_refl; cbn;
        repeat match goal with H : Nat.eqb _ _ = false |- _ => rewrite H end; cbn; try reflexivity. }
  unfold taken. rewrite IE. destruct es as [|a [|b [|c [|d es]]]]; cbn in Len; try lia.
  - cbn. rewrite !ET by (cbn; auto). reflexivity.
  - cbn. rewrite !ET by (cbn; auto). reflexivity.
Qed.
Print Assumptions kmha_inputs_taken.

(* FINDING (core/keras/graph_substitutions/substitutions/multi_head_attention_decomposition.py L347-350 with
   core/keras/back2framework/keras_model_builder.py L278-279): a layer with one head is replaced by nodes that cannot be
   run: the single head is passed to Concatenate as a tensor, which Concatenate refuses. *)
Theorem kmha_one_head_refuted : forall m inputs ins e, k_heads m = 1%nat -> expand m inputs = Ok e -> is_ok (keval ins e) = false.
Proof.
  intros m inputs ins e H1 E. unfold expand in E. destruct (k_reuse m); [discriminate|].
  destruct (output_perm_dims m) as [outp|]; [|discriminate]. cbn [bind] in E.
  destruct (permuted m (k_qshape m)) as [qp|]; [|discriminate]. cbn [bind] in E.
  destruct (permuted m (k_kshape m)) as [kp|]; [|discriminate]. cbn [bind] in E.
  destruct (permuted m (k_vshape m)) as [vp|]; [|discriminate]. cbn [bind] in E.
  destruct (negb _); [discriminate|]. cbv zeta in E. rewrite H1 in E. cbn [seq mapM] in E.
  match type of E with context [head m ?a ?b ?c ?d] => destruct (head m a b c d) as [h|] end; [|discriminate]. cbn [bind] in E.
  unfold project_output in E. destruct (weight m "/attention_output/kernel") as [w|]; [|discriminate]. cbn [bind] in E.
  destruct (reshape w _) as [w'|]; [|discriminate]. cbn [bind] in E. destruct (weight m "/attention_output/bias") as [b|]; [|discriminate].
  cbn [bind] in E. injection E as <-. rewrite !keval_op. cbn [mapM]. rewrite !keval_op. cbn [mapM]. rewrite !keval_op. cbn [mapM].
  rewrite keval_op. cbn [mapM]. destruct (keval ins h) as [t|]; reflexivity.
Qed.
Print Assumptions kmha_one_head_refuted.
