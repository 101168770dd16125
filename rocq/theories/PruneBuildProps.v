(* PruneBuildProps.v -- C58: the pruned graph consists of the layers with exactly the masked channels removed,
   and has as many parameters as were counted beforehand. *)
From Coq Require Import String Permutation Lia.
From Verif Require Import Base SearchProofs HessianModel HessianProofs FilterModel PruneModel PruneProofs PruneMemModel PruneMemSpec PruneMemProofs PruneMemProps.
From Verif Require Import PruneBuildModel PruneBuildSpec PruneBuildProofs.
Open Scope Z_scope.
Local Open Scope res_scope.

(* no bias is missing or of the wrong rank, and inside the sections PyTorch has no weights to lose *)
Definition buildable (f : fw) (g : pgraph) : Prop :=
  wf_graph g /\ NoDup (map pn_name (pg_nodes g)) /\ (forall n, In n (pg_nodes g) -> is_edge n = true -> bias_consistent n) /\
  (f = Keras \/ forall e i x n, is_section f g e i x -> In n i -> pn_weights n = []).
Definition model_params (nodes : list pnode) : Z :=
  fold_right Z.add 0 (map (fun n => fold_right Z.add 0 (map (fun kw => Z.of_nat (t_size (snd kw))) (pn_weights n))) nodes).

Theorem pruned_graph_restricted f padded g masks p nodes' : buildable f g -> graph_params f padded g masks = Ok p -> pruned_nodes f g masks = Ok nodes' ->
  Forall2 (fun n n' => exists im om, applies f g masks n im om /\ left_of f n im om n') (pg_nodes g) nodes'.
Proof.
  intros (W & U & B & K) H P. destruct (sections f g) as [secs|] eqn:HS; [|unfold graph_params in H; rewrite HS in H; discriminate].
  pose proof (pruned_values f padded g masks secs p W HS H U B K nodes' P) as V. eapply Forall2_impl; [|exact V].
  intros n n' (im & om & A & L & _). exists im, om. split; assumption.
Qed.
Print Assumptions pruned_graph_restricted.

Lemma axes_apart_all f n kw : fst (weight_axes f n kw) = None \/ snd (weight_axes f n kw) = None \/ fst (weight_axes f n kw) <> snd (weight_axes f n kw) \/ pn_kind n = K_depthwise.
Proof.
  unfold weight_axes. destruct (kernel_attr f (pn_kind n)); [|right; left; reflexivity]. destruct (fst kw) as [s0|]; [|left; reflexivity].
  destruct (str_contains s0 s); [|right; left; reflexivity]. destruct f, (pn_kind n) as [[] ?| | | | |]; cbn; auto; right; right; left; discriminate.
Qed.
Lemma left_count f n im om n' : (pn_kind n <> K_depthwise \/ (im = None /\ om = None)) ->
  (forall kw, In kw (pn_weights n) -> fits im (snd (weight_axes f n kw)) (t_shape (snd kw)) /\ fits om (fst (weight_axes f n kw)) (cut im (snd (weight_axes f n kw)) (t_shape (snd kw)))) ->
  left_of f n im om n' -> layer_left f n im om = fold_right Z.add 0 (map (fun kw => Z.of_nat (t_size (snd kw))) (pn_weights n')).
Proof.
  intros D F (_ & _ & _ & _ & _ & _ & _ & L). unfold layer_left. revert F L. generalize (pn_weights n'). generalize (pn_weights n).
  induction l as [|kw l IH]; intros l' F L; inversion L as [|? kw' ? l1 [_ R] L1]; subst; [reflexivity|].
  cbn [map fold_right]. rewrite (IH l1 (fun k J => F k (or_intror J)) L1). f_equal. destruct (F kw (or_introl eq_refl)) as [Fi Fo].
  unfold t_size. rewrite (restricted_shape _ _ _ _ _ _ R Fi Fo). unfold weight_left. f_equal.
  destruct (axes_apart_all f n kw) as [A|[A|[A|A]]]; [apply count_cut; auto|apply count_cut; auto|apply count_cut; auto|].
  destruct D as [D|[-> ->]]; [contradiction|]. apply (count_cut None None None None); [intros m x Q; discriminate|intros m x Q; discriminate|left; reflexivity].
Qed.
Lemma applied_kind f g masks n im om : applies f g masks n im om -> pn_kind n <> K_depthwise \/ (im = None /\ om = None).
Proof.
  intros [A|i x A _|e i A|e i x A J]; [right; split; reflexivity| | |]; left; intro Q.
  - destruct A as (_ & _ & _ & A & _). unfold is_edge in A. rewrite Q in A. discriminate.
  - destruct A as (_ & _ & _ & _ & A & _). unfold is_edge in A. rewrite Q in A. discriminate.
  - destruct A as (_ & _ & A & _). destruct (A n J) as [_ B]. unfold is_inter in B. rewrite Q in B. discriminate.
Qed.

(* the parameters counted for the masks are the parameters of the pruned graph *)
Theorem pruned_graph_size f g masks p nodes' : buildable f g -> graph_params f false g masks = Ok p -> pruned_nodes f g masks = Ok nodes' ->
  model_params nodes' = p.
Proof.
  intros (W & U & B & K) H P. destruct (sections f g) as [secs|] eqn:HS; [|unfold graph_params in H; rewrite HS in H; discriminate].
  pose proof (pruned_values f false g masks secs p W HS H U B K nodes' P) as V.
  destruct (memory_counts_once f false g masks p W H) as (ps & C & ->). unfold model_params. clear P H HS U B K. revert ps C V. revert nodes'.
  generalize (pg_nodes g) at 1 2. induction l as [|n l IH]; intros nodes' ps C V; inversion C as [|? z ? ps' (im & om & A & Q) C1]; subst; inversion V as [|? n' ? l' (im' & om' & A' & L & F) V1]; subst; [reflexivity|].
  cbn [map fold_right]. rewrite (IH l' ps' C1 V1). f_equal. destruct (applies_unique f g masks n im om im' om' W A A') as [<- <-].
  cbn in Q. rewrite Q. symmetry. apply left_count; [apply (applied_kind f g masks n im om A)|exact F|exact L].
Qed.
Print Assumptions pruned_graph_size.

(* one mask for every section, or nothing is built *)
Theorem pruned_graph_needs_every_mask f g masks secs nodes' : sections f g = Ok secs -> pruned_nodes f g masks = Ok nodes' -> length masks = length secs.
Proof. intros HS P. unfold pruned_nodes in P. rewrite HS in P. cbn [bind] in P. destruct (Nat.eqb_spec (length secs) (length masks)); [congruence|discriminate]. Qed.
Print Assumptions pruned_graph_needs_every_mask.

(* ---- the example of PruneMemProps with names of its own ---- *)
Definition yn (s : string) (n : pnode) : pnode := PNode (pn_id n) s (pn_kind n) (pn_weights n) (pn_oca n) (pn_oshape n) (pn_simd n) (pn_use_bias n) (pn_units n).
Definition ys : list pnode := [yn "a" x0; yn "b" x1; yn "c" x2; yn "d" x3; yn "e" x4].
Definition yg : pgraph := PGraph ys [(0, 1); (1, 2); (2, 3); (3, 4)]%nat ys.
Example yg_buildable : buildable Keras yg.
Proof.
  split; [|split; [|split; [|left; reflexivity]]].
  - split.
    + cbn. repeat (constructor; [cbn; intuition discriminate|]). constructor.
    + apply Permutation_refl.
    + assert (B : forall p q r x y, ys = p ++ x :: q ++ y :: r -> before (pg_topo yg) (pn_id x) (pn_id y)) by (intros; exists p, q, r, x, y; auto).
      intros a b [E|[E|[E|[E|[]]]]]; inversion E; subst.
      * exact (B [] [] [yn "c" x2; yn "d" x3; yn "e" x4] (yn "a" x0) (yn "b" x1) eq_refl).
      * exact (B [yn "a" x0] [] [yn "d" x3; yn "e" x4] (yn "b" x1) (yn "c" x2) eq_refl).
      * exact (B [yn "a" x0; yn "b" x1] [] [yn "e" x4] (yn "c" x2) (yn "d" x3) eq_refl).
      * exact (B [yn "a" x0; yn "b" x1; yn "c" x2] [] [] (yn "d" x3) (yn "e" x4) eq_refl).
  - cbn. repeat (constructor; [cbn; intuition discriminate|]). constructor.
  - intros n [<-|[<-|[<-|[<-|[<-|[]]]]]] E; try discriminate E;
      (split; [split; [intros _; eexists "bias"%string, _; split; [right; left; reflexivity|reflexivity]|reflexivity]|];
       intros k w [Q|[Q|[]]] S; inversion Q; subst; [discriminate S|reflexivity]).
Qed.
Example yg_counted : graph_params Keras false yg xm = Ok 11.
Proof. vm_compute. reflexivity. Qed.
Example yg_built : exists nodes', pruned_nodes Keras yg xm = Ok nodes' /\
  map (fun n => map (fun kw => t_shape (snd kw)) (pn_weights n)) nodes' = [[[1; 1; 1; 2]; [2]]; [[2]]; [[1; 1; 2; 1]; [1]]; []; [[1; 1; 1; 1]; [1]]]%nat /\
  map pn_units nodes' = [2; 3; 1; 2; 1].
Proof. eexists. split; [vm_compute; reflexivity|]. split; vm_compute; reflexivity. Qed.

(* ---- findings ---- *)
(* PyTorch: the weights of a layer inside a section are replaced by an empty dictionary before they are read,
   so the pruned batch normalization has no parameters at all *)
Definition zk (s : list nat) (o : nat) : list (wkey * tensor) := [(WS "weight", xt s); (WS "bias", xt [o])].
Definition z0 := PNode 0 "a" (K_conv false 1) (zk [3; 1; 1; 1]%nat 3) (Some 1) (O_flat [1; 3; 1; 1]) [1] true 3.
Definition z1 := PNode 1 "b" K_bn [(WS "gamma", xt [3%nat]); (WS "beta", xt [3%nat])] (Some 1) (O_flat [1; 3; 1; 1]) [1] false 3.
Definition z2 := PNode 2 "c" (K_conv false 1) (zk [2; 3; 1; 1]%nat 2) (Some 1) (O_flat [1; 2; 1; 1]) [1] true 2.
Definition zg : pgraph := PGraph [z0; z1; z2] [(0, 1); (1, 2)]%nat [z0; z1; z2].
Theorem pytorch_inner_weights_lost_refuted : exists nodes',
  pruned_nodes Pytorch zg [(0%nat, [1; 0; 1])] = Ok nodes' /\ graph_params Pytorch false zg [(0%nat, [1; 0; 1])] = Ok (4 + 4 + 6) /\
  model_params nodes' = 4 + 6 /\ map (fun n => length (pn_weights n)) nodes' = [2; 0; 2]%nat.
Proof. eexists. split; [vm_compute; reflexivity|]. split; [vm_compute; reflexivity|]. split; vm_compute; reflexivity. Qed.
Print Assumptions pytorch_inner_weights_lost_refuted.
(* masks are matched with sections by layer name: with two layers of one name nothing is built although the
   count succeeds *)
Theorem shared_name_not_pruned_refuted : wf_graph xg /\ graph_params Keras false xg xm = Ok 11 /\ pruned_nodes Keras xg xm = Err E_critical.
Proof. split; [exact xg_wf|]. split; vm_compute; reflexivity. Qed.
Print Assumptions shared_name_not_pruned_refuted.
