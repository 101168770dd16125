(* CollapseExProps.v -- small instances of the theorems about collapsing and counterexamples beyond their hypotheses. *)
From Coq Require Import Permutation.
From Verif Require Import LinNode LinSpec BnModel BnSpec LinGraph BnExProps CollapseModel CollapseSpec CollapseProps GraphModel GraphSpec GraphProps FuseSpec JoinModel JoinSpec JoinProps CollapseGraphProps.

Ltac wfk a b := constructor; cbn; try (exists a, b; reflexivity); try lia; try exact I; try (intro; discriminate); try reflexivity; auto.

(* a 2x3 Keras convolution with 'same' padding and a 1x1 convolution, both with biases *)
Definition k23 : lin := Lin K_conv (const [2; 3; 1; 2]%nat 1) (Some (vec [1; 2])) true 1 1 2 (1, 1)%nat (1, 1)%nat P_same.
Definition k11 : lin := Lin K_conv (const [1; 1; 2; 1]%nat 3) (Some (vec [5])) true 1 2 1 (1, 1)%nat (1, 1)%nat P_valid.
Example k23_collapses : exists l', collapse_convs k23 k11 = Ok (Some l') /\ lin_val l' (2, 2)%Z (fun _ _ => 1) 0%nat (0, 0)%Z = 38.
Proof.
  destruct (conv_collapsing k23 k11) as [[L _]|(_ & l' & E & _ & _ & _ & _ & _ & H)].
  - wfk 2%nat 3%nat.
  - wfk 1%nat 1%nat.
  - left. split; reflexivity.
  - reflexivity.
  - repeat split; auto.
  - cbn; lia.
  - cbn; lia.
  - intro; discriminate.
  - intros _ _. right. discriminate.
  - cbv in L. lia.
  - exists l'. split; [exact E|]. destruct (H (2, 2)%Z) as [_ HV]. rewrite HV; [rcalc|cbn; lia|cbv; intuition congruence].
Qed.

(* PyTorch: the padding of the unit images has height and width exchanged; a kernel 2x3 becomes a kernel 4x1, a kernel 1x3 an error *)
Definition t23 : lin := Lin T_conv (const [1; 1; 2; 3]%nat 1) None false 1 1 1 (1, 1)%nat (1, 1)%nat (P_num 0 0).
Definition t13 : lin := Lin T_conv (const [1; 1; 1; 3]%nat 1) None false 1 1 1 (1, 1)%nat (1, 1)%nat (P_num 0 0).
Definition t11 : lin := Lin T_conv (const [1; 1; 1; 1]%nat 1) None false 1 1 1 (1, 1)%nat (1, 1)%nat (P_num 0 0).
Theorem non_square_collapsing_refuted : lin_wf t23 /\ lin_wf t13 /\ lin_wf t11 /\ pointwise_after t23 t11 /\ pointwise_after t13 t11 /\
  (exists l', collapse_convs t23 t11 = Ok (Some l') /\ out_hw l' (5, 5)%Z = (2, 5)%Z /\ out_hw t11 (out_hw t23 (5, 5)%Z) = (4, 3)%Z) /\ collapse_convs t13 t11 = Err E_runtime.
Proof.
  split; [wfk 2%nat 3%nat|]. split; [wfk 1%nat 3%nat|]. split; [wfk 1%nat 1%nat|]. split; [repeat split; auto|]. split; [repeat split; auto|]. split; [|reflexivity]. eexists. split; [reflexivity|]. split; reflexivity.
Qed.
Print Assumptions non_square_collapsing_refuted.

(* Keras: one filter and only the first bias: the new bias is a scalar, not a vector of one number *)
Definition k11n : lin := Lin K_conv (const [1; 1; 2; 1]%nat 3) None false 1 2 1 (1, 1)%nat (1, 1)%nat P_valid.
Theorem single_filter_bias_refuted : lin_wf k23 /\ lin_wf k11n /\ pointwise_after k23 k11n /\ exists l' b, collapse_convs k23 k11n = Ok (Some l') /\ l_bias l' = Some b /\ shp b = [] /\ ~ lin_wf l'.
Proof.
  split; [wfk 2%nat 3%nat|]. split; [wfk 1%nat 1%nat|]. split; [repeat split; auto|]. eexists. eexists. split; [reflexivity|]. split; [reflexivity|]. split; [reflexivity|]. intros [_ B _ _ _ _ _ _ _]. destruct B as [B _]. discriminate.
Qed.
Print Assumptions single_filter_bias_refuted.

(* a constant image is accepted like a constant vector *)
Theorem constant_image_refuted : exists c l', collapse_const k11n (Some c) = Ok l' /\ shp c = [4; 4; 1]%nat /\ ~ lin_wf l'.
Proof. exists (const [4; 4; 1]%nat 1). eexists. split; [reflexivity|]. split; [reflexivity|]. intros [_ B _ _ _ _ _ _ _]. destruct B as [B _]. discriminate. Qed.
Print Assumptions constant_image_refuted.
Example constant_vector : exists l', collapse_const k23 (Some (vec [7; 8])) = Ok l' /\ lin_val l' (1, 1)%Z (fun _ _ => 1) 1%nat (0, 0)%Z = 11.
Proof.
  destruct (const_collapsing k23 (vec [7; 8])) as (l' & E & _ & _ & H); [wfk 2%nat 3%nat|left; reflexivity|]. exists l'. split; [exact E|]. rewrite H by (cbn; lia). rcalc.
Qed.

(* ---- residual connections ---- *)
Definition r33 : lin := Lin T_conv (const [1; 1; 3; 3]%nat 1) None false 1 1 1 (1, 1)%nat (2, 2)%nat (P_num 2 2).
Example r33_collapses : exists l', collapse_residual r33 = Ok l' /\ lin_val l' (1, 1)%Z (fun _ _ => 4) 0%nat (0, 0)%Z = 8.
Proof.
  destruct (residual_collapsing r33) as (l' & E & _ & _ & H); [wfk 3%nat 3%nat|auto|reflexivity|reflexivity|cbn; lia|cbn; lia|repeat split|].
  exists l'. split; [exact E|]. destruct (H (1, 1)%Z) as [_ HV]. rewrite HV; [rcalc|cbn; lia|cbv; intuition congruence].
Qed.
(* only reuse and connections are looked at.  The output has the size of the input in the first two cases, yet another position is added *)
Definition r_dil : lin := Lin K_conv (const [2; 2; 1; 1]%nat 0) None false 1 1 1 (1, 1)%nat (2, 2)%nat P_same.
Definition r_str : lin := Lin T_conv (const [1; 1; 3; 3]%nat 0) None false 1 1 1 (2, 2)%nat (1, 1)%nat (P_num 2 2).
Definition r_val : lin := Lin K_conv (const [3; 3; 1; 1]%nat 0) None false 1 1 1 (1, 1)%nat (1, 1)%nat P_valid.
Definition r_in2 : lin := Lin K_conv (const [1; 1; 2; 1]%nat 0) None false 1 2 1 (1, 1)%nat (1, 1)%nat P_valid.
Definition r_grp : lin := Lin T_conv (const [2; 1; 1; 1]%nat 0) None false 2 2 2 (1, 1)%nat (1, 1)%nat P_valid.
Theorem residual_geometry_refuted : lin_wf r_dil /\ lin_wf r_str /\
  (exists l', collapse_residual r_dil = Ok l' /\ out_hw r_dil (3, 3)%Z = (3, 3)%Z /\ exists x, lin_val l' (3, 3)%Z x 0%nat (1, 1)%Z <> lin_val r_dil (3, 3)%Z x 0%nat (1, 1)%Z + x 0%nat (1, 1)%Z) /\
  (exists l', collapse_residual r_str = Ok l' /\ out_hw r_str (3, 3)%Z = (3, 3)%Z /\ exists x, lin_val l' (3, 3)%Z x 0%nat (0, 0)%Z <> lin_val r_str (3, 3)%Z x 0%nat (0, 0)%Z + x 0%nat (0, 0)%Z).
Proof.
  split; [wfk 2%nat 2%nat|]. split; [wfk 3%nat 3%nat|]. split; eexists; (split; [reflexivity|]); (split; [reflexivity|]).
  - exists (fun _ p => if (fst p =? 0)%Z then 1 else 0). rcalc.
  - exists (fun _ p => if (fst p =? 0)%Z then 1 else 0). rcalc.
Qed.
Print Assumptions residual_geometry_refuted.
(* an addition that repeats the output of the convolution along positions or channels is collapsed to its smaller operand;
   groups raise *)
Theorem residual_broadcast_refuted : lin_wf r_val /\ lin_wf r_in2 /\ lin_wf r_grp /\
  (exists l', collapse_residual r_val = Ok l' /\ out_hw l' (3, 3)%Z = (1, 1)%Z) /\ (exists l', collapse_residual r_in2 = Ok l' /\ l_in l' = 2%nat /\ l_out l' = 1%nat) /\ collapse_residual r_grp = Err E_index.
Proof.
  split; [wfk 3%nat 3%nat|]. split; [wfk 1%nat 1%nat|]. split; [wfk 1%nat 1%nat|]. split; [eexists; split; reflexivity|]. split; [eexists; repeat split|reflexivity].
Qed.
Print Assumptions residual_broadcast_refuted.

(* ---- graphs ---- *)
Definition res_graph (k : nat) : graph := Graph [0; 1; 2; 3]%nat [Edge 0 1 0 0; Edge 0 2 k 0; Edge 1 2 0 1; Edge 2 3 0 0] [0%nat] [(3, 0)]%nat.
Example res_graph_residual : residual (res_graph 0) 1 2 9 0 (Edge 1 2 0 1) (Edge 0 1 0 0) (Edge 0 2 0 0).
Proof.
  split; [|reflexivity|split; reflexivity|reflexivity]. split; try reflexivity; try discriminate.
  - split; [repeat constructor; cbn; intuition lia|]. cbn. intros e [<-|[<-|[<-|[<-|[]]]]]; cbn; tauto.
  - cbn. intuition lia.
  - apply perm_swap.
  - cbn. intros x [<-|[<-|[<-|[<-|[]]]]]; cbn; intro; split; congruence.
  - cbn. intuition lia.
  - cbn. intuition lia.
Qed.
Example res_graph_collapses : exists op l' g', (forall args k, op 1%nat args k = lin_op r33 args) /\ (forall args k, op 2%nat args k = add_op 1 args) /\
  collapse_residual r33 = Ok l' /\ join_residual no_check (res_graph 0) 1 2 9 0 = Ok g' /\ keeps_outputs (res_graph 0) 9 op g' (lin_op l').
Proof.
  set (op := fun n args (_ : nat) => match n with 1%nat => lin_op r33 args | 2%nat => add_op 1 args | _ => nth 0 args None end : image).
  destruct (residual_collapsing_in_graph (res_graph 0) 1 2 9 0 _ _ _ op r33 res_graph_residual) as (_ & l' & g' & H1 & H2 & H3); try reflexivity; try (intros; reflexivity).
  - cbn. intros o [<-|[]]. cbn. tauto.
  - wfk 3%nat 3%nat.
  - auto.
  - cbn; lia.
  - cbn; lia.
  - repeat split.
  - exists op, l', g'. split; [reflexivity|]. split; [reflexivity|]. split; [exact H1|]. split; [exact H2|exact H3].
Qed.
(* the node that is added must be the same, but which of its outputs is not looked at *)
Theorem residual_other_output_refuted : exists g a b p, residual_source (fun _ => false) g a b = Ok (Some p) /\
  In (Edge p a 0 0) (g_edges g) /\ In (Edge p b 1 0) (g_edges g) /\ exists g', join_residual no_check g a b 9 p = Ok g' /\ filter (fun x => Nat.eqb (src x) p) (g_edges g') = [Edge p 9 0 0].
Proof.
  exists (res_graph 1), 1%nat, 2%nat, 0%nat. split; [reflexivity|]. split; [cbn; tauto|]. split; [cbn; tauto|]. eexists. split; [reflexivity|reflexivity].
Qed.
Print Assumptions residual_other_output_refuted.
(* two convolutions in a row between an input and two readers *)
Definition two_convs : graph := Graph [0; 1; 2; 3]%nat [Edge 0 1 0 0; Edge 1 2 0 0; Edge 2 3 0 0; Edge 2 3 0 1] [0%nat] [(3, 0); (2, 0)]%nat.
Example two_convs_joinable : joinable two_convs 1 2 9 (Edge 1 2 0 0) [].
Proof.
  split; try reflexivity; try discriminate.
  - split; [repeat constructor; cbn; intuition lia|]. cbn. intros e [<-|[<-|[<-|[<-|[]]]]]; cbn; tauto.
  - cbn. intuition lia.
  - cbn. intros x [<-|[<-|[<-|[<-|[]]]]]; cbn; intro; split; congruence.
  - cbn. intuition lia.
  - cbn. intuition lia.
Qed.
