(* RescaleExProps.v -- small instances of the theorems about rescaled layers and counterexamples beyond their hypotheses. *)
From Coq Require Import Permutation FunctionalExtensionality.
From Verif Require Import LinNode LinSpec BnModel BnSpec LinGraph BnExProps CollapseExProps EqualizeSpec EqualizeExProps GraphModel GraphSpec GraphProps RescaleModel RescaleSpec RescaleProps.

(* a dense layer of one channel: x -> w x + b *)
Definition dn (w b : R) : lin := Lin K_dense (const [1; 1]%nat w) (Some (vec [b])) true 1 1 1 (1, 1)%nat (1, 1)%nat P_valid.
Definition dn0 (w : R) : lin := Lin K_dense (const [1; 1]%nat w) None false 1 1 1 (1, 1)%nat (1, 1)%nat P_valid.
Lemma dn_val w b hw x p : lin_val (dn w b) hw x 0%nat p = b + w * x 0%nat p.
Proof. unfold lin_val. cbn. ring. Qed.
Lemma dn0_val w hw x p : lin_val (dn0 w) hw x 0%nat p = w * x 0%nat p.
Proof. unfold lin_val. cbn. ring. Qed.
Lemma dn_wf w b : lin_wf (dn w b).
Proof. wfk 1%nat 1%nat. Qed.
Lemma six_false : pot_bound 6 = false.
Proof. destruct (pot_bound 6) eqn:Q; [apply pot_bound_exact in Q; destruct (six_not_pot Q)|reflexivity]. Qed.
Ltac dstep := unfold two_layers, bind, set_kernel; unfold lin_val; cbn.

(* ReLU6 between two layers *)
Example relu6_moved : exists l1 a l2 d, relu_bound (- 1, 1) (dn 3 1) A_relu6 (dn 2 5) = Ok (l1, a, l2, d) /\ movable A_relu6 /\ a = A_hardtanh 0 8 /\ lin_val l1 (1, 1)%Z (fun _ _ => 2) 0%nat (0, 0)%Z = 7 / (6 / 8) /\
  two_layers l1 (act_fun d a) l2 (1, 1)%Z (1, 1)%Z (fun _ _ => 2) 0%nat (0, 0)%Z = 17.
Proof.
  do 4 eexists. split; [reflexivity|]. split; [exact I|]. split; [reflexivity|]. split; [dstep; unfold relu_pot_bound; lra|].
  rewrite (relu_bound_preserves (- 1, 1) (dn 3 1) A_relu6 (dn 2 5) _ _ _ _ I eq_refl). unfold two_layers. rewrite dn_val, dn_val. cbn [act_fun]. unfold clamp. rewrite Rmin_left, Rmax_right by lra. lra.
Qed.

(* a Keras ReLU whose threshold is not 0 is changed too, and only its bound is moved (relu_bound_to_power_of_2.py L76-84 of the Keras substitutions) *)
Theorem relu_threshold_refuted : exists l1 a l2 d, relu_bound (- 1, 1) (dn 1 0) (A_relu (Some 6) 1 0) (dn 1 0) = Ok (l1, a, l2, d) /\
  two_layers l1 (act_fun d a) l2 (1, 1)%Z (1, 1)%Z (fun _ _ => 9 / 10) 0%nat (0, 0)%Z <> two_layers (dn 1 0) (act_fun (- 1, 1) (A_relu (Some 6) 1 0)) (dn 1 0) (1, 1)%Z (1, 1)%Z (fun _ _ => 9 / 10) 0%nat (0, 0)%Z.
Proof.
  cbn [relu_bound]. rewrite six_false. do 4 eexists. split; [reflexivity|]. unfold two_layers at 2. rewrite !dn_val. cbn [act_fun keras_relu]. destruct (Rle_dec 6 _); [lra|]. destruct (Rle_dec 1 _); [lra|].
  dstep. unfold relu_pot_bound. match goal with |- context [Rle_dec 8 ?z] => set (v := z); assert (V : v = 12 / 10) by (unfold v; field) end. rewrite V. destruct (Rle_dec 8 _); [lra|]. destruct (Rle_dec 1 _); lra.
Qed.
Print Assumptions relu_threshold_refuted.
(* functional.hardtanh with its bounds written as keyword arguments: the weights are rescaled but the node is called with the old bounds (PyTorch file L98-104) *)
Theorem functional_hardtanh_refuted : exists l1 a l2 d, relu_bound (- 1, 1) (dn 1 0) (A_f_hardtanh (Some 0) (Some 6) true) (dn 1 0) = Ok (l1, a, l2, d) /\
  two_layers l1 (act_fun d a) l2 (1, 1)%Z (1, 1)%Z (fun _ _ => 5) 0%nat (0, 0)%Z <> two_layers (dn 1 0) (act_fun (- 1, 1) (A_f_hardtanh (Some 0) (Some 6) true)) (dn 1 0) (1, 1)%Z (1, 1)%Z (fun _ _ => 5) 0%nat (0, 0)%Z.
Proof.
  cbn [relu_bound]. destruct (Req_EM_T 0 0); [|congruence]. rewrite six_false. do 4 eexists. split; [reflexivity|]. unfold two_layers at 2. rewrite !dn_val. cbn [act_fun opt_or]. unfold clamp at 2. rewrite Rmin_right, Rmax_right by lra.
  dstep. unfold relu_pot_bound, clamp. rewrite Rmin_left by lra. rewrite Rmax_right by lra. lra.
Qed.
Print Assumptions functional_hardtanh_refuted.
(* replacing functional.relu6 changes the default bounds of functional.hardtanh: other nodes that call it without bounds compute another function afterwards (PyTorch file L85-88) *)
Theorem hardtanh_defaults_refuted : exists l1 a l2 d, relu_bound (- 1, 1) (dn 1 0) A_f_relu6 (dn 1 0) = Ok (l1, a, l2, d) /\
  act_fun (- 1, 1) (A_f_hardtanh None None true) 5 = 1 /\ act_fun d (A_f_hardtanh None None true) 5 = 5.
Proof.
  do 4 eexists. split; [reflexivity|]. cbn [act_fun opt_or fst snd]. unfold clamp, relu_pot_bound. split; [rewrite Rmin_left, Rmax_right by lra; reflexivity|rewrite Rmin_right, Rmax_right by lra; reflexivity].
Qed.
Print Assumptions hardtanh_defaults_refuted.
(* a first layer without a bias, and functional.hardtanh without keyword arguments: the pass raises *)
Theorem relu_bound_raises_refuted : lin_wf (dn0 1) /\ relu_bound (- 1, 1) (dn0 1) A_relu6 (dn 1 0) = Err E_type /\ relu_bound (- 1, 1) (dn 1 0) (A_f_hardtanh None None false) (dn 1 0) = Err E_key.
Proof. split; [wfk 1%nat 1%nat|]. split; reflexivity. Qed.
Print Assumptions relu_bound_raises_refuted.

(* an input in [-1, 3] with threshold 4 *)
Example input_scaled : exists c l r, input_scaling (Some 4) (- 1, 3) (dn 6 1) = Ok (Some c, l, r) /\ c = 4 / 3 /\ lin_val l (1, 1)%Z (fun _ _ => 4) 0%nat (0, 0)%Z = 19.
Proof.
  assert (RE : reach (- 1, 3) = 3) by (unfold reach; cbn [fst snd]; rewrite Rabs_left, Rabs_right, Rmax_right by lra; reflexivity).
  destruct (input_scaling_preserves 4 (- 1, 3) (dn 6 1)) as (c & l & E & _ & C & _ & _ & _ & H); [cbn; lra|lra|lra|]. exists c, l. eexists. split; [exact E|]. rewrite RE in C. assert (CV : c = 4 / 3) by lra. split; [exact CV|].
  specialize (H (1, 1)%Z (fun _ _ => 3) 0%nat (0, 0)%Z). rewrite dn_val in H. rewrite CV in H. replace (4 / 3 * 3) with 4 in H by lra. rewrite H. lra.
Qed.
(* two inputs with different factors: only the last factor is kept, and it is applied to every input (gptq_training.py L393) *)
Theorem several_inputs_refuted : exists c l1 l2, scale_inputs [(Some 4, (- 2, 2), dn 1 0); (Some 4, (- 1, 1), dn 1 0)] = Ok (c, [l1; l2]) /\ c = 4 /\
  lin_val l1 (1, 1)%Z (fun _ _ => c * 1) 0%nat (0, 0)%Z <> lin_val (dn 1 0) (1, 1)%Z (fun _ _ => 1) 0%nat (0, 0)%Z.
Proof.
  unfold scale_inputs. cbn [foldM]. unfold input_scaling. cbn [fst snd]. rewrite (Rabs_left (- 2)), (Rabs_left (- 1)) by lra. rewrite !Rmax_left by lra. destruct (Rlt_dec (- - 2) 4); [|lra]. destruct (Req_EM_T (- - 2 / 4) 0); [lra|]. cbn [bind foldM]. destruct (Rlt_dec (- - 1) 4); [|lra]. destruct (Req_EM_T (- - 1 / 4) 0); [lra|]. cbn [bind foldM app].
  do 3 eexists. split; [reflexivity|]. split; [field|]. rewrite dn_val. dstep. intro Q. revert Q. replace (1 / (- - 1 / 4)) with 4 by field. lra.
Qed.
Print Assumptions several_inputs_refuted.
(* an input that was always zero: the pass raises *)
Theorem zero_input_refuted t l : 0 < t -> input_scaling (Some t) (0, 0) l = Err E_zero_div.
Proof. intro P. cbn [input_scaling fst snd]. rewrite Rabs_R0, Rmax_left by lra. destruct (Rlt_dec 0 t); [|lra]. destruct (Req_EM_T (0 / t) 0) as [|N]; [reflexivity|]. destruct N. unfold Rdiv. ring. Qed.
Print Assumptions zero_input_refuted.

Example shifted : exists l r, softmax_shift true (Some (1, 5)) (dn 2 1) = (l, Some r) /\ fst r = - 2 /\ snd r = 2 /\ lin_val l (1, 1)%Z (fun _ _ => 2) 0%nat (0, 0)%Z = 2.
Proof. do 2 eexists. split; [reflexivity|]. cbn [fst snd]. split; [lra|]. split; [lra|]. dstep. lra. Qed.
(* a layer without bias: its outputs stay where they were (use_bias is not set) but the recorded range moves, so that it no longer contains them (softmax_shift.py L64-70) *)
Theorem unbiased_shift_refuted : lin_wf (dn0 1) /\ exists l r, softmax_shift true (Some (4, 6)) (dn0 1) = (l, Some r) /\ forall x, in_range (4, 6) (lin_val (dn0 1) (1, 1)%Z x 0%nat (0, 0)%Z) -> ~ in_range r (lin_val l (1, 1)%Z x 0%nat (0, 0)%Z).
Proof.
  split; [wfk 1%nat 1%nat|]. do 2 eexists. split; [reflexivity|]. intros x A B. rewrite dn0_val in A. unfold in_range in *. cbn [fst snd] in *. revert B. dstep. lra.
Qed.
Print Assumptions unbiased_shift_refuted.
(* a layer that is an output of the model besides being read by the softmax is matched too, and that output changes *)
Theorem shifted_output_refuted : In [1; 2]%nat (walk_filter early_output [Nat.eqb 1; Nat.eqb 2]) /\ exists inp : image, exists l : lin, l = fst (softmax_shift true (Some (1, 5)) (dn 2 1)) /\ lin_op l [inp] <> lin_op (dn 2 1) [inp] /\
  forall val, computes (fun n args _ => match n with 0 => inp | 1 => lin_op l args | _ => softmax_op 1 Ax_channel args end%nat) early_output val -> nth 0 (outputs early_output val) None = lin_op l [inp].
Proof.
  split; [left; reflexivity|]. exists (Some ((1, 1)%Z, fun _ _ => 2)). eexists. split; [reflexivity|]. split.
  - intro Q. apply (f_equal (fun v => match v with Some (_, f) => f 0%nat (0, 0)%Z | None => 0 end)) in Q. revert Q. cbn [lin_op]. unfold clip. change (out_hw (fst (softmax_shift true (Some (1, 5)) (dn 2 1))) (1, 1)%Z) with (1, 1)%Z. change (out_hw (dn 2 1) (1, 1)%Z) with (1, 1)%Z. cbn [softmax_shift fst set_weights l_out dn Nat.ltb Nat.leb andb]. cbv [inside_hw fst snd andb Z.leb Z.ltb Z.compare]. dstep. lra.
  - intros val C. assert (R0 : reads early_output val 0%nat []) by (exists []; split; [constructor|split; [constructor|reflexivity]]).
    assert (R1 : reads early_output val 1%nat [val 0%nat 0%nat]) by (exists [Edge 0 1 0 0]; split; [apply Permutation_refl|split; [repeat constructor|reflexivity]]).
    cbn [outputs early_output g_out map nth fst snd]. rewrite (C 1%nat ltac:(cbn; auto) _ R1 0%nat). rewrite (C 0%nat ltac:(cbn; auto) _ R0 0%nat). reflexivity.
Qed.
Print Assumptions shifted_output_refuted.

(* the hypotheses of the theorems about whole models can be met: input, layer, ReLU6, layer *)
Definition line4 : graph := Graph [0; 1; 2; 3]%nat [Edge 0 1 0 0; Edge 1 2 0 0; Edge 2 3 0 0]%nat [0%nat] [(3, 0)]%nat.
Lemma line4_wf : wf line4.
Proof. split; [repeat constructor; cbn; intuition lia|]. cbn. intros e [<-|[<-|[<-|[]]]]; cbn; tauto. Qed.
Definition line_ops (inp : image) (n : nat) (args : list image) (_ : nat) : image :=
  match n with 0%nat => inp | 1%nat => lin_op (dn 3 1) args | 2%nat => entry_op 1 (act_fun (- 1, 1) A_relu6) args | _ => lin_op (dn 2 5) args end.
Example relu6_in_graph inp val : computes (line_ops inp) line4 val -> exists l1 a l2 d val', relu_bound (- 1, 1) (dn 3 1) A_relu6 (dn 2 5) = Ok (l1, a, l2, d) /\
  computes (fun n args k => if Nat.eqb n 1 then lin_op l1 args else if Nat.eqb n 2 then entry_op 1 (act_fun d a) args else if Nat.eqb n 3 then lin_op l2 args else line_ops inp n args k) line4 val' /\ outputs line4 val' = outputs line4 val.
Proof.
  intro C. destruct (relu_bound (- 1, 1) (dn 3 1) A_relu6 (dn 2 5)) as [[[[l1 a] l2] d]|] eqn:E; [|discriminate E]. exists l1, a, l2, d.
  destruct (relu_bound_in_graph line4 [Nat.eqb 1; Nat.eqb 2; Nat.eqb 3] 1 2 3 (- 1, 1) (dn 3 1) A_relu6 (dn 2 5) l1 a l2 d (line_ops inp)) with (val := val) as (val' & C' & O'); try reflexivity; try exact C; try exact E; try exact I.
  - exact line4_wf.
  - left. reflexivity.
  - repeat constructor; cbn; intuition lia.
  - cbn. intuition lia.
  - cbn. intuition lia.
  - exists val'. split; [reflexivity|]. split; [exact C'|exact O'].
Qed.
Example input_in_graph inp val : computes (line_ops inp) line4 val -> exists c l r val', input_scaling (Some 4) (- 1, 3) (dn 3 1) = Ok (Some c, l, r) /\
  computes (fun n args k => if Nat.eqb n 0 then scale_image (fun _ => c) inp else if Nat.eqb n 1 then lin_op l args else line_ops inp n args k) line4 val' /\ outputs line4 val' = outputs line4 val.
Proof.
  intro C. assert (RE : reach (- 1, 3) = 3) by (unfold reach; cbn [fst snd]; rewrite Rabs_left, Rabs_right, Rmax_right by lra; reflexivity).
  destruct (input_scaling_in_graph line4 [Nat.eqb 0; Nat.eqb 1] 0 [] 1 4 (- 1, 3) (dn 3 1) inp (line_ops inp)) as (c & l & r & E & H).
  - exact line4_wf.
  - left. reflexivity.
  - repeat constructor; cbn; intuition lia.
  - intros n [<-|[]]. reflexivity.
  - intros n [<-|[]]. cbn. intuition lia.
  - reflexivity.
  - reflexivity.
  - intros m [].
  - cbn. lra.
  - lra.
  - lra.
  - destruct (H val C) as (val' & C' & O'). exists c, l, r, val'. auto.
Qed.
