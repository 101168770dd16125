(* SncExProps.v -- C40: small instances, and what the pass does outside the hypotheses of the theorems. *)
From Coq Require Import Permutation.
From Verif Require Import LinNode LinSpec BnModel BnSpec BnExProps CollapseExProps LinGraph GraphModel GraphSpec GraphProps EqualizeSpec EqualizeGraphProps SncModel SncSpec SncProofs SncProps SncGraphProofs SncGraphProps.
Open Scope R_scope.

(* a convolution of two rows with 'same' padding, in the graph input, activation, reshaping, convolution *)
Definition c21 : lin := Lin K_conv (const [2; 1; 1; 1]%nat 1) (Some (vec [3])) true 1 1 1 (1, 1)%nat (1, 1)%nat P_same.
Definition snc_g : graph := Graph [0; 1; 2]%nat [Edge 0 1 0 0; Edge 1 2 0 0]%nat [0%nat] [(2, 0)]%nat.
Definition same_place (args : list image) : image := average_op 1 (fun hw => hw) (fun _ c p => [(1, (c, p))]) args.
Definition snc_ops (x : tensor) (n : nat) (args : list image) (k : nat) : image :=
  match n with 0 => Some ((2, 1)%Z, x) | 1 => same_place args | _ => activated 1 (fun f => f) (lin_op c21 args) end%nat.
Lemma snc_g_wf : wf snc_g.
Proof. split; [repeat constructor; cbn; intuition lia|]. cbn. intros e [<-|[<-|[]]]; cbn; tauto. Qed.
Example snc_ex x s val : computes (snc_ops x) snc_g val -> exists l' d, correct_layer c21 (2, 1)%Z (2, 1)%Z None s = Ok (l', d) /\ d = Some (Pads 0 1 0 0) /\
  exists g', snc_graph no_check snc_g 0 2 8 None (Some 9%nat) = Ok g' /\ exists val', computes (snc_op (snc_ops x) 0 2 8 9 1 l' d s (fun f => f)) g' val' /\ outputs g' val' = outputs snc_g val.
Proof.
  intro C. destruct (snc_in_graph no_check snc_g 0 [1%nat] 2 8 9 c21 (2, 1)%Z s (fun f => f) (fun _ => 1%nat) (snc_ops x) val) as (l' & d & E & (g' & G) & H).
  - exact snc_g_wf.
  - cbn. split; [exists (Edge 0 1 0 0); cbn; auto|]. split; [exists (Edge 1 2 0 0); cbn; auto|exact I].
  - repeat constructor; cbn; intuition lia.
  - cbn. intros n [<-|[<-|[]]]; reflexivity.
  - cbn. intros n [<-|[<-|[]]]; reflexivity.
  - cbn. intros o [<-|[]]. cbn. tauto.
  - cbn. intros n [<-|[]]. intuition lia.
  - cbn. intuition lia.
  - cbn. intuition lia.
  - lia.
  - reflexivity.
  - intros a m v k _ _ [<-|[]]. cbn [snc_ops]. apply average_commutes.
    + intros hw c p w c' q Hc Hp [Q|[]]. injection Q as <- <- <-. auto.
    + intros. cbn. ring.
  - exact C.
  - intros e [<-|[<-|[]]] Q; try discriminate. split; [reflexivity|]. cbn [src si]. assert (R1 : reads snc_g val 1%nat [val 0%nat 0%nat]) by (exists [Edge 0 1 0 0]; split; [apply Permutation_refl|split; [repeat constructor|reflexivity]]). assert (R0 : reads snc_g val 0%nat []) by (exists []; split; [constructor|split; [constructor|reflexivity]]).
    rewrite (C 1%nat ltac:(cbn; auto) _ R1 0%nat), (C 0%nat ltac:(cbn; auto) _ R0 0%nat). cbn. eexists. reflexivity.
  - wfk 2%nat 1%nat.
  - reflexivity.
  - split; cbn; lia.
  - cbn; lia.
  - cbn; lia.
  - cbn. split; [reflexivity|]. left. vm_compute. split; discriminate.
  - exists l', d. split; [exact E|]. assert (D : d = Some (Pads 0 1 0 0)) by (injection E as _ <-; reflexivity). split; [exact D|]. rewrite D in *. cbn [pad_name] in *. exists g'. split; [exact G|]. apply (H g' G).
Qed.
(* zero padding in front of a convolution *)
Definition c11 : lin := Lin K_dw (const [1; 1; 1; 1]%nat 2) None false 1 1 1 (1, 1)%nat (1, 1)%nat P_valid.
Example zero_ex s : exists l' d, correct_layer c11 (3, 2)%Z (3, 2)%Z (Some (Pads 1 1 0 1)) s = Ok (l', d) /\ d = Some (Pads 1 1 0 1) /\
  forall x, lin_val l' (3, 2)%Z (pad_val (Pads 1 1 0 1) s (1, 1)%Z (fun c p => x c p + s)) 0%nat (0, 0)%Z = 0.
Proof.
  destruct (snc_zero_padding c11 (1, 1)%Z (Pads 1 1 0 1) s) as (l' & d & E & _ & _ & _ & _ & _ & DZ & _ & H); [wfk 1%nat 1%nat|auto|split; cbn; lia|reflexivity|unfold nonneg; cbn; lia|].
  exists l', d. split; [exact E|]. destruct DZ as [->|[_ Q]]; [|discriminate Q]. split; [reflexivity|]. intro x. specialize (H x (fun c p => x c p + s) 0%nat (0, 0)%Z). cbn [hw_of val_of] in H. change (pad_hw (Pads 1 1 0 1) (1, 1)%Z) with (3, 2)%Z in H. rewrite H; [rcalc|cbn; lia|cbv; intuition congruence|reflexivity].
Qed.

(* dilation is not part of the computed padding: the output of the layer has another extent *)
Definition c_dil : lin := Lin K_conv (const [2; 1; 1; 1]%nat 1) None false 1 1 1 (1, 1)%nat (2, 1)%nat P_same.
Theorem dilated_same_padding_refuted : lin_wf c_dil /\ exists l' d, correct_layer c_dil (2, 1)%Z (out_hw c_dil (2, 1)%Z) None 1 = Ok (l', d) /\ out_hw c_dil (2, 1)%Z = (2, 1)%Z /\ out_hw l' (hw_of d (2, 1)%Z) = (1, 1)%Z.
Proof. split; [wfk 2%nat 1%nat|]. eexists. eexists. split; [reflexivity|]. split; reflexivity. Qed.
Print Assumptions dilated_same_padding_refuted.
(* a stride larger than the kernel in one direction hides the padding of the other: the sum of the four numbers is tested *)
Definition c_str (k : nat) : lin := Lin K_conv (const [1; k; 1; 1]%nat 1) None false 1 1 1 (3, 1)%nat (1, 1)%nat P_same.
Theorem strided_same_padding_refuted : lin_wf (c_str 2) /\ lin_wf (c_str 4) /\
  (exists l', correct_layer (c_str 2) (3, 2)%Z (out_hw (c_str 2) (3, 2)%Z) None 1 = Ok (l', None) /\ out_hw (c_str 2) (3, 2)%Z = (1, 2)%Z /\ out_hw l' (3, 2)%Z = (1, 1)%Z) /\
  (exists l' d, correct_layer (c_str 4) (3, 4)%Z (out_hw (c_str 4) (3, 4)%Z) None 1 = Ok (l', Some d) /\ p_top d = (-1)%Z).
Proof.
  split; [wfk 1%nat 2%nat|]. split; [wfk 1%nat 4%nat|]. split; [eexists; split; [reflexivity|]; split; reflexivity|]. eexists. eexists. split; reflexivity.
Qed.
Print Assumptions strided_same_padding_refuted.
(* PyTorch padding='same' stays, and adds zeros to the shifted image *)
Definition t_same : lin := Lin T_conv (const [1; 1; 2; 1]%nat 1) None false 1 1 1 (1, 1)%nat (1, 1)%nat P_same.
Theorem string_padding_refuted : lin_wf t_same /\ exists l', correct_layer t_same (1, 1)%Z (out_hw t_same (1, 1)%Z) None 1 = Ok (l', None) /\ pos_in (out_hw t_same (1, 1)%Z) (0, 0)%Z /\
  lin_val l' (1, 1)%Z (fun _ _ => 0 + 1) 0%nat (0, 0)%Z <> lin_val t_same (1, 1)%Z (fun _ _ => 0) 0%nat (0, 0)%Z.
Proof. split; [wfk 2%nat 1%nat|]. eexists. split; [reflexivity|]. split; [cbv; intuition congruence|]. rcalc. Qed.
Print Assumptions string_padding_refuted.
(* PyTorch ZeroPad2d: an exception *)
Theorem torch_zero_padding_refuted : exists l, lin_wf l /\ l_kind l = T_conv /\ forall hw ohw z s, correct_layer l hw ohw (Some z) s = Err E_type.
Proof. exists t11. split; [wfk 1%nat 1%nat|]. split; reflexivity. Qed.
Print Assumptions torch_zero_padding_refuted.
(* zero padding and another node before the layer: the search accepts the chain, the edit raises *)
Definition snc_zg : graph := Graph [0; 1; 2; 3]%nat [Edge 0 1 0 0; Edge 1 2 0 0; Edge 2 3 0 0]%nat [0%nat] [(3, 0)]%nat.
Theorem zero_padding_behind_node_refuted : next_to_correct (Nat.eqb 3) (Nat.eqb 1) (Nat.eqb 2) (fun _ _ => false) snc_zg 9 0 None [] = Ok (Some (3, Some 2, [1]))%nat /\ snc_graph no_check snc_zg 0 3 8 (Some 2%nat) (Some 9%nat) = Err E_attr.
Proof. split; reflexivity. Qed.
Print Assumptions zero_padding_behind_node_refuted.
(* a bypassed node that is an output of the model: the output is shifted *)
Definition snc_og : graph := Graph [0; 1; 2]%nat [Edge 0 1 0 0; Edge 1 2 0 0]%nat [0%nat] [(1, 0); (2, 0)]%nat.
Theorem bypassed_output_refuted : next_to_correct (Nat.eqb 2) (Nat.eqb 1) (fun _ => false) (fun _ _ => false) snc_og 9 0 None [] = Ok (Some (2, None, [1]))%nat /\
  exists g' l', snc_graph no_check snc_og 0 2 8 None None = Ok g' /\ correct_layer c11 (1, 1)%Z (1, 1)%Z None 1 = Ok (l', None) /\
  exists x : tensor, forall val val', computes (fun n args _ => match n with 0 => Some ((1, 1)%Z, x) | 1 => same_place args | _ => activated 1 (fun f => f) (lin_op c11 args) end%nat) snc_og val ->
    computes (snc_op (fun n args _ => match n with 0 => Some ((1, 1)%Z, x) | 1 => same_place args | _ => activated 1 (fun f => f) (lin_op c11 args) end%nat) 0 2 8 9 1 l' None 1 (fun f => f)) g' val' -> outputs g' val' <> outputs snc_og val.
Proof.
  split; [reflexivity|]. eexists. eexists. split; [reflexivity|]. split; [reflexivity|]. exists (fun _ _ => 0). intros val val' C C' Q. cbn in Q. apply (f_equal (fun l => nth 0 l None)) in Q. cbn in Q.
  match type of C' with computes _ ?gg _ => set (g' := gg) in * end.
  assert (R0 : reads snc_og val 0%nat []) by (exists []; split; [constructor|split; [constructor|reflexivity]]). assert (R1 : reads snc_og val 1%nat [val 0%nat 0%nat]) by (exists [Edge 0 1 0 0]; split; [apply Permutation_refl|split; [repeat constructor|reflexivity]]).
  assert (S0 : reads g' val' 0%nat []) by (exists []; split; [constructor|split; [constructor|reflexivity]]). assert (S8 : reads g' val' 8%nat [val' 0%nat 0%nat]) by (exists [Edge 0 8 0 0]; split; [apply Permutation_refl|split; [repeat constructor|reflexivity]]). assert (S1 : reads g' val' 1%nat [val' 8%nat 0%nat]) by (exists [Edge 8 1 0 0]; split; [apply Permutation_refl|split; [repeat constructor|reflexivity]]).
  rewrite (C 1%nat ltac:(cbn; auto) _ R1 0%nat), (C 0%nat ltac:(cbn; auto) _ R0 0%nat) in Q. rewrite (C' 1%nat ltac:(cbn; auto) _ S1 0%nat), (C' 8%nat ltac:(cbn; auto) _ S8 0%nat), (C' 0%nat ltac:(cbn; auto) _ S0 0%nat) in Q.
  cbn in Q. apply (f_equal (fun v => match v with Some (_, f) => f 0%nat (0, 0)%Z | None => 0 end)) in Q. cbv -[Rplus Rmult IZR] in Q. lra.
Qed.
Print Assumptions bypassed_output_refuted.
(* averages over padded positions do not commute with the shift *)
Theorem padded_average_refuted : exists v s, average_op 1 (fun hw => hw) (fun _ c p => [(1 / 2, (c, p))]) [add_op 1 s v] <> add_op 1 s (average_op 1 (fun hw => hw) (fun _ c p => [(1 / 2, (c, p))]) [v]).
Proof.
  exists (Some ((1, 1)%Z, fun _ _ => 0)), 1. intro Q. cbn in Q. apply (f_equal (fun v => match v with Some (_, f) => f 0%nat (0, 0)%Z | None => 0 end)) in Q. cbv -[Rplus Rmult IZR Rdiv] in Q. lra.
Qed.
Print Assumptions padded_average_refuted.
