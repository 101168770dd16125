(* EqualizeExProps.v -- small instances of the theorems about equalization and counterexamples beyond their hypotheses. *)
From Coq Require Import Permutation.
From Verif Require Import LinNode LinSpec BnModel BnSpec LinGraph BnExProps CollapseExProps EqualizeModel EqualizeSpec EqualizeProps EqualizeGraphProps GraphModel GraphSpec GraphProps.

(* two Keras convolutions, two channels between them *)
Definition e1 : lin := Lin K_conv (const [1; 1; 1; 2]%nat 3) (Some (vec [1; 2])) true 1 1 2 (1, 1)%nat (1, 1)%nat P_valid.
Definition e2 : lin := Lin K_conv (const [1; 1; 2; 1]%nat 5) (Some (vec [5])) true 1 2 1 (1, 1)%nat (1, 1)%nat P_valid.
Definition half : nd := vec [/ 2; / 4].
Lemma half_pos c : (c < 2)%nat -> 0 < at_ half [c].
Proof. intro C. destruct c as [|[|c]]; [| |lia]; cbn; lra. Qed.
Example e12_equalized : exists l1 l2, update_linear_nodes e1 e2 half = Ok (l1, l2) /\ lin_val l1 (1, 1)%Z (fun _ _ => 4) 1%nat (0, 0)%Z = 7 / 2 /\ forall hw hw' x p, lin_val l2 hw' (fun c q => relu (lin_val l1 hw x c q)) 0%nat p = lin_val e2 hw' (fun c q => relu (lin_val e1 hw x c q)) 0%nat p.
Proof.
  destruct (equalization e1 e2 half) as (l1 & l2 & E & _ & _ & _ & _ & H1 & _ & H2); [wfk 1%nat 1%nat|wfk 1%nat 1%nat|reflexivity|exact I|reflexivity|reflexivity|exact half_pos|].
  exists l1, l2. split; [exact E|]. split; [rewrite H1 by (cbn; lia); rcalc|]. intros hw hw' x p. apply (H2 (fun f q => relu (f q))); [exact relu_homogeneous|cbn; lia].
Qed.

(* a ReLU with an upper bound does not commute with the factors; Keras' pass matches it (scale_equalization.py L27-34 of the Keras substitutions, ReLU without a test of max_value) *)
Definition relu6 (x : R) : R := Rmin (Rmax 0 x) 6.
Theorem bounded_relu_refuted : exists l1 l2, update_linear_nodes e1 e2 half = Ok (l1, l2) /\
  lin_val l2 (1, 1)%Z (fun c q => relu6 (lin_val l1 (1, 1)%Z (fun _ _ => 4) c q)) 0%nat (0, 0)%Z <> lin_val e2 (1, 1)%Z (fun c q => relu6 (lin_val e1 (1, 1)%Z (fun _ _ => 4) c q)) 0%nat (0, 0)%Z.
Proof.
  destruct (equalization e1 e2 half) as (l1 & l2 & E & _ & _ & _ & _ & H1 & H2 & _); [wfk 1%nat 1%nat|wfk 1%nat 1%nat|reflexivity|exact I|reflexivity|reflexivity|exact half_pos|].
  exists l1, l2. split; [exact E|].
  assert (A : forall q, q = (0, 0)%Z -> lin_val e1 (1, 1)%Z (fun _ _ => 4) 0%nat q = 13 /\ lin_val e1 (1, 1)%Z (fun _ _ => 4) 1%nat q = 14) by (intros q ->; split; rcalc).
  rewrite (H2 (1, 1)%Z (fun c q => relu6 (lin_val l1 (1, 1)%Z (fun _ _ => 4) c q) / at_ half [c])); [|cbn; lia|intros c q C; field; specialize (half_pos c C); lra].
  assert (V : forall y, lin_val e2 (1, 1)%Z y 0%nat (0, 0)%Z = 5 + 5 * (y 0%nat (0, 0)%Z + y 1%nat (0, 0)%Z)) by (intro y; rcalc).
  rewrite !V. rewrite !H1 by (cbn; lia). destruct (A (0, 0)%Z eq_refl) as [-> ->]. cbn [at_ half vec nth]. unfold relu6. replace (at_ half [0%nat]) with (/ 2) by reflexivity. replace (at_ half [1%nat]) with (/ 4) by reflexivity.
  unfold Rmin, Rmax; repeat destruct (Rle_dec _ _); lra.
Qed.
Print Assumptions bounded_relu_refuted.

(* PyTorch: the second layer is a depthwise convolution: its kernel grows to one weight per pair of channels *)
Definition e1t : lin := Lin T_conv (const [2; 1; 1; 1]%nat 3) None false 1 1 2 (1, 1)%nat (1, 1)%nat (P_num 0 0).
Definition dw2t : lin := Lin T_conv (const [2; 1; 1; 1]%nat 1) None false 2 2 2 (1, 1)%nat (1, 1)%nat (P_num 0 0).
Theorem depthwise_second_refuted : lin_wf e1t /\ lin_wf dw2t /\ exists l1 l2, update_linear_nodes e1t dw2t half = Ok (l1, l2) /\ shp (l_kernel l2) = [2; 2; 1; 1]%nat /\ ~ lin_wf l2.
Proof.
  split; [wfk 1%nat 1%nat|]. split; [wfk 1%nat 1%nat|]. eexists. eexists. split; [reflexivity|]. split; [reflexivity|]. intros [(a & b & H) _ _ _ _ _ _ _ _]. discriminate H.
Qed.
Print Assumptions depthwise_second_refuted.
(* PyTorch: the first layer is a depthwise transposed convolution *)
Definition dwT1 : lin := Lin T_convT (const [2; 1; 1; 1]%nat 1) None false 2 2 2 (1, 1)%nat (1, 1)%nat (P_num 0 0).
Theorem depthwise_transposed_first_refuted : lin_wf dwT1 /\ exists l1 l2, update_linear_nodes dwT1 dw2t half = Ok (l1, l2) /\ ~ lin_wf l1.
Proof. split; [wfk 1%nat 1%nat|]. eexists. eexists. split; [reflexivity|]. intros [(a & b & H) _ _ _ _ _ _ _ _]. discriminate H. Qed.
Print Assumptions depthwise_transposed_first_refuted.
(* Keras: the first layer is a depthwise convolution with a multiplier: an error, or a kernel of another shape *)
Definition dwm (n : nat) : lin := Lin K_dw (const [1; 1; n; 2]%nat 1) None false 1 n (n * 2)%nat (1, 1)%nat (1, 1)%nat P_valid.
Definition e4 : lin := Lin K_conv (const [1; 1; 4; 1]%nat 5) None false 1 4 1 (1, 1)%nat (1, 1)%nat P_valid.
Theorem multiplier_first_refuted : lin_wf (dwm 2) /\ lin_wf (dwm 1) /\ update_linear_nodes (dwm 2) e4 (vec [/ 2; / 2; / 2; / 2]) = Err E_value /\ exists l1 l2, update_linear_nodes (dwm 1) e2 half = Ok (l1, l2) /\ ~ lin_wf l1.
Proof. split; [wfk 1%nat 1%nat|]. split; [wfk 1%nat 1%nat|]. split; [reflexivity|]. eexists. eexists. split; [reflexivity|]. intros [(a & b & H) _ _ _ _ _ _ _ _]. discriminate H. Qed.
Print Assumptions multiplier_first_refuted.

(* the chain convolution, ReLU, zero padding, convolution in a graph *)
Definition chain_graph : graph := Graph [0; 1; 2; 3; 4]%nat [Edge 0 1 0 0; Edge 1 2 0 0; Edge 2 3 0 0; Edge 3 4 0 0]%nat [0%nat] [(4, 0)]%nat.
Definition chain_ops (inp : image) (n : nat) (args : list image) (k : nat) : image :=
  match n with 0 => inp | 1 => activated 2 (fun f => f) (lin_op e1 args) | 2 => relu_op 2 args | 3 => zeros_op 2 1 1 0 0 args | _ => activated 1 (fun f => f) (lin_op e2 args) end%nat.
Definition chain_kinds : list (nat -> bool) := [Nat.eqb 1; Nat.eqb 2; Nat.eqb 3; Nat.eqb 4].
Example chain_equalized inp : exists l1' l2', update_linear_nodes e1 e2 half = Ok (l1', l2') /\
  forall val, computes (chain_ops inp) chain_graph val -> exists val', computes (fun n args k => if Nat.eqb n 1 then activated 2 (fun f => f) (lin_op l1' args) else if Nat.eqb n 4 then activated 1 (fun f => f) (lin_op l2' args) else chain_ops inp n args k) chain_graph val' /\ outputs chain_graph val' = outputs chain_graph val.
Proof.
  apply (equalization_in_graph chain_graph chain_kinds 1 [2; 3]%nat 4 e1 e2 half (fun f => f) (fun f => f) (chain_ops inp)).
  - split; [repeat constructor; cbn; intuition lia|]. cbn. intros e [<-|[<-|[<-|[<-|[]]]]]; cbn; tauto.
  - left. reflexivity.
  - repeat constructor; cbn; intuition lia.
  - cbn. intros n [<-|[<-|[<-|[]]]]; reflexivity.
  - cbn. intros n [<-|[<-|[<-|[]]]]; intuition lia.
  - intros a f p _. reflexivity.
  - reflexivity.
  - reflexivity.
  - intros m [<-|[<-|[]]]; [exists (fun hw => hw), (fun _ f p => relu (f p))|exists (fun hw => (fst hw + 1 + 1, snd hw + 0 + 0)%Z), (fun hw f p => if inside_hw hw (fst p - 1, snd p - 0)%Z then f (fst p - 1, snd p - 0)%Z else 0)]; (split; [|reflexivity]); intro hw; [exact relu_homogeneous|apply zeros_homogeneous].
  - wfk 1%nat 1%nat.
  - wfk 1%nat 1%nat.
  - reflexivity.
  - exact I.
  - reflexivity.
  - reflexivity.
  - exact half_pos.
Qed.
(* a first layer that is an output of the model itself is matched too, and that output changes *)
Definition early_output : graph := Graph [0; 1; 2]%nat [Edge 0 1 0 0; Edge 1 2 0 0]%nat [0%nat] [(1, 0); (2, 0)]%nat.
Theorem equalized_output_refuted : In [1; 2]%nat (walk_filter early_output [Nat.eqb 1; Nat.eqb 2]) /\ exists l1' l2', update_linear_nodes e1 e2 half = Ok (l1', l2') /\
  exists inp : image, lin_op l1' [inp] <> lin_op e1 [inp] /\ forall val, computes (fun n args _ => match n with 0 => inp | 1 => lin_op l1' args | _ => lin_op l2' args end%nat) early_output val -> nth 0 (outputs early_output val) None = lin_op l1' [inp].
Proof.
  split; [left; reflexivity|]. destruct (equalization e1 e2 half) as (l1 & l2 & E & _ & _ & S1 & _ & H1 & _ & _); [wfk 1%nat 1%nat|wfk 1%nat 1%nat|reflexivity|exact I|reflexivity|reflexivity|exact half_pos|].
  exists l1, l2. split; [exact E|]. exists (Some ((1, 1)%Z, fun _ _ => 4)). split.
  - intro Q. cbn [lin_op] in Q. apply (f_equal (fun v => match v with Some (_, f) => f 0%nat (0, 0)%Z | None => 0 end)) in Q. revert Q. unfold clip. destruct S1 as (_ & _ & _ & -> & _). replace (out_hw l1 (1, 1)%Z) with (1, 1)%Z by (injection E as <- _; reflexivity). change (out_hw e1 (1, 1)%Z) with (1, 1)%Z. cbn [andb Nat.ltb Nat.leb l_out e1 inside_hw fst snd Z.leb Z.ltb Z.compare Pos.compare]. cbv [inside_hw fst snd andb Z.leb Z.ltb Z.compare].
    rewrite H1 by (cbn; lia). replace (lin_val e1 (1, 1)%Z (fun _ _ => 4) 0%nat (0, 0)%Z) with 13 by (symmetry; rcalc). replace (at_ half [0%nat]) with (/ 2) by reflexivity. lra.
  - intros val C. assert (R0 : reads early_output val 0%nat []) by (exists []; split; [constructor|split; [constructor|reflexivity]]).
    assert (R1 : reads early_output val 1%nat [val 0%nat 0%nat]) by (exists [Edge 0 1 0 0]; split; [apply Permutation_refl|split; [repeat constructor|reflexivity]]).
    cbn [outputs early_output g_out map nth fst snd]. rewrite (C 1%nat ltac:(cbn; auto) _ R1 0%nat). rewrite (C 0%nat ltac:(cbn; auto) _ R0 0%nat). reflexivity.
Qed.
Print Assumptions equalized_output_refuted.
