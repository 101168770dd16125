(* BnExProps.v -- small instances of the theorems of BnProps.v and counterexamples beyond their hypotheses. *)
From Verif Require Import LinNode LinSpec BnModel BnSpec BnProps.

Definition vec (l : list R) : nd := Nd [length l] (fun i => nth (nth 0 i 0%nat) l 0).
Definition const (s : list nat) (c : R) : nd := Nd s (fun _ => c).
Definition bn2 (g0 g1 : R) : bn := Bn (Some (vec [g0; g1])) (Some (vec [0; 0])) (vec [0; 0]) (vec [1; 1]) 0.
Lemma bn2_wf g0 g1 : bn_wf 2 (bn2 g0 g1).
Proof. constructor; try reflexivity. intros [|[|c]] L; cbn; try lia; lra. Qed.
Definition bn1 (beta : R) : bn := Bn (Some (vec [1])) (Some (vec [beta])) (vec [0]) (vec [1]) 0.
Lemma bn1_wf beta : bn_wf 1 (bn1 beta).
Proof. constructor; try reflexivity. intros [|c] L; cbn; try lia; lra. Qed.
Lemma sqrt10 : sqrt (1 + 0) = 1.
Proof. rewrite Rplus_0_r. apply sqrt_1. Qed.
Ltac rcalc := cbv -[Rplus Rmult Rminus Ropp Rinv sqrt IZR Rdiv not Rlt]; rewrite ?sqrt10, ?sqrt_1; try lra.
Ltac wf := constructor; cbn; try (exists 1%nat, 1%nat; reflexivity); try lia; try exact I; try (intro; discriminate); try reflexivity; auto.

(* a convolution with groups satisfies the hypotheses *)
Definition conv_g : lin := Lin T_conv (const [2; 1; 1; 1]%nat 3) None false 2 2 2 (2, 2)%nat (1, 1)%nat (P_num 1 1).
Example conv_g_folds : exists l', fold_bn conv_g (bn2 5 7) = Ok l' /\ lin_val l' (4, 4)%Z (fun i _ => INR i) 1%nat (1, 1)%Z = 21.
Proof.
  destruct (bn_folding conv_g (bn2 5 7)) as (l' & E & _ & _ & H); [wf|reflexivity|intro; discriminate|apply bn2_wf|]. exists l'. split; [exact E|]. rewrite H by (cbn; lia). rcalc.
Qed.

(* a transposed convolution with groups of two input channels: rows of the kernel are scaled by the channel of another group *)
Definition convT_g : lin := Lin T_convT (const [4; 1; 1; 1]%nat 1) None false 2 4 2 (1, 1)%nat (1, 1)%nat P_valid.
Theorem grouped_transposed_folding_refuted : lin_wf convT_g /\ bn_wf 2 (bn2 1 2) /\ exists l', fold_bn convT_g (bn2 1 2) = Ok l' /\
  exists x, lin_val l' (1, 1)%Z x 0%nat (0, 0)%Z <> bn_val (bn2 1 2) (lin_val convT_g (1, 1)%Z x) 0%nat (0, 0)%Z.
Proof. split; [wf|]. split; [apply bn2_wf|]. eexists. split; [reflexivity|]. exists (fun i _ => if Nat.eqb i 1 then 1 else 0). rcalc. Qed.
Print Assumptions grouped_transposed_folding_refuted.

(* zero padding is not looked at: padded positions get the shift *)
Definition conv_p : lin := Lin T_conv (const [1; 1; 1; 1]%nat 1) None false 1 1 1 (1, 1)%nat (1, 1)%nat (P_num 1 1).
Theorem padded_forward_folding_refuted : lin_wf conv_p /\ bn_wf 1 (bn1 1) /\ exists l', forward_fold (F_bn (bn1 1)) conv_p = Ok (Some l') /\ pos_in (out_hw conv_p (1, 1)%Z) (0, 0)%Z /\
  exists x, lin_val l' (1, 1)%Z x 0%nat (0, 0)%Z <> lin_val conv_p (1, 1)%Z (bn_val (bn1 1) x) 0%nat (0, 0)%Z.
Proof. split; [wf|]. split; [apply bn1_wf|]. eexists. split; [reflexivity|]. split; [cbv; intuition congruence|]. exists (fun _ _ => 0). rcalc. Qed.
Print Assumptions padded_forward_folding_refuted.

(* neither is the stride of a transposed convolution *)
Definition convT_s : lin := Lin K_convT (const [1; 1; 1; 1]%nat 1) None false 1 1 1 (2, 2)%nat (1, 1)%nat P_valid.
Theorem strided_transposed_forward_folding_refuted : lin_wf convT_s /\ bn_wf 1 (bn1 1) /\ exists l', forward_fold (F_bn (bn1 1)) convT_s = Ok (Some l') /\ pos_in (out_hw convT_s (1, 1)%Z) (1, 1)%Z /\
  exists x, lin_val l' (1, 1)%Z x 0%nat (1, 1)%Z <> lin_val convT_s (1, 1)%Z (bn_val (bn1 1) x) 0%nat (1, 1)%Z.
Proof. split; [wf|]. split; [apply bn1_wf|]. eexists. split; [reflexivity|]. split; [cbv; intuition congruence|]. exists (fun _ _ => 0). rcalc. Qed.
Print Assumptions strided_transposed_forward_folding_refuted.

(* a depthwise transposed convolution: every output gets the shifts of all inputs *)
Definition convT_d : lin := Lin T_convT (const [2; 1; 1; 1]%nat 1) None false 2 2 2 (1, 1)%nat (1, 1)%nat P_valid.
Definition bn_b : bn := Bn None (Some (vec [0; 1])) (vec [0; 0]) (vec [1; 1]) 0.
Theorem depthwise_transposed_forward_folding_refuted : lin_wf convT_d /\ bn_wf 2 bn_b /\ exists l', forward_fold (F_bn bn_b) convT_d = Ok (Some l') /\
  (~ lin_wf l') /\ exists b, l_bias l' = Some b /\ shp b = [1%nat] /\ at_ b [0%nat] = 1.
Proof.
  split; [wf|]. split; [constructor; try reflexivity; try exact I; intros [|[|c]] L; cbn; try lia; lra|]. eexists. split; [reflexivity|]. split.
  - intros [_ B _ _ _ _ _ _ _]. cbn in B. destruct B as [B _]. discriminate.
  - eexists. split; [reflexivity|]. split; [reflexivity|]. rcalc.
Qed.
Print Assumptions depthwise_transposed_forward_folding_refuted.

(* a depthwise convolution with two outputs per input: an error instead of a folding *)
Theorem multiplier_forward_folding_refuted : exists l b, lin_wf l /\ bn_wf (l_in l) b /\ ksize l = (1, 1)%nat /\ is_group_conv l = false /\ forward_fold (F_bn b) l = Err E_value.
Proof. exists (Lin T_conv (const [4; 1; 1; 1]%nat 1) None false 2 2 4 (1, 1)%nat (1, 1)%nat P_valid), (bn2 1 2). split; [wf|]. split; [apply bn2_wf|]. repeat split. Qed.
Print Assumptions multiplier_forward_folding_refuted.

(* the stride of a folded depthwise convolution is lost *)
Definition dw_s : lin := Lin K_dw (const [1; 1; 1; 1]%nat 1) None false 1 1 1 (2, 2)%nat (1, 1)%nat P_valid.
Definition conv_1 : lin := Lin K_conv (const [1; 1; 1; 1]%nat 1) None false 1 1 1 (1, 1)%nat (1, 1)%nat P_valid.
Theorem strided_depthwise_forward_folding_refuted : lin_wf dw_s /\ lin_wf conv_1 /\ exists l', forward_fold (F_dw dw_s) conv_1 = Ok (Some l') /\
  out_hw l' (4, 4)%Z = (4, 4)%Z /\ out_hw conv_1 (out_hw dw_s (4, 4)%Z) = (2, 2)%Z.
Proof. split; [wf|]. split; [wf|]. eexists. split; [reflexivity|]. split; reflexivity. Qed.
Print Assumptions strided_depthwise_forward_folding_refuted.
Example conv_1_folds : exists l', forward_fold (F_bn (bn1 5)) conv_1 = Ok (Some l') /\ lin_val l' (2, 2)%Z (fun _ _ => 2) 0%nat (1, 1)%Z = 7.
Proof.
  destruct (forward_folding_everywhere conv_1 (bn1 5)) as (l' & E & H); [wf|reflexivity|reflexivity|apply bn1_wf| |].
  - split; [left; reflexivity|]. cbn. repeat split; try lia; try (intro; discriminate).
  - exists l'. split; [exact E|]. rewrite H; [|cbn; lia|cbv; intuition congruence]. rcalc.
Qed.

(* refusing: a convolution without bias raises; a channel multiplier makes the new thresholds fail; a negative scale makes them negative *)
Theorem refusing_without_bias_refuted : lin_wf conv_1 /\ bn_wf 1 (bn1 1) /\ refuse conv_1 (bn1 1) = Err E_type.
Proof. split; [wf|]. split; [apply bn1_wf|reflexivity]. Qed.
Print Assumptions refusing_without_bias_refuted.
Definition dw_m : lin := Lin K_dw (const [1; 1; 1; 2]%nat 1) (Some (vec [0; 0])) true 1 1 2 (1, 1)%nat (1, 1)%nat P_valid.
Theorem multiplier_threshold_refuted : lin_wf dw_m /\ bn_wf 2 (bn2 1 2) /\ (exists l', refuse dw_m (bn2 1 2) = Ok l') /\ refuse_threshold dw_m (const [1; 1; 1; 1]%nat 1) (vec [1; 2]) = Err E_value.
Proof. split; [wf|]. split; [apply bn2_wf|]. split; [eexists; reflexivity|reflexivity]. Qed.
Print Assumptions multiplier_threshold_refuted.
Theorem negative_threshold_refuted : exists t', refuse_threshold conv_1 (const [1; 1; 1; 1]%nat 1) (vec [-1]) = Ok t' /\ at_ t' [0; 0; 0; 0]%nat < 0.
Proof. eexists. split; [reflexivity|]. rcalc. Qed.
Print Assumptions negative_threshold_refuted.
