(* ActBiasExProps.v -- instances of C76, and inputs for which the correction does not restore the average. *)
From Verif Require Import LinNode LinSpec BnModel BnSpec BnProofs BnExProps CollapseExProps LinProofs BiasModel BiasSpec BiasProofs ActBiasModel ActBiasSpec ActBiasProofs ActBiasProps.
Open Scope R_scope.

(* a quantizer with two values *)
Definition q01 (x : R) : R := if Rlt_dec x (1/2) then 0 else 1.
Ltac q01c := unfold q01; repeat (destruct (Rlt_dec _ _); [|]); try lra.
Lemma q01_lo x : x < 1/2 -> q01 x = 0.
Proof. intro. unfold q01. destruct (Rlt_dec x (1/2)); lra. Qed.
Lemma q01_hi x : 1/2 <= x -> q01 x = 1.
Proof. intro. unfold q01. destruct (Rlt_dec x (1/2)); lra. Qed.
Example q01_monotone : monotone q01.
Proof. intros x y L. unfold q01. destruct (Rlt_dec x (1/2)), (Rlt_dec y (1/2)); lra. Qed.
Definition at1 (x : R) : sample := Sample (1, 1)%Z (fun _ _ => x) (0, 0)%Z.
(* a fully connected layer with n inputs *)
Definition lin1 (k : nd) (n : nat) : lin := Lin T_linear k None false 1 n 1 (1, 1)%nat (1, 1)%nat (P_num 0 0).

(* bins [0, 1/4], [1/4, 3/4]: estimate of the shift, and the layer corrected by it *)
Example shift_ex : mean_shift q01 [0; 1/4; 3/4] [1; 3] = 0 - 1/32.
Proof. unfold mean_shift, weighted_mean, bin_centers. cbn [map tl combine fst snd lsum fold_right]. rewrite (q01_lo 0), (q01_lo (1/4)), (q01_hi (3/4)) by lra. field. Qed.
Example histogram_ex : histogram_of [0; 1/4; 3/4] [1; 2] [[1/8]; [1/3; 1/3]].
Proof.
  apply (H_bin 0 (1/4) [3/4] [2] [1/8] [[1/3; 1/3]]); [lra|repeat constructor; lra|]. replace 2 with (INR (length [1/3; 1/3])) by (cbn; lra). apply H_bin; [lra|repeat constructor; lra|constructor].
Qed.
Definition ab_l : lin := lin1 (const [1; 1]%nat 2) 1.
Example activation_correction_ex : exists l', apply_act true ab_l (Some (act_term T_linear (l_kernel ab_l) (1/4))) = Ok l' /\ average [at1 (3/4)] (fun s => output l' 0 (quantized q01 s)) = 3/2.
Proof.
  destruct (activation_correction_residual ab_l q01 (1/4)) as (l' & A & _); [wf|intro; discriminate|]. exists l'. split; [exact A|].
  rewrite (activation_correction_cancels ab_l q01 (1/4) l' [at1 (3/4)] 0); [|wf|intro; discriminate|exact A|discriminate|cbn; lia|].
  - unfold average, total, output. cbn [map fold_right]. rcalc.
  - cbn [ksize fst snd ab_l lin1 l_kind l_kernel shp const l_in]. intros [|h] [|w] [|i] Hh Hw Hi; try lia. unfold shift, average, total, reads_through, quantized. cbn. rewrite q01_hi by lra. lra.
Qed.
(* a graph: a quantized node, a preserving node, a fully connected layer *)
Definition ab_g : list anode :=
  [ANode false [] M_quant (Some q01) (Some ([0; 1], [2])) KS_none T_linear None;
   ANode false [0%nat] M_preserve None None KS_none T_linear None;
   ANode true [1%nat] M_quant (Some q01) None KS_none T_linear (Some (const [1; 1]%nat 1))].
Lemma ab_g_terms : act_corrections 0 ab_g = Ok [None; None; Some (act_term T_linear (const [1; 1]%nat 1) (mean_shift q01 [0; 1] [2]))].
Proof.
  unfold act_corrections, ab_g. cbn -[mean_shift weighted_mean lsum Req_EM_T below_threshold act_term]. destruct (Req_EM_T (lsum [2]) 0) as [E|E]; [exfalso; cbn in E; lra|]. cbn -[mean_shift weighted_mean lsum Req_EM_T below_threshold act_term].
  unfold below_threshold. destruct (Req_EM_T _ _); cbn [bind]; [reflexivity|]. destruct (Rlt_dec _ _) as [L|L]; [|reflexivity]. exfalso. set (m := weighted_mean _ _) in *. assert (P : 0 < Rabs m) by (apply Rabs_pos_lt; assumption). apply (Rmult_lt_compat_r _ _ _ P) in L. unfold Rdiv in L. rewrite Rmult_assoc, Rinv_l, Rmult_1_r in L by lra. pose proof (Rabs_pos (mean_shift q01 [0; 1] [2])). lra.
Qed.
Example ab_g_corrected : corrected_for 0 ab_g (nth 2 ab_g (ANode false [] M_none None None KS_none T_linear None)) (const [1; 1]%nat 1) (mean_shift q01 [0; 1] [2]).
Proof.
  split; [reflexivity|]. split; [left; reflexivity|]. split; [reflexivity|]. exists 1%nat, (nth 0 ab_g (ANode false [] M_none None None KS_none T_linear None)), q01, [0; 1], [2]. split; [reflexivity|].
  split. { apply (P_through ab_g 1 0 (nth 1 ab_g (ANode false [] M_none None None KS_none T_linear None))); try reflexivity. apply P_here; [reflexivity|discriminate]. }
  split; [reflexivity|]. split; [reflexivity|]. split; [reflexivity|]. split; [reflexivity|]. right. rewrite Rmult_0_l. pose proof (Rabs_pos (mean_shift q01 [0; 1] [2])). lra.
Qed.
Lemma shift01 : mean_shift q01 [0; 1] [2] = 0.
Proof. unfold mean_shift, weighted_mean, bin_centers. cbn [map tl combine fst snd lsum fold_right]. rewrite (q01_lo 0), (q01_hi 1) by lra. field. Qed.

(* FINDING (compute_activation_bias_correction_of_graph.py L102-144): one shift, that of the whole tensor, is used for all
   input channels.  Two channels that move in opposite directions: the estimated shift is zero and the error stays *)
Definition two_ch : sample := Sample (1, 1)%Z (fun i _ => match i with O => 1/4 | _ => 3/4 end) (0, 0)%Z.
Definition ab_two : lin := lin1 (Nd [1; 2]%nat (fun i => match nth 1 i 0%nat with O => 1 | _ => -1 end)) 2.
Theorem channel_shift_refuted : lin_wf ab_two /\ histogram_of [0; 1] [2] [[1/4; 3/4]] /\ exists l', apply_act true ab_two (Some (act_term T_linear (l_kernel ab_two) (mean_shift q01 [0; 1] [2]))) = Ok l' /\
  average [two_ch] (output ab_two 0) = - (1/2) /\ average [two_ch] (fun s => output l' 0 (quantized q01 s)) = -1.
Proof.
  split; [wf|]. split. { replace 2 with (INR (length [1/4; 3/4])) by (cbn; lra). apply H_bin; [lra|repeat constructor; lra|constructor]. }
  assert (W : lin_wf ab_two) by wf. destruct (activation_correction_residual ab_two q01 (mean_shift q01 [0; 1] [2]) W) as (l' & A & _ & _ & R); [intro; discriminate|]. exists l'. split; [exact A|].
  assert (E : average [two_ch] (output ab_two 0) = - (1/2)) by (unfold average, total, output; cbn [map fold_right]; rcalc). split; [exact E|].
  specialize (R [two_ch] 0%nat ltac:(discriminate) ltac:(cbn; lia)). rewrite E, shift01 in R. match type of R with _ = ?r => assert (V : r = - (1/2)) by (unfold over_reads, shift, average, total, reads_through, quantized; cbn; rewrite (q01_lo (1/4)), (q01_hi (3/4)) by lra; lra) end. rewrite V in R. lra.
Qed.
Print Assumptions channel_shift_refuted.

(* FINDING (compute_activation_bias_correction_of_graph.py L107-114): the centre of a quantized bin is the middle of its
   quantized edges, not the quantized centre.  All data at 1/4 in the bin [0, 1]: quantized to 0, estimated shift 0 *)
Theorem bin_edges_refuted : histogram_of [0; 1] [2] [[1/4; 1/4]] /\ mean_shift q01 [0; 1] [2] = 0 /\ meanR (map q01 [1/4; 1/4]) - meanR [1/4; 1/4] = - (1/4).
Proof.
  split. { replace 2 with (INR (length [1/4; 1/4])) by (cbn; lra). apply H_bin; [lra|repeat constructor; lra|constructor]. }
  split; [exact shift01|]. unfold meanR. cbn. rewrite (q01_lo (1/4)) by lra. lra.
Qed.
Print Assumptions bin_edges_refuted.

(* FINDING (compute_activation_bias_correction_of_graph.py L43-47, L102): the histogram is that of the quantized node, also
   when a pooling or padding layer that keeps the quantization lies in between and changes the distribution.  The layer of
   ab_g behind a maximum over 1/4 and 3/4 reads 3/4 only *)
Theorem pooled_shift_refuted : exists l', act_corrections 0 ab_g = Ok [None; None; Some (act_term T_linear (const [1; 1]%nat 1) 0)] /\
  apply_act true (lin1 (const [1; 1]%nat 1) 1) (Some (act_term T_linear (const [1; 1]%nat 1) 0)) = Ok l' /\
  average [at1 (Rmax (1/4) (3/4))] (output (lin1 (const [1; 1]%nat 1) 1) 0) = 3/4 /\ average [at1 (Rmax (1/4) (3/4))] (fun s => output l' 0 (quantized q01 s)) = 1.
Proof.
  rewrite Rmax_right by lra. assert (W : lin_wf (lin1 (const [1; 1]%nat 1) 1)) by wf. destruct (activation_correction_residual _ q01 0 W) as (l' & A & _ & _ & R); [intro; discriminate|]. exists l'. split; [rewrite ab_g_terms, shift01; reflexivity|]. split; [exact A|].
  assert (E : average [at1 (3/4)] (output (lin1 (const [1; 1]%nat 1) 1) 0) = 3/4) by (unfold average, total, output; cbn [map fold_right]; rcalc). split; [exact E|].
  specialize (R [at1 (3/4)] 0%nat ltac:(discriminate) ltac:(cbn; lia)). rewrite E in R. match type of R with _ = ?r => assert (V : r = 1/4) by (unfold over_reads, shift, average, total, reads_through, quantized; cbn; rewrite (q01_hi (3/4)) by lra; lra) end. rewrite V in R. lra.
Qed.
Print Assumptions pooled_shift_refuted.

(* FINDING (compute_activation_bias_correction_of_graph.py L128-144, statistics_correction.py L97-110): the term is computed
   with the float kernel but the exported layer reads the shifted activations through the quantized one.  With both
   corrections on and every activation moved by exactly d the average is still off *)
Theorem both_corrections_refuted : exists t l1 l2, bias_term T_linear (l_kernel ab_l) (const [1; 1]%nat 3) (vec [3/4]) = Ok t /\ apply_term ab_l t = Ok l1 /\ apply_act true l1 (Some (act_term T_linear (l_kernel ab_l) (1/4))) = Ok l2 /\
  shift ab_l q01 [at1 (3/4)] 0 0 0 = 1/4 /\ average [at1 (3/4)] (output ab_l 0) = 3/2 /\ average [at1 (3/4)] (fun s => output (set_kernel l2 (const [1; 1]%nat 3)) 0 (quantized q01 s)) = 7/4.
Proof.
  assert (W : lin_wf ab_l) by wf. destruct (both_corrections_residual ab_l (const [1; 1]%nat 3) (vec [3/4]) q01 (1/4) W) as (t & l1 & l2 & T & A & B & R); [intro; discriminate|reflexivity|reflexivity|].
  exists t, l1, l2. split; [exact T|]. split; [exact A|]. split; [exact B|].
  assert (SH : shift ab_l q01 [at1 (3/4)] 0 0 0 = 1/4). { unfold shift, average, total, reads_through, quantized. cbn. rewrite q01_hi by lra. lra. }
  split; [exact SH|]. assert (E : average [at1 (3/4)] (output ab_l 0) = 3/2) by (unfold average, total, output; cbn [map fold_right]; rcalc). split; [exact E|].
  specialize (R [at1 (3/4)] 0%nat ltac:(discriminate) ltac:(cbn; lia)). assert (SM : sees_mean ab_l (vec [3/4]) [at1 (3/4)]). { intros h w i Hh Hw Hi. cbn in Hi. assert (i = 0%nat) as -> by lia. unfold average, total, reads_through. cbn. lra. }
  specialize (R SM). rewrite E in R. match type of R with _ = ?r => assert (V : r = 1/4) by (unfold over_reads; cbn -[shift]; rewrite SH; lra) end. rewrite V in R. lra.
Qed.
Print Assumptions both_corrections_refuted.

(* FINDING (compute_activation_bias_correction_of_graph.py L91, L142): a 1x1 convolution with padding is corrected at the
   padded positions too, where it reads zeros that no quantizer moves *)
Definition ab_pad : lin := Lin T_conv (const [1; 1; 1; 1]%nat 2) None false 1 1 1 (1, 1)%nat (1, 1)%nat (P_num 1 1).
Theorem padded_activation_correction_refuted : lin_wf ab_pad /\ supported_ksz (KS_tuple [1; 1]%nat) = true /\ exists l', apply_act true ab_pad (Some (act_term T_conv (l_kernel ab_pad) (1/4))) = Ok l' /\
  pos_in (out_hw ab_pad (1, 1)%Z) (0, 0)%Z /\ lin_val ab_pad (1, 1)%Z (fun _ _ => 3/4) 0%nat (0, 0)%Z = 0 /\ lin_val l' (1, 1)%Z (fun _ _ => 1) 0%nat (0, 0)%Z = - (1/2).
Proof. split; [wf|]. split; [reflexivity|]. eexists. split; [reflexivity|]. split; [cbv; intuition congruence|]. split; rcalc. Qed.
Print Assumptions padded_activation_correction_refuted.

(* FINDING (compute_activation_bias_correction_of_graph.py L134-144): the kernel of a transposed PyTorch convolution in
   groups holds the output channels of one group only; the term is too short for the bias and subtracting it raises *)
Definition ab_tg : lin := Lin T_convT (const [2; 2; 1; 1]%nat 1) (Some (vec [0; 0; 0; 0])) true 2 2 4 (1, 1)%nat (1, 1)%nat (P_num 0 0).
Theorem grouped_transposed_activation_refuted : lin_wf ab_tg /\ forall d, shp (act_term T_convT (l_kernel ab_tg) d) = [2%nat] /\ apply_act true ab_tg (Some (act_term T_convT (l_kernel ab_tg) d)) = Err E_value.
Proof. split; [wf|]. intro d. split; reflexivity. Qed.
Print Assumptions grouped_transposed_activation_refuted.
