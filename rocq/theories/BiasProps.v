(* BiasProps.v -- C41: bias correction cancels the mean quantization error. *)
From Verif Require Import LinNode LinSpec BnModel BnSpec BnProofs BnExProps CollapseExProps LinProofs BiasModel BiasSpec BiasProofs.
Open Scope R_scope.

(* ---- one layer: quantized kernel and corrected bias.  On samples through which every kernel position sees the mean,
   the average output of every channel is that of the float layer ---- *)
Theorem bias_correction_cancels : forall l q mu, lin_wf l -> corrected_groups l -> shp q = shp (l_kernel l) -> shp mu = [l_in l] ->
  exists t l', bias_term (l_kind l) (l_kernel l) q mu = Ok t /\ apply_term l t = Ok l' /\ lin_wf (set_kernel l' q) /\ l_kernel l' = l_kernel l /\
  forall S o, (o < l_out l)%nat -> sees_mean l mu S -> average S (output (set_kernel l' q) o) = average S (output l o).
Proof.
  intros l q mu W CG SQ SM. destruct (bias_term_spec l q mu W CG SQ SM) as (t & T1 & T2 & T3). destruct (apply_term_spec l t W T2) as (b & B1 & B2 & B3).
  exists t, (set_weights l (l_kernel l) (Some b) true). split; [exact T1|]. split; [exact B1|]. split; [apply (wf_set l q b W SQ B2)|]. split; [reflexivity|]. intros S o O M. apply (corrected_output l q mu b o S W SQ O); [rewrite B3, T3 by exact O; reflexivity|exact M].
Qed.
Print Assumptions bias_correction_cancels.
(* at an input that is everywhere the mean, away from padding: exactly the float output *)
Theorem bias_correction_at_mean : forall l q mu t l' hw x o p, lin_wf l -> corrected_groups l -> shp q = shp (l_kernel l) -> shp mu = [l_in l] ->
  bias_term (l_kind l) (l_kernel l) q mu = Ok t -> apply_term l t = Ok l' ->
  (forall i r, (i < l_in l)%nat -> x i r = at_ mu [i]) ->
  (forall h w, (h < fst (ksize l))%nat -> (w < snd (ksize l))%nat -> tap l hw h w p <> None) -> (o < l_out l)%nat ->
  lin_val (set_kernel l' q) hw x o p = lin_val l hw x o p.
Proof.
  intros l q mu t l' hw x o p W CG SQ SM T A X IN O. destruct (bias_correction_cancels l q mu W CG SQ SM) as (t1 & l1 & T1 & A1 & _ & _ & H). assert (t1 = t) as -> by congruence. assert (l1 = l') as -> by congruence.
  specialize (H [Sample hw x p] o O). unfold average, total, output in H. cbn [map fold_right length INR s_hw s_in s_pos] in H. rewrite !Rplus_0_r in H. assert (Q : forall a : R, a / 1 = a) by (intro; field). rewrite !Q in H. apply H.
  intros h w i Hh Hw Hi. unfold average, total. cbn [map fold_right length INR]. rewrite Rplus_0_r, Q. unfold reads_through. cbn [s_hw s_in s_pos]. specialize (IN h w Hh Hw). destruct (tap l hw h w p); [apply X, Hi|congruence].
Qed.
Print Assumptions bias_correction_at_mean.

(* ---- the candidates of a node: whichever becomes final, its own quantized kernel is corrected for; and only if bias
   correction is on, the kernel is quantized, no weight is a constant input and second moment correction is off ---- *)
Theorem bias_correction_of_candidates : forall enabled positional on l mu cs, lin_wf l -> corrected_groups l -> shp mu = [l_in l] ->
  (forall c, In c cs -> shp (w_quant c (l_kernel l)) = shp (l_kernel l)) ->
  exists cs', compute_node enabled positional l mu cs = Ok cs' /\ length cs' = length cs /\
  forall k c c', nth_error cs k = Some c -> nth_error cs' k = Some c' -> w_quant c' = w_quant c /\
    exists l', apply_node on enabled l c' = Ok l' /\
    if on && enabled && negb positional && w_correct c && negb (w_second c)
    then forall S o, (o < l_out l)%nat -> sees_mean l mu S -> average S (output (quantized_layer l' c') o) = average S (output l o)
    else l' = l.
Proof.
  intros enabled positional on l mu cs W CG SM SQ. unfold compute_node. destruct enabled; cbn [negb].
  2:{ exists cs. split; [reflexivity|]. split; [reflexivity|]. intros k c c' H H'. assert (c' = c) as -> by congruence. split; [reflexivity|]. exists l. unfold apply_node. rewrite !andb_false_r. cbn. split; reflexivity. }
  destruct positional; cbn [negb].
  { eexists. split; [reflexivity|]. split; [apply map_length|]. intros k c c' H H'. rewrite nth_error_map, H in H'. cbn in H'. injection H' as <-. split; [reflexivity|]. exists l. unfold apply_node. cbn [w_correct]. rewrite !andb_false_r. cbn [andb]. split; reflexivity. }
  induction cs as [|c0 cs IH].
  { exists []. split; [reflexivity|]. split; [reflexivity|]. intros [|k]; discriminate. }
  destruct IH as (cs' & E & L & H); [intros c I; apply SQ; right; exact I|]. cbn [mapM]. destruct (bias_correction_cancels l (w_quant c0 (l_kernel l)) mu W CG (SQ c0 (or_introl eq_refl)) SM) as (t & l' & T & A & _ & K & C).
  unfold compute_candidate at 1. rewrite T. destruct (w_correct c0 && negb (w_second c0)) eqn:FL; cbn [bind]; rewrite E; cbn [bind]; eexists; (split; [reflexivity|]); (split; [cbn; congruence|]); intros [|k] c c' Hc Hc'; cbn in Hc, Hc'; try (apply (H k); assumption).
  - injection Hc as <-. injection Hc' as <-. cbn [w_quant]. split; [reflexivity|]. unfold apply_node. cbn [w_second w_correct w_term]. apply andb_true_iff in FL. destruct FL as [F1 F2]. rewrite F1, F2. destruct on; cbn [andb]; [|exists l; split; reflexivity]. exists l'. split; [exact A|]. unfold quantized_layer. cbn [w_quant]. rewrite K. exact C.
  - injection Hc as <-. injection Hc' as <-. split; [reflexivity|]. exists l. unfold apply_node. rewrite <- andb_assoc, (andb_comm (negb _)), FL, andb_false_r. split; [reflexivity|]. rewrite <- andb_assoc, FL, andb_false_r. reflexivity.
Qed.
Print Assumptions bias_correction_of_candidates.

(* ---- means that do not fit the groups of the kernel: the correction is zero and the layer keeps its bias ---- *)
Definition fits_groups (inputs outputs means : nat) : Prop := exists g, (0 < g)%nat /\ (means = g * inputs)%nat /\ exists per, (0 < per)%nat /\ (outputs = per * g)%nat.
Theorem invalid_groups_not_corrected : forall k kernel q mu m, k <> K_dw -> shp q = shp kernel -> length (shp kernel) = (if dense k then 2 else 4)%nat -> shp mu = [m] ->
  (0 < nth (in_axis k) (shp kernel) 0)%nat -> ~ fits_groups (nth (in_axis k) (shp kernel) 0%nat) (nth (out_axis k) (shp kernel) 0%nat) m ->
  exists t, bias_term k kernel q mu = Ok t /\ shp t = [nth (out_axis k) (shp kernel) 0%nat] /\ forall i, at_ t i = 0.
Proof.
  intros k kernel q mu m NK SQ LK SM IP NF. unfold bias_term. destruct (bop_fits Rminus q kernel) as (err & -> & SE & _); [rewrite SQ; apply fits_refl|]. cbn [bind]. rewrite SQ in SE.
  assert (FIN : forall eps n e, shp eps = [n; e] -> (0 < e)%nat -> ~ fits_groups e n m -> exists t, group_products eps mu = Ok t /\ shp t = [n] /\ forall i, at_ t i = 0).
  { intros eps n e S E N. unfold group_products. rewrite S, SM, (proj2 (Nat.eqb_neq e 0)) by lia. destruct (bad_quotient m e || bad_quotient n (m / e)) eqn:B; [eexists; split; [reflexivity|split; reflexivity]|].
    exfalso. apply N. apply orb_false_iff in B. destruct B as [B1 B2]. unfold bad_quotient in B1, B2. apply orb_false_iff in B1, B2. destruct B1 as [B1 B1'], B2 as [B2 B2']. apply Nat.ltb_ge in B1, B2. apply negb_false_iff, Nat.eqb_eq in B1', B2'.
    exists (m / e)%nat. assert (D : (m = (m / e) * e)%nat) by (pose proof (Nat.div_mod m e); lia). assert (G0 : (0 < m / e)%nat) by (apply Nat.div_str_pos; lia). split; [exact G0|]. split; [exact D|]. exists (n / (m / e))%nat. split; [apply Nat.div_str_pos; lia|]. pose proof (Nat.div_mod n (m / e)). nia. }
  destruct (shp kernel) as [|a [|b [|c [|d [|]]]]]; destruct k; try congruence; try discriminate LK; cbn [out_axis in_axis Nat.eqb Nat.ltb Nat.leb bind]; rewrite SE; cbn [length seq filter Nat.eqb negb andb nth] in *;
    apply FIN with (2 := IP) (3 := NF); unfold transpose, nsum; cbn [shp]; rewrite SE; reflexivity.
Qed.
Print Assumptions invalid_groups_not_corrected.
Theorem zero_correction_keeps_layer : forall l t hw x o p, lin_wf l -> shp t = [l_out l] -> (forall i, at_ t i = 0) -> (o < l_out l)%nat ->
  exists l', apply_term l t = Ok l' /\ l_kernel l' = l_kernel l /\ lin_val l' hw x o p = lin_val l hw x o p.
Proof.
  intros l t hw x o p W S Z O. destruct (apply_term_spec l t W S) as (b & B1 & B2 & B3). eexists. split; [exact B1|]. split; [reflexivity|]. unfold lin_val. rewrite ksize_set by reflexivity. f_equal. unfold bias_val at 1. cbn [set_weights l_use_bias l_bias]. rewrite B3, Z by exact O. ring.
Qed.
Print Assumptions zero_correction_keeps_layer.

(* ---- instances ---- *)
Definition bc_g : lin := Lin T_conv (const [2; 1; 1; 1]%nat 3) None false 2 2 2 (1, 1)%nat (1, 1)%nat (P_num 0 0).
Example bias_ex : exists t l', bias_term T_conv (l_kernel bc_g) (const [2; 1; 1; 1]%nat 4) (vec [5; 7]) = Ok t /\ apply_term bc_g t = Ok l' /\
  at_ t [0%nat] = 5 /\ at_ t [1%nat] = 7 /\ lin_val (set_kernel l' (const [2; 1; 1; 1]%nat 4)) (1, 1)%Z (fun i _ => at_ (vec [5; 7]) [i]) 1%nat (0, 0)%Z = 21.
Proof.
  destruct (bias_correction_cancels bc_g (const [2; 1; 1; 1]%nat 4) (vec [5; 7])) as (t & l' & T & A & _); [wf|intro; discriminate|reflexivity|reflexivity|]. exists t, l'. split; [exact T|]. split; [exact A|].
  split; [injection T as <-; rcalc|]. split; [injection T as <-; rcalc|]. rewrite (bias_correction_at_mean bc_g (const [2; 1; 1; 1]%nat 4) (vec [5; 7]) t l'); [rcalc|wf|intro; discriminate|reflexivity|reflexivity|exact T|exact A|reflexivity| |cbn; lia].
  cbn. intros [|h] [|w]; try lia. intros _ _. discriminate.
Qed.
(* three means do not fit groups of two *)
Example invalid_ex : ~ fits_groups 2 2 3.
Proof. intros (g & _ & E & _). lia. Qed.

(* a transposed PyTorch convolution in groups: the term has the length of one group and mixes the groups *)
Definition bt_g : lin := Lin T_convT (const [2; 1; 1; 1]%nat 0) (Some (vec [0; 0])) true 2 2 2 (1, 1)%nat (1, 1)%nat (P_num 0 0).
Theorem grouped_transposed_correction_refuted : lin_wf bt_g /\ (exists t l', bias_term T_convT (l_kernel bt_g) (const [2; 1; 1; 1]%nat 1) (vec [5; 7]) = Ok t /\ shp t = [1%nat] /\ apply_term bt_g t = Ok l' /\
  let x := fun i (_ : Z * Z) => at_ (vec [5; 7]) [i] in
  lin_val bt_g (1, 1)%Z x 0%nat (0, 0)%Z = 0 /\ lin_val (set_kernel bt_g (const [2; 1; 1; 1]%nat 1)) (1, 1)%Z x 0%nat (0, 0)%Z = 5 /\ lin_val (set_kernel l' (const [2; 1; 1; 1]%nat 1)) (1, 1)%Z x 0%nat (0, 0)%Z = -7) /\
  (* with two outputs per group it raises *)
  exists l q t, lin_wf l /\ shp q = shp (l_kernel l) /\ bias_term (l_kind l) (l_kernel l) q (vec [5; 7]) = Ok t /\ shp t = [2%nat] /\ l_out l = 4%nat /\ apply_term l t = Err E_value.
Proof.
  split; [wf|]. split.
  - eexists. eexists. split; [reflexivity|]. split; [reflexivity|]. split; [reflexivity|]. cbv zeta. split; [rcalc|]. split; rcalc.
  - exists (Lin T_convT (const [2; 2; 1; 1]%nat 0) (Some (vec [0; 0; 0; 0])) true 2 2 4 (1, 1)%nat (1, 1)%nat (P_num 0 0)), (const [2; 2; 1; 1]%nat 1). eexists. split; [wf|]. split; [reflexivity|]. split; [reflexivity|]. repeat split.
Qed.
Print Assumptions grouped_transposed_correction_refuted.
(* at padded positions the whole sum of the error is subtracted, though part of the kernel reads zeros *)
Definition bp_c : lin := Lin T_conv (const [1; 1; 3; 1]%nat 0) None false 1 1 1 (1, 1)%nat (1, 1)%nat (P_num 1 0).
Theorem padded_correction_refuted : lin_wf bp_c /\ exists t l', bias_term T_conv (l_kernel bp_c) (const [1; 1; 3; 1]%nat 1) (vec [1]) = Ok t /\ apply_term bp_c t = Ok l' /\
  pos_in (out_hw bp_c (1, 1)%Z) (0, 0)%Z /\ lin_val bp_c (1, 1)%Z (fun _ _ => 1) 0%nat (0, 0)%Z = 0 /\ lin_val (set_kernel bp_c (const [1; 1; 3; 1]%nat 1)) (1, 1)%Z (fun _ _ => 1) 0%nat (0, 0)%Z = 1 /\ lin_val (set_kernel l' (const [1; 1; 3; 1]%nat 1)) (1, 1)%Z (fun _ _ => 1) 0%nat (0, 0)%Z = -2.
Proof. split; [wfk 3%nat 1%nat|]. eexists. eexists. split; [reflexivity|]. split; [reflexivity|]. split; [cbv; intuition congruence|]. split; [rcalc|]. split; rcalc. Qed.
Print Assumptions padded_correction_refuted.
(* a transposed convolution with stride: no position reads through the whole kernel *)
Definition bt_s : lin := Lin K_convT (const [2; 1; 1; 1]%nat 0) None false 1 1 1 (2, 1)%nat (1, 1)%nat P_valid.
Theorem strided_transposed_correction_refuted : lin_wf bt_s /\ exists t l', bias_term K_convT (l_kernel bt_s) (const [2; 1; 1; 1]%nat 1) (vec [1]) = Ok t /\ apply_term bt_s t = Ok l' /\
  lin_val bt_s (2, 1)%Z (fun _ _ => 1) 0%nat (2, 0)%Z = 0 /\ lin_val (set_kernel bt_s (const [2; 1; 1; 1]%nat 1)) (2, 1)%Z (fun _ _ => 1) 0%nat (2, 0)%Z = 1 /\ lin_val (set_kernel l' (const [2; 1; 1; 1]%nat 1)) (2, 1)%Z (fun _ _ => 1) 0%nat (2, 0)%Z = -1.
Proof. split; [wfk 2%nat 1%nat|]. eexists. eexists. split; [reflexivity|]. split; [reflexivity|]. split; [rcalc|]. split; rcalc. Qed.
Print Assumptions strided_transposed_correction_refuted.
