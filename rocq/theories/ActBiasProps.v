(* ActBiasProps.v -- C76: activation bias correction moves the mean activation error of the layer's input into its bias. *)
From Verif Require Import LinNode LinSpec BnModel BnSpec BnProofs BnExProps CollapseExProps LinProofs BiasModel BiasSpec BiasProofs ActBiasModel ActBiasSpec ActBiasProofs.
Open Scope R_scope.

(* ---- one layer.  Reading quantized activations, the corrected layer's average output is off the float average by the
   weighted differences between the actual shifts of what it reads and the one shift d it was corrected for ---- *)
Theorem activation_correction_residual : forall l q d, lin_wf l -> corrected_groups l ->
  exists l', apply_act true l (Some (act_term (l_kind l) (l_kernel l) d)) = Ok l' /\ lin_wf l' /\ l_kernel l' = l_kernel l /\
  forall S o, S <> [] -> (o < l_out l)%nat ->
    average S (fun s => output l' o (quantized q s)) - average S (output l o) = over_reads l (fun h w i => weight l h w i o * (shift l q S h w i - d)).
Proof.
  intros l q d W CG. destruct (act_term_spec l d W CG) as [T1 T2]. destruct (apply_term_spec l _ W T1) as (b & B1 & B2 & B3).
  unfold apply_act. rewrite apply_act_term_same. eexists. split; [exact B1|]. split; [apply (wf_set l (l_kernel l) b W eq_refl B2)|]. split; [reflexivity|]. intros S o N O.
  rewrite (average_output _ o S (quantized q) N). rewrite (average_output_id l o S N). set (l' := set_weights _ _ _ _). change (bias_val l' o) with (at_ b [o]). rewrite B3, T2 by exact O.
  change (over_reads l' (fun h w i => weight l' h w i o * average S (fun s => reads_through l' h w i (quantized q s)))) with (over_reads l (fun h w i => weight l h w i o * average S (fun s => reads_through l h w i (quantized q s)))).
  rewrite (over_reads_ext l (fun h w i => weight l h w i o * (shift l q S h w i - d)) (fun h w i => weight l h w i o * average S (fun s => reads_through l h w i (quantized q s)) + ((-1) * (weight l h w i o * average S (reads_through l h w i)) + (- d) * weight l h w i o))).
  - rewrite !over_reads_plus, !over_reads_scal. ring.
  - intros. unfold shift. ring.
Qed.
Print Assumptions activation_correction_residual.
(* so if everything the layer reads moves by d, the float average is restored *)
Theorem activation_correction_cancels : forall l q d l' S o, lin_wf l -> corrected_groups l -> apply_act true l (Some (act_term (l_kind l) (l_kernel l) d)) = Ok l' -> S <> [] -> (o < l_out l)%nat ->
  (forall h w i, (h < fst (ksize l))%nat -> (w < snd (ksize l))%nat -> (i < l_in l)%nat -> shift l q S h w i = d) ->
  average S (fun s => output l' o (quantized q s)) = average S (output l o).
Proof.
  intros l q d l' S o W CG A N O H. destruct (activation_correction_residual l q d W CG) as (l1 & A1 & _ & _ & R). rewrite A in A1. injection A1 as <-. specialize (R S o N O).
  rewrite (over_reads_ext l _ (fun _ _ _ => 0 * 0)) in R by (intros h w i Hh Hw Hi; rewrite H by assumption; ring). rewrite over_reads_scal in R. lra.
Qed.
Print Assumptions activation_correction_cancels.

(* ---- the shift is estimated from the histogram: within B of the actual mean quantization error of the data, if B bounds
   half the width of every bin and of its image together ---- *)
Theorem shift_estimate_close : forall q edges counts data B, monotone q -> histogram_of edges counts data -> concat data <> [] ->
  (forall k a b, nth_error edges k = Some a -> nth_error edges (S k) = Some b -> (b - a) + (q b - q a) <= 2 * B) ->
  Rabs (mean_shift q edges counts - (meanR (map q (concat data)) - meanR (concat data))) <= B.
Proof. exact mean_shift_close. Qed.
Print Assumptions shift_estimate_close.
(* end to end, when what the layer reads is distributed like the data behind the histogram *)
Theorem activation_correction_error : forall l q edges counts data B l' S o, lin_wf l -> corrected_groups l -> monotone q -> histogram_of edges counts data -> concat data <> [] ->
  (forall k a b, nth_error edges k = Some a -> nth_error edges (Datatypes.S k) = Some b -> (b - a) + (q b - q a) <= 2 * B) ->
  apply_act true l (Some (act_term (l_kind l) (l_kernel l) (mean_shift q edges counts))) = Ok l' -> S <> [] -> (o < l_out l)%nat ->
  (forall h w i, (h < fst (ksize l))%nat -> (w < snd (ksize l))%nat -> (i < l_in l)%nat -> shift l q S h w i = meanR (map q (concat data)) - meanR (concat data)) ->
  Rabs (average S (fun s => output l' o (quantized q s)) - average S (output l o)) <= B * Rabs (over_reads l (fun h w i => weight l h w i o)).
Proof.
  intros l q e c data B l' S o W CG M H N0 WB A N O SH. set (d := mean_shift q e c) in *. destruct (activation_correction_residual l q d W CG) as (l1 & A1 & _ & _ & R). rewrite A in A1. injection A1 as <-. rewrite (R S o N O).
  set (a := meanR (map q (concat data)) - meanR (concat data)) in *. rewrite (over_reads_ext l _ (fun h w i => (a - d) * weight l h w i o)) by (intros h w i Hh Hw Hi; rewrite SH by assumption; ring). rewrite over_reads_scal, Rabs_mult. apply Rmult_le_compat_r; [apply Rabs_pos|]. rewrite Rabs_minus_sym. exact (shift_estimate_close q e c data B M H N0 WB).
Qed.
Print Assumptions activation_correction_error.

(* ---- both corrections, in the order of the code: bias correction for the quantized kernel, then this one.  What is left
   is the weighted shift through the quantized kernel less the correction through the float kernel ---- *)
Theorem both_corrections_residual : forall l qk mu q d, lin_wf l -> corrected_groups l -> shp qk = shp (l_kernel l) -> shp mu = [l_in l] ->
  exists t l1 l2, bias_term (l_kind l) (l_kernel l) qk mu = Ok t /\ apply_term l t = Ok l1 /\ apply_act true l1 (Some (act_term (l_kind l) (l_kernel l) d)) = Ok l2 /\
  forall S o, S <> [] -> (o < l_out l)%nat -> sees_mean l mu S ->
    average S (fun s => output (set_kernel l2 qk) o (quantized q s)) - average S (output l o) =
    over_reads l (fun h w i => weight (set_kernel l qk) h w i o * shift l q S h w i - d * weight l h w i o).
Proof.
  intros l qk mu q d W CG SQ SM. destruct (bias_term_spec l qk mu W CG SQ SM) as (t & T1 & T2 & T3). destruct (apply_term_spec l t W T2) as (b & B1 & B2 & B3).
  set (l1 := set_weights l (l_kernel l) (Some b) true) in *. assert (W1 : lin_wf l1) by (apply (wf_set l (l_kernel l) b W eq_refl B2)).
  destruct (act_term_spec l d W CG) as [A1 A2]. destruct (apply_term_spec l1 _ W1 A1) as (b2 & C1 & C2 & C3).
  exists t, l1. eexists. split; [exact T1|]. split; [exact B1|]. unfold apply_act. rewrite apply_act_term_same. split; [exact C1|]. intros S o N O SE.
  rewrite (average_output _ o S (quantized q) N). rewrite (average_output_id l o S N). set (l3 := set_kernel _ qk). change (bias_val l3 o) with (at_ b2 [o]). rewrite C3 by exact O. change (bias_val l1 o) with (at_ b [o]). rewrite B3, A2, T3 by exact O. unfold mean_error. fold (over_reads l (fun h w i => (weight (set_kernel l qk) h w i o - weight l h w i o) * at_ mu [i])).
  assert (KS : ksize l3 = ksize l) by (apply (ksize_set l qk); exact SQ).
  assert (RT : forall h w i s, reads_through l3 h w i s = reads_through l h w i s) by (intros; unfold reads_through; assert (TP : forall hw p, tap l3 hw h w p = tap l hw h w p) by (intros; apply (tap_set l qk); exact SQ); rewrite TP; reflexivity).
  assert (E3 : over_reads l3 (fun h w i => weight l3 h w i o * average S (fun s => reads_through l3 h w i (quantized q s))) = over_reads l (fun h w i => weight (set_kernel l qk) h w i o * average S (fun s => reads_through l h w i (quantized q s)))).
  { unfold over_reads. rewrite KS. change (l_in l3) with (l_in l). apply rsum_ext. intros h _. apply rsum_ext. intros w _. apply rsum_ext. intros i _. f_equal. unfold average. f_equal. apply total_ext. intros s _. apply RT. }
  rewrite E3. clear E3.
  rewrite (over_reads_ext l (fun h w i => weight (set_kernel l qk) h w i o * shift l q S h w i - d * weight l h w i o) (fun h w i => weight (set_kernel l qk) h w i o * average S (fun s => reads_through l h w i (quantized q s)) + ((-1) * ((weight (set_kernel l qk) h w i o - weight l h w i o) * at_ mu [i]) + ((-1) * (weight l h w i o * average S (reads_through l h w i)) + (- d) * weight l h w i o)))).
  - rewrite !over_reads_plus, !over_reads_scal. ring.
  - intros h w i Hh Hw Hi. unfold shift. rewrite (SE h w i Hh Hw Hi). ring.
Qed.
Print Assumptions both_corrections_residual.

(* ---- which layers are corrected, and from which histogram ---- *)
Inductive passes_on (g : list anode) : nat -> anode -> Prop :=
  | P_here : forall n a, nth_error g n = Some a -> a_mode a <> M_preserve -> passes_on g n a
  | P_through : forall n m a b, nth_error g n = Some a -> a_mode a = M_preserve -> a_prev a = [m] -> passes_on g m b -> passes_on g n b.
Definition worth_it (thr d m : R) : Prop := m = 0 \/ thr * Rabs m <= 100 * Rabs d.
Definition corrected_for (thr : R) (g : list anode) (a : anode) (k : nd) (d : R) : Prop :=
  a_match a = true /\ (a_ksz a = KS_none \/ a_ksz a = KS_int 1 \/ a_ksz a = KS_tuple [1; 1]%nat) /\ a_kernel a = Some k /\
  exists p b q edges counts, a_prev a = [p] /\ passes_on g p b /\ a_mode b = M_quant /\ a_cfg b = Some q /\ a_hist b = Some (edges, counts) /\
    d = mean_shift q edges counts /\ worth_it thr d (weighted_mean (bin_centers edges) counts).
Lemma source_passes g : forall f n s, source_from f g n = Ok s -> exists b, nth_error g s = Some b /\ passes_on g n b.
Proof.
  induction f as [|f IH]; intros n s H; [discriminate|]. cbn in H. destruct (nth_error g n) as [a|] eqn:E; [|discriminate]. destruct (a_mode a) eqn:M.
  - injection H as <-. exists a. split; [exact E|]. apply P_here; [exact E|congruence].
  - destruct (a_prev a) as [|m [|]] eqn:P; try discriminate. destruct (IH m s H) as (b & B1 & B2). exists b. split; [exact B1|]. apply P_through with m a; assumption.
  - injection H as <-. exists a. split; [exact E|]. apply P_here; [exact E|congruence].
Qed.
Lemma passes_unique g n a b : passes_on g n a -> passes_on g n b -> a = b.
Proof.
  intro H. revert b. induction H as [n a E M|n m x a E M P H IH]; intros b H'; inversion H'; subst; try congruence. apply IH. congruence.
Qed.
Lemma below_spec thr d m : below_threshold thr d m = false <-> worth_it thr d m.
Proof.
  unfold below_threshold, worth_it. destruct (Req_EM_T m 0) as [->|N]; [split; auto|]. pose proof (Rabs_pos_lt m N) as P. destruct (Rlt_dec _ thr) as [L|L].
  - split; [discriminate|]. intros [E|E]; [congruence|]. exfalso. apply (Rmult_lt_compat_r (Rabs m)) in L; [|exact P]. unfold Rdiv in L. rewrite Rmult_assoc, Rinv_l, Rmult_1_r in L by lra. lra.
  - split; [|reflexivity]. intros _. right. apply Rnot_lt_le in L. apply (Rmult_le_compat_r (Rabs m)) in L; [|lra]. unfold Rdiv in L. rewrite (Rmult_assoc _ (/ _)), Rinv_l, Rmult_1_r in L by lra. lra.
Qed.
Lemma ksz_spec k : supported_ksz k = true <-> (k = KS_none \/ k = KS_int 1 \/ k = KS_tuple [1; 1]%nat).
Proof. split; [|intros [-> | [-> | ->]]; reflexivity]. destruct k as [|[|[|n]]|[|[|[|x]] [|[|[|y]] [|z r]]]]; cbn; intro; try discriminate; auto. Qed.
Theorem corrected_layers : forall thr g terms, act_corrections thr g = Ok terms -> length terms = length g /\
  forall n a t, nth_error g n = Some a -> nth_error terms n = Some t -> forall x,
    t = Some x <-> exists k d, corrected_for thr g a k d /\ x = act_term (a_kind a) k d.
Proof.
  intros thr g terms H. unfold act_corrections in H. set (f := fun a => _) in H.
  assert (G : forall l ts, mapM f l = Ok ts -> length ts = length l /\ forall n a t, nth_error l n = Some a -> nth_error ts n = Some t -> f a = Ok t).
  { induction l as [|a l IH]; intros ts E; cbn in E; [injection E as <-; split; [reflexivity|intros [|n]; discriminate]|]. destruct (f a) as [t|] eqn:Fa; [|discriminate]. cbn [bind] in E. destruct (mapM f l) as [r|] eqn:M; [|discriminate]. cbn [bind] in E. injection E as <-. destruct (IH r eq_refl) as [L N]. split; [cbn; congruence|]. intros [|n] a0 t0 A T; cbn in A, T; [congruence|]. apply (N n); assumption. }
  destruct (G g terms H) as [L N]. split; [exact L|]. intros n a t A T x. specialize (N n a t A T). clear G H L T A n. unfold f in N. clear f.
  unfold corrected_for. destruct (a_match a) eqn:MA.
  2:{ injection N as <-. split; [discriminate|]. intros (k & d & (E & _) & _). discriminate. }
  unfold quantized_input in N. destruct (a_prev a) as [|p [|p' r]] eqn:PA; cbn [bind] in N; try (injection N as <-; split; [discriminate|]; intros (k & d & (_ & _ & _ & p0 & b & q & e & c & E & _) & _); discriminate).
  destruct (source_from _ g p) as [s|] eqn:SF; [|discriminate]. cbn [bind] in N. destruct (source_passes g _ p s SF) as (b & Eb & Pb). rewrite Eb in N. cbn [bind] in N.
  assert (U : forall b0, passes_on g p b0 -> b0 = b) by (intros b0 P0; apply (passes_unique g p); assumption).
  assert (NOQ : a_mode b <> M_quant -> t = None -> (t = Some x <-> exists k d, (true = true /\ (a_ksz a = KS_none \/ a_ksz a = KS_int 1 \/ a_ksz a = KS_tuple [1; 1]%nat) /\ a_kernel a = Some k /\ exists p0 b q edges counts, [p] = [p0] /\ passes_on g p0 b /\ a_mode b = M_quant /\ a_cfg b = Some q /\ a_hist b = Some (edges, counts) /\ d = mean_shift q edges counts /\ worth_it thr d (weighted_mean (bin_centers edges) counts)) /\ x = act_term (a_kind a) k d)).
  { intros Q ->. split; [discriminate|]. intros (k & d & (_ & _ & _ & p0 & b0 & q & e & c & E & P0 & M0 & _) & _). injection E as <-. rewrite (U b0 P0) in M0. congruence. }
  destruct (a_mode b) eqn:MB; [|apply NOQ; [congruence|injection N as <-; reflexivity]..]. clear NOQ. unfold act_correction in N. destruct (supported_ksz (a_ksz a)) eqn:KZ; cbn [negb] in N.
  2:{ injection N as <-. split; [discriminate|]. intros (k & d & (_ & K & _) & _). apply ksz_spec in K. congruence. }
  destruct (a_cfg b) as [q|] eqn:CB.
  2:{ injection N as <-. split; [discriminate|]. intros (k & d & (_ & _ & _ & p0 & b0 & q & e & c & E & P0 & _ & C0 & _) & _). injection E as <-. rewrite (U b0 P0) in C0. congruence. }
  destruct (a_hist b) as [[e c]|] eqn:HB.
  2:{ injection N as <-. split; [discriminate|]. intros (k & d & (_ & _ & _ & p0 & b0 & q0 & e & c & E & P0 & _ & _ & H0 & _) & _). injection E as <-. rewrite (U b0 P0) in H0. congruence. }
  destruct (Req_EM_T (lsum c) 0); [discriminate|]. destruct (below_threshold thr (mean_shift q e c) (weighted_mean (bin_centers e) c)) eqn:BT.
  { injection N as <-. split; [discriminate|]. intros (k & d & (_ & _ & _ & p0 & b0 & q0 & e0 & c0 & E & P0 & _ & C0 & H0 & D0 & W0) & _). injection E as <-. rewrite (U b0 P0) in C0, H0. assert (q0 = q) as -> by congruence. rewrite HB in H0. injection H0 as <- <-. subst d. apply below_spec in W0. congruence. }
  destruct (a_kernel a) as [k|] eqn:KA.
  2:{ injection N as <-. split; [discriminate|]. intros (k & d & (_ & _ & K & _) & _). discriminate. }
  injection N as <-. split.
  - intro E. injection E as <-. exists k, (mean_shift q e c). split; [|reflexivity]. split; [reflexivity|]. split; [apply ksz_spec; exact KZ|]. split; [reflexivity|]. exists p, b, q, e, c. split; [reflexivity|]. split; [exact Pb|]. split; [exact MB|]. split; [exact CB|]. split; [exact HB|]. split; [reflexivity|]. apply below_spec. exact BT.
  - intros (k0 & d & (_ & _ & K & p0 & b0 & q0 & e0 & c0 & E & P0 & _ & C0 & H0 & D0 & W0) & ->). injection E as <-. rewrite (U b0 P0) in C0, H0. assert (q0 = q) as -> by congruence. rewrite HB in H0. injection H0 as <- <-. subst d. congruence.
Qed.
Print Assumptions corrected_layers.
(* switched off, or without a term: the layer is left as it is *)
Theorem uncorrected_layer_unchanged : forall on l t, on = false \/ t = None -> apply_act on l t = Ok l.
Proof. intros [|] l [t|] [E|E]; try discriminate; reflexivity. Qed.
Print Assumptions uncorrected_layer_unchanged.
