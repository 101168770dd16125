(* SmcProps.v -- C98: second moment correction gives the batch normalizations moving averages of the statistics of the data. *)
From Coq Require Import List Arith Reals String Bool Lia Lra.
From Verif Require Import Base SmcModel SmcSpec SmcProofs.
Import ListNotations.
Open Scope R_scope.
Open Scope res_scope.

(* Every flagged batch normalization keeps scale and shift and gets as mean and variance the moving averages, over the batches, of the means and variances of the
   tensor it sees in the model as it was given; all other nodes stay as they are. *)
Theorem second_moment_statistics : forall fw nodes ls data ns, NoDup (map l_name ls) -> NoDup (map g_name nodes) -> second_moment_correction fw nodes ls data = Ok ns ->
  map g_name ns = map g_name nodes /\ map g_flag ns = map g_flag nodes
  /\ (forall j n, nth_error nodes j = Some n -> g_flag n = false \/ (forall l b, In l ls -> l_body l = Bn b -> l_name l <> g_name n) -> nth_error ns j = Some n)
  /\ (forall i l b j n, nth_error ls i = Some l -> l_body l = Bn b -> nth_error nodes j = Some n -> g_name n = l_name l -> g_flag n = true ->
      exists ts b', Forall2 (sees fw nodes ls i l) data ts /\ nth_error ns j = Some (mk_gnode (g_name n) true (Some b'))
        /\ gamma b' = gamma b /\ beta b' = beta b /\ eps b' = eps b
        /\ forall c, mmean b' c = ema (decay b) (mmean b c) (map (fun t => chan_mean t c) ts) /\ mvar b' c = ema (decay b) (mvar b c) (map (fun t => run_var fw t c) ts)).
Proof.
  intros fw nodes ls data ns NL NN H. unfold second_moment_correction in H. destruct (run fw nodes ls data) as [lsN|] eqn:R; [|discriminate H]. cbn [bind] in H. injection H as <-.
  pose proof (run_keeps _ _ _ _ _ R) as K. change (store nodes lsN) with (fold_left (store1 nodes) lsN nodes).
  assert (F0 : Forall2 (same fw nodes) ls ls) by (clear; induction ls; constructor; [apply same_refl|assumption]).
  assert (NM : map l_name lsN = map l_name ls) by (clear - K; induction K as [|a b l l' S K IH]; [reflexivity|]; cbn; rewrite IH; f_equal; symmetry; exact (proj1 S)).
  destruct (store_names nodes lsN nodes) as [E1 E2]. split; [exact E1|]. split; [exact E2|]. split.
  - intros j n Nj Hn. apply store_other; [exact Nj|]. intros l b m I B EN NO. rewrite (node_of_nth nodes j n NN Nj) in NO. injection NO as <-. destruct Hn as [Hn|Hn]; [exact Hn|]. exfalso.
    apply In_nth_error in I. destruct I as [i Ni]. destruct (forall2_nth _ _ _ _ _ (forall2_same_sym _ _ _ _ K) Ni) as (l0 & N0 & S). destruct S as (S1 & _ & S3).
    rewrite B in S3. destruct (l_body l0) as [|b0] eqn:B0; [destruct S3|]. apply (Hn l0 b0 (nth_error_In _ _ N0) B0). congruence.
  - intros i l b j n Ni B Nj EN HF. pose proof (node_of_nth nodes j n NN Nj) as NO.
    assert (T : in_training fw nodes l = true) by (unfold in_training; destruct fw; [rewrite <- EN, NO, B; exact HF|reflexivity]).
    destruct (run_stats fw nodes data ls ls lsN i l l b F0 R Ni Ni B T) as (ts & lN & bN & SS & NlN & BN & NmN & BS & ST).
    exists ts, bN. split; [exact SS|]. split.
    + rewrite <- HF. apply (store_hit nodes lsN nodes i lN bN j n); auto; [rewrite NM; exact NL|congruence|]. exists n. split; [|exact HF]. rewrite NmN, <- EN. exact NO.
    + destruct BS as (G & Be & Ep & _). repeat split; try congruence; apply ST.
Qed.
Print Assumptions second_moment_statistics.

(* when it goes through: in Keras always *)
Theorem second_moment_keras_total : forall nodes ls data, exists ns, second_moment_correction Keras nodes ls data = Ok ns.
Proof.
  intros nodes ls data.
  assert (Fw : forall ls env, exists e r, forward Keras nodes env ls = Ok (e, r)).
  { induction ls0 as [|l ls0 IH]; intros env; [exists env, []; reflexivity|]. cbn [forward].
    assert (C : exists o l1, call_layer Keras nodes env l = Ok (o, l1)) by (unfold call_layer; destruct (l_body l); cbn; eexists; eexists; reflexivity).
    destruct C as (o & l1 & C). rewrite C. cbn [bind fst snd]. destruct (IH (env ++ [o])%list) as (e & r & E). rewrite E. cbn. eexists. eexists. reflexivity. }
  unfold second_moment_correction. assert (R : exists lsN, run Keras nodes ls data = Ok lsN).
  { revert ls. induction data as [|x data IH]; intros ls; [exists ls; reflexivity|]. unfold run. cbn [foldM]. destruct (Fw ls x) as (e & r & E). rewrite E. cbn [bind snd]. apply IH. }
  destruct R as [lsN R]. rewrite R. cbn. eexists. reflexivity.
Qed.
Print Assumptions second_moment_keras_total.

(* when every batch has the same statistics, the distance to them shrinks by the decay with each batch; for the batch normalizations that are reconstructed (decay 9/10)
   one batch takes a tenth of it away *)
Theorem moving_average_distance : forall d m0 m l, Forall (fun x => x = m) l -> ema d m0 l - m = d ^ List.length l * (m0 - m).
Proof.
  intros d m0 m l H. revert m0. induction H as [|x l E H IH]; intros m0; [unfold ema; cbn; ring|]. rewrite ema_step, IH, E. cbn [List.length pow]. ring.
Qed.
Print Assumptions moving_average_distance.
(* with any number of batches the average stays between the smallest and the largest of the values *)
Theorem moving_average_between : forall d m0 lo hi l, 0 <= d <= 1 -> lo <= m0 <= hi -> Forall (fun x => lo <= x <= hi) l -> lo <= ema d m0 l <= hi.
Proof.
  intros d m0 lo hi l Hd Hm H. revert m0 Hm. induction H as [|x l Hx H IH]; intros m0 Hm; [unfold ema; cbn; lra|]. rewrite ema_step. apply IH. split; nra.
Qed.
Print Assumptions moving_average_between.

(* the output of a batch normalization in inference: mean and variance; with moving statistics equal to those of the data the mean is the shift and the variance the
   square of the scale, up to epsilon *)
Theorem normalized_moments : forall b x c, x <> [] -> 0 < mvar b c + eps b ->
  chan_mean (bn_eval b x) c = beta b c + (chan_mean x c - mmean b c) * (gamma b c / sqrt (mvar b c + eps b))
  /\ chan_var (bn_eval b x) c = gamma b c ^ 2 * (chan_var x c / (mvar b c + eps b)).
Proof.
  intros b x c Hx Hv. assert (HL : INR (List.length x) <> 0) by (destruct x; [congruence|]; apply not_0_INR; discriminate).
  set (s := gamma b c / sqrt (mvar b c + eps b)).
  assert (M : chan_mean (bn_eval b x) c = beta b c + (chan_mean x c - mmean b c) * s).
  { unfold chan_mean, bn_eval, normalize. rewrite map_map, map_length. fold s. rewrite (sum_affine (fun p => p c - mmean b c) s (beta b c) x).
    assert (Q : sumR (map (fun p => p c - mmean b c) x) = sumR (map (fun p => p c) x) - INR (List.length x) * mmean b c).
    { clear. induction x as [|p x IH]; [cbn; ring|]. cbn [map sumR List.length]. rewrite IH, S_INR. ring. }
    rewrite Q. field. exact HL. }
  split; [exact M|]. unfold chan_var at 1. rewrite M. unfold bn_eval, normalize at 1. rewrite map_map. unfold normalize. rewrite map_length.
  rewrite (map_ext _ (fun p => (p c - chan_mean x c) ^ 2 * (s ^ 2))) by (intros p; fold s; ring).
  rewrite (sum_scaled (fun p => (p c - chan_mean x c) ^ 2)). unfold chan_var.
  assert (S2 : s ^ 2 = gamma b c ^ 2 / (mvar b c + eps b)).
  { unfold s. replace ((gamma b c / sqrt (mvar b c + eps b)) ^ 2) with (gamma b c ^ 2 / (sqrt (mvar b c + eps b) * sqrt (mvar b c + eps b))).
    - rewrite sqrt_sqrt by lra. reflexivity.
    - field. apply Rgt_not_eq. apply sqrt_lt_R0. exact Hv. }
  rewrite S2. field. split; [exact HL|lra].
Qed.
Print Assumptions normalized_moments.

(* ---- a concrete model ---- *)
Definition b1 := mk_bn (fun _ => 1) (fun _ => 0) (fun _ => 0) (fun _ => 1) 0 (9 / 10).
Definition t1 : tensor := [fun _ => 0; fun _ => 20].
Definition one_bn := [mk_layer "bn" [0%nat] (Bn b1)].
Definition one_node := [mk_gnode "bn" true (Some b1)].
Example one_bn_run : exists b', second_moment_correction Torch one_node one_bn [[t1]] = Ok [mk_gnode "bn" true (Some b')] /\ mmean b' 0%nat = 1.
Proof. eexists. split; [reflexivity|]. cbn. unfold chan_mean. cbn. lra. Qed.

(* FINDING (apply_second_moment_correction.py PyTorch L47-52, L64-71, Keras L44-49, L58-65; node_quantization_config.py L449): the flag is that of the configuration for every node, and only convolutions
   without a folded batch normalization lose it; a batch normalization of the user's model that was not folded is put into training mode as well, and its trained statistics
   are replaced: the layer computes something else afterwards though it has no quantized weight *)
Theorem unfolded_bn_changed_refuted : exists b b' x, second_moment_correction Torch [mk_gnode "bn" true (Some b)] [mk_layer "bn" [0%nat] (Bn b)] [[x]] = Ok [mk_gnode "bn" true (Some b')]
  /\ chan_mean (bn_eval b x) 0%nat <> chan_mean (bn_eval b' x) 0%nat.
Proof.
  set (x0 := [fun _ : nat => 1; fun _ => 1] : tensor). set (b0 := mk_bn (fun _ => 1) (fun _ => 0) (fun _ => 0) (fun _ => 1) 1 0).
  exists b0, (moved Torch b0 x0), x0. split; [reflexivity|].
  assert (M : chan_mean x0 0%nat = 1) by (unfold chan_mean, x0; cbn; lra).
  assert (V : chan_var x0 0%nat = 0) by (unfold chan_var; rewrite M; unfold x0; cbn; lra).
  assert (RV : run_var Torch x0 0%nat = 0) by (unfold run_var; rewrite V; ring).
  assert (MV : mvar (moved Torch b0 x0) 0%nat = 0) by (unfold moved; cbn [mvar]; rewrite RV; unfold b0; cbn [decay mvar]; ring).
  assert (MM : mmean (moved Torch b0 x0) 0%nat = 1) by (unfold moved; cbn [mmean]; rewrite M; unfold b0; cbn [decay mmean]; ring).
  destruct (normalized_moments b0 x0 0%nat) as [A _]; [discriminate|unfold b0; cbn; lra|].
  destruct (normalized_moments (moved Torch b0 x0) x0 0%nat) as [A' _]; [discriminate|rewrite MV; unfold moved, b0; cbn [eps]; lra|].
  rewrite A, A', M, MM. unfold moved, b0. cbn [beta mmean gamma mvar eps].
  assert (P : 1 / sqrt (1 + 1) > 0) by (apply Rdiv_lt_0_compat; [lra|apply sqrt_lt_R0; lra]). replace (1 - 1) with 0 by ring. rewrite Rmult_0_l. lra.
Qed.
Print Assumptions unfolded_bn_changed_refuted.

(* FINDING (Keras apply_second_moment_correction.py L52): the whole model runs in training mode, so layers that behave differently in training, like dropout, are active while the
   statistics are collected: the statistics are not those of the tensors the model computes in inference *)
Theorem keras_training_mode_refuted : exists nodes ls x ns, second_moment_correction Keras nodes ls [[x]] = Ok ns
  /\ (exists f g b, ls = [mk_layer "dropout" [0%nat] (Op f g); mk_layer "bn" [1%nat] (Bn b)]
      /\ exists b', ns = [mk_gnode "bn" true (Some b')] /\ mmean b' 0%nat <> ema (decay b) (mmean b 0%nat) [chan_mean (f [x]) 0%nat])
  /\ exists ns', second_moment_correction Torch nodes ls [[x]] = Ok ns' /\ exists f g b, ls = [mk_layer "dropout" [0%nat] (Op f g); mk_layer "bn" [1%nat] (Bn b)]
      /\ exists b', ns' = [mk_gnode "bn" true (Some b')] /\ mmean b' 0%nat = ema (decay b) (mmean b 0%nat) [chan_mean (f [x]) 0%nat].
Proof.
  exists one_node, [mk_layer "dropout" [0%nat] (Op (fun l => hd [] l) (fun _ => [fun _ => 0; fun _ => 0])); mk_layer "bn" [1%nat] (Bn b1)], t1. eexists. split; [reflexivity|]. split.
  - eexists. eexists. exists b1. split; [reflexivity|]. eexists. split; [reflexivity|]. cbn. unfold ema, chan_mean, t1. cbn. intros Q. lra.
  - eexists. split; [reflexivity|]. eexists. eexists. exists b1. split; [reflexivity|]. eexists. split; [reflexivity|]. cbn. unfold ema, chan_mean, t1. cbn. lra.
Qed.
Print Assumptions keras_training_mode_refuted.

(* FINDING (PyTorch apply_second_moment_correction.py L54-56): representative batches of one sample that reach a batch normalization with a single pixel stop the run with ValueError *)
Theorem single_position_refuted : exists x, second_moment_correction Torch one_node one_bn [[x]] = Err E_value /\ is_ok (second_moment_correction Keras one_node one_bn [[x]]) = true.
Proof. exists [fun _ => 1]. split; reflexivity. Qed.
Print Assumptions single_position_refuted.

(* The mean of a batch is the value around which the deviations of its positions add up to nothing; the variance that enters the moving average is the sum of the squared deviations
   divided by the number of positions in Keras and by one less in PyTorch. *)
Theorem batch_statistics : forall fw x c, (match fw with Torch => 2 | Keras => 1 end <= List.length x)%nat ->
  fold_right (fun p s => (p c - chan_mean x c) + s) 0 x = 0
  /\ run_var fw x c * (match fw with Torch => INR (List.length x) - 1 | Keras => INR (List.length x) end) = spread x c (chan_mean x c).
Proof.
  intros fw x c L. assert (1 <= List.length x)%nat as L1 by (destruct fw; lia).
  assert (0 < INR (List.length x)) as P by (apply lt_0_INR; lia). split.
  - assert (forall m (l : tensor), fold_right (fun p s => (p c - m) + s) 0 l = sumR (map (fun p => p c) l) - INR (List.length l) * m) as E.
    { intros m l. induction l as [|p l IH]; [cbn; ring|]. cbn [fold_right map sumR List.length]. rewrite IH, S_INR. ring. }
    rewrite E. unfold chan_mean. field. lra.
  - assert (forall m (l : tensor), sumR (map (fun p => (p c - m) ^ 2) l) = spread l c m) as E.
    { intros m l. induction l as [|p l IH]; [reflexivity|]. cbn [map sumR]. rewrite IH. unfold spread. cbn [fold_right]. ring. }
    rewrite <- E. unfold run_var, chan_var. destruct fw; [|field; lra].
    assert (INR (List.length x) - 1 <> 0). { apply le_INR in L. cbn in L. lra. }
    field. split; lra.
Qed.
Print Assumptions batch_statistics.
