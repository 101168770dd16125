(* GenStatProps.v -- C90: what the batch-normalization loss of data generation compares. *)
From Coq Require Import Reals Lra Lia List.
From Verif Require Import Nd.
From Verif Require Import Base GenModel GenStatModel GenStatSpec GenStatProofs.
Import ListNotations.
Open Scope R_scope.

(* With all images looked at together, the loss of any step of any run is the weighted sum of the distances of the mean and the
   deviation of all values -- of all images of all batches -- from those of the model, if every batch gives equally many
   values.  (PyTorch) *)
Theorem torch_loss_all_images : forall N nb fin ru weight init hist j aug,
  (0 < nb)%nat ->
  (forall k c, In k (orig_keys GTorch N) -> (c < n_ch N k)%nat -> exists L, (0 < L)%nat /\
     forall i', (i' < nb)%nat -> length (values N k (looked_at fin init hist j aug k i') c) = L) ->
  loss_after GTorch AllImages N nb fin ru weight init hist j aug =
  total (map (fun k => weight k * distance N k
      (fun c => average (all_values N nb (looked_at fin init hist j aug k) k c))
      (fun c => sqrt (variance (all_values N nb (looked_at fin init hist j aug k) k c) + eps))
      (target_mean ru k) (target_std ru k)) (K_image :: map K_bn (seq 0 (n_bn N)))).
Proof.
  intros N nb fin ru weight init hist j aug NB H. unfold loss_after, bn_loss, total. apply sum_ext. intros k Hk.
  cbn [used accumulated map fold_right]. rewrite Rplus_0_r. f_equal. rewrite align_distance.
  assert (forall c, target_mean ru k c = orig_mean ru k c) by (intro; destruct k; reflexivity).
  transitivity (distance N k (fun c => average (all_values N nb (looked_at fin init hist j aug k) k c))
      (fun c => sqrt (variance (all_values N nb (looked_at fin init hist j aug k) k c) + eps)) (orig_mean ru k) (orig_std GTorch ru k)); [|destruct k; reflexivity].
  apply distance_ext. intros c Hc. cbn [fst snd].
  destruct (H k c Hk Hc) as (L & LP & HL). set (v := fun i => values N k (looked_at fin init hist j aug k i) c).
  assert (rsum nb (fun i => fst (hd (fun _ => (0, 0)) (b_stat (before_loss GTorch AllImages N (fold_left (one_step GTorch AllImages N fin) hist (start GTorch AllImages N nb fin init)) j aug) i k) c)) / INR nb = average (all_values N nb (looked_at fin init hist j aug k) k c)) as EM.
  { rewrite (rsum_ext nb _ (fun i => average (v i))) by (intros i Hi; rewrite loss_stat_key by reflexivity; reflexivity). exact (average_batches nb v L NB LP HL). }
  assert (rsum nb (fun i => snd (hd (fun _ => (0, 0)) (b_stat (before_loss GTorch AllImages N (fold_left (one_step GTorch AllImages N fin) hist (start GTorch AllImages N nb fin init)) j aug) i k) c)) / INR nb = average (map (fun x => x ^ 2) (all_values N nb (looked_at fin init hist j aug k) k c))) as ES.
  { rewrite (rsum_ext nb _ (fun i => average (map (fun x => x ^ 2) (v i)))) by (intros i Hi; rewrite loss_stat_key by reflexivity; reflexivity).
    unfold all_values. rewrite map_concat_seq. apply (average_batches nb (fun i => map (fun x => x ^ 2) (v i)) L NB LP). intros i Hi. rewrite map_length. apply HL. exact Hi. }
  rewrite EM, ES. split; [reflexivity|]. cbn [var_of]. rewrite variance_second; [reflexivity|]. intro E.
  pose proof (concat_length nb v L HL) as CL. unfold all_values in E. change (concat (map v (seq 0 nb)) = []) in E. rewrite E in CL. cbn in CL. nia.
Qed.
Print Assumptions torch_loss_all_images.

(* Batch by batch: only the values of the batch of the step, whatever was done before.  (both frameworks; the deviation of the
   Keras layers is that of variance + 1e-6) *)
Theorem loss_of_batch : forall f N nb fin ru weight init hist j aug,
  (forall k c, In k (orig_keys f N) -> (c < n_ch N k)%nat -> values N k (map aug (images init hist j)) c <> []) ->
  loss_after f BatchWise N nb fin ru weight init hist j aug =
  total (map (fun k => weight k * distance N k
      (fun c => average (values N k (map aug (images init hist j)) c))
      (fun c => sqrt (variance (values N k (map aug (images init hist j)) c) + eps))
      (target_mean ru k) (orig_std f ru k)) (orig_keys f N)).
Proof.
  intros f N nb fin ru weight init hist j aug H. unfold loss_after, bn_loss, total. apply sum_ext. intros k Hk. cbn [used].
  rewrite loss_stat_batch by discriminate. cbn [rows_of map fold_right]. rewrite Rplus_0_r, align_distance. f_equal.
  transitivity (distance N k (fun c => average (values N k (map aug (images init hist j)) c)) (fun c => sqrt (variance (values N k (map aug (images init hist j)) c) + eps)) (orig_mean ru k) (orig_std f ru k)); [|destruct k; reflexivity].
  apply distance_ext. intros c Hc. cbn [fst snd]. split; [reflexivity|]. f_equal. f_equal. destruct f; [|reflexivity].
  apply second_torch. apply H; assumption.
Qed.
Print Assumptions loss_of_batch.

(* Image by image: the sum over the images of the batch of the distances of their own statistics. *)
Theorem loss_of_images : forall f N nb fin ru weight init hist j aug,
  (forall k c im, In k (orig_keys f N) -> (c < n_ch N k)%nat -> In im (images init hist j) -> n_act N k (aug im) c <> []) ->
  loss_after f ImageWise N nb fin ru weight init hist j aug =
  total (map (fun k => weight k * total (map (fun im => distance N k
      (fun c => average (n_act N k (aug im) c))
      (fun c => sqrt (variance (n_act N k (aug im) c) + eps))
      (target_mean ru k) (orig_std f ru k)) (images init hist j))) (orig_keys f N)).
Proof.
  intros f N nb fin ru weight init hist j aug H. unfold loss_after, bn_loss, total. apply sum_ext. intros k Hk. cbn [used].
  rewrite loss_stat_batch by discriminate. cbn [rows_of]. rewrite !map_map. f_equal. apply sum_ext. intros im Him.
  rewrite align_distance. assert (forall c, values N k [aug im] c = n_act N k (aug im) c) as V by (intro; unfold values; cbn; apply app_nil_r).
  transitivity (distance N k (fun c => average (n_act N k (aug im) c)) (fun c => sqrt (variance (n_act N k (aug im) c) + eps)) (orig_mean ru k) (orig_std f ru k)); [|destruct k; reflexivity].
  apply distance_ext. intros c Hc. cbn [fst snd]. rewrite V. split; [reflexivity|]. f_equal. f_equal. destruct f; [|reflexivity].
  apply second_torch. apply H; assumption.
Qed.
Print Assumptions loss_of_images.

(* The loss is never negative, and vanishes exactly when the mean and the deviation used for every layer are the model's. *)
Theorem loss_zero_iff : forall f gr N nb fin ru weight init hist j aug,
  (forall k, In k (orig_keys f N) -> 0 < weight k /\ (0 < n_ch N k)%nat) ->
  let s := before_loss f gr N (fold_left (one_step f gr N fin) hist (start f gr N nb fin init)) j aug in
  0 <= loss_after f gr N nb fin ru weight init hist j aug /\
  (loss_after f gr N nb fin ru weight init hist j aug = 0 <->
   forall k row c, In k (orig_keys f N) -> In row (used gr nb s j k) -> (c < n_ch N k)%nat ->
     fst (row c) = target_mean ru k c /\ sqrt (var_of f (fst (row c)) (snd (row c)) + eps) = orig_std f ru k c).
Proof.
  intros f gr N nb fin ru weight init hist j aug H s.
  assert (forall k row, In k (orig_keys f N) -> 0 <= align f N ru k row /\ (align f N ru k row = 0 <-> forall c, (c < n_ch N k)%nat -> fst (row c) = orig_mean ru k c /\ sqrt (var_of f (fst (row c)) (snd (row c)) + eps) = orig_std f ru k c)) as A.
  { intros k row Hk. rewrite align_distance. apply distance_zero. apply H. exact Hk. }
  assert (forall k, In k (orig_keys f N) -> 0 <= fold_right Rplus 0 (map (align f N ru k) (used gr nb s j k)) /\ (fold_right Rplus 0 (map (align f N ru k) (used gr nb s j k)) = 0 <-> forall row, In row (used gr nb s j k) -> align f N ru k row = 0)) as B.
  { intros k Hk. apply sum_nonneg. intros row _. apply A. exact Hk. }
  destruct (sum_nonneg (fun k => weight k * fold_right Rplus 0 (map (align f N ru k) (used gr nb s j k))) (orig_keys f N)) as [P Z].
  { intros k Hk. apply Rmult_le_pos; [destruct (H k Hk); lra|apply B; exact Hk]. }
  split; [exact P|]. unfold loss_after, bn_loss. fold s. rewrite Z. split.
  - intros E k row c Hk Hr Hc. specialize (E k Hk). apply Rmult_integral in E. destruct E as [E|E]; [destruct (H k Hk); lra|].
    pose proof (proj1 (proj2 (B k Hk)) E row Hr) as E'. destruct (proj1 (proj2 (A k row Hk)) E' c Hc) as [E1 E2]. split; [rewrite E1; destruct k; reflexivity|exact E2].
  - intros E k Hk. rewrite (proj2 (proj2 (B k Hk))); [ring|]. intros row Hr. apply (proj2 (proj2 (A k row Hk))). intros c Hc.
    destruct (E k row c Hk Hr Hc) as [E1 E2]. split; [rewrite E1; destruct k; reflexivity|exact E2].
Qed.
Print Assumptions loss_zero_iff.

(* Keras keeps the variance of each batch: with all images together the deviation compared is that of the average of the
   variances of the batches; with equally large batches it falls short of the variance of all values by the variance of the
   batch means. *)
Theorem keras_loss_all_images : forall N nb fin init hist j aug k c,
  (0 < nb)%nat -> (forall i, (i < nb)%nat -> values N k (looked_at fin init hist j aug k i) c <> []) ->
  (exists L, forall i, (i < nb)%nat -> length (values N k (looked_at fin init hist j aug k i) c) = L) ->
  let s := before_loss GKeras AllImages N (fold_left (one_step GKeras AllImages N fin) hist (start GKeras AllImages N nb fin init)) j aug in
  let all := all_values N nb (looked_at fin init hist j aug k) k c in
  let means := map (fun i => average (values N k (looked_at fin init hist j aug k i) c)) (seq 0 nb) in
  exists row, used AllImages nb s j k = [row] /\ fst (row c) = average all /\ var_of GKeras (fst (row c)) (snd (row c)) = variance all - variance means.
Proof.
  intros N nb fin init hist j aug k c NB NE [L HL] s all means. eexists. split; [reflexivity|]. cbn [fst snd var_of].
  set (v := fun i => values N k (looked_at fin init hist j aug k i) c).
  assert (0 < L)%nat as LP. { specialize (HL 0%nat NB). specialize (NE 0%nat NB). destruct (values N k (looked_at fin init hist j aug k 0) c); [congruence|cbn in HL; lia]. }
  assert (INR nb <> 0) as NZ by (apply not_0_INR; lia).
  rewrite (rsum_ext nb (fun i => fst _) (fun i => average (v i))) by (intros i Hi; unfold s; rewrite loss_stat_key by reflexivity; reflexivity).
  rewrite (rsum_ext nb (fun i => snd _) (fun i => variance (v i))) by (intros i Hi; unfold s; rewrite loss_stat_key by reflexivity; reflexivity).
  split; [exact (average_batches nb v L NB LP HL)|].
  assert (all <> []) as AN. { intro E. pose proof (concat_length nb v L HL) as CL. unfold all, all_values in E. change (concat (map v (seq 0 nb)) = []) in E. rewrite E in CL. cbn in CL. nia. }
  assert (means <> []) as MN. { unfold means. destruct nb; [lia|discriminate]. }
  rewrite (variance_second all AN), (variance_second means MN).
  assert (forall g : nat -> R, average (map g (seq 0 nb)) = rsum nb g / INR nb) as AV.
  { intro g. unfold average. rewrite map_length, seq_length. f_equal. apply sum_seq. }
  unfold means at 2. rewrite AV. unfold means. rewrite map_map, AV. change (fun i => average (values N k (looked_at fin init hist j aug k i) c)) with (fun i => average (v i)).
  rewrite (average_batches nb v L NB LP HL). change (concat (map v (seq 0 nb))) with all.
  assert (average (map (fun x => x ^ 2) all) = rsum nb (fun i => average (map (fun x => x ^ 2) (v i))) / INR nb) as ES.
  { unfold all, all_values. rewrite map_concat_seq. symmetry. apply (average_batches nb (fun i => map (fun x => x ^ 2) (v i)) L NB LP). intros i Hi. rewrite map_length. apply HL. exact Hi. }
  rewrite ES. rewrite (rsum_ext nb (fun i => variance (v i)) (fun i => average (map (fun x => x ^ 2) (v i)) - average (v i) ^ 2)) by (intros i Hi; apply variance_second; apply NE; exact Hi).
  rewrite rsum_minus. cbn beta. change (fun x => average (values N k (looked_at fin init hist j aug k x) c) ^ 2) with (fun i => average (v i) ^ 2). field. exact NZ.
Qed.
Print Assumptions keras_loss_all_images.

(* A model without batch-normalization layers is refused by Keras. *)
Theorem keras_needs_layers : forall N, has_layers GKeras N = Ok tt <-> (0 < n_bn N)%nat.
Proof. intro N. unfold has_layers, orig_keys. destruct (n_bn N); cbn; split; intro H; try discriminate; try lia; reflexivity. Qed.
Print Assumptions keras_needs_layers.

(* ---- a model with one layer of one channel, fed with the images themselves ---- *)
Definition pt (x : R) : nd := Nd [] (fun _ => x).
Definition plain (n : nat) : net := Net n (fun _ => 1%nat) (fun _ im _ => [at_ im []]).
Definition id_nd (x : nd) : nd := x.
Definition two (a b : list R) (i : nat) : list nd := map pt (match i with O => a | _ => b end).

(* two batches of two images, after a step on the first: the hypotheses of the theorem hold *)
Example all_images_instance : forall hist_new : list R, length hist_new = 2%nat ->
  let hist := [GStep 0 id_nd (map pt hist_new)] in
  forall k c, In k (orig_keys GTorch (plain 1)) -> (c < n_ch (plain 1) k)%nat -> exists L, (0 < L)%nat /\
    forall i', (i' < 2)%nat -> length (values (plain 1) k (looked_at id_nd (two [1; 3] [2; 4]) hist 1 id_nd k i') c) = L.
Proof.
  intros l Hl hist k c Hk Hc. exists 2%nat. split; [lia|]. intros i Hi. destruct l as [|x [|y [|]]]; try discriminate.
  destruct i as [|[|i]]; [| |lia]; destruct k; reflexivity.
Qed.
Example batch_instance : values (plain 1) (K_bn 0) (map id_nd (images (two [1; 3] [2; 4]) [] 0)) 0 = [1; 3].
Proof. reflexivity. Qed.

(* FINDING (pytorch_data_generation.py L346-352, keras_data_generation.py L264-269): after a step the statistics of the batch
   are "updated" without another forward pass, so those of the layers stay the ones of the images before the step.  Here batch
   0 has become 2 and batch 1 is 0: their mean is 1, but the loss of the next step compares the mean 0. *)
Theorem updated_statistics_refuted : forall f, exists N nb init hist j row,
  let s := before_loss f AllImages N (fold_left (one_step f AllImages N id_nd) hist (start f AllImages N nb id_nd init)) j id_nd in
  used AllImages nb s j (K_bn 0) = [row] /\
  fst (row 0%nat) = 0 /\ average (all_values N nb (fun i => map id_nd (images init hist i)) (K_bn 0) 0) = 1.
Proof.
  intro f. exists (plain 1), 2%nat, (two [0] [0]), [GStep 0 id_nd [pt 2]], 1%nat. eexists. cbv zeta. split; [reflexivity|]. split.
  - cbn -[Rdiv]. unfold mean. cbn. field.
  - unfold all_values, average. cbn. field.
Qed.
Print Assumptions updated_statistics_refuted.

(* FINDING (pytorch optimization_utils.py L140-162, keras L147-167): the means of the batches are averaged whatever their
   sizes, so a smaller last batch weighs more.  Batches 0, 0 and 3: the mean is 1, the loss compares 3/2. *)
Theorem unequal_batches_refuted : forall f, exists N nb init j row,
  let s := before_loss f AllImages N (start f AllImages N nb id_nd init) j id_nd in
  used AllImages nb s j (K_bn 0) = [row] /\
  fst (row 0%nat) = 3 / 2 /\ average (all_values N nb (fun i => map id_nd (init i)) (K_bn 0) 0) = 1.
Proof.
  intro f. exists (plain 1), 2%nat, (two [0; 0] [3]), 1%nat. eexists. cbv zeta. split; [reflexivity|]. split.
  - cbn -[Rdiv]. unfold mean. cbn. field.
  - unfold all_values, average. cbn. field.
Qed.
Print Assumptions unequal_batches_refuted.

(* FINDING (keras optimization_utils.py L394, L400, L147-167): the variance of each batch is kept as "second moment" and
   averaged: batches 1, 1 and 3, 3 have variance 1 together, the loss compares 0. *)
Theorem keras_variance_refuted : exists N nb init j row,
  let s := before_loss GKeras AllImages N (start GKeras AllImages N nb id_nd init) j id_nd in
  used AllImages nb s j (K_bn 0) = [row] /\
  var_of GKeras (fst (row 0%nat)) (snd (row 0%nat)) = 0 /\ variance (all_values N nb (fun i => map id_nd (init i)) (K_bn 0) 0) = 1.
Proof.
  exists (plain 1), 2%nat, (two [1; 1] [3; 3]), 1%nat. eexists. cbv zeta. split; [reflexivity|]. split.
  - cbn -[Rdiv]. unfold mean. cbn. field.
  - unfold variance, all_values, average. cbn. field.
Qed.
Print Assumptions keras_variance_refuted.

(* FINDING (pytorch model_info_exctractors.py L68, optimization_utils.py L161, L326): 1e-6 is added to the variance of the
   images but not to the variance of the model, so images with exactly the statistics of the model still have a loss. *)
Theorem torch_matching_statistics_refuted : exists N ru init,
  (forall k, In k (orig_keys GTorch N) -> average (values N k (map id_nd (init 0%nat)) 0) = target_mean ru k 0 /\
     sqrt (variance (values N k (map id_nd (init 0%nat)) 0)) = target_std ru k 0) /\
  0 < loss_after GTorch BatchWise N 1 id_nd ru (fun _ => 1) init [] 0 id_nd.
Proof.
  exists (plain 1), (fun _ _ => (0, 1)), (two [-1; 1] []).
  assert (variance [-1; 1] = 1) as V by (unfold variance, average; cbn; field).
  assert (average [-1; 1] = 0) as A by (unfold average; cbn; field). split.
  - intros k Hk. assert (values (plain 1) k (map id_nd (two [-1; 1] [] 0)) 0 = [-1; 1]) as -> by (destruct k; reflexivity). rewrite V, A, sqrt_1. destruct k; cbn; rewrite ?sqrt_1; split; reflexivity.
  - destruct (loss_zero_iff GTorch BatchWise (plain 1) 1 id_nd (fun _ _ => (0, 1)) (fun _ => 1) (two [-1; 1] []) [] 0 id_nd) as [P Z]; [intros; cbn; split; [lra|lia]|].
    destruct P as [P|P]; [exact P|exfalso]. symmetry in P. pose proof (proj1 Z P K_image) as Q. cbn [used] in Q.
    specialize (Q _ 0%nat ltac:(left; reflexivity) ltac:(left; reflexivity) ltac:(cbn; lia)). destruct Q as [_ Q].
    cbn -[Rdiv sqrt] in Q. unfold mean in Q. cbn -[sqrt] in Q.
    match type of Q with sqrt ?e = 1 => assert (e = 1 + eps) as E by (field) end. rewrite E in Q.
    assert (0 < eps) by (unfold eps; lra). pose proof (sqrt_def (1 + eps)) as S. rewrite Q in S. lra.
Qed.
Print Assumptions torch_matching_statistics_refuted.

(* FINDING (pytorch model_info_exctractors.py L63, pytorch_data_generation.py L227-229): the image counts as a layer, so a model
   without batch normalization is not refused by PyTorch, and "first layer" weighting favours the image, never the first layer
   (bn_layer_weighting_functions.py L43-61). *)
Theorem torch_no_layers_refuted : forall N, has_layers GTorch N = Ok tt /\ first_weight GTorch N K_image = 10 /\ first_weight GTorch N (K_bn 0) = 1.
Proof. intro N. repeat split. Qed.
Print Assumptions torch_no_layers_refuted.
Theorem keras_first_weight : forall N i, (i < n_bn N)%nat ->
  first_weight GKeras N (K_bn i) = (if Nat.eqb i 0 then 10 else 1) * average_weight GKeras N (K_bn i).
Proof.
  intros N i H. unfold first_weight, average_weight, orig_keys. destruct (n_bn N) as [|n]; [lia|]. cbn [seq map key_eqb].
  destruct (Nat.eqb i 0); unfold Rdiv; ring.
Qed.
Print Assumptions keras_first_weight.
