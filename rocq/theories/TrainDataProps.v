(* TrainDataProps.v -- C92: what GPTQ trains on in an epoch. *)
From Coq Require Import List Arith Lia Reals Lra Permutation.
From Verif Require Import Nd.
From Verif Require Import Base GptqLossModel TrainDataModel TrainDataSpec GptqLossProofs TrainDataProofs.
Import ListNotations.
Open Scope nat_scope.
Open Scope res_scope.

(* Without sample-layer attention every epoch trains on the samples of a fresh pass of the user's generator, each once and in
   order, all with the same layer weights; the batch size is that of the first batch ever yielded, only the last batch may be
   smaller. *)
Theorem epoch_samples : forall (A W : Type) (d : A) n B (calls : nat -> list (batch A)) (w : W) e,
  (forall k, well_formed n (calls k)) -> first_size (calls 0) = Ok B -> 0 < B ->
  exists bs, epoch calls w e = Ok bs /\ batches_of B (map (fun s => (s, w)) (samples_of d (calls (S e)))) bs
    /\ length bs = (length (samples_of d (calls (S e))) + B - 1) / B.
Proof.
  intros A W d n B calls w e Wf F P. unfold epoch. rewrite F. cbn [bind]. unfold with_info. rewrite (flat_samples d n) by apply Wf.
  destruct (loader_ok B (map (fun s => (s, w)) (samples_of d (calls (S e)))) P) as (bs & E & Bo). exists bs. split; [exact E|]. split; [exact Bo|].
  rewrite (batches_count B _ bs P Bo), map_length. reflexivity.
Qed.
Print Assumptions epoch_samples.

(* A generator of batches of one size (the last one possibly smaller) is trained on batch for batch: the tensors of a step are
   those the generator yielded. *)
Theorem epoch_batches : forall (A W : Type) (d : A) n B (calls : nat -> list (batch A)) (w : W) e,
  (forall k, well_formed n (calls k)) -> first_size (calls 0) = Ok B -> 0 < B -> even B (calls (S e)) ->
  exists bs, epoch calls w e = Ok bs /\ map (fun b => tensors d n (map fst b)) bs = calls (S e) /\ Forall (Forall (fun p => snd p = w)) bs.
Proof.
  intros A W d n B calls w e Wf F P [Ev Last]. destruct (epoch_samples A W d n B calls w e Wf F P) as (bs & E & Bo & _).
  exists bs. split; [exact E|]. set (g := calls (S e)) in *. pose proof (Wf (S e)) as Wg. fold g in Wg.
  assert (Bo' : batches_of B (map (fun s => (s, w)) (samples_of d g)) (map (fun b => map (fun s => (s, w)) (zipn b)) g)).
  { assert (Lz : forall b, In b g -> length (zipn b) = size b).
    { intros b I. destruct Wg as [N Fg]. rewrite Forall_forall in Fg. destruct (Fg b I) as (m & Hm). rewrite (zipn_rows d n m b N Hm), map_length, seq_length.
      symmetry. exact (batch_size n m b N Hm). }
    split; [|split].
    - rewrite <- (flat_samples d n g Wg). unfold flat_gen. rewrite flat_map_concat_map, concat_map, map_map. reflexivity.
    - apply Forall_forall. intros x X. apply in_map_iff in X. destruct X as (b & <- & I). rewrite map_length, (Lz b I). rewrite Forall_forall in Ev. exact (Ev b I).
    - intros i I. rewrite map_length in I. rewrite (nth_indep _ [] (map (fun s => (s, w)) (zipn []))) by (rewrite map_length; lia).
      rewrite (map_nth (fun b => map (fun s => (s, w)) (@zipn A b))), map_length, Lz by (apply nth_In; lia). exact (Last i I). }
  rewrite (batches_unique B _ _ _ Bo Bo'). split.
  - rewrite map_map. rewrite <- (map_id g) at 2. apply map_ext_in. intros b I. rewrite map_map, map_id. destruct Wg as [N Fg]. rewrite Forall_forall in Fg. destruct (Fg b I) as (m & Hm).
    exact (columns d n m b N Hm).
  - apply Forall_forall. intros x X. apply in_map_iff in X. destruct X as (b & <- & _). apply Forall_forall. intros p Pi. apply in_map_iff in Pi. destruct Pi as (s & <- & _). reflexivity.
Qed.
Print Assumptions epoch_batches.

(* For such a generator the annealing schedules reckon with the steps that are really made. *)
Theorem planned : forall (A W : Type) (d : A) n B (calls : nat -> list (batch A)) (w : W) epochs,
  (forall k, well_formed n (calls k)) -> first_size (calls 0) = Ok B -> 0 < B -> (forall k, even B (calls k)) -> (forall k, length (calls k) = length (calls 0)) ->
  exists bss, mapM (epoch calls w) (seq 0 epochs) = Ok bss /\ length (concat bss) = planned_steps (calls 0) epochs.
Proof.
  intros A W d n B calls w epochs Wf F P Ev Len. unfold planned_steps.
  assert (G : forall k s, exists bss, mapM (epoch calls w) (seq s k) = Ok bss /\ length (concat bss) = length (calls 0) * k).
  { induction k as [|k IH]; intro s; [exists []; split; [reflexivity|cbn; lia]|].
    destruct (epoch_batches A W d n B calls w s Wf F P (Ev (S s))) as (bs & E & T & _). destruct (IH (S s)) as (r & Er & Lr).
    exists (bs :: r). cbn [seq mapM]. rewrite E. cbn [bind]. rewrite Er. split; [reflexivity|]. cbn [concat]. rewrite app_length, Lr.
    apply (f_equal (@length _)) in T. rewrite map_length, Len in T. rewrite T. lia. }
  exact (G epochs 0).
Qed.
Print Assumptions planned.

(* FINDING (trainable_infrastructure/common/util.py L22-27; gptq/common/gptq_training.py L69-70; core/pytorch/data_util.py L134-153):
   the schedules count the batches of the generator, training makes its own of the size of the first one: for batches of one, two
   and two samples there are five steps an epoch where three are planned, so annealing ends before the epochs do. *)
Theorem planned_refuted : ~ (forall (calls : nat -> list (batch nat)) n B epochs, (forall k, well_formed n (calls k)) -> first_size (calls 0) = Ok B -> 0 < B ->
  exists bss, mapM (epoch calls tt) (seq 0 epochs) = Ok bss /\ length (concat bss) = planned_steps (calls 0) epochs).
Proof.
  intro H. destruct (H (fun _ => [[[1]]; [[2; 3]]; [[4; 5]]]) 1 1 1) as (bss & E & L).
  - intro k. split; [lia|]. repeat constructor; [exists 1|exists 2|exists 2]; split; repeat constructor.
  - reflexivity.
  - lia.
  - injection E as <-. discriminate L.
Qed.
Print Assumptions planned_refuted.

(* A generator that yields nothing, a first batch without tensors, or one of no samples is refused. *)
Theorem epoch_refused : forall (A W : Type) (calls : nat -> list (batch A)) (w : W) e,
  (calls 0 = [] -> epoch calls w e = Err E_runtime) /\ (forall r, calls 0 = [] :: r -> epoch calls w e = Err E_index)
  /\ (forall b r, calls 0 = ([] :: b) :: r -> epoch calls w e = Err E_value).
Proof. intros. unfold epoch. repeat split; intros; rewrite H; reflexivity. Qed.
Print Assumptions epoch_refused.

(* A data set of n samples holds the first n the generator yields; fewer are refused, and what comes after them has no say. *)
Theorem fixed_number : forall (A : Type) (d : A) fw n k (g : list (batch A)), well_formed n g -> 0 < k ->
  (k <= length (samples_of d g) -> fixed_samples fw g (Some k) = Ok (firstn k (samples_of d g)))
  /\ (length (samples_of d g) < k -> fixed_samples fw g (Some k) = Err E_value)
  /\ (k <= length (samples_of d g) -> forall r, fixed_samples fw (g ++ r) (Some k) = fixed_samples fw g (Some k)).
Proof.
  intros A d fw n k g Wf K. rewrite <- (flat_samples d n g Wf). split; [|split].
  - intro H. rewrite fixed_some by exact K. destruct (Nat.ltb_spec (length (flat_gen g)) k); [lia|reflexivity].
  - intro H. rewrite fixed_some by exact K. destruct (Nat.ltb_spec (length (flat_gen g)) k); [reflexivity|lia].
  - intros H r. rewrite !fixed_some by exact K. assert (flat_gen (g ++ r) = flat_gen g ++ flat_gen r) as -> by apply flat_map_app.
    generalize dependent (flat_gen g). intros l H. rewrite app_length, firstn_app. replace (k - length l) with 0 by lia. rewrite firstn_O, app_nil_r.
    destruct (Nat.ltb_spec (length l + length (flat_gen r)) k); [lia|]. destruct (Nat.ltb_spec (length l) k); [lia|reflexivity].
Qed.
Print Assumptions fixed_number.

(* Sample-layer attention: whatever the order of the epoch and the batch size of the Hessian computation, every sample is trained on
   once, beside its own weights: for each layer the largest of its scores over the channels.  The regularization weight of a layer is
   the mean of its weights over all samples. *)
Theorem sla_pairs : forall (A : Type) (d : A) (hess : sample A -> list (list R)) fw n B (calls : nat -> list (batch A)) hb n_layers perm,
  well_formed n (calls 1) -> first_size (calls 0) = Ok B -> 0 < B -> 0 < hb -> 0 < n_layers -> samples_of d (calls 1) <> [] ->
  (forall s layer, In s (samples_of d (calls 1)) -> layer < n_layers -> nth layer (hess s) [] <> []) ->
  Permutation perm (seq 0 (length (samples_of d (calls 1)))) ->
  exists bs reg, sla_epoch hess fw calls hb n_layers perm = Ok (bs, reg)
    /\ batches_of B (concat bs) bs
    /\ map fst (concat bs) = map (fun i => nth i (samples_of d (calls 1)) []) perm
    /\ (forall s w, In (s, w) (concat bs) -> length w = n_layers /\ forall layer, layer < n_layers -> is_max (nth layer (hess s) []) (nth layer w 0%R))
    /\ length reg = n_layers
    /\ (forall layer, layer < n_layers -> nth layer reg 0%R = (fold_right Rplus 0 (map (fun p => nth layer (snd p) 0) (concat bs)) / INR (length (concat bs)))%R).
Proof.
  intros A d hess fw n B calls hb n_layers perm Wf F P HB NL Ne Ch Pm. set (ss := samples_of d (calls 1)) in *.
  assert (Fs : flat_gen (calls 1) = ss) by (apply (flat_samples d n); exact Wf).
  unfold sla_epoch. rewrite F. cbn [bind]. rewrite fixed_none by (rewrite Fs; exact Ne). rewrite Fs. cbn [bind].
  rewrite (vectors_ok hess n_layers hb ss HB NL Ch). cbn [bind].
  rewrite (dataset_ok hess n_layers hb ss HB NL Ch fw). cbn [bind].
  set (ds := map (fun s => (s, weights hess n_layers s)) ss).
  assert (Pd : Permutation perm (seq 0 (length ds))) by (unfold ds; rewrite map_length; exact Pm).
  destruct (loader_ok B (reorder perm ds) P) as (bs & E & Bo). rewrite E. cbn [bind].
  pose proof (reorder_perm ds perm Pd) as Rp. destruct Bo as (C & Bo). rewrite <- C in Rp.
  eexists bs, _. split; [reflexivity|]. split; [split; [reflexivity|exact Bo]|]. split; [|split; [|split]].
  - rewrite C. rewrite (reorder_nth ([], weights hess n_layers [])) by (intros i I; rewrite Pd in I; apply in_seq in I; exact (proj2 I)).
    rewrite map_map. apply map_ext. intro i. unfold ds. rewrite (map_nth (fun s => (s, weights hess n_layers s))). reflexivity.
  - intros s w I. apply (Permutation_in _ Rp) in I. unfold ds in I. apply in_map_iff in I. destruct I as (s' & E' & I). injection E' as -> <-.
    unfold weights. split; [rewrite map_length, seq_length; reflexivity|]. intros layer L.
    rewrite (nth_indep _ 0%R (cmax (nth 0 (hess s) []))) by (rewrite map_length, seq_length; exact L).
    rewrite (map_nth (fun l => cmax (nth l (hess s) []))), seq_nth by exact L. apply cmax_spec. exact (Ch s layer I L).
  - unfold reg_weights. rewrite !map_length, seq_length. reflexivity.
  - intros layer L. rewrite (reg_at hess n_layers ss layer L). assert (length (concat bs) = length ss) as -> by (rewrite (Permutation_length Rp); apply map_length). f_equal.
    assert (Q : forall l l' : list R, Permutation l l' -> fold_right Rplus 0%R l = fold_right Rplus 0%R l') by (intros l l' Q; induction Q; cbn; lra).
    rewrite (Q _ _ (Permutation_map (fun p => nth layer (snd p) 0%R) Rp)). unfold ds. rewrite map_map. reflexivity.
Qed.
Print Assumptions sla_pairs.

(* Without any samples the two frameworks differ: PyTorch goes on to an empty data set, Keras fails. *)
Theorem no_samples : forall (A : Type) (g : list (batch A)), flat_gen g = [] -> fixed_samples DTorch g None = Ok [] /\ fixed_samples DKeras g None = Err E_index.
Proof. intros A g E. unfold fixed_samples. rewrite take_all. cbn [app]. rewrite E. split; reflexivity. Qed.
Print Assumptions no_samples.

(* a layer without channel scores, in either framework *)
Theorem no_channels : forall (A : Type) (d : A) (hess : sample A -> list (list R)) fw n B (calls : nat -> list (batch A)) hb n_layers perm layer s,
  well_formed n (calls 1) -> first_size (calls 0) = Ok B -> 0 < hb -> layer < n_layers -> In s (samples_of d (calls 1)) -> nth layer (hess s) [] = [] ->
  exists e, sla_epoch hess fw calls hb n_layers perm = Err e.
Proof.
  intros A d hess fw n B calls hb n_layers perm layer s Wf F HB L Is Z. unfold sla_epoch. rewrite F. cbn [bind].
  rewrite <- (flat_samples d n _ Wf) in Is. rewrite fixed_none by (destruct (flat_gen (calls 1)); [destruct Is|discriminate]). cbn [bind].
  assert (M : forall X Y (f : X -> result Y) l x e, In x l -> f x = Err e -> exists e', mapM f l = Err e').
  { intros X Y f l x e I Hx. induction l as [|y l IH]; [destruct I|]. cbn [mapM]. destruct I as [->|I]; [rewrite Hx; eexists; reflexivity|].
    destruct (f y); [|eexists; reflexivity]. cbn [bind]. destruct (IH I) as (e' & ->). eexists; reflexivity. }
  assert (exists e, sla_vectors hess hb n_layers (flat_gen (calls 1)) = Err e) as (e & ->); [|eexists; reflexivity].
  unfold sla_vectors. assert (In layer (seq 0 n_layers)) as Il by (apply in_seq; lia).
  destruct (M _ _ channel_max (map (fun s => nth layer (hess s) []) (flat_gen (calls 1))) (nth layer (hess s) []) E_value) as (e & Em).
  - apply (in_map (fun s => nth layer (hess s) [])). exact Is.
  - rewrite Z. reflexivity.
  - apply (M _ _ _ _ layer e Il). rewrite scores_ok by exact HB. cbn [bind]. exact Em.
Qed.
Print Assumptions no_channels.

(* two inputs, batches of two and one samples *)
Definition gen2 : list (batch nat) := [[[1; 2]; [10; 20]]; [[3]; [30]]].
Example gen2_ok : well_formed 2 gen2 /\ first_size gen2 = Ok 2 /\ even 2 gen2.
Proof.
  split; [split; [lia|repeat constructor; [exists 2|exists 1]; split; repeat constructor]|]. split; [reflexivity|].
  split; [repeat constructor|]. intros [|i] I; [reflexivity|cbn in I; lia].
Qed.
Example gen2_epoch : epoch (fun _ => gen2) tt 0 = Ok [[([1; 10], tt); ([2; 20], tt)]; [([3; 30], tt)]].
Proof. reflexivity. Qed.
Example gen2_sla : Permutation [2; 0; 1] (seq 0 (length (samples_of 0 gen2))) /\ samples_of 0 gen2 = [[1; 10]; [2; 20]; [3; 30]].
Proof. split; [|reflexivity]. cbn. apply (Permutation_cons_app [0; 1] [] 2). rewrite app_nil_r. apply Permutation_refl. Qed.
