(* CollectProps.v -- C09 (min/max), C10 (histogram), C11 (mean) *)
From Verif Require Import Base RoundQ QuantModel SearchModel CollectModel CollectSpec CollectProofs.
Open Scope Q_scope.

(* C09.  After any history that starts with a batch and continues with batches, positive scalings (per tensor or per
   channel) and shifts, the collector's per-channel maxima and minima are exactly the extrema of everything observed
   (as transformed by the later scalings and shifts), and the whole history succeeds. *)
Theorem min_max_exact_per_channel : forall n i j o ops, (1 <= n)%nat -> is_update o -> Forall (fits n) (o :: ops) ->
  exists m mx mn, mm_run (mm_new i j) (o :: ops) = Ok m /\ mm_state m = Some (mx, mn) /\
    Forall2 is_max (observed n (o :: ops)) mx /\ Forall2 is_min (observed n (o :: ops)) mn.
Proof. exact mm_history_lem. Qed.
Print Assumptions min_max_exact_per_channel.

(* ... and the reported global minimum and maximum are the extrema over all channels. *)
Theorem min_max_exact_global : forall n o ops, (1 <= n)%nat -> is_update o -> Forall (fits n) (o :: ops) ->
  exists m a b, mm_run (mm_new None None) (o :: ops) = Ok m /\ get_min_max_values m = Ok (a, b) /\
    is_min (concat (observed n (o :: ops))) a /\ is_max (concat (observed n (o :: ops))) b.
Proof. exact get_min_max_lem. Qed.
Print Assumptions min_max_exact_global.

Example min_max_hypotheses_met :
  Forall (fits 2) [MM_update [[1; -2]; [3]]; MM_scale [2; 3]; MM_update [[5]; [-7]]; MM_shift [1]].
Proof. repeat constructor; cbn; try lia; try discriminate; auto; reflexivity. Qed.

(* Initial values given by the user replace the observed extrema: an observed value may then lie outside. *)
Theorem min_max_initial_values_hide_observations : exists m a b,
  mm_run (mm_new (Some 0) (Some 1)) [MM_update [[5]]] = Ok m /\ get_min_max_values m = Ok (a, b) /\ b < 5.
Proof. eexists _, _, _. split; [reflexivity|]. split; [reflexivity|]. reflexivity. Qed.
Print Assumptions min_max_initial_values_hide_observations.

(* Declared initial values: they replace the observed extrema, moved along by scalar scalings and shifts ... *)
Lemma init_step m o m' lo hi : mm_step m o = Ok m' -> ~ vector_op o -> mm_ignore_init m = false ->
  mm_init_min m = Some lo -> mm_init_max m = Some hi ->
  mm_ignore_init m' = false /\ mm_init_min m' = Some (moved lo [o]) /\ mm_init_max m' = Some (moved hi [o]).
Proof.
  intros H V I L U. destruct o as [x|v|v]; cbn [mm_step] in H.
  - unfold mm_update in H. destruct (mm_state m) as [[mx mn]|]; repeat (match type of H with bind ?c _ = _ => destruct c; [|discriminate] end; cbn [bind] in H); inversion H; subst; cbn; auto.
  - unfold mm_scale, mm_affine in H. destruct (mm_state m) as [[mx mn]|]; [|discriminate]. repeat (match type of H with bind ?c _ = _ => destruct c; [|discriminate] end; cbn [bind] in H).
    cbn [vector_op] in V. destruct (Nat.ltb_spec 1 (length v)); [lia|]. destruct v as [|s [|? ?]]; try discriminate. inversion H; subst. cbn. rewrite L, U. auto.
  - unfold mm_shift, mm_affine in H. destruct (mm_state m) as [[mx mn]|]; [|discriminate]. repeat (match type of H with bind ?c _ = _ => destruct c; [|discriminate] end; cbn [bind] in H).
    cbn [vector_op] in V. destruct (Nat.ltb_spec 1 (length v)); [lia|]. destruct v as [|s [|? ?]]; try discriminate. inversion H; subst. cbn. rewrite L, U. auto.
Qed.
Theorem min_max_initial_values_follow : forall lo hi ops m a b, Forall (fun o => ~ vector_op o) ops ->
  mm_run (mm_new (Some lo) (Some hi)) ops = Ok m -> get_min_max_values m = Ok (a, b) -> a = moved lo ops /\ b = moved hi ops.
Proof.
  intros lo hi ops m a b F H G.
  assert (X : forall ops lo hi m0, Forall (fun o => ~ vector_op o) ops -> mm_ignore_init m0 = false -> mm_init_min m0 = Some lo -> mm_init_max m0 = Some hi ->
     mm_run m0 ops = Ok m -> mm_ignore_init m = false /\ mm_init_min m = Some (moved lo ops) /\ mm_init_max m = Some (moved hi ops)).
  { clear. induction ops as [|o ops IH]; intros lo hi m0 F I L U H; unfold mm_run in H; cbn [foldM] in H.
    - inversion H; subst. auto.
    - destruct (mm_step m0 o) as [m1|] eqn:E; [|discriminate]. cbn [bind] in H. inversion F; subst. destruct (init_step m0 o m1 lo hi E H2 I L U) as (I1 & L1 & U1).
      destruct (IH _ _ m1 H3 I1 L1 U1 H) as (A & B & C). auto. }
  destruct (X ops lo hi (mm_new (Some lo) (Some hi)) F eq_refl eq_refl eq_refl H) as (A & B & C). unfold get_min_max_values in G. destruct (mm_min m); [|discriminate]. destruct (mm_max m); [|discriminate]. cbn [bind] in G.
  rewrite A, B, C in G. inversion G. auto.
Qed.
Print Assumptions min_max_initial_values_follow.

(* ... until a per-channel scaling or shift, after which the observed extrema are reported again. *)
Lemma run_sim ops : forall m0 m1 m', mm_state m0 = mm_state m1 -> mm_ignore_init m0 = mm_ignore_init m1 -> mm_init_min m0 = None -> mm_init_max m0 = None ->
  mm_run m0 ops = Ok m' -> exists m1', mm_run m1 ops = Ok m1' /\ mm_state m' = mm_state m1' /\ mm_init_min m' = None /\ mm_init_max m' = None /\
    (mm_ignore_init m1 = true \/ Exists vector_op ops -> mm_ignore_init m1' = true).
Proof.
  induction ops as [|o ops IH]; intros m0 m1 m' S I L U H; unfold mm_run in *; cbn [foldM] in *.
  - inversion H; subst. exists m1. repeat split; auto. intros [E|E]; [exact E|inversion E].
  - destruct (mm_step m0 o) as [n0|] eqn:E; [|discriminate]. cbn [bind] in H.
    assert (X : exists n1, mm_step m1 o = Ok n1 /\ mm_state n0 = mm_state n1 /\ mm_ignore_init n0 = mm_ignore_init n1 /\ mm_init_min n0 = None /\ mm_init_max n0 = None /\
       (mm_ignore_init m1 = true \/ vector_op o -> mm_ignore_init n1 = true)).
    { clear H IH. destruct o as [x|v|v]; cbn [mm_step] in *.
      - unfold mm_update in *. rewrite <- S. destruct (mm_state m0) as [[mx mn]|]; repeat (match type of E with bind ?c _ = _ => destruct c; [|discriminate] end; cbn [bind] in *); inversion E; subst; cbn;
          (eexists; split; [reflexivity|]; cbn; repeat split; auto; intros [Q|[]]; congruence).
      - unfold mm_scale, mm_affine in *. rewrite <- S. destruct (mm_state m0) as [[mx mn]|]; [|discriminate]. repeat (match type of E with bind ?c _ = _ => destruct c; [|discriminate] end; cbn [bind] in *).
        cbn [vector_op]. destruct (Nat.ltb_spec 1 (length v)).
        + inversion E; subst. eexists. split; [reflexivity|]. cbn. auto.
        + destruct v as [|s [|? ?]]; try discriminate. inversion E; subst. eexists. split; [reflexivity|]. cbn. rewrite L, U, I. repeat split; auto. intros [Q|Q]; [congruence|cbn in Q; lia].
      - unfold mm_shift, mm_affine in *. rewrite <- S. destruct (mm_state m0) as [[mx mn]|]; [|discriminate]. repeat (match type of E with bind ?c _ = _ => destruct c; [|discriminate] end; cbn [bind] in *).
        cbn [vector_op]. destruct (Nat.ltb_spec 1 (length v)).
        + inversion E; subst. eexists. split; [reflexivity|]. cbn. auto.
        + destruct v as [|s [|? ?]]; try discriminate. inversion E; subst. eexists. split; [reflexivity|]. cbn. rewrite L, U, I. repeat split; auto. intros [Q|Q]; [congruence|cbn in Q; lia]. }
    destruct X as (n1 & E1 & S1 & I1 & L1 & U1 & V1). destruct (IH n0 n1 m' S1 I1 L1 U1 H) as (m1' & A & B & C & D & F). exists m1'. rewrite E1. cbn [bind]. repeat split; auto.
    intros [Q|Q]; [apply F; left; apply V1; left; exact Q|]. apply Exists_cons in Q. destruct Q as [Q|Q]; apply F; [left; apply V1; right; exact Q|right; exact Q].
Qed.
Theorem min_max_initial_values_dropped : forall n o ops lo hi, (1 <= n)%nat -> is_update o -> Forall (fits n) (o :: ops) -> Exists vector_op ops ->
  exists m a b, mm_run (mm_new lo hi) (o :: ops) = Ok m /\ get_min_max_values m = Ok (a, b) /\
    is_min (concat (observed n (o :: ops))) a /\ is_max (concat (observed n (o :: ops))) b.
Proof.
  intros n o ops lo hi Hn Ho F V. destruct (min_max_exact_global n o ops Hn Ho F) as (m & a & b & H & G & A & B).
  destruct (run_sim (o :: ops) (mm_new None None) (mm_new lo hi) m eq_refl eq_refl eq_refl eq_refl H) as (m1 & H1 & S1 & L1 & U1 & I1).
  exists m1, a, b. split; [exact H1|]. split; [|split; assumption]. rewrite <- G. unfold get_min_max_values, mm_min, mm_max. rewrite <- S1, I1 by (right; apply Exists_cons_tl; exact V).
  rewrite L1, U1. destruct (mm_ignore_init m); reflexivity.
Qed.
Print Assumptions min_max_initial_values_dropped.
Example min_max_initial_ex : exists m, mm_run (mm_new (Some 0) (Some 1)) [MM_update [[5; -3]]; MM_scale [2]] = Ok m /\ get_min_max_values m = Ok (0 * 2, 1 * 2).
Proof. eexists. split; reflexivity. Qed.
Example min_max_dropped_ex : exists m, mm_run (mm_new (Some 0) (Some 1)) [MM_update [[5]; [-3]]; MM_scale [2; 3]] = Ok m /\ get_min_max_values m = Ok (-9 # 1, 10 # 1).
Proof. eexists. split; reflexivity. Qed.

(* A negative scaling factor (e.g. a batch-norm with a negative gamma) leaves the reported minimum above the maximum. *)
Theorem min_max_negative_scale_refuted : exists m a b,
  mm_run (mm_new None None) [MM_update [[1; 2]]; MM_scale [-1#1]] = Ok m /\ get_min_max_values m = Ok (a, b) /\ b < a.
Proof. eexists _, _, _. split; [reflexivity|]. split; [reflexivity|]. reflexivity. Qed.
Print Assumptions min_max_negative_scale_refuted.

(* C10.  The merged histogram of any non-empty sequence of non-empty batches, with any number of bins >= 1. *)
Theorem histogram_conserves_samples : forall n xs, xs <> [] -> Forall (fun x => x <> []) xs ->
  exists h h' bins counts, foldM h_update xs (h_new (S n)) = Ok h /\ h_get h = Ok (h', (bins, counts)) /\
    length bins = S (S n) /\ length counts = S n /\ strictly_increasing bins /\ Forall (fun c => 0 <= c) counts /\
    sumQ counts == inject_Z (Z.of_nat (length (concat xs))) /\
    (forall v, In v (concat xs) -> hd 0 bins <= v <= last bins 0).
Proof. exact histogram_lem. Qed.
Print Assumptions histogram_conserves_samples.

(* Scaling / shifting by one number moves the bins and keeps the counts ... *)
Theorem histogram_affine_moves_bins : forall f h s h1 b c, h_get h = Ok (h1, (b, c)) -> (2 <= length b)%nat ->
  exists h2 h3, h_affine f h [s] = Ok h2 /\ h_get h2 = Ok (h3, (map (fun v => f v s) b, c)).
Proof. exact h_affine_lem. Qed.
Print Assumptions histogram_affine_moves_bins.

(* ... while by a vector it makes the histogram unavailable (reading it raises) rather than wrong. *)
Theorem histogram_affine_vector_unavailable : forall f h v, (1 < length v)%nat ->
  exists h', h_affine f h v = Ok h' /\ h_get h' = Err E_critical.
Proof. exact h_affine_vector_lem. Qed.
Print Assumptions histogram_affine_vector_unavailable.

(* Reading the histogram freezes it: a batch observed afterwards is lost. *)
Theorem histogram_update_after_read_refuted : exists h1 h2 h3 h4 b c,
  h_update (h_new 1) [0; 1] = Ok h1 /\ h_get h1 = Ok (h2, (b, c)) /\
  h_update h2 [5] = Ok h3 /\ h_get h3 = Ok (h4, (b, c)) /\ sumQ c == 2.
Proof.
  eexists _, _, _, _, _, _. split; [reflexivity|]. split; [reflexivity|]. split; [reflexivity|].
  split; [reflexivity|]. reflexivity.
Qed.
Print Assumptions histogram_update_after_read_refuted.

(* The collector's own maximum is the left edge of the last occupied bin, below observed values. *)
Theorem histogram_max_below_observed_refuted : exists h v,
  h_update (h_new 1) [0; 1] = Ok h /\ h_max h = Ok v /\ v < 1.
Proof. eexists _, _. split; [reflexivity|]. split; [reflexivity|]. reflexivity. Qed.
Print Assumptions histogram_max_below_observed_refuted.

(* C11.  For equally sized batches the reported mean is the mean of all observed values, per channel. *)
Theorem mean_of_equal_batches : forall n k xs, (1 <= n)%nat -> (1 <= k)%nat -> xs <> [] ->
  Forall (fun x => length x = n /\ Forall (fun c => length c = k) x) xs ->
  exists m, foldM me_update xs me_new = Ok m /\
    Forall2 (fun l v => v == meanQ l) (observed n (map MM_update xs)) (me_mean m).
Proof. exact mean_equal_batches_lem. Qed.
Print Assumptions mean_of_equal_batches.

(* For batches of any sizes it lies within the observed extrema of the channel. *)
Theorem mean_within_extrema : forall n xs, (1 <= n)%nat -> xs <> [] ->
  Forall (fun x => length x = n /\ Forall (fun c => c <> []) x) xs ->
  exists m, foldM me_update xs me_new = Ok m /\
    Forall2 (fun l v => forall lo hi, is_min l lo -> is_max l hi -> lo <= v <= hi) (observed n (map MM_update xs)) (me_mean m).
Proof. exact mean_bounded_lem. Qed.
Print Assumptions mean_within_extrema.

Example mean_hypotheses_met : Forall (fun x : batch => length x = 2%nat /\ Forall (fun c => length c = 1%nat) x) [[[1]; [2]]; [[3]; [5]]].
Proof. repeat constructor. Qed.

(* With batches of different sizes (a shorter last batch) the reported mean is not the mean of the data. *)
Theorem mean_of_unequal_batches_refuted : exists m v,
  foldM me_update [[[0; 0; 0]]; [[4]]] me_new = Ok m /\ me_mean m = [v] /\ v == 2 /\ meanQ [0; 0; 0; 4] == 1.
Proof. eexists _, _. split; [reflexivity|]. split; [reflexivity|]. split; reflexivity. Qed.
Print Assumptions mean_of_unequal_batches_refuted.

(* A batch observed after a scaling silently undoes the scaling of the mean. *)
Theorem mean_update_after_scale_refuted : exists m1 m2 m3 v,
  me_update me_new [[1]] = Ok m1 /\ me_affine Qmult m1 [10] = Ok m2 /\ me_update m2 [[1]] = Ok m3 /\
  me_mean m3 = [v] /\ v == 1.
Proof.
  eexists _, _, _, _. split; [reflexivity|]. split; [reflexivity|]. split; [reflexivity|]. split; reflexivity.
Qed.
Print Assumptions mean_update_after_scale_refuted.
