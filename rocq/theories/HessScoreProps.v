(** C84: the scores a request for Hessian information gets are averages of
    squared derivatives of random combinations of all outputs; their
    expectation over the random signs is the sum of the squared derivatives
    of the outputs by the elements each entry covers; finer scores add up to
    coarser ones; the scores of an image do not depend on the rest of the
    batch. *)

From Coq Require Import Reals List Bool Arith Lia Lra Permutation.
From Verif Require Import Base HessScoreModel HessScoreSpec HessScoreProofs
  HessScoreRunProofs HessScoreImageProofs.
Import ListNotations.
Local Open Scope R_scope.

(** targets of a request for weights: kernels with an output-channel axis, on
    which the outputs depend *)
Definition good_kernels {O} (tgs : list (target O)) : Prop :=
  forall tg, In tg tgs -> (tg_axis tg < length (tg_shape tg))%nat /\ tg_conn tg = true.

(** targets of a request for activations: a batch of [b] images, at least one
    more axis, outputs depend on them *)
Definition good_acts {O} (b : nat) (tgs : list (target O)) : Prop :=
  forall tg, In tg tgs -> tg_conn tg = true /\ exists c r, tg_shape tg = b :: c :: r.

Lemma loop_ext f f' : (forall v, f v = f' v) -> forall draws j sc,
  torch_act_loop f draws j sc = torch_act_loop f' draws j sc.
Proof.
  intro E. induction draws as [|v draws IH]; intros j sc; [reflexivity|].
  cbn [torch_act_loop]. rewrite E. apply IH.
Qed.

Section Weights.
Context {O : Type}.
Variables (g : gran) (o : outs O) (tgs : list (target O)) (b : nat).
Hypothesis Hgood : good_outputs o b.
Hypothesis Htg : good_kernels tgs.

Lemma forallb_conn : forallb tg_conn tgs = true.
Proof using Htg. apply forallb_forall. intros tg H. apply (Htg tg H). Qed.

Lemma weights_run (F : gran -> target O -> vec -> vec) scale os :
  (forall tg v, In tg tgs -> F g tg (gradient scale os tg v) =
     map (fun cell => estimate scale os tg cell v) (weights_cells g (tg_shape tg) (tg_axis tg))) ->
  forall draws, draws <> [] ->
  exists m, (0 < m <= length draws)%nat /\ (m = length draws \/ 12 <= m)%nat /\
    weights_loop (fun v => map (fun tg => F g tg (gradient scale os tg v)) tgs) draws 0
                 (zeros tgs) None =
    map (fun tg => map (fun cell => average (estimate scale os tg cell) (firstn m draws))
                       (weights_cells g (tg_shape tg) (tg_axis tg))) tgs.
Proof using.
  clear Hgood Htg. intros HF draws Hd.
  destruct (weights_loop_prefix (fun v => map (fun tg => F g tg (gradient scale os tg v)) tgs)
              draws 0 (zeros tgs) None) as (m & Hm & Hx & H0 & E).
  specialize (H0 Hd).
  exists m. split; [lia|]. split; [unfold MIN_HESSIAN_ITER in Hx; lia|].
  rewrite E. unfold zeros.
  assert (X : torch_act_loop (fun v => map Some (map (fun tg => F g tg (gradient scale os tg v)) tgs))
                (firstn m draws) 0 (map (fun _ => [0]) tgs) =
              map (fun tg => one_loop (fun v => Some (F g tg (gradient scale os tg v)))
                               (firstn m draws) 0 [0]) tgs).
  { rewrite <- (loop_targets (fun tg v => Some (F g tg (gradient scale os tg v))) tgs
                  (firstn m draws) 0 (fun _ => [0])).
    apply loop_ext. intro v. apply map_map. }
  rewrite X. apply map_ext_in. intros tg Hin.
  rewrite <- one_loop_mean.
  - apply one_loop_ext. intro v. now rewrite HF.
  - destruct m; [lia|]. destruct draws; [now elim Hd|discriminate].
Qed.

End Weights.

(** Scores of weights, PyTorch.  For every model, every kernel and every
    sequence of random vectors, entry by entry: the average over the first
    [m] random vectors of the squared derivatives, summed over the elements
    the entry covers, of the random combination of all elements of all
    outputs, divided by the number of rows of the concatenated output.  All
    random vectors are used, or at least twelve. *)
Theorem torch_weights_scores : forall (O : Type) g (o : outs O) tgs b,
  good_outputs o b -> good_kernels tgs ->
  exists os, Permutation os (elements o) /\
  forall draws, draws <> [] ->
  exists m, (0 < m <= length draws)%nat /\ (m = length draws \/ 12 <= m)%nat /\
    torch_weights_compute g o tgs draws =
    Ok (map (fun tg =>
          map (fun cell => average (estimate (/ INR (output_rows o b)) os tg cell) (firstn m draws))
              (weights_cells g (tg_shape tg) (tg_axis tg))) tgs).
Proof.
  intros O g o tgs b Hg Ht. destruct (concat_good o b Hg) as (mm & Em & Lm & _ & P).
  exists (concat mm). split; [exact P|]. intros draws Hd.
  destruct (weights_run g tgs torch_weights_approx (/ INR (output_rows o b)) (concat mm))
    with (draws := draws) as (m & Hm & Hx & E).
  - intros tg v Hin. apply torch_weights_cells. now apply Ht.
  - exact Hd.
  - exists m. split; [exact Hm|]. split; [exact Hx|].
    unfold torch_weights_compute. rewrite Em. cbn [bind].
    rewrite (forallb_conn tgs Ht), Lm. f_equal. exact E.
Qed.
Print Assumptions torch_weights_scores.

(** The same for Keras, where the combination is not divided. *)
Theorem keras_weights_scores : forall (O : Type) g (o : outs O) tgs b,
  good_outputs o b -> good_kernels tgs ->
  exists os, Permutation os (elements o) /\
  forall draws, draws <> [] ->
  exists m, (0 < m <= length draws)%nat /\ (m = length draws \/ 12 <= m)%nat /\
    keras_weights_compute g o tgs draws =
    Ok (map (fun tg =>
          map (fun cell => average (estimate 1 os tg cell) (firstn m draws))
              (weights_cells g (tg_shape tg) (tg_axis tg))) tgs).
Proof.
  intros O g o tgs b Hg Ht. destruct (concat_good o b Hg) as (mm & Em & Lm & _ & P).
  exists (concat mm). split; [exact P|]. intros draws Hd.
  destruct (weights_run g tgs keras_weights_approx 1 (concat mm))
    with (draws := draws) as (m & Hm & Hx & E).
  - intros tg v Hin. apply keras_weights_cells. now apply Ht.
  - exact Hd.
  - exists m. split; [exact Hm|]. split; [exact Hx|].
    unfold keras_weights_compute. rewrite Em. cbn [bind].
    rewrite (forallb_conn tgs Ht). f_equal. exact E.
Qed.
Print Assumptions keras_weights_scores.

(** Scores of activations, PyTorch: all random vectors are used; scores of
    output channels are means over the positions of the channel. *)
Definition channel_size (g : gran) (s : list nat) : R :=
  match g with GChannel => INR (prod (skipn 2 s)) | _ => 1 end.

Theorem torch_activation_scores : forall (O : Type) g (l : list (item O)) tgs b,
  good_outputs (Items l) b -> good_acts b tgs ->
  exists os, Permutation os (elements (Items l)) /\
  forall draws, draws <> [] ->
    torch_act_compute g l tgs draws =
    Ok (map (fun tg =>
          map (fun cell => average (fun v => estimate 1 os tg cell v /
                                             channel_size g (tg_shape tg)) draws)
              (torch_act_cells g (tg_shape tg))) tgs).
Proof.
  intros O g l tgs b Hg Ht. destruct (concat_good (Items l) b Hg) as (mm & Em & Lm & _ & P).
  exists (concat mm). split; [exact P|]. intros draws Hd.
  unfold torch_act_compute. rewrite Em. cbn [bind]. f_equal.
  unfold act_approx, zeros. rewrite (loop_targets _ tgs draws 0 (fun _ => [0])).
  apply map_ext_in. intros tg Hin. destruct (Ht tg Hin) as (Hc & c & r & Es).
  rewrite <- one_loop_mean by exact Hd. apply one_loop_ext. intro v. rewrite Hc.
  rewrite (torch_act_cells_ok 1 (concat mm) g tg v b c r Es). f_equal.
  apply map_ext. intro cell. f_equal. rewrite Es. unfold channel_size, tdiv.
  destruct g; try reflexivity. destruct r; reflexivity.
Qed.
Print Assumptions torch_activation_scores.

(** An activation on which the outputs do not depend gets the single score
    zero, and does not disturb the scores of the others.  (PyTorch) *)
Theorem torch_unused_activations : forall (O : Type) g (l : list (item O)) tgs b,
  good_outputs (Items l) b -> good_acts b (filter tg_conn tgs) ->
  exists os, Permutation os (elements (Items l)) /\
  forall draws, draws <> [] ->
    torch_act_compute g l tgs draws =
    Ok (map (fun tg =>
          if tg_conn tg
          then map (fun cell => average (fun v => estimate 1 os tg cell v /
                                                  channel_size g (tg_shape tg)) draws)
                   (torch_act_cells g (tg_shape tg))
          else [0]) tgs).
Proof.
  intros O g l tgs b Hg Ht. destruct (concat_good (Items l) b Hg) as (mm & Em & Lm & _ & P).
  exists (concat mm). split; [exact P|]. intros draws Hd.
  unfold torch_act_compute. rewrite Em. cbn [bind]. f_equal.
  unfold act_approx, zeros. rewrite (loop_targets _ tgs draws 0 (fun _ => [0])).
  apply map_ext_in. intros tg Hin. destruct (tg_conn tg) eqn:Hc; [|apply one_loop_none].
  destruct (Ht tg ltac:(apply filter_In; auto)) as (_ & c & r & Es).
  rewrite <- one_loop_mean by exact Hd. apply one_loop_ext. intro v.
  rewrite (torch_act_cells_ok 1 (concat mm) g tg v b c r Es). f_equal.
  apply map_ext. intro cell. f_equal. rewrite Es. unfold channel_size, tdiv.
  destruct g; try reflexivity. destruct r; reflexivity.
Qed.
Print Assumptions torch_unused_activations.

(** Scores of activations, Keras: early exit for scores of whole tensors
    only. *)
Theorem keras_activation_scores : forall (O : Type) g (l : list (item O)) tgs b,
  good_outputs (Items l) b -> good_acts b tgs -> tgs <> [] ->
  exists os, Permutation os (elements (Items l)) /\
  forall draws, draws <> [] ->
  exists m, (0 < m <= length draws)%nat /\ (m = length draws \/ g = GTensor /\ 12 <= m)%nat /\
    keras_act_compute g l tgs draws =
    Ok (map (fun tg =>
          map (fun cell => average (estimate 1 os tg cell) (firstn m draws))
              (keras_act_cells g (tg_shape tg))) tgs).
Proof.
  intros O g l tgs b Hg Ht Hn. destruct (concat_good (Items l) b Hg) as (mm & Em & Lm & _ & P).
  exists (concat mm). split; [exact P|]. intros draws Hd.
  unfold keras_act_compute. rewrite Em. cbn [bind].
  destruct (keras_act_loop_prefix g (act_approx keras_act_approx g (concat mm) tgs) b (length tgs))
    with (draws := draws) (j := 0%nat) (sc := zeros tgs) (prev := @None vec) as (m & Hm & Hx & H0 & E).
  - destruct tgs; [now elim Hn|cbn; lia].
  - intro v. unfold act_approx. apply map_length.
  - intros Hgt v a Hin. unfold act_approx in Hin. apply in_map_iff in Hin as (tg & Ea & Hin).
    destruct (Ht tg Hin) as (Hc & c & r & Es). rewrite Hc in Ea.
    eexists. split; [symmetry; exact Ea|].
    rewrite (keras_act_cells_ok 1 (concat mm) g tg v b c r Es), map_length, Hgt, Es.
    unfold keras_act_cells, act_cells. rewrite map_length, seq_length. reflexivity.
  - unfold zeros. apply map_length.
  - reflexivity.
  - intros s Hs. unfold zeros in Hs. apply in_map_iff in Hs as (? & <- & _). left. auto.
  - specialize (H0 Hd). exists m. split; [lia|].
    split; [unfold MIN_HESSIAN_ITER in Hx; destruct Hx as [Hx | [Hx1 Hx2]]; [now left|right; split; [exact Hx1|lia]]|].
    rewrite E. f_equal.
    unfold act_approx, zeros. rewrite (loop_targets _ tgs (firstn m draws) 0 (fun _ => [0])).
    apply map_ext_in. intros tg Hin. destruct (Ht tg Hin) as (Hc & c & r & Es).
    rewrite <- one_loop_mean.
    + apply one_loop_ext. intro v. rewrite Hc.
      rewrite (keras_act_cells_ok 1 (concat mm) g tg v b c r Es). reflexivity.
    + destruct m; [lia|]. destruct draws; [now elim Hd|discriminate].
Qed.
Print Assumptions keras_activation_scores.

Lemma true_score_perm {O} scale (a b : list O) tg cell : Permutation a b ->
  true_score scale a tg cell = true_score scale b tg cell.
Proof.
  intro P. unfold true_score. apply sumR_map_ext. intros k _.
  apply sumR_perm. now apply Permutation_map.
Qed.

Lemma average_ext {A} (f g : A -> R) l :
  (forall x, In x l -> f x = g x) -> average f l = average g l.
Proof. intro H. unfold average. f_equal. now apply sumR_map_ext. Qed.

Lemma expected_entry {O} (compute : list (list bool) -> result (list vec)) (tgs : list (target O))
      scale os N i tg (cells : target O -> list (list nat)) (div : target O -> R) q :
  (0 < N)%nat ->
  (forall ds, In ds (all_draws (length os) N) ->
     compute ds = Ok (map (fun t => map (fun cell => average (fun v => estimate scale os t cell v / div t) ds)
                                        (cells t)) tgs)) ->
  nth_error tgs i = Some tg -> (q < length (cells tg))%nat ->
  average (fun ds => entry (compute ds) i q) (all_draws (length os) N) =
  true_score scale os tg (nth q (cells tg) []) / div tg.
Proof.
  intros HN HC Hi Hq.
  transitivity (average (fun ds => average (fun v => estimate scale os tg (nth q (cells tg) []) v / div tg) ds)
                        (all_draws (length os) N)).
  { apply average_ext. intros ds Hds.
    rewrite (HC ds Hds). cbn [entry]. unfold vec.
    rewrite (nth_error_nth (map (fun t => map (fun cell => average (fun v => estimate scale os t cell v / div t) ds) (cells t)) tgs) i []
               (x := map (fun cell => average (fun v => estimate scale os tg cell v / div tg) ds) (cells tg)))
      by (rewrite nth_error_map, Hi; reflexivity).
    rewrite nth_indep with (d' := average (fun v => estimate scale os tg [] v / div tg) ds)
      by (rewrite map_length; exact Hq).
    now rewrite (map_nth (fun cell => average (fun v => estimate scale os tg cell v / div tg) ds)). }
  rewrite (draws_average (fun v => estimate scale os tg (nth q (cells tg) []) v / div tg)) by exact HN.
  unfold average. rewrite sumR_map_div.
  pose proof (estimate_average scale os tg (nth q (cells tg) [])) as EA. unfold average in EA.
  rewrite <- EA. unfold Rdiv. ring.
Qed.

Lemma firstn_draws {A} (ds : list A) N m : length ds = N -> (N <= 12)%nat ->
  (0 < m <= length ds)%nat -> (m = length ds \/ 12 <= m)%nat -> firstn m ds = ds.
Proof. intros. apply firstn_all2. lia. Qed.

Lemma draws_nonempty n N ds : (0 < N)%nat -> In ds (all_draws n N) -> ds <> [].
Proof. intros H Hd ->. destruct (all_draws_in _ _ _ Hd) as [L _]. cbn in L. lia. Qed.

(** Unbiased: averaged over all sequences of at most twelve sign vectors, each
    entry of a score of weights is the sum of the squared derivatives of the
    outputs by the elements it covers (over the squared number of rows, in
    PyTorch). *)
Theorem weights_scores_unbiased : forall (O : Type) g (o : outs O) tgs b N i tg q,
  good_outputs o b -> good_kernels tgs -> (0 < N <= 12)%nat ->
  nth_error tgs i = Some tg -> 
  (q < length (weights_cells g (tg_shape tg) (tg_axis tg)))%nat ->
  let cell := nth q (weights_cells g (tg_shape tg) (tg_axis tg)) [] in
  average (fun ds => entry (torch_weights_compute g o tgs ds) i q)
          (all_draws (length (elements o)) N) =
    true_score (/ INR (output_rows o b)) (elements o) tg cell /\
  average (fun ds => entry (keras_weights_compute g o tgs ds) i q)
          (all_draws (length (elements o)) N) =
    true_score 1 (elements o) tg cell.
Proof.
  intros O g o tgs b N i tg q Hg Ht HN Hi Hq cell.
  assert (D1 : forall x, x / 1 = x) by (intro; field).
  assert (GEN : forall compute scale,
    (exists os, Permutation os (elements o) /\
      forall draws, draws <> [] ->
      exists m, (0 < m <= length draws)%nat /\ (m = length draws \/ 12 <= m)%nat /\
        compute draws =
        Ok (map (fun tg =>
          map (fun cell => average (estimate scale os tg cell) (firstn m draws))
              (weights_cells g (tg_shape tg) (tg_axis tg))) tgs)) ->
    average (fun ds => entry (compute ds) i q) (all_draws (length (elements o)) N) =
    true_score scale (elements o) tg cell).
  { intros compute scale (os & P & H).
    rewrite <- (true_score_perm scale os (elements o) tg cell P).
    rewrite <- (Permutation_length P).
    rewrite (expected_entry compute tgs scale os N i tg
               (fun t => weights_cells g (tg_shape t) (tg_axis t)) (fun _ => 1) q); auto.
    - lia.
    - intros ds Hds. destruct (H ds (draws_nonempty _ _ _ (proj1 HN) Hds)) as (m & Hm & Hx & E).
      destruct (all_draws_in _ _ _ Hds) as [L _].
      rewrite E, (firstn_draws ds N m L (proj2 HN) Hm Hx). f_equal.
      apply map_ext. intro t. apply map_ext. intro c. unfold average. f_equal.
      apply sumR_map_ext. intros v _. now rewrite D1. }
  split; apply GEN.
  - now apply torch_weights_scores.
  - now apply (keras_weights_scores O g o tgs b).
Qed.
Print Assumptions weights_scores_unbiased.

(** Unbiased, activations: for any number of iterations in PyTorch, and in
    Keras for scores of channels and elements; for at most twelve of them in
    Keras for scores of whole tensors. *)
Theorem activation_scores_unbiased : forall (O : Type) g (l : list (item O)) tgs b N i tg q,
  good_outputs (Items l) b -> good_acts b tgs -> (0 < N)%nat ->
  nth_error tgs i = Some tg ->
  ((q < length (torch_act_cells g (tg_shape tg)))%nat ->
   average (fun ds => entry (torch_act_compute g l tgs ds) i q)
           (all_draws (length (elements (Items l))) N) =
     true_score 1 (elements (Items l)) tg (nth q (torch_act_cells g (tg_shape tg)) []) /
     channel_size g (tg_shape tg)) /\
  ((q < length (keras_act_cells g (tg_shape tg)))%nat -> (g = GTensor -> (N <= 12)%nat) ->
   average (fun ds => entry (keras_act_compute g l tgs ds) i q)
           (all_draws (length (elements (Items l))) N) =
     true_score 1 (elements (Items l)) tg (nth q (keras_act_cells g (tg_shape tg)) [])).
Proof.
  intros O g l tgs b N i tg q Hg Ht HN Hi. split.
  - intro Hq. destruct (torch_activation_scores O g l tgs b Hg Ht) as (os & P & H).
    rewrite <- (true_score_perm 1 os _ tg _ P), <- (Permutation_length P).
    apply (expected_entry (torch_act_compute g l tgs) tgs 1 os N i tg
             (fun t => torch_act_cells g (tg_shape t)) (fun t => channel_size g (tg_shape t)) q); auto.
    intros ds Hds. apply H. exact (draws_nonempty _ _ _ HN Hds).
  - intros Hq H12.
    assert (D1 : forall x, x / 1 = x) by (intro; field).
    destruct (keras_activation_scores O g l tgs b Hg Ht) as (os & P & H).
    { intro E. rewrite E in Hi. destruct i; discriminate. }
    rewrite <- (true_score_perm 1 os _ tg _ P), <- (Permutation_length P).
    rewrite (expected_entry (keras_act_compute g l tgs) tgs 1 os N i tg
             (fun t => keras_act_cells g (tg_shape t)) (fun t => 1) q); auto.
    intros ds Hds. destruct (H ds (draws_nonempty _ _ _ HN Hds)) as (m & Hm & Hx & E).
    destruct (all_draws_in _ _ _ Hds) as [L _].
    rewrite E. assert (firstn m ds = ds) as ->.
    { apply firstn_all2. destruct Hx as [-> | [Eg Hx]]; [lia|]. specialize (H12 Eg). lia. }
    f_equal. apply map_ext. intro t. apply map_ext. intro c. unfold average. f_equal.
    apply sumR_map_ext. intros v _. now rewrite D1.
Qed.
Print Assumptions activation_scores_unbiased.

Lemma index_bound ax s k : (ax < length s)%nat -> (k < prod s)%nat ->
  (nth ax (index s k) 0 < nth ax s 1)%nat.
Proof.
  intros Ha Hk. rewrite index_coord by assumption. unfold coord. apply Nat.mod_upper_bound.
  clear - Ha Hk. revert ax k Ha Hk. induction s as [|d r IH]; intros ax k Ha Hk; [cbn in Ha; lia|].
  cbn [prod] in Hk. destruct ax as [|ax]; [cbn; nia|]. cbn [nth].
  apply (IH ax (k mod prod r)%nat); [cbn in Ha; lia|]. apply Nat.mod_upper_bound. nia.
Qed.

(** The entries of a score of weights cover every element of the kernel
    exactly once, at each granularity. *)
Theorem weights_cells_cover : forall g s ax, (ax < length s)%nat ->
  Permutation (concat (weights_cells g s ax)) (seq 0 (prod s)).
Proof.
  intros g s ax Hax. destruct g; cbn [weights_cells].
  - cbn. now rewrite app_nil_r.
  - unfold select. apply partition_filter. intros k Hk. apply in_seq in Hk.
    apply index_bound; lia.
  - unfold singles. induction (seq 0 (prod s)) as [|x xs IH]; [constructor|].
    cbn. now constructor.
Qed.
Print Assumptions weights_cells_cover.

(** Hence scores of channels, and of elements, add up to the score of the
    kernel (for the same random vectors, at most twelve). *)
Theorem weights_granularities_add_up : forall (O : Type) g g' (o : outs O) tgs b draws i,
  good_outputs o b -> good_kernels tgs -> draws <> [] -> (length draws <= 12)%nat ->
  exists r r', torch_weights_compute g o tgs draws = Ok r /\
               torch_weights_compute g' o tgs draws = Ok r' /\
               sumR (nth i r []) = sumR (nth i r' []) /\
  exists k k', keras_weights_compute g o tgs draws = Ok k /\
               keras_weights_compute g' o tgs draws = Ok k' /\
               sumR (nth i k []) = sumR (nth i k' []).
Proof.
  intros O g g' o tgs b draws i Hg Ht Hd HL.
  assert (SUM : forall scale (os : list O) gg tg, In tg tgs ->
     sumR (map (fun cell => average (estimate scale os tg cell) draws)
               (weights_cells gg (tg_shape tg) (tg_axis tg))) =
     average (fun v => estimate scale os tg (seq 0 (prod (tg_shape tg))) v) draws).
  { intros scale os gg tg Hin. unfold average. rewrite sumR_map_div. f_equal.
    rewrite sumR_swap. apply sumR_map_ext. intros v _. unfold estimate.
    rewrite <- (map_map (fun cell => map (fun k => derivative scale os tg v k ^ 2) cell) sumR).
    rewrite <- sumR_concat, <- concat_map.
    apply sumR_perm, Permutation_map, weights_cells_cover. now apply Ht. }
  assert (NTH : forall scale (os : list O) ga gb,
     sumR (nth i (map (fun tg => map (fun cell => average (estimate scale os tg cell) draws)
              (weights_cells ga (tg_shape tg) (tg_axis tg))) tgs) []) =
     sumR (nth i (map (fun tg => map (fun cell => average (estimate scale os tg cell) draws)
              (weights_cells gb (tg_shape tg) (tg_axis tg))) tgs) [])).
  { intros scale os ga gb. destruct (nth_error tgs i) as [tg|] eqn:Ei.
    - pose proof (nth_error_In _ _ Ei) as Hin.
      erewrite !nth_error_nth by (rewrite nth_error_map, Ei; reflexivity).
      now rewrite !SUM.
    - apply nth_error_None in Ei. rewrite !nth_overflow by (rewrite map_length; exact Ei).
      reflexivity. }
  destruct (concat_good o b Hg) as (mm & Em & Lm & _ & _).
  assert (T : forall gg, torch_weights_compute gg o tgs draws =
     Ok (map (fun tg => map (fun cell => average (estimate (/ INR (output_rows o b)) (concat mm) tg cell) draws)
              (weights_cells gg (tg_shape tg) (tg_axis tg))) tgs)).
  { intro gg. destruct (weights_run gg tgs torch_weights_approx (/ INR (output_rows o b)) (concat mm))
      with (draws := draws) as (m & Hm & Hx & E).
    - intros tg v Hin. apply torch_weights_cells. now apply Ht.
    - exact Hd.
    - unfold torch_weights_compute. rewrite Em. cbn [bind].
      rewrite (forallb_conn tgs Ht), Lm, E, firstn_all2 by lia. reflexivity. }
  assert (K : forall gg, keras_weights_compute gg o tgs draws =
     Ok (map (fun tg => map (fun cell => average (estimate 1 (concat mm) tg cell) draws)
              (weights_cells gg (tg_shape tg) (tg_axis tg))) tgs)).
  { intro gg. destruct (weights_run gg tgs keras_weights_approx 1 (concat mm))
      with (draws := draws) as (m & Hm & Hx & E).
    - intros tg v Hin. apply keras_weights_cells. now apply Ht.
    - exact Hd.
    - unfold keras_weights_compute. rewrite Em. cbn [bind].
      rewrite (forallb_conn tgs Ht), E, firstn_all2 by lia. reflexivity. }
  do 2 eexists. split; [apply T|]. split; [apply T|]. split; [apply NTH|].
  do 2 eexists. split; [apply K|]. split; [apply K|]. apply NTH.
Qed.
Print Assumptions weights_granularities_add_up.

(** Scores of activations, PyTorch: the scores of an image do not depend on
    the other images of the batch.  They are the scores of the image alone,
    for the part of the random vectors that multiplies its outputs. *)
Theorem torch_scores_per_image : forall (O : Type) g (l : list (item O)) tgs b image_of i draws,
  good_outputs (Items l) b -> good_acts b tgs -> separate_images image_of l tgs ->
  (i < b)%nat -> draws <> [] ->
  (forall v, In v draws -> length v = (b * image_outputs l)%nat) ->
  exists all one,
    torch_act_compute g l tgs draws = Ok all /\
    torch_act_compute g (map (image_item i) l) (map (image_target i) tgs)
                      (map (part (image_outputs l) i) draws) = Ok one /\
    length one = length tgs /\
    forall n, (n < length tgs)%nat ->
      length (nth n all []) = (b * length (nth n one []))%nat /\
      nth n one [] = part (length (nth n one [])) i (nth n all []).
Proof.
  intros O g l tgs b image_of i draws Hg Ht Hs Hi Hd Hv.
  exact (image_scores l b image_of tgs Hg Hs i Hi g draws Hd Hv Ht).
Qed.
Print Assumptions torch_scores_per_image.

(** Outputs with different numbers of images are refused, by all four
    calculators. *)
Theorem different_batches_refused : forall (O : Type) g (l : list (item O)) tgs draws t t',
  (forall x, In x (tensors (Items l)) -> exists d r, t_shape x = S d :: r) ->
  In t (tensors (Items l)) -> In t' (tensors (Items l)) ->
  hd 0%nat (t_shape t) <> hd 0%nat (t_shape t') ->
  torch_weights_compute g (Items l) tgs draws = Err E_critical /\
  keras_weights_compute g (Items l) tgs draws = Err E_critical /\
  torch_act_compute g l tgs draws = Err E_critical /\
  keras_act_compute g l tgs draws = Err E_critical.
Proof.
  intros O g l tgs draws t t' Hs Ht Ht' Hne.
  assert (C : concat_tensors (Items l) = Err E_critical).
  { unfold concat_tensors. rewrite unfold_items. cbn [bind].
    set (ts := tensors (Items l)) in *.
    assert (M : mapM as_rows ts = Ok (map rows ts)).
    { clear - Hs. induction ts as [|x xs IH]; [reflexivity|]. cbn [mapM map].
      destruct (Hs x (or_introl eq_refl)) as (d & r & E).
      assert (A : as_rows x = Ok (rows x)) by (unfold as_rows, rows; rewrite E; reflexivity).
      rewrite A. cbn [bind]. rewrite IH by (intros y Hy; apply Hs; now right). reflexivity. }
    rewrite M. cbn [bind]. destruct ts as [|x xs]; [destruct Ht|]. cbn [map].
    destruct (forallb _ (map rows xs)) eqn:F; [|reflexivity]. exfalso.
    assert (A : forall y, In y (x :: xs) -> hd 0%nat (t_shape y) = length (rows x)).
    { intros y [<- | Hy].
      - unfold rows. now rewrite chunks_length.
      - rewrite forallb_forall in F. specialize (F (rows y) (in_map rows _ _ Hy)).
        apply Nat.eqb_eq in F. rewrite <- F. unfold rows. now rewrite chunks_length. }
    apply Hne. now rewrite (A t Ht), (A t' Ht'). }
  unfold torch_weights_compute, keras_weights_compute, torch_act_compute, keras_act_compute.
  rewrite C. repeat split.
Qed.
Print Assumptions different_batches_refused.

(** The entries of a score of an activation cover every element exactly once
    in Keras and in PyTorch, at each granularity. *)
Theorem activation_cells_cover : forall g b c r,
  Permutation (concat (torch_act_cells g (b :: c :: r))) (seq 0 (prod (b :: c :: r))) /\
  Permutation (concat (keras_act_cells g (b :: c :: r))) (seq 0 (prod (b :: c :: r))).
Proof.
  intros g b c r. set (s := b :: c :: r).
  assert (FA : forall (p q : nat -> bool) l, filter (fun k => p k && q k) l = filter q (filter p l)).
  { intros p q l. induction l as [|x l IH]; [reflexivity|]. cbn.
    destruct (p x); cbn; [destruct (q x); now rewrite IH|exact IH]. }
  assert (GEN : forall chan n,
     (forall k, (k < prod s)%nat -> (chan (index s k) < n)%nat) ->
     Permutation (concat (act_cells chan n g s)) (seq 0 (prod s))).
  { intros chan n Hc. 
    assert (H0 : forall k, In k (seq 0 (prod s)) -> (nth 0 (index s k) 0 < b)%nat).
    { intros k Hk. apply in_seq in Hk. apply (index_bound 0 s k); [cbn; lia|lia]. }
    destruct g; cbn [act_cells].
    - unfold select. apply partition_filter. exact H0.
    - change (nth 0 s 1%nat) with b.
      transitivity (concat (map (fun i => filter (fun k => Nat.eqb (nth 0 (index s k) 0%nat) i)
                                                 (seq 0 (prod s))) (seq 0 b)));
        [|apply (partition_filter (fun k => nth 0 (index s k) 0%nat) b (seq 0 (prod s)) H0)].
      rewrite flat_map_concat_map. induction (seq 0 b) as [|i is IH]; [constructor|].
      cbn [map concat]. rewrite concat_app. apply Permutation_app; [|exact IH].
      unfold select.
      rewrite (map_ext (fun c0 => filter (fun k => Nat.eqb (nth 0 (index s k) 0%nat) i &&
                                                   Nat.eqb (chan (index s k)) c0) (seq 0 (prod s)))
                 (fun c0 => filter (fun k => Nat.eqb (chan (index s k)) c0)
                              (filter (fun k => Nat.eqb (nth 0 (index s k) 0%nat) i) (seq 0 (prod s)))))
        by (intro; apply FA).
      apply (partition_filter (fun k => chan (index s k))).
      intros k Hk. apply filter_In in Hk as [Hk _]. apply in_seq in Hk. apply Hc. lia.
    - unfold singles. clear. induction (seq 0 (prod s)) as [|x xs IH]; [constructor|].
      cbn [map concat app]. apply perm_skip. exact IH. }
  split; apply GEN; intros k Hk.
  - apply (index_bound 1 s k); [cbn; lia|exact Hk].
  - unfold s in *. cbn [prod] in Hk. rewrite index_last by exact Hk.
    apply Nat.mod_upper_bound. intro E.
    destruct (prod_last b (c :: r)) as (m & Ep). rewrite E in Ep. cbn [prod] in Ep. lia.
Qed.
Print Assumptions activation_cells_cover.
