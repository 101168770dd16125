(* ActParamProps.v -- C70: activation quantization parameters from the collected statistics *)
From Coq Require Import Lia Reals Qreals Qabs.
From Coq Require Lra.
From Coq Require Import Lqa.
From Verif Require Import Base RoundQ RoundQFacts QuantModel QuantLemmas SearchModel SearchProofs KLModel KLProofs
  CollectModel CollectSpec CollectProofs ActParamModel ActParamSpec ActParamProofs ActParamZProofs.
Open Scope Q_scope.

(* ---- outliers ---- *)
(* A bin is cleared exactly when its z-score -- on the reals, with the true standard deviation -- exceeds the
   threshold; every other bin keeps its count, and when all the weight sits on one value nothing is cleared. *)
Theorem outliers_by_z_score : forall z bins counts out,
  0 <= z -> Forall (fun c => 0 <= c) counts -> 0 < sumQ counts -> z_score_filter (Some z) bins counts = Ok out ->
  length out = length counts /\
  forall i b c, nth_error (removelast bins) i = Some b -> nth_error counts i = Some c ->
    let s := hsample bins counts in
    ((0 < rstd s)%R ->
      ((zscore s (Q2R b) > Q2R z)%R -> nth_error out i = Some 0) /\
      ((zscore s (Q2R b) <= Q2R z)%R -> nth_error out i = Some c)) /\
    (rstd s = 0%R -> 0 < c -> nth_error out i = Some c).
Proof.
  intros z bins counts out Hz N P H. assert (~ sumQ counts == 0) as N0 by lra.
  destruct (zfilter_inv _ _ _ _ H N0) as [L E]. split; [subst out; rewrite map2_length; lia|].
  intros i b c Hb Hc s. pose proof (f_equal (fun l => nth_error l i) E) as En. cbn beta in En. rewrite (map2_nth _ _ _ _ _ _ Hb Hc) in En. unfold is_outlier in En. rewrite (qlt_f z 0) in En by exact Hz.
  set (mu := h_mu (removelast bins) counts) in *. set (v := h_var (removelast bins) counts) in *.
  pose proof (var_nonneg (removelast bins) counts N P) as Hv. fold v in Hv.
  assert (rstd s = sqrt (Q2R v)) as Es by (unfold s; rewrite sample_std by assumption; reflexivity).
  assert (zscore s (Q2R b) = (Rabs (Q2R (b - mu)) / sqrt (Q2R v))%R) as Ez.
  { unfold zscore. rewrite Es. unfold s. rewrite sample_mean by assumption. rewrite Q2R_minus. reflexivity. }
  assert (0 <= Q2R v)%R as Hvr by (rewrite <- q2r0; apply Qle_Rle; exact Hv).
  assert (0 <= Q2R z)%R as Hzr by (rewrite <- q2r0; apply Qle_Rle; exact Hz).
  split.
  - intro Hs. assert (0 < Q2R v)%R as Hvp.
    { destruct Hvr as [Hvr|Hvr]; [exact Hvr|]. rewrite Es, <- Hvr, sqrt_0 in Hs. exfalso. apply (Rlt_irrefl _ Hs). }
    pose proof (abs_div_gt (Q2R (b - mu)) (Q2R v) (Q2R z) Hvp Hzr) as [A B]. rewrite <- !Q2R_mult in A, B. rewrite Ez. split; intro Hgt.
    + apply A in Hgt. apply Rlt_Qlt in Hgt. rewrite (qlt_t _ _ Hgt) in En. exact En.
    + destruct (Qlt_b (z * z * v) ((b - mu) * (b - mu))) eqn:Eo; [|exact En]. exfalso. apply qlt_iff in Eo. apply Qlt_Rlt in Eo.
      apply B in Eo. apply Rgt_lt in Eo. apply (Rlt_irrefl (Q2R z)). eapply Rlt_le_trans; [exact Eo|exact Hgt].
  - intros Hs Hcp. assert (Q2R v = 0%R) as Hv0.
    { rewrite Es in Hs. apply sqrt_eq_0; assumption. }
    assert (v == 0) as Ev by (apply eqR_Qeq; rewrite Hv0, q2r0; reflexivity).
    destruct (Qlt_b (z * z * v) ((b - mu) * (b - mu))) eqn:Eo; [|exact En]. exfalso. apply qlt_iff in Eo.
    pose proof (var_total (removelast bins) counts P) as T. fold mu v in T.
    assert (0 < wsum (map (fun b => (b - mu) * (b - mu)) (removelast bins)) counts) as W.
    { clearbody mu v. clear - Hb Hc Hcp Eo N Ev. assert (0 < (b - mu) * (b - mu)) as Hp by (setoid_replace (z * z * v) with 0 in Eo by (rewrite Ev; ring); exact Eo). clear Eo Ev.
      revert counts i Hb Hc N. generalize (removelast bins) as l. induction l as [|x l IH]; intros [|y cs] [|i] Hb Hc N; cbn in Hb, Hc; try discriminate;
        inversion N; subst; cbn [map]; rewrite wsum_cons.
      - injection Hb as ->. injection Hc as ->. pose proof (mul_pos _ c Hp Hcp).
        assert (0 <= wsum (map (fun b0 => (b0 - mu) * (b0 - mu)) l) cs); [|lra].
        clear - H2. revert cs H2. induction l as [|x l IH]; intros [|y cs] N; try (cbn; lra). cbn [map]. rewrite wsum_cons. inversion N; subst.
        specialize (IH cs ltac:(assumption)). pose proof (mul_nn _ y (sq_nn (x - mu)) ltac:(assumption)). lra.
      - specialize (IH cs i Hb Hc ltac:(assumption)). pose proof (mul_nn _ y (sq_nn (x - mu)) ltac:(assumption)). lra. }
    setoid_replace (v * sumQ counts) with 0 in T by (rewrite Ev; ring). lra.
Qed.
Print Assumptions outliers_by_z_score.

(* Chebyshev: the share of the observations cleared is at most 1 / z^2. *)
Theorem outlier_weight_bounded : forall z bins counts out,
  0 < z -> Forall (fun c => 0 <= c) counts -> z_score_filter (Some z) bins counts = Ok out ->
  z * z * (sumQ counts - sumQ out) <= sumQ counts.
Proof.
  intros z bins counts out Hz N H. assert (0 <= sumQ counts) as P0 by (clear - N; induction N; [cbn; lra|]; rewrite sumQ_cons; lra).
  destruct (Qlt_le_dec 0 (sumQ counts)) as [P|P].
  2:{ assert (sumQ counts == 0) as E0 by lra. unfold z_score_filter in H. destruct (negb _); [discriminate|].
      destruct (Qeq_bool (sumQ counts) 0) eqn:Eb; [|apply Qeq_bool_neq in Eb; contradiction]. injection H as <-.
      setoid_replace (sumQ counts - sumQ counts) with 0 by ring. lra. }
  destruct (zfilter_inv _ _ _ _ H ltac:(lra)) as [L ->].
  set (mu := h_mu (removelast bins) counts). set (v := h_var (removelast bins) counts).
  pose proof (var_nonneg (removelast bins) counts N P) as Hv. fold v in Hv.
  pose proof (cheb mu v z ltac:(lra) (removelast bins) counts N L Hv) as C. pose proof (var_total (removelast bins) counts P) as T. fold mu v in T.
  rewrite T in C. set (D := sumQ counts - sumQ _) in *.
  destruct (Qlt_le_dec 0 v) as [Vp|V0].
  - apply (Qmult_le_l _ _ v Vp). lra.
  - (* every bin holding weight is at the mean *)
    assert (v == 0) as Ev by lra.
    assert (D == 0) as ED; [|setoid_replace (z * z * D) with 0 by (rewrite ED; ring); lra].
    assert (wsum (map (fun b => (b - mu) * (b - mu)) (removelast bins)) counts == 0) as W by (rewrite T, Ev; ring).
    unfold D. assert (sumQ counts == sumQ (map2 (fun b c => if is_outlier (Some z) mu v b then 0 else c) (removelast bins) counts)) as E; [|lra].
    clearbody mu v. clear - W N L Hz Ev. revert counts W N L. generalize (removelast bins) as l. induction l as [|x l IH]; intros [|y cs] W N L; cbn in L; try discriminate; [reflexivity|].
    inversion N; subst. cbn [map] in W. rewrite wsum_cons in W. cbn [map2]. rewrite !sumQ_cons.
    assert (0 <= wsum (map (fun b0 => (b0 - mu) * (b0 - mu)) l) cs) as Hr.
    { clear - H2. revert cs H2. induction l as [|x l IH]; intros [|y cs] N; try (cbn; lra). cbn [map]. rewrite wsum_cons. inversion N; subst.
      specialize (IH cs ltac:(assumption)). pose proof (mul_nn _ y (sq_nn (x - mu)) ltac:(assumption)). lra. }
    pose proof (mul_nn _ y (sq_nn (x - mu)) H1) as Hx. assert (wsum (map (fun b0 => (b0 - mu) * (b0 - mu)) l) cs == 0) as W' by lra.
    pose proof (IH cs W' H2 ltac:(lia)) as IHc.
    assert (y == (if is_outlier (Some z) mu v x then 0 else y)) as Ey; [|lra].
    unfold is_outlier. rewrite (qlt_f z 0) by lra. destruct (Qlt_b _ _) eqn:Eo; [|reflexivity]. apply qlt_iff in Eo.
    setoid_replace (z * z * v) with 0 in Eo by (rewrite Ev; ring).
    destruct (Qlt_le_dec 0 y) as [Hy|Hy]; [|lra]. pose proof (mul_pos _ y Eo Hy). lra.
Qed.
Print Assumptions outlier_weight_bounded.

(* With a threshold of at least one standard deviation the filter always leaves something to select parameters from. *)
Theorem outlier_filter_keeps_something : forall z bins counts out,
  1 <= z -> Forall (fun c => 0 <= c) counts -> 0 < sumQ counts -> z_score_filter (Some z) bins counts = Ok out ->
  exists i c, nth_error out i = Some c /\ nth_error counts i = Some c /\ 0 < c.
Proof.
  intros z bins counts out Hz N P H. destruct (zfilter_inv _ _ _ _ H ltac:(lra)) as [L E].
  set (mu := h_mu (removelast bins) counts) in *. set (v := h_var (removelast bins) counts) in *.
  pose proof (var_nonneg (removelast bins) counts N P) as Hv. fold v in Hv.
  pose proof (var_total (removelast bins) counts P) as T. fold mu v in T.
  destruct (existsb (fun p => Qlt_b 0 (snd p) && negb (is_outlier (Some z) mu v (fst p))) (combine (removelast bins) counts)) eqn:Ex.
  - apply existsb_exists in Ex. destruct Ex as ([b c] & I & Hbc). apply andb_true_iff in Hbc. destruct Hbc as [Hc Ho]. apply qlt_iff in Hc.
    apply negb_true_iff in Ho. cbn [fst snd] in *. apply In_nth_error in I. destruct I as [i Ei].
    assert (nth_error (removelast bins) i = Some b /\ nth_error counts i = Some c) as [E1 E2].
    { clear - Ei. revert counts i Ei. generalize (removelast bins) as l. induction l as [|x l IH]; intros [|y cs] [|i] Ei; cbn in *; try discriminate; [|eauto]. injection Ei as -> ->. auto. }
    exists i, c. subst out. rewrite (map2_nth _ _ _ _ _ _ E1 E2), Ho. auto.
  - exfalso. destruct (kept_lem z mu v Hz Hv (removelast bins) counts N L) as [_ K].
    { intros i b c H1 H2 H3. destruct (is_outlier (Some z) mu v b) eqn:Eo; [reflexivity|]. exfalso.
      assert (In (b, c) (combine (removelast bins) counts)) as I.
      { clear - H1 H2. revert counts i H1 H2. generalize (removelast bins) as l. induction l as [|x l IH]; intros [|y cs] [|i] H1 H2; cbn in *; try discriminate; [left; congruence|right; eauto]. }
      assert (existsb (fun p => Qlt_b 0 (snd p) && negb (is_outlier (Some z) mu v (fst p))) (combine (removelast bins) counts) = true) as Et.
      { apply existsb_exists. exists (b, c). split; [exact I|]. cbn [fst snd]. rewrite Eo, (qlt_t _ _ H3). reflexivity. }
      rewrite Ex in Et. discriminate. }
    specialize (K P). lra.
Qed.
Print Assumptions outlier_filter_keeps_something.

(* An infinite threshold -- the default -- changes nothing. *)
Lemma no_filter bins counts out : z_score_filter None bins counts = Ok out -> out = counts.
Proof.
  unfold z_score_filter. destruct (Nat.eqb _ _) eqn:E; [|discriminate]. cbn [negb]. apply Nat.eqb_eq in E. destruct (Qeq_bool _ _); intro H; injection H as <-; [reflexivity|].
  cbn [is_outlier]. revert counts E. generalize (removelast bins) as l. induction l as [|x l IH]; intros [|y cs] E; cbn in *; try discriminate; [reflexivity|]. f_equal. apply IH. lia.
Qed.

(* ---- parameters of a node ---- *)
Section Node.
  Variable search : act_method -> err_method -> list Q -> list Q -> Z -> Q -> bool -> result act_params.
  (* the searches report the signedness they were asked for (C12 and C64 establish it for those modelled) *)
  Definition keeps_sign : Prop := forall m e b c n t s r, search m e b c n t s = Ok r -> signed_of r = s.

  Lemma selection_sign m e b c n t s r : keeps_sign -> selection_histogram search m e b c n t s = Ok r -> signed_of r = s.
  Proof.
    intros K. unfold selection_histogram. destruct e, m; try (apply K).
    - destruct (pot_no_clipping_histogram b c t); [|discriminate]. cbn. intro H. injection H as <-. reflexivity.
    - destruct (sym_no_clipping_histogram b c t); [|discriminate]. cbn. intro H. injection H as <-. reflexivity.
    - destruct (uni_no_clipping_histogram b c) as [[x y]|]; [|discriminate]. cbn. intro H. injection H as <-. reflexivity.
  Qed.
  Lemma apply_sign f h n mn mx t e s r : keeps_sign -> apply_fn search f h n mn mx t e s = Ok r -> signed_of r = s.
  Proof. intros K. destruct f; cbn [apply_fn]; [destruct h as [[b c]|]; [|discriminate]|]; apply selection_sign; exact K. Qed.

  Lemma update_fields c p : ac_method (update_fn c p) = ac_method c /\ ac_bits (update_fn c p) = ac_bits c /\ ac_err (update_fn c p) = ac_err c /\
    ac_sign (update_fn c p) = ac_sign c /\ ac_z (update_fn c p) = ac_z c /\ ac_min_th (update_fn c p) = ac_min_th c.
  Proof. unfold update_fn. destruct (is_output_bounded p), (ac_method c) eqn:E; cbn; rewrite ?E; repeat split; reflexivity. Qed.
  (* one of the bounds of the output is not known *)
  Definition bound_unknown (p : prior) : Prop := pr_min p = None \/ pr_max p = None.
  Lemma unknown_bound p : bound_unknown p -> is_output_bounded p = false.
  Proof. unfold is_output_bounded. intros [-> | ->]; [reflexivity|]. destruct (pr_min p); reflexivity. Qed.
  Lemma update_unbounded c p : bound_unknown p -> update_fn c p = c.
  Proof. intro H. unfold update_fn. rewrite (unknown_bound p H). reflexivity. Qed.

  Lemma params_inv c p hc whc m c' r : get_activations_qparams search c p (SC_stats hc whc m) = Ok (c', r) ->
    c' = update_fn c p /\ exists bins counts counts' hc' mn mx s,
      h_get (match ac_err c with EM_hmse => whc | _ => hc end) = Ok (hc', (bins, counts)) /\ z_score_filter (ac_z c) bins counts = Ok counts' /\
      get_min_max_values m = Ok (mn, mx) /\ determine_signedness c p mn (Some (bins, counts')) = Ok s /\
      apply_fn search (ac_fn (update_fn c p)) (Some (bins, counts')) (ac_bits c) mn mx (ac_min_th c) (ac_err c) s = Ok r.
  Proof.
    unfold get_activations_qparams. destruct (update_fields c p) as (U1 & U2 & U3 & U4 & U5 & U6).
    unfold get_histogram_data. rewrite U3, U5.
    assert ((match ac_err c with EM_hmse => h_get whc | _ => h_get hc end) = h_get (match ac_err c with EM_hmse => whc | _ => hc end)) as -> by (destruct (ac_err c); reflexivity).
    destruct (h_get _) as [[hc' [bins counts]]|] eqn:E1; [|discriminate]. cbn [bind].
    destruct (z_score_filter _ _ _) as [counts'|] eqn:E2; [|discriminate]. cbn [bind].
    destruct (get_min_max_values m) as [[mn mx]|] eqn:E3; [|discriminate]. cbn [bind].
    assert (determine_signedness (update_fn c p) p mn (Some (bins, counts')) = determine_signedness c p mn (Some (bins, counts'))) as ->.
    { unfold determine_signedness. rewrite U4. reflexivity. }
    destruct (determine_signedness c p mn _) as [s|] eqn:E4; [|discriminate]. cbn [bind]. rewrite U2, U6.
    destruct (apply_fn _ _ _ _ _ _ _ _ _) as [r'|] eqn:E5; [|discriminate]. cbn [bind]. intro H. injection H as <- <-.
    split; [reflexivity|]. exists bins, counts, counts', hc', mn, mx, s. auto.
  Qed.

  (* A signedness requested for the activation is the signedness of its parameters, whatever was observed. *)
Theorem requested_sign_respected : forall c p s c' r, keeps_sign ->
    get_activations_qparams search c p s = Ok (c', r) ->
    (ac_sign c = SG_signed -> signed_of r = true) /\ (ac_sign c = SG_unsigned -> signed_of r = false).
  Proof.
    intros c p s c' r K H. destruct s as [hc whc m|].
    2:{ unfold get_activations_qparams in H. cbn in H. discriminate. }
    apply params_inv in H. destruct H as (_ & bins & counts & counts' & hc' & mn & mx & s & _ & _ & _ & H4 & H5).
    rewrite (apply_sign _ _ _ _ _ _ _ _ _ K H5). unfold determine_signedness in H4. split; intro E; rewrite E in H4; congruence.
  Qed.

  (* Without a request, outlier filtering or known bounds: unsigned parameters are chosen if and only if no observed
     value is negative, as long as no batch is constant (see constant_batch_signed_refuted). *)
Theorem automatic_sign_correct : forall c p xs n h whc m c' r, keeps_sign ->
    ac_sign c = SG_auto -> ac_z c = None -> ac_err c <> EM_hmse -> bound_unknown p ->
    xs <> [] -> foldM h_update xs (h_new (S n)) = Ok h ->
    get_activations_qparams search c p (SC_stats h whc m) = Ok (c', r) ->
    (signed_of r = false -> forall v, In v (concat xs) -> 0 <= v) /\
    (Forall (fun x => ~ constant x) xs -> (forall v, In v (concat xs) -> 0 <= v) -> signed_of r = false).
  Proof.
    intros c p xs n h whc m c' r K Hs Hz He Hb Hx Ef H. apply params_inv in H.
    destruct H as (_ & bins & counts & counts' & hc' & mn & mx & s & H1 & H2 & _ & H4 & H5).
    rewrite (apply_sign _ _ _ _ _ _ _ _ _ K H5). rewrite Hz in H2. apply no_filter in H2. subst counts'.
    assert (h_get h = Ok (hc', (bins, counts))) as H1' by (destruct (ac_err c); [exact H1|tauto|exact H1]).
    unfold determine_signedness in H4. rewrite Hs, (unknown_bound p Hb) in H4. injection H4 as <-.
    destruct (observed_edges n xs h hc' bins counts Hx Ef H1') as [A B]. split.
    - intros Es v Hv. destruct (A v Hv) as ((b & Ib & Hle) & _). destruct (Qlt_le_dec v 0) as [Hn|Hn]; [|exact Hn]. exfalso.
      assert (existsb (fun b => Qlt_b b 0) (masked (removelast bins) counts) = true) as Et; [|congruence].
      apply existsb_exists. exists b. split; [exact Ib|]. apply qlt_iff. lra.
    - intros Hc Hp. specialize (B Hp Hc). destruct (existsb _ _) eqn:Et; [|reflexivity]. apply existsb_exists in Et. destruct Et as (b & Ib & Hb').
      apply qlt_iff in Hb'. assert (In b bins) as Ibb; [|specialize (B b Ibb); lra].
      clear - Ib. revert counts Ib. induction bins as [|x bins IH]; intros counts Ib; [destruct Ib|]. destruct bins as [|y bins]; [destruct Ib|].
      change (removelast (x :: y :: bins)) with (x :: removelast (y :: bins)) in Ib. destruct counts as [|k counts]; [destruct Ib|]. cbn [masked] in Ib.
      destruct (Qlt_b 0 k); [destruct Ib as [->|Ib]; [left; reflexivity|]|]; right; apply (IH counts); exact Ib.
  Qed.

  (* No clipping, no outlier filtering, no known bounds.  Uniform: the range holds every observed value. *)
Theorem uniform_range_covers_observed : forall c p xs n h whc m c' r,
    ac_fn c = PF_hist AM_uni -> ac_err c = EM_noclip -> ac_z c = None -> bound_unknown p ->
    xs <> [] -> foldM h_update xs (h_new (S n)) = Ok h ->
    get_activations_qparams search c p (SC_stats h whc m) = Ok (c', r) ->
    forall v, In v (concat xs) -> in_range r v.
  Proof.
    intros c p xs n h whc m c' r Hf He Hz Hb Hx Ef H v Hv. apply params_inv in H.
    destruct H as (_ & bins & counts & counts' & hc' & mn & mx & s & H1 & H2 & _ & H4 & H5).
    rewrite Hz in H2. apply no_filter in H2. subst counts'. rewrite He in H1. rewrite update_unbounded, Hf, He in H5 by exact Hb. cbn [apply_fn selection_histogram] in H5.
    unfold uni_no_clipping_histogram in H5. destruct (list_min _) as [a|] eqn:E1; [|discriminate]. destruct (list_max _) as [b|] eqn:E2; [|discriminate].
    cbn [bind] in H5. injection H5 as <-. cbn [in_range].
    destruct (observed_edges n xs h hc' bins counts Hx Ef H1) as [A _]. destruct (A v Hv) as ((l & Il & Hl) & (q & Iq & Hq)).
    pose proof (list_min_le _ _ E1 l Il). pose proof (list_max_ge _ _ E2 q Iq). lra.
  Qed.

  (* Symmetric and power of two: the threshold is at least every observed value (see
     negative_side_clipped_refuted for the values below zero). *)
Theorem threshold_covers_observed_above : forall c p xs n h whc m c' r,
    ac_fn c = PF_hist AM_pot \/ ac_fn c = PF_hist AM_sym -> 0 < ac_min_th c ->
    ac_err c = EM_noclip -> ac_z c = None -> bound_unknown p ->
    xs <> [] -> foldM h_update xs (h_new (S n)) = Ok h ->
    get_activations_qparams search c p (SC_stats h whc m) = Ok (c', r) ->
    exists t, r = AP_threshold t (signed_of r) /\ ac_min_th c <= t /\ (ac_fn c = PF_hist AM_pot -> exists e, t = Qpower 2 e) /\
      forall v, In v (concat xs) -> v <= t.
  Proof.
    intros c p xs n h whc m c' r Hf Hm He Hz Hb Hx Ef H. apply params_inv in H.
    destruct H as (_ & bins & counts & counts' & hc' & mn & mx & s & H1 & H2 & _ & H4 & H5).
    rewrite Hz in H2. apply no_filter in H2. subst counts'. rewrite He in H1. rewrite update_unbounded, He in H5 by exact Hb.
    destruct (observed_edges n xs h hc' bins counts Hx Ef H1) as [A _].
    assert (forall l cs (b : Q), In b (masked (tl l) cs) -> exists x, In x (masked (tl (map qabs l)) cs) /\ b <= x) as Habs.
    { intros l cs b. destruct l as [|x l]; [destruct cs; intros []|]. cbn [tl map]. clear. revert cs. induction l as [|y l IH]; intros [|k cs] I; try destruct I. cbn [map masked] in *.
      destruct (Qlt_b 0 k).
      - destruct I as [->|I]; [exists (qabs b); split; [left; reflexivity|]; unfold qabs; destruct (Qle_bool_spec 0 b); lra|].
        destruct (IH cs I) as (q & Iq & Hq). exists q. split; [right|]; assumption.
      - exact (IH cs I). }
    assert (forall v tm, In v (concat xs) -> list_max (masked (tl (map qabs bins)) counts) = Ok tm -> v <= tm) as Hcov.
    { intros v tm Hv E. destruct (A v Hv) as (_ & (q & Iq & Hq)). destruct (Habs bins counts q Iq) as (w & Iw & Hw).
      pose proof (list_max_ge _ _ E w Iw). lra. }
    destruct Hf as [Hf|Hf]; rewrite Hf in H5; cbn [apply_fn selection_histogram] in H5.
    - destruct (pot_no_clipping_histogram bins counts (ac_min_th c)) as [t|] eqn:E; [|discriminate]. cbn [bind] in H5. injection H5 as <-.
      exists t. split; [reflexivity|]. destruct (pot_histogram_right_edges_lem _ _ _ _ Hm E) as (P1 & P2 & _). split; [exact P2|]. split; [intros _; exact P1|].
      unfold pot_no_clipping_histogram in E. destruct (list_max _) as [tm|] eqn:El; [|discriminate]. cbn [bind] in E. injection E as <-.
      intros v Hv. pose proof (Hcov v tm Hv eq_refl). destruct (max_power_of_two_lem tm (ac_min_th c) Hm) as (e & -> & Q1 & _). lra.
    - destruct (sym_no_clipping_histogram bins counts (ac_min_th c)) as [t|] eqn:E; [|discriminate]. cbn [bind] in H5. injection H5 as <-.
      exists t. split; [reflexivity|]. destruct (sym_histogram_right_edges_lem _ _ _ _ E) as (P2 & _). split; [exact P2|]. split; [intro; congruence|].
      unfold sym_no_clipping_histogram in E. destruct (list_max _) as [tm|] eqn:El; [|discriminate]. cbn [bind] in E. injection E as <-.
      intros v Hv. pose proof (Hcov v tm Hv eq_refl). pose proof (Qmax_ub_r (ac_min_th c) tm). lra.
  Qed.

  (* A node whose output is known to lie in [a, b]: the parameters are those of [a, b] whatever was observed, and
     they hold [a, b] when the method is uniform or b is the bound of larger magnitude. *)
Theorem bounded_parameters : forall c a b hc whc m c' r,
    ac_method c <> AM_lut -> 0 < ac_min_th c -> a <= b ->
    mm_init_min m = Some a -> mm_init_max m = Some b -> mm_ignore_init m = false ->
    let p := {| pr_min := Some a; pr_max := Some b |} in
    get_activations_qparams search c p (SC_stats hc whc m) = Ok (c', r) ->
    ac_method c' = ac_method c /\
    (ac_sign c = SG_auto -> (signed_of r = true <-> a < 0)) /\
    match ac_method c with
    | AM_uni => r = AP_range a b (signed_of r)
    | AM_sym => r = AP_threshold (Qmax_ (ac_min_th c) (qabs b)) (signed_of r)
    | AM_pot => exists e, r = AP_threshold (Qpower 2 e) (signed_of r) /\ ac_min_th c <= Qpower 2 e /\ qabs b <= Qpower 2 e
    | AM_lut => True
    end /\
    (ac_sign c = SG_auto -> ac_method c = AM_uni \/ - b <= a -> forall v, a <= v <= b -> in_range r v) /\
    (forall hc2 whc2 m2 r2, mm_init_min m2 = Some a -> mm_init_max m2 = Some b -> mm_ignore_init m2 = false ->
       get_activations_qparams search c p (SC_stats hc2 whc2 m2) = Ok r2 -> r2 = (c', r)).
  Proof.
    intros c a b hc whc m c' r Hl Hm Hab I1 I2 I3 p H.
    assert (forall hc whc m c' r, mm_init_min m = Some a -> mm_init_max m = Some b -> mm_ignore_init m = false ->
      get_activations_qparams search c p (SC_stats hc whc m) = Ok (c', r) ->
      c' = update_fn c p /\ exists s, determine_signedness c p a None = Ok s /\
        apply_fn search (PF_min_max (ac_method c)) None (ac_bits c) a b (ac_min_th c) (ac_err c) s = Ok r) as G.
    { clear - Hl. intros hc whc m c' r I1 I2 I3 H. apply params_inv in H.
      destruct H as (Hc & bins & counts & counts' & hc' & mn & mx & s & _ & _ & H3 & H4 & H5). split; [exact Hc|]. exists s.
      unfold get_min_max_values in H3. destruct (mm_min m); [|discriminate]. destruct (mm_max m); [|discriminate]. cbn [bind] in H3. rewrite I1, I2, I3 in H3.
      injection H3 as <- <-. split; [unfold determine_signedness in *; cbn [is_output_bounded pr_min pr_max p] in *; exact H4|].
      unfold update_fn in H5. cbn [is_output_bounded pr_min pr_max p] in H5. destruct (ac_method c) eqn:Em; [..|tauto]; cbn [ac_fn apply_fn] in *; exact H5. }
    destruct (G _ _ _ _ _ I1 I2 I3 H) as (Hc & s & Hs & Ha). split; [subst c'; apply update_fields|].
    assert (signed_of r = s) as Es.
    { cbn [apply_fn] in Ha. unfold selection_histogram in Ha. destruct (ac_method c); [destruct (pot_no_clipping_histogram _ _ _)|destruct (sym_no_clipping_histogram _ _ _)|destruct (uni_no_clipping_histogram _ _) as [[x y]|]|tauto];
      try discriminate; cbn in Ha; injection Ha as <-; reflexivity. }
    assert (ac_sign c = SG_auto -> (s = true <-> a < 0)) as Hsa.
    { intro E. unfold determine_signedness in Hs. rewrite E in Hs. cbn in Hs. injection Hs as <-. apply qlt_iff. }
    split; [rewrite Es; exact Hsa|].
    assert (forall t, ac_sign c = SG_auto -> - b <= a -> b <= t -> forall v, a <= v <= b -> (if s then - t else 0) <= v <= t) as Hcov.
    { intros t E Hba Ht v Hv. specialize (Hsa E). destruct s; [lra|]. destruct (Qlt_le_dec a 0) as [Hn|Hn]; [|lra]. exfalso. destruct Hsa as [_ Hsa]. specialize (Hsa Hn). discriminate. }
    assert (forall t, qabs b <= t -> b <= t) as Hqb by (intros t Ht; unfold qabs in Ht; destruct (Qle_bool_spec 0 b); lra).
    assert (masked (tl (map qabs [a; b])) [1] = [qabs b]) as Em by reflexivity.
    split; [|split].
    - cbn [apply_fn] in Ha. unfold selection_histogram in Ha. destruct (ac_method c) eqn:Emm.
      + unfold pot_no_clipping_histogram in Ha. rewrite Em in Ha. cbn [list_max fold_left bind] in Ha. injection Ha as <-. cbn [signed_of].
        destruct (max_power_of_two_lem (qabs b) (ac_min_th c) Hm) as (e & -> & Q1 & Q2 & _). exists e. auto.
      + unfold sym_no_clipping_histogram in Ha. rewrite Em in Ha. cbn [list_max fold_left bind] in Ha. injection Ha as <-. reflexivity.
      + unfold uni_no_clipping_histogram in Ha. cbn in Ha. injection Ha as <-. reflexivity.
      + exact I.
    - intros E Hor v Hv. cbn [apply_fn] in Ha. unfold selection_histogram in Ha. destruct (ac_method c) eqn:Emm; [..|tauto].
      + unfold pot_no_clipping_histogram in Ha. rewrite Em in Ha. cbn [list_max fold_left bind] in Ha. injection Ha as <-. cbn [in_range].
        apply Hcov; auto; [destruct Hor; [discriminate|assumption]|]. apply Hqb. destruct (max_power_of_two_lem (qabs b) (ac_min_th c) Hm) as (e & -> & Q1 & _). exact Q1.
      + unfold sym_no_clipping_histogram in Ha. rewrite Em in Ha. cbn [list_max fold_left bind] in Ha. injection Ha as <-. cbn [in_range].
        apply Hcov; auto; [destruct Hor; [discriminate|assumption]|]. apply Hqb. apply Qmax_ub_r.
      + unfold uni_no_clipping_histogram in Ha. cbn in Ha. injection Ha as <-. exact Hv.
    - intros hc2 whc2 m2 [c2 r2] J1 J2 J3 H2. destruct (G _ _ _ _ _ J1 J2 J3 H2) as (Hc2 & s2 & Hs2 & Ha2). congruence.
  Qed.

  (* Which statistics are read: the Hessian-weighted histogram for HMSE and the plain one otherwise; and apart from the
     parameter function of a bounded node the configuration is left as it was. *)
Theorem statistics_read : forall c p hc whc m,
    (ac_err c = EM_hmse -> forall hc2, get_activations_qparams search c p (SC_stats hc2 whc m) = get_activations_qparams search c p (SC_stats hc whc m)) /\
    (ac_err c <> EM_hmse -> forall whc2, get_activations_qparams search c p (SC_stats hc whc2 m) = get_activations_qparams search c p (SC_stats hc whc m)) /\
    (forall c' r, get_activations_qparams search c p (SC_stats hc whc m) = Ok (c', r) ->
       (bound_unknown p -> c' = c) /\
       ac_method c' = ac_method c /\ ac_bits c' = ac_bits c /\ ac_err c' = ac_err c /\ ac_sign c' = ac_sign c /\ ac_z c' = ac_z c /\ ac_min_th c' = ac_min_th c).
  Proof.
    intros c p hc whc m. destruct (update_fields c p) as (U1 & U2 & U3 & U4 & U5 & U6). split; [|split].
    - intros E hc2. unfold get_activations_qparams, get_histogram_data. rewrite U3, E. reflexivity.
    - intros E whc2. unfold get_activations_qparams, get_histogram_data. rewrite U3. destruct (ac_err c); [reflexivity|tauto|reflexivity].
    - intros c' r H. apply params_inv in H. destruct H as (-> & _). split; [apply update_unbounded|]. auto 10.
  Qed.
End Node.
Print Assumptions requested_sign_respected.
Print Assumptions automatic_sign_correct.
Print Assumptions uniform_range_covers_observed.
Print Assumptions threshold_covers_observed_above.
Print Assumptions bounded_parameters.
Print Assumptions statistics_read.
