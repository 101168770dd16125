(* FakeQProps.v -- C79: activation quantizers inside the framework agree with the numpy quantizers. *)
From Verif Require Import Base RoundQ RoundQFacts QuantModel QuantProofs QuantSpec QuantLemmas LutModel LutProofs FakeQModel FakeQSpec FakeQProofs.
From Coq Require Import Qround Qpower Setoid Qabs Lia Lqa.
Open Scope Q_scope.

(* bit-widths a framework's fake quantization takes *)
Definition supported (f : fw) (n : Z) : Prop := match f with Torch => (1 <= n)%Z | Keras => (2 <= n <= 16)%Z end.

Lemma forall2_map {A B} (P : A -> B -> Prop) f xs : (forall x, P x (f x)) -> Forall2 P xs (map f xs).
Proof. intro H. induction xs; constructor; auto. Qed.
Lemma sym_quantizer_ok xs n s t : 0 < t -> symmetric_quantizer xs n s (Some t) = Ok (map (quantize_elem t n s) xs).
Proof. intro H. unfold symmetric_quantizer. destruct (Qle_bool t 0) eqn:E; [apply Qle_bool_iff in E; lra|reflexivity]. Qed.

Lemma sym_run f n p t s xs : fp_threshold p = Some t -> fp_signed p = Some s -> 0 < t -> supported f n ->
  exists e, quantize_node_output f M_sym n p xs = Ok (map e xs) /\
    (forall x, nearest (step t n s) (code_min n s) (code_max n s) x (e x)) /\
    (f = Torch -> exists sc, sc == step t n s /\ e = torch_elem sc 0 (code_min n s) (code_max n s)).
Proof.
  intros Et Es Ht Hs. assert (1 <= n)%Z as Hn by (destruct f; cbn in Hs; lia). pose proof (step_pos t n s Hn Ht) as Hp.
  pose proof (code_le n s Hn) as Hc. unfold quantize_node_output, fake_quant_fn. destruct f.
  - unfold torch_symmetric. rewrite Et, Es. destruct (torch_range_eq s n t Hn) as (sc & -> & Esc). cbn [bind]. unfold torch_q.
    rewrite (proj2 (Z.leb_le _ _) (proj1 Hc)), (proj2 (Z.leb_le _ _) (proj2 Hc)). cbn [andb]. eexists. split; [reflexivity|]. split; [|intros _; exists sc; split; [exact Esc|reflexivity]].
    intro x. eapply nearest_proper; [exact Esc|reflexivity|]. apply torch_nearest0; [lra|lia].
  - unfold keras_symmetric. rewrite Et, Es. destruct (keras_symmetric_range s n t) as [mn mx] eqn:Er. cbn [bind]. unfold tf_q. cbn in Hs.
    rewrite (proj2 (Z.leb_le _ _) (proj1 Hs)), (proj2 (Z.leb_le _ _) (proj2 Hs)). cbn [andb]. eexists. split; [reflexivity|]. split; [|discriminate].
    intro x. set (d := step t n s) in *.
    assert (mn == inject_Z (code_min n s) * d /\ mx == inject_Z (code_max n s) * d) as [E1 E2].
    { unfold keras_symmetric_range in Er. injection Er as <- <-. unfold d, step, code_min, code_max. destruct s.
      - rewrite pow2_Z by lia. assert (0 < inject_Z (2 ^ (n - 1))) as P by (change 0 with (inject_Z 0); apply ZQ_lt; apply Z.pow_pos_nonneg; lia).
        rewrite inject_Z_opp, inject_Z_sub. change (inject_Z 1) with 1. split; field; lra.
      - rewrite pow2_Z by lia. assert (0 < inject_Z (2 ^ n)) as P by (change 0 with (inject_Z 0); apply ZQ_lt; apply Z.pow_pos_nonneg; lia).
        rewrite inject_Z_sub. change (inject_Z 1) with 1. change (inject_Z 0) with 0. split; field; lra. }
    assert (code_max n s - code_min n s = 2 ^ n - 1)%Z as Ew.
    { unfold code_max, code_min. destruct s; [|lia]. replace n with (Z.succ (n - 1)) at 3 by lia. rewrite Z.pow_succ_r by lia. lia. }
    assert (1 <= inject_Z (2 ^ n - 1)) as HN by (apply inject_steps_pos; exact Hn).
    assert (inject_Z (code_max n s) - inject_Z (code_min n s) == inject_Z (2 ^ n - 1)) as Ewq by (rewrite <- Ew, inject_Z_sub; reflexivity).
    pose proof (ZQ_le _ _ (proj1 Hc)) as C1. pose proof (ZQ_le _ _ (proj2 Hc)) as C2. change (inject_Z 0) with 0 in C1, C2.
    destruct (tf_nearest mn mx n x) as [Hz Hnr]; [rewrite E1, E2; nra|rewrite E1, E2; nra|exact Hn|].
    assert ((mx - mn) / inject_Z (2 ^ n - 1) == d) as Ed by (rewrite E1, E2, <- Ewq; field; lra).
    set (d1 := (mx - mn) / inject_Z (2 ^ n - 1)) in *. clearbody d1.
    assert (tf_zp mn d1 = - code_min n s)%Z as Ezp.
    { unfold tf_zp, round_half_up. assert (- (mn / d1) == inject_Z (- code_min n s)) as -> by (rewrite E1, Ed, inject_Z_opp; field; lra). apply floor_Z_half. }
    rewrite Ezp in Hnr. replace (- - code_min n s)%Z with (code_min n s) in Hnr by lia.
    replace (2 ^ n - 1 - - code_min n s)%Z with (code_max n s) in Hnr by lia.
    eapply nearest_proper; [exact Ed|reflexivity|exact Hnr].
Qed.

(* C79.  Symmetric and power-of-two activation quantizers of either framework round every element to the nearest value of
   the n-bit grid of the threshold, and so does the numpy quantizer used when the threshold was chosen; they agree on
   every element that is not half-way between two grid values.  PyTorch agrees on those too, unless it quantizes to one
   signed bit. *)
Theorem framework_symmetric_quantizers : forall f m n p t s xs,
  m = M_sym \/ (m = M_pot /\ exists k, t == Qpower 2 k) ->
  fp_threshold p = Some t -> fp_signed p = Some s -> 0 < t -> supported f n ->
  exists ys zs, quantize_node_output f m n p xs = Ok ys /\ symmetric_quantizer xs n s (Some t) = Ok zs /\
    Forall2 (nearest (step t n s) (code_min n s) (code_max n s)) xs ys /\
    Forall2 (nearest (step t n s) (code_min n s) (code_max n s)) xs zs /\
    (forall i x y z, nth_error xs i = Some x -> nth_error ys i = Some y -> nth_error zs i = Some z ->
       tie_free (step t n s) x \/ (f = Torch /\ (s = true -> 2 <= n)%Z) -> y == z).
Proof.
  intros f m n p t s xs Hm Et Es Ht Hs. assert (1 <= n)%Z as Hn by (destruct f; cbn in Hs; lia).
  assert (quantize_node_output f m n p xs = quantize_node_output f M_sym n p xs) as ->.
  { destruct Hm as [->|[-> [k Ek]]]; [reflexivity|]. pose proof (pow_is_pot t k Ht Ek) as P.
    unfold quantize_node_output, fake_quant_fn. destruct f; unfold torch_pot, keras_pot; rewrite Et, Es, P; reflexivity. }
  destruct (sym_run f n p t s xs Et Es Ht Hs) as (e & E & He & HT). exists (map e xs), (map (quantize_elem t n s) xs).
  split; [exact E|]. split; [apply sym_quantizer_ok; exact Ht|].
  split; [apply forall2_map; exact He|]. split; [apply forall2_map; intro x; apply numpy_sym_nearest; assumption|].
  intros i x y z Hx Hy Hz C. rewrite nth_error_map, Hx in Hy, Hz. cbn in Hy, Hz. injection Hy as <-. injection Hz as <-.
  destruct C as [C|[-> C]].
  - eapply nearest_unique; [apply (step_pos t n s Hn Ht)|exact C|apply He|apply numpy_sym_nearest; assumption].
  - destruct (HT eq_refl) as (sc & Esc & ->). rewrite (quantize_is_grid t n s Ht Hn x). symmetry.
    assert (exists h, sym_k0 n s = 2 * h)%Z as [h Eh].
    { unfold sym_k0. destruct s; [|exists 0%Z; reflexivity]. exists (2 ^ (n - 2))%Z. rewrite <- Z.pow_succ_r by (specialize (C eq_refl); lia). f_equal. lia. }
    rewrite Eh. pose proof (delta_pos t n s Ht) as Hd. pose proof (delta_step t n s Hn) as Eds.
    etransitivity; [apply (gq_torch _ _ (steps n) h x Hd (steps_pos n Hn)); reflexivity|].
    rewrite code_min_k0, code_max_k0, Eh by exact Hn. unfold torch_elem.
    assert (x / calculate_delta t n s == x / sc) as Ex by (rewrite Eds, Esc; reflexivity). rewrite (round_proper _ _ Ex). generalize (round_half_even (x / sc)). intro r. rewrite Eds, Esc. reflexivity.
Qed.
Print Assumptions framework_symmetric_quantizers.

(* C79.  A power-of-two quantizer is refused for any other threshold, and every quantizer when a parameter is missing. *)
Theorem framework_quantizers_refuse : forall f n p xs,
  (forall t s, fp_threshold p = Some t -> fp_signed p = Some s -> 0 < t -> (forall k, ~ t == Qpower 2 k) ->
     quantize_node_output f M_pot n p xs = Err E_critical) /\
  (fp_threshold p = None \/ fp_signed p = None ->
     quantize_node_output f M_pot n p xs = Err E_critical /\ quantize_node_output f M_sym n p xs = Err E_critical) /\
  (fp_min p = None \/ fp_max p = None -> quantize_node_output f M_uniform n p xs = Err E_critical).
Proof.
  intros f n p xs. unfold quantize_node_output, fake_quant_fn. split; [|split].
  - intros t s Et Es Ht Hk.
    assert (threshold_is_power_of_two t = Some false) as P.
    { destruct (threshold_is_power_of_two t) as [[|]|] eqn:E; [|reflexivity|].
      - destruct (pot_is_pow t E) as [k Ek]. destruct (Hk k Ek).
      - unfold threshold_is_power_of_two in E. destruct (Qle_bool t 0) eqn:L; [apply Qle_bool_iff in L; lra|discriminate]. }
    destruct f; unfold torch_pot, keras_pot; rewrite Et, Es, P; reflexivity.
  - intros H. destruct f; unfold torch_pot, keras_pot, torch_symmetric, keras_symmetric; destruct (fp_threshold p), (fp_signed p);
      destruct H; try discriminate; split; reflexivity.
  - intros H. destruct f; unfold torch_uniform, keras_uniform; destruct (fp_min p), (fp_max p); destruct H; try discriminate; reflexivity.
Qed.
Print Assumptions framework_quantizers_refuse.

(* C79.  The uniform activation quantizer rounds every element to the nearest value of the same 2^n-value grid, containing
   zero, as the numpy quantizer; they agree on every element that is not half-way between two grid values.  In Keras:
   for ranges that contain zero and whose lower end is not half-way between two multiples of the step. *)
Theorem framework_uniform_quantizers : forall f n p lo hi xs,
  fp_min p = Some lo -> fp_max p = Some hi -> lo < hi -> supported f n ->
  (f = Keras -> lo <= 0 <= hi /\ tie_free (range_step lo hi n) lo) ->
  exists ys zs kmin, quantize_node_output f M_uniform n p xs = Ok ys /\ uniform_quantizer xs n (Some lo) (Some hi) = Ok zs /\
    (kmin <= 0 <= kmin + (2 ^ n - 1))%Z /\
    Forall2 (nearest (range_step lo hi n) kmin (kmin + (2 ^ n - 1))) xs ys /\
    Forall2 (nearest (range_step lo hi n) kmin (kmin + (2 ^ n - 1))) xs zs /\
    (forall i x y z, nth_error xs i = Some x -> nth_error ys i = Some y -> nth_error zs i = Some z ->
       tie_free (range_step lo hi n) x -> y == z).
Proof.
  intros f n p lo hi xs Elo Ehi Hlt Hs HK. assert (1 <= n)%Z as Hn by (destruct f; cbn in Hs; lia).
  pose proof (uniform_torch lo hi n Hlt Hn) as U. destruct (fix_range_to_include_zero (lo0 lo) (hi0 hi) n) as [a b] eqn:E. cbv zeta in U.
  set (scale := (b - a) / (Qpower 2 n - 1)) in *. set (zp := (- round_half_even (a / scale))%Z) in *. destruct U as (Es & Hsc & Hz & U).
  assert (exists e, quantize_node_output f M_uniform n p xs = Ok (map e xs) /\ forall x, nearest (range_step lo hi n) (- zp) (2 ^ n - 1 - zp) x (e x)) as (e & Ee & He).
  { unfold quantize_node_output, fake_quant_fn. destruct f.
    - unfold torch_uniform. rewrite Elo, Ehi. fold (lo0 lo). fold (hi0 hi). rewrite E. cbn [bind]. fold scale. fold zp. unfold torch_q.
      rewrite (proj2 (Z.leb_le _ _) (proj1 Hz)), (proj2 (Z.leb_le _ _) (proj2 Hz)). cbn [andb]. eexists. split; [reflexivity|]. intro x. apply U.
    - unfold keras_uniform. rewrite Elo, Ehi. cbn [bind]. unfold tf_q. cbn in Hs.
      rewrite (proj2 (Z.leb_le _ _) (proj1 Hs)), (proj2 (Z.leb_le _ _) (proj2 Hs)). cbn [andb]. eexists. split; [reflexivity|]. intro x.
      destruct (HK eq_refl) as [Hin Htf]. destruct (tf_nearest lo hi n x Hlt Hin Hn) as [Hz' Hnr].
      assert ((hi - lo) / inject_Z (2 ^ n - 1) == range_step lo hi n) as Ed.
      { unfold range_step. rewrite (proj2 (Qle_bool_iff 0 hi) (proj2 Hin)), (proj2 (Qle_bool_iff lo 0) (proj1 Hin)). reflexivity. }
      set (d1 := (hi - lo) / inject_Z (2 ^ n - 1)) in *.
      assert (tf_zp lo d1 = zp) as Ez; [|rewrite Ez in Hnr; eapply nearest_proper; [exact Ed|reflexivity|exact Hnr]].
      assert (lo0 lo = lo) as L0 by (destruct (lo0_case lo) as [[H _]|[_ ->]]; [lra|reflexivity]).
      assert (hi0 hi = hi) as H0 by (destruct (hi0_case hi) as [[H _]|[_ ->]]; [lra|reflexivity]).
      pose proof (inject_steps_pos n Hn) as HN. unfold steps in HN.
      assert (0 < d1) as Hd1 by (rewrite Ed, <- Es; exact Hsc).
      unfold tf_zp. rewrite round_up_even.
      2:{ intros k Hk. apply (Htf k). rewrite <- Ed, <- Hk. field. lra. }
      unfold zp. f_equal. rewrite L0, H0 in E. unfold fix_range_to_include_zero in E.
      rewrite (proj2 (Qlt_b_false 0 lo) (proj1 Hin)), (proj2 (Qlt_b_false hi 0) (proj2 Hin)) in E. cbn [negb andb b2q] in E. injection E as Ea _.
      assert ((hi - lo) / (Qpower 2 n - 1) == d1) as Ed2 by (unfold d1; rewrite pow2m1_steps by exact Hn; reflexivity).
      assert (lo / ((hi - lo) / (Qpower 2 n - 1)) == lo / d1) as Er by (rewrite Ed2; reflexivity).
      rewrite (round_proper _ _ Er) in Ea.
      assert (a / scale == inject_Z (round_half_even (lo / d1))) as Eas.
      { rewrite <- Ea, Ed2, Es, <- Ed. field. lra. }
      rewrite (round_proper _ _ Eas), round_Z. reflexivity. }
  exists (map e xs), (map (uniform_quantize_elem lo hi n) xs), (- zp)%Z. replace (- zp + (2 ^ n - 1))%Z with (2 ^ n - 1 - zp)%Z by lia.
  split; [exact Ee|]. split; [reflexivity|]. split; [lia|]. split; [apply forall2_map; exact He|]. split; [apply forall2_map; intro x; apply U|].
  intros i x y z Hx Hy Hzz C. rewrite nth_error_map, Hx in Hy, Hzz. cbn in Hy, Hzz. injection Hy as <-. injection Hzz as <-.
  assert (0 < range_step lo hi n) as Hr by lra. eapply nearest_unique; [exact Hr|exact C|apply He|apply U].
Qed.
Print Assumptions framework_uniform_quantizers.

(* C79.  The table quantizer returns, for every element, a table value nearest to the scaled and clipped element, scaled
   back; for signed tables of whole numbers it is the quantizer used for weights. *)
Theorem framework_lut_quantizer : forall f n p lut t s xs, fp_lut p = Some lut -> fp_threshold p = Some t -> fp_signed p = Some s ->
  lut <> [] ->
  exists ys, quantize_node_output f M_lut n p xs = Ok ys /\
    Forall2 (fun x y => exists c, In c lut /\ y == c * t / inject_Z (2 ^ (if s then 7 else 8)) /\
      let v := clip (x / (t + EPS) * inject_Z (2 ^ (if s then 7 else 8))) (if s then -128#1 else 0) (if s then 127#1 else 255#1) in
      forall c', In c' lut -> Qabs (v - c) <= Qabs (v - c')) xs ys /\
    (s = true -> (forall c, In c lut -> exists k, c == inject_Z k) ->
     exists zs, mapM (lut_kmeans_quantizer_elem lut t) xs = Ok zs /\ Forall2 Qeq ys zs).
Proof.
  intros f n p lut t s xs El Et Es Hne.
  assert (forall x, exists y c, lut_elem lut t s x = Ok y /\ In c lut /\ y = c / Qpower 2 (LUT_VALUES_BITWIDTH - b2z s) * t /\
     (forall c', In c' lut -> Qabs (int_quantization_with_threshold t LUT_VALUES_BITWIDTH s x - c) <= Qabs (int_quantization_with_threshold t LUT_VALUES_BITWIDTH s x - c')) /\
     (s = true -> lut_kmeans_quantizer_elem lut t x = Ok (get_quantized c t LUT_VALUES_BITWIDTH))) as A.
  { intro x. unfold lut_elem. set (v := int_quantization_with_threshold t LUT_VALUES_BITWIDTH s x).
    destruct (kmeans_assign lut v) as [i|] eqn:Ei.
    - destruct (kmeans_assign_lem lut v i Ei) as (c & Hc & Hn). cbn [bind]. rewrite Hc. do 2 eexists. split; [reflexivity|]. split; [eapply nth_error_In; exact Hc|].
      split; [reflexivity|]. split; [exact Hn|]. intros ->. unfold lut_kmeans_quantizer_elem. fold v. rewrite Ei. cbn [bind]. rewrite Hc. reflexivity.
    - exfalso. unfold kmeans_assign in Ei. destruct (SearchProofs.argmin_nonempty (map (fun c => SearchModel.qabs (v - c)) lut)) as (i & w & E); [destruct lut; [tauto|discriminate]|].
      rewrite E in Ei. discriminate. }
  assert (quantize_node_output f M_lut n p xs = mapM (lut_elem lut t s) xs) as ->.
  { unfold quantize_node_output, fake_quant_fn, lut_fake_quant. destruct f; rewrite El, Et, Es; reflexivity. }
  induction xs as [|x xs IH].
  - exists []. split; [reflexivity|]. split; [constructor|]. intros _ _. exists []. split; [reflexivity|constructor].
  - destruct IH as (ys & Ey & Hy & Hz). destruct (A x) as (y & c & E1 & E2 & E3 & E4 & E5). exists (y :: ys). cbn [mapM]. rewrite E1. cbn [bind]. rewrite Ey. cbn [bind].
    split; [reflexivity|]. split.
    + constructor; [|exact Hy]. exists c. split; [exact E2|]. split.
      * rewrite E3. assert (Qpower 2 (LUT_VALUES_BITWIDTH - b2z s) == inject_Z (2 ^ (if s then 7 else 8))) as -> by (destruct s; reflexivity).
        assert (~ inject_Z (2 ^ (if s then 7 else 8)) == 0) by (destruct s; discriminate). field. assumption.
      * cbv zeta. intros c' Hc'. specialize (E4 c' Hc'). unfold int_quantization_with_threshold in E4. destruct s; exact E4.
    + intros Hs Hi. destruct (Hz Hs Hi) as (zs & Ez & Fz). rewrite (E5 Hs). cbn [bind]. rewrite Ez. cbn [bind]. eexists. split; [reflexivity|].
      constructor; [|exact Fz]. rewrite E3. unfold get_quantized. destruct (Hi c E2) as [k Hk]. rewrite (round_proper _ _ Hk), round_Z, Hk. subst s. reflexivity.
Qed.
Print Assumptions framework_lut_quantizer.
