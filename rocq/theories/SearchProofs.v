(* SearchProofs.v -- proofs about SearchModel.v *)
From Verif Require Import Base RoundQ RoundQFacts QuantModel QuantSpec QuantProofs QuantLemmas SearchModel.
From Coq Require Import Qround Qpower Lqa Qabs.
Open Scope Q_scope.

Lemma Forall2_length {A B} (R : A -> B -> Prop) l m : Forall2 R l m -> length l = length m.
Proof. induction 1; cbn; congruence. Qed.
Lemma Forall2_impl {A B} (R S : A -> B -> Prop) : (forall a b, R a b -> S a b) -> forall l m, Forall2 R l m -> Forall2 S l m.
Proof. intros H l m F. induction F; constructor; auto. Qed.

Lemma mapM_Forall2 {A B} (f : A -> result B) l : forall ys, mapM f l = Ok ys -> Forall2 (fun x y => f x = Ok y) l ys.
Proof.
  induction l as [|x l IH]; cbn; intros ys H; [inversion H; constructor|].
  destruct (f x) as [y|] eqn:E; [|discriminate]. cbn in H.
  destruct (mapM f l) as [zs|] eqn:E2; [|discriminate]. cbn in H. inversion H; subst.
  constructor; auto.
Qed.

Lemma argmin_from_spec l : forall bi b i j v,
  argmin_from bi b i l = (j, v) ->
  (j = bi /\ v = b \/ exists m, (j = i + m)%nat /\ nth_error l m = Some v /\ v < b) /\
  v <= b /\ (forall x, In x l -> v <= x).
Proof.
  induction l as [|x l IH]; intros bi b i j v H; cbn in H.
  - inversion H; subst. split; [left; auto|]. split; [apply Qle_refl|]. intros x [].
  - destruct (Qlt_b_spec x b) as [L|L].
    + apply IH in H. destruct H as [H1 [H2 H3]]. split; [|split; [lra|]].
      * destruct H1 as [[-> ->]|[m [-> [H1 H4]]]].
        -- right. exists 0%nat. split; [lia|]. split; [reflexivity|exact L].
        -- right. exists (S m). split; [lia|]. split; [exact H1|lra].
      * intros y [->|Hy]; [exact H2|apply H3; exact Hy].
    + apply IH in H. destruct H as [H1 [H2 H3]]. split; [|split; [exact H2|]].
      * destruct H1 as [[-> ->]|[m [-> [H1 H4]]]]; [left; auto|].
        right. exists (S m). split; [lia|]. split; [exact H1|exact H4].
      * intros y [->|Hy]; [lra|apply H3; exact Hy].
Qed.

Lemma argmin_spec l j v : argmin l = Ok (j, v) -> nth_error l j = Some v /\ (forall x, In x l -> v <= x).
Proof.
  destruct l as [|x l]; cbn [argmin]; [discriminate|]. intro H. inversion H as [H']; clear H.
  apply argmin_from_spec in H'. destruct H' as [H1 [H2 H3]]. split.
  - destruct H1 as [[-> ->]|[m [-> [H1 _]]]]; [reflexivity|exact H1].
  - intros y [->|Hy]; auto.
Qed.
Lemma argmin_nonempty l : l <> [] -> exists j v, argmin l = Ok (j, v).
Proof. destruct l as [|x l]; [tauto|]. intros _. cbn. destruct (argmin_from 0 x 1 l) as [j v]. eauto. Qed.

Lemma nth_error_map_inv {A B} (f : A -> B) l : forall i y, nth_error (map f l) i = Some y ->
  exists x, nth_error l i = Some x /\ y = f x.
Proof.
  induction l as [|a l IH]; intros [|i] y H; cbn in *; try discriminate.
  - inversion H. eauto.
  - apply IH; exact H.
Qed.

(* ---- power-of-two values ---- *)
Lemma max_power_of_two_lem : forall x m, 0 < m ->
  exists e, max_power_of_two x m = Qpower 2 e /\
            x <= Qpower 2 e /\ m <= Qpower 2 e /\
            (forall e', x <= Qpower 2 e' -> m <= Qpower 2 e' -> (e <= e')%Z).
Proof.
  intros x m Hm. unfold max_power_of_two.
  assert (0 < Qmax_ x m) as Hp by (pose proof (Qmax_ub_r x m); lra).
  exists (clog2 (Qmax_ x m)). split; [reflexivity|].
  pose proof (clog2_upper _ Hp) as U. pose proof (Qmax_ub_r x m). pose proof (Qmax_ub_l x m).
  split; [lra|]. split; [lra|].
  intros e' H1 H2. apply clog2_le_iff; [exact Hp|].
  destruct (Qmax_case x m) as [-> | ->]; assumption.
Qed.

Section Pot.
  Variable loss : list Q -> list Q -> Q -> Q.
  Variable n_bits : Z.
  Variable n_iter : nat.
  Variable min_threshold : Q.
  Variable signed : bool.
  Hypothesis Hmin : 0 < min_threshold.

  (* the thresholds tried: 2P, P, P/2, ... where P is the least power of two covering the data *)
  Definition tried (m : Q) (i : nat) : Q := 2 * max_power_of_two m min_threshold / Qpower 2 (Z.of_nat i).

  Lemma tried_pow2 m i : exists e, tried m i == Qpower 2 e.
  Proof.
    destruct (max_power_of_two_lem m min_threshold Hmin) as [e [E _]]. unfold tried. rewrite E.
    exists (e + 1 + - Z.of_nat i)%Z. rewrite Qpower_plus by discriminate. rewrite pow2_succ, Qpower_opp. reflexivity.
  Qed.

  Lemma pot_search_channel_lem : forall xs t e,
    pot_search_channel loss n_bits n_iter min_threshold signed xs = Ok (t, e) ->
    exists m i, get_tensor_max xs n_bits false = Ok m /\ (i < n_iter)%nat /\
      e = loss xs (quantize_tensor xs (tried m i) n_bits signed) (tried m i) /\
      (forall j, (j < n_iter)%nat -> e <= loss xs (quantize_tensor xs (tried m j) n_bits signed) (tried m j)) /\
      (min_threshold <= tried m i -> t = tried m i \/ t == tried m i) /\
      (tried m i < min_threshold -> t = min_threshold).
  Proof.
    intros xs t e H. unfold pot_search_channel in H.
    destruct (get_tensor_max xs n_bits false) as [m|] eqn:Em; [|discriminate]. cbn [bind] in H.
    destruct (argmin _) as [[i e0]|] eqn:Ea; [|discriminate]. cbn [bind] in H. inversion H; subst t e0; clear H.
    apply argmin_spec in Ea. destruct Ea as [A1 A2].
    apply nth_error_map_inv in A1. destruct A1 as [th [A1 ->]].
    unfold pot_thresholds in A1. apply nth_error_map_inv in A1. destruct A1 as [k [A1 ->]].
    assert (k = i /\ (i < n_iter)%nat) as [Hk Hi].
    { assert (i < length (seq 0 n_iter))%nat as L by (apply nth_error_Some; congruence).
      rewrite seq_length in L. rewrite (nth_error_nth' _ 0%nat) in A1 by (rewrite seq_length; exact L).
      rewrite seq_nth in A1 by exact L. split; [cbn in A1; congruence|exact L]. }
    subst k.
    exists m, i. split; [reflexivity|]. split; [exact Hi|]. split; [reflexivity|]. split; [|split].
    - intros j Hj. apply A2. apply in_map_iff. exists (tried m j). split; [reflexivity|].
      unfold pot_thresholds. apply in_map_iff. exists j. split; [reflexivity|]. apply in_seq. lia.
    - intro L. fold (tried m i). unfold Qmax_. destruct (Qle_bool_spec (tried m i) min_threshold); [|left; reflexivity].
      right. lra.
    - intro L. fold (tried m i). unfold Qmax_. destruct (Qle_bool_spec (tried m i) min_threshold); [reflexivity|lra].
  Qed.

  (* with a power-of-two minimal threshold the result is a power of two *)
  Lemma pot_search_pow2_lem : forall xs t e k,
    min_threshold == Qpower 2 k ->
    pot_search_channel loss n_bits n_iter min_threshold signed xs = Ok (t, e) -> exists e', t == Qpower 2 e'.
  Proof.
    intros xs t e k Hk H. apply pot_search_channel_lem in H. destruct H as (m & i & _ & _ & _ & _ & H1 & H2).
    destruct (Qlt_le_dec (tried m i) min_threshold) as [L|L].
    - rewrite (H2 L). eauto.
    - destruct (tried_pow2 m i) as [e' E']. exists e'. destruct (H1 L) as [-> | ->]; exact E'.
  Qed.

  (* over several axes: the chosen axis has least mean error; each channel is as above *)
  Lemma pot_search_axes_lem : forall axes ths ax,
    qparams_selection_tensor_search loss n_bits n_iter min_threshold signed axes = Ok (ths, ax) ->
    exists results,
      Forall2 (fun chs rs => Forall2 (fun xs r => pot_search_channel loss n_bits n_iter min_threshold signed xs = Ok r) chs rs)
              axes results /\
      (ax < length axes)%nat /\ ths = map fst (nth ax results []) /\
      (forall j, (j < length axes)%nat ->
         meanQ (map snd (nth ax results [])) <= meanQ (map snd (nth j results []))).
  Proof.
    intros axes ths ax H. unfold qparams_selection_tensor_search in H.
    destruct (mapM _ axes) as [per|] eqn:E; [|discriminate]. cbn [bind] in H.
    destruct (argmin _) as [[i e]|] eqn:Ea; [|discriminate]. cbn [bind] in H. inversion H; subst; clear H.
    apply mapM_Forall2 in E. exists per.
    assert (length axes = length per) as L by (eapply Forall2_length; exact E).
    split. { clear - E. induction E; constructor; [apply mapM_Forall2; assumption|assumption]. }
    apply argmin_spec in Ea. destruct Ea as [A1 A2].
    apply nth_error_map_inv in A1. destruct A1 as [r [A1 Ae]].
    split. { rewrite L. apply nth_error_Some. congruence. }
    split; [reflexivity|]. intros j Hj.
    rewrite (nth_error_nth _ _ [] A1), <- Ae. apply A2. apply in_map_iff.
    exists (nth j per []). split; [reflexivity|]. apply nth_In. lia.
  Qed.
End Pot.

(* no clipping for weights: the selected threshold never clips (n >= 2) *)
Lemma pot_no_clipping_lem : forall xs n mth t,
  (2 <= n)%Z -> 0 < mth -> pot_no_clipping_tensor n mth xs = Ok t ->
  (exists e, t == Qpower 2 e) /\ mth <= t /\
  forall x, In x xs -> Qabs (quantize_elem t n true x - x) <= (1#2) * step t n true.
Proof.
  intros xs n mth t Hn Hm H. unfold pot_no_clipping_tensor in H.
  destruct (get_tensor_max xs n false) as [m|] eqn:Em; [|discriminate]. cbn [bind] in H.
  destruct (max_power_of_two_lem m mth Hm) as [e [E2 [H1 [H2 _]]]].
  assert (t = Qpower 2 e) as -> by congruence. clear H.
  split; [exists e; reflexivity|]. split; [exact H2|].
  intros x Hx. eapply no_clip_lem; eauto. apply pow2_pos.
Qed.
Lemma sym_no_clipping_lem : forall xs n mth t,
  (2 <= n)%Z -> 0 < mth -> sym_no_clipping_tensor n mth xs = Ok t ->
  mth <= t /\ forall x, In x xs -> Qabs (quantize_elem t n true x - x) <= (1#2) * step t n true.
Proof.
  intros xs n mth t Hn Hm H. unfold sym_no_clipping_tensor in H.
  destruct (get_tensor_max xs n false) as [m|] eqn:Em; [|discriminate]. cbn [bind] in H. inversion H as [E]; clear H.
  pose proof (Qmax_ub_l mth m). pose proof (Qmax_ub_r mth m). split; [lra|].
  intros x Hx. eapply no_clip_lem; eauto. lra.
Qed.

(* uniform: the selected range contains the data and zero *)
Lemma uni_no_clipping_tensor_lem : forall xs n a b,
  uni_no_clipping_tensor xs n = Ok (a, b) -> a <= 0 <= b /\ forall x, In x xs -> a <= x <= b.
Proof.
  intros xs n a b H. unfold uni_no_clipping_tensor in H.
  destruct (list_min xs) as [mn|] eqn:Emn; [|discriminate]. cbn [bind] in H.
  unfold get_tensor_max in H. destruct (n <? 1)%Z; [discriminate|].
  rewrite Emn in H. destruct (list_max xs) as [mx|] eqn:Emx; [|discriminate]. cbn [bind] in H.
  inversion H; subst a b; clear H.
  pose proof (Qmax_ub_l (- mn) (mx * 1)). pose proof (Qmax_ub_r (- mn) (mx * 1)).
  destruct (Qlt_b_spec 0 mn); destruct (Qlt_b_spec (Qmax_ (- mn) (mx * 1)) 0); split;
    try (pose proof (list_min_in _ _ Emn) as Hin; pose proof (list_max_ge _ _ Emx _ Hin); lra);
    intros x Hx; pose proof (list_min_le _ _ Emn x Hx); pose proof (list_max_ge _ _ Emx x Hx); lra.
Qed.

(* ---- iterative search ---- *)
Section Iter.
  Context {X P : Type}.
  Variable loss : X -> P -> Q.
  Variable cands : nat -> P -> list P.
  Variable tol : Q.

  Definition chan_ok (x : X) (p0 : P) (c : chan (X := X) (P := P)) : Prop :=
    c_x c = x /\ c_loss c == loss x (c_best c) /\ In (c_best c) (c_log c) /\ In p0 (c_log c) /\
    (forall p, In p (c_log c) -> c_loss c <= loss x p).

  Lemma iter_channel_ok n c c' d x p0 :
    chan_ok x p0 c -> iter_channel loss cands n c = Ok (c', d) -> chan_ok x p0 c'.
  Proof.
    intros (Hx & Hl & Hb & H0 & Hm) H. unfold iter_channel, search_grid in H.
    destruct (argmin _) as [[i l]|] eqn:Ea; [|discriminate]. cbn [bind] in H.
    destruct (nth_error (cands n (c_curr c)) i) as [p|] eqn:En; [|discriminate]. cbn [bind] in H.
    inversion H; subst c' d; clear H.
    apply argmin_spec in Ea. destruct Ea as [A1 A2]. rewrite Hx in *.
    rewrite (map_nth_error (loss x) i _ En) in A1. inversion A1; subst l; clear A1.
    unfold chan_ok; cbn [c_x c_loss c_best c_log c_curr].
    split; [reflexivity|].
    destruct (Qlt_b_spec (loss x p) (c_loss c)) as [L|L].
    - split; [reflexivity|]. split; [apply in_or_app; right; eapply nth_error_In; exact En|].
      split; [apply in_or_app; left; exact H0|]. intros q Hq. apply in_app_or in Hq. destruct Hq as [Hq|Hq].
      + pose proof (Hm q Hq). lra.
      + apply A2. apply in_map. exact Hq.
    - split; [exact Hl|]. split; [apply in_or_app; left; exact Hb|].
      split; [apply in_or_app; left; exact H0|]. intros q Hq. apply in_app_or in Hq. destruct Hq as [Hq|Hq].
      + apply Hm; exact Hq.
      + apply Qle_trans with (loss x p); [exact L|]. apply A2. apply in_map. exact Hq.
  Qed.

  Lemma iter_loop_ok k : forall n cs xs out,
    Forall2 (fun xp c => chan_ok (fst xp) (snd xp) c) xs cs ->
    iter_loop loss cands tol k n cs = Ok out ->
    Forall2 (fun xp c => chan_ok (fst xp) (snd xp) c) xs out.
  Proof.
    induction k as [|k IH]; intros n cs xs out F H; cbn [iter_loop] in H; [inversion H; subst; exact F|].
    destruct (mapM (iter_channel loss cands n) cs) as [rs|] eqn:E; [|discriminate]. cbn [bind] in H.
    assert (Forall2 (fun xp c => chan_ok (fst xp) (snd xp) c) xs (map fst rs)) as F'.
    { apply mapM_Forall2 in E. clear - F E. revert rs E.
      induction F as [|xp c xs cs Hc F IHF]; intros rs E; inversion E; subst; cbn; constructor.
      - destruct y as [c' d]. eapply iter_channel_ok; eauto.
      - apply IHF. assumption. }
    destruct (_ && _).
    - inversion H; subst; exact F'.
    - eapply IH; eauto.
  Qed.

  Lemma iter_search_lem : forall n_iter xs out,
    iter_search loss cands tol n_iter xs = Ok out ->
    Forall2 (fun xp c => c_loss c == loss (fst xp) (c_best c) /\ In (c_best c) (c_log c) /\
                         In (snd xp) (c_log c) /\ c_loss c <= loss (fst xp) (snd xp) /\
                         forall p, In p (c_log c) -> c_loss c <= loss (fst xp) p) xs out.
  Proof.
    intros n_iter xs out H. unfold iter_search in H. eapply iter_loop_ok in H.
    - eapply Forall2_impl; [|exact H]. intros [x p0] c (E & H1 & H2 & H3 & H4). cbn [fst snd]. auto 8.
    - clear H. induction xs as [|[x p] xs IH]; cbn; constructor; [|exact IH].
      unfold chan_ok, iter_init; cbn. repeat split; auto; try reflexivity.
      intros q [->|[]]. apply Qle_refl.
  Qed.

  (* it never fails when the grid is never empty *)
  Lemma iter_channel_total n c : cands n (c_curr c) <> [] -> exists r, iter_channel loss cands n c = Ok r.
  Proof.
    intro H. unfold iter_channel, search_grid.
    destruct (argmin_nonempty (map (loss (c_x c)) (cands n (c_curr c)))) as [i [v E]].
    { destruct (cands n (c_curr c)); [tauto|discriminate]. }
    rewrite E. cbn [bind]. apply argmin_spec in E. destruct E as [E _].
    apply nth_error_map_inv in E. destruct E as [p [-> _]]. cbn. eauto.
  Qed.
  Lemma iter_search_total : (forall n p, cands n p <> []) -> forall n_iter xs,
    exists out, iter_search loss cands tol n_iter xs = Ok out.
  Proof.
    intros Hc n_iter xs. unfold iter_search. generalize (map (fun xp => iter_init loss (fst xp) (snd xp)) xs) as cs.
    generalize 0%nat. induction n_iter as [|k IH]; intros n cs; cbn [iter_loop]; [eauto|].
    assert (exists rs, mapM (iter_channel loss cands n) cs = Ok rs) as [rs ->].
    { induction cs as [|c cs IHc]; cbn; [eauto|].
      destruct (iter_channel_total n c (Hc n _)) as [r ->]. cbn. destruct IHc as [rs ->]. cbn. eauto. }
    cbn [bind]. destruct (_ && _); [eauto|apply IH].
  Qed.
End Iter.

(* scale window of the symmetric search: always brackets the current threshold, never reaches zero *)
Lemma range_scale_lem : forall dec_freq n lo hi,
  range_scale dec_freq n = (lo, hi) -> BOTTOM_FACTOR <= lo <= DEC_RANGE_BOTTOM /\ DEC_RANGE_UPPER <= hi <= UPPER_FACTOR.
Proof.
  intros f n. induction n as [|n IH]; intros lo hi H; cbn [range_scale] in H.
  - inversion H; subst. unfold BOTTOM_FACTOR, DEC_RANGE_BOTTOM, DEC_RANGE_UPPER, UPPER_FACTOR. lra.
  - destruct (range_scale f n) as [lo' hi'] eqn:E. specialize (IH _ _ eq_refl).
    unfold BOTTOM_FACTOR, DEC_RANGE_BOTTOM, DEC_RANGE_UPPER, UPPER_FACTOR in *.
    destruct (Nat.eqb _ 0); inversion H; subst; [|exact IH].
    unfold Qmin_, Qmax_, DEC_LO, DEC_HI. qcases; lra.
Qed.

Lemma linspace_between a b n x : a <= b -> In x (linspace a b n) -> a <= x <= b.
Proof.
  intros H Hx. unfold linspace in Hx. destruct n as [|[|m]]; [destruct Hx| destruct Hx as [<-|[]]; lra|].
  apply in_map_iff in Hx. destruct Hx as [i [<- Hi]]. apply in_seq in Hi.
  assert (0 < inject_Z (Z.of_nat (S m))) as P by (apply (ZQ_lt 0); lia).
  assert (0 <= inject_Z (Z.of_nat i)) as P2 by (apply (ZQ_le 0); lia).
  assert (inject_Z (Z.of_nat i) <= inject_Z (Z.of_nat (S m))) as P3 by (apply ZQ_le; lia).
  assert (0 <= (b - a) / inject_Z (Z.of_nat (S m))) as P4 by (apply Qle_shift_div_l; lra).
  assert ((b - a) / inject_Z (Z.of_nat (S m)) * inject_Z (Z.of_nat (S m)) == b - a) as P5 by (field; lra).
  nra.
Qed.
Lemma linspace_nonempty a b n : n <> 0%nat -> linspace a b n <> [].
Proof. destruct n as [|[|n]]; [tauto|discriminate|discriminate]. Qed.

(* symmetric search: every evaluated threshold, in particular the result, stays positive *)
Lemma sym_cands_pos f k n t c : 0 < t -> In c (sym_cands f k n t) -> 0 < c.
Proof.
  intros Ht H. unfold sym_cands in H. destruct (range_scale k n) as [lo hi] eqn:E.
  apply range_scale_lem in E. unfold BOTTOM_FACTOR, DEC_RANGE_BOTTOM, DEC_RANGE_UPPER, UPPER_FACTOR in E.
  apply linspace_between in H; nra.
Qed.

Lemma iter_loop_inv {X P} (loss : X -> P -> Q) cands tol (good : P -> Prop) :
  (forall n p c, good p -> In c (cands n p) -> good c) ->
  forall k n cs out, iter_loop loss cands tol k n cs = Ok out ->
  Forall (fun c => good (c_curr c) /\ good (c_best c)) cs -> Forall (fun c => good (c_curr c) /\ good (c_best c)) out.
Proof.
  intros Hg k. induction k as [|k IH]; intros n cs out H F; cbn [iter_loop] in H; [inversion H; subst; exact F|].
  destruct (mapM (iter_channel loss cands n) cs) as [rs|] eqn:E; [|discriminate]. cbn [bind] in H.
  assert (Forall (fun c => good (c_curr c) /\ good (c_best c)) (map fst rs)) as F'.
  { apply mapM_Forall2 in E. clear - F E Hg. revert F. induction E as [|c [c' d] cs rs Ec E IHE]; intro F; cbn; constructor.
    - inversion F as [|? ? [G1 G2] F2]; subst. unfold iter_channel, search_grid in Ec.
      destruct (argmin _) as [[i l]|]; [|discriminate]. cbn [bind] in Ec.
      destruct (nth_error (cands n (c_curr c)) i) as [p|] eqn:En; [|discriminate]. cbn [bind] in Ec.
      inversion Ec; subst; cbn. apply nth_error_In in En.
      assert (good p) as Gp by (eapply Hg; [exact G1|exact En]).
      split; [exact Gp|]. destruct (Qlt_b l (c_loss c)); [exact Gp|exact G2].
    - apply IHE. inversion F; assumption. }
  destruct (_ && _); [inversion H; subst; exact F'|]. eapply IH; eauto.
Qed.

Lemma sym_iterative_lem : forall loss n_bits signed n_intervals n_iter dec_freq tol xs,
  n_intervals <> 0%nat -> Forall (fun xp => 0 < snd xp) xs ->
  exists out,
    qparams_symmetric_iterative_minimization loss n_bits signed n_intervals n_iter dec_freq tol xs = Ok out /\
    let L := fun x t => loss x (quantize_tensor x t n_bits signed) t in
    Forall2 (fun xp c => c_loss c == L (fst xp) (c_best c) /\ 0 < c_best c /\ In (snd xp) (c_log c) /\
                         c_loss c <= L (fst xp) (snd xp) /\
                         forall t, In t (c_log c) -> c_loss c <= L (fst xp) t) xs out.
Proof.
  intros loss n_bits signed n_int n_iter df tol xs Hn Hpos.
  unfold qparams_symmetric_iterative_minimization. cbv zeta.
  set (L := fun x t => loss x (quantize_tensor x t n_bits signed) t).
  destruct (iter_search_total L (sym_cands n_int df) tol) with (n_iter := n_iter) (xs := xs) as [out E].
  { intros n p. unfold sym_cands. destruct (range_scale df n). apply linspace_nonempty. exact Hn. }
  exists out. split; [exact E|].
  pose proof (iter_search_lem _ _ _ _ _ _ E) as F.
  assert (Forall (fun c => 0 < c_curr c /\ 0 < c_best c) out) as G.
  { apply (iter_loop_inv L (sym_cands n_int df) tol (fun t => 0 < t)) with (k := n_iter) (n := 0%nat)
      (cs := map (fun xp => iter_init L (fst xp) (snd xp)) xs).
    - intros n p c. apply sym_cands_pos.
    - exact E.
    - clear - Hpos. induction Hpos; cbn; constructor; auto. }
  clear E Hpos. revert G. induction F as [|xp c xs out H F IH]; intro G; constructor.
  - inversion G as [|? ? [G1 G2] G3]; subst. tauto.
  - apply IH. inversion G; assumption.
Qed.

Lemma uni_iterative_lem : forall (loss : list Q -> list Q -> Q * Q -> Q) (n_bits : Z) (scalers : list (Q * Q))
    (n_iter : nat) (tol : Q) (xs : list (list Q * (Q * Q))),
  scalers <> [] ->
  exists out,
    iterative_uniform_dynamic_range_search loss n_bits scalers n_iter tol xs = Ok out /\
    let L := fun (x : list Q) (mm : Q * Q) => loss x (uniform_quantize_tensor x (fst mm) (snd mm) n_bits) mm in
    Forall2 (fun xp c => c_loss c == L (fst xp) (c_best c) /\ In (snd xp) (c_log c) /\
                         c_loss c <= L (fst xp) (snd xp) /\
                         forall mm, In mm (c_log c) -> c_loss c <= L (fst xp) mm) xs out.
Proof.
  intros loss n_bits scalers n_iter tol xs Hs. unfold iterative_uniform_dynamic_range_search. cbv zeta.
  set (L := fun x (mm : Q * Q) => loss x (uniform_quantize_tensor x (fst mm) (snd mm) n_bits) mm).
  destruct (iter_search_total L (uni_cands scalers) tol) with (n_iter := n_iter) (xs := xs) as [out E].
  { intros n p. unfold uni_cands. destruct scalers; [tauto|discriminate]. }
  exists out. split; [exact E|]. pose proof (iter_search_lem _ _ _ _ _ _ E) as F.
  eapply Forall2_impl; [|exact F]. intros xp c (H1 & H2 & H3 & H4 & H5).
  split; [exact H1|]. split; [exact H3|]. split; [exact H4|exact H5].
Qed.

Lemma nth_Forall2 {A B} (R : A -> B -> Prop) l m : Forall2 R l m ->
  forall i da db, (i < length l)%nat -> R (nth i l da) (nth i m db).
Proof.
  induction 1; intros [|i] da db Hi; cbn in *; try lia; [assumption|]. apply IHForall2. lia.
Qed.

Lemma Forall2_map_l {A B C} (f : A -> B) (R : B -> C -> Prop) l m :
  Forall2 R (map f l) m -> Forall2 (fun a c => R (f a) c) l m.
Proof. revert m. induction l as [|a l IH]; intros m H; inversion H; subst; constructor; auto. Qed.
Lemma Forall2_map_r {A B C} (f : B -> C) (R : A -> C -> Prop) l m :
  Forall2 (fun a b => R a (f b)) l m -> Forall2 R l (map f m).
Proof. induction 1; cbn; constructor; auto. Qed.
Lemma Forall2_compose {A B C} (R : A -> B -> Prop) (S : B -> C -> Prop) l : forall m n,
  Forall2 R l m -> Forall2 S m n -> Forall2 (fun a c => exists b, R a b /\ S b c) l n.
Proof.
  induction l as [|a l IH]; intros m n H1 H2; inversion H1; subst; inversion H2; subst; constructor; eauto.
Qed.

Lemma sym_tensor_search_lem : forall loss n_bits signed n_intervals n_iter dec_freq tol min_th axes ths ax,
  n_intervals <> 0%nat -> 0 < min_th ->
  qparams_symmetric_selection_tensor_search loss n_bits signed n_intervals n_iter dec_freq tol min_th axes = Ok (ths, ax) ->
  (ax < length axes)%nat /\
  Forall2 (fun xs th => exists m best,
             get_tensor_max xs n_bits false = Ok m /\ th = Qmax_ min_th best /\ 0 < best /\
             loss xs (quantize_tensor xs best n_bits signed) best
               <= loss xs (quantize_tensor xs (Qmax_ min_th m) n_bits signed) (Qmax_ min_th m))
          (nth ax axes []) ths.
Proof.
  intros loss n_bits signed ni nit df tol mth axes ths ax Hni Hm H.
  unfold qparams_symmetric_selection_tensor_search in H.
  destruct (mapM _ axes) as [per|] eqn:E; [|discriminate]. cbn [bind] in H.
  destruct (argmin _) as [[i e]|] eqn:Ea; [|discriminate]. cbn [bind] in H. inversion H; subst ths i; clear H.
  apply mapM_Forall2 in E. pose proof (Forall2_length _ _ _ E) as L.
  apply argmin_spec in Ea. destruct Ea as [A1 _]. apply nth_error_map_inv in A1. destruct A1 as [r [A1 _]].
  assert (ax < length axes)%nat as Hax by (rewrite L; apply nth_error_Some; congruence).
  split; [exact Hax|]. rewrite (nth_error_nth _ _ [] A1).
  pose proof (nth_Forall2 _ _ _ E ax [] [] Hax) as Hn. cbn beta in Hn. rewrite (nth_error_nth _ _ [] A1) in Hn.
  destruct (mapM _ (nth ax axes [])) as [x0|] eqn:E0; [|discriminate]. cbn [bind] in Hn.
  apply mapM_Forall2 in E0.
  assert (Forall (fun xp => 0 < snd xp) x0) as P0.
  { clear - E0 Hm. induction E0 as [|xs [x p] l m Hx E0 IH]; constructor; [|exact IH].
    destruct (get_tensor_max xs n_bits false) as [m0|]; [|discriminate]. cbn in Hx. inversion Hx. cbn.
    pose proof (Qmax_ub_l mth m0). lra. }
  destruct (sym_iterative_lem loss n_bits signed ni nit df tol x0 Hni P0) as [out [Eo F]].
  rewrite Eo in Hn. inversion Hn; subst r; clear Hn.
  apply Forall2_map_r. pose proof (Forall2_compose _ _ _ _ _ E0 F) as C.
  eapply Forall2_impl; [|exact C]. cbn beta. intros xs c [[x p] [Hx (G1 & G2 & G3 & G4 & G5)]]. cbn [fst snd] in *.
  destruct (get_tensor_max xs n_bits false) as [m0|]; [|discriminate]. cbn [bind] in Hx. inversion Hx; subst x p.
  exists m0, (c_best c). split; [reflexivity|]. split; [reflexivity|]. split; [exact G2|].
  rewrite <- G1. exact G4.
Qed.

Lemma uni_tensor_search_lem : forall (loss : list Q -> list Q -> Q * Q -> Q) n_bits scalers n_iter tol axes rs ax,
  scalers <> [] ->
  qparams_uniform_selection_tensor_search loss n_bits scalers n_iter tol axes = Ok (rs, ax) ->
  (ax < length axes)%nat /\
  Forall2 (fun xs r => exists mn mx,
             list_min xs = Ok mn /\ get_tensor_max xs n_bits true = Ok mx /\
             loss xs (uniform_quantize_tensor xs (fst r) (snd r) n_bits) r
               <= loss xs (uniform_quantize_tensor xs mn mx n_bits) (mn, mx))
          (nth ax axes []) rs.
Proof.
  intros loss n_bits scalers nit tol axes rs ax Hs H.
  unfold qparams_uniform_selection_tensor_search in H.
  destruct (mapM _ axes) as [per|] eqn:E; [|discriminate]. cbn [bind] in H.
  destruct (argmin _) as [[i e]|] eqn:Ea; [|discriminate]. cbn [bind] in H. inversion H; subst rs i; clear H.
  apply mapM_Forall2 in E. pose proof (Forall2_length _ _ _ E) as L.
  apply argmin_spec in Ea. destruct Ea as [A1 _]. apply nth_error_map_inv in A1. destruct A1 as [r [A1 _]].
  assert (ax < length axes)%nat as Hax by (rewrite L; apply nth_error_Some; congruence).
  split; [exact Hax|]. rewrite (nth_error_nth _ _ [] A1).
  pose proof (nth_Forall2 _ _ _ E ax [] [] Hax) as Hn. cbn beta in Hn. rewrite (nth_error_nth _ _ [] A1) in Hn.
  destruct (mapM _ (nth ax axes [])) as [x0|] eqn:E0; [|discriminate]. cbn [bind] in Hn.
  apply mapM_Forall2 in E0.
  destruct (uni_iterative_lem loss n_bits scalers nit tol x0 Hs) as [out [Eo F]].
  rewrite Eo in Hn. inversion Hn; subst r; clear Hn.
  apply Forall2_map_r. pose proof (Forall2_compose _ _ _ _ _ E0 F) as C.
  eapply Forall2_impl; [|exact C]. cbn beta. intros xs c [[x p] [Hx (G1 & G3 & G4 & G5)]]. cbn [fst snd] in *.
  destruct (list_min xs) as [mn|]; [|discriminate]. cbn [bind] in Hx.
  destruct (get_tensor_max xs n_bits true) as [mx|]; [|discriminate]. cbn [bind] in Hx. inversion Hx; subst x p.
  exists mn, mx. split; [reflexivity|]. split; [reflexivity|]. rewrite <- G1. exact G4.
Qed.

Lemma histogram_search_lem : forall (loss : list Q -> Q -> Q) bins n_bits n_iter min_th is_signed t s,
  0 < min_th -> qparams_selection_histogram_search loss bins n_bits n_iter min_th is_signed = Ok (t, s) ->
  s = match is_signed with Some b => b | None => existsb (fun b => Qlt_b b 0) bins end /\
  exists P i, (exists e, P = Qpower 2 e) /\ (forall b, In b bins -> Qabs b <= P) /\ (i < n_iter)%nat /\
    let th := fun j => 2 * P / Qpower 2 (Z.of_nat j) in
    t = Qmax_ (th i) min_th /\
    forall j, (j < n_iter)%nat -> loss (quantize_tensor bins (th i) n_bits s) (th i) <= loss (quantize_tensor bins (th j) n_bits s) (th j).
Proof.
  intros loss bins n_bits n_iter min_th is_signed t s Hm H. unfold qparams_selection_histogram_search in H.
  set (sg := match is_signed with Some b => b | None => _ end) in *.
  destruct (list_max _) as [m|] eqn:Em; [|discriminate]. cbn [bind] in H.
  destruct (argmin _) as [[i e0]|] eqn:Ea; [|discriminate]. cbn [bind] in H.
  destruct (nth_error _ i) as [th|] eqn:En; [|discriminate].
  assert (sg = s /\ t = Qmax_ th min_th) as [<- ->] by (split; congruence). clear H.
  split; [reflexivity|].
  destruct (max_power_of_two_lem m min_th Hm) as [e [E2 [H1 [H2 _]]]].
  exists (max_power_of_two m min_th), i. split; [eauto|]. split.
  { intros b Hb. rewrite E2. apply Qle_trans with m; [|exact H1].
    apply Qle_trans with (qabs b).
    - unfold qabs. destruct (Qle_bool_spec 0 b); apply Qabs_case; intro; lra.
    - eapply list_max_ge; [exact Em|]. apply in_map. exact Hb. }
  pose proof En as En'. unfold pot_thresholds in En'. apply nth_error_map_inv in En'. destruct En' as [k [A1 Eth]].
  assert (k = i /\ (i < n_iter)%nat) as [Hk Hi].
  { assert (i < length (seq 0 n_iter))%nat as L by (apply nth_error_Some; congruence).
    rewrite seq_length in L. rewrite (nth_error_nth' _ 0%nat) in A1 by (rewrite seq_length; exact L).
    rewrite seq_nth in A1 by exact L. split; [cbn in A1; congruence|exact L]. }
  subst k. split; [exact Hi|]. cbv beta zeta. rewrite <- Eth. split; [reflexivity|].
  apply argmin_spec in Ea. destruct Ea as [B1 B2].
  rewrite (map_nth_error _ _ _ En) in B1. inversion B1; subst e0.
  intros j Hj. apply B2. apply in_map_iff. eexists. split; [reflexivity|].
  unfold pot_thresholds. apply in_map_iff. exists j. split; [reflexivity|]. apply in_seq. lia.
Qed.

(* ---- least power of two without clipping ---- *)
Lemma expansion_iff n x t : (2 <= n)%Z ->
  x * (Qpower 2 (n - 1) / (Qpower 2 (n - 1) - 1)) <= t <-> x <= t - t / inject_Z (2 ^ (n - 1)).
Proof.
  intro Hn. rewrite <- pow2_Z by lia. set (p := Qpower 2 (n - 1)).
  assert (2 <= p) as Hp.
  { unfold p. assert (Qpower 2 1 <= Qpower 2 (n - 1)) as H by (apply pow2_le; lia).
    change (Qpower 2 1) with (2 * 1)%Q in H. lra. }
  assert (t - t / p == t * ((p - 1) / p)) as E by (field; lra). rewrite E.
  assert (x == x * (p / (p - 1)) * ((p - 1) / p)) as Ex by (field; lra).
  assert (0 < (p - 1) / p) as Hr by (apply Qlt_shift_div_l; lra).
  split; intro H.
  - rewrite Ex. apply Qmult_le_compat_r; [exact H|lra].
  - apply Qmult_le_r with ((p - 1) / p); [exact Hr|]. rewrite <- Ex. exact H.
Qed.

Lemma get_tensor_max_iff : forall xs n m t, (2 <= n)%Z -> get_tensor_max xs n false = Ok m ->
  (m <= t <-> forall x, In x xs -> - t <= x <= t - t / inject_Z (2 ^ (n - 1))).
Proof.
  intros xs n m t Hn H. unfold get_tensor_max in H.
  destruct (Z.ltb_spec n 1); [lia|]. destruct (Z.eqb_spec n 1); [lia|].
  destruct (list_min xs) as [mn|] eqn:E1; [|discriminate].
  destruct (list_max xs) as [mx|] eqn:E2; [|discriminate]. cbn [bind] in H. inversion H as [Em]; clear H.
  pose proof (list_min_in _ _ E1) as I1. pose proof (list_max_in _ _ E2) as I2.
  set (ex := Qpower 2 (n - 1) / (Qpower 2 (n - 1) - 1)) in *.
  split.
  - intros Hm x Hx. pose proof (Qmax_ub_l (- mn) (mx * ex)). pose proof (Qmax_ub_r (- mn) (mx * ex)).
    pose proof (list_min_le _ _ E1 x Hx). pose proof (list_max_ge _ _ E2 x Hx).
    split; [lra|]. apply Qle_trans with mx; [assumption|]. apply expansion_iff; [exact Hn|]. fold ex. lra.
  - intro Hall. destruct (Hall mn I1) as [A _]. destruct (Hall mx I2) as [_ B].
    apply expansion_iff in B; [|exact Hn]. fold ex in B.
    destruct (Qmax_case (- mn) (mx * ex)) as [-> | ->]; lra.
Qed.

Lemma pot_least_lem : forall xs n mth t, (2 <= n)%Z -> 0 < mth ->
  pot_no_clipping_tensor n mth xs = Ok t ->
  exists e, t = Qpower 2 e /\ mth <= t /\
    (forall x, In x xs -> - t <= x <= t - t / inject_Z (2 ^ (n - 1))) /\
    (forall e', let t' := Qpower 2 e' in mth <= t' ->
       (forall x, In x xs -> - t' <= x <= t' - t' / inject_Z (2 ^ (n - 1))) -> t <= t').
Proof.
  intros xs n mth t Hn Hm H. unfold pot_no_clipping_tensor in H.
  destruct (get_tensor_max xs n false) as [m|] eqn:Em; [|discriminate]. cbn [bind] in H.
  destruct (max_power_of_two_lem m mth Hm) as [e [E [H1 [H2 H3]]]].
  assert (t = Qpower 2 e) as -> by congruence. clear H. exists e. split; [reflexivity|]. split; [exact H2|].
  split; [apply (get_tensor_max_iff xs n m _ Hn Em); exact H1|].
  intros e' t' L Hall. apply pow2_le. apply H3; [|exact L]. apply (get_tensor_max_iff xs n m _ Hn Em). exact Hall.
Qed.
Lemma sym_least_lem : forall xs n mth t, (2 <= n)%Z ->
  sym_no_clipping_tensor n mth xs = Ok t ->
  mth <= t /\
    (forall x, In x xs -> - t <= x <= t - t / inject_Z (2 ^ (n - 1))) /\
    (forall t', mth <= t' ->
       (forall x, In x xs -> - t' <= x <= t' - t' / inject_Z (2 ^ (n - 1))) -> t <= t').
Proof.
  intros xs n mth t Hn H. unfold sym_no_clipping_tensor in H.
  destruct (get_tensor_max xs n false) as [m|] eqn:Em; [|discriminate]. cbn [bind] in H. inversion H as [E]; clear H.
  pose proof (Qmax_ub_l mth m). pose proof (Qmax_ub_r mth m).
  split; [lra|]. split; [apply (get_tensor_max_iff xs n m _ Hn Em); lra|].
  intros t' L Hall. apply (get_tensor_max_iff xs n m t' Hn Em) in Hall.
  destruct (Qmax_case mth m) as [-> | ->]; lra.
Qed.
Lemma no_clipping_total : forall xs n mth, (1 <= n)%Z -> xs <> [] ->
  (exists t, pot_no_clipping_tensor n mth xs = Ok t) /\ (exists t, sym_no_clipping_tensor n mth xs = Ok t).
Proof.
  intros xs n mth Hn Hx. unfold pot_no_clipping_tensor, sym_no_clipping_tensor, get_tensor_max.
  destruct (Z.ltb_spec n 1); [lia|]. destruct xs as [|x xs]; [tauto|]. cbn [list_min list_max bind]. eauto.
Qed.

(* ---- histograms ---- *)
Lemma masked_in {A} (l : list A) : forall counts i x c,
  nth_error l i = Some x -> nth_error counts i = Some c -> 0 < c -> In x (masked l counts).
Proof.
  induction l as [|y l IH]; intros [|d counts] [|i] x c H1 H2 Hc; cbn in *; try discriminate.
  - inversion H1; inversion H2; subst. destruct (Qlt_b_spec 0 c); [left; reflexivity|lra].
  - destruct (Qlt_b 0 d); [right|]; eapply IH; eauto.
Qed.
Lemma nth_error_tl {A} (l : list A) i : nth_error (tl l) i = nth_error l (S i).
Proof. destruct l; [destruct i|]; reflexivity. Qed.
Lemma nth_error_removelast {A} (l : list A) : forall i x,
  nth_error l i = Some x -> (S i < length l)%nat -> nth_error (removelast l) i = Some x.
Proof.
  induction l as [|y l IH]; intros i x H L; [destruct i; discriminate|].
  destruct l as [|z l]; [cbn in L; lia|]. destruct i as [|i]; [exact H|].
  change (removelast (y :: z :: l)) with (y :: removelast (z :: l)).
  change (nth_error (removelast (z :: l)) i = Some x). apply IH; [exact H|]. cbn in *. lia.
Qed.

Lemma uni_histogram_covers_lem : forall bins counts mn mx,
  uni_no_clipping_histogram bins counts = Ok (mn, mx) ->
  forall i c l r, nth_error counts i = Some c -> 0 < c -> nth_error bins i = Some l -> nth_error bins (S i) = Some r ->
  mn <= l /\ r <= mx.
Proof.
  intros bins counts mn mx H i c l r Hc Hp Hl Hr. unfold uni_no_clipping_histogram in H.
  destruct (list_min _) as [a|] eqn:E1; [|discriminate]. destruct (list_max _) as [b|] eqn:E2; [|discriminate].
  cbn [bind] in H. inversion H; subst; clear H. split.
  - eapply list_min_le; [exact E1|]. eapply masked_in; [|exact Hc|exact Hp].
    apply nth_error_removelast; [exact Hl|]. apply nth_error_Some. congruence.
  - eapply list_max_ge; [exact E2|]. eapply masked_in; [|exact Hc|exact Hp].
    rewrite nth_error_tl. exact Hr.
Qed.

(* symmetric / power of two: only the right edges are covered *)
Lemma sym_histogram_right_edges_lem : forall bins counts mth t,
  sym_no_clipping_histogram bins counts mth = Ok t ->
  mth <= t /\ forall i c r, nth_error counts i = Some c -> 0 < c -> nth_error bins (S i) = Some r -> Qabs r <= t.
Proof.
  intros bins counts mth t H. unfold sym_no_clipping_histogram in H.
  destruct (list_max _) as [b|] eqn:E2; [|discriminate]. cbn [bind] in H. inversion H; subst; clear H.
  split; [apply Qmax_ub_l|]. intros i c r Hc Hp Hr.
  apply Qle_trans with b; [|apply Qmax_ub_r]. apply Qle_trans with (qabs r).
  { unfold qabs. destruct (Qle_bool_spec 0 r); apply Qabs_case; intro; lra. }
  eapply list_max_ge; [exact E2|]. eapply masked_in; [|exact Hc|exact Hp].
  rewrite nth_error_tl. apply map_nth_error. exact Hr.
Qed.
Lemma pot_histogram_right_edges_lem : forall bins counts mth t, 0 < mth ->
  pot_no_clipping_histogram bins counts mth = Ok t ->
  (exists e, t = Qpower 2 e) /\ mth <= t /\
    forall i c r, nth_error counts i = Some c -> 0 < c -> nth_error bins (S i) = Some r -> Qabs r <= t.
Proof.
  intros bins counts mth t Hm H. unfold pot_no_clipping_histogram in H.
  destruct (list_max _) as [b|] eqn:E2; [|discriminate]. cbn [bind] in H.
  destruct (max_power_of_two_lem b mth Hm) as [e [E [H1 [H2 _]]]].
  assert (t = Qpower 2 e) as -> by congruence. clear H. split; [eauto|]. split; [exact H2|].
  intros i c r Hc Hp Hr.
  apply Qle_trans with b; [|exact H1]. apply Qle_trans with (qabs r).
  { unfold qabs. destruct (Qle_bool_spec 0 r); apply Qabs_case; intro; lra. }
  eapply list_max_ge; [exact E2|]. eapply masked_in; [|exact Hc|exact Hp].
  rewrite nth_error_tl. apply map_nth_error. exact Hr.
Qed.

(* ---- the searches succeed on non-empty data ---- *)
Lemma get_tensor_max_total xs n u : xs <> [] -> (1 <= n)%Z -> exists m, get_tensor_max xs n u = Ok m.
Proof.
  intros Hx Hn. unfold get_tensor_max. destruct (Z.ltb_spec n 1); [lia|].
  destruct xs; [tauto|]. cbn [list_min list_max bind]. eauto.
Qed.
Lemma pot_search_total_lem : forall loss n_bits n_iter min_th signed xs,
  xs <> [] -> (1 <= n_bits)%Z -> n_iter <> 0%nat ->
  exists r, pot_search_channel loss n_bits n_iter min_th signed xs = Ok r.
Proof.
  intros loss n_bits n_iter min_th signed xs Hx Hn Hi. unfold pot_search_channel.
  destruct (get_tensor_max_total xs n_bits false Hx Hn) as [m ->]. cbn [bind].
  edestruct argmin_nonempty as [i [v E]]; [|rewrite E; cbn [bind]; eauto].
  unfold pot_thresholds. destruct n_iter; [tauto|]. discriminate.
Qed.
Lemma mapM_total {A B} (f : A -> result B) l : (forall x, In x l -> exists y, f x = Ok y) ->
  exists ys, mapM f l = Ok ys /\ length ys = length l.
Proof.
  induction l as [|x l IH]; intro H; cbn; [eexists; split; reflexivity|].
  destruct (H x (or_introl eq_refl)) as [y ->]. cbn [bind].
  destruct IH as [ys [-> L]]; [intros; apply H; right; assumption|]. cbn. eexists. split; [reflexivity|]. cbn. lia.
Qed.
Lemma pot_axes_total_lem : forall loss n_bits n_iter min_th signed axes,
  axes <> [] -> (forall chs xs, In chs axes -> In xs chs -> xs <> []) -> (1 <= n_bits)%Z -> n_iter <> 0%nat ->
  exists r, qparams_selection_tensor_search loss n_bits n_iter min_th signed axes = Ok r.
Proof.
  intros loss n_bits n_iter min_th signed axes Ha Hx Hn Hi. unfold qparams_selection_tensor_search.
  edestruct (mapM_total (mapM (pot_search_channel loss n_bits n_iter min_th signed)) axes) as [per [-> L]].
  { intros chs Hc. edestruct (mapM_total (pot_search_channel loss n_bits n_iter min_th signed) chs) as [ys [E _]];
      [|exists ys; exact E].
    intros xs Hxs. apply pot_search_total_lem; eauto. }
  cbn [bind]. edestruct (argmin_nonempty (map (fun chs => meanQ (map snd chs)) per)) as [i [v ->]]; [|cbn; eauto].
  destruct per; [|discriminate]. destruct axes; [tauto|discriminate].
Qed.
Lemma sym_axes_total_lem : forall loss n_bits signed n_intervals n_iter dec_freq tol min_th axes,
  axes <> [] -> (forall chs xs, In chs axes -> In xs chs -> xs <> []) -> (1 <= n_bits)%Z ->
  n_intervals <> 0%nat -> 0 < min_th ->
  exists r, qparams_symmetric_selection_tensor_search loss n_bits signed n_intervals n_iter dec_freq tol min_th axes = Ok r.
Proof.
  intros loss n_bits signed ni nit df tol mth axes Ha Hx Hn Hni Hm. unfold qparams_symmetric_selection_tensor_search.
  match goal with |- context [mapM ?f axes] => edestruct (mapM_total f axes) as [per [E L]] end.
  { intros chs Hc.
    edestruct (mapM_total (fun xs => bind (get_tensor_max xs n_bits false) (fun m => Ok (xs, Qmax_ mth m))) chs) as [x0 [E _]].
    { intros xs Hxs. destruct (get_tensor_max_total xs n_bits false (Hx _ _ Hc Hxs) Hn) as [m ->]. cbn. eauto. }
    rewrite E. cbn [bind].
    destruct (sym_iterative_lem loss n_bits signed ni nit df tol x0 Hni) as [out [-> _]]; [|eauto].
    apply mapM_Forall2 in E. clear - E Hm. induction E as [|xs [x p] l m Hx E IH]; constructor; [|exact IH].
    destruct (get_tensor_max xs n_bits false) as [m0|]; [|discriminate]. cbn in Hx. inversion Hx. cbn.
    pose proof (Qmax_ub_l mth m0). lra. }
  rewrite E. cbn [bind].
  edestruct (argmin_nonempty (map (fun chs => meanQ (map (c_loss (X:=list Q) (P:=Q)) chs)) per)) as [i [v Ev]];
    [|rewrite Ev; cbn; eauto].
  destruct per; [|discriminate]. destruct axes; [tauto|discriminate].
Qed.
Lemma uni_axes_total_lem : forall (loss : list Q -> list Q -> Q * Q -> Q) n_bits scalers n_iter tol axes,
  axes <> [] -> (forall chs xs, In chs axes -> In xs chs -> xs <> []) -> (1 <= n_bits)%Z -> scalers <> [] ->
  exists r, qparams_uniform_selection_tensor_search loss n_bits scalers n_iter tol axes = Ok r.
Proof.
  intros loss n_bits scalers nit tol axes Ha Hx Hn Hs. unfold qparams_uniform_selection_tensor_search.
  match goal with |- context [mapM ?f axes] => edestruct (mapM_total f axes) as [per [E L]] end.
  { intros chs Hc.
    edestruct (mapM_total (fun xs => bind (list_min xs) (fun mn => bind (get_tensor_max xs n_bits true) (fun mx => Ok (xs, (mn, mx))))) chs) as [x0 [E _]].
    { intros xs Hxs. destruct (get_tensor_max_total xs n_bits true (Hx _ _ Hc Hxs) Hn) as [m ->].
      pose proof (Hx _ _ Hc Hxs). destruct xs; [tauto|]. cbn. eauto. }
    rewrite E. cbn [bind].
    destruct (uni_iterative_lem loss n_bits scalers nit tol x0 Hs) as [out [-> _]]. eauto. }
  rewrite E. cbn [bind].
  edestruct (argmin_nonempty (map (fun chs => meanQ (map (c_loss (X:=list Q) (P:=Q*Q)) chs)) per)) as [i [v Ev]];
    [|rewrite Ev; cbn; eauto].
  destruct per; [|discriminate]. destruct axes; [tauto|discriminate].
Qed.
