From Verif Require Import Base RoundQ RoundQFacts QuantModel QuantProofs QuantLemmas SearchModel SearchProofs KLModel.
From Coq Require Import Lqa.
Open Scope Q_scope.

Lemma sumQ_app a b : sumQ (a ++ b) == sumQ a + sumQ b.
Proof. unfold sumQ. induction a as [|x a IH]; cbn [app fold_right]; [ring|]. rewrite IH. ring. Qed.
Lemma sumQ_cons x l : sumQ (x :: l) == x + sumQ l. Proof. reflexivity. Qed.
Lemma sumQ_nonneg l : (forall x, In x l -> 0 <= x) -> 0 <= sumQ l.
Proof.
  induction l as [|x l IH]; intro H; [apply Qle_refl|]. rewrite sumQ_cons.
  pose proof (H x (or_introl eq_refl)). pose proof (IH (fun y Hy => H y (or_intror Hy))). lra.
Qed.
Lemma sumQ_pos l : (forall x, In x l -> 0 <= x) -> (exists x, In x l /\ 0 < x) -> 0 < sumQ l.
Proof.
  induction l as [|x l IH]; intros H [y [Hy Py]]; [destruct Hy|]. rewrite sumQ_cons.
  pose proof (H x (or_introl eq_refl)). pose proof (sumQ_nonneg l (fun z Hz => H z (or_intror Hz))).
  destruct Hy as [->|Hy]; [lra|].
  assert (0 < sumQ l) by (apply IH; [intros; apply H; right; assumption|eauto]). lra.
Qed.
Lemma sumQ_div s l : ~ s == 0 -> sumQ (map (fun x => x / s) l) == sumQ l / s.
Proof. intro Hs. induction l as [|x l IH]; cbn [map]; [unfold sumQ; cbn [fold_right]; field; exact Hs|]. rewrite !sumQ_cons, IH. field. exact Hs. Qed.
Lemma normalize_sum l : ~ sumQ l == 0 -> sumQ (normalize l) == 1.
Proof. intro H. unfold normalize. rewrite sumQ_div by exact H. field. exact H. Qed.
Lemma normalize_length l : length (normalize l) = length l.
Proof. apply map_length. Qed.

(* ---- clipping ---- *)
Lemma sum_add_first v l : l <> [] -> sumQ (add_first v l) == sumQ l + v.
Proof. destruct l; [tauto|]. intros _. cbn [add_first]. rewrite !sumQ_cons. lra. Qed.
Lemma sum_add_last v l : l <> [] -> sumQ (add_last v l) == sumQ l + v.
Proof.
  induction l as [|x l IH]; [tauto|]. intros _. destruct l as [|y l]; [unfold sumQ; cbn [add_last fold_right]; ring|].
  change (add_last v (x :: y :: l)) with (x :: add_last v (y :: l)). rewrite !sumQ_cons, IH by discriminate.
  rewrite !sumQ_cons. lra.
Qed.
Lemma add_first_nonempty v l : l <> [] -> add_first v l <> [].
Proof. destruct l; [tauto|discriminate]. Qed.
Lemma add_first_length v l : length (add_first v l) = length l.
Proof. destruct l; reflexivity. Qed.
Lemma add_last_length v l : length (add_last v l) = length l.
Proof.
  induction l as [|x l IH]; [reflexivity|]. destruct l as [|y l]; [reflexivity|].
  change (add_last v (x :: y :: l)) with (x :: add_last v (y :: l)). cbn [length] in *. lia.
Qed.
Lemma slice_split {A} (l : list A) i j : (i <= j)%nat -> l = firstn i l ++ slice l i j ++ skipn j l.
Proof.
  intro H. unfold slice. rewrite <- (firstn_skipn i l) at 1. f_equal.
  rewrite <- (firstn_skipn (j - i) (skipn i l)) at 1. f_equal.
  replace j with ((j - i) + i)%nat at 2 by lia.
  clear H. generalize (j - i)%nat as k. revert l. induction i as [|i IH]; intros l k; cbn.
  - rewrite Nat.add_0_r. reflexivity.
  - destruct l as [|x l]; [rewrite !skipn_nil; reflexivity|]. rewrite Nat.add_succ_r. cbn. apply IH.
Qed.

Lemma clipped_counts_lem : forall counts first last acc,
  (first <= last)%nat ->
  compute_clipped_counts counts (slice counts first last) first last = Ok acc ->
  sumQ acc == sumQ counts /\ length acc = length (slice counts first last).
Proof.
  intros counts first last acc H E. unfold compute_clipped_counts in E.
  assert (slice counts first last <> []) as Hn by (destruct (slice counts first last); [discriminate|discriminate]).
  assert (acc = add_last (sumQ (skipn last counts)) (add_first (sumQ (firstn first counts)) (slice counts first last))) as ->
    by (destruct (slice counts first last); congruence).
  split; [|rewrite add_last_length, add_first_length; reflexivity].
  rewrite sum_add_last by (apply add_first_nonempty; exact Hn). rewrite sum_add_first by exact Hn.
  rewrite (slice_split counts first last H) at 4. rewrite !sumQ_app. lra.
Qed.

(* ---- smoothing ---- *)
Lemma nonzero_spec q : reflect (~ q == 0) (nonzero q).
Proof.
  unfold nonzero. destruct (Qeq_bool q 0) eqn:E; constructor.
  - apply Qeq_bool_iff in E. tauto.
  - intro H. apply Qeq_bool_iff in H. congruence.
Qed.
Lemma natQ_pos n : (0 < n)%nat -> 0 < natQ n.
Proof. intro H. unfold natQ. apply (ZQ_lt 0). lia. Qed.
Lemma natQ_nonneg n : 0 <= natQ n.
Proof. unfold natQ. apply (ZQ_le 0). lia. Qed.
Lemma natQ_S n : natQ (S n) == natQ n + 1.
Proof. unfold natQ. rewrite Nat2Z.inj_succ, <- Z.add_1_r, inject_Z_plus. reflexivity. Qed.
Lemma natQ_le a b : (a <= b)%nat -> natQ a <= natQ b.
Proof. intro H. unfold natQ. apply ZQ_le. lia. Qed.
Lemma countb_le {A} (f : A -> bool) l : (countb f l <= length l)%nat.
Proof. unfold countb. induction l as [|x l IH]; cbn; [lia|]. destruct (f x); cbn; lia. Qed.

Lemma smooth_sum r s p :
  sumQ (map (fun x => if nonzero x then x - r else x + s) p)
  == sumQ p - r * natQ (countb nonzero p) + s * natQ (length p - countb nonzero p).
Proof.
  induction p as [|x p IH]; [unfold sumQ, natQ, countb, inject_Z; cbn; ring|]. cbn [map]. rewrite !sumQ_cons, IH.
  pose proof (countb_le nonzero p). unfold countb in *. cbn [filter]. destruct (nonzero x); cbn [length].
  - replace (S (length p) - S (length (filter nonzero p)))%nat with (length p - length (filter nonzero p))%nat by lia.
    rewrite natQ_S. ring.
  - replace (S (length p) - length (filter nonzero p))%nat with (S (length p - length (filter nonzero p))) by lia.
    rewrite natQ_S. ring.
Qed.

Lemma smooth_lem : forall p, (forall x, In x p -> 0 <= x) -> (exists x, In x p /\ 0 < x) ->
  exists h, smooth_distribution p = Ok h /\ length h = length p /\ sumQ h == sumQ p /\ (forall y, In y h -> 0 < y).
Proof.
  intros p Hp [x0 [Hx0 Px0]]. unfold smooth_distribution.
  assert (In x0 (filter nonzero p)) as Hin.
  { apply filter_In. split; [exact Hx0|]. destruct (nonzero_spec x0); [reflexivity|lra]. }
  destruct (list_min (filter nonzero p)) as [mn|] eqn:Em.
  2:{ unfold list_min in Em. destruct (filter nonzero p); [destruct Hin|discriminate]. }
  cbn [bind]. cbv zeta.
  pose proof (list_min_in _ _ Em) as Hmn. apply filter_In in Hmn. destruct Hmn as [Hmn Nmn].
  assert (0 < mn) as Pm.
  { destruct (nonzero_spec mn) as [N|N]; [|discriminate]. pose proof (Hp mn Hmn). lra. }
  assert (0 < length p)%nat as Pl by (destruct p; [destruct Hx0|cbn; lia]).
  pose proof (natQ_pos _ Pl) as Pn. set (n := natQ (length p)) in *. set (s := mn / (2 * n)).
  assert (0 < s) as Ps by (apply Qlt_shift_div_l; lra).
  assert (s * (2 * n) == mn) as Es by (unfold s; field; lra).
  destruct (Qlt_b_spec 0 s) as [_|L]; [|lra]. cbn [negb].
  assert (0 < countb nonzero p)%nat as Pc by (unfold countb; destruct (filter nonzero p); [destruct Hin|cbn; lia]).
  destruct (Nat.eqb_spec (countb nonzero p) 0) as [E0|_]; [lia|].
  set (z := natQ (length p - countb nonzero p)). set (c := natQ (countb nonzero p)).
  set (r := s * z / c). pose proof (natQ_pos _ Pc) as Pcq. fold c in Pcq.
  assert (0 <= z) as Pz by apply natQ_nonneg.
  assert (z <= n) as Zn by (apply natQ_le; lia).
  assert (1 <= c) as C1 by (unfold c; change 1 with (natQ 1); apply natQ_le; lia).
  assert (r * c == s * z) as Er by (unfold r; field; lra).
  assert (0 <= r) as R0 by (apply Qle_shift_div_l; [exact Pcq|nra]).
  assert (r <= mn / 2) as Rm.
  { assert (mn / 2 == s * n) as -> by (rewrite <- Es; field). nra. }
  assert (mn / 2 < mn) as Rm2 by (assert (mn / 2 == mn * (1#2)) as -> by field; lra).
  assert (forall y, In y (map (fun x => if nonzero x then x - r else x + s) p) -> 0 < y) as Hpos.
  { intros y Hy. apply in_map_iff in Hy. destruct Hy as [x [<- Hx]]. destruct (nonzero_spec x) as [N|N].
    - assert (mn <= x). { eapply list_min_le; [exact Em|]. apply filter_In. split; [exact Hx|].
        destruct (nonzero_spec x); [reflexivity|tauto]. } lra.
    - pose proof (Hp x Hx). lra. }
  fold r. destruct (existsb _ _) eqn:Ex.
  { apply existsb_exists in Ex. destruct Ex as [y [Hy Ly]]. pose proof (Hpos y Hy).
    destruct (Qle_bool_spec y 0); [lra|discriminate]. }
  eexists. split; [reflexivity|]. split; [apply map_length|]. split; [|exact Hpos].
  rewrite smooth_sum. fold c z. rewrite Er. ring.
Qed.

(* all-zero input is rejected *)
Lemma smooth_zero_lem : forall p, (forall x, In x p -> x == 0) -> smooth_distribution p = Err E_value.
Proof.
  intros p H. unfold smooth_distribution. assert (filter nonzero p = []) as ->.
  { induction p as [|x p IH]; [reflexivity|]. cbn. destruct (nonzero_spec x) as [N|N].
    - exfalso. apply N. apply H. left; reflexivity.
    - apply IH. intros. apply H. right; assumption. }
  reflexivity.
Qed.

(* ---- the window ---- *)
Lemma first_idx_spec {A} (f : A -> bool) l i : first_idx f l = Some i ->
  (exists x, nth_error l i = Some x /\ f x = true) /\ (forall j x, nth_error l j = Some x -> f x = true -> (i <= j)%nat).
Proof.
  revert i. induction l as [|y l IH]; intros i H; cbn in H; [discriminate|]. destruct (f y) eqn:Ef.
  - inversion H; subst. split; [exists y; auto|]. intros; lia.
  - destruct (first_idx f l) as [k|]; [|discriminate]. inversion H; subst. destruct (IH _ eq_refl) as [H1 H2].
    split; [exact H1|]. intros [|j] x Hj Hf; cbn in Hj; [congruence|]. specialize (H2 _ _ Hj Hf). lia.
Qed.
Lemma last_idx_none {A} (f : A -> bool) l : last_idx f l = None -> forall x, In x l -> f x = false.
Proof.
  induction l as [|y l IH]; intros H x Hx; [destruct Hx|]. cbn in H. destruct (last_idx f l); [discriminate|].
  destruct (f y) eqn:E; [discriminate|]. destruct Hx as [->|Hx]; [exact E|apply IH; auto].
Qed.
Lemma last_idx_spec {A} (f : A -> bool) l i : last_idx f l = Some i ->
  (exists x, nth_error l i = Some x /\ f x = true) /\ (forall j x, nth_error l j = Some x -> f x = true -> (j <= i)%nat).
Proof.
  revert i. induction l as [|y l IH]; intros i H; cbn in H; [discriminate|].
  destruct (last_idx f l) as [k|] eqn:E.
  - inversion H; subst. destruct (IH _ eq_refl) as [H1 H2]. split; [exact H1|].
    intros [|j] x Hj Hf; [lia|]. specialize (H2 _ _ Hj Hf). lia.
  - destruct (f y) eqn:Ef; [|discriminate]. inversion H; subst. split; [exists y; auto|].
    intros [|j] x Hj Hf; [lia|]. cbn in Hj. apply nth_error_In in Hj. rewrite (last_idx_none f l E x Hj) in Hf. discriminate.
Qed.

Definition nondecreasing (l : list Q) : Prop :=
  forall i j x y, (i <= j)%nat -> nth_error l i = Some x -> nth_error l j = Some y -> x <= y.

Lemma window_lem : forall bins a b r, nondecreasing bins -> a < b ->
  get_bins_indices_from_range bins a b = Some r ->
  exists i j, r = Ok (i, j) /\ (i <= j)%nat /\ (j < length bins)%nat.
Proof.
  intros bins a b r Hs Hab H. unfold get_bins_indices_from_range in H.
  destruct (first_idx _ bins) as [i|] eqn:Ei; [|discriminate].
  destruct (last_idx _ bins) as [j|] eqn:Ej; [|discriminate].
  inversion H; subst r; clear H. destruct (Qlt_b_spec a b) as [_|L]; [|lra]. cbn [negb].
  apply first_idx_spec in Ei. apply last_idx_spec in Ej.
  destruct Ei as [[xi [Xi Fi]] Mi]. destruct Ej as [[xj [Xj Fj]] Mj].
  assert (j < length bins)%nat as Lj by (apply nth_error_Some; congruence).
  assert (i <= S j)%nat as Lij.
  { destruct (nth_error bins (S j)) as [y|] eqn:Ey.
    - apply (Mi (S j) y Ey). destruct (Qle_bool_spec a y) as [_|L]; [reflexivity|].
      assert (Qlt_b y b = true) as F by (destruct (Qlt_b_spec y b); [reflexivity|lra]).
      specialize (Mj _ _ Ey F). lia.
    - apply nth_error_None in Ey. assert (i < length bins)%nat by (apply nth_error_Some; congruence). lia. }
  exists (i - 1)%nat, j. destruct (Nat.leb_spec (i - 1) j); [|lia]. repeat split; lia.
Qed.

Lemma slice_length {A} (l : list A) i j : (i <= j)%nat -> (j <= length l)%nat -> length (slice l i j) = (j - i)%nat.
Proof. intros. unfold slice. rewrite firstn_length, skipn_length. lia. Qed.
Lemma slice_In {A} (l : list A) i j x : In x (slice l i j) -> In x l.
Proof.
  unfold slice. intro H. rewrite <- (firstn_skipn i l). apply in_or_app. right.
  rewrite <- (firstn_skipn (j - i) (skipn i l)). apply in_or_app. left. exact H.
Qed.
Lemma removelast_length' {A} (l : list A) : length (removelast l) = (length l - 1)%nat.
Proof.
  induction l as [|x l IH]; [reflexivity|]. destruct l as [|y l]; [reflexivity|].
  change (removelast (x :: y :: l)) with (x :: removelast (y :: l)). cbn [length] in *. lia.
Qed.

(* quantized counts: non-negative; positive where the count is; same length *)
Lemma q_group_in qb counts v c : In (v, c) (combine qb counts) -> In c (q_group qb counts v).
Proof.
  intro H. unfold q_group. apply in_map_iff. exists (v, c). split; [reflexivity|]. apply filter_In. split; [exact H|].
  cbn. apply Qeq_bool_iff. reflexivity.
Qed.
Lemma q_group_sub qb counts v c : In c (q_group qb counts v) -> In c counts.
Proof.
  unfold q_group. intro H. apply in_map_iff in H. destruct H as [[a b] [E H]]. cbn in E. subst b.
  apply filter_In in H. destruct H as [H _]. eapply in_combine_r. exact H.
Qed.
Lemma quantized_counts_lem qb counts : length qb = length counts ->
  (forall c, In c counts -> 0 <= c) -> (exists c, In c counts /\ 0 < c) ->
  length (quantized_counts qb counts) = length counts /\
  (forall y, In y (quantized_counts qb counts) -> 0 <= y) /\ (exists y, In y (quantized_counts qb counts) /\ 0 < y).
Proof.
  intros Hl Hc [c0 [H0 P0]]. unfold quantized_counts.
  assert (forall v, 0 < natQ (countb (Qlt_b 0) (q_group qb counts v)) + TINY) as Pd.
  { intro v. pose proof (natQ_nonneg (countb (Qlt_b 0) (q_group qb counts v))). unfold TINY. lra. }
  split; [rewrite map_length, combine_length; lia|]. split.
  - intros y Hy. apply in_map_iff in Hy. destruct Hy as [[v c] [<- Hin]].
    destruct (Qlt_b_spec 0 c); [|lra]. apply Qle_shift_div_l; [apply Pd|].
    rewrite Qmult_0_l. apply sumQ_nonneg. intros z Hz. apply Hc. eapply q_group_sub; exact Hz.
  - destruct (In_nth counts c0 0 H0) as [k [Lk Ek]].
    assert (In (nth k qb 0, c0) (combine qb counts)) as Hin.
    { rewrite <- Ek, <- (combine_nth qb counts k 0 0 Hl). apply nth_In. rewrite combine_length. lia. }
    exists (let g := q_group qb counts (nth k qb 0) in sumQ g / (natQ (countb (Qlt_b 0) g) + TINY)). split.
    + apply in_map_iff. exists (nth k qb 0, c0). split; [|exact Hin]. destruct (Qlt_b_spec 0 c0); [reflexivity|lra].
    + cbv zeta. apply Qlt_shift_div_l; [apply Pd|]. rewrite Qmult_0_l. apply sumQ_pos.
      * intros z Hz. apply Hc. eapply q_group_sub; exact Hz.
      * exists c0. split; [apply q_group_in; exact Hin|exact P0].
Qed.

Lemma normalize_nonneg l : (forall x, In x l -> 0 <= x) -> (exists x, In x l /\ 0 < x) ->
  (forall y, In y (normalize l) -> 0 <= y) /\ (exists y, In y (normalize l) /\ 0 < y).
Proof.
  intros H [x [Hx Px]]. pose proof (sumQ_pos l H (ex_intro _ x (conj Hx Px))) as Ps. unfold normalize. split.
  - intros y Hy. apply in_map_iff in Hy. destruct Hy as [z [<- Hz]]. apply Qle_shift_div_l; [exact Ps|].
    rewrite Qmult_0_l. apply H; exact Hz.
  - exists (x / sumQ l). split; [apply in_map_iff; eauto|]. apply Qlt_shift_div_l; [exact Ps|]. rewrite Qmult_0_l. exact Px.
Qed.

Lemma add_last_nonneg v l : 0 <= v -> (forall x, In x l -> 0 <= x) -> forall y, In y (add_last v l) -> 0 <= y.
Proof.
  intros Hv. induction l as [|x l IH]; intros H y Hy; [destruct Hy|].
  destruct l as [|z l].
  - destruct Hy as [<-|[]]. pose proof (H x (or_introl eq_refl)). lra.
  - change (add_last v (x :: z :: l)) with (x :: add_last v (z :: l)) in Hy. destruct Hy as [<-|Hy].
    + apply H. left; reflexivity.
    + apply IH; [intros; apply H; right; assumption|exact Hy].
Qed.

Definition distribution (p : list Q) : Prop := (forall x, In x p -> 0 < x) /\ sumQ p == 1.

Lemma kl_lem : forall q_bins bins counts a b,
  nondecreasing bins -> length bins = S (length counts) -> length q_bins = length bins ->
  (forall c, In c counts -> 0 <= c) -> a < b ->
  exists r, kl_error_histogram q_bins bins counts a b = Ok r /\
    forall p q, r = KL_pair p q -> length p = length q /\ p <> [] /\ distribution p /\ distribution q.
Proof.
  intros q_bins bins counts a b Hs Hl Hq Hc Hab. unfold kl_error_histogram.
  destruct (get_bins_indices_from_range bins a b) as [r|] eqn:E; [|eexists; split; [reflexivity|discriminate]].
  destruct (window_lem bins a b r Hs Hab E) as (i & j & -> & Hij & Hj). cbn [bind].
  destruct (Nat.eqb_spec i j) as [->|Hne]; [eexists; split; [reflexivity|discriminate]|].
  unfold get_sliced_histogram. set (cs := slice counts i j).
  destruct (existsb nonzero cs) eqn:Ex; cbn [negb]; [|eexists; split; [reflexivity|discriminate]].
  apply existsb_exists in Ex. destruct Ex as [c0 [H0 N0]].
  assert (forall c, In c cs -> 0 <= c) as Hcs by (intros c H; apply Hc; eapply slice_In; exact H).
  assert (0 < c0) as P0. { destruct (nonzero_spec c0) as [N|N]; [|discriminate]. pose proof (Hcs c0 H0). lra. }
  assert (length cs = (j - i)%nat) as Lc by (apply slice_length; lia).
  assert (exists acc, compute_clipped_counts counts cs i j = Ok acc) as [acc Ea].
  { unfold compute_clipped_counts. destruct cs as [|y cs']; [destruct H0|]. eauto. }
  rewrite Ea. cbn [bind].
  destruct (clipped_counts_lem counts i j acc Hij Ea) as [Sa La].
  set (qb := removelast (slice q_bins i (j + 1))).
  assert (length qb = length cs) as Lq.
  { unfold qb. rewrite removelast_length', slice_length by lia. lia. }
  destruct (quantized_counts_lem qb cs Lq Hcs (ex_intro _ c0 (conj H0 P0))) as (Lqc & Nq & Pq).
  pose proof (sumQ_pos _ Nq Pq) as Sq.
  destruct (normalize_nonneg _ Nq Pq) as [Nq' Pq'].
  destruct (smooth_lem _ Nq' Pq') as (h & Eh & Lh & Sh & Ph). rewrite Eh. cbn [bind].
  assert (forall x, In x acc -> 0 <= x) as Nacc.
  { unfold compute_clipped_counts in Ea. destruct cs as [|y cs'] eqn:Ecs; [destruct H0|].
    assert (acc = add_last (sumQ (skipn j counts)) (add_first (sumQ (firstn i counts)) (y :: cs'))) as -> by congruence.
    apply add_last_nonneg.
    - apply sumQ_nonneg. intros z Hz. apply Hc. rewrite <- (firstn_skipn j counts). apply in_or_app. right; exact Hz.
    - intros x [<-|Hx]; [|apply Hcs; right; exact Hx].
      pose proof (Hcs y (or_introl eq_refl)).
      assert (0 <= sumQ (firstn i counts)) by (apply sumQ_nonneg; intros z Hz; apply Hc;
        rewrite <- (firstn_skipn i counts); apply in_or_app; left; exact Hz). lra. }
  assert (0 < sumQ counts) as Sc.
  { apply sumQ_pos; [exact Hc|]. exists c0. split; [eapply slice_In; exact H0|exact P0]. }
  assert (exists x, In x acc /\ 0 < x) as Pacc.
  { assert (0 < sumQ acc) as Sacc by (rewrite Sa; exact Sc).
    clear - Sacc Nacc. induction acc as [|x acc IH]; [change (0 < 0) in Sacc; lra|].
    destruct (Qlt_le_dec 0 x) as [L|L]; [exists x; split; [left; reflexivity|exact L]|].
    rewrite sumQ_cons in Sacc. destruct IH as [y [Hy Py]]; [intros; apply Nacc; right; assumption|lra|].
    exists y. split; [right; exact Hy|exact Py]. }
  destruct (normalize_nonneg _ Nacc Pacc) as [Na' Pa'].
  destruct (smooth_lem _ Na' Pa') as (g & Eg & Lg & Sg & Pg). rewrite Eg. cbn [bind].
  eexists. split; [reflexivity|]. intros p q Epq. inversion Epq; subst p q.
  rewrite normalize_length in Lh, Lg. fold cs in La.
  split; [congruence|]. split; [destruct g; [cbn in Lg; rewrite La in Lg; destruct cs; [destruct H0|discriminate]|discriminate]|].
  split; split; try assumption.
  - rewrite Sg. apply normalize_sum. rewrite Sa. lra.
  - rewrite Sh. apply normalize_sum. lra.
Qed.
