From Coq Require Import Lqa Lia Reals Qreals.
From Verif Require Import Base RoundQ RoundQFacts QuantModel QuantProofs QuantLemmas SearchModel SearchProofs KLModel KLProofs
  CollectModel CollectSpec CollectProofs ActParamModel ActParamSpec.
Open Scope Q_scope.

(* ---- the cumulative histogram of one batch ---- *)
Lemma in_filter_len {A} (f : A -> bool) l v : In v l -> f v = true -> (1 <= length (filter f l))%nat.
Proof.
  intros H E. assert (In v (filter f l)) as I by (apply filter_In; auto). destruct (filter f l); [destruct I|cbn; lia].
Qed.
Lemma count_ge1 (f : Q -> bool) l v : In v l -> f v = true -> 1 <= inject_Z (Z.of_nat (length (filter f l))).
Proof. intros H E. pose proof (in_filter_len f l v H E). change 1 with (inject_Z 1). rewrite <- Zle_Qle. lia. Qed.

Lemma count_bins_sum_ge1 x v e : In v x -> strictly_increasing e -> (2 <= length e)%nat -> hd 0 e <= v <= last e 0 ->
  1 <= sumQ (count_bins x e).
Proof.
  intros Hv He Hl Hin. destruct e as [|l [|r e]]; cbn in Hl; try lia.
  rewrite (count_bins_sum x (r :: e) l 0 He) by discriminate. apply (count_ge1 _ _ v Hv).
  apply andb_true_iff. split; apply Qle_bool_iff; [exact (proj1 Hin)|exact (proj2 Hin)].
Qed.

Lemma count_bins_cons3 x (l r q : Q) e : count_bins x (l :: r :: q :: e) =
  inject_Z (Z.of_nat (length (filter (fun v => Qle_bool l v && Qlt_b v r) x))) :: count_bins x (r :: q :: e).
Proof. reflexivity. Qed.
Lemma pts_cons (l r : Q) e a c cs : combine (l :: r :: e) (a :: cumsum a (c :: cs)) = (l, a) :: (r, a + c) :: combine e (cumsum (a + c) cs).
Proof. reflexivity. Qed.

Lemma frac_pos l r z : l < z -> z < r -> 0 < (z - l) / (r - l).
Proof. intros. apply Qlt_shift_div_l; lra. Qed.
Lemma frac_lt1 l r z : l < z -> z < r -> (z - l) / (r - l) < 1.
Proof. intros. apply Qlt_shift_div_r; lra. Qed.

Lemma mul_pos a b : 0 < a -> 0 < b -> 0 < a * b.
Proof. intros. setoid_replace 0 with (0 * b) by ring. apply Qmult_lt_r; assumption. Qed.
Lemma mul_nn a b : 0 <= a -> 0 <= b -> 0 <= a * b.
Proof. apply Qmult_le_0_compat. Qed.
Lemma qle_f a b : a < b -> Qle_bool b a = false.
Proof. intro H. destruct (Qle_bool b a) eqn:E; [|reflexivity]. apply Qle_bool_iff in E. lra. Qed.
Lemma qle_t a b : a <= b -> Qle_bool a b = true.
Proof. apply Qle_bool_iff. Qed.
Lemma qlt_t a b : a < b -> Qlt_b a b = true.
Proof. intro H. unfold Qlt_b. rewrite qle_f by exact H. reflexivity. Qed.
Lemma qlt_f a b : b <= a -> Qlt_b a b = false.
Proof. intro H. unfold Qlt_b. rewrite qle_t by exact H. reflexivity. Qed.
Lemma qlt_iff a b : Qlt_b a b = true <-> a < b.
Proof. split; [|apply qlt_t]. destruct (Qlt_le_dec a b) as [H|H]; [auto|]. rewrite qlt_f by exact H. discriminate. Qed.

(* above an observed value something has been counted *)
Lemma cum_above x v z : In v x -> v < z -> forall e a, strictly_increasing e -> (2 <= length e)%nat -> hd 0 e <= v <= last e 0 ->
  a < interp z (combine e (a :: cumsum a (count_bins x e))).
Proof.
  intros Hv Hz. induction e as [|l [|r e] IH]; intros a He Hl Hin; cbn in Hl; try lia. clear Hl. cbn [hd] in Hin.
  pose proof (si_tail _ _ He) as He'. destruct He as [Hlr _].
  destruct e as [|q e].
  - cbn [count_bins last] in *. set (c := inject_Z _). assert (1 <= c) as Hc.
    { apply (count_ge1 _ _ v Hv). apply andb_true_iff. split; apply qle_t; tauto. }
    rewrite pts_cons. cbn [combine cumsum]. rewrite interp_cons. rewrite qle_f by lra.
    destruct (Qlt_le_dec z r) as [Hzr|Hzr].
    + rewrite qlt_t by exact Hzr. pose proof (frac_pos l r z ltac:(lra) Hzr) as Hf. set (f := (z - l) / (r - l)) in *.
      pose proof (mul_pos c f ltac:(lra) Hf). lra.
    + rewrite qlt_f by exact Hzr. cbn. lra.
  - rewrite count_bins_cons3. set (c := inject_Z _). set (cs := count_bins x (r :: q :: e)) in *.
    assert (0 <= c) as Hc0 by (unfold c; change 0 with (inject_Z 0); rewrite <- Zle_Qle; lia).
    rewrite pts_cons, interp_cons. rewrite qle_f by lra.
    change ((r, a + c) :: combine (q :: e) (cumsum (a + c) cs)) with (combine (r :: q :: e) ((a + c) :: cumsum (a + c) cs)).
    assert (nd_pts (combine (r :: q :: e) ((a + c) :: cumsum (a + c) cs))) as Hnd.
    { apply nd_combine; [exact He'|]. apply count_bins_nonneg. }
    destruct (Qlt_le_dec v r) as [Hvr|Hvr].
    + assert (1 <= c) as Hc. { apply (count_ge1 _ _ v Hv). apply andb_true_iff. split; [apply qle_t; tauto|apply qlt_t; exact Hvr]. }
      destruct (Qlt_le_dec z r) as [Hzr|Hzr].
      * rewrite qlt_t by exact Hzr. pose proof (frac_pos l r z ltac:(lra) Hzr) as Hf. set (f := (z - l) / (r - l)) in *.
      pose proof (mul_pos c f ltac:(lra) Hf). lra.
      * rewrite qlt_f by exact Hzr. pose proof (interp_ge_first z (combine (q :: e) (cumsum (a + c) cs)) (r, a + c) Hnd) as Hg.
        eapply Qlt_le_trans; [|exact Hg]. cbn [snd]. lra.
    + rewrite qlt_f by lra. specialize (IH (a + c) He'). cbn [hd] in IH.
      assert (a + c < interp z (combine (r :: q :: e) (a + c :: cumsum (a + c) cs))); [|lra].
      apply IH; [cbn; lia|]. split; [exact Hvr|exact (proj2 Hin)].
Qed.

(* below an observed value something is still to come *)
Lemma cum_below x v z : In v x -> z < v -> forall e a, strictly_increasing e -> (2 <= length e)%nat -> hd 0 e <= v <= last e 0 ->
  interp z (combine e (a :: cumsum a (count_bins x e))) < a + sumQ (count_bins x e).
Proof.
  intros Hv Hz. induction e as [|l [|r e] IH]; intros a He Hl Hin; cbn in Hl; try lia. cbn [hd] in Hin.
  pose proof (count_bins_sum_ge1 x v _ Hv He Hl Hin) as Htot.
  pose proof (si_tail _ _ He) as He'. destruct He as [Hlr _].
  destruct (Qlt_le_dec l z) as [Hlz|Hlz].
  2:{ destruct (count_bins x (l :: r :: e)) as [|c cs] eqn:Ec; [cbn in Htot; lra|].
      rewrite pts_cons. rewrite interp_left by exact Hlz. cbn [snd]. lra. }
  destruct e as [|q e].
  - cbn [count_bins last] in *. set (c := inject_Z _) in *. rewrite sumQ_cons in *. cbn [sumQ fold_right] in *.
    rewrite pts_cons. cbn [combine cumsum]. rewrite interp_cons, qle_f by lra. rewrite qlt_t by lra.
    pose proof (frac_lt1 l r z Hlz ltac:(lra)) as Hf. set (f := (z - l) / (r - l)) in *.
    pose proof (mul_pos c (1 - f) ltac:(lra) ltac:(lra)). lra.
  - rewrite count_bins_cons3 in *. set (c := inject_Z _) in *. set (cs := count_bins x (r :: q :: e)) in *.
    assert (0 <= c) as Hc0 by (unfold c; change 0 with (inject_Z 0); rewrite <- Zle_Qle; lia).
    assert (0 <= sumQ cs) as Hs0.
    { unfold cs. pose proof (count_bins_nonneg x (r :: q :: e)) as N. clear - N. induction N; [cbn; lra|]. rewrite sumQ_cons. lra. }
    rewrite sumQ_cons in *. rewrite pts_cons, interp_cons, qle_f by lra.
    change ((r, a + c) :: combine (q :: e) (cumsum (a + c) cs)) with (combine (r :: q :: e) ((a + c) :: cumsum (a + c) cs)).
    destruct (Qlt_le_dec z r) as [Hzr|Hzr].
    + rewrite qlt_t by exact Hzr. pose proof (frac_lt1 l r z Hlz Hzr) as Hf. pose proof (frac_pos l r z Hlz Hzr) as Hf0.
      set (f := (z - l) / (r - l)) in *.
      destruct (Qlt_le_dec v r) as [Hvr|Hvr].
      * assert (1 <= c) as Hc. { apply (count_ge1 _ _ v Hv). apply andb_true_iff. split; [apply qle_t; tauto|apply qlt_t; exact Hvr]. }
        pose proof (mul_pos c (1 - f) ltac:(lra) ltac:(lra)). lra.
      * assert (1 <= sumQ cs). { apply (count_bins_sum_ge1 x v); auto; [cbn; lia|]. split; [exact Hvr|exact (proj2 Hin)]. }
        pose proof (mul_nn c (1 - f) ltac:(lra) ltac:(lra)). lra.
    + rewrite qlt_f by exact Hzr. specialize (IH (a + c) He'). cbn [hd] in IH.
      assert (interp z (combine (r :: q :: e) (a + c :: cumsum (a + c) cs)) < a + c + sumQ cs); [|lra].
      apply IH; [cbn; lia|]. split; [lra|exact (proj2 Hin)].
Qed.

(* ---- the merged histogram ---- *)
Definition cum (h : list Q * list Q) (z : Q) : Q := interp z (combine (snd h) (0 :: cumsum 0 (fst h))).
Definition cums (hs : list (list Q * list Q)) (z : Q) : Q := sumQ (map (fun h => cum h z) hs).

Lemma diff_cons (g : Q -> Q) a b l : diff (map g (a :: b :: l)) = (g b - g a) :: diff (map g (b :: l)).
Proof. reflexivity. Qed.
Lemma F2_refl : forall l : list Q, Forall2 Qeq l l.
Proof. induction l; constructor; [reflexivity|assumption]. Qed.
Lemma F2_trans : forall a b c : list Q, Forall2 Qeq a b -> Forall2 Qeq b c -> Forall2 Qeq a c.
Proof. induction a; intros b c H1 H2; inversion H1; subst; inversion H2; subst; constructor; [lra|eauto]. Qed.
Lemma map2_plus_eq : forall a a' b, Forall2 Qeq a a' -> Forall2 Qeq (map2 Qplus a b) (map2 Qplus a' b).
Proof. induction a as [|x a IH]; intros a' b H; inversion H; subst; cbn; [constructor|]. destruct b; constructor; [lra|apply IH; assumption]. Qed.
Lemma fold_plus_eq : forall l a a', Forall2 Qeq a a' -> Forall2 Qeq (fold_left (map2 Qplus) l a) (fold_left (map2 Qplus) l a').
Proof. induction l as [|c l IH]; intros a a' H; cbn; [exact H|]. apply IH. apply map2_plus_eq. exact H. Qed.
Lemma diff_plus (f g : Q -> Q) : forall bins, Forall2 Qeq (map2 Qplus (diff (map f bins)) (diff (map g bins))) (diff (map (fun z => f z + g z) bins)).
Proof.
  induction bins as [|x [|y l] IH]; [constructor..|]. rewrite !diff_cons. cbn [map2]. constructor; [lra|exact IH].
Qed.
Lemma diff_ext (f g : Q -> Q) : (forall z, f z == g z) -> forall bins, Forall2 Qeq (diff (map f bins)) (diff (map g bins)).
Proof. intros E. induction bins as [|x [|y l] IH]; [constructor..|]. rewrite !diff_cons. constructor; [rewrite (E x), (E y); reflexivity|exact IH]. Qed.

Lemma merged_counts bins : forall hs f,
  Forall2 Qeq (fold_left (map2 Qplus) (map (fun ch => interpolate_histogram bins (snd ch) (fst ch)) hs) (diff (map f bins)))
              (diff (map (fun z => f z + cums hs z) bins)).
Proof.
  induction hs as [|h hs IH]; intro f.
  - cbn [map fold_left]. apply diff_ext. intro z. unfold cums. cbn. lra.
  - cbn [map fold_left]. eapply F2_trans; [apply fold_plus_eq; apply (diff_plus f (cum h))|].
    eapply F2_trans; [apply (IH (fun z => f z + cum h z))|]. apply diff_ext. intro z. unfold cums. cbn [map]. rewrite sumQ_cons. lra.
Qed.

Lemma merge_is_cums n hs b c : merge_histograms (S n) hs = Ok (b, c) ->
  Forall2 Qeq c (diff (map (cums hs) b)).
Proof.
  unfold merge_histograms. destruct hs as [|h hs]; [discriminate|]. cbn match.
  destruct (list_min _) as [mn|] eqn:E1; [|discriminate]. destruct (list_max _) as [mx|] eqn:E2; [|discriminate].
  cbn [bind map]. intro H. injection H as <- <-.
  eapply F2_trans; [apply (merged_counts _ hs (cum h))|]. apply diff_ext. intro z. unfold cums. cbn [map]. rewrite sumQ_cons. reflexivity.
Qed.

Lemma masked_eq {A} : forall (l : list A) c c', Forall2 Qeq c c' -> masked l c = masked l c'.
Proof.
  induction l as [|x l IH]; intros c c' H; [reflexivity|]. inversion H as [|a b ca cb E F]; subst; [reflexivity|]. cbn.
  assert (Qlt_b 0 a = Qlt_b 0 b) as ->.
  { destruct (Qlt_b 0 a) eqn:E1, (Qlt_b 0 b) eqn:E2; try reflexivity; [apply qlt_iff in E1|apply qlt_iff in E2];
    [rewrite qlt_t in E2 by lra|rewrite qlt_t in E1 by lra]; discriminate. }
  rewrite (IH _ _ F). reflexivity.
Qed.

(* a value below which nothing has been counted has a non-empty bin starting at or below it *)
Lemma masked_left (G : Q -> Q) v : (forall x y, x <= y -> G x <= G y) -> forall bins l,
  strictly_increasing (l :: bins) -> l <= v -> (forall z, v < z -> G l < G z) -> G l < G (last (l :: bins) 0) ->
  exists b, In b (masked (removelast (l :: bins)) (diff (map G (l :: bins)))) /\ b <= v.
Proof.
  intros Hm. induction bins as [|r bins IH]; intros l Hs Hl Hv Ht; [cbn in Ht; lra|].
  change (removelast (l :: r :: bins)) with (l :: removelast (r :: bins)). rewrite diff_cons. cbn [masked].
  pose proof (si_tail _ _ Hs) as Hs'. destruct Hs as [Hlr _].
  destruct (Qlt_le_dec (G l) (G r)) as [H|H].
  - rewrite qlt_t by lra. exists l. split; [left; reflexivity|exact Hl].
  - rewrite qlt_f by lra. assert (G l <= G r) by (apply Hm; lra). assert (G r == G l) as Eg by lra.
    destruct (Qlt_le_dec v r) as [Hr|Hr]; [specialize (Hv r Hr); lra|].
    apply IH; auto.
    + intros z Hz. specialize (Hv z Hz). lra.
    + change (last (l :: r :: bins) 0) with (last (r :: bins) 0) in Ht. lra.
Qed.
Lemma masked_right (G : Q -> Q) v : (forall x y, x <= y -> G x <= G y) -> forall bins l,
  strictly_increasing (l :: bins) -> (forall z, z < v -> G z < G (last (l :: bins) 0)) -> G l < G (last (l :: bins) 0) ->
  exists b, In b (masked bins (diff (map G (l :: bins)))) /\ v <= b.
Proof.
  intros Hm. induction bins as [|r bins IH]; intros l Hs Hv Ht; [cbn in Ht; lra|].
  rewrite diff_cons. cbn [masked]. pose proof (si_tail _ _ Hs) as Hs'. destruct Hs as [Hlr _].
  change (last (l :: r :: bins) 0) with (last (r :: bins) 0) in *.
  destruct (Qlt_le_dec (G l) (G r)) as [H|H].
  - rewrite qlt_t by lra. destruct (Qlt_le_dec r v) as [Hr|Hr]; [|exists r; split; [left; reflexivity|exact Hr]].
    destruct (IH r Hs' Hv (Hv r Hr)) as (b & Ib & Hb). exists b. split; [right; exact Ib|exact Hb].
  - rewrite qlt_f by lra. assert (G l <= G r) by (apply Hm; lra). apply IH; auto. lra.
Qed.

(* ---- observed batches ---- *)
Lemma updates_hist n : forall xs h h', h_n h = S n -> foldM h_update xs h = Ok h' ->
  exists hs, h_iter h' = h_iter h ++ hs /\ h_legal h' = h_legal h /\ h_n h' = S n /\ h_bins h' = h_bins h /\ h_counts h' = h_counts h /\
    Forall2 (fun x ch => np_histogram x (S n) = Ok ch) xs hs.
Proof.
  induction xs as [|x xs IH]; intros h h' Hn E; cbn [foldM] in E.
  - injection E as <-. exists []. rewrite app_nil_r. repeat (split; [auto|]). constructor.
  - unfold h_update at 1 in E. rewrite Hn in E. destruct (np_histogram x (S n)) as [ch|] eqn:Ex; [|discriminate]. cbn [bind] in E.
    apply IH in E; [|reflexivity]. destruct E as (hs & H1 & H2 & H3 & H4 & H5 & H6). cbn in H1, H2, H4, H5.
    exists (ch :: hs). rewrite H1, <- app_assoc. repeat (split; [auto|]). constructor; auto.
Qed.

Lemma np_hist_inv n x ch : np_histogram x (S n) = Ok ch ->
  x <> [] /\ fst ch = count_bins x (snd ch) /\ hist_ok (S n) ch /\ sumQ (fst ch) == inject_Z (Z.of_nat (length x)) /\
  (forall v, In v x -> hd 0 (snd ch) <= v <= last (snd ch) 0).
Proof.
  intro E. assert (x <> []) as Hx by (intro; subst; discriminate).
  destruct (np_histogram_lem x n Hx) as (c & e & E' & H1 & H2 & H3). rewrite E in E'. injection E' as ->.
  split; [exact Hx|]. split; [|auto]. unfold np_histogram in E. destruct (list_min x); [|discriminate]. destruct (list_max x); [|discriminate].
  cbn [bind] in E. destruct (if Qeq_bool _ _ then _ else _) as [p1 p2]. injection E as <- <-. reflexivity.
Qed.
Lemma np_hist_hd n x ch : np_histogram x (S n) = Ok ch -> (forall v, In v x -> 0 <= v) -> ~ constant x -> 0 <= hd 0 (snd ch).
Proof.
  intros E Hp Hc. unfold np_histogram in E. destruct (list_min x) as [lo|] eqn:E1; [|discriminate]. destruct (list_max x) as [hi|] eqn:E2; [|discriminate].
  cbn [bind] in E. destruct (Qeq_bool lo hi) eqn:Eq.
  - exfalso. apply Hc. exists lo. intros v Hv. apply Qeq_bool_iff in Eq. pose proof (list_min_le _ _ E1 v Hv). pose proof (list_max_ge _ _ E2 v Hv). lra.
  - injection E as <-. cbn [snd]. assert (lo < hi) as Hlt.
    { apply Qeq_bool_neq in Eq. pose proof (Qmin_max_le _ _ _ E1 E2). destruct (Qlt_le_dec lo hi); [assumption|]. exfalso. apply Eq. lra. }
    destruct (linspace_shape lo hi n Hlt) as (e & Ee & _ & _ & Hh & _). change (0 <= hd 0 (linspace lo hi (S (S n)))). rewrite Ee, Hh. destruct (list_min_is_min _ _ E1) as ((y & Iy & Ey) & _).
    rewrite Ey. apply Hp. exact Iy.
Qed.

Lemma cum_mono n h : hist_ok (S n) h -> forall x y, x <= y -> cum h x <= cum h y.
Proof.
  intros (L1 & L2 & S1 & N1) x y H. unfold cum. apply interp_mono; [exact H|]. apply nd_combine; assumption.
Qed.
Lemma sumQ_le {A} (f g : A -> Q) l : (forall a, In a l -> f a <= g a) -> sumQ (map f l) <= sumQ (map g l).
Proof.
  induction l as [|a l IH]; intro H; [cbn; lra|]. cbn [map]. rewrite !sumQ_cons.
  pose proof (H a (or_introl eq_refl)). assert (sumQ (map f l) <= sumQ (map g l)) by (apply IH; intros; apply H; right; assumption). lra.
Qed.
Lemma sumQ_lt {A} (f g : A -> Q) l a : (forall a, In a l -> f a <= g a) -> In a l -> f a < g a -> sumQ (map f l) < sumQ (map g l).
Proof.
  induction l as [|b l IH]; intros H Ha E; [destruct Ha|]. cbn [map]. rewrite !sumQ_cons.
  pose proof (H b (or_introl eq_refl)). destruct Ha as [->|Ha].
  - assert (sumQ (map f l) <= sumQ (map g l)) by (apply sumQ_le; intros; apply H; right; assumption). lra.
  - assert (sumQ (map f l) < sumQ (map g l)) by (apply IH; [intros; apply H; right; assumption|exact Ha|exact E]). lra.
Qed.
Lemma cum_left n h z : hist_ok (S n) h -> z <= hd 0 (snd h) -> cum h z == 0.
Proof.
  intros (L1 & _) H. unfold cum. destruct (snd h) as [|b bs] eqn:E; [discriminate|]. cbn [combine]. rewrite interp_left by exact H. reflexivity.
Qed.
Lemma cum_right n h z : hist_ok (S n) h -> last (snd h) 0 <= z -> cum h z == sumQ (fst h).
Proof.
  intros (L1 & L2 & S1 & N1) H. unfold cum.
  pose proof (nd_combine _ _ 0 S1 N1) as Hnd. set (pts := combine (snd h) (0 :: cumsum 0 (fst h))) in *.
  assert (last pts (0, 0) = (last (snd h) 0, last (0 :: cumsum 0 (fst h)) 0)) as El.
  { apply combine_last; [cbn; rewrite cumsum_length; lia|]. intro E. rewrite E in L1. discriminate. }
  assert (pts <> []) as Hne by (intro E; subst pts; destruct (snd h); [discriminate L1|discriminate E]).
  rewrite (interp_right _ pts (0, 0) Hne Hnd) by (rewrite El; exact H). rewrite El. cbn [snd]. rewrite cumsum_last. ring.
Qed.

Lemma F2_in {A B} (P : A -> B -> Prop) l m a : Forall2 P l m -> In a l -> exists b, In b m /\ P a b.
Proof. induction 1; intro H1; [destruct H1|]. destruct H1 as [->|H1]; [eexists; split; [left; reflexivity|assumption]|]. destruct (IHForall2 H1) as (b & ? & ?). exists b. split; [right|]; assumption. Qed.
Lemma F2_in_r {A B} (P : A -> B -> Prop) l m b : Forall2 P l m -> In b m -> exists a, In a l /\ P a b.
Proof. induction 1; intro H1; [destruct H1|]. destruct H1 as [->|H1]; [eexists; split; [left; reflexivity|assumption]|]. destruct (IHForall2 H1) as (a & ? & ?). exists a. split; [right|]; assumption. Qed.

(* the merged histogram of the batches: a retained left edge at or below, and a retained right edge at or above, every value *)
Lemma observed_edges n xs h h' bins counts : xs <> [] -> foldM h_update xs (h_new (S n)) = Ok h -> h_get h = Ok (h', (bins, counts)) ->
  (forall v, In v (concat xs) ->
    (exists b, In b (masked (removelast bins) counts) /\ b <= v) /\ (exists b, In b (masked (tl bins) counts) /\ v <= b)) /\
  ((forall v, In v (concat xs) -> 0 <= v) -> Forall (fun x => ~ constant x) xs -> forall b, In b bins -> 0 <= b).
Proof.
  intros Hx Ef Eg. destruct (updates_hist n xs (h_new (S n)) h eq_refl Ef) as (hs & H1 & H2 & H3 & H4 & H5 & F). cbn in H1, H2, H4, H5.
  unfold h_get in Eg. rewrite H2, H4, H3, H1 in Eg. cbn [negb] in Eg.
  destruct (merge_histograms (S n) hs) as [[b c]|] eqn:Em; [|discriminate]. cbn [bind] in Eg. injection Eg as _ <- <-.
  assert (Forall (hist_ok (S n)) hs) as Hok.
  { apply Forall_forall. intros ch Hch. destruct (F2_in_r _ _ _ _ F Hch) as (x & _ & Ex). apply (np_hist_inv n x ch Ex). }
  assert (hs <> []) as Hn by (destruct xs; [contradiction|]; inversion F; discriminate).
  destruct (merge_lem n hs Hn Hok) as (b' & c' & Em' & (A1 & A2 & A3 & A4) & As & FB). rewrite Em in Em'. injection Em' as <- <-.
  cbn [fst snd] in *. pose proof (merge_is_cums n hs b c Em) as Ec. rewrite Forall_forall in FB, Hok.
  assert (forall x y, x <= y -> cums hs x <= cums hs y) as Gm.
  { intros x y H. unfold cums. apply sumQ_le. intros ch Hch. apply (cum_mono n); auto. }
  split.
  - intros v Hv. apply in_concat in Hv. destruct Hv as (x & Ix & Iv). destruct (F2_in _ _ _ _ F Ix) as (ch & Ich & Ech).
    destruct (np_hist_inv n x ch Ech) as (_ & C1 & C2 & _ & C3). specialize (C3 v Iv).
    pose proof (FB ch Ich) as [B1 B2]. destruct b as [|l b]; [discriminate|].
    assert (forall z, cum ch z = interp z (combine (snd ch) (0 :: cumsum 0 (count_bins x (snd ch))))) as Ecum by (intro z; unfold cum; rewrite C1; reflexivity).
    destruct C2 as (D1 & D2 & D3 & D4).
    assert (2 <= length (snd ch))%nat as Hl2 by lia.
    assert (forall z, v < z -> cums hs l < cums hs z) as Ha.
    { intros z Hz. cbn [hd] in *. unfold cums. apply (sumQ_lt _ _ _ ch); [|exact Ich|].
      - intros k Ik. apply (cum_mono n); [auto|]. lra.
      - rewrite (cum_left n ch l) by (auto; apply B1). rewrite Ecum. apply cum_above with (v := v); auto. }
    assert (forall z, z < v -> cums hs z < cums hs (last (l :: b) 0)) as Hb.
    { intros z Hz. unfold cums. apply (sumQ_lt _ _ _ ch); [|exact Ich|].
      - intros k Ik. apply (cum_mono n); [auto|]. lra.
      - rewrite (cum_right n ch (last (l :: b) 0)) by (auto; apply B2). rewrite Ecum, C1.
        pose proof (cum_below x v z Iv Hz (snd ch) 0 D3 Hl2 C3). lra. }
    assert (cums hs l < cums hs (last (l :: b) 0)) as Hlt.
    { destruct (Qlt_le_dec v (last (l :: b) 0)) as [H|H]; [apply Ha; exact H|]. apply Hb. cbn [hd] in B1.
      pose proof (si_hd_last (l :: b) ltac:(cbn in *; lia) A3). cbn [hd] in *. lra. }
    rewrite !(masked_eq _ _ _ Ec). split.
    + apply (masked_left (cums hs) v Gm); auto. cbn [hd] in B1. lra.
    + cbn [tl]. apply (masked_right (cums hs) v Gm); auto.
  - intros Hp Hnc. assert (0 <= hd 0 b) as Hh.
    { unfold merge_histograms in Em. destruct hs as [|h0 hs0]; [tauto|]. cbn match in Em.
      destruct (list_min _) as [mn|] eqn:E1; [|discriminate]. destruct (list_max _) as [mx|] eqn:E2; [|discriminate].
      cbn [bind map] in Em. injection Em as <- _.
      assert (0 <= mn) as Hmn.
      { destruct (list_min_is_min _ _ E1) as ((y & Iy & Ey) & _). rewrite Ey. apply in_concat in Iy. destruct Iy as (e & Ie & Iy).
        apply in_map_iff in Ie. destruct Ie as (ch & <- & Ich). destruct (F2_in_r _ _ _ _ F Ich) as (x & Ix & Ex).
        assert (0 <= hd 0 (snd ch)) as Hhd.
        { apply (np_hist_hd n x ch Ex); [|rewrite Forall_forall in Hnc; auto]. intros v Hv. apply Hp. apply in_concat. eauto. }
        destruct (Hok ch Ich) as (_ & _ & S1 & _). clear - Hhd S1 Iy. destruct (snd ch) as [|q e]; [destruct Iy|]. cbn [hd] in Hhd.
        revert q Hhd S1 Iy. induction e as [|p e IH]; intros q H S1 [->|I]; auto; [destruct I|]. destruct S1 as [S1 S2]. apply (IH p); auto. lra. }
      unfold linspace. cbn [hd map seq]. match goal with |- context [?a * (?b / ?c)] => generalize (b / c) end. intro st. change (inject_Z 0) with 0. lra. }
    intros q Iq. clear - Hh A3 Iq. destruct b as [|p e]; [destruct Iq|]. cbn [hd] in Hh.
    revert p Hh A3 Iq. induction e as [|r e IH]; intros p H S1 [->|I]; auto; [destruct I|]. destruct S1 as [S1 S2]. apply (IH r); auto. lra.
Qed.
