(* StatsHistProofs.v -- the weighted histogram *)
From Coq Require Import Arith Lia.
From Verif Require Import Base RoundQ RoundQFacts QuantModel QuantProofs QuantLemmas SearchModel SearchProofs KLModel KLProofs CollectModel CollectSpec CollectProofs StatsModel StatsSpec.
From Coq Require Import Lqa.
Local Open Scope Q_scope.

Lemma wsum_cons f p xw : wsum f (p :: xw) == (if f (fst p) then snd p else 0) + wsum f xw.
Proof. unfold wsum. cbn [filter]. destruct (f (fst p)); cbn [map]; rewrite ?sumQ_cons; [reflexivity|]. rewrite Qplus_0_l. reflexivity. Qed.
Lemma wsum_nil f : wsum f [] = 0.
Proof. reflexivity. Qed.
Lemma wsum_split f g h xw : (forall v, h v = true -> (f v = true /\ g v = false) \/ (f v = false /\ g v = true)) ->
  (forall v, h v = false -> f v = false /\ g v = false) -> wsum h xw == wsum f xw + wsum g xw.
Proof.
  intros H1 H2. induction xw as [|p xw IH]; [rewrite !wsum_nil; ring|]. rewrite !wsum_cons, IH.
  destruct (h (fst p)) eqn:E.
  - destruct (H1 _ E) as [[-> ->] | [-> ->]]; ring.
  - destruct (H2 _ E) as [-> ->]. ring.
Qed.
Lemma wsum_ext f g xw : (forall v, f v = g v) -> wsum f xw == wsum g xw.
Proof. intro H. induction xw as [|p xw IH]; [reflexivity|]. rewrite !wsum_cons, IH, H. reflexivity. Qed.

Lemma wcount_cons xw l r r2 rest : wcount_bins xw (l :: r :: r2 :: rest) =
  wsum (fun v => Qle_bool l v && Qlt_b v r) xw :: wcount_bins xw (r :: r2 :: rest).
Proof. reflexivity. Qed.

Lemma wcount_sum xw : forall edges l d, strictly_increasing (l :: edges) -> edges <> [] ->
  sumQ (wcount_bins xw (l :: edges)) == wsum (fun v => Qle_bool l v && Qle_bool v (last (l :: edges) d)) xw.
Proof.
  induction edges as [|r rest IH]; intros l d H Hn; [tauto|]. destruct rest as [|r2 rest].
  - cbn. ring.
  - rewrite wcount_cons. destruct H as [H1 H2]. change (last (l :: r :: r2 :: rest) d) with (last (r :: r2 :: rest) d).
    rewrite sumQ_cons, (IH r d H2) by discriminate.
    assert (r < last (r :: r2 :: rest) d) as Hr by (apply si_last; [exact H2|discriminate]).
    set (z := last (r :: r2 :: rest) d) in *. symmetry. apply wsum_split; intro v; unfold Qlt_b; qcases; cbn; intro Hb;
      try discriminate; try (split; reflexivity); try lra; auto.
Qed.
Lemma wcount_length xw : forall edges, length (wcount_bins xw edges) = (length edges - 1)%nat.
Proof.
  induction edges as [|l [|r rest] IH]; [reflexivity..|]. destruct rest as [|r2 rest]; [reflexivity|].
  rewrite wcount_cons. cbn [length]. rewrite IH. cbn. lia.
Qed.
Lemma wcount_nth xw : forall edges k (b : Q -> bool), (S k < length edges)%nat -> strictly_increasing edges ->
  (forall x, b x = true <-> in_bin edges k x) -> nth k (wcount_bins xw edges) 0 == wsum b xw.
Proof.
  induction edges as [|l [|r rest] IH]; intros k b Hk Hs Hb; [cbn in Hk; lia..|]. destruct rest as [|r2 rest].
  - destruct k as [|k]; [|cbn in Hk; lia]. cbn [wcount_bins nth]. apply wsum_ext. intro v. apply Bool.eq_iff_eq_true.
    rewrite Hb, andb_true_iff, !Qle_bool_iff. unfold in_bin. cbn [nth length]. split.
    + intros [H1 H2]. split; [exact H1|]. destruct (Qlt_le_dec v r); [left; assumption|right; split; [reflexivity|lra]].
    + intros [H1 [H2|[_ H2]]]; split; lra.
  - rewrite wcount_cons. destruct k as [|k].
    + cbn [nth]. apply wsum_ext. intro v. apply Bool.eq_iff_eq_true. rewrite Hb, andb_true_iff, Qle_bool_iff. unfold in_bin. cbn [nth length].
      unfold Qlt_b. destruct (Qle_bool_spec r v) as [H|H]; cbn.
      * split; [intros [_ A]; discriminate|]. intros [H1 [H2|[H2 _]]]; [lra|discriminate].
      * split; [intros [H1 _]; auto|]. intros [H1 _]. auto.
    + cbn [nth]. apply IH; [cbn in *; lia|exact (proj2 Hs)|]. intro x. rewrite Hb. unfold in_bin.
      change (nth (S k) (l :: r :: r2 :: rest) 0) with (nth k (r :: r2 :: rest) 0).
      change (nth (S (S k)) (l :: r :: r2 :: rest) 0) with (nth (S k) (r :: r2 :: rest) 0). cbn [length].
      split; intros [H1 [H2|[H2 H3]]]; (split; [exact H1|]); auto; right; (split; [lia|exact H3]).
Qed.

Lemma wcount_unit x (xw : list (Q * Q)) : map fst xw = x -> Forall (fun p => snd p == 1) xw -> forall edges,
  Forall2 Qeq (wcount_bins xw edges) (count_bins x edges).
Proof.
  intros Hx Hw. assert (forall f, wsum f xw == inject_Z (Z.of_nat (length (filter f x)))) as HU.
  { intro f. subst x. induction xw as [|p xw IH]; [reflexivity|]. rewrite wsum_cons. cbn [map filter]. inversion Hw; subst.
    rewrite (IH H2). destruct (f (fst p)); cbn [length]; [|ring]. rewrite Nat2Z.inj_succ. unfold Z.succ. rewrite inject_Z_plus, H1. change (inject_Z 1) with 1. ring. }
  induction edges as [|l [|r rest] IH]; [constructor..|]. destruct rest as [|r2 rest].
  - cbn. constructor; [apply HU|constructor].
  - rewrite wcount_cons. change (count_bins x (l :: r :: r2 :: rest)) with
      (inject_Z (Z.of_nat (length (filter (fun v => Qle_bool l v && Qlt_b v r) x))) :: count_bins x (r :: r2 :: rest)).
    constructor; [apply HU|exact IH].
Qed.

(* ---- weights of elements ---- *)
(* valid indices of a shape *)
Definition valid (s i : list nat) : Prop := Forall2 (fun d k => (k < d)%nat) s i.
Lemma indices_valid : forall s i, In i (indices s) -> valid s i.
Proof.
  induction s as [|d s IH]; intros i H; cbn in H.
  - destruct H as [<- | []]. constructor.
  - apply in_concat in H. destruct H as (l & H1 & H2). apply in_map_iff in H1. destruct H1 as (k & <- & Hk).
    apply in_map_iff in H2. destruct H2 as (j & <- & Hj). apply in_seq in Hk. constructor; [lia|]. apply IH. exact Hj.
Qed.
Lemma squeeze_self : forall s i, valid s i -> squeeze s i = i.
Proof. intros s i H. induction H as [|d k s i Hd _ IH]; [reflexivity|]. cbn. rewrite IH. destruct (Nat.eqb_spec d 1); [f_equal; lia|reflexivity]. Qed.
Lemma dims_fit_self : forall s, dims_fit s s = true.
Proof. induction s as [|d s IH]; [reflexivity|]. cbn. rewrite Nat.eqb_refl. exact IH. Qed.
Lemma dims_fit_spec : forall a b, length a = length b -> (dims_fit a b = true <-> Forall2 (fun x w => w = x \/ w = 1%nat) a b).
Proof.
  induction a as [|x a IH]; intros [|w b] H; try discriminate.
  - split; [constructor|reflexivity].
  - cbn in *. rewrite andb_true_iff, orb_true_iff, !Nat.eqb_eq, (IH b) by lia. split.
    + intros [H1 H2]. constructor; [intuition|exact H2].
    + intro H1. inversion H1; subst. intuition.
Qed.
Lemma squeeze_length : forall s i, valid s i -> length (squeeze s i) = length s.
Proof. intros s i H. induction H; cbn; auto. Qed.
Lemma squeeze_len_gen : forall s i, length s = length i -> length (squeeze s i) = length s.
Proof. induction s as [|w s IH]; intros [|k i] H; try discriminate; [reflexivity|]. cbn in *. f_equal. apply IH. lia. Qed.
Lemma indices_length s i : In i (indices s) -> length i = length s.
Proof. intro H. apply indices_valid in H. induction H; cbn; auto. Qed.
Lemma squeeze_position : forall s i, length s = length i -> weight_position s i (squeeze s i).
Proof.
  intros s i H. split; [apply squeeze_len_gen; exact H|]. revert i H. induction s as [|w s IH]; intros [|k i] H d Hd; try discriminate; [cbn in Hd; lia|].
  destruct d as [|d]; [reflexivity|]. cbn [squeeze nth]. apply IH; cbn in *; lia.
Qed.

Lemma stretch_same_rank sx (w : arr) : length (ashape w) = length sx ->
  (Forall2 (fun x d => d = x \/ d = 1%nat) sx (ashape w) ->
   exists f, stretch sx w = Ok f /\ check_broadcastable sx (ashape w) = Ok tt /\
     forall i, In i (indices sx) -> f i = aget w (squeeze (ashape w) i)) /\
  (~ Forall2 (fun x d => d = x \/ d = 1%nat) sx (ashape w) -> check_broadcastable sx (ashape w) = Err E_critical).
Proof.
  intro L. unfold stretch, check_broadcastable. rewrite L, Nat.sub_diag, Nat.ltb_irrefl. cbn [repeat app]. rewrite app_nil_r.
  pose proof (dims_fit_spec sx (ashape w) ltac:(lia)) as D. split; intro H.
  - rewrite (proj2 D H). eexists. split; [reflexivity|]. split; [reflexivity|]. intros i Hi. f_equal.
    rewrite <- L. apply indices_valid in Hi.
    assert (length (squeeze (ashape w) i) = length (ashape w)) as <-; [|apply firstn_all].
    apply squeeze_len_gen. rewrite L. clear -Hi. induction Hi; cbn; auto.
  - destruct (dims_fit sx (ashape w)) eqn:E; [exfalso; apply H, D, eq_refl|reflexivity].
Qed.

Definition not_all_zero (w : arr) : Prop := exists i, In i (indices (ashape w)) /\ ~ aget w i == 0.
Lemma all_zero_spec w : forallb (fun i => Qeq_bool (aget w i) 0) (indices (ashape w)) = false <-> not_all_zero w.
Proof.
  unfold not_all_zero. generalize (indices (ashape w)). induction l as [|i l IH]; cbn; [split; [discriminate|intros (i & [] & _)]|].
  destruct (Qeq_bool (aget w i) 0) eqn:E; cbn.
  - rewrite IH. split; [intros (j & A & B); exists j; auto|]. intros (j & [<- | A] & B); [apply Qeq_bool_iff in E; tauto|exists j; auto].
  - split; [|reflexivity]. intros _. exists i. split; [auto|]. apply Qeq_bool_neq. exact E.
Qed.

Lemma element_weights_same_rank sx (w : arr) : not_all_zero w -> length (ashape w) = length sx ->
  (Forall2 (fun x d => d = x \/ d = 1%nat) sx (ashape w) ->
   exists f, element_weights sx (Some w) = Ok f /\ forall i, In i (indices sx) -> f i = aget w (squeeze (ashape w) i)) /\
  (~ Forall2 (fun x d => d = x \/ d = 1%nat) sx (ashape w) -> element_weights sx (Some w) = Err E_critical).
Proof.
  intros Hz L. unfold element_weights. rewrite (proj2 (all_zero_spec w) Hz). destruct (stretch_same_rank sx w L) as [A B]. split; intro H.
  - destruct (A H) as (f & E1 & E2 & E3). rewrite E2. cbn. eauto.
  - rewrite (B H). reflexivity.
Qed.

Lemma map_combine_fst (f g : list nat -> Q) l : map fst (map (fun i => (f i, g i)) l) = map f l.
Proof. rewrite map_map. reflexivity. Qed.

Lemma weighted_hist_lem (x : arr) (w : option arr) f n : indices (ashape x) <> [] -> element_weights (ashape x) w = Ok f ->
  exists c e c0, weighted_histogram x w (S n) = Ok (c, e) /\ np_histogram (map (aget x) (indices (ashape x))) (S n) = Ok (c0, e) /\
    length c = S n /\ sumQ c == sumQ (map f (indices (ashape x))) /\
    (forall k (b : Q -> bool), (k < S n)%nat -> (forall v, b v = true <-> in_bin e k v) ->
       nth k c 0 == sumQ (map f (filter (fun i => b (aget x i)) (indices (ashape x))))) /\
    ((forall i, In i (indices (ashape x)) -> f i == 1) -> Forall2 Qeq c c0).
Proof.
  intros Hx Hf. unfold weighted_histogram. rewrite Hf. cbn [bind].
  destruct (np_histogram_lem (map (aget x) (indices (ashape x))) n) as (c0 & e & E & (H1 & H2 & H3 & H4) & Hs & Hin).
  { destruct (indices (ashape x)); [tauto|discriminate]. }
  cbn [fst snd] in *. assert (c0 = count_bins (map (aget x) (indices (ashape x))) e) as Ec0.
  { unfold np_histogram in E. destruct (list_min _); [|discriminate]. destruct (list_max _); [|discriminate]. cbn [bind] in E. destruct (if Qeq_bool q q0 then _ else _). injection E as <- <-. reflexivity. }
  rewrite E. cbn [bind]. eexists _, e, c0. split; [reflexivity|]. split; [reflexivity|].
  set (xw := map (fun i => (aget x i, f i)) (indices (ashape x))).
  assert (forall b, wsum b xw == sumQ (map f (filter (fun i => b (aget x i)) (indices (ashape x))))) as HW.
  { intro b. unfold xw. generalize (indices (ashape x)). induction l as [|i l IH]; [reflexivity|]. cbn [map]. rewrite wsum_cons, IH. cbn [fst snd filter].
    destruct (b (aget x i)); cbn [map]; rewrite ?sumQ_cons; ring. }
  split; [rewrite wcount_length, H1; lia|]. split; [|split].
  - destruct e as [|l [|r e]]; cbn in H1; try lia. rewrite (wcount_sum xw (r :: e) l 0 H3) by discriminate. rewrite HW.
    rewrite filter_all; [reflexivity|]. intros i Hi. destruct (Hin (aget x i)) as [A B]; [apply in_map; exact Hi|]. cbn [hd] in A.
    apply andb_true_iff. split; apply Qle_bool_iff; assumption.
  - intros k b Hk Hb. rewrite (wcount_nth xw e k b); [apply HW|lia|exact H3|exact Hb].
  - intro Hu. rewrite Ec0. apply wcount_unit; [apply map_combine_fst|]. apply Forall_forall. intros p Hp. apply in_map_iff in Hp.
    destruct Hp as (i & <- & Hi). cbn. apply Hu. exact Hi.
Qed.
