(* LfhProps.v -- C78: the importance scores by which channels are pruned. *)
From Coq Require Import Permutation Lia.
From Verif Require Import Base HessianModel HessianProofs SearchModel SearchProofs KLProofs PruneModel PruneSpec PruneProofs PruneProps LfhModel LfhSpec LfhProofs.
From Coq Require Import Lqa.
Open Scope Q_scope.
Open Scope res_scope.

Lemma axis_of e a dim : oc_info e = Ok (a, dim) -> e_axis e = Some a /\ nth_error (k_shape (e_kernel e)) a = Some dim.
Proof. unfold oc_info. destruct (e_axis e) as [b|]; [|discriminate]. destruct (nth_error _ b) eqn:E; [|discriminate]. intro O. injection O as <- <-. auto. Qed.
Lemma norms_spec e a dim l : oc_info e = Ok (a, dim) -> squared_norms e None = Ok l ->
  length l = dim /\ forall c, (c < dim)%nat -> nth c l 0 = energy (k_shape (e_kernel e)) (k_data (e_kernel e)) a [c].
Proof.
  intros O H. destruct (axis_of e a dim O) as [_ N].
  unfold squared_norms in H. rewrite O in H. cbn [bind fst snd] in H. injection H as <-. rewrite map_map, map_length, seq_length. split; [reflexivity|]. intros c L.
  rewrite (nth_indep _ 0 (sum_squares (channel (e_kernel e) a dim 0))) by (rewrite map_length, seq_length; exact L).
  rewrite (map_nth (fun c => sum_squares (channel (e_kernel e) a dim c)) (seq 0 dim) 0%nat c), seq_nth by exact L. apply channel_energy; assumption.
Qed.
Lemma group_in n gs j g : partition_of n gs -> nth_error gs j = Some g -> NoDup g /\ forall c, In c g -> (c < n)%nat.
Proof.
  intros [P _] E. apply nth_error_split in E. destruct E as (a & b & -> & _). rewrite concat_app in P. cbn [concat] in P. split.
  - assert (NoDup (concat a ++ g ++ concat b)) as D by (apply (Permutation_NoDup (Permutation_sym P)), seq_NoDup). clear - D. induction (concat a) as [|x l IH]; cbn [app] in D.
    + clear - D. induction g as [|x g IH]; constructor; inversion D; subst; [intro K; apply H1, in_or_app; left; exact K|exact (IH H2)].
    + inversion D; subst. exact (IH H2).
  - intros c I. assert (In c (seq 0 n)) as K; [|apply in_seq in K; lia]. apply (Permutation_in _ P). apply in_or_app. right. apply in_or_app. left. exact I.
Qed.
Lemma group_norms_spec e a dim gs l : oc_info e = Ok (a, dim) -> squared_norms e (Some gs) = Ok l -> partition_of dim gs ->
  length l = length gs /\ forall j g, nth_error gs j = Some g -> nth j l 0 == energy (k_shape (e_kernel e)) (k_data (e_kernel e)) a g.
Proof.
  intros O H P. destruct (axis_of e a dim O) as [_ N]. unfold squared_norms in H. rewrite O in H. cbn [bind fst snd] in H.
  destruct (concat_channels _ gs) as [cs|] eqn:C; cbn [bind] in H; [|discriminate]. injection H as <-. apply concat_spec in C. subst cs. rewrite map_map, map_length. split; [reflexivity|].
  intros j g E. destruct (group_in dim gs j g P E) as [ND IN]. rewrite (nth_error_nth _ j 0 (map_nth_error _ _ _ E)).
  rewrite squares_concat, map_map, <- (energy_split _ _ _ g ND). apply sum_ext. intros c I. specialize (IN c I).
  rewrite (nth_indep _ [] (channel (e_kernel e) a dim 0)) by (rewrite map_length, seq_length; exact IN). rewrite (map_nth (channel (e_kernel e) a dim)), seq_nth by exact IN.
  cbn [Nat.add]. rewrite (channel_energy _ _ _ _ N IN). reflexivity.
Qed.
Lemma nparams_spec e a dim p : oc_info e = Ok (a, dim) -> oc_nparams e = Ok p -> p = repeat (inject_Z (Z.of_nat (nprod (k_shape (e_kernel e)))) / inject_Z (Z.of_nat dim)) dim.
Proof. intros O H. unfold oc_nparams in H. rewrite O in H. cbn [bind snd] in H. injection H as <-. reflexivity. Qed.
Lemma nth_repeat_lt (x : Q) n c : (c < n)%nat -> nth c (repeat x n) 0 = x.
Proof. revert c. induction n as [|n IH]; intros c H; [lia|]. destruct c as [|c]; cbn [repeat nth]; [reflexivity|]. apply IH. lia. Qed.
Lemma gathered_params x n g : (forall c, In c g -> (c < n)%nat) -> sumQ (map (fun i => nth i (repeat x n) 0) g) == inject_Z (Z.of_nat (length g)) * x.
Proof.
  intro H. rewrite (sum_ext _ (fun _ => x)).
  - clear. induction g as [|c g IH]; [cbn [map sumQ fold_right length Z.of_nat]; change (inject_Z 0) with 0; lra|]. cbn [map length]. rewrite sumQ_cons, IH, Nat2Z.inj_succ. unfold Z.succ. rewrite inject_Z_plus. change (inject_Z 1) with 1. ring.
  - intros c I. specialize (H c I). clear - H. revert c H. induction n as [|n IH]; intros c H; [lia|]. destruct c as [|c]; cbn [repeat nth]; [reflexivity|]. apply IH. lia.
Qed.
Lemma mean_rows_nth n rows c : (c < n)%nat -> nth c (mean_rows n rows) 0 = average rows c.
Proof.
  intro L. unfold mean_rows. rewrite (nth_indep _ 0 (meanQ (map (fun r => nth 0 r 0) rows))) by (rewrite map_length, seq_length; exact L).
  rewrite (map_nth (fun c => meanQ (map (fun r => nth c r 0) rows)) (seq 0 n) 0%nat c), seq_nth by exact L. unfold meanQ, average. rewrite map_length. reflexivity.
Qed.
Lemma hessian_get fetch nodes hs : NoDup (map e_id nodes) -> NoDup (map e_name nodes) -> hessian_scores fetch nodes = Ok hs ->
  forall e, In e nodes -> exists rows, fetch e = Ok rows /\ dict_get (e_id e) hs = Some (mean_rows (length (hd [] rows)) rows).
Proof.
  intros NI NN H e I. unfold hessian_scores in H. destruct (foldM _ nodes []) as [bn|] eqn:B; cbn [bind] in H; [|discriminate].
  destruct (dict_fold e_name fetch nodes [] bn NN B) as [_ B1]. destruct (B1 e I) as (rows & F & G). exists rows. split; [exact F|].
  rewrite (foldM_ext' _ (fun d e => let! v := (let! rows := from_key (dict_get (e_name e) bn) in Ok (mean_rows (length (hd [] rows)) rows)) in Ok (dict_set (e_id e) v d))) in H.
  - destruct (dict_fold e_id _ nodes [] hs NI H) as [_ B2]. destruct (B2 e I) as (v & Ev & Gv). rewrite G in Ev. cbn [from_key bind] in Ev. injection Ev as <-. exact Gv.
  - intros s a. destruct (from_key _); reflexivity.
Qed.

(* Every layer gets one score for each of its groups; the groups partition its channels, and the score of a group is the
   sum of the mean Hessian scores times the sum of the squared weights over the number of weights, both of the channels of
   the group.  Channels of earlier groups are at least as important as those of later ones. *)
Theorem lfh_group_scores : forall fetch argsort nodes ss groups, NoDup (map e_id nodes) -> NoDup (map e_name nodes) ->
  (forall s, by_decreasing_score s (argsort s)) -> lfh_scores fetch argsort nodes = Ok (ss, groups) ->
  forall e, In e nodes -> exists a dim rows gs s, let shape := k_shape (e_kernel e) in let data := k_data (e_kernel e) in
    e_axis e = Some a /\ nth_error shape a = Some dim /\ fetch e = Ok rows /\ dict_get (e_id e) groups = Some gs /\ dict_get (e_id e) ss = Some s /\
    partition_of dim gs /\ length s = length gs /\
    (forall j g, nth_error gs j = Some g -> nth j s 0 == importance (average rows) shape data a dim g) /\
    (forall pre g1 mid g2 post c1 c2, gs = pre ++ g1 :: mid ++ g2 :: post -> In c1 g1 -> In c2 g2 ->
       importance (average rows) shape data a dim [c2] <= importance (average rows) shape data a dim [c1]).
Proof.
  intros fetch argsort nodes ss groups NI NN AS H e I. unfold lfh_scores in H.
  destruct (hessian_scores fetch nodes) as [hs|] eqn:Eh; cbn [bind] in H; [|discriminate].
  destruct (mapM _ nodes) as [cs|] eqn:Ec; cbn [bind] in H; [|discriminate].
  destruct (group_all cs) as [gr|] eqn:Eg; cbn [bind] in H; [|discriminate].
  destruct (foldM _ nodes []) as [s0|] eqn:Es; cbn [bind] in H; [|discriminate]. injection H as <- <-.
  destruct (hessian_get fetch nodes hs NI NN Eh e I) as (rows & Fr & Gh).
  destruct (dict_fold e_id _ nodes [] s0 NI Es) as [_ Bs]. destruct (Bs e I) as (s & Se & Gs). clear Bs Es.
  destruct (In_nth_error _ _ I) as (k & Ek). destruct (mapM_nth _ _ _ Ec) as [Lc Nc]. destruct (Nc k e Ek) as ([id [[order n] sizes]] & Ce & Nk).
  destruct (channel_score hs e) as [cscore|] eqn:Cs; cbn [bind] in Ce; [|discriminate]. injection Ce as <- <- <- <-.
  assert (map fst cs = map e_id nodes) as Ki.
  { clear - Ec. apply mapM_Forall2 in Ec. induction Ec as [|x y l ys E F IH]; [reflexivity|]. cbn [map]. rewrite IH. f_equal. destruct (channel_score hs x); [|discriminate]. cbn [bind] in E. injection E as <-. reflexivity. }
  destruct (group_all_get cs gr) with (node := e_id e) (order := argsort cscore) (n := length cscore) (sizes := e_simd e) as (simd & gs & _ & Gn & Gg);
    [rewrite Ki; exact NI|exact Eg|exact (nth_error_In _ _ Nk)|].
  unfold channel_score in Cs. rewrite Gh in Cs. cbn [from_key bind] in Cs. destruct (squared_norms e None) as [l0|] eqn:E0; cbn [bind] in Cs; [|discriminate]. destruct (oc_nparams e) as [p|] eqn:Ep; cbn [bind] in Cs; [|discriminate].
  destruct (oc_info e) as [[a dim]|] eqn:O; [|unfold oc_nparams in Ep; rewrite O in Ep; discriminate].
  destruct (axis_of e a dim O) as [Ax Nd]. destruct (norms_spec e a dim l0 O E0) as [L0 N0]. pose proof (nparams_spec e a dim p O Ep) as ->.
  apply score3_spec in Cs. destruct Cs as (Lh & Ll & Lp & Nth). assert (length cscore = dim) as Ld by congruence.
  destruct (channel_groups cscore (argsort cscore) simd gs (AS cscore) Gn) as (P & Gsz & _ & Ord). rewrite Ld in P.
  assert (partition_of dim gs) as PO. { split; [exact P|]. intros g J ->. specialize (Gsz [] J). cbn in Gsz. lia. }
  assert (forall c, (c < dim)%nat -> nth c cscore 0 == importance (average rows) (k_shape (e_kernel e)) (k_data (e_kernel e)) a dim [c]) as Chan.
  { intros c Lc'. rewrite (Nth c) by lia. rewrite (mean_rows_nth _ rows c) by (rewrite <- Ld, <- Lh in Lc'; unfold mean_rows in Lc'; rewrite map_length, seq_length in Lc'; exact Lc').
    rewrite (N0 c Lc'). unfold importance, total. cbn [map length]. rewrite sumQ_cons. cbn [sumQ fold_right]. rewrite nth_repeat_lt by exact Lc'.
    change (fold_right Nat.mul 1%nat (k_shape (e_kernel e))) with (nprod (k_shape (e_kernel e))). change (inject_Z (Z.of_nat 1)) with 1. rewrite Qmult_1_l, Qplus_0_r. reflexivity. }
  unfold simd_score in Se. rewrite Gh, Gg in Se. cbn [from_key bind] in Se.
  replace (match gr with [] => true | _ :: _ => false end) with false in Se by (destruct gr; [discriminate|reflexivity]).
  destruct (squared_norms e (Some gs)) as [lg|] eqn:El; cbn [bind] in Se; [|discriminate]. rewrite Ep in Se. cbn [bind] in Se.
  destruct (mapM _ gs) as [hg|] eqn:Ehg in Se; cbn [bind] in Se; [|discriminate]. destruct (mapM _ gs) as [pg|] eqn:Epg in Se; cbn [bind] in Se; [|discriminate].
  destruct (group_norms_spec e a dim gs lg O El PO) as [Lg Ng]. apply score3_spec in Se. destruct Se as (S1 & S2 & S3 & S4).
  exists a, dim, rows, gs, s. cbn zeta. split; [exact Ax|]. split; [exact Nd|]. split; [exact Fr|]. split; [exact Gg|]. split; [exact Gs|]. split; [exact PO|]. split; [congruence|]. split.
  - intros j g Ej. destruct (group_in dim gs j g PO Ej) as [ND IN].
    destruct (mapM_nth _ _ _ Ehg) as [_ M1]. destruct (M1 j g Ej) as (hv & Hv & Nh). destruct (mapM_nth _ _ _ Epg) as [_ M2]. destruct (M2 j g Ej) as (pv & Pv & Np).
    destruct (gather _ g) as [hw|] eqn:Gw in Hv; cbn [bind] in Hv; [|discriminate]. injection Hv as <-. destruct (gather _ g) as [pw|] eqn:Gp in Pv; cbn [bind] in Pv; [|discriminate]. injection Pv as <-.
    apply gather_spec in Gw, Gp. destruct Gw as [-> _], Gp as [-> _].
    assert (j < length s)%nat as Lj by (rewrite <- S2, Lg; apply nth_error_Some; congruence).
    rewrite (S4 j Lj), (nth_error_nth _ _ 0 Nh), (nth_error_nth _ _ 0 Np), (Ng j g Ej). unfold importance, total.
    rewrite (sum_ext (fun i => nth i (mean_rows _ rows) 0) (average rows)).
    + rewrite gathered_params by exact IN. reflexivity.
    + intros c Ic. specialize (IN c Ic). rewrite mean_rows_nth; [reflexivity|]. rewrite <- Ld, <- Lh in IN. unfold mean_rows in IN. rewrite map_length, seq_length in IN. exact IN.
  - intros pre g1 mid g2 post c1 c2 Q I1 I2. pose proof (Ord pre g1 mid g2 post c1 c2 Q I1 I2) as K.
    assert (forall g c, In g gs -> In c g -> (c < dim)%nat) as B by (intros g c Ig Ic; destruct (In_nth_error _ _ Ig) as (j & Ej); exact (proj2 (group_in dim gs j g PO Ej) c Ic)).
    rewrite <- (Chan c1), <- (Chan c2); [exact K| |]; eapply B; try eassumption; rewrite Q; apply in_or_app; right; [right; apply in_or_app; right; left; reflexivity|left; reflexivity].
Qed.
Print Assumptions lfh_group_scores.

Lemma sum_nonneg {A} (f : A -> Q) l : (forall a, In a l -> 0 <= f a) -> 0 <= sumQ (map f l).
Proof. intro H. apply sumQ_nonneg. intros x I. apply in_map_iff in I. destruct I as (a & <- & I). auto. Qed.
Lemma sum_prod {A} (f g : A -> Q) l : (forall a, In a l -> 0 <= f a /\ 0 <= g a) -> sumQ (map (fun a => f a * g a) l) <= sumQ (map f l) * sumQ (map g l).
Proof.
  induction l as [|a l IH]; intro H; [cbn; lra|]. cbn [map]. rewrite !sumQ_cons. destruct (H a (or_introl eq_refl)) as [F G].
  assert (forall b, In b l -> 0 <= f b /\ 0 <= g b) as H' by (intros b I; apply H; right; exact I). specialize (IH H').
  pose proof (sum_nonneg f l (fun b I => proj1 (H' b I))). pose proof (sum_nonneg g l (fun b I => proj2 (H' b I))). nra.
Qed.
Lemma energy_nonneg shape data axis C : 0 <= energy shape data axis C.
Proof. unfold energy. apply sum_nonneg. intros p _. nra. Qed.
Lemma sum_div {A} (f : A -> Q) k l : sumQ (map (fun a => f a / k) l) == sumQ (map f l) / k.
Proof. induction l as [|a l IH]; [cbn [map sumQ fold_right]; unfold Qdiv; ring|]. cbn [map]. rewrite !sumQ_cons, IH. unfold Qdiv. ring. Qed.

(* With non-negative Hessian scores, a group is at least as important as its channels are on average. *)
Theorem lfh_group_at_least_mean : forall h shape data axis dim g, NoDup g -> g <> [] -> (forall c, In c g -> 0 <= h c) ->
  (0 < fold_right Nat.mul 1 shape)%nat -> (0 < dim)%nat ->
  sumQ (map (fun c => importance h shape data axis dim [c]) g) / inject_Z (Z.of_nat (length g)) <= importance h shape data axis dim g.
Proof.
  intros h shape data axis dim g ND NE H P D. unfold importance, total. cbn [map length]. change (inject_Z (Z.of_nat 1)) with 1.
  set (k := inject_Z (Z.of_nat (fold_right Nat.mul 1%nat shape)) / inject_Z (Z.of_nat dim)). set (n := inject_Z (Z.of_nat (length g))).
  assert (0 < k) as K by (apply Qlt_shift_div_l; [change 0 with (inject_Z 0); rewrite <- Zlt_Qlt; lia|rewrite Qmult_0_l; change 0 with (inject_Z 0); rewrite <- Zlt_Qlt; lia]).
  assert (0 < n) as N by (unfold n; change 0 with (inject_Z 0); rewrite <- Zlt_Qlt; destruct g; [congruence|cbn [length]; lia]).
  rewrite (sum_ext _ (fun c => (h c * energy shape data axis [c]) / k)) by (intros c _; rewrite sumQ_cons; cbn [sumQ fold_right]; rewrite Qplus_0_r, Qmult_1_l; reflexivity).
  rewrite sum_div. rewrite <- (energy_split shape data axis g ND).
  pose proof (sum_prod h (fun c => energy shape data axis [c]) g (fun c I => conj (H c I) (energy_nonneg shape data axis [c]))) as Q. cbn beta in Q.
  set (S := sumQ (map (fun a => h a * energy shape data axis [a]) g)) in *. set (A := sumQ (map h g)) in *. set (B := sumQ (map (fun c => energy shape data axis [c]) g)) in *.
  assert (S / k / n == S / (n * k)) as -> by (field; split; lra).
  assert (0 < n * k) as NK by nra. apply Qle_shift_div_l; [exact NK|]. unfold Qdiv. rewrite <- Qmult_assoc, (Qmult_comm (/ _)), Qmult_inv_r by lra. rewrite Qmult_1_r. exact Q.
Qed.
Print Assumptions lfh_group_at_least_mean.

(* The scores are computed whenever every layer has an output channel axis and positive SIMD sizes, and the Hessian
   service returns for each sample one score for each of its output channels. *)
Theorem lfh_scores_succeed : forall fetch argsort nodes, NoDup (map e_id nodes) -> NoDup (map e_name nodes) -> (forall s, by_decreasing_score s (argsort s)) ->
  (forall e, In e nodes -> exists a dim r rows, e_axis e = Some a /\ nth_error (k_shape (e_kernel e)) a = Some dim /\ fetch e = Ok (r :: rows) /\ length r = dim /\
     e_simd e <> [] /\ forall s, In s (e_simd e) -> (0 < s)%Z) ->
  exists res, lfh_scores fetch argsort nodes = Ok res.
Proof.
  intros fetch argsort nodes NI NN AS H.
  assert (forall (F : enode -> result (list (list Q))) l d, (forall e, In e l -> exists v, F e = Ok v) -> exists d', foldM (fun d e => let! v := F e in Ok (dict_set (e_name e) v d)) l d = Ok d') as T0.
  { clear. induction l as [|e l IH]; intros d H; [exists d; reflexivity|]. cbn [foldM]. destruct (H e (or_introl eq_refl)) as (v & ->). cbn [bind]. apply IH. intros x I. apply H. right. exact I. }
  assert (forall (V : Type) (F : enode -> result V) l (d : list (nat * V)), (forall e, In e l -> exists v, F e = Ok v) -> exists d', foldM (fun d e => let! v := F e in Ok (dict_set (e_id e) v d)) l d = Ok d') as T1.
  { clear. induction l as [|e l IH]; intros d H; [exists d; reflexivity|]. cbn [foldM]. destruct (H e (or_introl eq_refl)) as (v & ->). cbn [bind]. apply IH. intros x I. apply H. right. exact I. }
  assert (forall A B (f : A -> result B) l, (forall a, In a l -> exists b, f a = Ok b) -> exists r, mapM f l = Ok r) as TM.
  { clear. induction l as [|a l IH]; intro H; [exists []; reflexivity|]. cbn [mapM]. destruct (H a (or_introl eq_refl)) as (b & ->). destruct IH as (r & ->); [intros x I; apply H; right; exact I|]. eexists. reflexivity. }
  assert (forall h l p, length h = length l -> length p = length l -> exists s, score3 h l p = Ok s) as TS.
  { clear. induction h as [|x h IH]; intros [|y l] [|z p] A B; try discriminate; [exists []; reflexivity|]. cbn [score3]. destruct (IH l p) as (s & ->); [cbn in A; lia|cbn in B; lia|]. eexists. reflexivity. }
  unfold lfh_scores.
  assert (exists hs, hessian_scores fetch nodes = Ok hs) as (hs & Eh).
  { unfold hessian_scores. destruct (T0 fetch nodes []) as (bn & B); [intros e I; destruct (H e I) as (a & dim & r & rows & _ & _ & F & _); eauto|]. rewrite B. cbn [bind].
    rewrite (foldM_ext' _ (fun d e => let! v := (let! rows := from_key (dict_get (e_name e) bn) in Ok (mean_rows (length (hd [] rows)) rows)) in Ok (dict_set (e_id e) v d))) by (intros s a; destruct (from_key _); reflexivity).
    apply T1. intros e I. destruct (dict_fold e_name fetch nodes [] bn NN B) as [_ B1]. destruct (B1 e I) as (rows & _ & ->). cbn [from_key bind]. eauto. }
  rewrite Eh. cbn [bind].
  assert (forall e, In e nodes -> exists a dim h l p s, oc_info e = Ok (a, dim) /\ dict_get (e_id e) hs = Some h /\ squared_norms e None = Ok l /\ oc_nparams e = Ok p /\
    length h = dim /\ length l = dim /\ length p = dim /\ channel_score hs e = Ok s /\ length s = dim) as Per.
  { intros e I. destruct (H e I) as (a & dim & r & rows & Ax & Nd & F & L & _). destruct (hessian_get fetch nodes hs NI NN Eh e I) as (rows' & F' & G). rewrite F in F'. injection F' as <-.
    assert (oc_info e = Ok (a, dim)) as O by (unfold oc_info; rewrite Ax, Nd; reflexivity).
    assert (exists l, squared_norms e None = Ok l) as (l & El) by (unfold squared_norms; rewrite O; cbn [bind]; eauto).
    assert (exists p, oc_nparams e = Ok p) as (p & Ep) by (unfold oc_nparams; rewrite O; cbn [bind]; eauto).
    destruct (norms_spec e a dim l O El) as [Ll _]. pose proof (nparams_spec e a dim p O Ep) as Pp. assert (length p = dim) as Lp by (rewrite Pp; apply repeat_length).
    set (h := mean_rows (length (hd [] (r :: rows))) (r :: rows)) in *. assert (length h = dim) as Lh by (unfold h, mean_rows; rewrite map_length, seq_length; exact L).
    destruct (TS h l p) as (s & Es); [congruence|congruence|]. exists a, dim, h, l, p, s. repeat (split; [first [assumption|reflexivity]|]).
    split; [unfold channel_score; rewrite G; cbn [from_key bind]; rewrite El; cbn [bind]; rewrite Ep; exact Es|]. apply score3_spec in Es. destruct Es as (Q & _). congruence. }
  destruct (TM _ _ (fun e => let! s := channel_score hs e in Ok (e_id e, (argsort s, length s, e_simd e))) nodes) as (cs & Ec).
  { intros e I. destruct (Per e I) as (a & dim & h & l & p & s & _ & _ & _ & _ & _ & _ & _ & -> & _). cbn [bind]. eauto. }
  rewrite Ec. cbn [bind].
  assert (map fst cs = map e_id nodes) as Ki.
  { clear - Ec. apply mapM_Forall2 in Ec. induction Ec as [|x y l ys E F IH]; [reflexivity|]. cbn [map]. rewrite IH. f_equal. destruct (channel_score hs x); [|discriminate]. cbn [bind] in E. injection E as <-. reflexivity. }
  assert (exists groups, group_all cs = Ok groups) as (groups & Eg).
  { assert (forall x, In x cs -> exists e s, In e nodes /\ x = (e_id e, (argsort s, length s, e_simd e))) as X.
    { intros x Ix. clear - Ec Ix. apply mapM_Forall2 in Ec. induction Ec as [|y z l ys E F IH]; [destruct Ix|]. destruct Ix as [->|Ix].
      - destruct (channel_score hs y) as [s|]; [|discriminate]. cbn [bind] in E. injection E as <-. exists y, s. split; [left; reflexivity|reflexivity].
      - destruct (IH Ix) as (e & s & I & Q). exists e, s. split; [right; exact I|exact Q]. }
    unfold group_all. clear Ec Ki. generalize (@nil (nat * list (list nat))). induction cs as [|x cs IH]; intro d; [eexists; reflexivity|]. cbn [foldM].
    destruct (X x (or_introl eq_refl)) as (e & s & I & ->). destruct (H e I) as (_ & _ & _ & _ & _ & _ & _ & _ & SN & SP).
    destruct (channel_grouping_succeeds (e_simd e) (argsort s) (length s) (conj SN SP)) as (simd & gs & -> & _ & _ & G). cbn [bind]. rewrite G. cbn [bind]. apply IH. intros y J. apply X. right. exact J. }
  rewrite Eg. cbn [bind].
  destruct (T1 _ (simd_score hs groups) nodes []) as (ss & ->); [|cbn [bind]; eauto].
  intros e I. destruct (Per e I) as (a & dim & h & l & p & s & O & G & El & Ep & Lh & Ll & Lp & Cs & Ls).
  destruct (In_nth_error _ _ I) as (k & Ek). destruct (mapM_nth _ _ _ Ec) as [_ Nc]. destruct (Nc k e Ek) as (x & Cx & Nk). rewrite Cs in Cx. cbn [bind] in Cx. injection Cx as <-.
  destruct (group_all_get cs groups) with (node := e_id e) (order := argsort s) (n := length s) (sizes := e_simd e) as (simd & gs & _ & Gn & Gg); [rewrite Ki; exact NI|exact Eg|exact (nth_error_In _ _ Nk)|].
  destruct (channel_groups s (argsort s) simd gs (AS s) Gn) as (P & Gsz & _ & _). rewrite Ls in P.
  assert (partition_of dim gs) as PO. { split; [exact P|]. intros g J ->. specialize (Gsz [] J). cbn in Gsz. lia. }
  assert (forall g c, In g gs -> In c g -> (c < dim)%nat) as IN by (intros g c Ig Ic; destruct (In_nth_error _ _ Ig) as (j & Ej); exact (proj2 (group_in dim gs j g PO Ej) c Ic)).
  unfold simd_score. rewrite G, Gg. cbn [from_key bind]. replace (match groups with [] => true | _ :: _ => false end) with false by (destruct groups; [discriminate|reflexivity]).
  assert (forall A (v : list A) g, length v = dim -> In g gs -> exists w, mapM (fun i => from_index (nth_error v i)) g = Ok w) as GA.
  { intros A v g Lv Ig. apply TM. intros c Ic. specialize (IN g c Ig Ic). rewrite <- Lv in IN. apply nth_error_Some in IN. destruct (nth_error v c); [eexists; reflexivity|congruence]. }
  assert (exists lg, squared_norms e (Some gs) = Ok lg) as (lg & Elg).
  { unfold squared_norms. rewrite O. cbn [bind fst snd]. unfold concat_channels. destruct (TM _ _ (fun idx => let! ts := mapM (fun i => from_index (nth_error (map (channel (e_kernel e) a dim) (seq 0 dim)) i)) idx in Ok (concat ts)) gs) as (r & ->); [|cbn [bind]; eauto].
    intros g Ig. destruct (GA _ (map (channel (e_kernel e) a dim) (seq 0 dim)) g) as (w & ->); [rewrite map_length, seq_length; reflexivity|exact Ig|]. cbn [bind]. eauto. }
  rewrite Elg. cbn [bind]. rewrite Ep. cbn [bind]. unfold gather.
  destruct (TM _ _ (fun g => let! v := mapM (fun i => from_index (nth_error h i)) g in Ok (sumQ v)) gs) as (hg & Ehg); [intros g Ig; destruct (GA _ h g Lh Ig) as (w & ->); cbn [bind]; eauto|].
  destruct (TM _ _ (fun g => let! v := mapM (fun i => from_index (nth_error p i)) g in Ok (sumQ v)) gs) as (pg & Epg); [intros g Ig; destruct (GA _ p g Lp Ig) as (w & ->); cbn [bind]; eauto|].
  rewrite Ehg. cbn [bind]. rewrite Epg. cbn [bind]. destruct (group_norms_spec e a dim gs lg O Elg PO) as [Lg _]. apply TS; [rewrite (proj1 (mapM_nth _ _ _ Ehg)); congruence|rewrite (proj1 (mapM_nth _ _ _ Epg)); congruence].
Qed.
Print Assumptions lfh_scores_succeed.
