(* PruneRunProps.v -- C107: the model returned by one pruning call is within the memory asked for, and is the
   original model without the channels reported as pruned. *)
From Coq Require Import String Permutation Lia.
From Verif Require Import Base SearchProofs HessianModel HessianProofs FilterModel PruneModel PruneSpec PruneProofs PruneProps.
From Verif Require Import PruneMemModel PruneMemSpec PruneMemProofs PruneMemProps PruneBuildModel PruneBuildSpec PruneBuildProofs PruneBuildProps PruneRunModel.
Open Scope Z_scope.
Local Open Scope res_scope.

(* the metric orders the channels of the first layer of every section; there is at least one channel *)
Definition ranks (f : fw) (g : pgraph) (me : metric) : Prop :=
  forall e i x s, is_section f g e i x -> size_along f e R_out s -> (0 < s)%nat /\ Permutation (me_order me (pn_id e)) (seq 0 s).

(* ---- the entries ---- *)
Lemma entries_sections f g es : wf_graph g -> entry_nodes f g = Ok es ->
  NoDup (map pn_id es) /\ forall e, In e es -> In e (pg_nodes g) /\ exists i x, is_section f g e i x.
Proof.
  intros W H. unfold entry_nodes in H. destruct (mapM _ (pg_topo g)) as [l|] eqn:Em; cbn [bind] in H; [|discriminate]. inversion H; subst es. clear H.
  apply entries_spec in Em. destruct Em as [ND ME].
  assert (NE : NoDup (map fst (filter snd l))) by (apply ND; apply (NoDup_map_inv pn_id), topo_nodup, W).
  assert (IN : forall e, In e (map fst (filter snd l)) -> In e (pg_nodes g)).
  { intros e J. apply ME in J. eapply Permutation_in; [apply (wf_topo g W)|apply J]. }
  split.
  - clear ND ME. revert NE IN. generalize (map fst (filter snd l)). induction l0 as [|a r IH]; intros NE IN; [constructor|].
    inversion NE as [|? ? N1 N2]; subst. cbn [map]. constructor; [|apply IH; [exact N2|intros e J; apply IN; right; exact J]].
    intro J. apply in_map_iff in J. destruct J as [b [Eb Ib]]. apply N1.
    rewrite <- (same_node g (wf_ids g W) b a (IN b (or_intror Ib)) (IN a (or_introl eq_refl)) Eb). exact Ib.
  - intros e J. split; [apply IN, J|]. apply ME in J. destruct J as [J P]. destruct (is_edge e) eqn:E; [|discriminate].
    destruct (prunable_true f g e _ e P) as [i [x [_ L]]]. exists i, x. apply section_leads. split; [|split; [exact E|exact L]].
    eapply Permutation_in; [apply (wf_topo g W)|exact J].
Qed.
Lemma out_channels_size f n k : is_edge n = true -> out_channels f n = Ok k -> size_along f n R_out k.
Proof.
  unfold out_channels. intros E H. destruct (axis_of fst (channel_axis f (pn_kind n))) as [a|] eqn:A; cbn [bind] in H; [|discriminate].
  destruct (kernel_of f n) as [w|] eqn:K; cbn [bind] in H; [|discriminate]. exists w, a. split; [exact K|]. split.
  - unfold is_edge in E. destruct (pn_kind n) as [t gr| | | | |]; try discriminate; [destruct t|]; destruct f; cbn in A; injection A as <-; reflexivity.
  - unfold dim in H. destruct (nth_error (t_shape w) a); [injection H as ->; reflexivity|discriminate].
Qed.
Lemma counts_spec f es : forall counts, entry_counts f es = Ok counts ->
  map fst counts = es /\ forall n k, In (n, k) counts -> In n es /\ out_channels f n = Ok k.
Proof.
  unfold entry_counts. induction es as [|e es IH]; intros counts H; cbn [mapM] in H.
  - inversion H. split; [reflexivity|intros ? ? []].
  - destruct (out_channels f e) as [k|] eqn:K; cbn [bind] in H; [|discriminate]. destruct (mapM _ es) as [r|]; cbn [bind] in H; [|discriminate].
    inversion H; subst counts. destruct (IH r eq_refl) as [A B]. split; [cbn; rewrite A; reflexivity|].
    intros n k' [Q|Q]; [inversion Q; subst; split; [left; reflexivity|exact K]|]. destruct (B n k' Q). split; [right; assumption|assumption].
Qed.

(* ---- the parts of one call ---- *)
Lemma call_parts f padded g me target r : wf_graph g -> ranks f g me -> prune_call f padded g me target = Ok r ->
  exists es counts groups m, entry_nodes f g = Ok es /\ entry_counts f es = Ok counts /\
    group_all (map (fun nk => (pn_id (fst nk), (me_order me (pn_id (fst nk)), snd nk, pn_simd (fst nk)))) counts) = Ok groups /\
    partitioned (map pn_id es) (channels_at f g) (fun n => dict_get n groups) /\
    compute_mask groups (channels_at f g) (map (fun kv => (fst kv, map Some (snd kv))) (me_scores me groups)) (graph_memory f padded g) target
      (list_sum (map snd counts)) (map pn_id es) = Ok m /\
    pr_masks r = m_chan m /\ pruned_nodes f g (m_chan m) = Ok (pr_nodes r) /\ unroll (me_scores me groups) groups = Ok (pr_scores r).
Proof.
  intros W R H. unfold prune_call in H. destruct (entry_nodes f g) as [es|] eqn:Ee; cbn [bind] in H; [|discriminate].
  destruct (entry_counts f es) as [counts|] eqn:Ec; cbn [bind] in H; [|discriminate].
  destruct (group_all _) as [groups|] eqn:Eg; cbn [bind] in H; [|discriminate]. cbv zeta in H.
  destruct (compute_mask _ _ _ _ _ _ _) as [m|] eqn:Em; cbn [bind] in H; [|discriminate].
  destruct (pruned_nodes f g (m_chan m)) as [ns|] eqn:En; cbn [bind] in H; [|discriminate].
  destruct (unroll _ groups) as [u|] eqn:Eu; cbn [bind] in H; [|discriminate]. inversion H; subst r. clear H.
  exists es, counts, groups, m. repeat (split; [first [reflexivity|assumption]|]). split; [|repeat split; assumption].
  destruct (counts_spec f es counts Ec) as [C1 C2]. destruct (entries_sections f g es W Ee) as [ND ES].
  assert (MI : map fst (map (fun nk : pnode * nat => (pn_id (fst nk), (me_order me (pn_id (fst nk)), snd nk, pn_simd (fst nk)))) counts) = map pn_id es).
  { rewrite map_map. cbn [fst]. rewrite <- C1, map_map. reflexivity. }
  rewrite <- MI. eapply grouping_partitions; [rewrite MI; exact ND| |exact Eg].
  intros n order k sizes J. apply in_map_iff in J. destruct J as [[e k'] [Q J]]. cbn [fst snd] in Q. inversion Q; subst. clear Q.
  destruct (C2 e k J) as [Je Ke]. destruct (ES e Je) as [Ig (i & x & S)].
  assert (Sz : size_along f e R_out k) by (apply out_channels_size; [apply S|exact Ke]).
  destruct (R e i x k S Sz) as [P0 P1]. split; [exact P1|]. split; [|exact P0].
  unfold channels_at. rewrite (node_of_total g e (wf_ids g W) Ig). cbn [bind]. rewrite Ke. reflexivity.
Qed.

(* what is charged for a layer is never less than what is left of it *)
Lemma charged_enough f padded n im om z : 0 <= layer_left f n im om -> charged f padded n im om z -> layer_left f n im om <= z.
Proof.
  intros P C. unfold charged in C. destruct padded; [|lia].
  destruct C as (oc & simd & O1 & S1 & _ & _ & _ & ch & per & -> & [_ C2] & C3).
  assert (0 <= per) by nia. nia.
Qed.
Lemma size_nonneg (l : list (wkey * tensor)) : 0 <= fold_right Z.add 0 (map (fun kw => Z.of_nat (t_size (snd kw))) l).
Proof. induction l; cbn [map fold_right]; lia. Qed.

Lemma counted_enough f padded g masks p nodes' : buildable f g -> graph_params f padded g masks = Ok p -> pruned_nodes f g masks = Ok nodes' ->
  model_params nodes' <= p.
Proof.
  intros (W & U & B & K) H P. destruct (sections f g) as [secs|] eqn:HS; [|unfold graph_params in H; rewrite HS in H; discriminate].
  pose proof (pruned_values f padded g masks secs p W HS H U B K nodes' P) as V.
  destruct (memory_counts_once f padded g masks p W H) as (ps & C & ->). unfold model_params. clear P H HS U B K. revert ps C V. revert nodes'.
  generalize (pg_nodes g) at 1 2. induction l as [|n l IH]; intros nodes' ps C V; inversion C as [|? z ? ps' (im & om & A & Q) C1]; subst; inversion V as [|? n' ? l' (im' & om' & A' & L & F) V1]; subst; [cbn; lia|].
  cbn [map fold_right]. specialize (IH l' ps' C1 V1). destruct (applies_unique f g masks n im om im' om' W A A') as [<- <-].
  pose proof (left_count f n im om n' (applied_kind f g masks n im om A) F L) as E.
  assert (N : 0 <= layer_left f n im om) by (rewrite E; apply size_nonneg).
  pose proof (charged_enough f padded n im om z N Q). rewrite E in H. lia.
Qed.

(* ---- the model fits ---- *)
Theorem pruned_model_fits f padded g me target r : buildable f g -> ranks f g me -> prune_call f padded g me target = Ok r ->
  within target (inject_Z (model_params (pr_nodes r) * 4)).
Proof.
  intros BU R H. pose proof BU as (W & _). destruct (call_parts f padded g me target r W R H) as (es & counts & groups & m & Ee & Ec & Eg & PA & Em & Er & En & Eu).
  destruct (greedy_within_target _ _ _ _ _ _ _ _ PA Em) as (fn & x & _ & _ & Mx & Wx & _).
  unfold graph_memory in Mx. destruct (graph_params f padded g (m_chan m)) as [p|] eqn:Gp; cbn [bind] in Mx; [|discriminate]. inversion Mx; subst x.
  pose proof (counted_enough f padded g (m_chan m) p (pr_nodes r) BU Gp En) as L. destruct target as [t|]; [|exact I]. cbn in Wx |- *.
  eapply Qle_trans; [|exact Wx]. rewrite <- Zle_Qle. lia.
Qed.
Print Assumptions pruned_model_fits.

(* ---- and is the original without the channels reported as pruned ---- *)
Theorem pruned_model_follows_masks f padded g me target r : buildable f g -> ranks f g me -> prune_call f padded g me target = Ok r ->
  Forall2 (fun n n' => exists im om, applies f g (pr_masks r) n im om /\ left_of f n im om n') (pg_nodes g) (pr_nodes r).
Proof.
  intros BU R H. pose proof BU as (W & _). destruct (call_parts f padded g me target r W R H) as (es & counts & groups & m & Ee & Ec & Eg & PA & Em & Er & En & Eu).
  destruct (greedy_within_target _ _ _ _ _ _ _ _ PA Em) as (fn & x & _ & _ & Mx & _).
  unfold graph_memory in Mx. destruct (graph_params f padded g (m_chan m)) as [p|] eqn:Gp; cbn [bind] in Mx; [|discriminate].
  rewrite Er. exact (pruned_graph_restricted f padded g (m_chan m) p (pr_nodes r) BU Gp En).
Qed.
Print Assumptions pruned_model_follows_masks.

(* ---- the groups are consecutive pieces of the order ---- *)
Lemma group_all_get l groups : NoDup (map fst l) -> group_all l = Ok groups -> forall n order k sizes, In (n, (order, k, sizes)) l ->
  exists simd gs, group_node_scores order k simd = Ok gs /\ dict_get n groups = Some gs.
Proof.
  intros ND G.
  assert (X : forall l d groups, NoDup (map fst l) ->
    foldM (fun d (kv : nat * (list nat * nat * list Z)) => let '(node, (order, n, sizes)) := kv in
           let! simd := get_simd sizes in let! g := group_node_scores order n simd in Ok (dict_set node g d)) l d = Ok groups ->
    (forall n, ~ In n (map fst l) -> dict_get n groups = dict_get n d) /\
    forall n order k sizes, In (n, (order, k, sizes)) l ->
      exists simd gs, group_node_scores order k simd = Ok gs /\ dict_get n groups = Some gs).
  { clear. induction l as [|[n [[order k] sizes]] l IH]; intros d groups ND E; cbn [foldM] in E.
    - inversion E; subst. split; [reflexivity|intros ? ? ? ? []].
    - destruct (get_simd sizes) as [simd|] eqn:Es; cbn [bind] in E; [|discriminate].
      destruct (group_node_scores order k simd) as [gs|] eqn:Eg; cbn [bind] in E; [|discriminate].
      cbn [map fst] in ND. inversion ND as [|? ? Hn ND']; subst. destruct (IH _ _ ND' E) as [Ho Hi]. split.
      + intros x Hx. rewrite Ho by (intro Y; apply Hx; right; exact Y). rewrite dict_get_set.
        destruct (Nat.eqb x n) eqn:Ex; [|reflexivity]. apply Nat.eqb_eq in Ex. subst. exfalso. apply Hx. left. reflexivity.
      + intros n' order' k' sizes' [Hx|Hx]; [|exact (Hi _ _ _ _ Hx)]. inversion Hx; subst.
        exists simd, gs. split; [exact Eg|]. rewrite Ho by exact Hn. rewrite dict_get_set, Nat.eqb_refl. reflexivity. }
  exact (proj2 (X l [] groups ND G)).
Qed.
Lemma two_orders (l p1 p2 p3 q1 q2 q3 : list nat) a b : NoDup l -> l = (p1 ++ b :: p2 ++ a :: p3)%list -> l = (q1 ++ a :: q2 ++ b :: q3)%list -> False.
Proof.
  intros ND E F. assert (AT : forall (u v w : list nat) x y, nth_error (u ++ x :: v ++ y :: w) (length u) = Some x /\ nth_error (u ++ x :: v ++ y :: w) (length u + S (length v)) = Some y).
  { intros u v w x y. split; (rewrite nth_error_app2; [|lia]).
    - rewrite Nat.sub_diag. reflexivity.
    - replace (length u + S (length v) - length u)%nat with (S (length v)) by lia. cbn [nth_error]. rewrite nth_error_app2, Nat.sub_diag by lia. reflexivity. }
  destruct (AT p1 p2 p3 b a) as [B1 A1]. destruct (AT q1 q2 q3 a b) as [A2 B2]. rewrite <- E in A1, B1. rewrite <- F in A2, B2.
  assert (U : forall i j (x : nat), nth_error l i = Some x -> nth_error l j = Some x -> i = j).
  { intros i j x X Y. apply (proj1 (NoDup_nth_error l) ND); [apply nth_error_Some; congruence|congruence]. }
  pose proof (U _ _ _ A1 A2). pose proof (U _ _ _ B1 B2). lia.
Qed.
Lemma piece_before (gs : list (list nat)) pre a mid b post ga A gb B : NoDup (concat gs) -> concat gs = (pre ++ a :: mid ++ b :: post)%list ->
  nth_error gs ga = Some A -> In a A -> nth_error gs gb = Some B -> In b B -> (ga <= gb)%nat.
Proof.
  intros ND E NA IA NB IB. destruct (Nat.le_gt_cases ga gb) as [L|L]; [exact L|exfalso].
  apply nth_error_split in NB. destruct NB as (l1 & l2 & -> & L1). rewrite nth_error_app2 in NA by lia.
  destruct (ga - length l1)%nat as [|k] eqn:Ek; [lia|]. cbn [nth_error] in NA. apply nth_error_split in NA. destruct NA as (l3 & l4 & -> & _).
  apply in_split in IA. destruct IA as (a1 & a2 & ->). apply in_split in IB. destruct IB as (b1 & b2 & ->).
  refine (two_orders _ (concat l1 ++ b1) (b2 ++ concat l3 ++ a1) (a2 ++ concat l4) pre mid post a b ND _ E).
  rewrite concat_app. cbn [concat]. rewrite concat_app. cbn [concat]. repeat (rewrite <- app_assoc; cbn [app]). reflexivity.
Qed.

Lemma entry_groups f g me es counts groups secs e i x s : wf_graph g -> ranks f g me -> entry_nodes f g = Ok es -> entry_counts f es = Ok counts ->
  group_all (map (fun nk => (pn_id (fst nk), (me_order me (pn_id (fst nk)), snd nk, pn_simd (fst nk)))) counts) = Ok groups ->
  sections f g = Ok secs -> is_section f g e i x -> size_along f e R_out s ->
  In e es /\ channels_at f g (pn_id e) = s /\ Permutation (me_order me (pn_id e)) (seq 0 s) /\
  exists simd gs, group_node_scores (me_order me (pn_id e)) s simd = Ok gs /\ dict_get (pn_id e) groups = Some gs.
Proof.
  intros W R Ee Ec Eg HS S Sz.
  assert (Ie : In e es).
  { destruct (sections_exact f g secs W HS) as [_ X]. apply X in S. unfold sections in HS. rewrite Ee in HS. cbn [bind] in HS.
    clear - S HS. revert secs HS S. induction es as [|a es IH]; intros secs HS S; cbn [mapM] in HS; [inversion HS; subst; destruct S|].
    destruct (find_exit _ f g a a) as [[i0 x0]|]; cbn [bind] in HS; [|discriminate]. destruct (mapM _ es) as [rr|]; cbn [bind] in HS; [|discriminate].
    inversion HS; subst secs. destruct S as [Q|Q]; [inversion Q; subst; left; reflexivity|right; exact (IH rr eq_refl Q)]. }
  destruct (counts_spec f es counts Ec) as [C1 C2].
  assert (exists k, In (e, k) counts) as [k Jk].
  { rewrite <- C1 in Ie. apply in_map_iff in Ie. destruct Ie as [[e' k] [Q J]]. cbn in Q. subst e'. exists k. exact J. }
  destruct (C2 e k Jk) as [_ Ke]. pose proof (out_channels_size f e k (proj1 (proj2 (proj2 (proj2 S)))) Ke) as Sk.
  destruct (R e i x k S Sk) as [K0 PK].
  assert (k = s).
  { destruct Sk as (w1 & a1 & X1 & X2 & X3), Sz as (w2 & a2 & Y1 & Y2 & Y3). rewrite X1 in Y1. inversion Y1; subst w2.
    assert (a1 = a2); [|subst; congruence]. destruct S as (_ & _ & _ & Ed & _). unfold is_edge in Ed. clear - X2 Y2 Ed.
    destruct (pn_kind e) as [t gr| | | | |]; try discriminate; [destruct t|]; destruct f; cbn [layout] in X2, Y2;
      destruct a1 as [|[|[|[|[|?]]]]]; cbn in X2; try discriminate X2; destruct a2 as [|[|[|[|[|?]]]]]; cbn in Y2; try discriminate Y2; reflexivity. }
  subst k. destruct (entries_sections f g es W Ee) as [ND _].
  assert (MI : map fst (map (fun nk : pnode * nat => (pn_id (fst nk), (me_order me (pn_id (fst nk)), snd nk, pn_simd (fst nk)))) counts) = map pn_id es).
  { rewrite map_map. cbn [fst]. rewrite <- C1, map_map. reflexivity. }
  assert (NDl := ND). rewrite <- MI in NDl. destruct (group_all_get _ _ NDl Eg (pn_id e) (me_order me (pn_id e)) s (pn_simd e)) as (simd & gs & G1 & G2).
  { apply in_map_iff. exists (e, s). split; [reflexivity|exact Jk]. }
  assert (CA : channels_at f g (pn_id e) = s).
  { unfold channels_at. rewrite (node_of_total g e (wf_ids g W) (proj1 S)). cbn [bind]. rewrite Ke. reflexivity. }
  split; [exact Ie|]. split; [exact CA|]. split; [exact PK|]. exists simd, gs. split; assumption.
Qed.

(* the channels kept are the highest ranked ones, and at least one is kept *)
Theorem best_channels_kept f padded g me target r e i x s : buildable f g -> ranks f g me -> prune_call f padded g me target = Ok r ->
  is_section f g e i x -> size_along f e R_out s ->
  exists mask, dict_get (pn_id e) (pr_masks r) = Some mask /\ length mask = s /\ (forall v, In v mask -> v = 0 \/ v = 1) /\
    (forall c rest, me_order me (pn_id e) = c :: rest -> nth_error mask c = Some 1) /\
    (forall pre a mid b post, me_order me (pn_id e) = (pre ++ a :: mid ++ b :: post)%list -> nth_error mask b = Some 1 -> nth_error mask a = Some 1).
Proof.
  intros BU R H S Sz. pose proof BU as (W & _). destruct (call_parts f padded g me target r W R H) as (es & counts & groups & m & Ee & Ec & Eg & PA & Em & Er & En & Eu).
  destruct (greedy_within_target _ _ _ _ _ _ _ _ PA Em) as (fn & y & SH & PR & Mx & _).
  unfold graph_memory in Mx. destruct (graph_params f padded g (m_chan m)) as [p|] eqn:Gp; cbn [bind] in Mx; [|discriminate]. clear Mx.
  destruct (sections f g) as [secs|] eqn:HS; [|unfold graph_params in Gp; rewrite HS in Gp; discriminate].
  destruct (entry_groups f g me es counts groups secs e i x s W R Ee Ec Eg HS S Sz) as (Ie & CA & PK & simd & gs & G1 & G2).
  assert (Lo : length (me_order me (pn_id e)) = s) by (rewrite (Permutation_length PK); apply seq_length).
  pose proof (group_concat _ _ _ _ Lo G1) as GC.
  assert (Ii : In (pn_id e) (map pn_id es)) by (apply in_map, Ie).
  destruct (proj1 (SH (pn_id e)) Ii) as (gs' & gm & cm & Q1 & _ & Q3 & _ & Q5 & Q6). cbv beta in Q1. rewrite G2 in Q1. inversion Q1; subst gs'. clear Q1.
  assert (FG : forall c, In c (me_order me (pn_id e)) -> exists ga A, nth_error gs ga = Some A /\ In c A /\ nth_error cm c = Some (fn (pn_id e) ga) /\ (ga < groups_of groups (pn_id e))%nat).
  { intros c J. rewrite <- GC in J. apply in_concat in J. destruct J as [A [J1 J2]]. apply In_nth_error in J1. destruct J1 as [ga J1]. exists ga, A.
    split; [exact J1|]. split; [exact J2|]. split; [apply (proj2 (Q6 ga A J1)), J2|]. unfold groups_of. rewrite G2. apply nth_error_Some. congruence. }
  destruct (PR (pn_id e) Ii) as [P0 P1].
  exists cm. rewrite Er. split; [exact Q3|]. split; [rewrite Q5; exact CA|]. split; [|split].
  - intros v J. apply In_nth_error in J. destruct J as [c J]. assert (c < length cm)%nat as L by (apply nth_error_Some; congruence).
    assert (In c (me_order me (pn_id e))) as Jc by (eapply Permutation_in; [apply Permutation_sym, PK|apply in_seq; rewrite Q5, CA in L; lia]).
    destruct (FG c Jc) as (ga & A & _ & _ & V & L1). destruct (P1 ga L1) as [[Z|Z] _]; rewrite Z in V; rewrite V in J; inversion J; auto.
  - intros c rest Ec0. assert (Jc : In c (me_order me (pn_id e))) by (rewrite Ec0; left; reflexivity).
    destruct (FG c Jc) as (ga & A & N1 & N2 & V & _). assert (ga = 0%nat); [|subst ga; rewrite P0 in V; exact V].
    destruct gs as [|A0 gr]; [destruct ga; discriminate|]. assert (A0 <> []) as NE.
    { intros ->. destruct (group_sizes _ _ _ _ Lo G1) as [X _]. specialize (X [] (or_introl eq_refl)). cbn in X. lia. }
    destruct A0 as [|c0 A0]; [congruence|]. cbn [concat app] in GC. rewrite Ec0 in GC. inversion GC; subst c0.
    assert (NoDup (c :: A0 ++ concat gr)) as Nd by (rewrite H2, <- Ec0; eapply Permutation_NoDup; [apply Permutation_sym, PK|apply seq_NoDup]).
    inversion Nd as [|? ? Nc _]; subst. destruct ga as [|ga]; [reflexivity|exfalso]. cbn [nth_error] in N1. apply Nc, in_or_app. right.
    apply in_concat. exists A. split; [eapply nth_error_In, N1|exact N2].
  - intros pre a mid b post Eo Vb. assert (Ja : In a (me_order me (pn_id e))) by (rewrite Eo; apply in_or_app; right; left; reflexivity).
    assert (Jb : In b (me_order me (pn_id e))) by (rewrite Eo; apply in_or_app; right; right; apply in_or_app; right; left; reflexivity).
    destruct (FG a Ja) as (ga & A & A1 & A2 & Va & _). destruct (FG b Jb) as (gb & B & B1 & B2 & Vb' & Lb).
    assert (L : (ga <= gb)%nat).
    { eapply (piece_before gs pre a mid b post); [|rewrite GC; exact Eo|exact A1|exact A2|exact B1|exact B2].
      rewrite GC. eapply Permutation_NoDup; [apply Permutation_sym, PK|apply seq_NoDup]. }
    rewrite Vb' in Vb. inversion Vb as [Fb]. rewrite Va. f_equal. rewrite Fb.
    destruct (Nat.eq_dec ga gb) as [->|Ne]; [exact Fb|]. apply (proj2 (P1 gb Lb) Fb). lia.
Qed.
Print Assumptions best_channels_kept.

(* ---- with no bound on the memory nothing is pruned ---- *)
Lemma no_zero_same f g masks secs : (forall s m, In s secs -> masks_named g masks (pn_name (sc_entry s)) = [m] -> ~ In 0 m) ->
  forall nodes nodes', foldM (prune_section f g masks) secs nodes = Ok nodes' -> nodes' = nodes.
Proof.
  induction secs as [|s secs IH]; intros NZ nodes nodes' H; cbn [foldM] in H; [congruence|].
  unfold prune_section in H at 1. destruct (masks_named g masks (pn_name (sc_entry s))) as [|m [|? ?]] eqn:E; try discriminate.
  destruct (existsb (Z.eqb 0) m) eqn:Z; cbn [bind] in H.
  - exfalso. apply existsb_exists in Z. destruct Z as [v [J V]]. apply Z.eqb_eq in V. subst v. exact (NZ s m (or_introl eq_refl) E J).
  - apply IH; [|exact H]. intros s' m' J. apply NZ. right. exact J.
Qed.
Theorem unbounded_prunes_nothing f padded g me r : buildable f g -> ranks f g me -> prune_call f padded g me None = Ok r ->
  pr_nodes r = pg_nodes g /\ forall e mask, dict_get e (pr_masks r) = Some mask -> forall v, In v mask -> v = 1.
Proof.
  intros BU R H. pose proof BU as (W & _). destruct (call_parts f padded g me None r W R H) as (es & counts & groups & m & Ee & Ec & Eg & PA & Em & Er & En & Eu).
  destruct (greedy_within_target _ _ _ _ _ _ _ _ PA Em) as (fn & y & SH & PR & _ & _ & [ALL|[(t & Q & _)|(n & g0 & m' & x' & _ & _ & _ & NW)]]); [|discriminate|exfalso; apply NW; exact I].
  assert (ONES : forall e mask, dict_get e (m_chan m) = Some mask -> forall v, In v mask -> v = 1).
  { intros e mask D v J. destruct (in_dec Nat.eq_dec e (map pn_id es)) as [I0|I0]; [|destruct (proj2 (SH e) I0) as [_ X]; congruence].
    destruct (proj1 (SH e) I0) as (gs & gm & cm & Q1 & _ & Q3 & _ & Q5 & Q6). rewrite D in Q3. inversion Q3; subst cm.
    destruct (proj2 PA e I0) as (_ & gs' & Q7 & [P1 _]). cbv beta in Q1, Q7. rewrite Q1 in Q7. inversion Q7; subst gs'.
    apply In_nth_error in J. destruct J as [c J]. assert (c < length mask)%nat as L by (apply nth_error_Some; congruence).
    assert (Jc : In c (concat gs)) by (eapply Permutation_in; [apply Permutation_sym, P1|apply in_seq; lia]).
    apply in_concat in Jc. destruct Jc as [A [J1 J2]]. apply In_nth_error in J1. destruct J1 as [ga J1].
    pose proof (proj2 (Q6 ga A J1) c J2) as V. rewrite ALL in V; [congruence|exact I0|]. unfold groups_of. rewrite Q1. apply nth_error_Some. congruence. }
  split; [|rewrite Er; exact ONES].
  unfold pruned_nodes in En. destruct (sections f g) as [secs|] eqn:HS; cbn [bind] in En; [|discriminate].
  destruct (negb _); [discriminate|]. apply (no_zero_same f g (m_chan m) secs); [|exact En].
  intros s mk Js Nm J. pose proof BU as (_ & U & _).
  assert (D : dict_get (pn_id (sc_entry s)) (m_chan m) = Some mk).
  { pose proof (named_mask f g (m_chan m) secs W HS U s Js (ex_intro _ mk Nm)) as X. unfold mask_of in X. rewrite Nm in X. exact X. }
  discriminate (ONES _ _ D 0 J).
Qed.
Print Assumptions unbounded_prunes_nothing.

(* ---- the scores reported: every channel has the score of its group ---- *)
Lemma group_all_nodup l groups : group_all l = Ok groups -> NoDup (map fst groups) /\ forall n, In n (map fst groups) -> In n (map fst l).
Proof.
  unfold group_all. assert (X : forall l (d groups : list (nat * list (list nat))), NoDup (map fst d) ->
    foldM (fun d (kv : nat * (list nat * nat * list Z)) => let '(node, (order, n, sizes)) := kv in
           let! simd := get_simd sizes in let! g := group_node_scores order n simd in Ok (dict_set node g d)) l d = Ok groups ->
    NoDup (map fst groups) /\ forall n, In n (map fst groups) -> In n (map fst d) \/ In n (map fst l)).
  { clear. induction l as [|[n [[order k] sizes]] l IH]; intros d groups ND E; cbn [foldM] in E; [inversion E; subst; auto|].
    destruct (get_simd sizes) as [simd|]; cbn [bind] in E; [|discriminate]. destruct (group_node_scores order k simd) as [gs|]; cbn [bind] in E; [|discriminate].
    destruct (IH _ _ (dict_set_nodup n gs d ND) E) as [A B]. split; [exact A|]. intros x J. destruct (B x J) as [Q|Q]; [|right; right; exact Q].
    apply dict_set_keys in Q. destruct Q as [->|Q]; [right; left; reflexivity|left; exact Q]. }
  intro H. destruct (X l [] groups (NoDup_nil _) H) as [A B]. split; [exact A|]. intros n J. destruct (B n J) as [[]|Q]; exact Q.
Qed.
Theorem reported_scores f padded g me target r e i x s : buildable f g -> ranks f g me -> prune_call f padded g me target = Ok r ->
  (forall groups n gs, dict_get n groups = Some gs -> exists ss, dict_get n (me_scores me groups) = Some ss /\ length ss = length gs) ->
  is_section f g e i x -> size_along f e R_out s ->
  exists groups gs ss us, concat gs = me_order me (pn_id e) /\ dict_get (pn_id e) groups = Some gs /\ dict_get (pn_id e) (me_scores me groups) = Some ss /\
    dict_get (pn_id e) (pr_scores r) = Some us /\ length us = s /\
    forall k idxs q c, nth_error gs k = Some idxs -> nth_error ss k = Some q -> In c idxs -> nth_error us c = Some q.
Proof.
  intros BU R H MS S Sz. pose proof BU as (W & _). destruct (call_parts f padded g me target r W R H) as (es & counts & groups & m & Ee & Ec & Eg & PA & Em & Er & En & Eu).
  destruct (sections f g) as [secs|] eqn:HS; [|unfold pruned_nodes in En; rewrite HS in En; discriminate].
  destruct (entry_groups f g me es counts groups secs e i x s W R Ee Ec Eg HS S Sz) as (Ie & CA & PK & simd & gs & G1 & G2).
  assert (Lo : length (me_order me (pn_id e)) = s) by (rewrite (Permutation_length PK); apply seq_length).
  pose proof (group_concat _ _ _ _ Lo G1) as GC. destruct (group_all_nodup _ _ Eg) as [ND KS].
  assert (MI : map fst (map (fun nk : pnode * nat => (pn_id (fst nk), (me_order me (pn_id (fst nk)), snd nk, pn_simd (fst nk)))) counts) = map pn_id es).
  { rewrite map_map. cbn [fst]. rewrite <- (proj1 (counts_spec f es counts Ec)), map_map. reflexivity. }
  destruct (unrolled_scores (me_scores me groups) groups ND) as (u & U1 & _ & U3).
  { intros n gs' J. pose proof (dict_in_get groups n gs' ND J) as D. apply (in_map fst) in J. cbn in J. apply KS in J. rewrite MI in J.
    destruct (proj2 PA n J) as (_ & gs2 & Q1 & Q2). cbv beta in Q1. rewrite D in Q1. inversion Q1; subst gs2.
    destruct (MS groups n gs' D) as (ss & S1 & S2). exists (channels_at f g n), ss. auto. }
  rewrite Eu in U1. inversion U1; subst u.
  assert (PO : partition_of s gs).
  { destruct (proj2 PA (pn_id e) (in_map pn_id es e Ie)) as (_ & gs2 & Q1 & Q2). cbv beta in Q1. rewrite G2 in Q1. inversion Q1; subst gs2. rewrite CA in Q2. exact Q2. }
  destruct (U3 (pn_id e) gs s (dict_get_in groups (pn_id e) gs G2) PO) as (ss & us & V1 & V2 & V3 & V4).
  exists groups, gs, ss, us. repeat (split; [assumption|]). intros k idxs q c N1 N2 J. exact (V4 k idxs q c N1 N2 J).
Qed.
Print Assumptions reported_scores.

(* ---- five layers, two sections; SIMD groups of two channels ---- *)
Definition yme : metric := Metric (fun n => if Nat.eqb n 0 then [2; 0; 1]%nat else [1; 0]%nat) (fun gs => map (fun kv => (fst kv, map (fun _ => 1%Q) (snd kv))) gs).
Example ranks_ex : ranks Keras yg yme.
Proof.
  intros e i x s (I & _ & _ & _ & _ & _ & C) (w & a & K & L & D).
  assert (X : forall (l l' : list nat), NoDup l -> (forall v, In v l <-> In v l') -> NoDup l' -> Permutation l l') by (intros; apply NoDup_Permutation; assumption).
  destruct I as [<-|[<-|[<-|[<-|[<-|[]]]]]]; try discriminate K; inversion K; subst w; clear K; destruct a as [|[|[|[|a]]]]; try discriminate L; try (destruct a; discriminate L); cbn in D; inversion D; subst s.
  - split; [lia|]. apply X; [repeat constructor; cbn; lia|cbn; lia|apply seq_NoDup].
  - split; [lia|]. apply X; [repeat constructor; cbn; lia|cbn; lia|apply seq_NoDup].
  - exfalso. destruct i as [|y i]; cbn [chain] in C; [|destruct C as [C _]]; destruct C as [C _]; discriminate C.
Qed.
Example call_ex : option_map (fun r => (pr_masks r, model_params (pr_nodes r)))
    (match prune_call Keras false yg yme (Some 70%Q) with Ok r => Some r | _ => None end) = Some ([(0%nat, [1; 0; 1]); (2%nat, [1; 1])], 15).
Proof. vm_compute. reflexivity. Qed.
Example call_refused_ex : prune_call Keras false yg yme (Some 59%Q) = Err E_critical.
Proof. vm_compute. reflexivity. Qed.
