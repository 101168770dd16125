(* PruneProps.v -- C24, C25, C26, C28: choosing the channels to prune. *)
From Verif Require Import Base HessianModel HessianProofs PruneModel PruneSpec PruneProofs.
From Coq Require Import Permutation.
Open Scope Q_scope.
Open Scope res_scope.

(* ---------- C24 ---------- *)
Theorem channel_groups scores order simd gs :
  by_decreasing_score scores order -> group_node_scores order (length scores) simd = Ok gs ->
  Permutation (concat gs) (seq 0 (length scores)) /\
  (forall g, In g gs -> (1 <= length g <= simd)%nat) /\
  (forall pre g post, gs = pre ++ g :: post -> post <> [] -> length g = simd) /\
  (forall pre g1 mid g2 post c1 c2, gs = pre ++ g1 :: mid ++ g2 :: post -> In c1 g1 -> In c2 g2 ->
     nth c2 scores 0 <= nth c1 scores 0).
Proof.
  intros D G. assert (L : length order = length scores) by (destruct D as [P _]; rewrite (Permutation_length P); apply seq_length).
  destruct (group_sizes _ _ _ _ L G) as [S1 S2].
  split; [rewrite (group_concat _ _ _ _ L G); apply D|]. split; [exact S1|]. split; [exact S2|].
  exact (group_order scores order _ simd gs eq_refl D G).
Qed.
Print Assumptions channel_groups.

(* The SIMD size is the smallest of the candidates' and positive; grouping then always succeeds. *)
Theorem channel_grouping_succeeds sizes order n :
  (sizes <> [] /\ (forall s, In s sizes -> (0 < s)%Z)) ->
  exists simd gs, get_simd sizes = Ok simd /\ In (Z.of_nat simd) sizes /\ (forall s, In s sizes -> (Z.of_nat simd <= s)%Z) /\
    group_node_scores order n simd = Ok gs.
Proof.
  intros [NE Hp]. destruct sizes as [|s r]; [congruence|].
  assert (M : forall r s, In (fold_left Z.min r s) (s :: r) /\ forall x, In x (s :: r) -> (fold_left Z.min r s <= x)%Z).
  { clear. induction r as [|y r IH]; intro s; [split; [left; reflexivity|intros x [->|[]]; cbn; lia]|]. cbn [fold_left].
    destruct (IH (Z.min s y)) as [A B]. split.
    - destruct A as [A|A]; [|right; right; exact A]. destruct (Z.min_spec s y) as [[_ E]|[_ E]]; rewrite E in A |- *.
      + left. exact A. + right. left. exact A.
    - assert (fold_left Z.min r (Z.min s y) <= Z.min s y)%Z by (apply B; left; reflexivity).
      intros x [->|[->|Hx]]; [lia|lia|apply B; right; exact Hx]. }
  destruct (M r s) as [A B]. pose proof (Hp _ A) as Pz. unfold get_simd.
  destruct (Z.leb _ 0) eqn:E; [apply Z.leb_le in E; lia|].
  exists (Z.to_nat (fold_left Z.min r s)).
  unfold group_node_scores. destruct (Nat.eqb _ 0) eqn:E0; [apply Nat.eqb_eq in E0; lia|].
  eexists. split; [reflexivity|]. rewrite Z2Nat.id by lia. split; [exact A|]. split; [exact B|]. reflexivity.
Qed.
Print Assumptions channel_grouping_succeeds.

(* The groups of all layers meet the assumption of the theorems on masks below. *)
Theorem grouping_partitions (l : list (nat * (list nat * nat * list Z))) num_oc groups :
  NoDup (map fst l) ->
  (forall n order k sizes, In (n, (order, k, sizes)) l -> Permutation order (seq 0 k) /\ k = num_oc n /\ (0 < k)%nat) ->
  group_all l = Ok groups -> partitioned (map fst l) num_oc (fun n => dict_get n groups).
Proof.
  intros ND H G. split; [exact ND|].
  assert (X : forall l d groups, NoDup (map fst l) ->
    foldM (fun d (kv : nat * (list nat * nat * list Z)) => let '(node, (order, n, sizes)) := kv in
           let! simd := get_simd sizes in let! g := group_node_scores order n simd in Ok (dict_set node g d)) l d = Ok groups ->
    (forall n, ~ In n (map fst l) -> dict_get n groups = dict_get n d) /\
    forall n order k sizes, In (n, (order, k, sizes)) l ->
      exists simd gs, group_node_scores order k simd = Ok gs /\ dict_get n groups = Some gs).
  { clear. induction l as [|[n [[order k] sizes]] l IH]; intros d groups ND E; cbn [foldM] in E.
    - inversion E; subst. split; [reflexivity|intros ? ? ? ? []].
    - destruct (get_simd sizes) as [simd|] eqn:Es; cbn [bind] in E; [|discriminate].
      destruct (group_node_scores order k simd) as [gs|] eqn:Eg; cbn [bind] in E; [|discriminate].
      cbn [map fst] in ND. inversion ND as [|? ? Hn ND']; subst. destruct (IH _ _ ND' E) as [Ho Hi]. split.
      + intros x Hx. rewrite Ho by (intro Y; apply Hx; right; exact Y). rewrite dict_get_set.
        destruct (Nat.eqb x n) eqn:Ex; [|reflexivity]. apply Nat.eqb_eq in Ex. subst. exfalso. apply Hx. left. reflexivity.
      + intros n' order' k' sizes' [Hx|Hx]; [|exact (Hi _ _ _ _ Hx)]. inversion Hx; subst.
        exists simd, gs. split; [exact Eg|]. rewrite Ho by exact Hn. rewrite dict_get_set, Nat.eqb_refl. reflexivity. }
  destruct (X l [] groups ND G) as [_ Hi]. intros n Hn. apply in_map_iff in Hn. destruct Hn as [[n' [[order k] sizes]] [En Hin]].
  cbn in En. subst n'. destruct (H _ _ _ _ Hin) as [P [-> L]]. destruct (Hi _ _ _ _ Hin) as [simd [gs [Eg Ed]]].
  split; [exact L|]. exists gs. split; [exact Ed|].
  assert (Lo : length order = num_oc n) by (rewrite (Permutation_length P); apply seq_length).
  split; [rewrite (group_concat _ _ _ _ Lo Eg); exact P|].
  intros g Hg ->. destruct (group_sizes _ _ _ _ Lo Eg) as [S _]. specialize (S [] Hg). cbn in S. lia.
Qed.
Print Assumptions grouping_partitions.

(* five channels in SIMD groups of two, by decreasing score *)
Example grouping_ex : group_all [(7%nat, ([3; 0; 1; 4; 2]%nat, 5%nat, [4; 2]%Z))] = Ok [(7%nat, [[3; 0]; [1; 4]; [2]]%nat)].
Proof. reflexivity. Qed.
Example grouping_hyps : by_decreasing_score [2; 1; 0; 5; 1#2] [3; 0; 1; 4; 2]%nat.
Proof.
  split.
  - cbn. change [3; 0; 1; 4; 2]%nat with ([3]++[0;1]++[4;2])%nat.
    apply NoDup_Permutation; [repeat constructor; cbn; intuition lia|repeat constructor; cbn; intuition lia|]. cbn. intuition.
  - intros a b pre mid post E.
    assert (Hlen : forall A (x : A) l i, nth_error (l ++ x :: i) (length l) = Some x) by (clear; induction l; intros; [reflexivity|cbn; auto]).
    assert (Ea : nth_error [3; 0; 1; 4; 2]%nat (length pre) = Some a) by (rewrite E; apply Hlen).
    assert (Eb : nth_error [3; 0; 1; 4; 2]%nat (length (pre ++ a :: mid)) = Some b).
    { rewrite E. replace (pre ++ a :: mid ++ b :: post) with ((pre ++ a :: mid) ++ b :: post) by (rewrite <- app_assoc; reflexivity). apply Hlen. }
    rewrite app_length in Eb. cbn [length] in Eb. remember (length pre) as i. remember (length mid) as j. clear - Ea Eb.
    destruct i as [|[|[|[|[|[]]]]]]; cbn in Ea; inversion Ea; subst a; destruct j as [|[|[|[|[]]]]]; cbn in Eb; inversion Eb; subst b; vm_compute; discriminate.
Qed.

(* ---------- C25 ---------- *)
Definition apply_updates groups ops m := foldM (fun m (op : nat * nat * Z) => let '(n, g, v) := op in set_group groups m n g v) ops m.

(* After construction and any sequence of updates, group and channel masks both show the latest
   decision about every group; no layer is added or lost. *)
Theorem mask_updates groups num_oc nodes ops m :
  partitioned nodes num_oc (fun n => dict_get n groups) ->
  bind (new_masks groups num_oc nodes) (apply_updates groups ops) = Ok m ->
  shows nodes (fun n => dict_get n groups) num_oc (decision ops) (fun n => dict_get n (m_simd m)) (fun n => dict_get n (m_chan m)).
Proof.
  intros W. rewrite (new_masks_tab groups num_oc nodes W). cbn [bind]. intro H.
  apply (set_groups_tab groups num_oc nodes W) in H. subst m. cbn [tab m_simd m_chan].
  pose proof (tab_shows groups num_oc nodes W (fold_left (fun f op => let '(n', g', v) := op in upd f n' g' v) ops first_only)) as S.
  intro n. destruct (S n) as [A B]. split; [|exact B].
  intro Hn. destruct (A Hn) as [gs [gm [cm [E1 [E2 [E3 [L1 [L2 F]]]]]]]]. exists gs, gm, cm.
  split; [exact E1|]. split; [exact E2|]. split; [exact E3|]. split; [exact L1|]. split; [exact L2|].
  intros g idxs Eg. unfold decision. change (if Nat.eqb g 0 then 1%Z else 0%Z) with (first_only n g).
  rewrite decided_upd. exact (F g idxs Eg).
Qed.
Print Assumptions mask_updates.

(* Every update of an existing group of a layer to prune succeeds. *)
Theorem mask_updates_succeed groups num_oc nodes ops :
  partitioned nodes num_oc (fun n => dict_get n groups) ->
  Forall (fun op => let '(n, g, _) := op in In n nodes /\ exists gs idxs, dict_get n groups = Some gs /\ nth_error gs g = Some idxs) ops ->
  exists m, bind (new_masks groups num_oc nodes) (apply_updates groups ops) = Ok m.
Proof.
  intros W F. rewrite (new_masks_tab groups num_oc nodes W). cbn [bind].
  apply (set_groups_total groups num_oc nodes W). eapply Forall_impl; [|exact F]. intros [[n g] v] [Hn [gs [idxs [E1 E2]]]].
  split; [exact Hn|]. unfold gsof. rewrite E1. apply nth_error_Some. congruence.
Qed.
Print Assumptions mask_updates_succeed.

Example masks_hyps : partitioned [7%nat] (fun _ => 5%nat) (fun n => dict_get n [(7%nat, [[3; 0]; [1; 4]; [2]]%nat)]).
Proof.
  split; [repeat constructor; cbn; tauto|]. intros n [<-|[]]. split; [lia|]. eexists. split; [reflexivity|]. split.
  - cbn. apply NoDup_Permutation; [repeat constructor; cbn; intuition lia|repeat constructor; cbn; intuition lia|]. cbn. intuition.
  - intros g Hg. cbn in Hg. intuition (subst; discriminate).
Qed.
Example masks_ex :
  bind (new_masks [(7%nat, [[3; 0]; [1; 4]; [2]]%nat)] (fun _ => 5%nat) [7%nat])
       (apply_updates [(7%nat, [[3; 0]; [1; 4]; [2]]%nat)] [(7, 1, REMAINED); (7, 2, REMAINED); (7, 1, PRUNED)]%nat)
  = Ok (Masks [(7%nat, [1; 0; 1]%Z)] [(7%nat, [1; 0; 1; 1; 0]%Z)]).
Proof. reflexivity. Qed.

(* ---------- C26 ---------- *)
Definition score_of (scores : list (nat * list (option Q))) (n g : nat) : option Q :=
  match dict_get n scores with Some ss => match nth_error ss g with Some s => s | None => None end | None => None end.
Definition groups_of (groups : list (nat * list (list nat))) (n : nat) : nat :=
  match dict_get n groups with Some gs => length gs | None => 0%nat end.
Lemma groups_of_ng groups n : groups_of groups n = ng groups n.
Proof. unfold groups_of, ng, gsof. destruct (dict_get n groups); reflexivity. Qed.

(* For every memory function, whenever a mask is returned: both masks show decisions f that keep, in
   every layer, a non-empty prefix of its groups; the memory of the mask is within the target; and
   either nothing is pruned, or the target is met exactly, or also keeping the most sensitive next
   group would exceed the target. *)
Theorem greedy_within_target groups num_oc scores memory target fuel nodes m :
  partitioned nodes num_oc (fun n => dict_get n groups) ->
  compute_mask groups num_oc scores memory target fuel nodes = Ok m ->
  exists f x,
    shows nodes (fun n => dict_get n groups) num_oc f (fun n => dict_get n (m_simd m)) (fun n => dict_get n (m_chan m)) /\
    (forall n, In n nodes -> f n 0%nat = 1%Z /\ forall g, (g < groups_of groups n)%nat ->
       (f n g = 1%Z \/ f n g = 0%Z) /\ (f n g = 1%Z -> forall g', (g' < g)%nat -> f n g' = 1%Z)) /\
    memory (m_chan m) = Ok x /\ within target x /\
    ((forall n g, In n nodes -> (g < groups_of groups n)%nat -> f n g = 1%Z) \/
     (exists t, target = Some t /\ x == t) \/
     (exists n g m' x', best_next nodes (groups_of groups) f (score_of scores) n g /\
        set_group groups m n g REMAINED = Ok m' /\ memory (m_chan m') = Ok x' /\ ~ within target x')).
Proof.
  intros W. unfold compute_mask. rewrite (new_masks_tab groups num_oc nodes W). cbn [bind].
  change (m_chan (tab groups num_oc nodes first_only)) with (chan_tab groups num_oc nodes first_only).
  destruct (memory (chan_tab groups num_oc nodes first_only)) as [cur|] eqn:M; cbn [bind]; [|discriminate].
  destruct (above target cur) eqn:A; [discriminate|]. intro H.
  destruct (loop_spec groups num_oc nodes W scores memory target fuel first_only cur None m (first_only_prefix groups nodes) M
             (or_introl (proj1 (above_within target cur) A)) H) as [f [x [-> [P [Mx [Wx S]]]]]].
  exists f, x. split; [apply tab_shows; exact W|]. split.
  { intros n Hn. destruct (P n Hn) as [E0 F]. split; [exact E0|]. intros g Hg. rewrite groups_of_ng in Hg. exact (F g Hg). }
  split; [exact Mx|]. split; [exact Wx|].
  destruct S as [S|[S|[n [g [x' [B [M' NW]]]]]]].
  - left. intros n g Hn Hg. rewrite groups_of_ng in Hg. destruct (P n Hn) as [_ F]. destruct (F g Hg) as [[X|X] _]; [exact X|].
    exfalso. assert (has_pruned_channel (tab groups num_oc nodes f) = true); [|congruence].
    apply (has_pruned_tab groups num_oc nodes W). exists n, g. split; [exact Hn|]. split; [exact Hg|exact X].
  - right. left. unfold below in S. destruct target as [t|]; [|discriminate]. exists t. split; [reflexivity|].
    apply negb_false_iff in S. apply Qle_bool_iff in S. apply Qle_antisym; [exact Wx|exact S].
  - right. right. exists n, g, (tab groups num_oc nodes (upd f n g REMAINED)), x'.
    assert (B' := B). destruct B' as [[Hn [Hg _]] _].
    split.
    + destruct B as [[_ [_ R]] [q [Sq Bq]]]. split; [split; [exact Hn|split; [rewrite groups_of_ng; exact Hg|exact R]]|].
      exists q. split; [exact Sq|]. intros n' g' q' [N1 [N2 N3]] S'. rewrite groups_of_ng in N2.
      apply (Bq n' g' q'); [split; [exact N1|split; assumption]|exact S'].
    + split; [apply (set_group_tab groups num_oc nodes W); assumption|]. split; [exact M'|exact NW].
Qed.
Print Assumptions greedy_within_target.

(* When not even one group per layer fits, pruning is refused. *)
Theorem greedy_insufficient_raises groups num_oc scores memory target fuel nodes m x :
  new_masks groups num_oc nodes = Ok m -> memory (m_chan m) = Ok x -> ~ within target x ->
  compute_mask groups num_oc scores memory target fuel nodes = Err E_critical.
Proof.
  intros N M H. unfold compute_mask. rewrite N. cbn [bind]. rewrite M. cbn [bind].
  destruct (above target x) eqn:A; [reflexivity|]. apply above_within in A. contradiction.
Qed.
Print Assumptions greedy_insufficient_raises.

(* The loop ends after at most as many rounds as there are groups, with a mask, when all scores are
   numbers and the memory can always be computed. *)
Theorem greedy_succeeds groups num_oc scores memory target fuel nodes :
  partitioned nodes num_oc (fun n => dict_get n groups) ->
  (forall n g, In n nodes -> (g < groups_of groups n)%nat -> exists ss q, dict_get n scores = Some ss /\ nth_error ss g = Some (Some q)) ->
  (forall ms, exists x, memory ms = Ok x) ->
  (forall m x, new_masks groups num_oc nodes = Ok m -> memory (m_chan m) = Ok x -> within target x) ->
  (list_sum (map (groups_of groups) nodes) <= fuel)%nat ->
  exists m, compute_mask groups num_oc scores memory target fuel nodes = Ok m.
Proof.
  intros W S M I L. unfold compute_mask. pose proof (new_masks_tab groups num_oc nodes W) as N. rewrite N. cbn [bind].
  destruct (M (m_chan (tab groups num_oc nodes first_only))) as [x Ex]. rewrite Ex. cbn [bind].
  specialize (I _ _ N Ex). apply above_within in I. rewrite I.
  apply (loop_total groups num_oc nodes W scores memory target).
  - intros n g Hn Hg. apply S; [exact Hn|]. rewrite groups_of_ng. exact Hg.
  - intro f. apply M.
  - apply first_only_prefix.
  - pose proof (pruned_groups_le groups nodes first_only) as Le. rewrite (map_ext _ (ng groups) (groups_of_ng groups)) in L. lia.
  - congruence.
Qed.
Print Assumptions greedy_succeeds.

Definition ex_groups : list (nat * list (list nat)) := [(1%nat, [[0]; [1]; [2]]%nat); (2%nat, [[1]; [0]]%nat)].
Definition ex_oc (n : nat) : nat := if Nat.eqb n 1 then 3%nat else 2%nat.
Definition ex_mem (w1 w2 : Q) (ms : list (nat * list Z)) : result Q :=
  let s n := match dict_get n ms with Some l => inject_Z (fold_left Z.add l 0%Z) | None => 0 end in Ok (w1 * s 1%nat + w2 * s 2%nat).
Example greedy_ex :
  option_map (fun m => m_chan m)
    (match compute_mask ex_groups ex_oc [(1%nat, [Some 9; Some 5; Some 1]); (2%nat, [Some 9; Some 3])] (ex_mem 1 4) (Some 9) 9 [1; 2]%nat with Ok m => Some m | _ => None end)
  = Some [(1%nat, [1; 1; 0]%Z); (2%nat, [0; 1]%Z)].
Proof. reflexivity. Qed.

(* A cheaper group that would still fit is left pruned: the search stops at the first overflow. *)
Theorem greedy_stops_early_refuted :
  exists m m' x', compute_mask ex_groups ex_oc [(1%nat, [Some 9; Some 5; Some 1]); (2%nat, [Some 9; Some 3])] (ex_mem 1 4) (Some 9) 9 [1; 2]%nat = Ok m /\
    set_group ex_groups m 1 2 REMAINED = Ok m' /\ ex_mem 1 4 (m_chan m') = Ok x' /\ within (Some 9) x' /\ m' <> m.
Proof. eexists _, _, _. split; [reflexivity|]. split; [reflexivity|]. split; [reflexivity|]. split; [cbn; discriminate|discriminate]. Qed.
Print Assumptions greedy_stops_early_refuted.

(* A score that is not a number (or -inf) for the only remaining group ends in an error although the
   group would fit. *)
Theorem greedy_nan_score_refuted :
  compute_mask ex_groups ex_oc [(1%nat, [Some 9; None; Some 1]); (2%nat, [Some 9; None])] (ex_mem 1 1) None 9 [1; 2]%nat = Err E_key.
Proof. reflexivity. Qed.
Print Assumptions greedy_nan_score_refuted.

(* A group with a higher score can stay pruned while a lower one of the same layer remains: groups of a
   layer are taken in the order of the channel scores, not of the group scores. *)
Theorem greedy_group_order_refuted :
  exists m, compute_mask ex_groups ex_oc [(1%nat, [Some 9; Some 1; Some 8]); (2%nat, [Some 9; Some 0])] (ex_mem 1 1) (Some 3) 9 [1; 2]%nat = Ok m /\
    dict_get 1 (m_simd m) = Some [1; 1; 0]%Z.
Proof. eexists. split; reflexivity. Qed.
Print Assumptions greedy_group_order_refuted.

(* ---------- C28 ---------- *)
(* Every channel of every layer gets the score of the group that contains it. *)
Theorem unrolled_scores simd_scores groups :
  NoDup (map fst groups) ->
  (forall n gs, In (n, gs) groups -> exists k ss, partition_of k gs /\ dict_get n simd_scores = Some ss /\ length ss = length gs) ->
  exists u, unroll simd_scores groups = Ok u /\ map fst u = map fst groups /\
  forall n gs k, In (n, gs) groups -> partition_of k gs ->
    exists ss us, dict_get n simd_scores = Some ss /\ dict_get n u = Some us /\ length us = k /\
    forall g idxs s c, nth_error gs g = Some idxs -> nth_error ss g = Some s -> In c idxs -> nth_error us c = Some s.
Proof.
  intros ND H.
  assert (X : forall l d, NoDup (map fst d ++ map fst l) -> (forall n gs, In (n, gs) l -> In (n, gs) groups) ->
    exists u, foldM (fun d (kv : nat * list (list nat)) => let! ns := from_key (dict_get (fst kv) simd_scores) in
                     let! v := unroll_node ns (snd kv) in Ok (dict_set (fst kv) v d)) l d = Ok u /\ map fst u = map fst d ++ map fst l /\
    (forall n, In n (map fst d) -> dict_get n u = dict_get n d) /\
    forall n gs k, In (n, gs) l -> partition_of k gs -> exists ss us, dict_get n simd_scores = Some ss /\ dict_get n u = Some us /\ length us = k /\
    forall g idxs s c, nth_error gs g = Some idxs -> nth_error ss g = Some s -> In c idxs -> nth_error us c = Some s).
  { induction l as [|[n gs] l IH]; intros d NDl Hin.
    - exists d. split; [reflexivity|]. split; [cbn; rewrite app_nil_r; reflexivity|]. split; [reflexivity|intros n gs k []].
    - cbn [foldM fst snd]. destruct (H n gs) as [k [ss [P [Es Ls]]]]; [apply Hin; left; reflexivity|].
      rewrite Es. cbn [from_key bind]. unfold unroll_node.
      assert (Lk : list_sum (map (@length nat) gs) = k).
      { destruct P as [P _]. apply Permutation_length in P. rewrite seq_length in P. rewrite <- P.
        clear. induction gs as [|g gs IH]; [reflexivity|]. cbn [concat]. rewrite app_length, <- IH. reflexivity. }
      rewrite Lk.
      destruct (unroll_loop gs ss (repeat 0 k)) as [us [Eu [Lu [_ Fu]]]].
      + exact Ls.
      + destruct P as [P _]. eapply Permutation_NoDup; [exact (Permutation_sym P)|apply seq_NoDup].
      + intros c Hc. rewrite repeat_length. destruct P as [P _]. apply (Permutation_in _ P) in Hc. apply in_seq in Hc. lia.
      + rewrite Eu. cbn [bind]. cbn [map fst] in NDl.
        assert (Hn : ~ In n (map fst d)) by (apply NoDup_remove_2 in NDl; intro Y; apply NDl; apply in_or_app; left; exact Y).
        assert (Dn : dict_get n d = None).
        { destruct (dict_get n d) eqn:E; [|reflexivity]. exfalso. apply Hn. apply dict_get_key. eexists. exact E. }
        rewrite (dict_set_new n us d Dn).
        destruct (IH (d ++ [(n, us)])) as [u [E [Mu [Fd Fl]]]].
        * rewrite map_app. cbn. rewrite <- app_assoc. exact NDl.
        * intros n' gs' Hx. apply Hin. right. exact Hx.
        * exists u. split; [exact E|]. split; [rewrite Mu, map_app, <- app_assoc; reflexivity|]. split.
          -- intros x Hx. rewrite Fd by (rewrite map_app; apply in_or_app; left; exact Hx).
             rewrite <- (dict_set_new n us d Dn), dict_get_set. destruct (Nat.eqb x n) eqn:Ex; [|reflexivity].
             apply Nat.eqb_eq in Ex. subst. contradiction.
          -- intros n' gs' k' [Hx|Hx] P'; [|exact (Fl n' gs' k' Hx P')]. inversion Hx; subst n' gs'.
             exists ss, us. split; [exact Es|]. split.
             ++ rewrite Fd by (rewrite map_app; apply in_or_app; right; left; reflexivity).
                rewrite <- (dict_set_new n us d Dn), dict_get_set, Nat.eqb_refl. reflexivity.
             ++ split; [|exact Fu]. rewrite Lu, repeat_length. destruct P as [P _], P' as [P' _].
                apply Permutation_length in P, P'. rewrite seq_length in P, P'. congruence. }
  destruct (X groups [] ND (fun n gs H => H)) as [u [E [Mu [_ F]]]]. exists u. split; [exact E|]. split; [exact Mu|exact F].
Qed.
Print Assumptions unrolled_scores.

Example unroll_ex : unroll [(7%nat, [5; 3; 1])] [(7%nat, [[3; 0]; [1; 4]; [2]]%nat)] = Ok [(7%nat, [5; 3; 1; 5; 3])].
Proof. reflexivity. Qed.
