From Verif Require Import Base HessianModel HessianProofs PruneModel PruneSpec.
From Coq Require Import Permutation.
Open Scope Q_scope.
Open Scope res_scope.

(* ---- grouping ---- *)
Lemma chunk_concat (s : nat) : forall k (l : list nat), (0 < s)%nat ->
  concat (map (fun i => firstn (s * (i + 1) - s * i) (skipn (s * i) l)) (seq 0 k)) = firstn (s * k) l.
Proof.
  intros k l Hs. induction k as [|k IH].
  - cbn. replace (s * 0)%nat with 0%nat by lia. reflexivity.
  - rewrite seq_S, map_app, concat_app, IH. cbn [map concat plus]. rewrite app_nil_r.
    replace (s * (k + 1) - s * k)%nat with s by lia.
    replace (s * S k)%nat with (s * k + s)%nat by lia.
    clear IH. revert l. induction (s * k)%nat as [|m IHm]; intro l; [reflexivity|].
    destruct l as [|x l]; [cbn; rewrite firstn_nil; reflexivity|]. cbn. f_equal. apply IHm.
Qed.

Lemma group_concat order n s gs : length order = n -> group_node_scores order n s = Ok gs -> concat gs = order.
Proof.
  intros L. unfold group_node_scores. destruct (Nat.eqb s 0) eqn:E0; [discriminate|]. apply Nat.eqb_neq in E0.
  intro H. inversion H as [H0]; clear H H0.
  assert (D := Nat.div_mod n s E0).
  destruct (Nat.eqb (n mod s) 0) eqn:Er.
  - apply Nat.eqb_eq in Er. rewrite chunk_concat by lia. rewrite firstn_all2; [reflexivity|lia].
  - rewrite concat_app, chunk_concat by lia. cbn. rewrite app_nil_r.
    replace (length order - n mod s)%nat with (s * (n / s))%nat by lia. apply firstn_skipn.
Qed.

Lemma group_sizes order n s gs : length order = n -> group_node_scores order n s = Ok gs ->
  (forall g, In g gs -> (1 <= length g <= s)%nat) /\
  (forall pre g post, gs = pre ++ g :: post -> post <> [] -> length g = s).
Proof.
  intros L. unfold group_node_scores. destruct (Nat.eqb s 0) eqn:E0; [discriminate|]. apply Nat.eqb_neq in E0.
  intro H. inversion H as [H0]; clear H.
  assert (D := Nat.div_mod n s E0). assert (M := Nat.mod_upper_bound n s E0).
  set (full := map (fun i => firstn (s * (i + 1) - s * i) (skipn (s * i) order)) (seq 0 (n / s))) in *.
  assert (F : forall g, In g full -> length g = s).
  { intros g Hg. apply in_map_iff in Hg. destruct Hg as [i [<- Hi]]. apply in_seq in Hi.
    rewrite firstn_length, skipn_length. assert (s * (i + 1) <= s * (n / s))%nat by (apply Nat.mul_le_mono_l; lia). lia. }
  destruct (Nat.eqb (n mod s) 0) eqn:Er.
  - split.
    + intros g Hg. rewrite (F g Hg). lia.
    + intros pre g post E _. apply F. rewrite E. apply in_or_app. right. left. reflexivity.
  - apply Nat.eqb_neq in Er. split.
    + intros g Hg. apply in_app_or in Hg. destruct Hg as [Hg|[<-|[]]]; [rewrite (F g Hg); lia|].
      rewrite skipn_length. lia.
    + intros pre g post E Hp. destruct (exists_last Hp) as [p' [x Ex]]. subst post.
      rewrite app_comm_cons, app_assoc in E. apply app_inj_tail in E. destruct E as [E _].
      apply F. rewrite E. apply in_or_app. right. left. reflexivity.
Qed.

Lemma group_order scores order n s gs : n = length scores -> by_decreasing_score scores order ->
  group_node_scores order n s = Ok gs ->
  forall pre g1 mid g2 post c1 c2, gs = pre ++ g1 :: mid ++ g2 :: post -> In c1 g1 -> In c2 g2 ->
    nth c2 scores 0 <= nth c1 scores 0.
Proof.
  intros -> [P O] G pre g1 mid g2 post c1 c2 E I1 I2.
  assert (L : length order = length scores) by (rewrite (Permutation_length P); apply seq_length).
  pose proof (group_concat _ _ _ _ L G) as C. subst gs.
  rewrite concat_app in C. cbn in C. rewrite concat_app in C. cbn in C.
  apply in_split in I1. apply in_split in I2. destruct I1 as [a [b ->]]. destruct I2 as [x [y ->]].
  apply (O c1 c2 (concat pre ++ a) (b ++ concat mid ++ x) (y ++ concat post)).
  rewrite <- C. repeat (rewrite <- ?app_assoc; cbn [app]). reflexivity.
Qed.

(* ---- dictionaries over a fixed list of nodes ---- *)
Lemma dict_get_tab {V} (F : nat -> V) nodes n : dict_get n (map (fun x => (x, F x)) nodes) = if existsb (Nat.eqb n) nodes then Some (F n) else None.
Proof.
  induction nodes as [|x r IH]; [reflexivity|]. cbn. destruct (Nat.eqb n x) eqn:E; [|exact IH].
  apply Nat.eqb_eq in E. subst. reflexivity.
Qed.
Lemma existsb_eqb_in n (l : list nat) : existsb (Nat.eqb n) l = true <-> In n l.
Proof.
  rewrite existsb_exists. split; [intros [x [H E]]; apply Nat.eqb_eq in E; subst; exact H|].
  intro H. exists n. split; [exact H|apply Nat.eqb_refl].
Qed.
Lemma dict_get_tab_in {V} (F : nat -> V) nodes n : In n nodes -> dict_get n (map (fun x => (x, F x)) nodes) = Some (F n).
Proof. intro H. rewrite dict_get_tab. apply existsb_eqb_in in H. rewrite H. reflexivity. Qed.
Lemma dict_get_tab_out {V} (F : nat -> V) nodes n : ~ In n nodes -> dict_get n (map (fun x => (x, F x)) nodes) = None.
Proof. intro H. rewrite dict_get_tab. destruct (existsb _ _) eqn:E; [|reflexivity]. apply existsb_eqb_in in E. contradiction. Qed.
Lemma dict_set_tab {V} (F : nat -> V) nodes n v : NoDup nodes -> In n nodes ->
  dict_set n v (map (fun x => (x, F x)) nodes) = map (fun x => (x, if Nat.eqb x n then v else F x)) nodes.
Proof.
  induction nodes as [|x r IH]; [intros _ []|]. intros ND Hi. cbn. inversion ND as [|? ? Hx Hr]; subst.
  destruct (Nat.eqb n x) eqn:E.
  - apply Nat.eqb_eq in E. subst x. rewrite Nat.eqb_refl. f_equal. apply map_ext_in. intros y Hy.
    destruct (Nat.eqb y n) eqn:E; [|reflexivity]. apply Nat.eqb_eq in E. subst. contradiction.
  - rewrite Nat.eqb_sym in E. rewrite E. f_equal. apply IH; [exact Hr|].
    destruct Hi as [->|Hi]; [rewrite Nat.eqb_refl in E; discriminate|exact Hi].
Qed.
Lemma dict_set_new {V} n (v : V) d : dict_get n d = None -> dict_set n v d = d ++ [(n, v)].
Proof.
  induction d as [|[k w] r IH]; [reflexivity|]. cbn. destruct (Nat.eqb n k); [discriminate|]. intro H. rewrite IH by exact H. reflexivity.
Qed.
Lemma fill_tab {V} (F : nat -> V) nodes : forall pre, NoDup (pre ++ nodes) ->
  fold_left (fun d n => dict_set n (F n) d) nodes (map (fun x => (x, F x)) pre) = map (fun x => (x, F x)) (pre ++ nodes).
Proof.
  induction nodes as [|n r IH]; intros pre ND; [cbn; rewrite app_nil_r; reflexivity|]. cbn.
  rewrite dict_set_new.
  - change [(n, F n)] with (map (fun x => (x, F x)) [n]). rewrite <- map_app.
    rewrite IH; [rewrite <- app_assoc; reflexivity|rewrite <- app_assoc; exact ND].
  - apply dict_get_tab_out. apply NoDup_remove_2 in ND. intro H. apply ND. apply in_or_app. left. exact H.
Qed.
Lemma fillM_tab {V} (f : list (nat * V) -> nat -> result (list (nat * V))) (F : nat -> V) nodes :
  (forall n d, In n nodes -> f d n = Ok (dict_set n (F n) d)) ->
  forall d, foldM f nodes d = Ok (fold_left (fun d n => dict_set n (F n) d) nodes d).
Proof.
  induction nodes as [|n r IH]; intros Hf d; [reflexivity|]. cbn. rewrite (Hf n) by (left; reflexivity). cbn.
  apply IH. intros x d' Hx. apply Hf. right. exact Hx.
Qed.

(* ---- lists ---- *)
Lemma set_nth_tab {A} (F : nat -> A) i v : forall k s, (i < k)%nat ->
  set_nth i v (map F (seq s k)) = Ok (map (fun x => if Nat.eqb x (s + i) then v else F x) (seq s k)).
Proof.
  revert i. intros i k. revert i. induction k as [|k IH]; intros i s H; [lia|]. destruct i as [|i]; cbn.
  - rewrite Nat.add_0_r, Nat.eqb_refl. do 2 f_equal. apply map_ext_in. intros x Hx. apply in_seq in Hx.
    destruct (Nat.eqb x s) eqn:E; [apply Nat.eqb_eq in E; lia|reflexivity].
  - rewrite (IH i (S s)) by lia. cbn.
    destruct (Nat.eqb s (s + S i)) eqn:E; [apply Nat.eqb_eq in E; lia|].
    do 2 f_equal. apply map_ext. intro x. replace (s + S i)%nat with (S (s + i))%nat by lia. reflexivity.
Qed.
Lemma set_nth_ok {A} i (v : A) l r : set_nth i v l = Ok r -> (i < length l)%nat.
Proof.
  revert i r. induction l as [|x l IH]; intros [|i] r; cbn; try discriminate; [lia|].
  destruct (set_nth i v l) eqn:E; cbn; [|discriminate]. intros _. apply IH in E. lia.
Qed.

(* ---- the masks as a table of decisions ---- *)
Fixpoint group_of (gs : list (list nat)) (c : nat) : nat :=
  match gs with [] => 0%nat | g :: r => if existsb (Nat.eqb c) g then 0%nat else S (group_of r c) end.
Lemma group_of_spec gs : NoDup (concat gs) -> forall g idxs c, nth_error gs g = Some idxs -> In c idxs -> group_of gs c = g.
Proof.
  induction gs as [|x r IH]; intros ND g idxs c E Hc; [destruct g; discriminate|].
  cbn in ND. destruct g as [|g]; cbn in E.
  - inversion E; subst. cbn. apply existsb_eqb_in in Hc. rewrite Hc. reflexivity.
  - cbn. destruct (existsb (Nat.eqb c) x) eqn:Ex.
    + apply existsb_eqb_in in Ex. exfalso. apply nth_error_In in E.
      assert (In c (concat r)) by (apply in_concat; exists idxs; split; assumption).
      clear - ND Ex H. induction x as [|a x IH]; [destruct Ex|]. cbn in ND. inversion ND; subst.
      destruct Ex as [->|Ex]; [apply H2; apply in_or_app; right; exact H|exact (IH H3 Ex)].
    + f_equal. apply IH with idxs; [|exact E|exact Hc].
      clear - ND. induction x as [|a x IH]; [exact ND|]. inversion ND; subst. apply IH. assumption.
Qed.
Lemma group_of_in gs c : In c (concat gs) -> exists idxs, nth_error gs (group_of gs c) = Some idxs /\ In c idxs.
Proof.
  induction gs as [|x r IH]; [intros []|]. cbn. intro H. destruct (existsb (Nat.eqb c) x) eqn:E.
  - exists x. split; [reflexivity|apply existsb_eqb_in; exact E].
  - apply in_app_or in H. destruct H as [H|H]; [apply existsb_eqb_in in H; congruence|]. apply IH. exact H.
Qed.

Section Tab.
Variable groups : list (nat * list (list nat)).
Variable num_oc : nat -> nat.
Variable nodes : list nat.
Hypothesis W : partitioned nodes num_oc (fun n => dict_get n groups).
Definition gsof (n : nat) : list (list nat) := match dict_get n groups with Some g => g | None => [] end.

Lemma gs_in n : In n nodes -> dict_get n groups = Some (gsof n) /\ partition_of (num_oc n) (gsof n) /\ (0 < num_oc n)%nat.
Proof. intro H. destruct W as [_ F]. destruct (F n H) as [L [gs [E P]]]. unfold gsof. rewrite E. split; [reflexivity|split; assumption]. Qed.
Lemma gs_nodup n : In n nodes -> NoDup (concat (gsof n)).
Proof. intro H. destruct (gs_in n H) as [_ [[P _] _]]. apply Permutation_sym in P. eapply Permutation_NoDup; [exact P|apply seq_NoDup]. Qed.
Lemma gs_chan n c : In n nodes -> In c (concat (gsof n)) <-> (c < num_oc n)%nat.
Proof.
  intro H. destruct (gs_in n H) as [_ [[P _] _]]. split; intro Hc.
  - apply (Permutation_in _ P) in Hc. apply in_seq in Hc. lia.
  - apply (Permutation_in _ (Permutation_sym P)). apply in_seq. lia.
Qed.
Lemma gs_first n : In n nodes -> (0 < length (gsof n))%nat.
Proof.
  intro H. destruct (gs_in n H) as [_ [[P _] L]]. destruct (gsof n) as [|g r]; [|cbn; lia].
  cbn in P. apply Permutation_length in P. rewrite seq_length in P. cbn in P. lia.
Qed.

Definition simd_tab (f : nat -> nat -> Z) := map (fun n => (n, map (f n) (seq 0 (length (gsof n))))) nodes.
Definition chan_tab (f : nat -> nat -> Z) := map (fun n => (n, map (fun c => f n (group_of (gsof n) c)) (seq 0 (num_oc n)))) nodes.
Definition tab f := Masks (simd_tab f) (chan_tab f).
Definition upd (f : nat -> nat -> Z) n g v : nat -> nat -> Z := fun n' g' => if (Nat.eqb n' n && Nat.eqb g' g)%bool then v else f n' g'.

Lemma tab_ext f g : (forall n k, In n nodes -> (k < length (gsof n))%nat -> f n k = g n k) -> tab f = tab g.
Proof.
  intro H. unfold tab. f_equal.
  - apply map_ext_in. intros n Hn. f_equal. apply map_ext_in. intros k Hk. apply in_seq in Hk. apply H; [exact Hn|lia].
  - apply map_ext_in. intros n Hn. f_equal. apply map_ext_in. intros c Hc. apply in_seq in Hc. apply H; [exact Hn|].
    assert (In c (concat (gsof n))) as Hi by (apply gs_chan; [exact Hn|lia]).
    apply group_of_in in Hi. destruct Hi as [i [E _]]. apply nth_error_Some. congruence.
Qed.

Lemma set_channels n v : In n nodes -> forall idxs F, (forall c, In c idxs -> (c < num_oc n)%nat) ->
  foldM (set_channel n v) idxs (map (fun x => (x, map (F x) (seq 0 (num_oc x)))) nodes)
  = Ok (map (fun x => (x, map (fun c => if (Nat.eqb x n && existsb (Nat.eqb c) idxs)%bool then v else F x c) (seq 0 (num_oc x)))) nodes).
Proof.
  intros Hn idxs. destruct W as [ND _]. induction idxs as [|i r IH]; intros F Hb.
  - cbn. f_equal. apply map_ext. intro x. rewrite andb_false_r. reflexivity.
  - cbn [foldM bind]. unfold set_channel at 1.
    rewrite (dict_get_tab_in (fun x => map (F x) (seq 0 (num_oc x)))) by exact Hn. cbn [from_key bind].
    rewrite set_nth_tab by (apply Hb; left; reflexivity). cbn [bind].
    rewrite (dict_set_tab (fun x => map (F x) (seq 0 (num_oc x)))) by assumption.
    rewrite (map_ext _ (fun x => (x, map ((fun x c => if (Nat.eqb x n && Nat.eqb c i)%bool then v else F x c) x) (seq 0 (num_oc x))))).
    2:{ intro x. destruct (Nat.eqb x n) eqn:E; [apply Nat.eqb_eq in E; subst x|]; reflexivity. }
    rewrite IH by (intros c Hc; apply Hb; right; exact Hc).
    f_equal. apply map_ext. intro x. f_equal. apply map_ext. intro c. cbn.
    destruct (Nat.eqb x n); cbn; [|reflexivity]. destruct (Nat.eqb c i), (existsb (Nat.eqb c) r); reflexivity.
Qed.

Lemma set_group_tab f n g v : In n nodes -> (g < length (gsof n))%nat ->
  set_group groups (tab f) n g v = Ok (tab (upd f n g v)).
Proof.
  intros Hn Hg. destruct (gs_in n Hn) as [E [P L]]. destruct W as [ND _]. unfold set_group, tab. cbn [m_simd m_chan].
  unfold simd_tab at 1. rewrite dict_get_tab_in by exact Hn. cbn [from_key bind].
  rewrite set_nth_tab by exact Hg. cbn [bind]. rewrite E. cbn [from_key bind].
  destruct (nth_error (gsof n) g) as [idxs|] eqn:En; [|apply nth_error_None in En; lia]. cbn [from_index bind].
  unfold chan_tab. rewrite (set_channels n v Hn idxs (fun n c => f n (group_of (gsof n) c))).
  2:{ intros c Hc. apply gs_chan; [exact Hn|]. apply in_concat. exists idxs. split; [apply nth_error_In in En; exact En|exact Hc]. }
  cbn [bind]. do 2 f_equal.
  - unfold simd_tab. rewrite dict_set_tab by assumption. apply map_ext. intro x. unfold upd.
    destruct (Nat.eqb x n) eqn:Ex; [|reflexivity]. apply Nat.eqb_eq in Ex. subst x. reflexivity.
  - apply map_ext_in. intros x Hx. f_equal. apply map_ext_in. intros c Hc. apply in_seq in Hc. unfold upd.
    destruct (Nat.eqb x n) eqn:Ex; [|reflexivity]. apply Nat.eqb_eq in Ex. subst x. cbn [andb].
    destruct (existsb (Nat.eqb c) idxs) eqn:Ei.
    + apply existsb_eqb_in in Ei. rewrite (group_of_spec _ (gs_nodup n Hn) g idxs c En Ei), Nat.eqb_refl. reflexivity.
    + destruct (Nat.eqb (group_of (gsof n) c) g) eqn:Eg; [|reflexivity]. apply Nat.eqb_eq in Eg.
      assert (In c (concat (gsof n))) as Hi by (apply gs_chan; [exact Hn|lia]).
      apply group_of_in in Hi. destruct Hi as [i' [E1 E2]]. rewrite Eg, En in E1. inversion E1; subst i'.
      apply existsb_eqb_in in E2. congruence.
Qed.

Lemma set_group_valid f n g v m : set_group groups (tab f) n g v = Ok m -> In n nodes /\ (g < length (gsof n))%nat.
Proof.
  unfold set_group, tab. cbn [m_simd m_chan]. unfold simd_tab at 1. rewrite dict_get_tab.
  destruct (existsb (Nat.eqb n) nodes) eqn:En; cbn [from_key bind]; [|discriminate]. apply existsb_eqb_in in En.
  destruct (set_nth g v _) as [l|] eqn:Es; cbn [bind]; [|discriminate]. intros _.
  apply set_nth_ok in Es. rewrite map_length, seq_length in Es. split; assumption.
Qed.

Definition first_only (n g : nat) : Z := if Nat.eqb g 0 then REMAINED else PRUNED.
Lemma repeat_tab {A} (v : A) k : forall s, repeat v k = map (fun _ => v) (seq s k).
Proof. induction k as [|k IH]; intro s; [reflexivity|]. cbn. f_equal. apply IH. Qed.
Lemma mandatory l : forall f, (forall n, In n l -> In n nodes) ->
  exists m, foldM (fun m n => set_group groups m n 0 REMAINED) l (tab f) = Ok m /\
  m = tab (fun n g => if (existsb (Nat.eqb n) l && Nat.eqb g 0)%bool then REMAINED else f n g).
Proof.
  induction l as [|n r IH]; intros f Hin; [exists (tab f); split; reflexivity|]. cbn [foldM].
  rewrite set_group_tab; [|apply Hin; left; reflexivity|apply gs_first; apply Hin; left; reflexivity]. cbn [bind].
  destruct (IH (upd f n 0%nat REMAINED)) as [m [E Em]]; [intros x Hx; apply Hin; right; exact Hx|].
  exists m. split; [exact E|]. subst m. apply tab_ext. intros x k Hx Hk. unfold upd. cbn.
  destruct (Nat.eqb x n), (existsb (Nat.eqb x) r), (Nat.eqb k 0); reflexivity.
Qed.
Lemma new_masks_tab : new_masks groups num_oc nodes = Ok (tab first_only).
Proof.
  unfold new_masks. pose proof W as [ND _].
  pose proof (fill_tab (fun n => repeat PRUNED (num_oc n)) nodes [] ND) as T1. cbn [map app] in T1. rewrite T1.
  rewrite (fillM_tab _ (fun n => repeat PRUNED (length (gsof n)))).
  2:{ intros n d Hn. destruct (gs_in n Hn) as [E _]. rewrite E. reflexivity. }
  cbn [bind].
  pose proof (fill_tab (fun n => repeat PRUNED (length (gsof n))) nodes [] ND) as T2. cbn [map app] in T2. rewrite T2.
  destruct (mandatory nodes (fun _ _ => PRUNED)) as [m [E Em]]; [auto|].
  replace (Masks _ _) with (tab (fun _ _ => PRUNED)).
  - rewrite E. subst m. f_equal. apply tab_ext. intros n k Hn Hk. apply existsb_eqb_in in Hn. rewrite Hn. reflexivity.
  - unfold tab, simd_tab, chan_tab. f_equal; apply map_ext; intro n; rewrite (repeat_tab PRUNED _ 0); reflexivity.
Qed.

Lemma tab_shows f : shows nodes (fun n => dict_get n groups) num_oc f (fun n => dict_get n (simd_tab f)) (fun n => dict_get n (chan_tab f)).
Proof.
  intro n. split.
  - intro Hn. destruct (gs_in n Hn) as [E [P L]].
    exists (gsof n), (map (f n) (seq 0 (length (gsof n)))), (map (fun c => f n (group_of (gsof n) c)) (seq 0 (num_oc n))).
    split; [exact E|]. split; [apply (dict_get_tab_in (fun n => map (f n) (seq 0 (length (gsof n))))); exact Hn|].
    split; [apply (dict_get_tab_in (fun n => map (fun c => f n (group_of (gsof n) c)) (seq 0 (num_oc n)))); exact Hn|].
    split; [rewrite map_length, seq_length; reflexivity|]. split; [rewrite map_length, seq_length; reflexivity|].
    assert (X : forall A (F : nat -> A) k i, (i < k)%nat -> nth_error (map F (seq 0 k)) i = Some (F i)).
    { intros A F k i Hi. rewrite (map_nth_error F i (seq 0 k) (d := i)); [reflexivity|].
      rewrite (nth_error_nth' _ 0%nat) by (rewrite seq_length; exact Hi). rewrite seq_nth by exact Hi. reflexivity. }
    intros g idxs Eg. split.
    + apply X. apply nth_error_Some. congruence.
    + intros c Hc. rewrite X.
      * rewrite (group_of_spec _ (gs_nodup n Hn) g idxs c Eg Hc). reflexivity.
      * apply gs_chan; [exact Hn|]. apply in_concat. exists idxs. split; [apply nth_error_In in Eg; exact Eg|exact Hc].
  - intro Hn. split; [apply (dict_get_tab_out (fun n => map (f n) (seq 0 (length (gsof n))))); exact Hn|].
    apply (dict_get_tab_out (fun n => map (fun c => f n (group_of (gsof n) c)) (seq 0 (num_oc n)))). exact Hn.
Qed.

Lemma decided_upd ops : forall f n g, decided ops n g (f n g) =
  (fold_left (fun f op => let '(n', g', v) := op in upd f n' g' v) ops f) n g.
Proof. induction ops as [|[[n' g'] v] r IH]; intros f n g; [reflexivity|]. cbn. rewrite <- IH. reflexivity. Qed.

Lemma set_groups_tab ops : forall f m,
  foldM (fun m op => let '(n, g, v) := op in set_group groups m n g v) ops (tab f) = Ok m ->
  m = tab (fold_left (fun f op => let '(n', g', v) := op in upd f n' g' v) ops f).
Proof.
  induction ops as [|[[n g] v] r IH]; intros f m; cbn [foldM fold_left]; [intro H; inversion H; reflexivity|].
  destruct (set_group groups (tab f) n g v) as [m1|] eqn:E; cbn [bind]; [|discriminate].
  destruct (set_group_valid _ _ _ _ _ E) as [Hn Hg]. rewrite set_group_tab in E by assumption. inversion E; subst m1.
  apply IH.
Qed.
Lemma set_groups_total ops : forall f, Forall (fun op => let '(n, g, _) := op in In n nodes /\ (g < length (gsof n))%nat) ops ->
  exists m, foldM (fun m op => let '(n, g, v) := op in set_group groups m n g v) ops (tab f) = Ok m.
Proof.
  induction ops as [|[[n g] v] r IH]; intros f H; [exists (tab f); reflexivity|]. inversion H as [|? ? H1 Hr]; subst. cbn in H1. destruct H1 as [Hn Hg].
  cbn [foldM]. rewrite set_group_tab by assumption. cbn [bind]. apply IH. exact Hr.
Qed.

(* ---- greedy ---- *)
Lemma has_pruned_tab f : has_pruned_channel (tab f) = true <-> exists n g, In n nodes /\ (g < length (gsof n))%nat /\ f n g = 0%Z.
Proof.
  unfold has_pruned_channel, tab, chan_tab. cbn [m_chan]. rewrite existsb_exists. split.
  - intros [[n l] [Hi He]]. apply in_map_iff in Hi. destruct Hi as [n' [E Hn]]. inversion E; subst n' l.
    apply existsb_exists in He. destruct He as [x [Hx Ex]]. apply Z.eqb_eq in Ex. cbn in Hx. subst x.
    apply in_map_iff in Hx. destruct Hx as [c [Ec Hc]]. apply in_seq in Hc.
    exists n, (group_of (gsof n) c). split; [exact Hn|]. split; [|exact Ec].
    assert (In c (concat (gsof n))) as Hcc by (apply gs_chan; [exact Hn|lia]).
    apply group_of_in in Hcc. destruct Hcc as [i [E1 _]]. apply nth_error_Some. congruence.
  - intros [n [g [Hn [Hg E]]]]. eexists. split; [apply in_map; exact Hn|]. cbn. apply existsb_exists. exists 0%Z.
    split; [|reflexivity]. apply in_map_iff.
    destruct (nth_error (gsof n) g) as [idxs|] eqn:En; [|apply nth_error_None in En; lia].
    destruct (gs_in n Hn) as [_ [[_ NE] _]]. destruct idxs as [|c idxs]; [apply nth_error_In in En; apply NE in En; congruence|].
    exists c. assert (In c (c :: idxs)) as Hc by (left; reflexivity).
    rewrite (group_of_spec _ (gs_nodup n Hn) g _ c En Hc). split; [exact E|]. apply in_seq.
    assert (c < num_oc n)%nat; [|lia]. apply gs_chan; [exact Hn|]. apply in_concat. eexists. split; [apply nth_error_In in En; exact En|exact Hc].
Qed.

Lemma first_zero_spec l : forall i, (exists k, (k < length l)%nat /\ nth k l 1%Z = 0%Z) ->
  exists k, first_zero_from i l = (i + k)%nat /\ (k < length l)%nat /\ nth k l 1%Z = 0%Z /\ forall j, (j < k)%nat -> nth j l 1%Z <> 0%Z.
Proof.
  induction l as [|x l IH]; intros i [k [Hk E]]; [cbn in Hk; lia|]. cbn [first_zero_from]. destruct (Z.eqb x 0) eqn:Ex.
  - apply Z.eqb_eq in Ex. exists 0%nat. rewrite Nat.add_0_r. split; [reflexivity|]. cbn. split; [lia|]. split; [exact Ex|]. intros j Hj. lia.
  - destruct k as [|k]; [cbn in E; apply Z.eqb_neq in Ex; congruence|].
    destruct (IH (S i)) as [k' [A [B [C D]]]]; [exists k; split; [cbn in Hk; lia|exact E]|].
    exists (S k'). split; [rewrite A; lia|]. split; [cbn; lia|]. split; [exact C|].
    intros [|j] Hj; [cbn; apply Z.eqb_neq; exact Ex|]. cbn. apply D. lia.
Qed.
Lemma first_zero_none l i : (forall k, (k < length l)%nat -> nth k l 1%Z <> 0%Z) -> first_zero_from i l = 0%nat.
Proof.
  revert i. induction l as [|x l IH]; intros i H; [reflexivity|]. cbn.
  destruct (Z.eqb x 0) eqn:Ex; [apply Z.eqb_eq in Ex; exfalso; apply (H 0%nat); [cbn; lia|exact Ex]|].
  apply IH. intros k Hk. apply (H (S k)). cbn. lia.
Qed.

Lemma nth_map_seq (F : nat -> Z) k i : (i < k)%nat -> nth i (map F (seq 0 k)) 1%Z = F i.
Proof. intro H. rewrite (nth_indep _ 1%Z (F 0%nat)) by (rewrite map_length, seq_length; exact H). rewrite map_nth, seq_nth by exact H. reflexivity. Qed.
Lemma argmax_tab (F : nat -> Z) k g : argmax_zero (map F (seq 0 k)) = Ok g -> g <> 0%nat ->
  (g < k)%nat /\ F g = 0%Z /\ forall g', (g' < g)%nat -> F g' <> 0%Z.
Proof.
  unfold argmax_zero. destruct (map F (seq 0 k)) as [|x l] eqn:E; [discriminate|]. rewrite <- E.
  assert (L : length (map F (seq 0 k)) = k) by (rewrite map_length, seq_length; reflexivity).
  intros H Hg. injection H as H0.
  destruct (existsb (fun i => Z.eqb (F i) 0) (seq 0 k)) eqn:Ex.
  - apply existsb_exists in Ex. destruct Ex as [i [Hi Ei]]. apply in_seq in Hi. apply Z.eqb_eq in Ei.
    destruct (first_zero_spec (map F (seq 0 k)) 0) as [j [A [B [C D]]]].
    { exists i. rewrite L. split; [lia|]. rewrite nth_map_seq by lia. exact Ei. }
    cbn in A. rewrite H0 in A. rewrite L in B. rewrite nth_map_seq in C by exact B. clear H0. subst j. split; [exact B|]. split; [exact C|].
    intros g' Hg'. specialize (D g' Hg'). rewrite nth_map_seq in D by lia. exact D.
  - exfalso. apply Hg. rewrite <- H0. apply first_zero_none. rewrite L. intros i Hi. rewrite nth_map_seq by exact Hi.
    intro Hz. assert (existsb (fun i => Z.eqb (F i) 0) (seq 0 k) = true); [|congruence].
    apply existsb_exists. exists i. split; [apply in_seq; lia|apply Z.eqb_eq; exact Hz].
Qed.
Lemma argmax_tab_first (F : nat -> Z) k g : (0 < k)%nat -> F 0%nat <> 0%Z -> (g < k)%nat -> F g = 0%Z ->
  (forall g', (g' < g)%nat -> F g' <> 0%Z) -> argmax_zero (map F (seq 0 k)) = Ok g.
Proof.
  intros Hk H0 Hg E Hb. unfold argmax_zero. destruct (map F (seq 0 k)) as [|x l] eqn:Em; [destruct k; [lia|discriminate]|]. rewrite <- Em.
  destruct (first_zero_spec (map F (seq 0 k)) 0) as [j [A [B [C D]]]].
  { exists g. rewrite map_length, seq_length. split; [exact Hg|]. rewrite nth_map_seq by exact Hg. exact E. }
  rewrite map_length, seq_length in B. rewrite A. f_equal. cbn.
  rewrite nth_map_seq in C by exact B.
  destruct (Nat.lt_trichotomy j g) as [H|[H|H]]; [exfalso; exact (Hb j H C)|exact H|].
  exfalso. apply (D g H). rewrite nth_map_seq by exact Hg. exact E.
Qed.

Section Greedy.
Variable scores : list (nat * list (option Q)).
Definition score (n g : nat) : option Q := match dict_get n scores with Some ss => match nth_error ss g with Some s => s | None => None end | None => None end.
Definition ng (n : nat) : nat := length (gsof n).

Definition entry (f : nat -> nat -> Z) (n : nat) : nat * list Z := (n, map (f n) (seq 0 (length (gsof n)))).

Lemma candidates_spec f l : forall best r, (forall n, In n l -> In n nodes /\ f n 0%nat <> 0%Z) ->
  foldM (candidate_step scores) (map (entry f) l) best = Ok r ->
  (forall q n g, r = Some (q, (n, g)) -> best = Some (q, (n, g)) \/ (next_group l ng f n g /\ score n g = Some q)) /\
  (forall b x, best = Some (b, x) -> exists q y, r = Some (q, y) /\ b <= q) /\
  (forall n g q', next_group l ng f n g -> score n g = Some q' -> exists q y, r = Some (q, y) /\ q' <= q).
Proof.
  induction l as [|n l IH]; intros best r Hin H.
  - cbn in H. inversion H; subst r. split; [intros q n g E; left; exact E|]. split.
    + intros b x E. exists b, x. split; [exact E|apply Qle_refl].
    + intros n g q' [[] _].
  - cbn [map foldM] in H. destruct (candidate_step scores best (entry f n)) as [b1|] eqn:Es; cbn [bind] in H; [|discriminate].
    destruct (IH b1 r) as [I1 [I2 I3]]; [intros x Hx; apply Hin; right; exact Hx|exact H|]. clear IH H.
    destruct (Hin n) as [Hn H0]; [left; reflexivity|].
    unfold candidate_step, entry in Es. cbn [snd fst] in Es.
    destruct (argmax_zero (map (f n) (seq 0 (length (gsof n))))) as [g|] eqn:Ea; cbn [bind] in Es; [|discriminate].
    assert (NG : forall g', next_group (n :: l) ng f n g' -> g' = g).
    { intros g' [_ [A [B C]]]. rewrite (argmax_tab_first (f n) _ g' (gs_first n Hn) H0 A B C) in Ea. congruence. }
    assert (UP : forall n' g', next_group l ng f n' g' -> next_group (n :: l) ng f n' g').
    { intros n' g' [A R]. split; [right; exact A|exact R]. }
    destruct (Nat.eqb g 0) eqn:Eg.
    + inversion Es; subst b1. apply Nat.eqb_eq in Eg. split; [|split].
      * intros q n' g' E. destruct (I1 q n' g' E) as [X|[X Y]]; [left; exact X|right; split; [apply UP; exact X|exact Y]].
      * exact I2.
      * intros n' g' q' N S. destruct (Nat.eq_dec n' n) as [->|D].
        -- specialize (NG g' N). destruct N as [_ [_ [Z0 _]]]. subst. contradiction.
        -- destruct N as [[X|X] R]; [congruence|]. apply I3 with n' g'; [split; assumption|exact S].
    + apply Nat.eqb_neq in Eg. destruct (argmax_tab (f n) _ g Ea Eg) as [A [B C]].
      destruct (dict_get n scores) as [ss|] eqn:Ed; cbn [from_key bind] in Es; [|discriminate].
      destruct (nth_error ss g) as [s|] eqn:En; cbn [from_index bind] in Es; [|discriminate].
      assert (Sc : score n g = s) by (unfold score; rewrite Ed, En; reflexivity).
      assert (N : next_group (n :: l) ng f n g) by (split; [left; reflexivity|split; [exact A|split; [exact B|exact C]]]).
      assert (BB : (exists q, s = Some q /\ b1 = Some (q, (n, g)) /\ forall b x, best = Some (b, x) -> b <= q) \/
                   (b1 = best /\ forall q, s = Some q -> exists b x, best = Some (b, x) /\ q <= b)).
      { destruct s as [q|]; cbn [better] in Es.
        - destruct best as [[b x]|]; cbn in Es.
          + destruct (Qle_bool q b) eqn:Eq; cbn in Es; inversion Es; subst b1.
            * right. split; [reflexivity|]. intros q0 E0. inversion E0; subst. exists b, x. split; [reflexivity|apply Qle_bool_iff; exact Eq].
            * left. exists q. split; [reflexivity|]. split; [reflexivity|]. intros b' x' E'. inversion E'; subst.
              apply Qlt_le_weak, Qnot_le_lt. intro Hle. apply Qle_bool_iff in Hle. congruence.
          + inversion Es; subst b1. left. exists q. split; [reflexivity|]. split; [reflexivity|]. intros; discriminate.
        - inversion Es; subst b1. right. split; [reflexivity|]. intros; discriminate. }
      split; [|split].
      * intros q n' g' E. destruct (I1 q n' g' E) as [X|[X Y]].
        -- destruct BB as [[q0 [E0 [E1 _]]]|[E1 _]]; [|left; congruence].
           rewrite E1 in X. injection X as <- <- <-. right. split; [exact N|]. rewrite Sc. exact E0.
        -- right. split; [apply UP; exact X|exact Y].
      * intros b x Eb. destruct BB as [[q0 [E0 [E1 F]]]|[E1 _]].
        -- destruct (I2 _ _ E1) as [q [y [Er L]]]. exists q, y. split; [exact Er|]. apply Qle_trans with q0; [exact (F b x Eb)|exact L].
        -- apply I2 with x. congruence.
      * intros n' g' q' N' S. destruct (Nat.eq_dec n' n) as [->|D].
        -- rewrite (NG g' N') in S. rewrite Sc in S. destruct BB as [[q0 [E0 [E1 F]]]|[E1 F]].
           ++ destruct (I2 _ _ E1) as [q [y [Er L]]]. exists q, y. split; [exact Er|]. congruence.
           ++ destruct (F q' S) as [b [x [Eb L]]]. rewrite <- E1 in Eb. destruct (I2 _ _ Eb) as [q [y [Er L']]].
              exists q, y. split; [exact Er|]. apply Qle_trans with b; assumption.
        -- destruct N' as [[X|X] R]; [congruence|]. apply I3 with n' g'; [split; assumption|exact S].
Qed.

Lemma most_sensitive_spec f n g : (forall n, In n nodes -> f n 0%nat <> 0%Z) ->
  most_sensitive scores (tab f) = Ok (Some (n, g)) -> best_next nodes ng f score n g.
Proof.
  intros H0. unfold most_sensitive, tab. cbn [m_simd].
  destruct (foldM (candidate_step scores) (simd_tab f) None) as [r|] eqn:E; cbn [bind]; [|discriminate].
  destruct r as [[q [n' g']]|]; cbn; [|discriminate]. intro X. inversion X; subst n' g'.
  destruct (candidates_spec f nodes None _ (fun n Hn => conj Hn (H0 n Hn)) E) as [I1 [_ I3]].
  destruct (I1 q n g eq_refl) as [Y|[N S]]; [discriminate|]. split; [exact N|]. exists q. split; [exact S|].
  intros n' g' q' N' S'. destruct (I3 n' g' q' N' S') as [q0 [y [Er L]]]. inversion Er; subst. exact L.
Qed.

Definition all_scored : Prop := forall n g, In n nodes -> (g < ng n)%nat -> exists ss q, dict_get n scores = Some ss /\ nth_error ss g = Some (Some q).

Lemma candidates_total f l : all_scored -> (forall n, In n l -> In n nodes) ->
  forall best, exists r, foldM (candidate_step scores) (map (entry f) l) best = Ok r.
Proof.
  intros S. induction l as [|n l IH]; intros Hin best; [exists best; reflexivity|]. cbn [map foldM].
  assert (Hn : In n nodes) by (apply Hin; left; reflexivity).
  change (entry f n) with (n, map (f n) (seq 0 (length (gsof n)))). unfold candidate_step at 1. cbn [fst snd].
  destruct (argmax_zero (map (f n) (seq 0 (length (gsof n))))) as [g|e] eqn:Ea.
  - cbn [bind]. destruct (Nat.eqb g 0) eqn:Eg; cbn [bind]; [apply IH; intros x Hx; apply Hin; right; exact Hx|].
    apply Nat.eqb_neq in Eg. destruct (argmax_tab (f n) _ g Ea Eg) as [A _].
    destruct (S n g Hn A) as [ss [q [E1 E2]]]. rewrite E1. cbn [from_key bind]. rewrite E2. cbn [from_index bind].
    apply IH. intros x Hx. apply Hin. right. exact Hx.
  - exfalso. unfold argmax_zero in Ea. pose proof (gs_first n Hn) as L.
    destruct (map (f n) (seq 0 (length (gsof n)))) as [|z zs] eqn:E; [|discriminate].
    destruct (length (gsof n)); [lia|discriminate].
Qed.
Lemma most_sensitive_total f : all_scored -> (forall n, In n nodes -> f n 0%nat <> 0%Z) ->
  has_pruned_channel (tab f) = true -> exists n g, most_sensitive scores (tab f) = Ok (Some (n, g)).
Proof.
  intros S H0 HP. unfold most_sensitive, tab. cbn [m_simd].
  destruct (candidates_total f nodes S (fun n H => H) None) as [r E].
  change (map (entry f) nodes) with (simd_tab f) in E. rewrite E. cbn [bind].
  apply has_pruned_tab in HP. destruct HP as [n [g [Hn [Hg Ez]]]].
  assert (exists g0, next_group nodes ng f n g0) as [g0 N].
  { clear - Hn Hg Ez. assert (forall k, (k <= g)%nat -> (exists g0, next_group nodes ng f n g0) \/ forall g', (g' < k)%nat -> f n g' <> 0%Z) as X.
    { induction k as [|k IHk]; intro Hk; [right; intros; lia|]. destruct IHk as [D|D]; [lia|left; exact D|].
      destruct (Z.eq_dec (f n k) 0) as [Z0|Z0].
      - left. exists k. split; [exact Hn|]. split; [unfold ng; lia|]. split; assumption.
      - right. intros g' H'. destruct (Nat.eq_dec g' k) as [->|]; [exact Z0|apply D; lia]. }
    destruct (X g (le_n g)) as [D|D]; [exact D|]. exists g. split; [exact Hn|]. split; [exact Hg|]. split; assumption. }
  destruct N as [N1 [N2 N3]]. destruct (S n g0 N1 N2) as [ss [q [E1 E2]]].
  destruct (candidates_spec f nodes None r (fun n Hn => conj Hn (H0 n Hn)) E) as [_ [_ I3]].
  destruct (I3 n g0 q) as [q' [[a b] [Er _]]]; [split; [exact N1|split; assumption]|unfold score; rewrite E1, E2; reflexivity|].
  exists a, b. rewrite Er. reflexivity.
Qed.

Variable memory : list (nat * list Z) -> result Q.
Variable target : option Q.

Lemma above_within x : above target x = false <-> within target x.
Proof.
  unfold above, within. destruct target as [t|]; [|split; auto]. destruct (Qle_bool x t) eqn:E; cbn.
  - split; [intros _; apply Qle_bool_iff; exact E|reflexivity].
  - split; [discriminate|]. intro H. apply Qle_bool_iff in H. congruence.
Qed.
Lemma below_within x : below target x = true -> within target x.
Proof.
  unfold below, within. destruct target as [t|]; [|auto]. destruct (Qle_bool t x) eqn:E; [discriminate|]. intros _.
  apply Qlt_le_weak, Qnot_le_lt. intro H. apply Qle_bool_iff in H. congruence.
Qed.

(* the kept groups of every layer are its first ones *)
Definition prefix (f : nat -> nat -> Z) : Prop :=
  forall n, In n nodes -> f n 0%nat = REMAINED /\
    forall g, (g < ng n)%nat -> (f n g = REMAINED \/ f n g = PRUNED) /\ (f n g = REMAINED -> forall g', (g' < g)%nat -> f n g' = REMAINED).
Lemma prefix_first f n : prefix f -> In n nodes -> f n 0%nat <> 0%Z.
Proof. intros P Hn. destruct (P n Hn) as [E _]. rewrite E. discriminate. Qed.
Lemma prefix_upd f n g : prefix f -> next_group nodes ng f n g -> prefix (upd f n g REMAINED).
Proof.
  intros P [Hn [Hg [Ez Hb]]] n' Hn'. destruct (P n' Hn') as [E0 F]. unfold upd.
  assert (g <> 0%nat) by (intros ->; exact (prefix_first f n P Hn Ez)).
  destruct (Nat.eqb n' n) eqn:En; cbn [andb].
  - apply Nat.eqb_eq in En. subst n'. destruct (Nat.eqb 0 g) eqn:E; [apply Nat.eqb_eq in E; congruence|]. split; [exact E0|].
    intros g1 Hg1. destruct (Nat.eqb g1 g) eqn:E1.
    + apply Nat.eqb_eq in E1. subst g1. split; [left; reflexivity|]. intros _ g' Hg'.
      destruct (Nat.eqb g' g) eqn:E2; [reflexivity|].
      assert (g' < ng n)%nat as L by (unfold ng in *; lia).
      destruct (F g' L) as [[X|X] _]; [exact X|]. exfalso. exact (Hb g' Hg' X).
    + destruct (F g1 Hg1) as [A B]. split; [exact A|]. intros E2 g' Hg'. destruct (Nat.eqb g' g); [reflexivity|]. apply B; assumption.
  - split; [exact E0|exact F].
Qed.

Definition stuck (f : nat -> nat -> Z) (x : Q) : Prop :=
  has_pruned_channel (tab f) = false \/ below target x = false \/
  exists n g x', best_next nodes ng f score n g /\ memory (chan_tab (upd f n g REMAINED)) = Ok x' /\ ~ within target x'.

Lemma loop_spec fuel : forall f cur last m,
  prefix f -> memory (chan_tab f) = Ok cur ->
  (within target cur \/ exists n g f0 x0, last = Some (n, g) /\ f = upd f0 n g REMAINED /\ prefix f0 /\
     best_next nodes ng f0 score n g /\ memory (chan_tab f0) = Ok x0 /\ within target x0) ->
  greedy_loop groups scores memory target fuel (tab f) cur last = Ok m ->
  exists f' x, m = tab f' /\ prefix f' /\ memory (chan_tab f') = Ok x /\ within target x /\ stuck f' x.
Proof.
  induction fuel as [|fuel IH]; intros f cur last m P M HL H; cbn [greedy_loop] in H;
  destruct (below target cur && has_pruned_channel (tab f))%bool eqn:C.
  - discriminate.
  - clear IH || idtac.
    destruct (above target cur) eqn:A.
    + destruct HL as [HL|[n [g [f0 [x0 [-> [-> [P0 [B [M0 W0]]]]]]]]]]; [apply above_within in HL; congruence|].
      assert (B' := B). destruct B' as [[Hn [Hg [Ez Hb]]] _]. rewrite set_group_tab in H by assumption. inversion H; subst m.
      assert (T : tab (upd (upd f0 n g REMAINED) n g PRUNED) = tab f0).
      { apply tab_ext. intros n' k _ _. unfold upd. destruct (Nat.eqb n' n && Nat.eqb k g)%bool eqn:E; [|reflexivity].
        apply andb_true_iff in E. destruct E as [E1 E2]. apply Nat.eqb_eq in E1, E2. subst. symmetry. exact Ez. }
      exists f0, x0. split; [exact T|]. split; [exact P0|]. split; [exact M0|]. split; [exact W0|].
      right. right. exists n, g, cur. split; [exact B|]. split; [exact M|]. intro X. apply above_within in X. congruence.
    + inversion H; subst m. exists f, cur. split; [reflexivity|]. split; [exact P|]. split; [exact M|].
      split; [apply above_within; exact A|]. apply andb_false_iff in C. destruct C as [C|C]; [right; left; exact C|left; exact C].
  - apply andb_true_iff in C. destruct C as [C1 C2].
    destruct (most_sensitive scores (tab f)) as [c|] eqn:Em; cbn [bind] in H; [|discriminate].
    destruct c as [[n g]|]; [|discriminate].
    pose proof (most_sensitive_spec f n g (fun n Hn => prefix_first f n P Hn) Em) as B.
    assert (B' := B). destruct B' as [N _]. assert (N' := N). destruct N' as [Hn [Hg [Ez Hb]]].
    rewrite set_group_tab in H by assumption. cbn [bind] in H.
    unfold tab at 1 in H. cbn [m_chan] in H.
    destruct (memory (chan_tab (upd f n g REMAINED))) as [cur'|] eqn:M'; cbn [bind] in H; [|discriminate].
    apply IH in H; [exact H|apply prefix_upd; assumption|exact M'|].
    right. exists n, g, f, cur. split; [reflexivity|]. split; [reflexivity|]. split; [exact P|]. split; [exact B|]. split; [exact M|].
    apply below_within. exact C1.
  - destruct (above target cur) eqn:A.
    + destruct HL as [HL|[n [g [f0 [x0 [-> [-> [P0 [B [M0 W0]]]]]]]]]]; [apply above_within in HL; congruence|].
      assert (B' := B). destruct B' as [[Hn [Hg [Ez Hb]]] _]. rewrite set_group_tab in H by assumption. inversion H; subst m.
      assert (T : tab (upd (upd f0 n g REMAINED) n g PRUNED) = tab f0).
      { apply tab_ext. intros n' k _ _. unfold upd. destruct (Nat.eqb n' n && Nat.eqb k g)%bool eqn:E; [|reflexivity].
        apply andb_true_iff in E. destruct E as [E1 E2]. apply Nat.eqb_eq in E1, E2. subst. symmetry. exact Ez. }
      exists f0, x0. split; [exact T|]. split; [exact P0|]. split; [exact M0|]. split; [exact W0|].
      right. right. exists n, g, cur. split; [exact B|]. split; [exact M|]. intro X. apply above_within in X. congruence.
    + inversion H; subst m. exists f, cur. split; [reflexivity|]. split; [exact P|]. split; [exact M|].
      split; [apply above_within; exact A|]. apply andb_false_iff in C. destruct C as [C|C]; [right; left; exact C|left; exact C].
Qed.

Lemma first_only_prefix : prefix first_only.
Proof.
  intros n Hn. split; [reflexivity|]. intros g Hg. unfold first_only. destruct (Nat.eqb g 0) eqn:E.
  - split; [left; reflexivity|]. intros _ g' Hg'. apply Nat.eqb_eq in E. lia.
  - split; [right; reflexivity|]. discriminate.
Qed.

(* progress *)
Definition pruned_groups (f : nat -> nat -> Z) : nat := list_sum (map (fun n => length (filter (fun g => Z.eqb (f n g) 0) (seq 0 (ng n)))) nodes).
Lemma list_sum_lt (F G : nat -> nat) l n : In n l -> (forall x, In x l -> F x <= G x)%nat -> (F n < G n)%nat -> (list_sum (map F l) < list_sum (map G l))%nat.
Proof.
  induction l as [|x l IH]; [intros []|]. intros Hi Hle Hlt.
  assert (Le : (list_sum (map F l) <= list_sum (map G l))%nat).
  { clear - Hle. induction l as [|y l IH]; [cbn; lia|].
    assert (F y <= G y)%nat by (apply Hle; right; left; reflexivity).
    assert (list_sum (map F l) <= list_sum (map G l))%nat by (apply IH; intros z [->|Hz]; apply Hle; [left; reflexivity|right; right; exact Hz]).
    cbn [map]. change (F y + list_sum (map F l) <= G y + list_sum (map G l))%nat. lia. }
  change (F x + list_sum (map F l) < G x + list_sum (map G l))%nat.
  destruct Hi as [->|Hi]; [lia|]. assert (F x <= G x)%nat by (apply Hle; left; reflexivity).
  assert (list_sum (map F l) < list_sum (map G l))%nat; [|lia]. apply IH; [exact Hi| |exact Hlt]. intros y Hy. apply Hle. right. exact Hy.
Qed.
Lemma filter_le (p q : nat -> bool) l : (forall x, In x l -> p x = true -> q x = true) -> (length (filter p l) <= length (filter q l))%nat.
Proof.
  induction l as [|x l IH]; intro H; [cbn; lia|]. cbn.
  assert (IH' : (length (filter p l) <= length (filter q l))%nat) by (apply IH; intros y Hy; apply H; right; exact Hy).
  destruct (p x) eqn:E; [rewrite (H x (or_introl eq_refl) E); cbn; lia|]. destruct (q x); cbn; lia.
Qed.
Lemma filter_lt (p q : nat -> bool) l x0 : (forall x, In x l -> p x = true -> q x = true) -> In x0 l -> p x0 = false -> q x0 = true ->
  (length (filter p l) < length (filter q l))%nat.
Proof.
  induction l as [|x l IH]; intros H Hi Hp Hq; [destruct Hi|]. cbn.
  assert (Hr : forall y, In y l -> p y = true -> q y = true) by (intros y Hy; apply H; right; exact Hy).
  destruct Hi as [->|Hi].
  - rewrite Hp, Hq. cbn. pose proof (filter_le p q l Hr). lia.
  - specialize (IH Hr Hi Hp Hq). destruct (p x) eqn:E; [rewrite (H x (or_introl eq_refl) E); cbn; lia|]. destruct (q x); cbn; lia.
Qed.
Lemma pruned_groups_upd f n g : In n nodes -> (g < ng n)%nat -> f n g = 0%Z -> (pruned_groups (upd f n g REMAINED) < pruned_groups f)%nat.
Proof.
  intros Hn Hg Ez. apply list_sum_lt with n; [exact Hn| |].
  - intros x Hx. apply filter_le. intros k _. unfold upd. destruct (Nat.eqb x n && Nat.eqb k g)%bool; [discriminate|auto].
  - apply filter_lt with g.
    + intros k _. unfold upd. destruct (Nat.eqb n n && Nat.eqb k g)%bool; [discriminate|auto].
    + apply in_seq. lia.
    + unfold upd. rewrite !Nat.eqb_refl. reflexivity.
    + apply Z.eqb_eq. exact Ez.
Qed.
Lemma loop_total fuel : all_scored -> (forall f, exists x, memory (chan_tab f) = Ok x) -> forall f cur last,
  prefix f -> (pruned_groups f <= fuel)%nat ->
  (above target cur = true -> exists n g, last = Some (n, g) /\ In n nodes /\ (g < ng n)%nat) ->
  exists m, greedy_loop groups scores memory target fuel (tab f) cur last = Ok m.
Proof.
  intros S M. induction fuel as [|fuel IH]; intros f cur last P L HL; cbn [greedy_loop];
  destruct (below target cur && has_pruned_channel (tab f))%bool eqn:C.
  - exfalso. apply andb_true_iff in C. destruct C as [_ C]. apply has_pruned_tab in C. destruct C as [n [g [Hn [Hg Ez]]]].
    pose proof (pruned_groups_upd f n g Hn Hg Ez). lia.
  - destruct (above target cur) eqn:A; [|eexists; reflexivity].
    destruct (HL eq_refl) as [n [g [-> [Hn Hg]]]]. rewrite set_group_tab by assumption. eexists. reflexivity.
  - apply andb_true_iff in C. destruct C as [C1 C2].
    destruct (most_sensitive_total f S (fun n Hn => prefix_first f n P Hn) C2) as [n [g Em]]. rewrite Em. cbn [bind].
    pose proof (most_sensitive_spec f n g (fun n Hn => prefix_first f n P Hn) Em) as [N _]. assert (N' := N). destruct N' as [Hn [Hg [Ez Hb]]].
    rewrite set_group_tab by assumption. cbn [bind]. unfold tab at 1. cbn [m_chan].
    destruct (M (upd f n g REMAINED)) as [x Ex]. rewrite Ex. cbn [bind]. apply IH.
    + apply prefix_upd; assumption.
    + pose proof (pruned_groups_upd f n g Hn Hg Ez). lia.
    + intros _. exists n, g. split; [reflexivity|]. split; assumption.
  - destruct (above target cur) eqn:A; [|eexists; reflexivity].
    destruct (HL eq_refl) as [n [g [-> [Hn Hg]]]]. rewrite set_group_tab by assumption. eexists. reflexivity.
Qed.
Lemma pruned_groups_le f : (pruned_groups f <= list_sum (map ng nodes))%nat.
Proof.
  clear W. unfold pruned_groups. induction nodes as [|n l IH]; [cbn; lia|].
  change (length (filter (fun g => Z.eqb (f n g) 0) (seq 0 (ng n))) + list_sum (map (fun n => length (filter (fun g => Z.eqb (f n g) 0) (seq 0 (ng n)))) l) <= ng n + list_sum (map ng l))%nat.
  assert (length (filter (fun g => Z.eqb (f n g) 0) (seq 0 (ng n))) <= ng n)%nat; [|lia].
  rewrite <- (seq_length (ng n) 0) at 2.
  clear. induction (seq 0 (ng n)) as [|x l IH]; [cbn; lia|]. cbn [filter length]. destruct (Z.eqb (f n x) 0); cbn [length]; lia.
Qed.
End Greedy.
End Tab.

(* ---- unrolling ---- *)
Lemma nth_error_set_nth {A} i (v : A) l r j : set_nth i v l = Ok r -> length r = length l /\
  nth_error r j = if Nat.eqb j i then Some v else nth_error l j.
Proof.
  revert i r j. induction l as [|x l IH]; intros [|i] r j; cbn; try discriminate.
  - intro H. inversion H; subst. split; [reflexivity|]. destruct j; reflexivity.
  - destruct (set_nth i v l) as [r'|] eqn:E; cbn; [|discriminate]. intro H. inversion H; subst.
    destruct j as [|j]; cbn; destruct (IH i r' 0%nat E) as [L _]; (split; [rewrite L; reflexivity|]); [reflexivity|].
    apply IH. exact E.
Qed.
Lemma set_nth_total {A} i (v : A) l : (i < length l)%nat -> exists r, set_nth i v l = Ok r.
Proof.
  revert i. induction l as [|x l IH]; intros i H; [cbn in H; lia|]. destruct i as [|i]; cbn; [eexists; reflexivity|].
  destruct (IH i) as [r E]; [cbn in H; lia|]. rewrite E. eexists. reflexivity.
Qed.
Lemma assign_group (s : Q) idxs : forall l, (forall i, In i idxs -> (i < length l)%nat) ->
  exists r, foldM (fun l i => set_nth i s l) idxs l = Ok r /\ length r = length l /\
  forall c, nth_error r c = if existsb (Nat.eqb c) idxs then Some s else nth_error l c.
Proof.
  induction idxs as [|i idxs IH]; intros l Hb; [exists l; split; [reflexivity|split; reflexivity]|]. cbn [foldM].
  destruct (set_nth_total i s l) as [l1 E1]; [apply Hb; left; reflexivity|]. rewrite E1. cbn [bind].
  destruct (nth_error_set_nth i s l l1 0 E1) as [L1 _].
  destruct (IH l1) as [r [E [L F]]]; [intros k Hk; rewrite L1; apply Hb; right; exact Hk|].
  exists r. split; [exact E|]. split; [congruence|]. intro c. rewrite F. cbn.
  destruct (nth_error_set_nth i s l l1 c E1) as [_ X]. rewrite X.
  destruct (Nat.eqb c i), (existsb (Nat.eqb c) idxs); reflexivity.
Qed.
Lemma unroll_loop gs : forall ss (l : list Q), length ss = length gs -> NoDup (concat gs) -> (forall c, In c (concat gs) -> (c < length l)%nat) ->
  exists r, foldM (fun l (sg : Q * list nat) => foldM (fun l i => set_nth i (fst sg) l) (snd sg) l) (combine ss gs) l = Ok r /\ length r = length l /\
  (forall c, ~ In c (concat gs) -> nth_error r c = nth_error l c) /\
  (forall g idxs s c, nth_error gs g = Some idxs -> nth_error ss g = Some s -> In c idxs -> nth_error r c = Some s).
Proof.
  induction gs as [|g gs IH]; intros [|s ss] l L ND Hb; try discriminate.
  - exists l. split; [reflexivity|]. split; [reflexivity|]. split; [reflexivity|]. intros [|k] idxs s c E; discriminate.
  - cbn [combine foldM fst snd]. cbn in ND, Hb.
    destruct (assign_group s g l) as [l1 [E1 [L1 F1]]]; [intros i Hi; apply Hb; apply in_or_app; left; exact Hi|].
    rewrite E1. cbn [bind].
    assert (ND' : NoDup (concat gs)) by (clear - ND; induction g as [|a g IHg]; [exact ND|inversion ND; subst; apply IHg; assumption]).
    destruct (IH ss l1) as [r [E [Lr [Fo Fi]]]]; [cbn in L; lia|exact ND'|intros c Hc; rewrite L1; apply Hb; apply in_or_app; right; exact Hc|].
    exists r. split; [exact E|]. split; [congruence|]. split.
    + intros c Hc. rewrite Fo; [|intro X; apply Hc; cbn; apply in_or_app; right; exact X]. rewrite F1.
      destruct (existsb (Nat.eqb c) g) eqn:Ex; [|reflexivity]. apply existsb_eqb_in in Ex. exfalso. apply Hc. cbn. apply in_or_app. left. exact Ex.
    + intros [|k] idxs s' c Eg Es Hc; cbn in Eg, Es.
      * inversion Eg; inversion Es; subst. rewrite Fo.
        -- rewrite F1. apply existsb_eqb_in in Hc. rewrite Hc. reflexivity.
        -- intro X. clear - ND Hc X. induction idxs as [|a g IHg]; [destruct Hc|]. cbn in ND. inversion ND; subst.
           destruct Hc as [->|Hc]; [apply H1; apply in_or_app; right; exact X|exact (IHg H2 Hc)].
      * exact (Fi k idxs s' c Eg Es Hc).
Qed.
