(* KCallFnProofs.v -- the rebuilt call of a function (C81). *)
From Coq Require Import Permutation Sorted Lia.
From Verif Require Import Base GraphModel GraphProofs HessianModel HessianProofs KCallModel KCallSpec KCallProofs.
From Verif Require FxProofs.
Local Open Scope nat_scope.
Open Scope res_scope.

Lemma filter_prefix {A} (p : A -> bool) : forall l n, (forall j x, j <= n -> nth_error l j = Some x -> p x = true) -> forall j, j <= n -> nth_error (filter p l) j = nth_error l j.
Proof.
  induction l as [|x l IH]; intros n H j L; [reflexivity|]. cbn [filter]. rewrite (H 0 x (Nat.le_0_l _) eq_refl). destruct j as [|j]; [reflexivity|]. cbn. destruct n as [|n]; [lia|]. apply (IH n); [|lia].
  intros i y I E. apply (H (S i) y); [lia|exact E].
Qed.
Lemma nth_skipn {A} (l : list A) : forall n i, nth_error (skipn n l) i = nth_error l (n + i).
Proof. induction l as [|x l IH]; intros [|n] i; try reflexivity; [destruct i; reflexivity|]. apply IH. Qed.
Lemma nth_firstn {A} (l : list A) : forall n i, i < n -> nth_error (firstn n l) i = nth_error l i.
Proof. induction l as [|x l IH]; intros [|n] [|i] L; try reflexivity; try lia. cbn. apply IH. lia. Qed.
Lemma sorted_sub {A} (T : A -> A -> Prop) (p : A -> bool) l : StronglySorted T l -> StronglySorted T (filter p l).
Proof.
  induction 1 as [|x l H1 IH H2]; cbn; [constructor|]. destruct (p x); [|exact IH]. constructor; [exact IH|]. rewrite Forall_forall in *. intros y I. apply filter_In in I. apply H2, I.
Qed.
Lemma sorted_skip {A} (T : A -> A -> Prop) : forall n l, StronglySorted T l -> StronglySorted T (skipn n l).
Proof. induction n as [|n IH]; intros l H; [exact H|]. destruct H as [|x l H1 H2]; [constructor|]. apply IH, H1. Qed.
Lemma sorted_map {A B} (f : A -> B) (T : B -> B -> Prop) l : StronglySorted (fun a b => T (f a) (f b)) l -> StronglySorted T (map f l).
Proof. induction 1 as [|x l H1 IH H2]; cbn; [constructor|]. constructor; [exact IH|]. rewrite Forall_forall in *. intros y I. apply in_map_iff in I. destruct I as (z & <- & I). apply H2, I. Qed.
Lemma sorted_impl {A} (T U : A -> A -> Prop) l : (forall a b, In a l -> In b l -> T a b -> U a b) -> StronglySorted T l -> StronglySorted U l.
Proof.
  intros H S1. induction S1 as [|x l H1 IH H2]; [constructor|]. constructor; [apply IH; intros a b I J; apply H; right; assumption|]. rewrite Forall_forall in *. intros y I. apply H; [left; reflexivity|right; exact I|apply H2, I].
Qed.
Lemma enum_in {A} (l : list A) i v : In (i, v) (enumerate_from 0 l) <-> nth_error l i = Some v.
Proof.
  assert (forall j, In (i, v) (enumerate_from j l) <-> j <= i /\ nth_error l (i - j) = Some v) as K; [|rewrite K, Nat.sub_0_r; split; [tauto|intro; split; [lia|assumption]]].
  revert i. induction l as [|x l IH]; intros i j; cbn [enumerate_from In]; [split; [tauto|intros [_ E]; destruct (i - j); discriminate]|]. rewrite IH. split.
  - intros [E|[L E]]; [injection E as <- <-; split; [lia|rewrite Nat.sub_diag; reflexivity]|]. split; [lia|]. replace (i - j) with (S (i - S j)) by lia. exact E.
  - intros [L E]. destruct (Nat.eq_dec i j) as [->|N]; [left; rewrite Nat.sub_diag in E; cbn in E; congruence|right]. split; [lia|]. replace (i - j) with (S (i - S j)) in E by lia. exact E.
Qed.
Lemma positions_sorted ps : NoDup ps -> StronglySorted (fun a b => exists i j, position a ps = Some i /\ position b ps = Some j /\ i < j) ps.
Proof.
  intro ND. assert (forall l pre, ps = pre ++ l -> StronglySorted (fun a b => exists i j, position a ps = Some i /\ position b ps = Some j /\ i < j) l) as K; [|apply (K ps []); reflexivity].
  induction l as [|x l IH]; intros pre E; [constructor|]. constructor; [apply (IH (pre ++ [x])); rewrite <- app_assoc; exact E|]. apply Forall_forall. intros y I. apply In_nth_error in I. destruct I as [n I].
  exists (length pre), (length pre + S n). split; [|split; [|lia]]; apply (nth_position _ _ _ ND); rewrite E, nth_error_app2 by lia; [rewrite Nat.sub_diag; reflexivity|]. replace (length pre + S n - length pre) with (S n) by lia. exact I.
Qed.

Section Call.
Variables (ps : params) (args : list val) (kw : kwargs).
Hypothesis ND : NoDup ps.
Hypothesis VC : valid_call ps args kw.
Hypothesis SA : forall v, In v args -> simple v.
Hypothesis SK : forall k v, In (k, v) kw -> simple v.
Let b := gives ps args kw.
Let na := length args.
Let A := arguments_alloc ps args kw false.

Lemma na_le : na <= length ps. Proof using VC. apply VC. Qed.
Lemma kw_nodup : NoDup (map fst kw). Proof using VC. apply VC. Qed.
Lemma kw_late k : In k (map fst kw) -> exists i, position k ps = Some i /\ na <= i.
Proof using VC ND.
  intro I. destruct VC as (_ & _ & H). apply H, In_nth_error in I. destruct I as [n I]. rewrite nth_skipn in I. exists (na + n). split; [apply nth_position; [exact ND|exact I]|lia].
Qed.
Lemma b_early i k : nth_error ps i = Some k -> i < na -> b k = nth_error args i.
Proof using ND. intros E L. unfold b, gives. rewrite (nth_position _ _ _ ND E). destruct (nth_error args i) eqn:F; [reflexivity|]. apply nth_error_None in F. unfold na in L. lia. Qed.
Lemma b_late i k : nth_error ps i = Some k -> na <= i -> b k = dict_get k kw.
Proof using ND. intros E L. unfold b, gives. rewrite (nth_position _ _ _ ND E). replace (nth_error args i) with (@None val) by (symmetry; apply nth_error_None; exact L). reflexivity. Qed.
Lemma b_kw k : In k (map fst kw) -> b k = dict_get k kw.
Proof using ND VC. intro I. destruct (kw_late k I) as (i & P & L). apply (b_late i); [apply position_nth, P|exact L]. Qed.
Lemma b_simple k v : b k = Some v -> simple v.
Proof using SA SK.
  clear VC. unfold b, gives. destruct (position k ps) as [i|]; [|discriminate]. destruct (nth_error args i) as [w|] eqn:E; intro H; [injection H as <-; apply SA; eapply nth_error_In, E|]. apply dict_get_in in H. exact (SK _ _ H).
Qed.
Lemma A_nodup : NoDup A.
Proof using ND.
  clear VC. unfold A, arguments_alloc. rewrite <- (firstn_skipn (length args) ps) in ND. revert ND. generalize (firstn (length args) ps) (skipn (length args) ps). clear. intros l m. induction l as [|x l IH]; cbn [app]; intro N; [apply NoDup_filter, N|].
  inversion N as [|? ? N1 N2]; subst. constructor; [|apply IH, N2]. rewrite in_app_iff in *. intros [I|I]; apply N1; [left; exact I|]. apply filter_In in I. right. apply I.
Qed.
Lemma A_early i : i < na -> nth_error A i = nth_error ps i.
Proof using VC.
  intro L. unfold A, arguments_alloc. rewrite nth_error_app1 by (rewrite firstn_length; destruct VC as [H _]; unfold na in L; lia). apply nth_firstn, L.
Qed.
Lemma A_in k : In k A <-> b k <> None.
Proof using VC ND.
  unfold A, arguments_alloc. rewrite in_app_iff, filter_In. split.
  - intros [I|[I H]].
    + apply In_nth_error in I. destruct I as [i I]. assert (i < na) as L. { assert (i < length (firstn (length args) ps)) as Q by (apply nth_error_Some; congruence). rewrite firstn_length in Q. unfold na. lia. }
      rewrite nth_firstn in I by exact L. rewrite (b_early i k I L). intro E. apply nth_error_None in E. unfold na in L. lia.
    + apply has_key_in in H. rewrite (b_kw k H). unfold has_key in H. intro E. apply dict_get_key in H. destruct H as [v H]. congruence.
  - intro H. unfold b, gives in H. destruct (position k ps) as [i|] eqn:P; [|contradiction]. apply position_nth in P. destruct (nth_error args i) as [v|] eqn:E.
    + left. assert (i < length args) as L by (apply nth_error_Some; congruence). rewrite <- (nth_firstn ps (length args) i L) in P. eapply nth_error_In, P.
    + right. apply nth_error_None in E. split; [|unfold has_key; destruct (dict_get k kw); [reflexivity|contradiction]]. replace i with (length args + (i - length args)) in P by lia. rewrite <- nth_skipn in P. eapply nth_error_In, P.
Qed.
Lemma A_const (NG : no_gap ps args kw) k v i : b k = Some v -> isc v = true -> position k ps = Some i -> forall j, j <= i -> nth_error A j = nth_error ps j.
Proof using VC ND.
  intros B C P j L. destruct (Nat.lt_ge_cases j na) as [J|J]; [apply A_early, J|]. unfold A, arguments_alloc.
  assert (length (firstn (length args) ps) = na) as LF by (rewrite firstn_length; destruct VC as [H _]; unfold na; lia). rewrite nth_error_app2, LF by lia.
  rewrite (filter_prefix _ _ (i - na)); [|intros m x M E|lia].
  - rewrite nth_skipn. f_equal. unfold na in *. lia.
  - rewrite nth_skipn in E. apply has_key_in. rewrite (b_late i k (position_nth _ _ _ P)) in B by lia. destruct (Nat.eq_dec m (i - na)) as [->|NE].
    + replace (length args + (i - na)) with i in E by (unfold na in *; lia). rewrite (position_nth _ _ _ P) in E. injection E as <-. apply dict_get_key. eauto.
    + apply (NG k v i (length args + m) x); [apply dict_get_in, B|apply isc_constant, C|exact P|lia|unfold na in *; lia|exact E].
Qed.
(* the tensors in the order of the allocation *)
Lemma inputs_in_order (NO : names_ordered ps kw) : keras_inputs args kw = flat_map (fun k => ten (b k)) A.
Proof using VC ND SA SK.
  unfold keras_inputs, A, arguments_alloc. rewrite flat_map_app. f_equal.
  - assert (forall l n, (forall i k v, nth_error ps (n + i) = Some k -> nth_error l i = Some v -> b k = Some v) -> (forall v, In v l -> simple v) -> n + length l <= length ps ->
      flat_map tensors_in l = flat_map (fun k => ten (b k)) (firstn (length l) (skipn n ps))) as K.
    { clear SA. induction l as [|v l IH]; intros n H S1 L; [reflexivity|]. cbn [length firstn flat_map] in *. destruct (nth_error ps n) as [k|] eqn:E; [|apply nth_error_None in E; lia].
      assert (skipn n ps = k :: skipn (S n) ps) as ->. { clear - E. revert n E. induction ps as [|p q IH]; intros [|n] E; try discriminate; [cbn in E; injection E as ->; reflexivity|]. cbn. apply IH. exact E. }
      cbn [flat_map]. rewrite (H 0 k v) by (try rewrite Nat.add_0_r; try assumption; reflexivity). rewrite (tensors_simple v (S1 v (or_introl eq_refl))). f_equal.
      apply (IH (S n)); [|intros x I; apply S1; right; exact I|lia]. intros i k' v' E1 E2. apply (H (S i)); [replace (n + S i) with (S n + i) by lia; exact E1|exact E2]. }
    rewrite (K args 0); [reflexivity| |exact SA|apply na_le]. intros i k v E1 E2. cbn in E1. rewrite (b_early i k E1); [exact E2|]. apply nth_error_Some. unfold na. congruence.
  - set (late := filter (fun k => has_key k kw) (skipn (length args) ps)). set (get := fun k => match dict_get k kw with Some v => v | None => VO 0 end).
    assert (forall k, In k late -> dict_get k kw = Some (get k)) as G by (intros k I; apply filter_In in I; destruct I as [_ I]; unfold has_key in I; unfold get; destruct (dict_get k kw); [reflexivity|discriminate]).
    assert (NoDup late) as NL. { apply NoDup_filter. rewrite <- (firstn_skipn (length args) ps) in ND. clear -ND. induction (firstn (length args) ps) as [|x l IH]; [exact ND|]. inversion ND; subst. apply IH. assumption. }
    assert (flat_map (fun k => ten (b k)) late = flat_map (fun kv => tensors_in (snd kv)) (map (fun k => (k, get k)) late)) as ->.
    { assert (forall l, (forall k, In k l -> In k late) -> flat_map (fun k => ten (b k)) l = flat_map (fun kv => tensors_in (snd kv)) (map (fun k => (k, get k)) l)) as Q; [|apply Q; auto].
      induction l as [|k l IH]; intro H; [reflexivity|]. cbn [flat_map map snd]. rewrite IH by (intros; apply H; right; assumption). f_equal. pose proof (G k (H k (or_introl eq_refl))) as Gk. rewrite (b_kw k) by (apply dict_get_key; eauto). rewrite Gk.
      rewrite (tensors_simple (get k)) by (apply dict_get_in in Gk; exact (SK _ _ Gk)). destruct (get k); reflexivity. }
    assert (forall l : kwargs, (forall k v, In (k, v) l -> simple v) -> flat_map (fun kv => tensors_in (snd kv)) l = flat_map (fun kv => tensors_in (snd kv)) (filter (fun kv => is_tensor (snd kv)) l)) as FT.
    { induction l as [|[k v] l IH]; intro H; [reflexivity|]. cbn [flat_map filter snd]. rewrite IH by (intros k' v' I; apply (H k'); right; exact I). rewrite (tensors_simple v (H k v (or_introl eq_refl))). destruct v; reflexivity. }
    rewrite (FT (fold_right insert_key [] kw)) by (intros k v I; apply (Permutation_in _ (sort_key_perm kw)) in I; exact (SK _ _ I)).
    assert (forall k v, In (k, v) (map (fun k => (k, get k)) late) -> In (k, v) kw) as SUB by (intros k v I; apply in_map_iff in I; destruct I as (k' & E & I); injection E as <- <-; apply dict_get_in, G, I).
    rewrite (FT (map _ late)) by (intros k v I; exact (SK _ _ (SUB _ _ I))). f_equal. apply (FxProofs.sorted_unique fst).
    + apply filter_perm. rewrite sort_key_perm. apply NoDup_Permutation.
      * apply (NoDup_map_inv fst), kw_nodup.
      * apply (NoDup_map_inv fst). rewrite map_map. cbn. rewrite map_id. exact NL.
      * intros [k v]. split; [|apply SUB]. intro I. apply in_map_iff. exists k. pose proof (dict_in_get _ _ _ kw_nodup I) as Gk. assert (In k (map fst kw)) as KI by (apply dict_get_key; eauto).
        split; [unfold get; rewrite Gk; reflexivity|]. apply filter_In. split; [apply VC, KI|apply has_key_in, KI].
    + apply sorted_sub, sort_key_sorted.
    + apply (sorted_impl (fun a b => exists i j, position (fst a) ps = Some i /\ position (fst b) ps = Some j /\ i < j)).
      * intros [k1 v1] [k2 v2] I1 I2 (i & j & P1 & P2 & L). apply filter_In in I1, I2. destruct I1 as [I1 T1], I2 as [I2 T2]. cbn in *. destruct v1; try discriminate. destruct v2; try discriminate. eapply NO; [apply SUB, I1|apply SUB, I2|exact P1|exact P2|exact L].
      * apply sorted_sub, sorted_map. cbn [fst]. apply sorted_sub, sorted_skip, positions_sorted, ND.
Qed.

Lemma const_present : existsb id (map isc args) || existsb id (map (fun kv => isc (snd kv)) kw) = true -> nonempty A = true.
Proof using VC ND SA SK.
  intro H. assert (exists k, b k <> None) as [k B].
  { apply orb_true_iff in H. destruct H as [H|H]; apply existsb_exists in H; destruct H as (c & I & _).
    - destruct args as [|v r] eqn:EA; [destruct I|]. destruct VC as [L _]. destruct ps as [|p q] eqn:EP; [cbn in L; lia|]. exists p. unfold b, gives. cbn. rewrite Nat.eqb_refl. discriminate.
    - apply in_map_iff in I. destruct I as ([k v] & _ & I). exists k. assert (In k (map fst kw)) as KI by (apply in_map_iff; exists (k, v); split; [reflexivity|exact I]). rewrite (b_kw k KI). apply dict_get_key in KI. destruct KI as [w ->]. discriminate. }
  apply A_in in B. destruct A; [destruct B|reflexivity].
Qed.

(* the node read from a call with constants *)
Theorem read_with_constants list_fn : inputs_as_list list_fn args = false -> (exists v, (In v args \/ In v (map snd kw)) /\ constant v) ->
  exists n, read_function ps list_fn args kw = Ok n /\ f_args n = [] /\
    (forall i, dict_get i (f_weights n) = match nth_error ps i with Some k => match gives ps args kw k with Some v => if isc v then Some (arr v) else None | None => None end | None => None end) /\
    (forall k, dict_get k (f_kw n) = match gives ps args kw k with Some v => if isc v || is_tensor v then None else Some v | None => None end).
Proof using ND VC SA SK.
  intros NL (v0 & I0 & C0). unfold read_function. rewrite NL. unfold has_const.
  rewrite (kc_mapM is_const isc) by (intros x I; apply simple_const, SA, I). cbn [bind]. rewrite (kc_mapM (fun kv => is_const (snd kv)) (fun kv => isc (snd kv))) by (intros [k x] I; apply simple_const; exact (SK _ _ I)). cbn [bind].
  assert (existsb id (map isc args) || existsb id (map (fun kv => isc (snd kv)) kw) = true) as HC.
  { apply isc_constant in C0. apply orb_true_iff. destruct I0 as [I|I]; [left|right]; apply existsb_exists; exists true; split; try reflexivity.
    - apply in_map_iff. eauto.
    - apply in_map_iff in I. destruct I as ([k v] & E & I). cbn in E. subst v. apply in_map_iff. exists (k, v0). split; [exact C0|exact I]. }
  rewrite HC. fold A. pose proof (const_present HC) as NE.
  destruct (extract_args A A_nodup NE args 0 [] kw SA) as (ws1 & kw1 & E1 & X1 & X2 & X3 & X4 & X5).
  { cbn. unfold A, arguments_alloc. rewrite app_length, firstn_length. pose proof na_le. unfold na in *. lia. }
  cbn [Nat.add] in *. rewrite E1. cbn [bind fst snd].
  assert (forall k, dict_get k kw1 = match b k with Some v => if isc v then dict_get k kw else Some v | None => None end) as D1.
  { intro k. destruct (position k ps) as [i|] eqn:P.
    - apply position_nth in P. destruct (Nat.lt_ge_cases i na) as [L|L].
      + rewrite (b_early i k P L). destruct (nth_error args i) as [v|] eqn:Q; [|apply nth_error_None in Q; unfold na in L; lia]. apply (X3 i v k Q). rewrite A_early by exact L. exact P.
      + rewrite X4; [rewrite (b_late i k P L); destruct (dict_get k kw) as [v|]; [destruct (isc v)|]; reflexivity|]. intros j J Q. rewrite A_early in Q by exact J. assert (j = i); [|unfold na in L; lia]. apply (proj1 (NoDup_nth_error ps) ND); [apply nth_error_Some; congruence|congruence].
    - rewrite X4 by (intros j J Q; rewrite A_early in Q by exact J; apply nth_error_In in Q; apply position_none in P; contradiction). unfold b, gives. rewrite P. apply dict_get_none. intro I. destruct (kw_late k I) as (i & Q & _). congruence. }
  unfold kept_args. rewrite (kc_mapM _ (fun _ => false)).
  2: { intros [i v] I. cbn [fst snd]. apply (proj1 (enum_in args i v)) in I. unfold has_key. rewrite (X1 i v I). destruct (isc v) eqn:C; [reflexivity|]. cbn [dict_get orb]. destruct (is_tensor v) eqn:T; [reflexivity|]. rewrite NE.
       assert (i < na) as L by (apply nth_error_Some; congruence). rewrite A_early by exact L. destruct (nth_error ps i) as [k|] eqn:P; [|apply nth_error_None in P; pose proof na_le; lia].
       rewrite (X3 i v k I) by (rewrite A_early by exact L; exact P). rewrite C. reflexivity. }
  cbn [bind]. assert (map snd (filter fst (combine (map (fun _ : nat * val => false) (enumerate_from 0 args)) args)) = []) as ->.
  { generalize (enumerate_from 0 args). clear. intro e. revert args. induction e as [|p e IH]; intros [|x l]; try reflexivity. cbn. apply IH. }
  assert (NoDup (map fst kw1)) as N1 by (apply X5, kw_nodup).
  assert (forall k v, dict_get k kw1 = Some v -> b k = Some v) as D1'.
  { intros k v E. rewrite D1 in E. destruct (b k) as [w|] eqn:B; [|discriminate]. destruct (isc w); [|congruence]. rewrite (b_kw k) in B by (apply dict_get_key; eauto). congruence. }
  unfold extract_kw. destruct (extract_keywords ps ND kw1 ws1 N1) as (ws2 & E2 & Y).
  { intros k v I. apply (dict_in_get _ _ _ N1) in I. apply D1' in I. split; [exact (b_simple _ _ I)|]. unfold b, gives in I. destruct (position k ps) as [i|] eqn:P; [|discriminate]. apply position_nth in P. eapply nth_error_In, P. }
  rewrite E2. cbn [bind fst snd].
  assert (forall i, dict_get i ws2 = match nth_error ps i with Some k => match b k with Some v => if isc v then Some (arr v) else None | None => None end | None => None end) as W.
  { intro i. rewrite Y. destruct (nth_error ps i) as [k|] eqn:P.
    - rewrite D1. destruct (Nat.lt_ge_cases i na) as [L|L].
      + rewrite (b_early i k P L). destruct (nth_error args i) as [v|] eqn:Q; [|apply nth_error_None in Q; unfold na in L; lia]. rewrite (X1 i v Q). destruct (isc v) eqn:C; [|rewrite C; reflexivity].
        rewrite dict_get_none; [reflexivity|]. intro I. destruct (kw_late k I) as (j & PJ & LJ). rewrite (nth_position _ _ _ ND P) in PJ. injection PJ as <-. lia.
      + rewrite (b_late i k P L). rewrite X2 by (right; exact L). destruct (dict_get k kw) as [v|] eqn:Q; [|reflexivity]. destruct (isc v) eqn:C; rewrite C; reflexivity.
    - rewrite X2; [reflexivity|]. right. apply nth_error_None in P. pose proof na_le. unfold na in *. lia. }
  set (kw2 := filter _ kw1).
  assert (forall k, dict_get k kw2 = match b k with Some v => if isc v || is_tensor v then None else Some v | None => None end) as K.
  { intro k. unfold kw2. rewrite (dict_get_filter _ _ _ N1), D1. cbn [fst snd]. destruct (b k) as [v|] eqn:B; [|reflexivity].
    assert (exists i, position k ps = Some i) as [i P] by (unfold b, gives in B; destruct (position k ps); [eauto|discriminate]). rewrite P. unfold has_key. rewrite W, (position_nth _ _ _ P), B. destruct (isc v) eqn:C.
    - destruct (dict_get k kw) as [w|] eqn:Q; [|reflexivity]. rewrite (b_kw k) in B by (apply dict_get_key; eauto). rewrite Q in B. injection B as ->. reflexivity.
    - destruct (is_tensor v); reflexivity. }
  exists (FNode ws2 [] kw2 A false). split; [reflexivity|]. split; [reflexivity|]. split; [exact W|exact K].
Qed.

Theorem with_constants list_fn : inputs_as_list list_fn args = false -> (exists v, (In v args \/ In v (map snd kw)) /\ constant v) ->
  no_gap ps args kw -> names_ordered ps kw -> keras_inputs args kw <> [] ->
  exists n args' kw', read_function ps list_fn args kw = Ok n /\ build_function n (keras_inputs args kw) = Ok (args', kw') /\ same_call ps args kw args' kw'.
Proof using ND VC SA SK.
  intros NL (v0 & I0 & C0) NG NO NT. unfold read_function. rewrite NL. unfold has_const.
  rewrite (kc_mapM is_const isc) by (intros x I; apply simple_const, SA, I). cbn [bind]. rewrite (kc_mapM (fun kv => is_const (snd kv)) (fun kv => isc (snd kv))) by (intros [k x] I; apply simple_const; exact (SK _ _ I)). cbn [bind].
  assert (existsb id (map isc args) || existsb id (map (fun kv => isc (snd kv)) kw) = true) as HC.
  { apply isc_constant in C0. apply orb_true_iff. destruct I0 as [I|I]; [left|right]; apply existsb_exists; exists true; split; try reflexivity.
    - apply in_map_iff. eauto.
    - apply in_map_iff in I. destruct I as ([k v] & E & I). cbn in E. subst v. apply in_map_iff. exists (k, v0). split; [exact C0|exact I]. }
  rewrite HC. fold A. pose proof (const_present HC) as NE.
  destruct (extract_args A A_nodup NE args 0 [] kw SA) as (ws1 & kw1 & E1 & X1 & X2 & X3 & X4 & X5).
  { cbn. unfold A, arguments_alloc. rewrite app_length, firstn_length. pose proof na_le. unfold na in *. lia. }
  cbn [Nat.add] in *. rewrite E1. cbn [bind fst snd].
  assert (forall k, dict_get k kw1 = match b k with Some v => if isc v then dict_get k kw else Some v | None => None end) as D1.
  { intro k. destruct (position k ps) as [i|] eqn:P.
    - apply position_nth in P. destruct (Nat.lt_ge_cases i na) as [L|L].
      + rewrite (b_early i k P L). destruct (nth_error args i) as [v|] eqn:Q; [|apply nth_error_None in Q; unfold na in L; lia]. apply (X3 i v k Q). rewrite A_early by exact L. exact P.
      + rewrite X4; [rewrite (b_late i k P L); destruct (dict_get k kw) as [v|]; [destruct (isc v)|]; reflexivity|]. intros j J Q. rewrite A_early in Q by exact J. assert (j = i); [|unfold na in L; lia]. apply (proj1 (NoDup_nth_error ps) ND); [apply nth_error_Some; congruence|congruence].
    - rewrite X4 by (intros j J Q; rewrite A_early in Q by exact J; apply nth_error_In in Q; apply position_none in P; contradiction). unfold b, gives. rewrite P. apply dict_get_none. intro I. destruct (kw_late k I) as (i & Q & _). congruence. }
  unfold kept_args. rewrite (kc_mapM _ (fun _ => false)).
  2: { intros [i v] I. cbn [fst snd]. apply (proj1 (enum_in args i v)) in I. unfold has_key. rewrite (X1 i v I). destruct (isc v) eqn:C; [reflexivity|]. cbn [dict_get orb]. destruct (is_tensor v) eqn:T; [reflexivity|]. rewrite NE.
       assert (i < na) as L by (apply nth_error_Some; congruence). rewrite A_early by exact L. destruct (nth_error ps i) as [k|] eqn:P; [|apply nth_error_None in P; pose proof na_le; lia].
       rewrite (X3 i v k I) by (rewrite A_early by exact L; exact P). rewrite C. reflexivity. }
  cbn [bind]. assert (map snd (filter fst (combine (map (fun _ : nat * val => false) (enumerate_from 0 args)) args)) = []) as ->.
  { generalize (enumerate_from 0 args). clear. intro e. revert args. induction e as [|p e IH]; intros [|x l]; try reflexivity. cbn. apply IH. }
  assert (NoDup (map fst kw1)) as N1 by (apply X5, kw_nodup).
  assert (forall k v, dict_get k kw1 = Some v -> b k = Some v) as D1'.
  { intros k v E. rewrite D1 in E. destruct (b k) as [w|] eqn:B; [|discriminate]. destruct (isc w); [|congruence]. rewrite (b_kw k) in B by (apply dict_get_key; eauto). congruence. }
  unfold extract_kw. destruct (extract_keywords ps ND kw1 ws1 N1) as (ws2 & E2 & Y).
  { intros k v I. apply (dict_in_get _ _ _ N1) in I. apply D1' in I. split; [exact (b_simple _ _ I)|]. unfold b, gives in I. destruct (position k ps) as [i|] eqn:P; [|discriminate]. apply position_nth in P. eapply nth_error_In, P. }
  rewrite E2. cbn [bind fst snd].
  assert (forall i, dict_get i ws2 = match nth_error ps i with Some k => match b k with Some v => if isc v then Some (arr v) else None | None => None end | None => None end) as W.
  { intro i. rewrite Y. destruct (nth_error ps i) as [k|] eqn:P.
    - rewrite D1. destruct (Nat.lt_ge_cases i na) as [L|L].
      + rewrite (b_early i k P L). destruct (nth_error args i) as [v|] eqn:Q; [|apply nth_error_None in Q; unfold na in L; lia]. rewrite (X1 i v Q). destruct (isc v) eqn:C; [|rewrite C; reflexivity].
        rewrite dict_get_none; [reflexivity|]. intro I. destruct (kw_late k I) as (j & PJ & LJ). rewrite (nth_position _ _ _ ND P) in PJ. injection PJ as <-. lia.
      + rewrite (b_late i k P L). rewrite X2 by (right; exact L). destruct (dict_get k kw) as [v|] eqn:Q; [|reflexivity]. destruct (isc v) eqn:C; rewrite C; reflexivity.
    - rewrite X2; [reflexivity|]. right. apply nth_error_None in P. pose proof na_le. unfold na in *. lia. }
  set (kw2 := filter _ kw1).
  assert (forall k, dict_get k kw2 = match b k with Some v => if isc v || is_tensor v then None else Some v | None => None end) as K.
  { intro k. unfold kw2. rewrite (dict_get_filter _ _ _ N1), D1. cbn [fst snd]. destruct (b k) as [v|] eqn:B; [|reflexivity].
    assert (exists i, position k ps = Some i) as [i P] by (unfold b, gives in B; destruct (position k ps); [eauto|discriminate]). rewrite P. unfold has_key. rewrite W, (position_nth _ _ _ P), B. destruct (isc v) eqn:C.
    - destruct (dict_get k kw) as [w|] eqn:Q; [|reflexivity]. rewrite (b_kw k) in B by (apply dict_get_key; eauto). rewrite Q in B. injection B as ->. reflexivity.
    - destruct (is_tensor v); reflexivity. }
  destruct (alloc_steps ws2 b A 0 kw2 A_nodup (fun k I => proj1 (A_in k) I) (fun k _ => K k)) as (kw' & E3 & R1 & R2 & R3).
  { intros pos k v EA B. cbn [Nat.add]. assert (exists i, position k ps = Some i) as [i P] by (unfold b, gives in B; destruct (position k ps); [eauto|discriminate]). split; intro C.
    - assert (nth_error A i = Some k) as Q by (rewrite (A_const NG k v i B C P i (le_n _)); apply position_nth, P). assert (pos = i) as -> by (apply (proj1 (NoDup_nth_error A) A_nodup); [apply nth_error_Some; congruence|congruence]).
      rewrite W, (position_nth _ _ _ P), B, C. reflexivity.
    - rewrite W. destruct (nth_error ps pos) as [k'|] eqn:P'; [|reflexivity]. destruct (b k') as [v'|] eqn:B'; [|reflexivity]. destruct (isc v') eqn:C'; [|reflexivity]. exfalso.
      pose proof (A_const NG k' v' pos B' C' (nth_position _ _ _ ND P') pos (le_n _)) as Q. rewrite P', EA in Q. injection Q as ->. rewrite B in B'. injection B' as ->. apply const_not_tensor in C'. congruence. }
  exists (FNode ws2 [] kw2 A false), [], kw'. split; [reflexivity|]. unfold build_function. cbn [f_aslist f_weights f_allocs f_kw f_args].
  assert (nonempty (keras_inputs args kw) = true) as -> by (destruct (keras_inputs args kw); [contradiction|reflexivity]). cbn [negb].
  rewrite (inputs_in_order NO). match goal with |- bind ?Y _ = _ /\ _ => replace Y with (Ok (kw', @nil val)) by (symmetry; exact E3) end. cbn [bind fst snd app]. split; [reflexivity|].
  assert (NoDup (map fst kw')) as N3 by (apply R3, filter_keys, N1).
  assert (forall k, In k (map fst kw') -> In k A) as IA.
  { intros k I. destruct (in_dec Nat.eq_dec k A) as [J|J]; [exact J|]. exfalso. apply dict_get_key in I. destruct I as [v I]. rewrite (R2 k J), K in I. destruct (b k) as [w|] eqn:B; [|discriminate]. apply J, A_in. congruence. }
  split.
  - split; [cbn; lia|]. split; [exact N3|]. cbn [length skipn]. intros k I. apply IA, A_in in I. unfold b, gives in I. destruct (position k ps) as [i|] eqn:P; [|contradiction]. apply position_nth in P. eapply nth_error_In, P.
  - intro k. fold (b k). unfold gives at 1. destruct (position k ps) as [i|] eqn:P.
    + replace (nth_error [] i) with (@None val) by (destruct i; reflexivity). destruct (in_dec Nat.eq_dec k A) as [J|J]; [apply R1, J|]. rewrite (R2 k J), K. destruct (b k) as [w|] eqn:B; [|reflexivity]. exfalso. apply J, A_in. congruence.
    + unfold b, gives. rewrite P. reflexivity.
Qed.
End Call.
