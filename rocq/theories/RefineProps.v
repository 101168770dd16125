(* RefineProps.v -- C17: what the greedy refinement of a mixed-precision solution may change. *)
From Verif Require Import Base HessianModel HessianProofs MPModel MPSpec MPProofs RULemmas RUProps MPSearchModel MPSearchSpec MPSearchProofs MPSearchLemmas MPSearchProps RefineModel SearchProofs.
From Coq Require Import Lqa.
Local Open Scope nat_scope.

(* ---- specification ---- *)
(* [d] keeps or raises every bit-width of [c]; what is not restricted keeps its bit-width *)
Definition raises (ar wr : bool) (c d : cand) : Prop :=
  (if ar then (a_bits (c_act c) <= a_bits (c_act d))%Z else a_bits (c_act c) = a_bits (c_act d)) /\
  forall a x, dict_get a (c_w c) = Some x -> exists y, dict_get a (c_w d) = Some y /\
    (if wr then (w_bits x <= w_bits y)%Z else w_bits x = w_bits y).
(* the same bit-widths on the attributes of [c] *)
Definition same_bits (c d : cand) : Prop :=
  a_bits (c_act c) = a_bits (c_act d) /\ forall a x, dict_get a (c_w c) = Some x -> exists y, dict_get a (c_w d) = Some y /\ w_bits x = w_bits y.
Definition act_limited (t : ru) : bool := restricted (ru_a t) || restricted (ru_t t).
Definition weight_limited (t : ru) : bool := restricted (ru_w t) || restricted (ru_t t).
(* every node's new candidate raises its old one *)
Definition refines (ar wr : bool) (conf : list node) (s s' : mpcfg) : Prop :=
  assignment conf s' /\ forall n i j c d, In n conf -> dict_get (n_name n) s = Some i -> dict_get (n_name n) s' = Some j ->
    nth_error (n_cands n) i = Some c -> nth_error (n_cands n) j = Some d -> i = j \/ raises ar wr c d.
(* [s'] differs from [s] by raising one node *)
Definition upgrade (ar wr : bool) (conf : list node) (s : mpcfg) (n : node) (j : nat) : Prop :=
  In n conf /\ exists i c d, dict_get (n_name n) s = Some i /\ nth_error (n_cands n) i = Some c /\ nth_error (n_cands n) j = Some d /\
    raises ar wr c d /\ ~ same_bits c d.

(* ---- lemmas ---- *)
Lemma allM_true {A} (f : A -> result bool) l : allM f l = Ok true <-> forall x, In x l -> f x = Ok true.
Proof.
  induction l as [|x l IH]; cbn [allM]; [split; [intros _ y []|reflexivity]|]. destruct (f x) as [[|]|] eqn:E; cbn [bind].
  - rewrite IH. split; [intros H y [<-|Hy]; auto|intros H y Hy; apply H; right; exact Hy].
  - split; [discriminate|]. intro H. rewrite (H x (or_introl eq_refl)) in E. discriminate.
  - split; [discriminate|]. intro H. rewrite (H x (or_introl eq_refl)) in E. discriminate.
Qed.
Lemma in_attrs c a : In a (attrs c) <-> exists x, dict_get a (c_w c) = Some x.
Proof. apply dict_get_key. Qed.
Lemma cmp_true (op : Z -> Z -> bool) cur c : allM (fun a => let! x := wn c a in let! y := wn cur a in Ok (op x y)) (attrs cur) = Ok true <->
  forall a x, dict_get a (c_w cur) = Some x -> exists y, dict_get a (c_w c) = Some y /\ op (w_bits y) (w_bits x) = true.
Proof.
  rewrite allM_true. split.
  - intros H a x Hx. assert (Ha : In a (attrs cur)) by (apply in_attrs; eauto). specialize (H a Ha). unfold wn in H. rewrite Hx in H.
    destruct (dict_get a (c_w c)) as [y|]; [|discriminate]. cbn [bind] in H. exists y. split; [reflexivity|congruence].
  - intros H a Ha. apply in_attrs in Ha. destruct Ha as [x Hx]. destruct (H a x Hx) as (y & Hy & Ho). unfold wn. rewrite Hx, Hy. cbn [bind]. congruence.
Qed.
Lemma valid_spec ar wr cur c : valid_candidate ar wr cur c = Ok true <-> raises ar wr cur c /\ ~ same_bits cur c /\
   exists b, (if Z.eqb (a_bits (c_act c)) (a_bits (c_act cur)) then allM (fun a => let! x := wn c a in let! y := wn cur a in Ok (Z.eqb x y)) (attrs cur) else Ok false) = Ok b.
Proof.
  unfold valid_candidate. set (same := if Z.eqb _ _ then _ else _).
  assert (SB : same = Ok true <-> same_bits cur c).
  { unfold same, same_bits. destruct (Z.eqb_spec (a_bits (c_act c)) (a_bits (c_act cur))) as [E|E].
    - rewrite (cmp_true Z.eqb). split.
      + intro H. split; [auto|]. intros a x Hx. destruct (H a x Hx) as (y & Hy & Ho). apply Z.eqb_eq in Ho. eauto.
      + intros [_ H] a x Hx. destruct (H a x Hx) as (y & Hy & Ho). exists y. split; [exact Hy|]. apply Z.eqb_eq. auto.
    - split; [discriminate|]. intros [H _]. congruence. }
  assert (RW : allM (fun a => let! x := wn c a in let! y := wn cur a in Ok ((if wr then Z.geb else Z.eqb) x y)) (attrs cur) = Ok true <->
     forall a x, dict_get a (c_w cur) = Some x -> exists y, dict_get a (c_w c) = Some y /\ (if wr then (w_bits x <= w_bits y)%Z else w_bits x = w_bits y)).
  { rewrite (cmp_true (if wr then Z.geb else Z.eqb)). split; intros H a x Hx; destruct (H a x Hx) as (y & Hy & Ho); exists y; (split; [exact Hy|]); destruct wr.
    - rewrite Z.geb_leb in Ho. apply Z.leb_le in Ho. exact Ho.
    - apply Z.eqb_eq in Ho. auto.
    - rewrite Z.geb_leb. apply Z.leb_le. exact Ho.
    - apply Z.eqb_eq. auto. }
  assert (RA : (if ar then Z.geb (a_bits (c_act c)) (a_bits (c_act cur)) else Z.eqb (a_bits (c_act c)) (a_bits (c_act cur))) = true <->
     (if ar then (a_bits (c_act cur) <= a_bits (c_act c))%Z else a_bits (c_act cur) = a_bits (c_act c))).
  { destruct ar; [rewrite Z.geb_leb; apply Z.leb_le|rewrite Z.eqb_eq; split; auto]. }
  destruct same as [[|]|e] eqn:Es; cbn [bind].
  - split; [discriminate|]. intros (_ & N & _). exfalso. apply N. apply SB. reflexivity.
  - split.
    + intro H. match type of H with bind ?x _ = _ => destruct x as [b|] eqn:Ew; [|discriminate] end. cbn [bind] in H. assert (Hb : b && (if ar then Z.geb (a_bits (c_act c)) (a_bits (c_act cur)) else Z.eqb (a_bits (c_act c)) (a_bits (c_act cur))) = true) by congruence.
      apply andb_true_iff in Hb. destruct Hb as [-> Ha]. split; [split; [apply RA; exact Ha|apply RW; reflexivity]|]. split; [|eauto]. intro X. apply SB in X. discriminate.
    + intros ([Ha Hw] & _ & _). apply RW in Hw. match goal with |- bind ?x _ = _ => assert (Hw' : x = Ok true) by exact Hw end. rewrite Hw'. cbn [bind]. rewrite (proj2 RA Ha). reflexivity.
  - split; [discriminate|]. intros (_ & _ & b & Hb). discriminate.
Qed.
Lemma raises_trans ar wr a b c : raises ar wr a b -> raises ar wr b c -> raises ar wr a c.
Proof.
  intros [A1 A2] [B1 B2]. split; [destruct ar; [lia|congruence]|]. intros k x Hx. destruct (A2 k x Hx) as (y & Hy & L1). destruct (B2 k y Hy) as (z & Hz & L2). exists z. split; [exact Hz|].
  destruct wr; [lia|congruence].
Qed.
Lemma same_of_raises ar wr a b : raises ar wr a b -> raises ar wr b a -> same_bits a b.
Proof.
  intros [A1 A2] [B1 B2]. split; [destruct ar; [lia|congruence]|]. intros k x Hx. destruct (A2 k x Hx) as (y & Hy & L1). exists y. split; [exact Hy|]. destruct (B2 k y Hy) as (z & Hz & L2).
  assert (z = x) by congruence. subst z. destruct wr; [lia|congruence].
Qed.
Lemma raises_strict ar wr a b c : raises ar wr a b -> ~ same_bits a b -> raises ar wr b c -> ~ same_bits a c.
Proof.
  intros [A1 A2] N [B1 B2] [S1 S2]. apply N. split; [destruct ar; [lia|congruence]|].
  intros k x Hx. destruct (A2 k x Hx) as (y & Hy & L1). exists y. split; [exact Hy|]. destruct (B2 k y Hy) as (z & Hz & L2). destruct (S2 k x Hx) as (z' & Hz' & L3).
  assert (z' = z) by congruence. subst z'. destruct wr; [lia|congruence].
Qed.
Lemma least_spec {A} (l : list (A * ru)) b : least l = Some b -> In b l.
Proof.
  destruct l as [|x r]; [discriminate|]. cbn [least]. intro H. inversion H. clear H H1. revert x. induction r as [|y r IH]; intro x; cbn [fold_left]; [left; reflexivity|].
  destruct (key_lt (snd y) (snd x)); [right; apply IH|]. destruct (IH x) as [E|E]; [left; exact E|right; right; exact E].
Qed.
Lemma least_none {A} (l : list (A * ru)) : least l = None -> l = [].
Proof. destruct l; [reflexivity|discriminate]. Qed.
Lemma filterM_in {A} (f : A -> result bool) l ys x : filterM f l = Ok ys -> (In x ys <-> In x l /\ f x = Ok true).
Proof.
  intro H. rewrite (filterM_pure _ _ _ H), filter_In. split; intros [A1 A2]; split; auto.
  - destruct (filterM_ok _ _ _ x H A1) as [b Hb]. unfold okb in A2. rewrite Hb in *. destruct b; [reflexivity|discriminate].
  - unfold okb. rewrite A2. reflexivity.
Qed.

(* ---- the order of the sort key ---- *)
Definition key_le (r s : ru) : Prop := key_lt s r = false.
Definition oeq (x y : option Q) : Prop := match x, y with Some a, Some b => (a == b)%Q | None, None => True | _, _ => False end.
Lemma olt_total x y : olt x y = false -> olt y x = false -> oeq x y.
Proof.
  destruct x as [a|], y as [b|]; cbn; try discriminate; auto. rewrite !negb_false_iff, !Qle_bool_iff. intros. apply Qle_antisym; assumption.
Qed.
Lemma olt_spec x y : olt x y = true <-> match x, y with Some a, Some b => (a < b)%Q | Some _, None => True | None, _ => False end.
Proof.
  destruct x as [a|], y as [b|]; cbn; [|tauto|split; [discriminate|tauto]|split; [discriminate|tauto]]. rewrite negb_true_iff. split.
  - intro H. apply Qnot_le_lt. intro X. apply Qle_bool_iff in X. congruence.
  - intro H. destruct (Qle_bool b a) eqn:E; [|reflexivity]. apply Qle_bool_iff in E. exfalso. apply (Qlt_not_le _ _ H E).
Qed.
Lemma olt_false x y : olt x y = false <-> match x, y with Some a, Some b => (b <= a)%Q | Some _, None => False | None, _ => True end.
Proof. destruct x as [a|], y as [b|]; cbn; [|split; [discriminate|tauto]|tauto|tauto]. rewrite negb_false_iff. apply Qle_bool_iff. Qed.
Lemma olt_trans_neg x y z : olt y x = false -> olt z y = false -> olt z x = false.
Proof. rewrite !olt_false. destruct x, y, z; try tauto. intros; eapply Qle_trans; eassumption. Qed.
Lemma olt_asym x y : olt x y = true -> olt y x = false.
Proof. rewrite olt_spec, olt_false. destruct x, y; try tauto. intros; apply Qlt_le_weak; assumption. Qed.
Lemma olt_le_lt x y z : olt x y = true -> olt z y = false -> olt x z = true.
Proof. rewrite !olt_spec, !olt_false. destruct x, y, z; try tauto. intros; eapply Qlt_le_trans; eassumption. Qed.
Lemma key_le_trans r s t : key_le r s -> key_le s t -> key_le r t.
Proof.
  unfold key_le, key_lt. 
  destruct (olt (ru_t s) (ru_t r)) eqn:A1; [discriminate|]. destruct (olt (ru_t t) (ru_t s)) eqn:B1; [intros; discriminate|].
  rewrite (olt_trans_neg _ _ _ A1 B1).
  destruct (olt (ru_t r) (ru_t s)) eqn:A2; destruct (olt (ru_t s) (ru_t t)) eqn:B2; intros.
  - rewrite (olt_le_lt _ _ _ A2 (olt_asym _ _ B2)) || idtac. destruct (olt (ru_t r) (ru_t t)) eqn:C; [reflexivity|]. exfalso. apply olt_spec in A2, B2. apply olt_false in C. destruct (ru_t r), (ru_t s), (ru_t t); try tauto. lra.
  - destruct (olt (ru_t r) (ru_t t)) eqn:C; [reflexivity|]. exfalso. apply olt_spec in A2. apply olt_false in B1, B2, C. destruct (ru_t r), (ru_t s), (ru_t t); try tauto. lra.
  - destruct (olt (ru_t r) (ru_t t)) eqn:C; [reflexivity|]. exfalso. apply olt_spec in B2. apply olt_false in A1, A2, C. destruct (ru_t r), (ru_t s), (ru_t t); try tauto. lra.
  - destruct (olt (ru_t r) (ru_t t)) eqn:C; [reflexivity|]. revert H H0.
    destruct (olt (ru_w s) (ru_w r)) eqn:D1; [discriminate|]. destruct (olt (ru_w t) (ru_w s)) eqn:E1; [intros; discriminate|]. rewrite (olt_trans_neg _ _ _ D1 E1).
    destruct (olt (ru_w r) (ru_w s)) eqn:D2; destruct (olt (ru_w s) (ru_w t)) eqn:E2; intros.
    + destruct (olt (ru_w r) (ru_w t)) eqn:G; [reflexivity|]. exfalso. apply olt_spec in D2, E2. apply olt_false in G. destruct (ru_w r), (ru_w s), (ru_w t); try tauto. lra.
    + destruct (olt (ru_w r) (ru_w t)) eqn:G; [reflexivity|]. exfalso. apply olt_spec in D2. apply olt_false in E1, E2, G. destruct (ru_w r), (ru_w s), (ru_w t); try tauto. lra.
    + destruct (olt (ru_w r) (ru_w t)) eqn:G; [reflexivity|]. exfalso. apply olt_spec in E2. apply olt_false in D1, D2, G. destruct (ru_w r), (ru_w s), (ru_w t); try tauto. lra.
    + destruct (olt (ru_w r) (ru_w t)) eqn:G; [reflexivity|]. eapply olt_trans_neg; eassumption.
Qed.
Lemma olt_irrefl x : olt x x = false.
Proof. apply olt_false. destruct x; [apply Qle_refl|exact I]. Qed.
Lemma key_le_refl r : key_le r r.
Proof. unfold key_le, key_lt. rewrite !olt_irrefl. reflexivity. Qed.
Lemma key_total r s : key_lt r s = true -> key_le r s.
Proof.
  unfold key_le, key_lt. destruct (olt (ru_t r) (ru_t s)) eqn:A; [rewrite (olt_asym _ _ A); reflexivity|]. destruct (olt (ru_t s) (ru_t r)) eqn:B; [discriminate|].
  destruct (olt (ru_w r) (ru_w s)) eqn:C; [rewrite (olt_asym _ _ C); reflexivity|]. destruct (olt (ru_w s) (ru_w r)) eqn:D; [discriminate|]. apply olt_asym.
Qed.
Lemma least_min {A} (l : list (A * ru)) b : least l = Some b -> forall y, In y l -> key_le (snd b) (snd y).
Proof.
  destruct l as [|x r]; [discriminate|]. cbn [least]. intro H. inversion H. clear H H1. revert x. induction r as [|z r IH]; intros x y Hy; cbn [fold_left].
  - destruct Hy as [<-|[]]. apply key_le_refl.
  - destruct (key_lt (snd z) (snd x)) eqn:E.
    + destruct Hy as [<-|Hy]; [|apply IH; exact Hy]. eapply key_le_trans; [apply IH; left; reflexivity|apply key_total; exact E].
    + destruct Hy as [<-|[<-|Hy]]; [apply IH; left; reflexivity| |apply IH; right; exact Hy]. eapply key_le_trans; [apply IH; left; reflexivity|exact E].
Qed.

Lemma valid_candidates_in ar wr n i vs c : nth_error (n_cands n) i = Some c -> valid_candidates ar wr n i = Ok vs ->
  forall j, In j vs <-> exists d, nth_error (n_cands n) j = Some d /\ raises ar wr c d /\ ~ same_bits c d.
Proof.
  intros Hc H j. unfold valid_candidates in H. rewrite Hc in H. rewrite (filterM_in _ _ _ j H). cbn beta. split.
  - intros [Hj Hv]. destruct (nth_error (n_cands n) j) as [d|]; [|discriminate]. exists d. split; [reflexivity|]. apply valid_spec in Hv. tauto.
  - intros (d & Hd & R & N). assert (L : j < length (n_cands n)) by (apply nth_error_Some; congruence). split; [apply in_seq; lia|]. rewrite Hd.
    assert (Hs : In j (seq 0 (length (n_cands n)))) by (apply in_seq; lia). destruct (filterM_ok _ _ _ j H Hs) as [b Hb]. cbn beta in Hb. rewrite Hd in Hb.
    apply valid_spec. split; [exact R|]. split; [exact N|]. unfold valid_candidate in Hb.
    match type of Hb with bind ?x _ = _ => destruct x as [b'|]; [|discriminate] end. eauto.
Qed.

Section Props.
Variables (g : graph) (target : ru).
Hypothesis NB : ru_b target = None.
Let AR := act_limited target.
Let WR := weight_limited target.
Lemma ar_eq : restricted (ru_a target) || restricted (ru_t target) || restricted (ru_b target) = AR.
Proof. rewrite NB. cbn. apply orb_false_r. Qed.
Lemma wr_eq : restricted (ru_w target) || restricted (ru_t target) || restricted (ru_b target) = WR.
Proof. rewrite NB. cbn. apply orb_false_r. Qed.

Lemma upgrade_some conf sol n k j r : In n conf -> assignment conf sol -> (forall m p, In m conf -> In p sol -> True) ->
  (forall i, dict_get (n_name n) sol = Some i -> i < length (n_cands n)) ->
  node_upgrade g target sol n = Ok (Some (k, j, r)) ->
  k = n_name n /\ upgrade AR WR conf sol n j /\ ru_for_config g (restricted_targets target) (dict_set (n_name n) j sol) = Ok r /\ is_satisfied_by target r = true /\
  (forall j' r', upgrade AR WR conf sol n j' -> ru_for_config g (restricted_targets target) (dict_set (n_name n) j' sol) = Ok r' -> is_satisfied_by target r' = true -> key_le r r').
Proof.
  intros Hn HA _ HV H. unfold node_upgrade in H. destruct (dict_get (n_name n) sol) as [i|] eqn:Ei; [|discriminate].
  destruct (find_max_candidate n) as [mx|]; [|discriminate]. cbn [bind] in H. destruct (Nat.eqb i mx); [discriminate|]. rewrite ar_eq, wr_eq in H.
  destruct (valid_candidates AR WR n i) as [vs|] eqn:Ev; [|discriminate]. cbn [bind] in H. destruct (mapM _ vs) as [rus|] eqn:Er; [|discriminate]. cbn [bind] in H.
  destruct (least _) as [[j0 r0]|] eqn:El; [|discriminate]. assert (k = n_name n) by congruence. assert (j0 = j) by congruence. assert (r0 = r) by congruence. subst. clear H.
  assert (Hc : exists c, nth_error (n_cands n) i = Some c). { destruct (nth_error (n_cands n) i) eqn:E; [eauto|]. apply nth_error_None in E. specialize (HV i eq_refl). lia. }
  destruct Hc as [c Hc]. pose proof (valid_candidates_in AR WR n i vs c Hc Ev) as VI. apply mapM_Forall2 in Er.
  pose proof (least_spec _ _ El) as Hin. apply filter_In in Hin. destruct Hin as [Hin Hsat]. cbn [snd] in Hsat.
  destruct (Forall2_in_r _ _ _ _ Er Hin) as (j1 & Hj1 & E1). cbn beta in E1.
  destruct (ru_for_config g (restricted_targets target) (dict_set (n_name n) j1 sol)) as [r1|] eqn:Er1; [|discriminate]. cbn [bind] in E1.
  assert (j1 = j) by congruence. assert (r1 = r) by congruence. subst j1 r1.
  split; [reflexivity|]. split; [|split; [exact Er1|split; [exact Hsat|]]].
  - apply VI in Hj1. destruct Hj1 as (d & Hd & R & N). split; [exact Hn|]. exists i, c, d. auto.
  - intros j' r' (_ & i' & c' & d' & Hi' & Hc' & Hd' & R' & N') Hr' Hs'. assert (i' = i) by congruence. subst i'. assert (c' = c) by congruence. subst c'.
    assert (Hj' : In j' vs) by (apply VI; eauto). destruct (Forall2_in_l _ _ _ _ Er Hj') as (p & Hp & Ep). cbn beta in Ep. rewrite Hr' in Ep. cbn [bind] in Ep.
    assert (p = (j', r')) by congruence. subst p. apply (least_min _ _ El (j', r')). apply filter_In. auto.
Qed.

(* at the largest candidate there is nothing to raise *)
Lemma find_max_spec n i : find_max_candidate n = Ok i ->
  exists c, nth_error (n_cands n) i = Some c /\ forall d, In d (n_cands n) -> forall p, In p (combine (aw_nbits d) (aw_nbits c)) -> (fst p <= snd p)%Z.
Proof.
  unfold find_max_candidate. destruct (map aw_nbits (n_cands n)) as [|x r] eqn:E; [discriminate|].
  set (m := fold_left _ r x). destruct (indices_where (fun y => zlist_eqb m y) (x :: r)) as [|j [|? ?]] eqn:Ei; try discriminate.
  destruct (any_above m (x :: r)) eqn:Eb; [discriminate|]. intro H. assert (j = i) by congruence. subst j.
  destruct (indices_where_in (fun y => zlist_eqb m y) (x :: r) i) as (y & Ey & Em); [rewrite Ei; left; reflexivity|]. apply zlist_eqb_eq in Em.
  rewrite <- E in Ey. rewrite nth_error_map in Ey. destruct (nth_error (n_cands n) i) as [c|]; [|discriminate]. exists c. split; [reflexivity|].
  cbn in Ey. inversion Ey. intros d Hd p Hp. rewrite <- E in Eb. unfold any_above in Eb.
  destruct (Z.ltb (snd p) (fst p)) eqn:El; [|apply Z.ltb_ge in El; exact El]. exfalso.
  assert (X : existsb (fun nb => existsb (fun p => Z.ltb (snd p) (fst p)) (combine nb m)) (map aw_nbits (n_cands n)) = true); [|congruence].
  apply existsb_exists. exists (aw_nbits d). split; [apply in_map; exact Hd|]. apply existsb_exists. exists p. split; [|exact El]. rewrite Em, <- H1. exact Hp.
Qed.
Lemma max_no_upgrade ar wr n i c d : uniform n -> find_max_candidate n = Ok i -> nth_error (n_cands n) i = Some c -> In d (n_cands n) -> raises ar wr c d -> same_bits c d.
Proof.
  intros U H Hc Hd [R1 R2]. destruct (find_max_spec n i H) as (c' & Hc' & M). assert (c' = c) by congruence. subst c'.
  pose proof (nth_error_In _ _ Hc) as Hci. destruct (U c d Hci Hd) as (_ & U2 & U3). split.
  - pose proof (M d Hd (a_bits (c_act d), a_bits (c_act c)) (or_introl eq_refl)) as L. cbn in L. destruct ar; [lia|exact R1].
  - intros a x Hx. destruct (R2 a x Hx) as (y & Hy & L). exists y. split; [exact Hy|].
    assert (L2 : (w_bits y <= w_bits x)%Z). { apply (M d Hd (w_bits y, w_bits x)). right. apply (combine_get w_bits a); auto. rewrite <- U2. exact U3. }
    destruct wr; [lia|exact L].
Qed.
Lemma upgrade_none conf sol n : uniform n ->
  (forall i, dict_get (n_name n) sol = Some i -> i < length (n_cands n)) -> node_upgrade g target sol n = Ok None ->
  forall j r, upgrade AR WR conf sol n j -> ru_for_config g (restricted_targets target) (dict_set (n_name n) j sol) = Ok r -> is_satisfied_by target r = false.
Proof.
  intros U HV H j r (Hn & i & c & d & Hi & Hc & Hd & R & N) Hr. unfold node_upgrade in H. rewrite Hi in H.
  destruct (find_max_candidate n) as [mx|] eqn:Em; [|discriminate]. cbn [bind] in H. destruct (Nat.eqb_spec i mx) as [->|Hne].
  - exfalso. apply N. eapply max_no_upgrade; eauto. eapply nth_error_In; exact Hd.
  - rewrite ar_eq, wr_eq in H. destruct (valid_candidates AR WR n i) as [vs|] eqn:Ev; [|discriminate]. cbn [bind] in H. destruct (mapM _ vs) as [rus|] eqn:Er; [|discriminate]. cbn [bind] in H.
    destruct (least _) as [[j0 r0]|] eqn:El; [discriminate|]. apply least_none in El. destruct (is_satisfied_by target r) eqn:Es; [|reflexivity]. exfalso.
    assert (Hj : In j vs) by (apply (valid_candidates_in AR WR n i vs c Hc Ev); eauto). apply mapM_Forall2 in Er. destruct (Forall2_in_l _ _ _ _ Er Hj) as (p & Hp & Ep). cbn beta in Ep. rewrite Hr in Ep. cbn [bind] in Ep.
    assert (p = (j, r)) by congruence. subst p. assert (X : In (j, r) (filter (fun p => is_satisfied_by target (snd p)) rus)) by (apply filter_In; auto). rewrite El in X. destruct X.
Qed.

Variable conf : list node.
Hypothesis ND : NoDup (map n_name conf).
Hypothesis UF : forall n, In n conf -> uniform n.

Lemma assignment_idx sol n i : assignment conf sol -> In n conf -> dict_get (n_name n) sol = Some i -> i < length (n_cands n).
Proof.
  clear UF. intros A. revert ND. induction A as [|m [k j] conf' sol' [E L] A IH]; intros N Hn Hg; [destruct Hn|]. cbn [fst snd map] in *. inversion N; subst. unfold dict_get in Hg. cbn [find fst] in Hg.
  destruct (Nat.eqb_spec (n_name n) (n_name m)) as [En|En].
  - cbn in Hg. inversion Hg; subst. destruct Hn as [->|Hn]; [exact L|]. exfalso. apply H1. rewrite <- En. apply in_map; exact Hn.
  - destruct Hn as [->|Hn]; [congruence|]. apply IH; assumption.
Qed.
Lemma assignment_set sol n j : assignment conf sol -> In n conf -> j < length (n_cands n) -> assignment conf (dict_set (n_name n) j sol).
Proof.
  clear UF. intros A. revert ND. induction A as [|m [k i] conf' sol' [E L] A IH]; intros N Hn Hj; [destruct Hn|]. cbn [fst snd map] in *. inversion N; subst. cbn [dict_set].
  destruct (Nat.eqb_spec (n_name n) (n_name m)) as [En|En].
  - assert (n = m). { destruct Hn as [<-|Hn]; [reflexivity|]. exfalso. apply H1. rewrite <- En. apply in_map; exact Hn. } subst. constructor; [split; [reflexivity|exact Hj]|exact A].
  - constructor; [split; [reflexivity|exact L]|]. destruct Hn as [->|Hn]; [congruence|]. apply IH; assumption.
Qed.

Lemma round_some sol s' : assignment conf sol -> refine_round g target conf sol = Ok (Some s') ->
  exists n j r, upgrade AR WR conf sol n j /\ s' = dict_set (n_name n) j sol /\ ru_for_config g (restricted_targets target) s' = Ok r /\ is_satisfied_by target r = true /\
    forall n' j' r', upgrade AR WR conf sol n' j' -> ru_for_config g (restricted_targets target) (dict_set (n_name n') j' sol) = Ok r' -> is_satisfied_by target r' = true -> key_le r r'.
Proof.
  intros A H. unfold refine_round in H. destruct (mapM (node_upgrade g target sol) conf) as [ups|] eqn:E; [|discriminate]. cbn [bind] in H.
  destruct (least _) as [[[k j] r]|] eqn:El; [|discriminate]. assert (s' = dict_set k j sol) by congruence. subst s'. clear H. apply mapM_Forall2 in E.
  pose proof (least_spec _ _ El) as Hin. apply in_flat_map in Hin. destruct Hin as (o & Ho & Hin). destruct o as [[[k0 j0] r0]|]; [|destruct Hin]. destruct Hin as [Hin|[]].
  assert (k0 = k) by congruence. assert (j0 = j) by congruence. assert (r0 = r) by congruence. subst.
  destruct (Forall2_in_r _ _ _ _ E Ho) as (n & Hn & En).
  destruct (upgrade_some conf sol n k j r Hn A ltac:(auto) (fun i Hi => assignment_idx sol n i A Hn Hi) En) as (-> & U & Hr & Hs & _).
  exists n, j, r. split; [exact U|]. split; [reflexivity|]. split; [exact Hr|]. split; [exact Hs|].
  intros n' j' r' U' Hr' Hs'. pose proof U' as (Hn' & _). destruct (Forall2_in_l _ _ _ _ E Hn') as (o & Ho' & Eo). destruct o as [[[k1 j1] r1]|].
  - destruct (upgrade_some conf sol n' k1 j1 r1 Hn' A ltac:(auto) (fun i Hi => assignment_idx sol n' i A Hn' Hi) Eo) as (-> & U1 & Hr1 & Hs1 & M1).
    eapply key_le_trans; [|apply (M1 j' r' U' Hr' Hs')]. apply (least_min _ _ El ((n_name n', j1), r1)). apply in_flat_map. eexists. split; [exact Ho'|left; reflexivity].
  - exfalso. rewrite (upgrade_none conf sol n' (UF n' Hn') (fun i Hi => assignment_idx sol n' i A Hn' Hi) Eo j' r' U' Hr') in Hs'. discriminate.
Qed.
Lemma round_none sol : assignment conf sol -> refine_round g target conf sol = Ok None ->
  forall n j r, upgrade AR WR conf sol n j -> ru_for_config g (restricted_targets target) (dict_set (n_name n) j sol) = Ok r -> is_satisfied_by target r = false.
Proof.
  intros A H n j r U Hr. unfold refine_round in H. destruct (mapM (node_upgrade g target sol) conf) as [ups|] eqn:E; [|discriminate]. cbn [bind] in H.
  destruct (least _) as [[[k0 j0] r0]|] eqn:El; [discriminate|]. apply least_none in El. apply mapM_Forall2 in E. pose proof U as (Hn & _).
  destruct (Forall2_in_l _ _ _ _ E Hn) as (o & Ho & Eo). destruct o as [[[k1 j1] r1]|].
  - exfalso. assert (X : In ((k1, j1), r1) []) by (rewrite <- El; apply in_flat_map; eexists; split; [exact Ho|left; reflexivity]). destruct X.
  - apply (upgrade_none conf sol n (UF n Hn) (fun i Hi => assignment_idx sol n i A Hn Hi) Eo j r U Hr).
Qed.
Lemma upgrade_assignment sol n j : assignment conf sol -> upgrade AR WR conf sol n j -> assignment conf (dict_set (n_name n) j sol).
Proof. intros A (Hn & i & c & d & _ & _ & Hd & _). apply assignment_set; auto. apply nth_error_Some. congruence. Qed.

Lemma refines_refl sol : assignment conf sol -> refines AR WR conf sol sol.
Proof. intro A. split; [exact A|]. intros n i j c d _ Hi Hj _ _. left. congruence. Qed.
Lemma refines_step sol n j s' : assignment conf sol -> upgrade AR WR conf sol n j -> refines AR WR conf (dict_set (n_name n) j sol) s' -> refines AR WR conf sol s'.
Proof.
  intros A U [A' R]. split; [exact A'|]. pose proof U as (Hn & i0 & c0 & d0 & Hi0 & Hc0 & Hd0 & R0 & N0).
  intros m i k c d Hm Hi Hk Hc Hd. destruct (Nat.eq_dec (n_name m) (n_name n)) as [En|En].
  - assert (Em : m = n). { clear - ND Hm Hn En. revert ND. induction conf as [|x l IH]; intro N; [destruct Hm|]. cbn [map] in N. inversion N; subst.
      destruct Hm as [<-|Hm], Hn as [<-|Hn]; auto; exfalso; apply H1; [rewrite En|rewrite <- En]; apply in_map; assumption. }
    subst m. assert (i0 = i) by congruence. subst i0. assert (c0 = c) by congruence. subst c0. right.
    destruct (R n j k d0 d Hm ltac:(rewrite dict_get_set, Nat.eqb_refl; reflexivity) Hk Hd0 Hd) as [E|R1]; [assert (d = d0) by congruence; subst; exact R0|eapply raises_trans; eassumption].
  - apply (R m i k c d Hm); auto. rewrite dict_get_set. destruct (Nat.eqb_spec (n_name m) (n_name n)); [contradiction|exact Hi].
Qed.

Lemma loop_spec fuel : forall sol s', assignment conf sol -> refine_loop g target fuel conf sol = Ok s' ->
  refines AR WR conf sol s' /\ (s' = sol \/ exists r, ru_for_config g (restricted_targets target) s' = Ok r /\ is_satisfied_by target r = true) /\
  forall n j r, upgrade AR WR conf s' n j -> ru_for_config g (restricted_targets target) (dict_set (n_name n) j s') = Ok r -> is_satisfied_by target r = false.
Proof.
  induction fuel as [|fuel IH]; intros sol s' A H; [discriminate|]. cbn [refine_loop] in H. destruct (refine_round g target conf sol) as [[s1|]|] eqn:E; [| |discriminate]; cbn [bind] in H.
  - destruct (round_some sol s1 A E) as (n & j & r & U & -> & Hr & Hs & _). pose proof (upgrade_assignment sol n j A U) as A1.
    destruct (IH _ _ A1 H) as (R & F & M). split; [eapply refines_step; eassumption|]. split; [|exact M]. right. destruct F as [->|F]; [eauto|exact F].
  - inversion H; subst s'. split; [apply refines_refl; exact A|]. split; [left; reflexivity|]. apply round_none; assumption.
Qed.

(* ---- termination ---- *)
Definition up_count (n : node) (i : nat) : nat :=
  length (filter (fun j => match nth_error (n_cands n) i, nth_error (n_cands n) j with
                           | Some c, Some d => match valid_candidate AR WR c d with Ok true => true | _ => false end
                           | _, _ => false end) (seq 0 (length (n_cands n)))).
Definition rank (sol : mpcfg) (ns : list node) : nat :=
  fold_right (fun n s => match dict_get (n_name n) sol with Some i => up_count n i | None => 0 end + s) 0 ns.
Lemma filter_length_lt {A} (p q : A -> bool) l x : (forall y, In y l -> p y = true -> q y = true) -> In x l -> p x = false -> q x = true ->
  length (filter p l) < length (filter q l).
Proof.
  intros H Hx Hp Hq.
  assert (LE : forall l, (forall y, In y l -> p y = true -> q y = true) -> length (filter p l) <= length (filter q l)).
  { clear. induction l as [|y l IH]; intro H; [apply le_n|]. cbn [filter]. specialize (IH (fun z Hz => H z (or_intror Hz))). pose proof (H y (or_introl eq_refl)).
    destruct (p y), (q y); cbn [length]; try lia; specialize (H0 eq_refl); discriminate. }
  induction l as [|y l IH]; [destruct Hx|]. cbn [filter]. destruct Hx as [->|Hx].
  - rewrite Hp, Hq. cbn [length]. specialize (LE l (fun z Hz => H z (or_intror Hz))). lia.
  - specialize (IH (fun z Hz => H z (or_intror Hz)) Hx). pose proof (H y (or_introl eq_refl)). destruct (p y), (q y); cbn [length]; try lia; specialize (H0 eq_refl); discriminate.
Qed.
Lemma valid_uniform n c d : uniform n -> In c (n_cands n) -> In d (n_cands n) -> raises AR WR c d -> ~ same_bits c d -> valid_candidate AR WR c d = Ok true.
Proof.
  intros U Hc Hd R N. apply valid_spec. split; [exact R|]. split; [exact N|]. destruct (Z.eqb _ _); [|eauto].
  destruct (U c d Hc Hd) as (_ & U2 & _).
  assert (G : forall l, incl l (attrs c) -> exists b, allM (fun a => let! x := wn d a in let! y := wn c a in Ok (Z.eqb x y)) l = Ok b).
  { induction l as [|a l IH]; intro Il; [eexists; reflexivity|]. cbn [allM]. assert (Ha : In a (attrs c)) by (apply Il; left; reflexivity).
    assert (Ha' : In a (attrs d)) by (unfold attrs in *; rewrite <- U2; exact Ha). apply in_attrs in Ha, Ha'. destruct Ha as [x Hx], Ha' as [y Hy]. unfold wn at 1 2. rewrite Hx, Hy. cbn [bind].
    destruct (Z.eqb _ _); [apply IH; intros z Hz; apply Il; right; exact Hz|eauto]. }
  apply G. intros a Ha; exact Ha.
Qed.
Lemma up_count_lt n i j c d : uniform n -> nth_error (n_cands n) i = Some c -> nth_error (n_cands n) j = Some d -> raises AR WR c d -> ~ same_bits c d -> up_count n j < up_count n i.
Proof.
  intros U Hc Hd R N. pose proof (nth_error_In _ _ Hc) as Ic. pose proof (nth_error_In _ _ Hd) as Id. unfold up_count. apply (filter_length_lt _ _ _ j).
  - intros k Hk. rewrite Hc, Hd. destruct (nth_error (n_cands n) k) as [e|] eqn:Ek; [|discriminate]. intro H.
    destruct (valid_candidate AR WR d e) as [[|]|] eqn:Ev; try discriminate. apply valid_spec in Ev. destruct Ev as (R1 & N1 & _).
    rewrite (valid_uniform n c e U Ic (nth_error_In _ _ Ek)); [reflexivity|eapply raises_trans; eassumption|eapply raises_strict; eassumption].
  - apply in_seq. assert (j < length (n_cands n)) by (apply nth_error_Some; congruence). lia.
  - rewrite Hd. destruct (valid_candidate AR WR d d) as [[|]|] eqn:Ev; try reflexivity. apply valid_spec in Ev. destruct Ev as (_ & N1 & _). exfalso. apply N1. split; [reflexivity|]. intros a x Hx. eauto.
  - rewrite Hc, Hd. rewrite (valid_uniform n c d U Ic Id R N). reflexivity.
Qed.
Lemma filter_le {A} (p : A -> bool) l : length (filter p l) <= length l.
Proof. induction l as [|x l IH]; [apply le_n|]. cbn [filter length]. destruct (p x); cbn [length]; lia. Qed.
Lemma rank_cons sol n ns : rank sol (n :: ns) = match dict_get (n_name n) sol with Some i => up_count n i | None => 0 end + rank sol ns.
Proof. reflexivity. Qed.
Lemma rank_set_other sol k j ns : ~ In k (map n_name ns) -> rank (dict_set k j sol) ns = rank sol ns.
Proof.
  induction ns as [|m ns IH]; intro H; [reflexivity|]. cbn [map] in *. rewrite !rank_cons, IH by (intro X; apply H; right; exact X).
  rewrite dict_get_set. destruct (Nat.eqb_spec (n_name m) k) as [E|E]; [exfalso; apply H; left; exact E|reflexivity].
Qed.
Lemma rank_upgrade sol n j : upgrade AR WR conf sol n j -> rank (dict_set (n_name n) j sol) conf < rank sol conf.
Proof.
  intros (Hn & i & c & d & Hi & Hc & Hd & R & N). pose proof (up_count_lt n i j c d (UF n Hn) Hc Hd R N) as L.
  clear - Hn Hi L ND. revert ND. induction conf as [|m ns IH]; intro N; [destruct Hn|]. cbn [map] in N. inversion N; subst. rewrite !rank_cons, dict_get_set. destruct (Nat.eqb_spec (n_name m) (n_name n)) as [E|E].
  - assert (m = n). { destruct Hn as [->|Hn]; [reflexivity|]. exfalso. apply H1. rewrite E. apply in_map; exact Hn. } subst m. rewrite Hi, rank_set_other by exact H1. lia.
  - destruct Hn as [->|Hn]; [congruence|]. specialize (IH Hn H2). lia.
Qed.
Lemma loop_stable fuel : forall fuel' sol, assignment conf sol -> rank sol conf < fuel -> rank sol conf < fuel' ->
  refine_loop g target fuel conf sol = refine_loop g target fuel' conf sol.
Proof.
  induction fuel as [|fuel IH]; intros [|fuel'] sol A L L'; try lia. cbn [refine_loop]. destruct (refine_round g target conf sol) as [[s1|]|] eqn:E; cbn [bind]; try reflexivity.
  destruct (round_some sol s1 A E) as (n & j & r & U & -> & _). pose proof (rank_upgrade sol n j U). apply IH; [apply upgrade_assignment; assumption|lia|lia].
Qed.
Lemma loop_total fuel : forall sol, assignment conf sol -> rank sol conf < fuel -> (forall s, assignment conf s -> exists o, refine_round g target conf s = Ok o) ->
  exists s', refine_loop g target fuel conf sol = Ok s'.
Proof.
  induction fuel as [|fuel IH]; intros sol A L T; [lia|]. cbn [refine_loop]. destruct (T sol A) as [o E]. rewrite E. cbn [bind]. destruct o as [s1|]; [|eauto].
  destruct (round_some sol s1 A E) as (n & j & r & U & -> & _). pose proof (rank_upgrade sol n j U). apply IH; [apply upgrade_assignment; assumption|lia|exact T].
Qed.
Lemma rank_bound sol : rank sol conf <= list_sum (map (fun n => length (n_cands n)) conf).
Proof.
  clear. induction conf as [|n l IH]; [apply le_n|]. rewrite rank_cons. cbn [map]. change (list_sum (length (n_cands n) :: map (fun n => length (n_cands n)) l)) with (length (n_cands n) + list_sum (map (fun n => length (n_cands n)) l)).
  destruct (dict_get (n_name n) sol) as [i|]; [|lia]. unfold up_count. pose proof (filter_le (fun j => match nth_error (n_cands n) i, nth_error (n_cands n) j with
                           | Some c, Some d => match valid_candidate AR WR c d with Ok true => true | _ => false end
                           | _, _ => false end) (seq 0 (length (n_cands n)))) as F. rewrite seq_length in F. lia.
Qed.
End Props.

(* ---- C17 ---- *)
(* The refined solution assigns a candidate to every node; no bit-width is lower than before and a part whose memory is not
   limited keeps its bit-width; the result is the input or fits the target; and no further single raise fits. *)
Theorem refinement_only_raises g target conf fuel sol sol' : NoDup (map n_name conf) -> (forall n, In n conf -> uniform n) -> assignment conf sol ->
  refine g target fuel conf sol = Ok sol' -> refines (act_limited target) (weight_limited target) conf sol sol'.
Proof.
  intros N U A H. unfold refine in H. destruct (ru_b target) as [b|] eqn:Eb; cbn [restricted] in H.
  - inversion H; subst. split; [exact A|]. intros n i j c d _ Hi Hj _ _. left. congruence.
  - apply (loop_spec g target Eb conf N U fuel sol sol' A H).
Qed.
Theorem refinement_fits_when_changed g target conf fuel sol sol' : NoDup (map n_name conf) -> (forall n, In n conf -> uniform n) -> assignment conf sol ->
  refine g target fuel conf sol = Ok sol' -> sol' = sol \/ fits g target sol'.
Proof.
  intros N U A H. unfold refine in H. destruct (ru_b target) as [b|] eqn:Eb; cbn [restricted] in H; [left; congruence|].
  apply (loop_spec g target Eb conf N U fuel sol sol' A H).
Qed.
Theorem refinement_maximal g target conf fuel sol sol' : NoDup (map n_name conf) -> (forall n, In n conf -> uniform n) -> assignment conf sol -> ru_b target = None ->
  refine g target fuel conf sol = Ok sol' ->
  forall n j r, upgrade (act_limited target) (weight_limited target) conf sol' n j ->
    ru_for_config g (restricted_targets target) (dict_set (n_name n) j sol') = Ok r -> is_satisfied_by target r = false.
Proof.
  intros N U A Eb H. unfold refine in H. rewrite Eb in H. cbn [restricted] in H. apply (loop_spec g target Eb conf N U fuel sol sol' A H).
Qed.
Theorem refinement_skipped_for_bops g target conf fuel sol b : ru_b target = Some b -> refine g target fuel conf sol = Ok sol.
Proof. intro E. unfold refine. rewrite E. reflexivity. Qed.
(* Each round takes, among all single raises that fit, one that uses least (total, then weights, then activation memory). *)
Theorem refinement_round_least g target conf sol s' : ru_b target = None -> NoDup (map n_name conf) -> (forall n, In n conf -> uniform n) -> assignment conf sol ->
  refine_round g target conf sol = Ok (Some s') ->
  exists n j r, upgrade (act_limited target) (weight_limited target) conf sol n j /\ s' = dict_set (n_name n) j sol /\ ru_for_config g (restricted_targets target) s' = Ok r /\ is_satisfied_by target r = true /\
    forall n' j' r', upgrade (act_limited target) (weight_limited target) conf sol n' j' -> ru_for_config g (restricted_targets target) (dict_set (n_name n') j' sol) = Ok r' ->
      is_satisfied_by target r' = true -> key_le r r'.
Proof. intros Eb N U A H. apply (round_some g target Eb conf N U sol s' A H). Qed.
(* The loop stops: with as many rounds as there are candidates its outcome no longer depends on the bound on the rounds, and it
   is a solution unless some round itself fails. *)
Theorem refinement_terminates g target conf sol fuel : NoDup (map n_name conf) -> (forall n, In n conf -> uniform n) -> assignment conf sol ->
  list_sum (map (fun n => length (n_cands n)) conf) < fuel ->
  (forall fuel', fuel <= fuel' -> refine g target fuel' conf sol = refine g target fuel conf sol) /\
  ((forall s, assignment conf s -> exists o, refine_round g target conf s = Ok o) -> exists sol', refine g target fuel conf sol = Ok sol').
Proof.
  intros N U A L. unfold refine. destruct (ru_b target) as [b|] eqn:Eb; cbn [restricted]; [split; eauto|].
  pose proof (rank_bound target conf sol) as B. split.
  - intros fuel' Hf. symmetry. apply (loop_stable g target Eb conf N U); [exact A|lia|lia].
  - intro T. apply (loop_total g target Eb conf N U); [exact A|lia|exact T].
Qed.
Print Assumptions refinement_only_raises.
Print Assumptions refinement_fits_when_changed.
Print Assumptions refinement_maximal.
Print Assumptions refinement_skipped_for_bops.
Print Assumptions refinement_round_least.
Print Assumptions refinement_terminates.

(* Search followed by refinement: the result fits the target whenever the search's own result could be measured. *)
Theorem refined_search_fits metric nm eps thr solver g target fuel cfg cfg' conf r : wf_graph g -> measurable g target -> solver_sound solver ->
  (forall n, In n (g_nodes g) -> uniform n) ->
  search metric nm eps thr solver g target = Ok cfg -> configurable_nodes g = Ok conf -> ru_for_config g (restricted_targets target) cfg = Ok r ->
  refine g target fuel conf cfg = Ok cfg' -> assignment conf cfg' /\ fits g target cfg'.
Proof.
  intros W M SS U H HC Hr HR. destruct (mp_search_fits metric nm eps thr solver g target cfg W M SS H) as (conf' & HC' & A & F). assert (conf' = conf) by congruence. subst conf'.
  assert (U' : forall n, In n conf -> uniform n) by (intros n Hn; apply U; apply (conf_sub g conf HC n Hn)).
  pose proof (conf_nodup g conf W HC) as N. split.
  - apply (refinement_only_raises g target conf fuel cfg cfg' N U' A HR).
  - destruct (refinement_fits_when_changed g target conf fuel cfg cfg' N U' A HR) as [->|X]; [|exact X]. exists r. split; [exact Hr|apply F; exact Hr].
Qed.
Print Assumptions refined_search_fits.

(* ---- concrete cases ---- *)
Definition rx_target : ru := mkRU (Some (10 # 1)) (Some (110 # 1)) None None.
Example rx_conf : configurable_nodes ex_g = Ok [ex_in; ex_conv].
Proof. vm_compute. reflexivity. Qed.
Example rx_assignment : assignment [ex_in; ex_conv] [(0, 1); (1, 1)].
Proof. repeat constructor; cbn; lia. Qed.
Example rx_refine : refine ex_g rx_target 5 [ex_in; ex_conv] [(0, 1); (1, 1)] = Ok [(0, 1); (1, 0)].
Proof. vm_compute. reflexivity. Qed.
Example rx_upgrade : upgrade true true [ex_in; ex_conv] [(0, 1); (1, 1)] ex_conv 0.
Proof.
  split; [right; left; reflexivity|]. exists 1. do 2 eexists. split; [reflexivity|]. split; [reflexivity|]. split; [reflexivity|]. split.
  - split; [cbn; lia|]. intros a x. unfold dict_get. cbn [c_w find fst]. destruct (Nat.eqb a 7); cbn; [|discriminate]. intro E. inversion E; subst. eexists. split; [reflexivity|]. cbn. lia.
  - intros [_ H]. destruct (H 7 _ eq_refl) as (y & Ey & L). inversion Ey; subst. discriminate L.
Qed.

(* Raising bit-widths need not lower the measured sensitivity: if the metric prefers fewer bits somewhere, refinement turns the least
   sensitive solution into a more sensitive one. *)
Theorem refinement_can_raise_sensitivity_refuted :
  exists metric thr g target conf cfg cfg', (forall k i, (0 <= metric k i)%Q) /\ configurable_nodes g = Ok conf /\
    search metric N_none None thr exhaustive g target = Ok cfg /\ refine g target 10 conf cfg = Ok cfg' /\
    (raw_sensitivity metric cfg < raw_sensitivity metric cfg')%Q.
Proof.
  exists (fun k i => match k, i with 1, 0 => 7%Q | _, _ => 1%Q end), 1000000%Q, ex_g, rx_target, [ex_in; ex_conv]. do 2 eexists.
  split; [intros [|[|k]] [|i]; discriminate|]. split; [vm_compute; reflexivity|]. split; [vm_compute; reflexivity|]. split; [vm_compute; reflexivity|]. vm_compute. reflexivity.
Qed.
Print Assumptions refinement_can_raise_sensitivity_refuted.
