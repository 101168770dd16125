From Verif Require Import Base HessianModel HessianProofs MPModel MPSpec SearchProofs.
From Coq Require Import Permutation Lqa.

(* ---- generic ---- *)
Definition okb (r : result bool) : bool := match r with Ok true => true | _ => false end.
Lemma filterM_pure {A} (f : A -> result bool) l ys : filterM f l = Ok ys -> ys = filter (fun x => okb (f x)) l.
Proof.
  revert ys. induction l as [|x l IH]; intros ys H; cbn [filterM] in H; [inversion H; reflexivity|].
  destruct (f x) as [b|] eqn:E; [|discriminate]. cbn [bind] in H. destruct (filterM f l) as [zs|] eqn:E2; [|discriminate].
  cbn [bind] in H. inversion H; subst. cbn [filter]. rewrite E. cbn [okb]. rewrite (IH zs eq_refl). destruct b; reflexivity.
Qed.
Lemma filterM_ok {A} (f : A -> result bool) l ys x : filterM f l = Ok ys -> In x l -> exists b, f x = Ok b.
Proof.
  revert ys. induction l as [|y l IH]; intros ys H Hi; [destruct Hi|]. cbn [filterM] in H.
  destruct (f y) as [b|] eqn:E; [|discriminate]. cbn [bind] in H. destruct (filterM f l) as [zs|] eqn:E2; [|discriminate].
  destruct Hi as [->|Hi]; [eauto|]. eauto.
Qed.
Lemma filterM_total {A} (f : A -> result bool) l : (forall x, In x l -> exists b, f x = Ok b) -> exists ys, filterM f l = Ok ys.
Proof.
  induction l as [|x l IH]; intro H; [eexists; reflexivity|]. cbn [filterM]. destruct (H x) as [b ->]; [left; reflexivity|]. cbn [bind].
  destruct IH as [ys ->]; [intros; apply H; right; assumption|]. cbn [bind]. eexists; reflexivity.
Qed.
Lemma sum_Q_acc l : forall a, (fold_left Qplus l a == a + Qsum (fun x => x) l)%Q.
Proof.
  induction l as [|x l IH]; intro a; cbn [fold_left Qsum fold_right]; [ring|]. rewrite IH. unfold Qsum. ring.
Qed.
Lemma sum_Q_eq l : (sum_Q l == Qsum (fun x => x) l)%Q.
Proof. unfold sum_Q. rewrite sum_Q_acc. ring. Qed.
Lemma Qsum_cons {A} (f : A -> Q) x l : Qsum f (x :: l) = (f x + Qsum f l)%Q. Proof. reflexivity. Qed.
Lemma Qsum_app {A} (f : A -> Q) l l' : (Qsum f (l ++ l') == Qsum f l + Qsum f l')%Q.
Proof. induction l as [|x l IH]; cbn [app]; [cbn [Qsum fold_right]; ring|]. rewrite !Qsum_cons, IH. ring. Qed.
Lemma Qsum_ext {A} (f h : A -> Q) l : (forall x, In x l -> (f x == h x)%Q) -> (Qsum f l == Qsum h l)%Q.
Proof.
  induction l as [|x l IH]; intro H; [reflexivity|]. rewrite !Qsum_cons, (H x) by (left; reflexivity).
  rewrite IH by (intros; apply H; right; assumption). reflexivity.
Qed.
Lemma Qsum_le {A} (f h : A -> Q) l : (forall x, In x l -> (f x <= h x)%Q) -> (Qsum f l <= Qsum h l)%Q.
Proof.
  induction l as [|x l IH]; intro H; [apply Qle_refl|]. rewrite !Qsum_cons. apply Qplus_le_compat; [apply H; left; reflexivity|].
  apply IH. intros; apply H; right; assumption.
Qed.
Lemma Qsum_perm {A} (f : A -> Q) l l' : Permutation l l' -> (Qsum f l == Qsum f l')%Q.
Proof.
  induction 1; rewrite ?Qsum_cons in *; [reflexivity|rewrite IHPermutation; reflexivity|ring|].
  rewrite IHPermutation1. exact IHPermutation2.
Qed.
Lemma Qsum_filter {A} (f : A -> Q) (b : A -> bool) l : (Qsum f (filter b l) == Qsum (fun x => if b x then f x else 0) l)%Q.
Proof.
  induction l as [|x l IH]; [reflexivity|]. cbn [filter]. destruct (b x) eqn:E.
  - rewrite !Qsum_cons, E, IH. ring.
  - rewrite !Qsum_cons, E, IH. ring.
Qed.
Lemma Qsum_map {A B} (f : B -> Q) (h : A -> B) l : Qsum f (map h l) = Qsum (fun x => f (h x)) l.
Proof. induction l as [|x l IH]; [reflexivity|]. cbn [map]. rewrite !Qsum_cons, IH. reflexivity. Qed.
Lemma Qsum_Forall2 {A} (f : A -> Q) l ys : Forall2 (fun x y => (y == f x)%Q) l ys -> (Qsum (fun y => y) ys == Qsum f l)%Q.
Proof. induction 1; [reflexivity|]. rewrite !Qsum_cons, H, IHForall2. reflexivity. Qed.
Lemma Qsum_nonneg {A} (f : A -> Q) l : (forall x, In x l -> (0 <= f x)%Q) -> (0 <= Qsum f l)%Q.
Proof.
  induction l as [|x l IH]; intro H; [apply Qle_refl|]. rewrite Qsum_cons. rewrite <- (Qplus_0_l 0).
  apply Qplus_le_compat; [apply H; left; reflexivity|apply IH; intros; apply H; right; assumption].
Qed.
Lemma amode_eqb_eq a b : amode_eqb a b = true <-> a = b.
Proof. destruct a, b; cbn; split; congruence. Qed.
Lemma wcfg_eqb_eq a b : wcfg_eqb a b = true <-> a = b.
Proof.
  destruct a as [e b1 t], b as [e' b2 t']; unfold wcfg_eqb; cbn [w_enable w_bits w_tag]. rewrite !andb_true_iff, eqb_true_iff, Z.eqb_eq, Nat.eqb_eq.
  split; [intros [[-> ->] ->]; reflexivity|intro H; inversion H; auto].
Qed.
Lemma acfg_eqb_eq a b : acfg_eqb a b = true <-> a = b.
Proof.
  destruct a as [e b1 t], b as [e' b2 t']; unfold acfg_eqb; cbn [a_mode a_bits a_tag]. rewrite !andb_true_iff, amode_eqb_eq, Z.eqb_eq, Nat.eqb_eq.
  split; [intros [[-> ->] ->]; reflexivity|intro H; inversion H; auto].
Qed.
Lemma uniq_hd {A} (e : A -> A -> bool) x l : uniq e [] (x :: l) = x :: uniq e [x] l.
Proof. reflexivity. Qed.

(* ---- lookups ---- *)
Lemma find_node_in g n : NoDup (map n_name (g_nodes g)) -> In n (g_nodes g) -> find_node g (n_name n) = Ok n.
Proof.
  unfold find_node. induction (g_nodes g) as [|m l IH]; intros Hn Hi; [destruct Hi|]. cbn [find map] in *.
  inversion Hn; subst. destruct Hi as [->|Hi]; [rewrite Nat.eqb_refl; reflexivity|].
  destruct (Nat.eqb_spec (n_name m) (n_name n)) as [E|]; [|auto]. exfalso. apply H1. rewrite E. apply in_map. exact Hi.
Qed.
Lemma find_node_ok g x n : find_node g x = Ok n -> In n (g_nodes g) /\ n_name n = x.
Proof.
  unfold find_node. destruct (find _ (g_nodes g)) as [m|] eqn:E; [|discriminate]. intro H. inversion H; subst.
  apply find_some in E. destruct E as [E1 E2]. apply Nat.eqb_eq in E2. auto.
Qed.
Lemma dict_get_map {V W} (F : V -> W) (d : list (nat * V)) k :
  dict_get k (map (fun p => (fst p, F (snd p))) d) = option_map F (dict_get k d).
Proof. induction d as [|[a b] d IH]; [reflexivity|]. cbn [map dict_get fst snd]. destruct (Nat.eqb k a); [reflexivity|exact IH]. Qed.

Lemma qcand_get g cfg l n : NoDup (map n_name (g_nodes g)) -> In n (g_nodes g) ->
  mapM (fun p => let! n := find_node g (fst p) in
                 match nth_error (n_cands n) (snd p) with None => Err E_index | Some c => Ok (fst p, c) end) cfg = Ok l ->
  match dict_get (n_name n) cfg with
  | None => dict_get (n_name n) l = None
  | Some i => exists c, nth_error (n_cands n) i = Some c /\ dict_get (n_name n) l = Some c
  end.
Proof.
  intros Hn Hi. revert l. induction cfg as [|[x i] cfg IH]; intros l H; cbn [mapM] in H; [inversion H; reflexivity|].
  cbn [fst snd] in H. destruct (find_node g x) as [m|] eqn:Em; [|discriminate]. cbn [bind] in H.
  destruct (nth_error (n_cands m) i) as [c|] eqn:Ec; [|discriminate]. cbn [bind] in H.
  destruct (mapM _ cfg) as [l'|] eqn:El; [|discriminate]. cbn [bind] in H. inversion H; subst. cbn [dict_get].
  destruct (Nat.eqb_spec (n_name n) x) as [E|Hne].
  - subst x. rewrite (find_node_in g n Hn Hi) in Em. inversion Em; subst m. eauto.
  - apply (IH l' eq_refl).
Qed.

Lemma quant_candidates_get g cfg aq wq n : NoDup (map n_name (g_nodes g)) -> In n (g_nodes g) ->
  quant_candidates g cfg = Ok (aq, wq) ->
  match dict_get (n_name n) cfg with
  | None => dict_get (n_name n) aq = None /\ dict_get (n_name n) wq = None
  | Some i => exists c, nth_error (n_cands n) i = Some c /\ dict_get (n_name n) aq = Some (c_act c) /\
                        dict_get (n_name n) wq = Some (c_w c)
  end.
Proof.
  intros Hn Hi H. unfold quant_candidates in H. destruct (mapM _ cfg) as [l|] eqn:E; [|discriminate]. cbn [bind] in H.
  inversion H; subst. pose proof (qcand_get g cfg l n Hn Hi E) as Q. rewrite !dict_get_map.
  destruct (dict_get (n_name n) cfg) as [i|].
  - destruct Q as (c & Q1 & Q2). exists c. rewrite Q2. auto.
  - rewrite Q. auto.
Qed.

(* ---- node predicates ---- *)
Lemma single_mode_spec n q b : single_mode n q = Ok b -> n_cands n <> [] /\ (b = true <-> has_mode n q) /\
  forall c d, In c (n_cands n) -> In d (n_cands n) -> a_mode (c_act c) = a_mode (c_act d).
Proof.
  unfold single_mode, has_mode. destruct (n_cands n) as [|c cs]; [discriminate|]. destruct (forallb _ cs) eqn:E; [|discriminate].
  intro H. inversion H; subst. assert (A : forall d, In d (c :: cs) -> a_mode (c_act d) = a_mode (c_act c)).
  { intros d [->|Hd]; [reflexivity|]. rewrite forallb_forall in E. apply amode_eqb_eq. auto. }
  split; [discriminate|]. split.
  - rewrite amode_eqb_eq. split.
    + intro Hq. split; [discriminate|]. intros d Hd. rewrite (A d Hd). exact Hq.
    + intros [_ Hq]. apply Hq. left; reflexivity.
  - intros d e Hd He. rewrite (A d Hd), (A e He). reflexivity.
Qed.
Lemma attr_cands_spec n a cs : attr_cands n a = Ok cs -> Forall2 (fun c w => dict_get a (c_w c) = Some w) (n_cands n) cs.
Proof.
  unfold attr_cands. intro H. apply mapM_Forall2 in H. eapply Forall2_impl; [|exact H]. intros c w E.
  unfold attr_config in E. destruct (dict_get a (c_w c)); [congruence|discriminate].
Qed.
Lemma weights_enabled_spec n a b : weights_enabled n a = Ok b -> b = quantized_attr n a.
Proof.
  unfold weights_enabled, quantized_attr. destruct (attr_cands n a) as [cs|] eqn:E; [|discriminate]. cbn [bind]. intro H. inversion H; subst. clear H.
  apply attr_cands_spec in E. induction E; [reflexivity|]. cbn [forallb]. rewrite H, IHE. reflexivity.
Qed.

Lemma weight_nbits_spec g cfg aq wq n a b : wf_graph g -> In n (g_nodes g) -> quant_candidates g cfg = Ok (aq, wq) ->
  weight_nbits n a B_Custom (qc_get (Some wq) (n_name n)) = Ok b -> b = wbits cfg n a.
Proof.
  intros W Hi Hq H. pose proof (quant_candidates_get g cfg aq wq n (wf_names g W) Hi Hq) as Q.
  assert (FB : forall c, selected cfg n = Some c -> In c (n_cands n) -> (dict_get a (c_w c) = None \/ hd_error (n_cands n) = Some c) ->
     (let! e := weights_enabled n a in
      if negb e then Ok float_bits else
      let! cs := unique_weights n a in match cs with [c] => Ok (w_bits c) | _ => Err E_value end) = Ok b -> b = wbits cfg n a).
  { intros c Es Hc HH F. destruct (weights_enabled n a) as [e|] eqn:Ee; [|discriminate]. cbn [bind] in F.
    pose proof (weights_enabled_spec n a e Ee) as Se. unfold weights_enabled in Ee. destruct (attr_cands n a) as [cs|] eqn:Ea; [|discriminate].
    pose proof (attr_cands_spec n a cs Ea) as Sa. unfold wbits. rewrite Es.
    destruct (dict_get a (c_w c)) as [w|] eqn:Ew.
    - destruct HH as [HH|HH]; [discriminate|]. destruct (n_cands n) as [|c0 r] eqn:En; [discriminate|]. cbn [hd_error] in HH. inversion HH; subst c0.
      inversion Sa as [|? w0 ? ws S1 S2]; subst. rewrite Ew in S1. inversion S1; subst w0.
      destruct (w_enable w) eqn:E1.
      + assert (quantized_attr n a = true).
        { unfold quantized_attr. apply forallb_forall. intros d Hd. rewrite En in Hd.
          destruct (attr_config (c_w d) a) as [y|] eqn:Ey.
          - unfold attr_config in Ey. destruct (dict_get a (c_w d)) as [z|] eqn:Ez; [|discriminate].
            rewrite <- E1. apply (wf_enable g W n d c a z w Hi); [rewrite En; exact Hd|rewrite En; left; reflexivity|exact Ez|exact Ew].
          - exfalso. unfold attr_cands in Ea. rewrite En in Ea. apply mapM_Forall2 in Ea.
            clear - Ea Hd Ey. induction Ea; [destruct Hd|]. destruct Hd as [->|Hd]; [congruence|auto]. }
        rewrite H0 in F. cbn [negb] in F. unfold unique_weights in F. rewrite Ea in F. cbn [bind] in F.
        rewrite uniq_hd in F. destruct (uniq wcfg_eqb [w] ws); [congruence|discriminate].
      + assert (quantized_attr n a = false).
        { unfold quantized_attr. rewrite En. cbn [forallb]. rewrite Ew, E1. reflexivity. }
        rewrite H0 in F. cbn [negb] in F. unfold float_bits in F. congruence.
    - exfalso. clear - Sa Hc Ew. induction Sa; [destruct Hc|]. destruct Hc as [->|Hc]; [congruence|auto]. }
  unfold weight_nbits in H. cbn [qc_get] in H. destruct (dict_get (n_name n) cfg) as [i|] eqn:Ec.
  - destruct Q as (c & Q1 & _ & Q3). rewrite Q3 in H.
    assert (Es : selected cfg n = Some c) by (unfold selected; rewrite Ec; exact Q1).
    assert (Hc : In c (n_cands n)) by (eapply nth_error_In; exact Q1).
    destruct (dict_get a (c_w c)) as [w|] eqn:Ew.
    + unfold wbits. rewrite Es, Ew. inversion H. reflexivity.
    + eapply FB; eauto.
  - destruct Q as [_ Q2]. rewrite Q2 in H. destruct (n_cands n) as [|c r] eqn:En.
    + cbn [bind] in H. unfold weights_enabled, attr_cands in H. rewrite En in H. cbn [mapM bind forallb negb] in H.
      unfold unique_weights, attr_cands in H. rewrite En in H. cbn [mapM bind uniq] in H. discriminate.
    + assert (Es : selected cfg n = Some c) by (unfold selected; rewrite Ec, En; reflexivity).
      apply (FB c); [exact Es|left; reflexivity|right; reflexivity|exact H].
Qed.

(* ---- weights memory ---- *)
Lemma target_weight_attrs_spec n ats : target_weight_attrs n T_AnyQNonFused = Ok ats ->
  ats = filter (quantized_attr n) (attrs n).
Proof.
  cbn [target_weight_attrs]. intro H. pose proof (filterM_pure _ _ _ H) as ->. apply filter_ext_in. intros a Ha.
  destruct (filterM_ok _ _ _ a H Ha) as [b E]. rewrite E. rewrite <- (weights_enabled_spec n a b E). destruct b; reflexivity.
Qed.

Lemma node_weights_bytes_spec g cfg aq wq n ats q : wf_graph g -> In n (g_nodes g) -> quant_candidates g cfg = Ok (aq, wq) ->
  incl ats (attrs n) ->
  node_weights_bytes n ats B_Custom (qc_get (Some wq) (n_name n)) = Ok q ->
  (q == Qsum (fun a => match dict_get a (n_wsizes n) with Some s => inject_Z (s * wbits cfg n a) / 8 | None => 0 end) ats)%Q.
Proof.
  intros W Hi Hq Hin H. unfold node_weights_bytes in H.
  match type of H with bind ?c _ = _ => destruct c; [|discriminate] end. cbn [bind] in H.
  destruct ats as [|a0 ats]; [discriminate|]. destruct (mapM _ (a0 :: ats)) as [l|] eqn:E; [|discriminate]. cbn [bind] in H. inversion H; subst.
  rewrite sum_Q_eq. apply Qsum_Forall2. apply mapM_Forall2 in E. eapply Forall2_impl; [|exact E].
  intros a y Ey. cbn beta in Ey. destruct (dict_get a (n_wsizes n)) as [s|]; [|discriminate].
  destruct (weight_nbits n a B_Custom (qc_get (Some wq) (n_name n))) as [b|] eqn:Eb; [|discriminate]. cbn [bind] in Ey. inversion Ey; subst.
  unfold bytes_of. rewrite (weight_nbits_spec g cfg aq wq n a b W Hi Hq Eb). reflexivity.
Qed.

Lemma weights_utilization_spec g cfg aq wq q : wf_graph g -> quant_candidates g cfg = Ok (aq, wq) ->
  weights_utilization g T_AnyQNonFused B_Custom (Some wq) = Ok q -> (q == weights_memory g cfg)%Q.
Proof.
  intros W Hq H. unfold weights_utilization in H. destruct (weights_per_node g T_AnyQNonFused B_Custom (Some wq)) as [l|] eqn:E; [|discriminate].
  cbn [bind] in H. inversion H; subst. clear H. unfold weights_per_node in E. destruct (validate_qcs g (Some wq) B_Custom); [|discriminate]. cbn [bind] in E.
  destruct (mapM _ (g_nodes g)) as [nl|] eqn:En; [|discriminate]. cbn [bind] in E.
  apply mapM_Forall2 in En. apply mapM_Forall2 in E.
  assert (Hnl : nl = map (fun n => (n, filter (quantized_attr n) (attrs n))) (g_nodes g)).
  { clear - En. induction En; [reflexivity|]. cbn [map]. f_equal; [|exact IHEn]. destruct (target_weight_attrs x T_AnyQNonFused) as [ats|] eqn:Ea; [|discriminate].
    cbn [bind] in H. inversion H; subst. rewrite (target_weight_attrs_spec _ _ Ea). reflexivity. }
  rewrite sum_Q_eq.
  assert (S1 : (Qsum (fun x => x) l == Qsum (fun p => node_weights_memory cfg (fst p))
            (filter (fun p : node * list nat => match snd p with [] => false | _ => negb (n_reuse (fst p)) end) nl))%Q).
  { apply Qsum_Forall2.
    assert (Hsub : forall p, In p (filter (fun p : node * list nat => match snd p with [] => false | _ => negb (n_reuse (fst p)) end) nl) ->
       In (fst p) (g_nodes g) /\ snd p = filter (quantized_attr (fst p)) (attrs (fst p)) /\ n_reuse (fst p) = false).
    { intros p Hp. apply filter_In in Hp. destruct Hp as [Hp1 Hp2]. subst nl. apply in_map_iff in Hp1. destruct Hp1 as (n & <- & Hn). cbn [fst snd] in *.
      split; [exact Hn|]. split; [reflexivity|]. destruct (filter (quantized_attr n) (attrs n)); [discriminate|]. destruct (n_reuse n); [discriminate|reflexivity]. }
    revert E Hsub. generalize (filter (fun p : node * list nat => match snd p with [] => false | _ => negb (n_reuse (fst p)) end) nl). intros tl E Hsub.
    induction E; [constructor|]. constructor; [|apply IHE; intros; apply Hsub; right; assumption].
    destruct (Hsub x (or_introl eq_refl)) as (Hn & Ha & Hr). 
    assert (I : incl (snd x) (attrs (fst x))) by (rewrite Ha; intros z Hz; apply filter_In in Hz; tauto).
    rewrite (node_weights_bytes_spec g cfg aq wq (fst x) (snd x) y W Hn Hq I H). unfold node_weights_memory. rewrite Hr, Ha. unfold attrs.
    rewrite Qsum_filter, Qsum_map. apply Qsum_ext. intros [a s] Hp. cbn [fst snd].
    destruct (quantized_attr (fst x) a); [|reflexivity].
    rewrite (dict_in_get _ _ _ (wf_attrs g W _ Hn) Hp). reflexivity. }
  rewrite S1, Qsum_filter. unfold weights_memory. rewrite Hnl, Qsum_map. apply Qsum_ext. intros n Hn. cbn [fst snd].
  destruct (filter (quantized_attr n) (attrs n)) as [|a0 r] eqn:Ef.
  - unfold node_weights_memory. destruct (n_reuse n); [reflexivity|]. 
    rewrite (Qsum_ext _ (fun _ => 0%Q)).
    + clear. induction (n_wsizes n) as [|x l IH]; [reflexivity|]. rewrite Qsum_cons, <- IH. ring.
    + intros [a s] Hp. cbn [fst]. destruct (quantized_attr n a) eqn:Eq; [|reflexivity]. exfalso.
      assert (In a (filter (quantized_attr n) (attrs n))) by (apply filter_In; split; [unfold attrs; apply in_map_iff; exists (a, s); auto|exact Eq]).
      rewrite Ef in H. destruct H.
  - destruct (n_reuse n) eqn:Er; cbn [negb]; [|reflexivity]. unfold node_weights_memory. rewrite Er. reflexivity.
Qed.

(* ---- activation memory ---- *)
Lemma preserved_from_source f g : forall n p, preserved_from f g n = Ok p -> source g n p.
Proof.
  induction f as [|f IH]; intros n p H; cbn [preserved_from] in H; [discriminate|].
  destruct (preserving n) as [b|] eqn:E; [|discriminate]. cbn [bind] in H. destruct (single_mode_spec _ _ _ E) as (_ & S & _).
  destruct b.
  - destruct (g_prev g (n_name n)) as [|x [|y r]] eqn:Ep; try discriminate. destruct (find_node g x) as [m|] eqn:Em; [|discriminate].
    cbn [bind] in H. destruct (find_node_ok _ _ _ Em) as [Hm <-]. apply (Src_back g n m p); auto. apply S; reflexivity.
  - inversion H; subst. constructor. intro Hh. apply S in Hh. discriminate.
Qed.
Lemma preserved_source g n p : preserved g n = Ok p -> source g n p.
Proof. apply preserved_from_source. Qed.
Lemma source_in g n p : In n (g_nodes g) -> source g n p -> In p (g_nodes g).
Proof. intros Hi H. induction H; auto. Qed.

Lemma act_nbits_spec g cfg aq wq n qc b : wf_graph g -> In n (g_nodes g) -> quant_candidates g cfg = Ok (aq, wq) ->
  extract_qc g n (Some aq) = Ok qc -> act_nbits g n B_Custom qc = Ok b ->
  exists p, preserved g n = Ok p /\ b = abits cfg p.
Proof.
  intros W Hi Hq He H. unfold act_nbits in H. destruct (preserved g n) as [p|] eqn:Ep; [|discriminate]. cbn [bind] in H.
  exists p. split; [reflexivity|].
  pose proof (source_in g n p Hi (preserved_source g n p Ep)) as Hp.
  pose proof (quant_candidates_get g cfg aq wq p (wf_names g W) Hp Hq) as Q.
  assert (Hqc : qc = dict_get (n_name p) aq).
  { unfold extract_qc in He. destruct aq as [|x aq']; [inversion He; reflexivity|].
    destruct (preserving n) as [pr|]; [|discriminate]. cbn [bind] in He.
    match type of He with (if ?c then _ else _) = _ => destruct c; [discriminate|] end. rewrite Ep in He. cbn [bind] in He. congruence. }
  subst qc. destruct (dict_get (n_name p) cfg) as [i|] eqn:Ec.
  - destruct Q as (c & Q1 & Q2 & _). rewrite Q2 in H. unfold abits, selected. rewrite Ec, Q1. inversion H; reflexivity.
  - destruct Q as [Q1 _]. rewrite Q1 in H. destruct (act_enabled p) as [e|] eqn:Ee; [|discriminate]. cbn [bind] in H.
    unfold act_enabled, single_mode in Ee. unfold abits, selected. rewrite Ec. unfold unique_acts in H. destruct (n_cands p) as [|c r]; [discriminate|].
    destruct (forallb _ r); [|discriminate]. inversion Ee; subst e. cbn [hd_error]. destruct (amode_eqb (a_mode (c_act c)) A_QUANT); cbn [negb] in H.
    + cbn [map] in H. rewrite uniq_hd in H. destruct (uniq acfg_eqb [c_act c] (map c_act r)); [congruence|discriminate].
    + inversion H; reflexivity.
Qed.

(* the byte count of one tensor as a function of the configuration *)
Definition aterm (g : graph) (cfg : mpcfg) (n : node) : Q :=
  match preserved g n with Ok p => (inject_Z (n_out n * abits cfg p) / 8)%Q | Err _ => 0%Q end.
(* the target tensors of each cut that has some *)
Definition nodes_of (g : graph) (cut : list nat) : list node :=
  flat_map (fun x => match find_node g x with Ok n => [n] | Err _ => [] end) cut.
Definition tcuts (g : graph) : list (list node) :=
  filter (fun ns => match ns with [] => false | _ => true end)
    (map (fun cut => filter (fun n => okb (is_target_act g T_AnyQNonFused n)) (nodes_of g cut)) (g_cuts g)).

Lemma node_act_bytes_spec g cfg aq wq n q : wf_graph g -> In n (g_nodes g) -> quant_candidates g cfg = Ok (aq, wq) ->
  node_act_bytes g B_Custom (Some aq) n = Ok q -> q = aterm g cfg n.
Proof.
  intros W Hi Hq H. unfold node_act_bytes in H. destruct (extract_qc g n (Some aq)) as [qc|] eqn:E1; [|discriminate]. cbn [bind] in H.
  destruct (act_nbits g n B_Custom qc) as [b|] eqn:E2; [|discriminate]. cbn [bind] in H. inversion H; subst.
  destruct (act_nbits_spec g cfg aq wq n qc b W Hi Hq E1 E2) as (p & Ep & ->). unfold aterm. rewrite Ep. reflexivity.
Qed.

Lemma mapM_find g cut ns : mapM (find_node g) cut = Ok ns -> nodes_of g cut = ns.
Proof.
  revert ns. induction cut as [|x cut IH]; intros ns H; cbn [mapM] in H; [inversion H; reflexivity|].
  unfold nodes_of. cbn [flat_map]. destruct (find_node g x) as [n|] eqn:E; [|discriminate]. cbn [bind] in H.
  destruct (mapM (find_node g) cut) as [ms|] eqn:E2; [|discriminate]. cbn [bind] in H. inversion H; subst. cbn [app]. f_equal. apply IH. reflexivity.
Qed.
Lemma nodes_of_in g cut n : In n (nodes_of g cut) -> In n (g_nodes g) /\ In (n_name n) cut.
Proof.
  unfold nodes_of. intro H. apply in_flat_map in H. destruct H as (x & Hx & H). destruct (find_node g x) as [m|] eqn:E; [|destruct H].
  destruct H as [->|[]]. destruct (find_node_ok _ _ _ E) as [A B]. split; [exact A|]. rewrite B. exact Hx.
Qed.
Lemma tcuts_in g ns n : In ns (tcuts g) -> In n ns -> In n (g_nodes g).
Proof.
  unfold tcuts. intros H1 H2. apply filter_In in H1. destruct H1 as [H1 _]. apply in_map_iff in H1. destruct H1 as (cut & <- & _).
  apply filter_In in H2. destruct H2 as [H2 _]. apply nodes_of_in in H2. tauto.
Qed.

Lemma act_per_cut_spec g cfg aq wq cuts : wf_graph g -> quant_candidates g cfg = Ok (aq, wq) ->
  act_per_cut g T_AnyQNonFused B_Custom (Some aq) = Ok cuts ->
  (exists tg, target_acts g T_AnyQNonFused [] = Ok tg /\
     match tg with [] => cuts = [] | _ => Forall2 Qeq cuts (map (Qsum (aterm g cfg)) (tcuts g)) end).
Proof.
  intros W Hq H. unfold act_per_cut in H. destruct (validate_qcs g (Some aq) B_Custom); [|discriminate]. cbn [bind] in H.
  destruct (target_acts g T_AnyQNonFused []) as [tg|]; [|discriminate]. cbn [bind] in H. exists tg. split; [reflexivity|].
  destruct tg as [|t0 tg]; [congruence|]. destruct (mapM _ (g_cuts g)) as [l|] eqn:El; [|discriminate]. cbn [bind] in H.
  assert (Hl : l = map (fun cut => filter (fun n => okb (is_target_act g T_AnyQNonFused n)) (nodes_of g cut)) (g_cuts g)).
  { pose proof (wf_cuts g W) as Wc. clear H. revert l El. induction (g_cuts g) as [|cut cs IH]; intros l El; cbn [mapM] in El; [inversion El; reflexivity|].
    destruct (mapM (find_node g) cut) as [ns|] eqn:En; [|discriminate]. cbn [bind] in El.
    destruct (target_acts g T_AnyQNonFused ns) as [ts|] eqn:Et; [|discriminate]. cbn [bind] in El.
    destruct (mapM _ cs) as [l'|] eqn:El'; [|discriminate]. cbn [bind] in El. inversion El; subst. cbn [map]. f_equal.
    - rewrite (mapM_find _ _ _ En). unfold target_acts in Et. destruct ns as [|n0 ns].
      + exfalso. destruct cut as [|x cut]; [apply (Wc []); [left; reflexivity|reflexivity]|]. cbn [mapM] in En.
        destruct (find_node g x); [|discriminate]. cbn [bind] in En. destruct (mapM (find_node g) cut); discriminate.
      + exact (filterM_pure _ _ _ Et).
    - apply IH; [intros c Hc; apply Wc; right; exact Hc|reflexivity]. }
  apply mapM_Forall2 in H. rewrite Hl in H. fold (tcuts g) in H.
  pose proof (tcuts_in g) as Ht. revert H Ht. generalize (tcuts g). intros tc H Ht. induction H; [constructor|]. cbn [map].
  constructor; [|apply IHForall2; intros ns n Hns; apply Ht; right; exact Hns].
  destruct (mapM (node_act_bytes g B_Custom (Some aq)) x) as [bs|] eqn:Eb; [|discriminate]. cbn [bind] in H. inversion H; subst.
  rewrite sum_Q_eq. apply Qsum_Forall2. apply mapM_Forall2 in Eb.
  assert (A : forall n, In n x -> In n (g_nodes g)) by (intros n Hn; apply (Ht x n); [left; reflexivity|exact Hn]).
  clear - Eb A W Hq. induction Eb; [constructor|]. constructor; [|apply IHEb; intros; apply A; right; assumption].
  rewrite (node_act_bytes_spec g cfg aq wq x y W (A x (or_introl eq_refl)) Hq H). reflexivity.
Qed.

(* ---- bit operations ---- *)
Lemma node_bops_spec g cfg aq wq n z : wf_graph g -> In n (g_nodes g) -> quant_candidates g cfg = Ok (aq, wq) ->
  node_bops g T_AnyQNonFused B_Custom (Some aq) (Some wq) n = Ok z -> node_bit_ops g cfg n z.
Proof.
  intros W Hi Hq H. unfold node_bops in H. destruct (validate_qcs g (Some aq) B_Custom); [|discriminate]. cbn [bind] in H.
  unfold node_bit_ops. destruct (n_kernel n) as [k|]; [|congruence]. destruct (Z.eqb_spec (n_mac n) 0) as [E0|E0]; [left; split; congruence|]. right.
  destruct (g_prev g (n_name n)) as [|x [|y r]] eqn:Ep; try discriminate. destruct (find_node g x) as [m|] eqn:Em; [|discriminate]. cbn [bind] in H.
  destruct (find_node_ok _ _ _ Em) as [Hm <-].
  destruct (extract_qc g m (Some aq)) as [qc|] eqn:E1; [|discriminate]. cbn [bind] in H.
  destruct (act_nbits g m B_Custom qc) as [ab|] eqn:E2; [|discriminate]. cbn [bind] in H.
  destruct (weight_nbits n k B_Custom _) as [wb|] eqn:E3; [|discriminate]. cbn [bind] in H. inversion H; subst.
  destruct (act_nbits_spec g cfg aq wq m qc ab W Hm Hq E1 E2) as (p & Hp & ->).
  rewrite (weight_nbits_spec g cfg aq wq n k wb W Hi Hq E3). exists m, p.
  split; [reflexivity|]. split; [exact Hm|]. split; [apply preserved_source; exact Hp|reflexivity].
Qed.
