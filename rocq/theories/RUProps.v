(* RUProps.v -- C18: resource utilization is additive, order independent and monotone in the bit-widths. *)
From Verif Require Import Base HessianModel HessianProofs MPModel MPSpec MPProofs RULemmas SearchProofs.
From Coq Require Import Permutation Lqa.

Definition any_target (tg : targets) : bool := t_w tg || t_a tg || t_t tg || t_b tg.

(* inversion of the top-level computation *)
Lemma ru_for_config_inv g tg cfg r : any_target tg = true -> ru_for_config g tg cfg = Ok r ->
  exists aq wq, quant_candidates g cfg = Ok (aq, wq) /\
   exists w a b cuts,
   (t_w tg || t_t tg = true -> weights_utilization g T_AnyQNonFused B_Custom (Some wq) = Ok w) /\
   (t_a tg || t_t tg = true -> act_utilization g T_AnyQNonFused B_Custom (Some aq) = Ok (a, cuts)) /\
   (t_b tg = true -> bops g T_AnyQNonFused B_Custom (Some aq) (Some wq) = Ok b) /\
   r = mkRU (if t_w tg then Some w else None) (if t_a tg then Some a else None)
            (if t_t tg then Some (w + a)%Q else None) (if t_b tg then Some (inject_Z b) else None).
Proof.
  intros Ht H. unfold ru_for_config in H. destruct (quant_candidates g cfg) as [[aq wq]|]; [|discriminate]. cbn [bind] in H.
  exists aq, wq. split; [reflexivity|].
  destruct (compute_ru g T_AnyQNonFused B_Custom (Some aq) (Some wq) tg) as [[r' cu']|] eqn:Hc; [|discriminate].
  cbn [bind] in H. assert (r' = r) by congruence. subst r'. clear H. rename Hc into H.
  unfold compute_ru in H. unfold any_target in Ht. rewrite Ht in H.
  destruct (validate_qcs g (Some aq) B_Custom); [|discriminate]. destruct (validate_qcs g (Some wq) B_Custom); [|discriminate]. cbn [bind] in H.
  destruct tg as [tw ta tt tb]; cbn [t_w t_a t_t t_b] in *.
  assert (EW : (tw || tt = true -> (if tw || tt || tb then Some wq else None) = Some wq)) by (intros ->; reflexivity).
  assert (EA : (ta || tt = true -> (if ta || tt || tb then Some aq else None) = Some aq)) by (intros ->; reflexivity).
  match type of H with bind ?c _ = _ => destruct c as [w|] eqn:E1; [|discriminate] end. cbn [bind] in H.
  match type of H with bind ?c _ = _ => destruct c as [[a cu]|] eqn:E2; [|discriminate] end. cbn [bind] in H.
  match type of H with bind ?c _ = _ => destruct c as [b|] eqn:E3; [|discriminate] end. cbn [bind] in H.
  exists w, a, b, cu. split; [|split; [|split]].
  - intro Hx. rewrite Hx in E1. cbn [orb] in E1. exact E1.
  - intro Hx. rewrite Hx in E2. cbn [orb] in E2. exact E2.
  - intro Hx. rewrite Hx in E3. rewrite !orb_true_r in E3. exact E3.
  - inversion H. reflexivity.
Qed.

(* Weights memory is the sum over the nodes that own their weights of size * bits / 8 of the quantized attributes. *)
Theorem weights_memory_is_sum g tg cfg r : wf_graph g -> any_target tg = true -> ru_for_config g tg cfg = Ok r -> t_w tg = true ->
  exists q, ru_w r = Some q /\ (q == weights_memory g cfg)%Q.
Proof.
  intros W Ha H Ht. destruct (ru_for_config_inv g tg cfg r Ha H) as (aq & wq & Hq & w & a & b & cuts & Hw & _ & _ & ->).
  cbn [ru_w]. rewrite Ht in *. exists w. split; [reflexivity|]. eapply weights_utilization_spec; eauto.
Qed.
Print Assumptions weights_memory_is_sum.

(* ... so it does not depend on the order in which the nodes are visited. *)
Theorem weights_memory_order_independent g g' tg cfg r r' : wf_graph g -> wf_graph g' ->
  Permutation (g_nodes g) (g_nodes g') -> any_target tg = true -> t_w tg = true ->
  ru_for_config g tg cfg = Ok r -> ru_for_config g' tg cfg = Ok r' ->
  exists q q', ru_w r = Some q /\ ru_w r' = Some q' /\ (q == q')%Q.
Proof.
  intros W W' P Ha Ht H H'. destruct (weights_memory_is_sum g tg cfg r W Ha H Ht) as (q & E & Eq).
  destruct (weights_memory_is_sum g' tg cfg r' W' Ha H' Ht) as (q' & E' & Eq'). exists q, q'. split; [exact E|]. split; [exact E'|].
  rewrite Eq, Eq'. unfold weights_memory. apply Qsum_perm. exact P.
Qed.
Print Assumptions weights_memory_order_independent.

Lemma is_target_spec g n b : is_target_act g T_AnyQNonFused n = Ok b -> (b = true <-> counted g n).
Proof.
  cbn [is_target_act]. destruct (act_enabled n) as [e|] eqn:E; [|discriminate]. destruct (preserving n) as [p|] eqn:P; [|discriminate].
  cbn [bind]. intro H. inversion H; subst. destruct (single_mode_spec _ _ _ E) as (_ & S1 & _), (single_mode_spec _ _ _ P) as (_ & S2 & _).
  unfold counted. rewrite andb_true_iff, orb_true_iff, negb_true_iff, S1, S2. apply and_iff_compat_l. split.
  - intros Hf Hi. assert (existsb (Nat.eqb (n_name n)) (g_inner g) = true); [|congruence]. apply existsb_exists. exists (n_name n). rewrite Nat.eqb_refl. auto.
  - intro Hn. destruct (existsb _ _) eqn:Ex; [|reflexivity]. exfalso. apply existsb_exists in Ex. destruct Ex as (x & Hx & Ex). apply Nat.eqb_eq in Ex. subst x. auto.
Qed.

Lemma act_memory_term g cfg ns : (forall n, In n ns -> exists p, preserved g n = Ok p) ->
  act_memory g cfg ns (Qsum (aterm g cfg) ns).
Proof.
  intro H. induction ns as [|n ns IH]; [exists []; split; [constructor|reflexivity]|].
  destruct IH as (ps & F & E); [intros; apply H; right; assumption|]. destruct (H n) as [p Hp]; [left; reflexivity|].
  exists (p :: ps). split; [constructor; [apply preserved_source; exact Hp|exact F]|]. cbn [combine]. rewrite !Qsum_cons, E. cbn [fst snd].
  unfold aterm. rewrite Hp. reflexivity.
Qed.
Lemma act_memory_eq g cfg ns q q' : (q == q')%Q -> act_memory g cfg ns q -> act_memory g cfg ns q'.
Proof. intros E (ps & F & H). exists ps. split; [exact F|]. rewrite <- E. exact H. Qed.

Lemma counted_of_filter g cut ns : (forall n, In n (nodes_of g cut) -> exists b, is_target_act g T_AnyQNonFused n = Ok b) ->
  mapM (find_node g) cut = Ok ns ->
  counted_of g cut (filter (fun n => okb (is_target_act g T_AnyQNonFused n)) ns).
Proof.
  revert ns. induction cut as [|x cut IH]; intros ns D H; cbn [mapM] in H; [inversion H; constructor|].
  destruct (find_node g x) as [n|] eqn:En; [|discriminate]. cbn [bind] in H. destruct (mapM (find_node g) cut) as [ms|] eqn:Em; [|discriminate].
  cbn [bind] in H. inversion H; subst. destruct (find_node_ok _ _ _ En) as [Hn <-].
  assert (D1 : exists b, is_target_act g T_AnyQNonFused n = Ok b).
  { apply D. unfold nodes_of. cbn [flat_map]. rewrite En. left; reflexivity. }
  destruct D1 as [b Eb]. pose proof (is_target_spec g n b Eb) as S.
  assert (D2 : forall n0, In n0 (nodes_of g cut) -> exists b0, is_target_act g T_AnyQNonFused n0 = Ok b0).
  { intros n0 H0. apply D. unfold nodes_of. cbn [flat_map]. rewrite En. right. exact H0. }
  cbn [filter]. rewrite Eb. destruct b; cbn [okb].
  - constructor; [exact Hn|apply S; reflexivity|apply IH; auto].
  - apply Co_out; [exact Hn|intro Hc; apply S in Hc; discriminate|apply IH; auto].
Qed.

Definition nonempty {A} (l : list A) : bool := match l with [] => false | _ => true end.

Lemma act_cuts_meaning g cfg aq wq cuts : wf_graph g -> quant_candidates g cfg = Ok (aq, wq) ->
  act_per_cut g T_AnyQNonFused B_Custom (Some aq) = Ok cuts ->
   (forall n, In n (g_nodes g) -> ~ counted g n) /\ cuts = [] \/
   (exists n, In n (g_nodes g) /\ counted g n) /\
   exists tc, Forall2 (counted_of g) (g_cuts g) tc /\ Forall2 (act_memory g cfg) (filter nonempty tc) cuts.
Proof.
  intros W Hq H0. pose proof H0 as H. unfold act_per_cut in H. destruct (validate_qcs g (Some aq) B_Custom); [|discriminate]. cbn [bind] in H.
  destruct (target_acts g T_AnyQNonFused []) as [tg|] eqn:Et; [|discriminate]. cbn [bind] in H.
  pose proof (filterM_pure _ _ _ Et) as Ftg. cbn beta iota in Ftg.
  assert (Dec : forall n, In n (g_nodes g) -> exists b, is_target_act g T_AnyQNonFused n = Ok b) by (intros n Hn; exact (filterM_ok _ _ _ n Et Hn)).
  destruct tg as [|t0 tg].
  - left. split; [|congruence]. intros n Hn Hc. destruct (Dec n Hn) as [b Eb]. pose proof (proj2 (is_target_spec g n b Eb) Hc) as ->.
    assert (Hi : In n (filter (fun x => okb (is_target_act g T_AnyQNonFused x)) (g_nodes g))) by (apply filter_In; rewrite Eb; auto).
    rewrite <- Ftg in Hi. destruct Hi.
  - right. split.
    { exists t0. assert (Hi : In t0 (t0 :: tg)) by (left; reflexivity). rewrite Ftg in Hi. apply filter_In in Hi. destruct Hi as [Hi1 Hi2].
      split; [exact Hi1|]. destruct (is_target_act g T_AnyQNonFused t0) as [[|]|] eqn:Eb; try discriminate. apply (is_target_spec g t0 true Eb). reflexivity. }
    exists (map (fun cut => filter (fun n => okb (is_target_act g T_AnyQNonFused n)) (nodes_of g cut)) (g_cuts g)). 
    destruct (mapM _ (g_cuts g)) as [l|] eqn:El; [|discriminate]. cbn [bind] in H. split.
    + clear H H0 Ftg. revert l El. induction (g_cuts g) as [|cut cs IH]; intros l El; [constructor|]. cbn [mapM] in El.
      destruct (mapM (find_node g) cut) as [ns|] eqn:En; [|discriminate]. cbn [bind] in El.
      destruct (target_acts g T_AnyQNonFused ns) as [ts|]; [|discriminate]. cbn [bind] in El. destruct (mapM _ cs) as [l'|]; [|discriminate].
      cbn [map]. constructor; [|eapply IH; reflexivity]. rewrite (mapM_find _ _ _ En). apply counted_of_filter; [|exact En].
      intros n Hn. apply Dec. apply nodes_of_in in Hn. tauto.
    + destruct (act_per_cut_spec g cfg aq wq cuts W Hq H0) as (tg' & Et' & F). rewrite Et in Et'. assert (tg' = t0 :: tg) by congruence. subst tg'. clear Et'.
      cbn beta iota in F.
      match goal with |- Forall2 _ ?x _ => change x with (tcuts g) end.
      (* every target of every cut has a source node, since its bytes were computed *)
      assert (P : forall ns n, In ns (tcuts g) -> In n ns -> exists p, preserved g n = Ok p).
      { intros ns n Hns Hn. apply mapM_Forall2 in H.
        assert (Hl : l = map (fun cut => filter (fun n => okb (is_target_act g T_AnyQNonFused n)) (nodes_of g cut)) (g_cuts g)).
        { pose proof (wf_cuts g W) as Wc. clear - Wc El. revert l El. induction (g_cuts g) as [|cut cs IH]; intros l El; cbn [mapM] in El; [inversion El; reflexivity|].
          destruct (mapM (find_node g) cut) as [ns|] eqn:En; [|discriminate]. cbn [bind] in El.
          destruct (target_acts g T_AnyQNonFused ns) as [ts|] eqn:Et; [|discriminate]. cbn [bind] in El.
          destruct (mapM _ cs) as [l'|] eqn:El'; [|discriminate]. cbn [bind] in El. inversion El; subst. cbn [map]. f_equal.
          - rewrite (mapM_find _ _ _ En). unfold target_acts in Et. destruct ns as [|n0 ns].
            + exfalso. destruct cut as [|x cut]; [apply (Wc []); [left; reflexivity|reflexivity]|]. cbn [mapM] in En.
              destruct (find_node g x); [|discriminate]. cbn [bind] in En. destruct (mapM (find_node g) cut); discriminate.
            + exact (filterM_pure _ _ _ Et).
          - apply IH; [intros c Hc; apply Wc; right; exact Hc|reflexivity]. }
        rewrite Hl in H. fold (tcuts g) in H. destruct (Forall2_in_l _ _ _ ns H Hns) as (y & _ & Ey). cbn beta in Ey.
        destruct (mapM (node_act_bytes g B_Custom (Some aq)) ns) as [bs|] eqn:Eb; [|discriminate]. apply mapM_Forall2 in Eb.
        destruct (Forall2_in_l _ _ _ n Eb Hn) as (z & _ & Ez). unfold node_act_bytes in Ez.
        destruct (extract_qc g n (Some aq)) as [qc|]; [|discriminate]. cbn [bind] in Ez. unfold act_nbits in Ez.
        destruct (preserved g n) as [p|]; [eauto|discriminate]. }
      clear H H0 El Ftg. revert F P. generalize (tcuts g). intros tc F P. remember (map (Qsum (aterm g cfg)) tc) as L. revert tc HeqL P. induction F; intros tc HL P; destruct tc as [|ns tc]; try discriminate; [constructor|].
      cbn [map] in HL. assert (y = Qsum (aterm g cfg) ns) by congruence. assert (l' = map (Qsum (aterm g cfg)) tc) by congruence. subst y. constructor.
      * apply (act_memory_eq _ _ _ (Qsum (aterm g cfg) ns)); [symmetry; assumption|]. apply act_memory_term. intros n Hn. apply (P ns n); [left; reflexivity|exact Hn].
      * apply IHF; [assumption|]. intros ns' n Hns'. apply P. right; exact Hns'.
Qed.

Lemma fold_q_max_spec l : forall a, (forall x, In x (a :: l) -> (x <= fold_left q_max l a)%Q) /\ In (fold_left q_max l a) (a :: l).
Proof.
  induction l as [|y l IH]; intro a; cbn [fold_left]; [split; [intros x [->|[]]; apply Qle_refl|left; reflexivity]|].
  destruct (IH (q_max a y)) as [A B]. assert (C : (a <= q_max a y)%Q /\ (y <= q_max a y)%Q /\ (q_max a y = a \/ q_max a y = y)).
  { unfold q_max. destruct (Qle_bool a y) eqn:E; [apply Qle_bool_iff in E; split; [exact E|split; [apply Qle_refl|right; reflexivity]]|].
    assert (~ (a <= y)%Q) by (rewrite <- Qle_bool_iff; congruence). split; [apply Qle_refl|]. split; [lra|left; reflexivity]. }
  destruct C as (C1 & C2 & C3). split.
  - intros x [->|[->|Hx]]; [eapply Qle_trans; [exact C1|]|eapply Qle_trans; [exact C2|]|apply A; right; exact Hx]; apply A; left; reflexivity.
  - destruct B as [B|B]; [|right; right; exact B]. rewrite <- B. destruct C3 as [-> | ->]; [left; reflexivity|right; left; reflexivity].
Qed.

(* Activation memory is the largest amount held at any point of the memory schedule, counting the quantized tensors that
   live there with the bits of the quantizer that produced them; it is 0 when no tensor is quantized. *)
Theorem activation_memory_is_peak g tg cfg r : wf_graph g -> any_target tg = true -> ru_for_config g tg cfg = Ok r -> t_a tg = true ->
  exists q, ru_a r = Some q /\
   ((forall n, In n (g_nodes g) -> ~ counted g n) /\ q = 0%Q \/
    exists tc mems, Forall2 (counted_of g) (g_cuts g) tc /\ Forall2 (act_memory g cfg) (filter nonempty tc) mems /\
                    In q mems /\ forall m, In m mems -> (m <= q)%Q).
Proof.
  intros W Hany H Ht. destruct (ru_for_config_inv g tg cfg r Hany H) as (aq & wq & Hq & w & a & b & cuts & _ & Ha & _ & ->).
  cbn [ru_a]. rewrite Ht in *. exists a. split; [reflexivity|]. specialize (Ha eq_refl). unfold act_utilization in Ha.
  destruct (target_acts g T_AnyQNonFused []) as [tga|] eqn:Et; [|discriminate]. cbn [bind] in Ha.
  destruct (act_per_cut g T_AnyQNonFused B_Custom (Some aq)) as [l|] eqn:El; [|discriminate]. cbn [bind] in Ha.
  pose proof (filterM_pure _ _ _ Et) as Ftg. cbn beta iota in Ftg.
  destruct (act_cuts_meaning g cfg aq wq l W Hq El) as [[N ->]|[(n & Hn & Hc) (tc & T1 & T2)]].
  - left. split; [exact N|]. destruct tga as [|t0 tga]; [congruence|discriminate].
  - right. destruct tga as [|t0 tga].
    + exfalso. destruct (filterM_ok _ _ _ n Et Hn) as [b' Eb]. pose proof (proj2 (is_target_spec g n b' Eb) Hc) as ->.
      assert (Hi : In n (filter (fun x => okb (is_target_act g T_AnyQNonFused x)) (g_nodes g))) by (apply filter_In; rewrite Eb; auto).
      rewrite <- Ftg in Hi. destruct Hi.
    + destruct l as [|x l]; [discriminate|]. exists tc, (x :: l). split; [exact T1|]. split; [exact T2|].
      destruct (fold_q_max_spec l x) as [A B]. assert (a = fold_left q_max l x) by congruence. subst a. auto.
Qed.
Print Assumptions activation_memory_is_peak.

(* Total memory is the sum of the two. *)
Theorem total_memory_is_sum g tg cfg r : wf_graph g -> any_target tg = true -> ru_for_config g tg cfg = Ok r ->
  t_t tg = true -> t_a tg = true ->
  exists q a, ru_t r = Some q /\ ru_a r = Some a /\ (q == weights_memory g cfg + a)%Q.
Proof.
  intros W Hany H Ht Hta. destruct (ru_for_config_inv g tg cfg r Hany H) as (aq & wq & Hq & w & a & b & cuts & Hw & _ & _ & ->).
  cbn [ru_t ru_a]. rewrite Ht, Hta in *. exists (w + a)%Q, a. split; [reflexivity|]. split; [reflexivity|].
  rewrite orb_true_r in Hw. rewrite (weights_utilization_spec g cfg aq wq w W Hq (Hw eq_refl)). reflexivity.
Qed.
Print Assumptions total_memory_is_sum.

(* Bit-operations: the sum over the nodes with a kernel of input bits * kernel bits * multiply-accumulates. *)
Theorem bops_is_sum g tg cfg r : wf_graph g -> any_target tg = true -> ru_for_config g tg cfg = Ok r -> t_b tg = true ->
  exists zs, Forall2 (node_bit_ops g cfg) (g_nodes g) zs /\ ru_b r = Some (inject_Z (fold_right Z.add 0%Z zs)).
Proof.
  intros W Hany H Ht. destruct (ru_for_config_inv g tg cfg r Hany H) as (aq & wq & Hq & w & a & b & cuts & _ & _ & Hb & ->).
  cbn [ru_b]. rewrite Ht in *. specialize (Hb eq_refl). unfold bops in Hb. destruct (mapM _ (g_nodes g)) as [zs|] eqn:E; [|discriminate]. cbn [bind] in Hb.
  exists zs. split.
  - apply mapM_Forall2 in E.
    assert (G : forall ns zs, incl ns (g_nodes g) ->
       Forall2 (fun n z => node_bops g T_AnyQNonFused B_Custom (Some aq) (Some wq) n = Ok z) ns zs -> Forall2 (node_bit_ops g cfg) ns zs).
    { clear E. intros ns zs0 I E. induction E; [constructor|]. constructor; [eapply node_bops_spec; eauto; apply I; left; reflexivity|].
      apply IHE. intros z Hz. apply I. right; exact Hz. }
    apply G; [intros x Hx; exact Hx|exact E].
  - inversion Hb. do 2 f_equal. rewrite <- fold_symmetric; [reflexivity|intros; lia|intros; lia].
Qed.
Print Assumptions bops_is_sum.

(* Raising bit-widths never lowers any utilization. *)
Theorem utilization_monotone g tg cfg cfg' r r' : wf_graph g -> nonneg_graph g -> cfg_le g cfg cfg' ->
  ru_for_config g tg cfg = Ok r -> ru_for_config g tg cfg' = Ok r' -> ru_le r r'.
Proof.
  intros W NN Hle H H'. unfold ru_for_config in *.
  destruct (quant_candidates g cfg) as [[aq wq]|] eqn:Q; [|discriminate]. destruct (quant_candidates g cfg') as [[aq' wq']|] eqn:Q'; [|discriminate].
  cbn [bind] in *.
  destruct (compute_ru g _ _ (Some aq) (Some wq) tg) as [[x cx]|] eqn:E; [|discriminate].
  destruct (compute_ru g _ _ (Some aq') (Some wq') tg) as [[y cy]|] eqn:E'; [|discriminate]. cbn [bind] in *.
  assert (x = r) by congruence. assert (y = r') by congruence. subst x y.
  refine (compute_ru_mono g _ _ _ _ _ _ _ tg _ _ NN _ _ E E').
  - intros n a b b' Hn B B'. rewrite (weight_nbits_spec g cfg aq wq n a b W Hn Q B), (weight_nbits_spec g cfg' aq' wq' n a b' W Hn Q' B').
    split; [eapply wbits_nonneg; eauto|eapply wbits_mono; eauto].
  - intros n qc qc' b b' Hn X X' B B'. destruct (act_nbits_spec g cfg aq wq n qc b W Hn Q X B) as (p & Hp & ->).
    destruct (act_nbits_spec g cfg' aq' wq' n qc' b' W Hn Q' X' B') as (p' & Hp' & ->). assert (p' = p) by congruence. subst p'.
    pose proof (source_in g n p Hn (preserved_source g n p Hp)) as Hpi. split; [eapply abits_nonneg; eauto|eapply abits_mono; eauto].
Qed.
Print Assumptions utilization_monotone.

(* The minimal- and maximal-bit-width modes bracket every configuration. *)
Theorem utilization_between_extremes g tg cfg r rmin rmax cmin cmax : wf_graph g -> nonneg_graph g ->
  (forall n, In n (g_nodes g) -> selected cfg n <> None) ->
  ru_for_config g tg cfg = Ok r ->
  compute_ru g T_AnyQNonFused B_Min None None tg = Ok (rmin, cmin) ->
  compute_ru g T_AnyQNonFused B_Max None None tg = Ok (rmax, cmax) ->
  ru_le rmin r /\ ru_le r rmax.
Proof.
  intros W NN Hs H Hmin Hmax. unfold ru_for_config in H. destruct (quant_candidates g cfg) as [[aq wq]|] eqn:Q; [|discriminate]. cbn [bind] in H.
  destruct (compute_ru g _ _ (Some aq) (Some wq) tg) as [[x cx]|] eqn:E; [|discriminate]. cbn [bind] in H. assert (x = r) by congruence. subst x.
  assert (XN : forall n qc, extract_qc g n None = Ok qc -> qc = None) by (intros n qc X; cbn in X; congruence).
  split.
  - refine (compute_ru_mono g _ _ _ _ _ _ _ tg _ _ NN _ _ Hmin E).
    + intros n a b b' Hn B B'. rewrite (weight_nbits_spec g cfg aq wq n a b' W Hn Q B'). apply (weight_nbits_min g); auto.
    + intros n qc qc' b b' Hn X X' B B'. destruct (act_nbits_spec g cfg aq wq n qc' b' W Hn Q X' B') as (p & Hp & ->).
      rewrite (XN _ _ X) in B. pose proof (source_in g n p Hn (preserved_source g n p Hp)) as Hpi.
      split; [|apply (act_nbits_ext g cfg n p b B_Min (or_intror eq_refl) Hp (Hs p Hpi) B)].
      unfold act_nbits in B. rewrite Hp in B. cbn [bind] in B. destruct (act_enabled p) as [e|]; [|discriminate]. cbn [bind] in B.
      destruct e; cbn [negb] in B; [|inversion B; unfold float_bits; lia]. apply py_min_in in B. apply in_map_iff in B. destruct B as (c & <- & Hc).
      apply (nn_abits g NN p c Hpi Hc).
  - refine (compute_ru_mono g _ _ _ _ _ _ _ tg _ _ NN _ _ E Hmax).
    + intros n a b b' Hn B B'. rewrite (weight_nbits_spec g cfg aq wq n a b W Hn Q B). split; [eapply wbits_nonneg; eauto|].
      eapply (weight_nbits_max g); eauto.
    + intros n qc qc' b b' Hn X X' B B'. destruct (act_nbits_spec g cfg aq wq n qc b W Hn Q X B) as (p & Hp & ->).
      rewrite (XN _ _ X') in B'. pose proof (source_in g n p Hn (preserved_source g n p Hp)) as Hpi.
      split; [eapply abits_nonneg; eauto|]. apply (act_nbits_ext g cfg n p b' B_Max (or_introl eq_refl) Hp (Hs p Hpi) B').
Qed.
Print Assumptions utilization_between_extremes.

(* A utilization is reported as satisfying a target exactly when every restricted component is within it. *)
Theorem satisfied_iff target r :
  is_satisfied_by target r = true <->
  (forall sel, In sel [ru_w; ru_a; ru_t; ru_b] ->
     forall limit, sel target = Some limit -> exists q, sel r = Some q /\ (q <= limit)%Q).
Proof.
  unfold is_satisfied_by. rewrite !andb_true_iff.
  assert (L : forall x y, le_inf x y = true <-> (forall limit, y = Some limit -> exists q, x = Some q /\ (q <= limit)%Q)).
  { intros x [l|]; cbn; [|split; [intros _ l H; discriminate|reflexivity]]. destruct x as [q|].
    - rewrite Qle_bool_iff. split; [intros H l' E; inversion E; subst; eauto|]. intro H. destruct (H l eq_refl) as (q' & E & Hq). inversion E; subst; exact Hq.
    - split; [discriminate|]. intro H. destruct (H l eq_refl) as (q' & E & _). discriminate. }
  rewrite !L. split.
  - intros [[[A B] C] D] sel [<-|[<-|[<-|[<-|[]]]]]; assumption.
  - intro H. repeat split; apply H; cbn; auto.
Qed.
Print Assumptions satisfied_iff.

Local Open Scope nat_scope.
(* ---- a concrete graph: input -> conv (kernel 10 weights, mixed 4/8 bits) -> preserving pooling ---- *)
Definition ex_in : node := mkN 0 [mkC (mkA A_QUANT 8 0) []; mkC (mkA A_QUANT 4 0) []] [] 100 false None 0.
Definition ex_conv : node :=
  mkN 1 [mkC (mkA A_QUANT 8 0) [(7, mkW true 8 0)]; mkC (mkA A_QUANT 8 0) [(7, mkW true 4 0)]] [(7, 10%Z)] 60 false (Some 7) 1000.
Definition ex_pool : node := mkN 2 [mkC (mkA A_PRESERVE 8 0) []] [] 30 false None 0.
Definition ex_g : graph := mkG [ex_in; ex_conv; ex_pool] (fun x => match x with 1 => [0] | 2 => [1] | _ => [] end) [] [[0]; [0; 1]; [1; 2]; [2]].
Definition ex_tg := mkT true true true true.
Lemma ex_g_wf : wf_graph ex_g.
Proof.
  split; cbn.
  - repeat constructor; cbn; intuition discriminate.
  - intros n [<-|[<-|[<-|[]]]]; cbn; repeat constructor; cbn; intuition discriminate.
  - intros c [<-|[<-|[<-|[<-|[]]]]]; discriminate.
  - intros n c d a x y [<-|[<-|[<-|[]]]]; cbn.
    + intros [<-|[<-|[]]] _; cbn; discriminate.
    + intros [<-|[<-|[]]] [<-|[<-|[]]]; cbn; destruct (Nat.eqb a 7); try discriminate; intros E1 E2; inversion E1; inversion E2; reflexivity.
    + intros [<-|[]] _; cbn; discriminate.
Qed.
Lemma ex_g_nonneg : nonneg_graph ex_g.
Proof.
  split; cbn.
  - intros n a s [<-|[<-|[<-|[]]]]; cbn; [tauto| |tauto]. intros [E|[]]; inversion E; lia.
  - intros n [<-|[<-|[<-|[]]]]; cbn; lia.
  - intros n [<-|[<-|[<-|[]]]]; cbn; lia.
  - intros n c [<-|[<-|[<-|[]]]]; cbn; intros H; repeat (destruct H as [<-|H]; [cbn; lia|]); destruct H.
  - intros n c a w [<-|[<-|[<-|[]]]]; cbn; intros H; repeat (destruct H as [<-|H]; [cbn; intros [E|[]] || intros []; inversion E; cbn; lia|]); destruct H.
Qed.
Example ex_ru : exists r, ru_for_config ex_g ex_tg [(0, 1); (1, 0)] = Ok r /\
   match r with mkRU (Some w) (Some a) (Some t) (Some b) => (w == 10 /\ a == 110 /\ t == 120 /\ b == 32000)%Q | _ => False end.
Proof. eexists. split; [vm_compute; reflexivity|]. vm_compute. repeat split; reflexivity. Qed.
Example ex_le : cfg_le ex_g [(0, 1); (1, 1)] [(0, 1); (1, 0)].
Proof.
  intros n [<-|[<-|[<-|[]]]]; cbn.
  - repeat split; cbn; auto; lia.
  - split; [reflexivity|]. split; [cbn; lia|]. intro a. cbn. destruct (Nat.eqb a 7); cbn; [split; [reflexivity|lia]|exact I].
  - repeat split; cbn; auto; lia.
Qed.
