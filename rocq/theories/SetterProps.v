(* SetterProps.v -- C56: the bit-widths the quantized model ends up with. *)
From Coq Require Import String Ascii.
From Verif Require Import Base SDict MPModel MPProofs HessianModel HessianProofs FilterModel FilterProps PlatModel SearchProofs LookupModel CandModel CandSpec CandProps SetterModel SetterSpec.
Local Open Scope list_scope.

(* ---- names of reused layers ---- *)
Lemma split_nonempty s : split_us s <> [].
Proof. destruct s as [|c r]; cbn; [discriminate|]. destruct (Ascii.eqb c us); [discriminate|]. destruct (split_us r); discriminate. Qed.
Lemma split_app a b : split_us (a ++ String us b) = split_us a ++ split_us b.
Proof.
  induction a as [|c a IH]; cbn [append split_us]; [rewrite Ascii.eqb_refl; reflexivity|]. rewrite IH.
  destruct (Ascii.eqb c us); [reflexivity|]. pose proof (split_nonempty a). destruct (split_us a); [congruence|reflexivity].
Qed.
Lemma join_split s : join_us (split_us s) = s.
Proof.
  induction s as [|c r IH]; [reflexivity|]. cbn [split_us]. pose proof (split_nonempty r) as N. destruct (Ascii.eqb_spec c us) as [->|Ne].
  - destruct (split_us r) as [|x l]; [congruence|]. change (join_us (EmptyString :: x :: l)) with (String us (join_us (x :: l))). congruence.
  - destruct (split_us r) as [|x l]; [congruence|]. destruct l as [|y l]; cbn [join_us append] in *; congruence.
Qed.

(* dropping the suffix that marks a reused layer gives back the name of the original, whatever it contains *)
Theorem original_name_of_reused : forall o k, ~ In us (list_ascii_of_string k) ->
  original_name (o ++ "_reuse_" ++ k) = o.
Proof.
  intros o k H. assert (split_us k = [k]) as K.
  { induction k as [|c k IH]; [reflexivity|]. cbn in H. cbn [split_us]. destruct (Ascii.eqb_spec c us) as [->|_]; [exfalso; apply H; left; reflexivity|]. rewrite IH; [reflexivity|tauto]. }
  unfold original_name. change ("_reuse_" ++ k)%string with (String us ("reuse" ++ String us k))%string. rewrite split_app.
  assert (split_us ("reuse" ++ String us k) = ["reuse"%string; k]) as -> by (rewrite split_app, K; reflexivity).
  rewrite app_length. cbn [length]. replace (length (split_us o) + 2 - 2)%nat with (length (split_us o)) by lia. rewrite firstn_app, Nat.sub_diag, firstn_all, app_nil_r. apply join_split.
Qed.
Print Assumptions original_name_of_reused.

(* ---- indices ---- *)
Lemma index_some s l p : index_of s l = Some p -> nth_error l p = Some s.
Proof.
  revert p. induction l as [|x l IH]; intros p H; cbn in H; [discriminate|]. destruct (String.eqb_spec x s) as [->|Ne]; [inversion H; reflexivity|].
  destruct (index_of s l); [|discriminate]. inversion H; subst. cbn. auto.
Qed.
Lemma index_none s l : index_of s l = None <-> ~ In s l.
Proof.
  induction l as [|x l IH]; cbn; [tauto|]. destruct (String.eqb_spec x s) as [->|Ne]; [split; [discriminate|intro H; exfalso; apply H; left; reflexivity]|].
  destruct (index_of s l); cbn; [split; [discriminate|]; intro H; exfalso; assert (@Some nat n = None) by (apply IH; tauto); discriminate|]. split; [|reflexivity]. intros _ [E|I]; [congruence|tauto].
Qed.

Lemma configurable_spec n b : is_configurable_node n = Ok b -> (b = true <-> configurable n).
Proof.
  unfold is_configurable_node. destruct (weights_configurable_node (sn_node n)) as [w|] eqn:E; [|discriminate]. cbn [bind].
  destruct (configurable_act (sn_cands n)) as [a|] eqn:A; [|discriminate]. cbn [bind]. intro H. inversion H; subst b.
  rewrite orb_true_iff, (configurable_node_spec _ _ E), (configurable_act_spec _ _ A). unfold configurable, kernel_varies, activation_varies, weights_vary, act_varies, sn_cands, sn_reuse. tauto.
Qed.

Lemma assigns_at g : forall conf cfg n i, configurable_snodes g = Ok conf ->
  (assigns g cfg n i <-> exists p, nth_error conf p = Some n /\ nth_error cfg p = Some i).
Proof.
  unfold configurable_snodes. induction g as [|m g IH]; intros conf cfg n i H; cbn [filterM] in H.
  - inversion H; subst conf. split; [intro A; inversion A|]. intros [[|p] [E _]]; discriminate.
  - destruct (is_configurable_node m) as [b|] eqn:E; [|discriminate]. cbn [bind] in H. destruct (filterM is_configurable_node g) as [c0|] eqn:F; [|discriminate]. cbn [bind] in H.
    pose proof (configurable_spec _ _ E) as C. destruct b; inversion H; subst conf.
    + assert (configurable m) as Cm by (apply C; reflexivity). split.
      * intro A. inversion A as [? ? ? ? X|? ? ? cf ? ? X Y|? ? ? ? ? X Y]; subst; [exists 0%nat; split; reflexivity| |tauto].
        apply (IH _ _ _ _ eq_refl) in Y. destruct Y as [p [P1 P2]]. exists (S p). split; assumption.
      * intros [[|p] [P1 P2]]; destruct cfg as [|j cfg]; try discriminate; cbn in P1, P2.
        -- inversion P1; inversion P2; subst. apply as_here, Cm.
        -- apply as_next; [exact Cm|]. apply (IH _ _ _ _ eq_refl). eauto.
    + assert (~ configurable m) as Cm by (intro X; apply C in X; discriminate). split.
      * intro A. inversion A as [? ? ? ? X|? ? ? cf ? ? X Y|? ? ? ? ? X Y]; subst; [tauto|tauto|]. apply (IH _ _ _ _ eq_refl), Y.
      * intro P. apply as_skip; [exact Cm|]. apply (IH _ _ _ _ eq_refl), P.
Qed.
Lemma conf_in g conf n : configurable_snodes g = Ok conf -> (In n conf <-> In n g /\ configurable n).
Proof.
  intro H. pose proof (filterM_pure _ _ _ H) as P. rewrite P, filter_In. split; intros [I Q]; (split; [exact I|]); destruct (filterM_ok _ _ _ n H I) as [b E]; rewrite E in *; pose proof (configurable_spec _ _ E) as C.
  - destruct b; [apply C; reflexivity|discriminate].
  - apply C in Q. subst b. reflexivity.
Qed.
Lemma node_final_spec i n f : node_final i n = Ok f -> exists c, nth_error (sn_cands n) i = Some c /\ f = Final (Some c) (Some c).
Proof.
  unfold node_final. intro H. destruct (act_enabled n) as [a|]; [|discriminate]. cbn [bind] in H.
  destruct (if a then Ok true else _) as [k|]; [|discriminate]. cbn [bind] in H. destruct k; [|discriminate].
  destruct (nth_error (sn_cands n) i) as [c|]; [|discriminate]. inversion H; eauto.
Qed.
Lemma any_weight_spec n b : any_weight n = Ok b -> (b = true <-> some_weight n).
Proof.
  unfold any_weight. destruct (mapM (attr_enabled n) (sn_attrs n)) as [l|] eqn:E; [|discriminate]. cbn [bind]. intro H. inversion H; subst b. clear H.
  apply mapM_Forall2 in E. unfold some_weight.
  assert (Q : forall a x, attr_enabled n a = Ok x -> (x = true <-> forall c, In c (sn_cands n) -> exists w, attr_cfg c a = Ok w /\ wc_enable w = true)).
  { intros a x. unfold attr_enabled. destruct (mapM _ (sn_cands n)) as [ws|] eqn:M; [|discriminate]. cbn [bind]. intro H. inversion H; subst x. apply mapM_Forall2 in M. clear -M.
    induction M as [|c w cs ws R M IH]; cbn [forallb]; [split; [intros _ c []|reflexivity]|]. rewrite andb_true_iff, IH. split.
    - intros [A B] d [<-|I]; [eauto|auto].
    - intro A. split; [destruct (A c (or_introl eq_refl)) as [v [V1 V2]]; congruence|]. intros d I. apply A. right; exact I. }
  rewrite existsb_exists. split.
  - intros [x [I T]]. subst x. induction E as [|a y l l' R E IH]; [destruct I|]. destruct I as [->|I].
    + exists a. split; [left; reflexivity|]. apply (Q a true R). reflexivity.
    + destruct (IH I) as [a' [J K]]. exists a'. split; [right; exact J|exact K].
  - intros [a [I K]]. induction E as [|a' y l l' R E IH]; [destruct I|]. destruct I as [->|I].
    + exists y. split; [left; reflexivity|]. apply (Q a y R), K.
    + destruct (IH I) as [x [J T]]. exists x. split; [right; exact J|exact T].
Qed.
Lemma fixed_final_spec n f : fixed_final n = Ok f -> first_candidate n f.
Proof.
  unfold fixed_final, act_enabled, first_candidate. intro H. destruct (single_mode (sn_cands n)) as [m|] eqn:M; [|discriminate]. cbn [bind] in H.
  apply single_mode_spec in M. assert (all_mode M_quant (sn_cands n) <-> m = M_quant) as Q.
  { split; [|intros ->; exact M]. intros [N A]. destruct M as [_ B]. destruct (sn_cands n) as [|c r]; [congruence|]. rewrite <- (A c (or_introl eq_refl)). symmetry. apply B. left; reflexivity. }
  destruct (sn_cands n) as [|c r] eqn:Ec; [destruct M as [M _]; congruence|]. cbn [hd_error].
  destruct (amode_eqb m M_quant) eqn:Am; cbn [bind] in H; (destruct (any_weight n) as [w|] eqn:W; [|discriminate]); cbn [bind] in H;
    pose proof (any_weight_spec n w W) as Sw; rewrite Q.
  - apply amode_eqb_eq in Am. destruct w; cbn [bind] in H; inversion H; subst f; cbn [f_act f_weights]; (split; [reflexivity|]); (split; [tauto|]);
      (split; [intro X; apply Sw in X; congruence|]); intro X; [exfalso; apply X, Sw; reflexivity|reflexivity].
  - assert (m <> M_quant) as Nm by (intro X; apply amode_eqb_eq in X; congruence).
    destruct w; cbn [bind] in H; inversion H; subst f; cbn [f_act f_weights]; (split; [tauto|]); (split; [reflexivity|]);
      (split; [intro X; apply Sw in X; congruence|]); intro X; [exfalso; apply X, Sw; reflexivity|reflexivity].
Qed.
Lemma name_inj (g : list snode) a b : NoDup (map sn_name g) -> In a g -> In b g -> sn_name a = sn_name b -> a = b.
Proof.
  induction g as [|x g IH]; intros N I J E; [destruct I|]. cbn in N. inversion N as [|? ? N1 N2]; subst.
  destruct I as [->|I], J as [->|J]; auto; exfalso; apply N1; [rewrite E|rewrite <- E]; apply in_map; assumption.
Qed.

Lemma Forall2_with_in {A B} (R : A -> B -> Prop) l l' : Forall2 R l l' -> Forall2 (fun x y => In x l /\ R x y) l l'.
Proof.
  induction 1 as [|x y l l' H F IH]; constructor; [split; [left; reflexivity|exact H]|]. eapply Forall2_impl; [|exact IH]. cbn. tauto.
Qed.

(* ---- C56: the final configuration ---- *)
(* a configuration gives a node at most one index *)
Theorem assigned_once : forall g cfg n i j, NoDup (map sn_name g) -> assigns g cfg n i -> assigns g cfg n j -> i = j.
Proof.
  intros g cfg n i j N A. revert N j. assert (forall g cfg n i, assigns g cfg n i -> In n g) as Q by (clear; induction 1; cbn; auto).
  induction A as [n g i cfg C|m g i cfg n k C A IH|m g cfg n k C A IH]; intros N j B; cbn in N; inversion N as [|? ? N1 N2]; subst; inversion B; subst; try tauto; auto;
    exfalso; apply N1; apply in_map; eauto.
Qed.
Print Assumptions assigned_once.

(* with mixed precision: a configurable node gets the candidate its index denotes; a reused layer the one at the index of the
   original; any other node its first candidate, for what of it is quantized *)
Theorem final_bit_widths : forall g cfg fs, NoDup (map sn_name g) -> set_bit_widths true g cfg = Ok fs ->
  Forall2 (fun n f =>
    (sn_reuse n = false -> configurable n -> exists i c, assigns g cfg n i /\ nth_error (sn_cands n) i = Some c /\ f = Final (Some c) (Some c)) /\
    (forall o, sn_reuse n = true -> In o g -> sn_name o = original_name (sn_name n) -> configurable o ->
       exists i c, assigns g cfg o i /\ nth_error (sn_cands n) i = Some c /\ f = Final (Some c) (Some c)) /\
    ((sn_reuse n = false /\ ~ configurable n) \/
     (sn_reuse n = true /\ forall o, In o g -> sn_name o = original_name (sn_name n) -> ~ configurable o) -> first_candidate n f)) g fs.
Proof.
  intros g cfg fs N H. unfold set_bit_widths in H. destruct (configurable_snodes g) as [conf|] eqn:E; [|discriminate]. cbn [bind] in H.
  destruct (existsb _ conf); [discriminate|]. apply mapM_Forall2 in H.
  apply Forall2_with_in in H. eapply Forall2_impl; [|exact H]. clear H. cbn beta zeta. intros n f [I H].
  assert (L : forall x, In x g -> configurable x -> forall p, index_of (sn_name x) (map sn_name conf) = Some p -> nth_error conf p = Some x).
  { intros x Ix Cx p P. apply index_some in P. rewrite nth_error_map in P. destruct (nth_error conf p) as [y|] eqn:Y; [|discriminate]. cbn in P. inversion P as [Ey].
    f_equal. apply nth_error_In in Y. apply (conf_in _ _ _ E) in Y. apply (name_inj g); tauto. }
  assert (M : forall x, In x g -> configurable x -> exists p, index_of (sn_name x) (map sn_name conf) = Some p).
  { intros x Ix Cx. destruct (index_of (sn_name x) (map sn_name conf)) eqn:P; [eauto|]. exfalso. apply index_none in P. apply P, in_map, (conf_in _ _ _ E). auto. }
  assert (Q : forall x, In x g -> configurable x -> forall r, match index_of (sn_name x) (map sn_name conf) with
     | Some p => match nth_error cfg p with Some i => node_final i n | None => Err E_index end | None => r end = Ok f ->
     exists i c, assigns g cfg x i /\ nth_error (sn_cands n) i = Some c /\ f = Final (Some c) (Some c)).
  { intros x Ix Cx r Hx. destruct (M x Ix Cx) as [p P]. rewrite P in Hx. destruct (nth_error cfg p) as [i|] eqn:Ei; [|discriminate].
    destruct (node_final_spec _ _ _ Hx) as [c [C1 C2]]. exists i, c. split; [|auto]. apply (assigns_at g conf cfg x i E). exists p. split; [apply (L x Ix Cx p P)|exact Ei]. }
  split; [|split].
  - intros R C. rewrite R in H. exact (Q n I C _ H).
  - intros o R Io Eo Co. rewrite R, <- Eo in H. exact (Q o Io Co _ H).
  - intro X. apply fixed_final_spec. destruct (index_of _ (map sn_name conf)) as [p|] eqn:P; [exfalso|exact H].
    apply index_some in P. rewrite nth_error_map in P. destruct (nth_error conf p) as [y|] eqn:Y; [|discriminate]. cbn in P. inversion P as [Ey].
    apply nth_error_In, (conf_in _ _ _ E) in Y. destruct Y as [Iy Cy]. destruct X as [[R X]|[R X]]; rewrite R in Ey.
    + apply X. rewrite <- (name_inj g y n N Iy I Ey). exact Cy.
    + exact (X y Iy Ey Cy).
Qed.
Print Assumptions final_bit_widths.

(* a reused layer with the candidates of its original gets the very same configuration *)
Theorem reused_layer_shares_configuration : forall g cfg fs p q n o fn fo, NoDup (map sn_name g) -> set_bit_widths true g cfg = Ok fs ->
  nth_error g p = Some n -> nth_error fs p = Some fn -> nth_error g q = Some o -> nth_error fs q = Some fo ->
  sn_reuse n = true -> sn_reuse o = false -> sn_name o = original_name (sn_name n) -> configurable o -> sn_cands n = sn_cands o -> fn = fo.
Proof.
  intros g cfg fs p q n o fn fo N H Gn Fn Go Fo Rn Ro E C Ec. pose proof (final_bit_widths g cfg fs N H) as F.
  assert (K : forall (R : snode -> final -> Prop) l l', Forall2 R l l' -> forall k x y, nth_error l k = Some x -> nth_error l' k = Some y -> R x y).
  { clear. induction 1; intros [|k] a b A B; cbn in *; try discriminate; [inversion A; inversion B; subst; assumption|eauto]. }
  pose proof (K _ _ _ F p n fn Gn Fn) as [_ [A _]]. pose proof (K _ _ _ F q o fo Go Fo) as [B _].
  destruct (A o Rn (nth_error_In _ _ Go) E C) as [i [c [A1 [A2 A3]]]]. destruct (B Ro C) as [j [d [B1 [B2 B3]]]].
  rewrite (assigned_once g cfg o i j N A1 B1) in A2. rewrite Ec in A2. congruence.
Qed.
Print Assumptions reused_layer_shares_configuration.

(* without mixed precision every node must have one candidate, and gets it; a node that preserves the quantization of its
   input gets no activation configuration of its own *)
Theorem final_single_precision : forall g cfg fs, set_bit_widths false g cfg = Ok fs <->
  Forall2 (fun n f => exists c, sn_cands n = [c] /\ f_weights f = Some c /\
             ((cd_mode c = M_preserve /\ f_act f = None) \/ (cd_mode c <> M_preserve /\ f_act f = Some c))) g fs.
Proof.
  intros g cfg fs. cbn [set_bit_widths]. split.
  - intro H. apply mapM_Forall2 in H. eapply Forall2_impl; [|exact H]. clear. intros n f H. unfold single_final in H. destruct (sn_cands n) as [|c [|d r]]; try discriminate.
    inversion H; subst f. exists c. cbn. split; [reflexivity|]. split; [reflexivity|]. destruct (amode_eqb (cd_mode c) M_preserve) eqn:E.
    + left. split; [apply amode_eqb_eq, E|reflexivity].
    + right. split; [intro X; apply amode_eqb_eq in X; congruence|reflexivity].
  - induction 1 as [|n [fw fa] g fs [c [C1 [C2 C3]]] F IH]; cbn [mapM]; [reflexivity|]. unfold single_final at 1. rewrite C1. cbn in C2, C3. subst fw. cbn [bind]. rewrite IH. cbn [bind].
    destruct C3 as [[X ->]|[X ->]]; [rewrite X; reflexivity|]. destruct (amode_eqb (cd_mode c) M_preserve) eqn:E; [apply amode_eqb_eq in E; congruence|reflexivity].
Qed.
Print Assumptions final_single_precision.

(* ---- cases ---- *)
Definition k8 := WCfg 0 8 true true.
Definition k4 := WCfg 0 4 true true.
Definition cd (wb ab : Z) := Cand 0 ab M_quant 0 None [] [("weight"%string, WCfg 0 wb true true)].
Definition four := [cd 8 8; cd 8 4; cd 4 8; cd 4 4].
Definition conv (name : string) (reuse : bool) (base : cand) (cs : list cand) : snode :=
  SNode name [W_name "weight"] (CNode 0 (Some "weight"%string) reuse (NodeCfg base cs)).

(* two layers, each with its own index *)
Example final_case : set_bit_widths true [conv "a" false (cd 8 8) four; conv "b" false (cd 8 8) four] [3%nat; 1%nat] =
  Ok [Final (Some (cd 4 4)) (Some (cd 4 4)); Final (Some (cd 8 4)) (Some (cd 8 4))].
Proof. reflexivity. Qed.
Lemma conv_varies name b r : configurable (conv name r b four).
Proof. right. split; [split; [discriminate|cbn; intros c [<-|[<-|[<-|[<-|[]]]]]; reflexivity]|]. exists (cd 8 8), (cd 8 4). cbn. split; [auto|]. split; [auto|]. left. discriminate. Qed.

(* the configuration has an index of its own for a reused layer whose activations are searched, but it is ignored: here the
   search gave 4 activation bits to the reused layer and the model gets 8 *)
Theorem reused_activation_choice_ignored_refuted : exists g cfg n i c f,
  nth_error g 1 = Some n /\ assigns g cfg n i /\ nth_error (sn_cands n) i = Some c /\ cd_bits c = 4%Z /\
  set_bit_widths true g cfg = Ok [f; f] /\ (exists d, f_act f = Some d /\ cd_bits d = 8%Z).
Proof.
  exists [conv "a" false (cd 8 8) four; conv "a_reuse_1" true (cd 8 8) four], [0%nat; 1%nat], (conv "a_reuse_1" true (cd 8 8) four), 1%nat, (cd 8 4), (Final (Some (cd 8 8)) (Some (cd 8 8))).
  split; [reflexivity|]. split; [apply as_next; [apply conv_varies|]; apply as_here, conv_varies|]. split; [reflexivity|]. split; [reflexivity|]. split; [reflexivity|]. eexists. split; reflexivity.
Qed.
Print Assumptions reused_activation_choice_ignored_refuted.

(* when only activations are restricted, the candidates of the original layer are filtered but not those of the layer that
   reuses it; the same index then gives the two different bit-widths for the weights they share *)
Theorem reused_weights_differ_refuted : exists n o n' o' f h,
  sn_cands n = sn_cands o /\ sn_name o = original_name (sn_name n) /\
  mp_filter (Restricted false true false false) [sn_node o; sn_node n] = Ok [sn_node o'; sn_node n'] /\
  sn_name o' = sn_name o /\ sn_name n' = sn_name n /\ sn_attrs o' = sn_attrs o /\ sn_attrs n' = sn_attrs n /\
  set_bit_widths true [o'; n'] [1%nat; 1%nat] = Ok [f; h] /\
  (exists c w d v, f_weights f = Some c /\ get_attr_config c "weight" = Ok w /\ f_weights h = Some d /\ get_attr_config d "weight" = Ok v /\
     wc_bits w = 4%Z /\ wc_bits v = 8%Z).
Proof.
  exists (conv "a_reuse_1" true (cd 4 8) four), (conv "a" false (cd 4 8) four), (conv "a_reuse_1" true (cd 4 8) four), (conv "a" false (cd 4 8) [cd 4 8; cd 4 4]),
    (Final (Some (cd 4 4)) (Some (cd 4 4))), (Final (Some (cd 8 4)) (Some (cd 8 4))).
  do 8 (split; [reflexivity|]). exists (cd 4 4), k4, (cd 8 4), k8. do 5 (split; [reflexivity|]). reflexivity.
Qed.
Print Assumptions reused_weights_differ_refuted.
