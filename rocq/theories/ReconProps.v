(* ReconProps.v -- C19: from configurations of the virtual graph to configurations of the original graph. *)
From Coq Require Import String Permutation Sorted.
From Verif Require Import Base SDict ReconModel ReconSpec ReconProofs ReconMain ReconMore.
Local Open Scope list_scope.
Local Open Scope nat_scope.
Local Open Scope string_scope.

(* The virtual graph holds the activation of every node of the original graph exactly once, and the weights of every
   node with a kernel exactly once; splitting and composing change neither what is configurable nor the configurations
   a part can take. *)
Theorem parts_in_one_virtual_node : forall bits_a bits_w g vs n,
  graph_ok g -> virtual_nodes bits_a bits_w g = Ok vs -> In n (og_nodes g) ->
  (exists v, In v vs /\ act_part v = Some n /\ (forall v', In v' vs -> act_part v' = Some n -> v' = v) /\
             v_conf_a bits_a bits_w v = o_conf_a n /\
             (forall a, In a (map c_a (v_cands bits_a bits_w v)) <-> In a (map c_a (o_cands n)))) /\
  (o_kernel n = true \/ o_conf_w n = true ->
   exists v, In v vs /\ wts_part v = Some n /\ (forall v', In v' vs -> wts_part v' = Some n -> v' = v) /\
             v_conf_w bits_a bits_w v = o_conf_w n /\
             (forall w, In w (map c_w (v_cands bits_a bits_w v)) <-> In w (map c_w (o_cands n)))).
Proof.
  intros ba bw g vs n G V N. split.
  - destruct (act_part_exists ba bw g G vs V n N) as [v [I P]]. exists v. split; [exact I|]. split; [exact P|]. split; [|split].
    + intros v' I' P'. eapply (act_part_unique ba bw g G vs V); eassumption.
    + apply (conf_a_of ba bw g G vs V); assumption.
    + intro a. apply v_act_keys; [exact P|]. intros m R. eapply gk_some; [exact G|]. eapply (wts_part_in ba bw); eassumption.
  - intro H. destruct (wts_part_exists ba bw g G vs V n N) as [v [I P]]; [tauto|]. exists v. split; [exact I|]. split; [exact P|]. split; [|split].
    + intros v' I' P'. eapply (wts_part_unique ba bw g vs V); eassumption.
    + apply (conf_w_of ba bw g G vs V); assumption.
    + intro w. apply v_wts_keys; [exact P|]. intros m R. eapply gk_some; [exact G|]. eapply (act_part_in ba bw); eassumption.
Qed.
Print Assumptions parts_in_one_virtual_node.

(* Every assignment of the virtual graph is turned into a configuration of the original graph: it names exactly the
   configurable nodes, each once, and gives each of them a candidate whose activation configuration is the one given
   to the virtual node containing its activation and whose weights configuration is the one given to the virtual node
   containing its weights. *)
Theorem reconstruction_faithful : forall bits_a bits_w g vs cfg,
  graph_ok g -> virtual_nodes bits_a bits_w g = Ok vs -> assignment bits_a bits_w vs cfg ->
  (forall n, In n (og_nodes g) -> o_kernel n = true -> bits_decide bits_a bits_w n) ->
  exists oc, reconstruct_full bits_a bits_w g false cfg = Ok oc /\ NoDup (skeys oc) /\
    (forall name, In name (skeys oc) <-> exists n, In n (og_nodes g) /\ o_name n = name /\ configurable n = true) /\
    (forall n i, In n (og_nodes g) -> sget (o_name n) oc = Some i ->
       (o_conf_a n = true -> activation_agrees bits_a bits_w cfg n i) /\
       (o_conf_w n = true -> weights_agree bits_a bits_w cfg n i)).
Proof.
  intros ba bw g vs cfg G V [Once Nodes Index] B.
  assert (I1 : forall v, In v (map fst cfg) -> In v vs) by (intros v I; apply Nodes; exact I).
  assert (I2 : forall v, In v vs -> v_configurable ba bw v = true -> In v (map fst cfg)) by (intros; apply Nodes; auto).
  assert (I3 : forall v, In v (map fst cfg) -> v_configurable ba bw v = true) by (intros v I; apply Nodes; exact I).
  destruct (reconstruct_ok ba bw g G vs V cfg Once I1 Index false I2 B I3) as [oc [R [ND [S1 S2]]]].
  exists oc. split; [exact R|]. split; [exact ND|]. split.
  - intro name. split.
    + intro I. unfold skeys in I. apply in_map_iff in I. destruct I as [[k i] [Q I]]. cbn in Q. subst k.
      destruct (S1 _ _ I) as [n [N [Q [_ C]]]]. exists n. auto.
    + intros [n [N [<- C]]]. destruct (S2 n N C) as [i I]. unfold skeys. apply (in_map fst) in I. exact I.
  - intros n i N S. apply sget_in in S. destruct (S1 _ _ S) as [n' [N' [Q [[c [Qc [Ga Gw]]] _]]]].
    assert (n' = n) by (apply (name_inj g G); auto). subst n'. split; intro C.
    + destruct (conf_holder_a ba bw g G vs V cfg I2 n N C) as [v [j [I P]]].
      destruct (index_some ba bw v j (Index _ _ I)) as [q [Nq _]]. exists v, j, q, c. repeat split; auto. eapply Ga; eassumption.
    + destruct (conf_holder_w ba bw g G vs V cfg I2 n N C) as [v [j [I P]]].
      destruct (index_some ba bw v j (Index _ _ I)) as [q [Nq _]]. exists v, j, q, c. repeat split; auto. eapply Gw; eassumption.
Qed.
Print Assumptions reconstruction_faithful.

(* Asking for the nodes that are not configurable as well: the reconstruction still succeeds, still names every
   configurable node, and no entry contradicts the assignment. *)
Theorem reconstruction_with_others : forall bits_a bits_w g vs cfg,
  graph_ok g -> virtual_nodes bits_a bits_w g = Ok vs -> assignment bits_a bits_w vs cfg ->
  (forall n, In n (og_nodes g) -> o_kernel n = true -> bits_decide bits_a bits_w n) ->
  exists oc oc', reconstruct_full bits_a bits_w g true cfg = Ok oc /\ reconstruct_full bits_a bits_w g false cfg = Ok oc' /\
    (forall n, In n (og_nodes g) -> configurable n = true -> sget (o_name n) oc = sget (o_name n) oc' /\ sget (o_name n) oc <> None) /\
    (forall name i, sget name oc = Some i -> exists n c, In n (og_nodes g) /\ o_name n = name /\ nth_error (o_cands n) i = Some c).
Proof.
  intros ba bw g vs cfg G V [Once Nodes Index] B.
  assert (I1 : forall v, In v (map fst cfg) -> In v vs) by (intros v I; apply Nodes; exact I).
  assert (I2 : forall v, In v vs -> v_configurable ba bw v = true -> In v (map fst cfg)) by (intros; apply Nodes; auto).
  assert (I3 : forall v, In v (map fst cfg) -> v_configurable ba bw v = true) by (intros v I; apply Nodes; exact I).
  destruct (reconstruct_ok ba bw g G vs V cfg Once I1 Index true I2 B I3) as [oc [R [ND [S1 S2]]]].
  destruct (reconstruct_ok ba bw g G vs V cfg Once I1 Index false I2 B I3) as [oc' [R' [ND' [S1' S2']]]].
  exists oc, oc'. split; [exact R|]. split; [exact R'|]. split.
  - intros n N C. destruct (S2 n N C) as [i I]. destruct (S2' n N C) as [i' I'].
    rewrite (in_sget _ _ _ ND I), (in_sget _ _ _ ND' I'). split; [|discriminate].
    destruct (S1 _ _ I) as [m [M [Q [[c [Qc [Ga Gw]]] _]]]]. assert (m = n) by (apply (name_inj g G); auto). subst m.
    destruct (S1' _ _ I') as [m [M' [Q' [[c' [Qc' [Ga' Gw']]] _]]]]. assert (m = n) by (apply (name_inj g G); auto). subst m.
    f_equal. apply (same_candidate g G n i i' c c'); auto.
    + destruct (o_conf_a n) eqn:Ca.
      * destruct (conf_holder_a ba bw g G vs V cfg I2 n N Ca) as [v [j [J P]]]. destruct (index_some ba bw v j (Index _ _ J)) as [q [Nq _]].
        rewrite (Ga v j q), (Ga' v j q) by assumption. reflexivity.
      * apply (settled_a g G n); auto; eapply nth_error_In; eassumption.
    + destruct (o_conf_w n) eqn:Cw.
      * destruct (conf_holder_w ba bw g G vs V cfg I2 n N Cw) as [v [j [J P]]]. destruct (index_some ba bw v j (Index _ _ J)) as [q [Nq _]].
        rewrite (Gw v j q), (Gw' v j q) by assumption. reflexivity.
      * apply (settled_w g G n); auto; eapply nth_error_In; eassumption.
  - intros name i S. apply sget_in in S. destruct (S1 _ _ S) as [n [N [Q [[c [Qc _]] _]]]]. exists n, c. auto.
Qed.
Print Assumptions reconstruction_with_others.

(* The two separate configurations of a part of the virtual nodes: exactly the activations (weights) contained in those
   virtual nodes, and each with a candidate that agrees. *)
Theorem reconstruction_separate : forall bits_a bits_w g vs all cfg,
  graph_ok g -> virtual_nodes bits_a bits_w g = Ok vs ->
  (forall v, In v (map fst cfg) -> In v vs) -> (forall v j, In (v, j) cfg -> j < length (v_cands bits_a bits_w v)) ->
  exists ac wc, reconstruct_separate bits_a bits_w g all cfg = Ok (ac, wc) /\
    (forall n, In n (og_nodes g) ->
       ((exists i, sget (o_name n) ac = Some i) <-> (all || o_conf_a n = true /\ exists v, In v (map fst cfg) /\ act_part v = Some n)) /\
       ((exists i, sget (o_name n) wc = Some i) <-> (all || o_conf_w n = true /\ exists v, In v (map fst cfg) /\ wts_part v = Some n)) /\
       (forall i, sget (o_name n) ac = Some i -> activation_agrees bits_a bits_w cfg n i) /\
       (forall i, sget (o_name n) wc = Some i -> weights_agree bits_a bits_w cfg n i)).
Proof.
  intros ba bw g vs all cfg G V I1 Index.
  destruct (separate_ok ba bw g G vs V all cfg I1 Index) as [ac [wc [R [Fa Fw]]]].
  exists ac, wc. split; [exact R|]. intros n N.
  assert (A : forall i, sget (o_name n) ac = Some i -> activation_agrees ba bw cfg n i /\ all || o_conf_a n = true)
    by (intros i S; eapply from_a_agrees; eassumption).
  assert (W : forall i, sget (o_name n) wc = Some i -> weights_agree ba bw cfg n i /\ all || o_conf_w n = true)
    by (intros i S; eapply from_w_agrees; eassumption).
  split; [|split; [|split]].
  - split.
    + intros [i S]. destruct (A i S) as [[v [j [q [c [I [P _]]]]]] C]. split; [exact C|]. exists v. split; [|exact P]. apply (in_map fst) in I. exact I.
    + intros [C [v [I P]]]. apply in_map_iff in I. destruct I as [[v' j] [Q I]]. cbn in Q. subst v'.
      assert (X := from_has ba bw all cfg Index _ _ act_part ac v j n (rA_some ba bw) Fa I P C).
      destruct (sget (o_name n) ac) as [i|]; [eauto|congruence].
  - split.
    + intros [i S]. destruct (W i S) as [[v [j [q [c [I [P _]]]]]] C]. split; [exact C|]. exists v. split; [|exact P]. apply (in_map fst) in I. exact I.
    + intros [C [v [I P]]]. apply in_map_iff in I. destruct I as [[v' j] [Q I]]. cbn in Q. subst v'.
      assert (X := from_has ba bw all cfg Index _ _ wts_part wc v j n (rW_some ba bw) Fw I P C).
      destruct (sget (o_name n) wc) as [i|]; [eauto|congruence].
  - intros i S. apply A. exact S.
  - intros i S. apply W. exact S.
Qed.
Print Assumptions reconstruction_separate.

(* The search over the virtual graph loses nothing: every configuration of the original graph is the reconstruction of
   some assignment of the virtual graph. *)
Theorem every_configuration_reached : forall bits_a bits_w g vs (choice : onode -> nat),
  graph_ok g -> virtual_nodes bits_a bits_w g = Ok vs ->
  (forall n, In n (og_nodes g) -> o_kernel n = true -> bits_decide bits_a bits_w n) ->
  (forall n, In n (og_nodes g) -> choice n < length (o_cands n)) ->
  exists cfg oc, assignment bits_a bits_w vs cfg /\ reconstruct_full bits_a bits_w g false cfg = Ok oc /\
    forall n, In n (og_nodes g) -> sget (o_name n) oc = if configurable n then Some (choice n) else None.
Proof.
  intros ba bw g vs choice G V B C.
  destruct (follow_assignment ba bw g vs V choice C) as [cfg [As F]].
  assert (As' := As). destruct As' as [Once Nodes Index].
  assert (I1 : forall v, In v (map fst cfg) -> In v vs) by (intros v I; apply Nodes; exact I).
  assert (I2 : forall v, In v vs -> v_configurable ba bw v = true -> In v (map fst cfg)) by (intros; apply Nodes; auto).
  assert (I3 : forall v, In v (map fst cfg) -> v_configurable ba bw v = true) by (intros v I; apply Nodes; exact I).
  destruct (reconstruct_ok ba bw g G vs V cfg Once I1 Index false I2 B I3) as [oc [R [ND [S1 S2]]]].
  exists cfg, oc. split; [exact As|]. split; [exact R|]. intros n N. destruct (configurable n) eqn:CF.
  - destruct (S2 n N CF) as [i I]. rewrite (in_sget _ _ _ ND I). f_equal.
    destruct (S1 _ _ I) as [m [M [Q [[c [Qc [Ga Gw]]] _]]]]. assert (m = n) by (apply (name_inj g G); auto). subst m.
    destruct (chosen g choice C n N) as [d [Qd Id]].
    apply (same_candidate g G n i (choice n) c d N Qc Qd).
    + destruct (o_conf_a n) eqn:Ca.
      * destruct (conf_holder_a ba bw g G vs V cfg I2 n N Ca) as [v [j [J P]]].
        destruct (F v j J) as [q [Nq [Fa _]]]. rewrite (Ga v j q) by assumption. apply (Fa n); assumption.
      * apply (settled_a g G n); auto. eapply nth_error_In; eassumption.
    + destruct (o_conf_w n) eqn:Cw.
      * destruct (conf_holder_w ba bw g G vs V cfg I2 n N Cw) as [v [j [J P]]].
        destruct (F v j J) as [q [Nq [_ Fw]]]. rewrite (Gw v j q) by assumption. apply (Fw n); assumption.
      * apply (settled_w g G n); auto. eapply nth_error_In; eassumption.
  - destruct (sget (o_name n) oc) as [i|] eqn:S; [|reflexivity]. apply sget_in in S.
    destruct (S1 _ _ S) as [m [M [Q [_ X]]]]. assert (m = n) by (apply (name_inj g G); auto). subst m. rewrite X in CF by reflexivity. discriminate.
Qed.
Print Assumptions every_configuration_reached.

Lemma assignment_determined_half bits_a bits_w g vs cfg cfg' oc oc' :
  graph_ok g -> virtual_nodes bits_a bits_w g = Ok vs ->
  (forall n, In n (og_nodes g) -> o_kernel n = true -> bits_decide bits_a bits_w n) ->
  assignment bits_a bits_w vs cfg -> assignment bits_a bits_w vs cfg' ->
  reconstruct_full bits_a bits_w g false cfg = Ok oc -> reconstruct_full bits_a bits_w g false cfg' = Ok oc' ->
  (forall name, sget name oc = sget name oc') ->
  forall v j, In (v, j) cfg -> In (v, j) cfg'.
Proof.
  intros G V B [Once Nodes Index] [Once' Nodes' Index'] R R' E0 v j I.
  assert (I1 : forall v, In v (map fst cfg) -> In v vs) by (intros u Iu; apply Nodes; exact Iu).
  assert (I2 : forall v, In v vs -> v_configurable bits_a bits_w v = true -> In v (map fst cfg)) by (intros; apply Nodes; auto).
  assert (I3 : forall v, In v (map fst cfg) -> v_configurable bits_a bits_w v = true) by (intros u Iu; apply Nodes; exact Iu).
  assert (I1' : forall v, In v (map fst cfg') -> In v vs) by (intros u Iu; apply Nodes'; exact Iu).
  assert (I2' : forall v, In v vs -> v_configurable bits_a bits_w v = true -> In v (map fst cfg')) by (intros; apply Nodes'; auto).
  assert (I3' : forall v, In v (map fst cfg') -> v_configurable bits_a bits_w v = true) by (intros u Iu; apply Nodes'; exact Iu).
  destruct (reconstruct_ok bits_a bits_w g G vs V cfg Once I1 Index false I2 B I3) as [o1 [R1 [ND [S1 S2]]]].
  rewrite R in R1. injection R1 as <-.
  destruct (reconstruct_ok bits_a bits_w g G vs V cfg' Once' I1' Index' false I2' B I3') as [o1 [R1 [ND' [S1' S2']]]].
  rewrite R' in R1. injection R1 as <-.
  assert (Iv : In v (map fst cfg)) by (apply (in_map fst) in I; exact I).
  assert (Iv' : In v (map fst cfg')) by (apply I2'; auto).
  apply in_map_iff in Iv'. destruct Iv' as [[u j'] [Q J]]. cbn in Q. subst u.
  assert (Vv := I1 v Iv).
  destruct (index_some bits_a bits_w v j (Index _ _ I)) as [q [Nq Iq]].
  destruct (index_some bits_a bits_w v j' (Index' _ _ J)) as [q' [Nq' Iq']].
  assert (GG : forall n, In n (og_nodes g) -> configurable n = true -> exists c,
      (act_part v = Some n -> c_a c = c_a q /\ c_a c = c_a q') /\ (wts_part v = Some n -> c_w c = c_w q /\ c_w c = c_w q')).
  { intros n N CF. destruct (S2 n N CF) as [i Ii]. assert (X := in_sget _ _ _ ND Ii). rewrite E0 in X. apply sget_in in X.
    destruct (S1 _ _ Ii) as [m [M [Qm [[c [Qc [Ga Gw]]] _]]]]. assert (m = n) by (apply (name_inj g G); auto). subst m.
    destruct (S1' _ _ X) as [m [M' [Qm' [[c' [Qc' [Ga' Gw']]] _]]]]. assert (m = n) by (apply (name_inj g G); auto). subst m.
    rewrite Qc in Qc'. injection Qc' as <-. exists c. split; intro P; split; eauto. }
  assert (EA : forall n, act_part v = Some n -> c_a q = c_a q').
  { intros n P. assert (N := act_part_in bits_a bits_w g vs V v n Vv P). destruct (o_conf_a n) eqn:C.
    - destruct (GG n N) as [c [X _]]; [unfold configurable; rewrite C; reflexivity|]. destruct (X P). congruence.
    - destruct (v_act_in bits_a bits_w g G vs V v n q Vv P Iq) as [c [Ic <-]].
      destruct (v_act_in bits_a bits_w g G vs V v n q' Vv P Iq') as [c' [Ic' <-]]. apply (settled_a g G n); assumption. }
  assert (EW : forall n, wts_part v = Some n -> c_w q = c_w q').
  { intros n P. assert (N := wts_part_in bits_a bits_w g vs V v n Vv P). destruct (o_conf_w n) eqn:C.
    - destruct (GG n N) as [c [_ X]]; [unfold configurable; rewrite C; apply orb_true_r|]. destruct (X P). congruence.
    - destruct (v_wts_in bits_a bits_w g G vs V v n q Vv P Iq) as [c [Ic <-]].
      destruct (v_wts_in bits_a bits_w g G vs V v n q' Vv P Iq') as [c' [Ic' <-]]. apply (settled_w g G n); assumption. }
  assert (Qq : q = q').
  { assert (F : c_a q = c_a q' /\ c_w q = c_w q'); [|destruct q, q'; cbn in F; destruct F; congruence].
    destruct v as [n|n|n|p n].
    - split; [apply (EA n); reflexivity|]. destruct (o_weights n) eqn:Ow; [apply (EW n); cbn; rewrite Ow; reflexivity|].
      apply (gk_off_w _ G n); try assumption; [|rewrite Ow; reflexivity]. apply (act_part_in bits_a bits_w g vs V (VReg n)); [assumption|reflexivity].
    - split; [|apply (EW n); reflexivity]. cbn [v_cands] in Iq, Iq'. unfold split_w_cands in *.
      apply in_map_iff in Iq. apply in_map_iff in Iq'. destruct Iq as [x [<- _]], Iq' as [y [<- _]]. reflexivity.
    - split; [apply (EA n); reflexivity|]. cbn [v_cands] in Iq, Iq'. unfold split_a_cands in *.
      apply in_map_iff in Iq. apply in_map_iff in Iq'. destruct Iq as [x [<- _]], Iq' as [y [<- _]]. reflexivity.
    - split; [apply (EA p); reflexivity|apply (EW n); reflexivity]. }
  subst q'. assert (D := v_cands_nodup bits_a bits_w g G vs V v Vv). rewrite NoDup_nth_error in D.
  rewrite (D j j'); [exact J|apply nth_error_Some; congruence|congruence].
Qed.

(* ... and counts nothing twice: two assignments with the same reconstruction are the same. *)
Theorem assignment_determined : forall bits_a bits_w g vs cfg cfg' oc oc',
  graph_ok g -> virtual_nodes bits_a bits_w g = Ok vs ->
  (forall n, In n (og_nodes g) -> o_kernel n = true -> bits_decide bits_a bits_w n) ->
  assignment bits_a bits_w vs cfg -> assignment bits_a bits_w vs cfg' ->
  reconstruct_full bits_a bits_w g false cfg = Ok oc -> reconstruct_full bits_a bits_w g false cfg' = Ok oc' ->
  (forall name, sget name oc = sget name oc') ->
  forall v j, In (v, j) cfg <-> In (v, j) cfg'.
Proof.
  intros ba bw g vs cfg cfg' oc oc' G V B As As' R R' E0 v j.
  split; [eapply (assignment_determined_half ba bw g vs cfg cfg'); eassumption|].
  eapply (assignment_determined_half ba bw g vs cfg' cfg); try eassumption. intro name. symmetry. apply E0.
Qed.
Print Assumptions assignment_determined.

(* The candidates of a composed node are all pairs of an activation configuration of the first node and a weights
   configuration of the second, each pair once, by falling number of weights bits, then of activation bits. *)
Theorem composed_candidates : forall bits_a bits_w g vs p n,
  graph_ok g -> virtual_nodes bits_a bits_w g = Ok vs -> In (VAW p n) vs ->
  (forall c, In c (v_cands bits_a bits_w (VAW p n)) <-> (exists cp cn, In cp (o_cands p) /\ In cn (o_cands n) /\ c = Cand (c_a cp) (c_w cn))) /\
  NoDup (v_cands bits_a bits_w (VAW p n)) /\
  StronglySorted (fun x y => bits_w (c_w y) < bits_w (c_w x) \/ bits_w (c_w y) = bits_w (c_w x) /\ bits_a (c_a y) <= bits_a (c_a x))
                 (v_cands bits_a bits_w (VAW p n)).
Proof.
  intros ba bw g vs p n G V I. split; [|split].
  - intro c. rewrite aw_cands. split.
    + intros [A W]. apply in_map_iff in A. apply in_map_iff in W. destruct A as [cp [Qa A]], W as [cn [Qw W]].
      exists cp, cn. repeat split; auto. destruct c. cbn in *. congruence.
    + intros [cp [cn [A [W ->]]]]. cbn. split; apply in_map; assumption.
  - eapply (v_cands_nodup ba bw); eassumption.
  - cbn [v_cands]. generalize (sort_sorted ba bw (flat_map (fun ca => map (fun cw => Cand (c_a ca) (c_w cw)) (uniq_w (split_w_cands n)))
                                                (if o_kernel p then split_a_cands p else o_cands p))).
    generalize (sort ba bw (flat_map (fun ca => map (fun cw => Cand (c_a ca) (c_w cw)) (uniq_w (split_w_cands n)))
                                                (if o_kernel p then split_a_cands p else o_cands p))) as l.
    intros l S. induction S as [|x l S IH F]; constructor; [exact IH|].
    eapply Forall_impl; [|exact F]. intros y Y. unfold before in Y.
    apply orb_true_iff in Y. rewrite andb_true_iff, Nat.ltb_lt, Nat.eqb_eq, Nat.leb_le in Y. exact Y.
Qed.
Print Assumptions composed_candidates.

(* ---- a graph: input, then two nodes with kernels; configuration k has k bits ---- *)
Definition bid (k : nat) : nat := k.
Definition c4 : list cand := [Cand 8 8; Cand 8 4; Cand 4 8; Cand 4 4].
Definition gx (x n m : list cand) : ograph :=
  OGraph [ONode "x" false false true false x; ONode "n" true true true true n; ONode "m" true true true true m]
         [("x", "n"); ("n", "m")].
Definition nx (g : ograph) (i : nat) : onode := nth i (og_nodes g) (ONode "" false false false false []).

Definition g1 : ograph := gx [Cand 8 0; Cand 2 0] c4 c4.
Example reconstruction_ex :
  graph_ok g1 /\ (forall n, In n (og_nodes g1) -> bits_decide bid bid n) /\
  exists vs, virtual_nodes bid bid g1 = Ok vs /\ length vs = 3 /\
    (let cfg := [(VAW (nx g1 0) (nx g1 1), 3); (VAW (nx g1 1) (nx g1 2), 1); (VSplitA (nx g1 2), 0)] in
     assignment bid bid vs cfg /\
     reconstruct_full bid bid g1 false cfg = Ok [("n", 3); ("m", 0); ("x", 1)] /\
     reconstruct_separate bid bid g1 false cfg = Ok ([("x", 1); ("n", 2); ("m", 0)], [("n", 1); ("m", 0)])).
Proof.
  split; [split|].
  - repeat constructor; cbn; intuition discriminate.
  - intros n [<-|[<-|[<-|[]]]]; discriminate.
  - intros n [<-|[<-|[<-|[]]]]; repeat constructor; cbn; intuition discriminate.
  - intros n c d [<-|[<-|[<-|[]]]]; discriminate.
  - intros n c d [<-|[<-|[<-|[]]]] H; try discriminate. intros [<-|[<-|[]]] [<-|[<-|[]]]; reflexivity.
  - intros n [<-|[<-|[<-|[]]]]; cbn; congruence.
  - split; [intros n _ c d _ _; unfold bid; split; auto|].
    eexists. split; [reflexivity|]. split; [reflexivity|]. cbn zeta. split; [|split; reflexivity].
    split.
    + repeat constructor; cbn; intuition discriminate.
    + intro v. cbn. split.
      * intros [<-|[<-|[<-|[]]]]; split; auto.
      * tauto.
    + intros v j [H|[H|[H|[]]]]; injection H as <- <-; cbn; lia.
Qed.

(* The check that a node may be split compares numbers of bits, the reconstruction compares configurations: with two
   activation configurations of 8 bits the check passes, and an assignment of the virtual graph has no counterpart. *)
Theorem same_bits_refuted :
  exists g vs cfg, graph_ok g /\ virtual_nodes (fun _ => 8) bid g = Ok vs /\ assignment (fun _ => 8) bid vs cfg /\
    reconstruct_full (fun _ => 8) bid g false cfg = Err E_value.
Proof.
  set (g := gx [Cand 1 0] [Cand 1 8; Cand 2 4] [Cand 1 8]).
  exists g, [VAW (nx g 0) (nx g 1); VAW (nx g 1) (nx g 2); VSplitA (nx g 2)],
         [(VAW (nx g 0) (nx g 1), 0); (VAW (nx g 1) (nx g 2), 1)].
  split; [split|].
  - repeat constructor; cbn; intuition discriminate.
  - intros n [<-|[<-|[<-|[]]]]; discriminate.
  - intros n [<-|[<-|[<-|[]]]]; repeat constructor; cbn; intuition discriminate.
  - intros n c d [<-|[<-|[<-|[]]]]; discriminate.
  - intros n c d [<-|[<-|[<-|[]]]] H; try discriminate. intros [<-|[]] [<-|[]]; reflexivity.
  - intros n [<-|[<-|[<-|[]]]]; cbn; congruence.
  - split; [reflexivity|]. split; [|reflexivity]. split.
    + repeat constructor; cbn; intuition discriminate.
    + intro v. split.
      * intros [<-|[<-|[]]]; split; try reflexivity; cbn; auto.
      * intros [[<-|[<-|[<-|[]]]] H]; cbn; auto. vm_compute in H. discriminate.
    + intros v j [H|[H|[]]]; injection H as <- <-; cbn; lia.
Qed.
Print Assumptions same_bits_refuted.

(* Asked to include the nodes that are not configurable, the reconstruction leaves out such a node exactly when both its
   activation and its weights have been assigned. *)
Theorem include_non_configurable_refuted :
  exists g vs cfg n, graph_ok g /\ virtual_nodes bid bid g = Ok vs /\ assignment bid bid vs cfg /\ In n (og_nodes g) /\
    (exists v j, In (v, j) cfg /\ act_part v = Some n) /\ (exists v j, In (v, j) cfg /\ wts_part v = Some n) /\
    exists oc, reconstruct_full bid bid g true cfg = Ok oc /\ sget (o_name n) oc = None.
Proof.
  set (g := gx [Cand 8 0; Cand 4 0] [Cand 8 8] [Cand 8 8; Cand 8 4]).
  exists g, [VAW (nx g 0) (nx g 1); VAW (nx g 1) (nx g 2); VSplitA (nx g 2)],
         [(VAW (nx g 0) (nx g 1), 1); (VAW (nx g 1) (nx g 2), 1)], (nx g 1).
  split; [split|].
  - repeat constructor; cbn; intuition discriminate.
  - intros n [<-|[<-|[<-|[]]]]; discriminate.
  - intros n [<-|[<-|[<-|[]]]]; repeat constructor; cbn; intuition discriminate.
  - intros n c d [<-|[<-|[<-|[]]]]; discriminate.
  - intros n c d [<-|[<-|[<-|[]]]] H; try discriminate. intros [<-|[<-|[]]] [<-|[<-|[]]]; reflexivity.
  - intros n [<-|[<-|[<-|[]]]]; cbn; congruence.
  - split; [reflexivity|]. split; [|split; [cbn; auto|split; [|split]]].
    + split.
      * repeat constructor; cbn; intuition discriminate.
      * intro v. split.
        -- intros [<-|[<-|[]]]; split; try reflexivity; cbn; auto.
        -- intros [[<-|[<-|[<-|[]]]] H]; cbn; auto. vm_compute in H. discriminate.
      * intros v j [H|[H|[]]]; injection H as <- <-; cbn; lia.
    + exists (VAW (nx g 1) (nx g 2)), 1. cbn. auto.
    + exists (VAW (nx g 0) (nx g 1)), 1. cbn. auto.
    + eexists. split; reflexivity.
Qed.
Print Assumptions include_non_configurable_refuted.

(* Two equal candidates in a node make every assignment of that activation fail. *)
Theorem equal_candidates_refuted :
  exists g vs cfg, virtual_nodes bid bid g = Ok vs /\ assignment bid bid vs cfg /\
    (forall n, In n (og_nodes g) -> bits_decide bid bid n) /\
    reconstruct_full bid bid g false cfg = Err E_assert.
Proof.
  set (g := gx [Cand 8 0] [Cand 8 8] [Cand 8 8; Cand 4 8; Cand 8 8]).
  exists g, [VAW (nx g 0) (nx g 1); VAW (nx g 1) (nx g 2); VSplitA (nx g 2)], [(VSplitA (nx g 2), 0)].
  split; [reflexivity|]. split; [|split; [intros n _ c d _ _; unfold bid; auto|reflexivity]].
  split.
  - repeat constructor; cbn; intuition discriminate.
  - intro v. split.
    + intros [<-|[]]; split; try reflexivity; cbn; auto.
    + intros [[<-|[<-|[<-|[]]]] H]; cbn; auto; vm_compute in H; discriminate.
  - intros v j [H|[]]; injection H as <- <-; cbn; lia.
Qed.
Print Assumptions equal_candidates_refuted.
