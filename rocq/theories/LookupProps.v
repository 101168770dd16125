(* LookupProps.v -- C44 (lookup priority), C22 (consumers' bit-widths), C54 (preserving nodes), C55 (fusing expansion). *)
From Coq Require Import String Permutation Sorted.
From Verif Require Import Base SDict FilterModel FilterSpec FilterProps PlatModel PlatSpec PlatProofs HessianModel HessianProofs
  MPModel MPProofs SearchProofs LookupModel LookupSpec.
Local Open Scope list_scope.

(* ---- C44 ---- *)
Lemma same_qco_refl a : same_qco a a.
Proof. split; [apply same_cfg_refl|apply Forall2_refl, same_cfg_refl]. Qed.
Lemma same_qco_sym a b : same_qco a b -> same_qco b a.
Proof. intros [A B]. split; [apply same_cfg_sym, A|apply (Forall2_sym _ same_cfg_sym), B]. Qed.
Lemma same_qco_trans' a b c : same_qco a b -> same_qco b c -> same_qco a c.
Proof. intros [A B] [A' B']. split; [eapply same_cfg_trans; eassumption|eapply (Forall2_trans _ same_cfg_trans); eassumption]. Qed.

Lemma conflicting_spec l : Forall wf_qco l -> (conflicting l = true <-> exists a b, In a l /\ In b l /\ ~ same_qco a b).
Proof.
  intro W. destruct l as [|q r]; cbn [conflicting].
  - split; [discriminate|]. intros [a [b [[] _]]].
  - inversion W as [|? ? Wq Wr]; subst. rewrite Forall_forall in Wr. rewrite existsb_exists. split.
    + intros [x [I X]]. apply negb_true_iff in X. exists x, q. split; [right; exact I|]. split; [left; reflexivity|].
      intro K. apply (qco_eqb_spec x q (Wr _ I) Wq) in K. congruence.
    + intros [a [b [Ia [Ib N]]]].
      assert (forall x, In x (q :: r) -> same_qco x q \/ exists y, In y r /\ negb (qco_eqb y q) = true) as D.
      { intros x [<-|I]; [left; apply same_qco_refl|]. destruct (qco_eqb x q) eqn:E.
        - left. apply (qco_eqb_spec x q (Wr _ I) Wq). exact E.
        - right. exists x. rewrite E. auto. }
      destruct (D a Ia) as [Sa|Y]; [|exact Y]. destruct (D b Ib) as [Sb|Y]; [|exact Y].
      exfalso. apply N. eapply same_qco_trans'; [exact Sa|apply same_qco_sym, Sb].
Qed.

Lemma lf_match_total n flt : (forall c, In c (lf_conds flt) -> defined (layer_config n) c) -> exists b, lf_match n flt = Ok b.
Proof.
  intro D. unfold lf_match. destruct (negb _); [eauto|]. destruct (existsb _ _); [eauto|].
  induction (lf_conds flt) as [|c r IH]; cbn; [eauto|]. destruct (filter_total _ c (D c (or_introl eq_refl))) as [b ->]. cbn.
  destruct b; [|eauto]. apply IH. intros d I. apply D. right. exact I.
Qed.

Section Lookup.
Variables (f : fqc) (n : fnode).
Hypothesis W : wf_fqc f.
Let fq (fm : list (lfilter * qco)) := map snd fm.
Let lq := map snd (filter (fun p => is_match_type n (fst (fst p)) (snd (fst p))) (q_layers f)).
Lemma fq_spec fm : filterM (fun p => lf_match n (fst p)) (q_filters f) = Ok fm -> forall q, In q (fq fm) <-> filter_for f n q.
Proof.
  intros E q. pose proof (filterM_pure _ _ _ E) as P. unfold fq. rewrite in_map_iff. split.
  - intros [[flt q'] [Eq I]]. cbn in Eq. subst q'. rewrite P in I. apply filter_In in I. destruct I as [I B].
    exists flt. split; [exact I|]. destruct (filterM_ok _ _ _ _ E I) as [b Hb]. cbn in Hb, B. rewrite Hb in B. cbn in B.
    apply (layer_filter_selects _ _ _ Hb). destruct b; [reflexivity|discriminate].
  - intros [flt [I S]]. exists (flt, q). split; [reflexivity|]. rewrite P. apply filter_In. split; [exact I|].
    destruct (filterM_ok _ _ _ _ E I) as [b Hb]. cbn in Hb |- *. rewrite Hb. apply (layer_filter_selects _ _ _ Hb) in S. subst b. reflexivity.
Qed.
Lemma lq_spec q : In q lq <-> layer_for f n q.
Proof.
  unfold lq. rewrite in_map_iff. split.
  - intros [[[id nm] q'] [E I]]. cbn in E. subst q'. apply filter_In in I. destruct I as [I B]. exists id, nm.
    split; [exact I|]. apply is_match_type_spec, B.
  - intros [id [nm [I T]]]. exists ((id, nm), q). split; [reflexivity|]. apply filter_In. split; [exact I|]. apply is_match_type_spec, T.
Qed.
Lemma fq_wf fm : filterM (fun p => lf_match n (fst p)) (q_filters f) = Ok fm -> Forall wf_qco (fq fm).
Proof.
  intro E. apply Forall_forall. intros q I. apply (fq_spec _ E) in I. destruct I as [flt [I _]]. destruct W as [W1 _].
  rewrite Forall_forall in W1. apply (W1 _ I).
Qed.
Lemma lq_wf : Forall wf_qco lq.
Proof.
  apply Forall_forall. intros q I. apply lq_spec in I. destruct I as [id [nm [I _]]]. destruct W as [_ W2].
  rewrite Forall_forall in W2. apply (W2 _ I).
Qed.
Lemma fetch_cases :
  match filterM (fun p => lf_match n (fst p)) (q_filters f) with
  | Ok fm => (conflict f n /\ fetch f n = Err E_value) \/ (~ conflict f n /\ exists q, fetch f n = Ok q /\ chosen f n q)
  | Err e => fetch f n = Err e
  end.
Proof.
  unfold fetch, fetch_opt. destruct (filterM _ (q_filters f)) as [fm|e] eqn:E; cbn [bind]; [|reflexivity].
  pose proof (conflicting_spec _ (fq_wf _ E)) as C1. pose proof (conflicting_spec _ lq_wf) as C2. unfold fq, lq in *.
  pose proof (fq_spec _ E) as S1. pose proof lq_spec as S2. unfold fq, lq in S1, S2.
  destruct (conflicting (map snd fm)).
  { left. split; [|reflexivity]. left. destruct (proj1 C1 eq_refl) as [a [b [Ia [Ib N]]]]. exists a, b. rewrite <- !S1. auto. }
  destruct (conflicting (map snd (filter _ (q_layers f)))).
  { left. split; [|reflexivity]. right. destruct (proj1 C2 eq_refl) as [a [b [Ia [Ib N]]]]. exists a, b. rewrite <- !S2. auto. }
  right. split.
  - intros [[a [b [Ia [Ib N]]]]|[a [b [Ia [Ib N]]]]].
    + assert (false = true) by (apply C1; exists a, b; rewrite !S1; auto). discriminate.
    + assert (false = true) by (apply C2; exists a, b; rewrite !S2; auto). discriminate.
  - cbn [bind]. eexists. split; [reflexivity|].
    destruct (map snd fm) as [|q r].
    + assert (forall q', ~ filter_for f n q') as NF by (intros q' K; apply S1 in K; destruct K).
      destruct (map snd (filter _ (q_layers f))) as [|q r] eqn:L.
      * cbn. apply C_default; [exact NF|]. intros q' K. apply S2 in K. destruct K.
      * cbn. apply C_layer; [exact NF|]. apply S2. left. reflexivity.
    + cbn. apply C_filter, S1. left. reflexivity.
Qed.
End Lookup.

(* C44: a successful lookup returns the options of a selecting filter, else of the layer type, else the default *)
Theorem lookup_priority f n q : wf_fqc f -> fetch f n = Ok q -> chosen f n q /\ ~ conflict f n.
Proof.
  intros W H. pose proof (fetch_cases f n W) as C. destruct (filterM _ (q_filters f)); [|congruence].
  destruct C as [[_ C]|[N [q' [C S]]]]; [congruence|]. split; [|exact N]. congruence.
Qed.
Print Assumptions lookup_priority.

(* C44: two applicable entries with different options raise, otherwise the lookup succeeds *)
Theorem lookup_conflict_raises f n : wf_fqc f -> filters_defined f n ->
  (conflict f n <-> fetch f n = Err E_value) /\ (~ conflict f n -> exists q, fetch f n = Ok q).
Proof.
  intros W D. pose proof (fetch_cases f n W) as C.
  destruct (filterM_total (fun p => lf_match n (fst p)) (q_filters f)) as [fm E].
  { intros [flt q] I. apply lf_match_total. intros c J. apply (D flt q I c J). }
  rewrite E in C. destruct C as [[K C]|[N [q [C S]]]].
  - split; [tauto|]. contradiction.
  - split; [|eauto]. split; [contradiction|]. rewrite C. discriminate.
Qed.
Print Assumptions lookup_conflict_raises.

(* C44: the result does not depend on the order of registration *)
Lemma filter_for_perm f f' n q : Permutation (q_filters f) (q_filters f') -> filter_for f n q -> filter_for f' n q.
Proof. intros P [flt [I S]]. exists flt. split; [eapply Permutation_in; eassumption|exact S]. Qed.
Lemma layer_for_perm f f' n q : Permutation (q_layers f) (q_layers f') -> layer_for f n q -> layer_for f' n q.
Proof. intros P [id [nm [I S]]]. exists id, nm. split; [eapply Permutation_in; eassumption|exact S]. Qed.

Theorem lookup_order_independent f f' n q : wf_fqc f ->
  Permutation (q_filters f) (q_filters f') -> Permutation (q_layers f) (q_layers f') -> q_default f = q_default f' ->
  fetch f n = Ok q -> exists q', fetch f' n = Ok q' /\ same_qco q q'.
Proof.
  intros W P1 P2 Ed H.
  assert (wf_fqc f') as W'.
  { destruct W as [A B]. split; rewrite Forall_forall in *; intros x I; [apply A|apply B]; eapply Permutation_in; try eassumption; apply Permutation_sym; assumption. }
  pose proof (lookup_priority _ _ _ W H) as [Ch NC].
  pose proof (fetch_cases f n W) as C. destruct (filterM (fun p => lf_match n (fst p)) (q_filters f)) as [fm|] eqn:E; [|congruence]. clear C.
  pose proof (fetch_cases f' n W') as C.
  destruct (filterM_total (fun p => lf_match n (fst p)) (q_filters f')) as [fm' E'].
  { intros p I. apply (filterM_ok _ _ _ p E). eapply Permutation_in; [apply Permutation_sym; exact P1|exact I]. }
  rewrite E' in C.
  assert (forall q, filter_for f' n q -> filter_for f n q) as F1 by (intro x; apply filter_for_perm, Permutation_sym, P1).
  assert (forall q, filter_for f n q -> filter_for f' n q) as F2 by (intro x; apply filter_for_perm, P1).
  assert (forall q, layer_for f' n q -> layer_for f n q) as L1 by (intro x; apply layer_for_perm, Permutation_sym, P2).
  assert (forall q, layer_for f n q -> layer_for f' n q) as L2 by (intro x; apply layer_for_perm, P2).
  assert (~ conflict f' n) as NC'.
  { intros [[a [b [A [B N]]]]|[a [b [A [B N]]]]]; apply NC; [left|right]; exists a, b; auto. }
  destruct C as [[K _]|[_ [q' [C Ch']]]]; [contradiction|]. exists q'. split; [exact C|].
  assert (forall a b, filter_for f n a -> filter_for f n b -> same_qco a b) as SF.
  { intros a b A B. destruct (qco_eqb a b) eqn:X.
    - apply (qco_eqb_spec a b); [| |exact X]; destruct W as [W1 _]; rewrite Forall_forall in W1; [destruct A as [? [I _]]|destruct B as [? [I _]]]; apply (W1 _ I).
    - exfalso. apply NC. left. exists a, b. split; [exact A|]. split; [exact B|]. intro S. apply qco_eqb_spec in S; [congruence| |];
        destruct W as [W1 _]; rewrite Forall_forall in W1; [destruct A as [? [I _]]|destruct B as [? [I _]]]; apply (W1 _ I). }
  assert (forall a b, layer_for f n a -> layer_for f n b -> same_qco a b) as SL.
  { intros a b A B. destruct (qco_eqb a b) eqn:X.
    - apply (qco_eqb_spec a b); [| |exact X]; destruct W as [_ W1]; rewrite Forall_forall in W1; [destruct A as [? [? [I _]]]|destruct B as [? [? [I _]]]]; apply (W1 _ I).
    - exfalso. apply NC. right. exists a, b. split; [exact A|]. split; [exact B|]. intro S. apply qco_eqb_spec in S; [congruence| |];
        destruct W as [_ W1]; rewrite Forall_forall in W1; [destruct A as [? [? [I _]]]|destruct B as [? [? [I _]]]]; apply (W1 _ I). }
  destruct Ch as [q A|q A B|A B].
  - destruct Ch' as [q' A'|q' A' B'|A' B']; [auto|exfalso; eapply A', F2, A|exfalso; eapply A', F2, A].
  - destruct Ch' as [q' A'|q' A' B'|A' B']; [exfalso; eapply A, F1, A'|auto|exfalso; eapply B', L2, B].
  - destruct Ch' as [q' A'|q' A' B'|A' B']; [exfalso; eapply A, F1, A'|exfalso; eapply B, L1, B'|rewrite Ed; apply same_qco_refl].
Qed.
Print Assumptions lookup_order_independent.

(* ---- C44: what the tables contain ---- *)
Lemma key_repeats_app l : forall seen m, key_repeats seen (l ++ m) = key_repeats seen l || key_repeats (seen ++ l) m.
Proof.
  induction l as [|k l IH]; intros seen m; cbn; [rewrite app_nil_r; reflexivity|].
  rewrite IH, <- app_assoc, orb_assoc. reflexivity.
Qed.
Lemma validate_keys l : forall names seen, validate_op_sets names seen l = Ok tt -> key_repeats seen (flat_map ol_layers l) = false.
Proof.
  induction l as [|o l IH]; intros names seen H; cbn in *; [reflexivity|]. destruct (existsb _ names); [discriminate|].
  destruct (key_repeats seen (ol_layers o)) eqn:K; [discriminate|]. rewrite key_repeats_app, K. cbn. eapply IH, H.
Qed.
Lemma kset_app k v d : existsb (lkey_eqb k) (map fst d) = false -> kset k v d = d ++ [(k, v)].
Proof.
  induction d as [|[k' v'] d IH]; cbn; intro H; [reflexivity|]. apply orb_false_iff in H. destruct H as [A B].
  rewrite A, IH by exact B. reflexivity.
Qed.
Lemma layer_fold t o ls : forall d r, key_repeats (map fst d) ls = false ->
  foldM (fun d l => let! q := layer_options t o l in Ok (kset l q d)) ls d = Ok r ->
  exists qs, mapM (layer_options t o) ls = Ok qs /\ r = d ++ combine ls qs.
Proof.
  induction ls as [|l ls IH]; intros d r K H; cbn in *.
  - exists []. split; [reflexivity|]. rewrite app_nil_r. congruence.
  - apply orb_false_iff in K. destruct K as [K1 K2]. destruct (layer_options t o l) as [q|]; [|discriminate]. cbn in H |- *.
    rewrite (kset_app _ _ _ K1) in H. apply IH in H; [|rewrite map_app; exact K2]. destruct H as [qs [-> ->]]. cbn.
    exists (q :: qs). split; [reflexivity|]. rewrite <- app_assoc. reflexivity.
Qed.
Lemma mapping_fold t ops : forall d r, key_repeats (map fst d) (flat_map ol_layers ops) = false ->
  foldM (fun d o => foldM (fun d l => let! q := layer_options t o l in Ok (kset l q d)) (ol_layers o) d) ops d = Ok r ->
  forall k q, In (k, q) r <-> In (k, q) d \/ exists o, In o ops /\ In k (ol_layers o) /\ layer_options t o k = Ok q.
Proof.
  induction ops as [|o ops IH]; intros d r K H k q; cbn [foldM flat_map] in *.
  - inversion H; subst. split; [auto|]. intros [I|[o [[] _]]]. exact I.
  - rewrite key_repeats_app in K. apply orb_false_iff in K. destruct K as [K1 K2].
    destruct (foldM _ (ol_layers o) d) as [d1|] eqn:E; [|discriminate]. cbn [bind] in H.
    apply layer_fold in E; [|exact K1]. destruct E as [qs [M ->]].
    assert (length (ol_layers o) = length qs) as L by (apply mapM_Forall2 in M; eapply SearchProofs.Forall2_length; exact M).
    assert (map fst (d ++ combine (ol_layers o) qs) = map fst d ++ ol_layers o) as EK.
    { rewrite map_app. f_equal. clear - L. revert qs L. induction (ol_layers o) as [|x l IH]; intros [|y qs] L; cbn in *; try discriminate; [reflexivity|]. f_equal. apply IH. lia. }
    rewrite (IH _ _ (eq_ind_r (fun z => key_repeats z _ = false) K2 EK) H k q). rewrite in_app_iff.
    assert (In (k, q) (combine (ol_layers o) qs) <-> In k (ol_layers o) /\ layer_options t o k = Ok q) as P.
    { clear - M. revert qs M. induction (ol_layers o) as [|x l IH]; intros qs M; cbn in M; [inversion M; subst; cbn; tauto|].
      destruct (layer_options t o x) as [qx|] eqn:X; [|discriminate]. cbn in M. destruct (mapM _ l) as [qs'|]; [|discriminate].
      cbn in M. inversion M; subst. cbn. rewrite (IH qs' eq_refl). split.
      - intros [E|[A B]]; [inversion E; subst; auto|auto].
      - intros [[->|A] B]; [left; congruence|right; auto]. }
    rewrite P. split.
    + intros [[I|[A B]]|[o' [I [A B]]]]; [auto|right; exists o; cbn; auto|right; exists o'; cbn; auto].
    + intros [I|[o' [[<-|I] [A B]]]]; [auto|auto|right; exists o'; auto].
Qed.

Lemma attach_ops custom builtin l : forall acc ops, foldM (attach_step custom builtin) l acc = Ok ops ->
  validate_op_sets [] [] acc = Ok tt -> validate_op_sets [] [] ops = Ok tt.
Proof.
  induction l as [|s l IH]; intros acc ops H; cbn [foldM] in H; [inversion H; subst; auto|].
  destruct (attach_step custom builtin acc s) as [acc'|] eqn:E; [|discriminate]. cbn [bind] in H.
  intro V. apply (IH _ _ H). unfold attach_step in E.
  assert (forall o, (let! _ := validate_op_sets [] [] (acc ++ [OpLayers (os_name s) (ol_layers o) (ol_attr o)]) in
            Ok (acc ++ [OpLayers (os_name s) (ol_layers o) (ol_attr o)])) = Ok acc' -> validate_op_sets [] [] acc' = Ok tt) as K.
  { intros o X. clear V. destruct (validate_op_sets [] [] (acc ++ _)) as [[]|] eqn:Y; [|discriminate]. cbn in X. inversion X; subst. exact Y. }
  destruct (sget _ custom) as [o|]; [eapply K, E|]. destruct (sget _ builtin) as [o|]; [|discriminate].
  destruct (ol_layers o) as [|x r] eqn:L; [inversion E; subst; exact V|]. rewrite <- L in E. eapply K, E.
Qed.
Lemma attach_ops_in custom builtin l : forall acc ops, foldM (attach_step custom builtin) l acc = Ok ops ->
  forall k o', (In o' ops /\ In k (ol_layers o')) <->
  (In o' acc /\ In k (ol_layers o')) \/
  (exists s o, In s l /\ (sget (os_name s) custom = Some o \/ (sget (os_name s) custom = None /\ sget (os_name s) builtin = Some o)) /\
     In k (ol_layers o) /\ o' = OpLayers (os_name s) (ol_layers o) (ol_attr o)).
Proof.
  induction l as [|s l IH]; intros acc ops H k o'; cbn [foldM] in H.
  { inversion H; subst. split; [auto|]. intros [X|[s [o [[] _]]]]. exact X. }
  destruct (attach_step custom builtin acc s) as [acc'|] eqn:E; [|discriminate]. cbn [bind] in H. rewrite (IH _ _ H k o').
  assert ((In o' acc' /\ In k (ol_layers o')) <-> (In o' acc /\ In k (ol_layers o')) \/
     (exists o, (sget (os_name s) custom = Some o \/ (sget (os_name s) custom = None /\ sget (os_name s) builtin = Some o)) /\
        In k (ol_layers o) /\ o' = OpLayers (os_name s) (ol_layers o) (ol_attr o))) as P.
  { unfold attach_step in E.
    assert (forall o, (let! _ := validate_op_sets [] [] (acc ++ [OpLayers (os_name s) (ol_layers o) (ol_attr o)]) in
            Ok (acc ++ [OpLayers (os_name s) (ol_layers o) (ol_attr o)])) = Ok acc' -> acc' = acc ++ [OpLayers (os_name s) (ol_layers o) (ol_attr o)]) as K.
    { intros o X. destruct (validate_op_sets _ _ _); [|discriminate]. cbn in X. congruence. }
    destruct (sget (os_name s) custom) as [o|] eqn:Ec.
    - rewrite (K o E), in_app_iff. cbn. split.
      + intros [[I|[<-|[]]] J]; [auto|]. right. exists o. cbn in J. auto.
      + intros [X|[o2 [[X|[X _]] [J ->]]]]; [tauto| |discriminate]. inversion X; subst. cbn. auto.
    - destruct (sget (os_name s) builtin) as [o|] eqn:Eb; [|discriminate]. destruct (ol_layers o) as [|x r] eqn:L.
      + inversion E; subst. split; [auto|]. intros [X|[o2 [[X|[_ X]] [J ->]]]]; [exact X|discriminate|].
        inversion X; subst. rewrite L in J. destruct J.
      + rewrite <- L in E. rewrite (K o E), in_app_iff. cbn. split.
        * intros [[I|[<-|[]]] J]; [auto|]. right. exists o. cbn in J. auto.
        * intros [X|[o2 [[X|[_ X]] [J ->]]]]; [tauto|discriminate|]. inversion X; subst. cbn. auto. }
  rewrite P. split.
  - intros [[X|[o [A [B C]]]]|[s' [o [I X]]]]; [auto|right; exists s, o; cbn; auto|right; exists s', o; cbn; tauto].
  - intros [X|[s' [o [[<-|I] X]]]]; [auto|left; right; exists o; exact X|right; exists s', o; auto].
Qed.

Lemma find_unique (l : list opset) s : NoDup (map os_name l) -> In s l -> find (fun x => String.eqb (os_name s) (os_name x)) l = Some s.
Proof.
  induction l as [|x l IH]; intros N I; [destruct I|]. cbn. inversion N as [|? ? N1 N2]; subst. destruct I as [->|I].
  - rewrite String.eqb_refl. reflexivity.
  - destruct (String.eqb_spec (os_name s) (os_name x)) as [E|E]; [|auto]. exfalso. apply N1. rewrite <- E. apply in_map, I.
Qed.

(* C44: the tables of an attached platform hold exactly the entries the description calls for *)
Theorem attached_tables custom builtin t f : NoDup (map os_name (or_old (t2_opsets t) [])) -> attach custom builtin t = Ok f ->
  (forall flt q, In (flt, q) (q_filters f) <-> exists i, entry custom builtin t (K_filter i flt) q) /\
  (forall id nm q, In ((id, nm), q) (q_layers f) <-> entry custom builtin t (K_layer id nm) q) /\
  q_default f = t2_default t.
Proof.
  intros N H. unfold attach in H. destruct (foldM (attach_step custom builtin) _ []) as [ops|] eqn:A; [|discriminate]. cbn [bind] in H.
  destruct (options_mapping t ops) as [d|] eqn:M; [|discriminate]. cbn [bind] in H. inversion H; subst f. cbn.
  pose proof (attach_ops _ _ _ _ _ A eq_refl) as V.
  pose proof (mapping_fold t ops [] d (validate_keys _ _ _ V) M) as D.
  assert (forall k q, In (k, q) d <-> entry custom builtin t k q) as P.
  { intros k q. rewrite D. unfold entry. split.
    - intros [[]|[o' [I [J L]]]]. destruct (proj1 (attach_ops_in _ _ _ _ _ A k o') (conj I J)) as [[[] _]|[s [o [Is [G [K ->]]]]]].
      exists s, o. repeat split; try assumption. unfold layer_options in L. cbn [ol_name ol_attr] in L. unfold options_of_opset in L.
      destruct (t2_opsets t) as [l|]; [|destruct Is]. cbn [or_old] in *. rewrite (find_unique _ _ N Is) in L. cbn [bind] in L.
      inversion L. destruct (os_qco s); reflexivity.
    - intros [s [o [Is [G [K ->]]]]]. right.
      exists (OpLayers (os_name s) (ol_layers o) (ol_attr o)).
      destruct (proj2 (attach_ops_in _ _ _ _ _ A k (OpLayers (os_name s) (ol_layers o) (ol_attr o)))) as [I J].
      { right. exists s, o. auto. }
      split; [exact I|]. split; [exact J|]. unfold layer_options. cbn [ol_name ol_attr]. unfold options_of_opset.
      destruct (t2_opsets t) as [l|]; [|destruct Is]. cbn [or_old] in *. rewrite (find_unique _ _ N Is). cbn [bind].
      destruct (os_qco s); reflexivity. }
  split; [|split; [|reflexivity]].
  - intros flt q. rewrite in_flat_map. split.
    + intros [[k q'] [I J]]. destruct k as [id nm|i f0]; cbn in J; [destruct J|]. destruct J as [J|[]]. inversion J; subst. exists i. apply P, I.
    + intros [i E]. exists (K_filter i flt, q). split; [apply P, E|]. left. reflexivity.
  - intros id nm q. rewrite in_flat_map. split.
    + intros [[k q'] [I J]]. destruct k as [id' nm'|i f0]; cbn in J; [|destruct J]. destruct J as [J|[]]. inversion J; subst. apply P, I.
    + intro E. exists (K_layer id nm, q). split; [apply P, E|]. left. reflexivity.
Qed.
Print Assumptions attached_tables.

(* ---- C22 ---- *)
Lemma lnext_in g n m : In m (lnext g n) <-> In (n, m) (lg_edges g).
Proof.
  unfold lnext. rewrite in_map_iff. split.
  - intros [[a b] [E I]]. cbn in E. subst b. apply filter_In in I. destruct I as [I X]. cbn in X. apply Nat.eqb_eq in X. subst. exact I.
  - intro I. exists (n, m). split; [reflexivity|]. apply filter_In. split; [exact I|]. cbn. apply Nat.eqb_refl.
Qed.
Lemma lprev_in g n m : In m (lprev g n) <-> In (m, n) (lg_edges g).
Proof.
  unfold lprev. rewrite in_map_iff. split.
  - intros [[a b] [E I]]. cbn in E. subst a. apply filter_In in I. destruct I as [I X]. cbn in X. apply Nat.eqb_eq in X. subst. exact I.
  - intro I. exists (m, n). split; [reflexivity|]. apply filter_In. split; [exact I|]. cbn. apply Nat.eqb_refl.
Qed.

(* x itself, or a consumer reached through preserving nodes from x on *)
Inductive onward (f : fqc) (g : lgraph) (x : nat) : nat -> Prop :=
| O_refl : onward f g x x
| O_snoc k m : onward f g x k -> preserving f g k -> In (k, m) (lg_edges g) -> onward f g x m.
Lemma onward_first f g x m : onward f g x m -> m = x \/ (preserving f g x /\ exists y, In (x, y) (lg_edges g) /\ onward f g y m).
Proof.
  induction 1 as [|k m R IH P I]; [auto|]. right. destruct IH as [->|[P' [y [J R']]]].
  - split; [exact P|]. exists m. split; [exact I|constructor].
  - split; [exact P'|]. exists y. split; [exact J|]. eapply O_snoc; eassumption.
Qed.
Lemma onward_cons f g x y m : preserving f g x -> In (x, y) (lg_edges g) -> onward f g y m -> onward f g x m.
Proof.
  intros P I R. induction R as [|k m R IH P' J].
  - eapply O_snoc; [constructor|exact P|exact I].
  - eapply O_snoc; eassumption.
Qed.
Lemma feeds_onward f g n m : feeds f g n m <-> exists x, In (n, x) (lg_edges g) /\ onward f g x m.
Proof.
  split.
  - induction 1 as [m I|k m R IH P I]; [exists m; split; [exact I|constructor]|].
    destruct IH as [x [J R']]. exists x. split; [exact J|]. eapply O_snoc; eassumption.
  - intros [x [I R]]. induction R as [|k m R IH P J]; [apply F_next, I|]. eapply F_through; eassumption.
Qed.
Lemma next_nodes_spec fuel f g : forall queue acc r, next_nodes fuel f g queue acc = Ok r ->
  forall m, In m r <-> In m acc \/ exists x, In x queue /\ onward f g x m.
Proof.
  induction fuel as [|k IH]; intros queue acc r H m; destruct queue as [|n q]; cbn in H;
    try (inversion H; subst; split; [auto|intros [I|[x [[] _]]]; exact I]); [discriminate|].
  destruct (opts_at f g n) as [qn|] eqn:E; [|discriminate]. cbn [bind] in H. destruct (qo_cfgs qn) as [|c cs] eqn:Ec; [discriminate|].
  rewrite (IH _ _ _ H m), in_app_iff. cbn [In].
  destruct (oc_preserve c) eqn:P.
  - assert (preserving f g n) as Pn by (exists qn, c, cs; auto). split.
    + intros [[I|[<-|[]]]|[x [I R]]]; [auto|right; exists n; split; [auto|constructor]|].
      apply in_app_iff in I. destruct I as [I|I]; [right; exists x; auto|].
      right. exists n. split; [auto|]. apply lnext_in in I. eapply onward_cons; eassumption.
    + intros [I|[x [[<-|I] R]]]; [auto| |right; exists x; split; [apply in_app_iff; auto|exact R]].
      apply onward_first in R. destruct R as [->|[_ [y [J R]]]]; [auto|].
      right. exists y. split; [|exact R]. apply in_app_iff. right. apply lnext_in, J.
  - assert (~ preserving f g n) as Pn.
    { intros [q' [c' [r' [A [B C]]]]]. rewrite E in A. inversion A; subst. rewrite Ec in B. inversion B; subst. congruence. }
    split.
    + intros [[I|[<-|[]]]|[x [I R]]]; [auto|right; exists n; split; [auto|constructor]|right; exists x; auto].
    + intros [I|[x [[<-|I] R]]]; [auto| |right; exists x; auto].
      apply onward_first in R. destruct R as [->|[Q _]]; [auto|contradiction].
Qed.

Lemma fold_max_ge l : forall z x, (x = z \/ In x l) -> (x <= fold_left Z.max l z)%Z.
Proof.
  induction l as [|y l IH]; intros z x H; cbn; [destruct H as [->|[]]; lia|].
  destruct H as [->|[->|H]].
  - transitivity (Z.max z y); [lia|]. apply IH. auto.
  - transitivity (Z.max z x); [lia|]. apply IH. auto.
  - apply IH. auto.
Qed.
Lemma fold_max_in l : forall z, fold_left Z.max l z = z \/ In (fold_left Z.max l z) l.
Proof.
  induction l as [|y l IH]; intro z; cbn; [auto|]. destruct (IH (Z.max z y)) as [E|I]; [|auto].
  rewrite E. destruct (Z.max_spec z y) as [[_ ->]|[_ ->]]; auto.
Qed.
Lemma fold_min_le l : forall z b, (b <= fold_left Z.min l z <-> b <= z /\ forall x, In x l -> b <= x)%Z.
Proof.
  induction l as [|y l IH]; intros z b; cbn; [intuition|]. rewrite IH, Z.min_glb_iff. split.
  - intros [[A B] C]. split; [exact A|]. intros x [<-|I]; auto.
  - intros [A C]. repeat split; auto.
Qed.
Lemma max_input_takes c w b : max_input_bits c = Ok w -> ((b <= w)%Z <-> exists l z, oc_inputs c = I_tuple l /\ In z l /\ (b <= z)%Z).
Proof.
  unfold max_input_bits. destruct (oc_inputs c) as [z|[|z l]]; intro H; inversion H; subst. split.
  - intro L. exists (z :: l). destruct (fold_max_in l z) as [E|I]; [exists z; rewrite E in L; cbn; auto|].
    exists (fold_left Z.max l z). cbn. auto.
  - intros [l' [x [E [I L]]]]. inversion E; subst. transitivity x; [exact L|]. apply fold_max_ge. cbn in I. intuition.
Qed.
Lemma widest_in l c : widest_option l = Some c -> In c l.
Proof. destruct l as [|x r]; [discriminate|]. intro H. apply find_some in H. destruct H as [I _]. apply in_rev in I. exact I. Qed.
Lemma widest_max l c : widest_option l = Some c -> forall d, In d l -> (oc_bits d <= oc_bits c)%Z.
Proof.
  destruct l as [|x r]; [discriminate|]. intro H. apply find_some in H. destruct H as [_ E]. apply Z.eqb_eq in E. rewrite E.
  intros d I. apply fold_max_ge. destruct I as [->|I]; [auto|right; apply in_map, I].
Qed.

(* the base configuration of the options accepts an input of b bits *)
Definition base_takes (q : qco) (b : Z) : Prop := exists l z, oc_inputs (qo_base q) = I_tuple l /\ In z l /\ (b <= z)%Z.

(* C22: after the restriction by the graph, the options left for a node are exactly those whose output every consumer
   (looking through preserving nodes) accepts; the base configuration is kept when the base configurations of the
   consumers accept it, and is otherwise the widest option left *)
Theorem restricted_options fuel f g n q base opts : filter_by_graph fuel f g n q = Ok (base, opts) ->
  (exists p, opts = filter p (qo_cfgs q)) /\
  (forall c, In c opts <-> In c (qo_cfgs q) /\ forall m qm, feeds f g n m -> opts_at f g m = Ok qm -> takes qm (oc_bits c)) /\
  (qo_cfgs q <> [] -> opts <> []) /\
  ((base = qo_base q /\
    ((forall m qm c, feeds f g n m -> opts_at f g m = Ok qm -> In c (qo_cfgs qm) -> oc_enable c = false /\ oc_preserve c = false) \/
     (forall m qm, feeds f g n m -> opts_at f g m = Ok qm -> base_takes qm (oc_bits base)))) \/
   (In base opts /\ (forall d, In d opts -> (oc_bits d <= oc_bits base)%Z) /\
    exists m qm, feeds f g n m /\ opts_at f g m = Ok qm /\ ~ base_takes qm (oc_bits (qo_base q)))).
Proof.
  unfold filter_by_graph. destruct (next_nodes fuel f g (lnext g n) []) as [ns|] eqn:E; [|discriminate]. cbn [bind].
  assert (forall m, In m ns <-> feeds f g n m) as NS.
  { intro m. rewrite (next_nodes_spec _ _ _ _ _ _ E m), feeds_onward. split.
    - intros [[]|[x [I R]]]. exists x. split; [apply lnext_in, I|exact R].
    - intros [x [I R]]. right. exists x. split; [apply lnext_in, I|exact R]. }
  assert (forall l : list opcfg, exists p, l = filter p l) as FT by (intro l; exists (fun _ => true); induction l as [|x l IH]; cbn; [reflexivity|congruence]).
  destruct ns as [|n1 ns'].
  { intro H. inversion H; subst. split; [apply FT|]. split; [|split; [auto|left; split; [reflexivity|]]].
    - intro c. split; [|tauto]. intro I. split; [exact I|]. intros m qm F _. apply NS in F. destruct F.
    - left. intros m qm c F. apply NS in F. destruct F. }
  destruct (mapM (opts_at f g) (n1 :: ns')) as [nq|] eqn:Q; [|discriminate]. cbn [bind].
  assert (forall qm, In qm nq <-> exists m, feeds f g n m /\ opts_at f g m = Ok qm) as Q'.
  { intro qm. setoid_rewrite <- NS. apply mapM_Forall2 in Q. clear - Q. induction Q as [|m q' l l' H F IH]; cbn.
    - split; [intros []|]. intros [m [[] _]].
    - rewrite IH. split.
      + intros [->|[m' [I X]]]; [exists m; auto|exists m'; auto].
      + intros [m' [[<-|I] X]]; [left; congruence|right; eauto]. }
  destruct (mapM max_input_bits _) as [limits|] eqn:L; [|discriminate]. cbn [bind]. apply mapM_Forall2 in L.
  assert (forall c, (In c (flat_map qo_cfgs nq) /\ (oc_enable c || oc_preserve c = true)) -> exists w, max_input_bits c = Ok w /\ In w limits) as L1.
  { intros c I. rewrite <- (filter_In (fun c => oc_enable c || oc_preserve c)) in I. clear - L I. induction L as [|x y l l' H F IH]; [destruct I|].
    destruct I as [->|I]; [exists y; cbn; auto|]. destruct (IH I) as [w [? ?]]. exists w. cbn. auto. }
  assert (forall w, In w limits -> exists c, In c (flat_map qo_cfgs nq) /\ (oc_enable c || oc_preserve c = true) /\ max_input_bits c = Ok w) as L2.
  { intros w I. assert (exists c, In c (filter (fun c => oc_enable c || oc_preserve c) (flat_map qo_cfgs nq)) /\ max_input_bits c = Ok w) as [c [J K]].
    { clear - L I. induction L as [|x y l l' H F IH]; [destruct I|]. destruct I as [->|I]; [exists x; cbn; auto|].
      destruct (IH I) as [c [? ?]]. exists c. cbn. auto. }
    apply filter_In in J. exists c. tauto. }
  assert (forall b, (forall l, In l limits -> (b <= l)%Z) <-> forall m qm, feeds f g n m -> opts_at f g m = Ok qm -> takes qm b) as T.
  { intro b. split.
    - intros H m qm F O c I X. destruct (L1 c) as [w [M J]].
      { split; [apply in_flat_map; exists qm; split; [apply Q'; eauto|exact I]|]. apply orb_true_iff, X. }
      apply (max_input_takes c w b M). auto.
    - intros H l I. destruct (L2 l I) as [c [J [X M]]]. apply in_flat_map in J. destruct J as [qm [Jq Jc]].
      apply Q' in Jq. destruct Jq as [m [F O]]. apply (max_input_takes c l b M). apply (H m qm F O c Jc). apply orb_true_iff, X. }
  destruct limits as [|z limits].
  { cbn [zmin]. intro H. inversion H; subst. split; [apply FT|]. split; [|split; [auto|left; split; [reflexivity|]]].
    - intro c. rewrite <- T. cbn. intuition.
    - left. intros m qm c F O I. destruct (oc_enable c || oc_preserve c) eqn:X; [|apply orb_false_iff, X].
      destruct (L1 c) as [w [_ []]]. split; [|exact X]. apply in_flat_map. exists qm. split; [apply Q'; eauto|exact I]. }
  cbn [zmin]. set (lim := fold_left Z.min limits z).
  assert (forall c, Z.leb (oc_bits c) lim = true <-> forall m qm, feeds f g n m -> opts_at f g m = Ok qm -> takes qm (oc_bits c)) as T'.
  { intro c. rewrite <- T, Z.leb_le. unfold lim. rewrite fold_min_le. cbn. split.
    - intros [A B] l [<-|I]; auto.
    - intro H. split; auto. }
  destruct (filter (fun c => Z.leb (oc_bits c) lim) (qo_cfgs q)) as [|o os] eqn:F; [discriminate|].
  destruct (mapM _ nq) as [over|] eqn:O; [|discriminate]. cbn [bind].
  assert (forall b, In b over <-> exists qm, In qm nq /\ exists w, max_input_bits (qo_base qm) = Ok w /\ b = Z.ltb w (oc_bits (qo_base q))) as OV.
  { intro b. apply mapM_Forall2 in O. clear - O. induction O as [|x y l l' H F IH]; cbn.
    - split; [intros []|intros [? [[] _]]].
    - rewrite IH. destruct (max_input_bits (qo_base x)) as [w|] eqn:M; [|discriminate]. cbn in H. inversion H; subst. split.
      + intros [<-|[qm [I X]]]; [exists x; split; [auto|eauto]|exists qm; auto].
      + intros [qm [[->|I] [w' [M' ->]]]]; [left; congruence|right; exists qm; eauto]. }
  intro H. split; [|split; [|split]].
  - eexists. symmetry. destruct (existsb (fun b => b) over); [destruct (widest_option (o :: os)); [|discriminate]|]; inversion H; subst; exact F.
  - assert (opts = o :: os) as -> by (destruct (existsb (fun b => b) over); [destruct (widest_option (o :: os)); [|discriminate]|]; congruence).
    intro c. rewrite <- F, filter_In, T'. reflexivity.
  - intros _. destruct (existsb (fun b => b) over); [destruct (widest_option (o :: os)); [|discriminate]|]; inversion H; subst; discriminate.
  - destruct (existsb (fun b => b) over) eqn:X.
    + right. destruct (widest_option (o :: os)) as [c|] eqn:Wc; [|discriminate]. inversion H; subst.
      split; [apply widest_in, Wc|]. split; [apply widest_max, Wc|].
      apply existsb_exists in X. destruct X as [b [I ->]]. apply OV in I. destruct I as [qm [Iq [w [M E']]]].
      apply Q' in Iq. destruct Iq as [m [Fm Om]]. exists m, qm. repeat split; try assumption.
      intro K. apply (max_input_takes _ _ _ M) in K. symmetry in E'. apply Z.ltb_lt in E'. lia.
    + left. inversion H; subst. split; [reflexivity|]. right. intros m qm Fm Om.
      assert (In qm nq) as Iq by (apply Q'; eauto).
      assert (exists w, max_input_bits (qo_base qm) = Ok w) as [w M].
      { apply mapM_Forall2 in O. clear - O Iq. induction O as [|x y l l' H F IH]; [destruct Iq|]. destruct Iq as [->|Iq]; [|auto].
        destruct (max_input_bits (qo_base qm)); [eauto|discriminate]. }
      apply (max_input_takes _ _ _ M). destruct (Z.ltb w (oc_bits (qo_base q))) eqn:Y; [|apply Z.ltb_ge, Y].
      exfalso. enough (false = true) by discriminate. rewrite <- X. apply existsb_exists. exists true. split; [|reflexivity].
      apply OV. exists qm. split; [exact Iq|]. exists w. auto.
Qed.
Print Assumptions restricted_options.

(* the search for consumers terminates on every acyclic graph, and does not depend on the bound *)
Lemma fmatch_err f cfg : forall e, fmatch f cfg = Err e -> e = E_type.
Proof.
  induction f as [a o v|i l IH|i l IH] using filt_ind'; intros e H.
  - cbn in H. destruct (sget a cfg) as [x|]; [|discriminate]. destruct o, x, v; cbn in H; congruence.
  - cbn in H. induction l as [|g r IHl]; [discriminate|]. inversion IH as [|? ? Hg Hr]; subst.
    destruct (fmatch g cfg) as [b|e'] eqn:E; cbn in H; [destruct b; [discriminate|auto]|]. inversion H; subst. auto.
  - cbn in H. induction l as [|g r IHl]; [discriminate|]. inversion IH as [|? ? Hg Hr]; subst.
    destruct (fmatch g cfg) as [b|e'] eqn:E; cbn in H; [destruct b; [auto|discriminate]|]. inversion H; subst. auto.
Qed.
Lemma lf_match_err n l e : lf_match n l = Err e -> e = E_type.
Proof.
  unfold lf_match. destruct (negb _); [discriminate|]. destruct (existsb _ _); [discriminate|].
  induction (lf_conds l) as [|c r IH]; cbn; [discriminate|]. destruct (fmatch c _) as [b|x] eqn:E; cbn; [destruct b; [auto|discriminate]|].
  intro H. inversion H; subst. eapply fmatch_err, E.
Qed.
Lemma opts_no_fuel f g n : opts_at f g n <> Err E_fuel.
Proof.
  unfold opts_at. destruct (lnode g n) as [x|]; [|discriminate]. unfold fetch, fetch_opt.
  destruct (filterM _ (q_filters f)) as [fm|e] eqn:E; cbn [bind].
  - destruct (conflicting _); [discriminate|]. destruct (conflicting _); discriminate.
  - intro H. inversion H; subst. clear H. assert (forall l e, filterM (fun p : lfilter * qco => lf_match (gn_f x) (fst p)) l = Err e -> e = E_type) as K.
    { induction l as [|p l IH]; intros e H; cbn in H; [discriminate|]. destruct (lf_match _ _) eqn:M; cbn in H.
      - destruct (filterM _ l); cbn in H; [discriminate|]. apply IH. congruence.
      - inversion H; subst. eapply lf_match_err, M. }
    apply K in E. discriminate.
Qed.
Fixpoint nsum (l : list nat) : nat := match l with [] => O | x :: r => (x + nsum r)%nat end.
Fixpoint cost (d : nat) (g : lgraph) (n : nat) : nat :=
  match d with O => 1%nat | S d => S (nsum (map (cost d g) (lnext g n))) end.
Lemma nsum_map_le (a b : nat -> nat) l : (forall x, In x l -> (a x <= b x)%nat) -> (nsum (map a l) <= nsum (map b l))%nat.
Proof. induction l as [|x l IH]; intro H; cbn; [lia|]. specialize (IH (fun y I => H y (or_intror I))). specialize (H x (or_introl eq_refl)). lia. Qed.
Lemma cost_mono d g : forall n, (cost d g n <= cost (S d) g n)%nat.
Proof.
  induction d as [|d IH]; intro n; cbn [cost]; [lia|]. apply le_n_S. apply nsum_map_le. intros x _. apply IH.
Qed.
Lemma cost_mono' d d' g n : (d <= d')%nat -> (cost d g n <= cost d' g n)%nat.
Proof. induction 1 as [|d' H IH]; [lia|]. etransitivity; [exact IH|apply cost_mono]. Qed.
Fixpoint pos_of (n : nat) (l : list nat) : nat := match l with [] => O | x :: r => if Nat.eqb x n then O else S (pos_of n r) end.
Lemma pos_of_split n l : In n l -> exists pre post, l = pre ++ n :: post /\ length pre = pos_of n l /\ ~ In n pre.
Proof.
  induction l as [|x l IH]; intro I; [destruct I|]. cbn. destruct (Nat.eqb_spec x n) as [->|N].
  - exists [], l. repeat split. intros [].
  - destruct I as [E|I]; [congruence|]. destruct (IH I) as [pre [post [-> [L K]]]]. exists (x :: pre), post. cbn. repeat split; [lia|].
    intros [E|J]; [congruence|contradiction].
Qed.
Lemma pos_of_app n pre post : In n pre -> (pos_of n (pre ++ post) < length pre)%nat.
Proof. induction pre as [|x l IH]; intro I; [destruct I|]. cbn. destruct (Nat.eqb_spec x n); [lia|]. destruct I; [congruence|]. specialize (IH H). lia. Qed.
Lemma pos_lt l n : In n l -> (pos_of n l < length l)%nat.
Proof. intro I. destruct (pos_of_split n l I) as [pre [post [E [L _]]]]. rewrite E at 2. rewrite app_length. cbn. lia. Qed.
Lemma topo_edge g a b : topological g -> In (a, b) (lg_edges g) ->
  let ids := map gn_id (lg_nodes g) in (pos_of a ids < pos_of b ids)%nat /\ (pos_of b ids < length ids)%nat.
Proof.
  intros [N [E T]] I. cbn. assert (In b (map gn_id (lg_nodes g))) as Ib by (apply (E _ I)).
  split; [|apply pos_lt, Ib]. destruct (pos_of_split _ _ Ib) as [pre [post [Eq [L K]]]].
  assert (exists npre x npost, lg_nodes g = npre ++ x :: npost /\ map gn_id npre = pre /\ gn_id x = b) as [npre [x [npost [En [Ep Ex]]]]].
  { clear - Eq. revert pre Eq. induction (lg_nodes g) as [|y l IH]; intros [|p pre] Eq; cbn in Eq; try discriminate; inversion Eq; subst.
    - exists [], y, l. auto.
    - destruct (IH _ H1) as [np [x [nq [-> [Ep Ex]]]]]. exists (y :: np), x, nq. cbn. rewrite Ep. auto. }
  assert (In a pre) as Ia by (rewrite <- Ep; eapply (T npre x npost (a, b)); [exact En|exact I|cbn; congruence]).
  rewrite <- L. rewrite Eq. apply pos_of_app, Ia.
Qed.
Definition ncost (g : lgraph) (n : nat) : nat := let ids := map gn_id (lg_nodes g) in cost (length ids - pos_of n ids) g n.
Lemma ncost_step g n : topological g -> (S (nsum (map (ncost g) (lnext g n))) <= ncost g n)%nat.
Proof.
  intro T. unfold ncost. set (ids := map gn_id (lg_nodes g)). set (d := (length ids - pos_of n ids)%nat).
  destruct d as [|d'] eqn:Ed.
  - destruct (lnext g n) as [|m l] eqn:L; [cbn; lia|]. exfalso. assert (In m (lnext g n)) as I by (rewrite L; left; reflexivity).
    apply lnext_in in I. destruct (topo_edge g n m T I) as [A B]. fold ids in A, B. subst d. lia.
  - cbn [cost]. apply le_n_S, nsum_map_le. intros m I. apply lnext_in in I. destruct (topo_edge g n m T I) as [A B]. fold ids in A, B.
    apply cost_mono'. subst d. lia.
Qed.
Lemma nsum_app' a b : nsum (a ++ b) = (nsum a + nsum b)%nat.
Proof. induction a as [|x a IH]; cbn; [reflexivity|]. rewrite IH. lia. Qed.
Lemma ncost_pos g n : (1 <= ncost g n)%nat.
Proof. unfold ncost. destruct (length _ - _)%nat; cbn; lia. Qed.
Lemma next_nodes_terminates f g : topological g -> forall fuel queue acc, (nsum (map (ncost g) queue) <= fuel)%nat ->
  next_nodes fuel f g queue acc <> Err E_fuel /\ (forall fuel', (fuel <= fuel')%nat -> next_nodes fuel' f g queue acc = next_nodes fuel f g queue acc).
Proof.
  intro T. induction fuel as [|k IH]; intros queue acc H; destruct queue as [|n q].
  - split; [discriminate|]. intros [|k'] _; reflexivity.
  - exfalso. cbn in H. pose proof (ncost_pos g n). lia.
  - split; [discriminate|]. intros [|k'] _; reflexivity.
  - cbn in H. pose proof (ncost_step g n T) as C.
    assert (forall c, (nsum (map (ncost g) (if oc_preserve c then q ++ lnext g n else q)) <= k)%nat) as B.
    { intro c. destruct (oc_preserve c); [rewrite map_app, nsum_app'|]; lia. }
    cbn [next_nodes]. pose proof (opts_no_fuel f g n) as ON. split.
    + destruct (opts_at f g n) as [qn|e]; cbn [bind]; [|congruence]. destruct (qo_cfgs qn) as [|c cs]; [discriminate|]. apply IH, B.
    + intros [|k'] L; [lia|]. cbn [next_nodes]. destruct (opts_at f g n) as [qn|e]; cbn [bind]; [|reflexivity].
      destruct (qo_cfgs qn) as [|c cs]; [reflexivity|]. apply IH; [apply B|lia].
Qed.
Theorem restriction_terminates f g : topological g -> forall n q, exists fuel0, filter_by_graph fuel0 f g n q <> Err E_fuel /\
  forall fuel, (fuel0 <= fuel)%nat -> filter_by_graph fuel f g n q = filter_by_graph fuel0 f g n q.
Proof.
  intros T n q. exists (nsum (map (ncost g) (lnext g n))).
  destruct (next_nodes_terminates f g T _ (lnext g n) [] (le_n _)) as [A B]. split.
  - unfold filter_by_graph. destruct (next_nodes _ f g (lnext g n) []) as [ns|e]; cbn [bind]; [|congruence].
    destruct ns as [|n1 ns']; [discriminate|].
    assert (forall l, mapM (opts_at f g) l <> Err E_fuel) as M1.
    { induction l as [|x l IH]; cbn; [discriminate|]. pose proof (opts_no_fuel f g x). destruct (opts_at f g x); cbn; [|congruence].
      destruct (mapM _ l); cbn; congruence. }
    specialize (M1 (n1 :: ns')). destruct (mapM (opts_at f g) (n1 :: ns')) as [nq|e]; cbn [bind]; [|congruence].
    assert (forall c, max_input_bits c <> Err E_fuel) as MI by (intro c; unfold max_input_bits; destruct (oc_inputs c) as [z|[|z l]]; discriminate).
    assert (forall l, mapM max_input_bits l <> Err E_fuel) as M2.
    { induction l as [|x l IH]; cbn; [discriminate|]. specialize (MI x). destruct (max_input_bits x); cbn; [|congruence]. destruct (mapM _ l); cbn; congruence. }
    match goal with |- context [mapM max_input_bits ?l] => specialize (M2 l); destruct (mapM max_input_bits l) as [lim|e]; cbn [bind]; [|congruence] end.
    destruct (zmin lim); [|discriminate]. destruct (filter _ (qo_cfgs q)); [discriminate|].
    assert (forall l, mapM (fun qc => let! m := max_input_bits (qo_base qc) in Ok (Z.ltb m (oc_bits (qo_base q)))) l <> Err E_fuel) as M3.
    { induction l0 as [|x l0 IH]; cbn; [discriminate|]. specialize (MI (qo_base x)). destruct (max_input_bits (qo_base x)); cbn; [|congruence]. destruct (mapM _ l0); cbn; congruence. }
    specialize (M3 nq). destruct (mapM _ nq); cbn [bind]; [|congruence]. destruct (existsb _ _); [|discriminate].
    destruct (widest_option _); discriminate.
  - intros fuel L. unfold filter_by_graph. rewrite (B _ L). reflexivity.
Qed.
Print Assumptions restriction_terminates.

(* ---- loading a whole graph ---- *)
Lemma insert_perm x l : Permutation (insert_desc x l) (x :: l).
Proof.
  induction l as [|y l IH]; cbn; [constructor; constructor|]. destruct (key_le _ _); [apply Permutation_refl|].
  rewrite IH. apply perm_swap.
Qed.
Lemma sort_perm l : Permutation (sort_desc l) l.
Proof. induction l as [|x l IH]; cbn; [constructor|]. rewrite insert_perm. constructor. exact IH. Qed.
Lemma sort_candidates_perm k l r : sort_candidates k l = Ok r -> Permutation r l.
Proof.
  unfold sort_candidates. destruct (mapM _ l) as [ks|] eqn:E; [|discriminate]. cbn [bind]. intro H. inversion H; subst. clear H.
  assert (map snd ks = l) as <-.
  { apply mapM_Forall2 in E. induction E as [|x y l l' H F IH]; cbn; [reflexivity|]. rewrite IH. f_equal.
    destruct k as [s|]; [destruct (get_attr_config x s); cbn in H; [|discriminate]|]; inversion H; reflexivity. }
  apply Permutation_map, sort_perm.
Qed.

(* the activation modes a freshly made candidate can have *)
Definition fresh_mode (o : opcfg) : amode := if oc_enable o then M_quant else if oc_preserve o then M_preserve else M_no.
(* a candidate was made from an option of the platform *)
Definition made_from (attrs : list wname) (o : opcfg) (d : cand) : Prop :=
  cd_method d = oc_method o /\ cd_bits d = oc_bits o /\ cd_signed d = oc_signed o /\ cd_simd d = oc_simd o /\
  new_weights o attrs = Ok (cd_pos d, cd_named d).
Lemma new_cand_spec attrs o d : new_cand attrs o = Ok d -> made_from attrs o d /\ cd_mode d = fresh_mode o /\ ~ (oc_enable o = true /\ oc_preserve o = true).
Proof.
  unfold new_cand, fresh_mode. destruct (oc_enable o && oc_preserve o) eqn:X; [discriminate|].
  destruct (new_weights o attrs) as [[p s]|] eqn:W; [|discriminate]. cbn [bind]. intro H. inversion H; subst. cbn.
  split; [|split; [reflexivity|]].
  - unfold made_from. cbn. auto.
  - intros [A B]. rewrite A, B in X. discriminate.
Qed.

(* what loading promises about the configurations of a node *)
Definition loaded (f : fqc) (g : lgraph) (n : gnode) (c : nodecfg) : Prop :=
  exists q, fetch f (gn_f n) = Ok q /\
  let ok o := In o (qo_cfgs q) /\ forall m qm, feeds f g (gn_id n) m -> opts_at f g m = Ok qm -> takes qm (oc_bits o) in
  (forall d, In d (nc_cands c) -> exists o, ok o /\ made_from (gn_attrs n) o d) /\
  (forall o, ok o -> exists d, In d (nc_cands c) /\ made_from (gn_attrs n) o d) /\
  (exists d, In d (nc_cands c) /\ cd_bits (nc_base c) = cd_bits d /\ cd_method (nc_base c) = cd_method d).
Definition mode_of (f : fqc) (g : lgraph) (st : list (nat * nodecfg)) (n : gnode) (c : nodecfg) : Prop :=
  exists m, (forall d, d = nc_base c \/ In d (nc_cands c) -> cd_mode d = m) /\
  (exists q, fetch f (gn_f n) = Ok q /\ forall o, In o (qo_cfgs q) ->
     (forall m qm, feeds f g (gn_id n) m -> opts_at f g m = Ok qm -> takes qm (oc_bits o)) -> mode_rule g st n o m) /\
  (m = M_quant \/ m = M_no \/
   (m = M_preserve /\ exists p pm, lprev g (gn_id n) = [p] /\ has_mode st p pm /\ pm <> M_no)).

Lemma amode_eqb_eq a b : amode_eqb a b = true <-> a = b.
Proof. destruct a, b; cbn; split; congruence. Qed.

Lemma set_node_spec fuel f g st n st' : set_node fuel f g st n = Ok st' ->
  exists c, st' = dict_set (gn_id n) c st /\ loaded f g n c /\ mode_of f g st n c.
Proof.
  unfold set_node. destruct (fetch f (gn_f n)) as [q|] eqn:Eq; [|discriminate]. cbn [bind].
  destruct (filter_by_graph fuel f g (gn_id n) q) as [[base opts]|] eqn:Ef; [|discriminate]. cbn [bind].
  destruct (mapM (new_cand (gn_attrs n)) opts) as [cands|] eqn:Ec; [|discriminate]. cbn [bind].
  destruct (new_cand (gn_attrs n) base) as [sp|] eqn:Es; [|discriminate]. cbn [bind].
  destruct (new_nodecfg sp cands) as [nc|] eqn:En; [|discriminate]. cbn [bind].
  destruct (sort_candidates (gn_kernel n) (nc_cands nc)) as [sorted|] eqn:So; [|discriminate]. cbn [bind].
  set (nc1 := NodeCfg (nc_base nc) sorted). set (nc2 := if gn_act n then nc1 else set_modes M_no nc1).
  destruct (disable_preserving g st (gn_id n) nc2) as [nc3|] eqn:Ed; [|discriminate]. cbn [bind].
  intro H. inversion H; subst st'. clear H. exists nc3. split; [reflexivity|].
  destruct (restricted_options _ _ _ _ _ _ _ Ef) as [_ [R _]].
  unfold new_nodecfg in En. destruct (negb (existsb (cand_eqb sp) cands)) eqn:X1; [discriminate|].
  destruct (existsb (fun c => negb (amode_eqb (cd_mode c) (cd_mode sp))) cands) eqn:X2; [discriminate|].
  destruct (existsb _ cands) eqn:X3 in En; [discriminate|]. inversion En; subst nc. cbn in So, nc1. clear En X3.
  apply negb_false_iff, existsb_exists in X1. destruct X1 as [d0 [I0 E0]].
  pose proof (sort_candidates_perm _ _ _ So) as P.
  assert (forall d, In d cands -> cd_mode d = cd_mode sp) as U.
  { intros d I. destruct (amode_eqb (cd_mode d) (cd_mode sp)) eqn:Y; [apply amode_eqb_eq, Y|]. exfalso.
    enough (false = true) by discriminate. rewrite <- X2. apply existsb_exists. exists d. rewrite Y. auto. }
  apply mapM_Forall2 in Ec.
  assert (forall d, In d cands <-> exists o, In o opts /\ new_cand (gn_attrs n) o = Ok d) as C.
  { intro d. clear - Ec. induction Ec as [|x y l l' H F IH]; cbn.
    - split; [intros []|intros [? [[] _]]].
    - rewrite IH. split.
      + intros [->|[o [I J]]]; [exists x; auto|exists o; auto].
      + intros [o [[<-|I] J]]; [left; congruence|right; exists o; auto]. }
  assert (exists m, (nc3 = nc1 /\ m = cd_mode sp \/ nc3 = set_modes m nc1) /\
     (m = M_quant \/ m = M_no \/ (m = M_preserve /\ exists p pm, lprev g (gn_id n) = [p] /\ has_mode st p pm /\ pm <> M_no)) /\
     forall o, In o opts -> mode_rule g st n o m) as [m [Hm [Mm MR]]].
  { unfold disable_preserving in Ed. destruct (node_mode nc2) as [m2|] eqn:Em2; [|discriminate]. cbn [bind] in Ed.
    unfold node_mode in Em2. destruct (existsb _ (nc_cands nc2)); [discriminate|]. inversion Em2; subst m2. clear Em2.
    assert (forall o, In o opts -> fresh_mode o = cd_mode sp /\ (oc_enable o = true -> oc_preserve o = false)) as FM.
    { intros o Io. assert (exists d', In d' cands /\ new_cand (gn_attrs n) o = Ok d') as [d' [I No]].
      { clear - Ec Io. induction Ec as [|x y l l' H F IH]; [destruct Io|]. destruct Io as [->|Io]; [exists y; cbn; auto|].
        destruct (IH Io) as [d' [? ?]]. exists d'. cbn. auto. }
      apply new_cand_spec in No. destruct No as [_ [M1 M2]]. split; [rewrite <- M1; apply U, I|].
      intro E1. destruct (oc_preserve o); [exfalso; auto|reflexivity]. }
    assert (forall pc, node_mode pc = Ok (cd_mode (nc_base pc)) -> forall d, d = nc_base pc \/ In d (nc_cands pc) -> cd_mode d = cd_mode (nc_base pc)) as NM.
    { intros pc Npm d [->|I]; [reflexivity|]. unfold node_mode in Npm. destruct (existsb _ (nc_cands pc)) eqn:Y; [discriminate|].
      destruct (amode_eqb (cd_mode d) (cd_mode (nc_base pc))) eqn:Z; [apply amode_eqb_eq, Z|].
      exfalso. enough (false = true) by discriminate. rewrite <- Y. apply existsb_exists. exists d. rewrite Z. auto. }
    unfold nc2 in *. destruct (gn_act n) eqn:Act.
    - cbn [nc1 nc_base] in Ed. destruct (amode_eqb (cd_mode sp) M_preserve) eqn:Ep; cbn [negb] in Ed.
      + apply amode_eqb_eq in Ep.
        assert (forall o, In o opts -> oc_enable o = false /\ oc_preserve o = true) as FO.
        { intros o Io. destruct (FM o Io) as [F1 _]. rewrite Ep in F1. unfold fresh_mode in F1. destruct (oc_enable o), (oc_preserve o); try discriminate. auto. }
        assert (nc3 = set_modes M_no nc1 -> (forall o, In o opts -> mode_rule g st n o M_no) -> exists m, (nc3 = nc1 /\ m = cd_mode sp \/ nc3 = set_modes m nc1) /\
          (m = M_quant \/ m = M_no \/ (m = M_preserve /\ exists p pm, lprev g (gn_id n) = [p] /\ has_mode st p pm /\ pm <> M_no)) /\
          forall o, In o opts -> mode_rule g st n o m) as K.
        { intros -> R0. exists M_no. split; [right; reflexivity|auto]. }
        assert (length (lprev g (gn_id n)) <> 1%nat -> forall o, In o opts -> mode_rule g st n o M_no) as NS.
        { intros L o Io. destruct (FO o Io). apply R_not_single; assumption. }
        destruct (lprev g (gn_id n)) as [|p [|p2 ps]] eqn:Lp; [apply K; [congruence|apply NS; cbn; lia]| |apply K; [congruence|apply NS; cbn; lia]].
        destruct (dict_get p st) as [pc|] eqn:Gp; [|discriminate]. destruct (node_mode pc) as [pm|] eqn:Npm; [|discriminate]. cbn [bind] in Ed.
        assert (pm = cd_mode (nc_base pc)) as Epc by (unfold node_mode in Npm; destruct (existsb _ (nc_cands pc)); [discriminate|congruence]).
        subst pm. assert (has_mode st p (cd_mode (nc_base pc))) as HP by (exists pc; split; [exact Gp|apply NM, Npm]).
        destruct (amode_eqb (cd_mode (nc_base pc)) M_no) eqn:Epm.
        { apply amode_eqb_eq in Epm. rewrite Epm in HP. apply K; [congruence|]. intros o Io. destruct (FO o Io). eapply R_source_off; eassumption. }
        assert (cd_mode (nc_base pc) <> M_no) as NP by (intro X; rewrite X in Epm; discriminate).
        exists M_preserve. split; [left; split; [congruence|auto]|]. split.
        * right. right. split; [reflexivity|]. exists p, (cd_mode (nc_base pc)). auto.
        * intros o Io. destruct (FO o Io). eapply R_preserve; eassumption.
      + exists (cd_mode sp). split; [left; split; [congruence|reflexivity]|].
        destruct (new_cand_spec _ _ _ Es) as [_ [Ms _]]. split.
        * unfold fresh_mode in Ms. destruct (oc_enable base); [auto|]. destruct (oc_preserve base); [rewrite Ms in Ep; discriminate|auto].
        * intros o Io. destruct (FM o Io) as [F1 F2]. rewrite <- F1 in Ep |- *. unfold fresh_mode in *. destruct (oc_enable o) eqn:Eo; [apply R_quant; assumption|].
          destruct (oc_preserve o) eqn:Po; [discriminate|]. apply R_none; assumption.
    - cbn in Ed. exists M_no. split; [right; congruence|]. split; [auto|]. intros o _. apply R_off, Act. }
  assert (forall d, In d (nc_cands nc3) <-> exists d', In d' cands /\ (d = d' /\ nc3 = nc1 \/ d = set_mode m d' /\ nc3 = set_modes m nc1)) as IC.
  { intro d. destruct Hm as [[-> _]| ->].
    - cbn. split.
      + intro I. exists d. split; [eapply Permutation_in; eassumption|auto].
      + intros [d' [I [[-> _]|[-> E]]]]; [eapply Permutation_in; [apply Permutation_sym; exact P|exact I]|].
        assert (sorted = map (set_mode m) sorted) as Em by exact (f_equal nc_cands E).
        rewrite Em. apply in_map. eapply Permutation_in; [apply Permutation_sym; exact P|exact I].
    - cbn. rewrite in_map_iff. split.
      + intros [d' [<- I]]. exists d'. split; [eapply Permutation_in; eassumption|auto].
      + intros [d' [I [[-> E]|[-> _]]]].
        * assert (map (set_mode m) sorted = sorted) as Em by exact (f_equal nc_cands E).
          apply in_map_iff. rewrite Em at 1. eapply Permutation_in; [apply Permutation_sym; exact P|exact I].
        * exists d'. split; [reflexivity|]. eapply Permutation_in; [apply Permutation_sym; exact P|exact I]. }
  assert (forall o d, made_from (gn_attrs n) o d -> made_from (gn_attrs n) o (set_mode m d)) as SM by (intros o d Hd; exact Hd).
  split.
  - exists q. split; [exact Eq|]. cbn. split; [|split].
    + intros d I. apply IC in I. destruct I as [d' [I Hd]]. apply C in I. destruct I as [o [Io No]]. exists o. split; [apply R, Io|].
      apply new_cand_spec in No. destruct No as [No _]. destruct Hd as [[-> _]|[-> _]]; [exact No|apply SM, No].
    + intros o Ho. apply R in Ho.
      assert (exists d', In d' cands /\ new_cand (gn_attrs n) o = Ok d') as [d' [I No]].
      { clear - Ec Ho. induction Ec as [|x y l l' H F IH]; [destruct Ho|]. destruct Ho as [->|Ho]; [exists y; cbn; auto|].
        destruct (IH Ho) as [d' [? ?]]. exists d'. cbn. auto. }
      apply new_cand_spec in No. destruct No as [No _].
      destruct Hm as [[E _]|E].
      * exists d'. split; [apply IC; exists d'; auto|exact No].
      * exists (set_mode m d'). split; [apply IC; exists d'; auto|apply SM, No].
    + unfold cand_eqb in E0. rewrite !andb_true_iff in E0. destruct E0 as [[[[[A B] _] _] _] _]. apply Nat.eqb_eq in A. apply Z.eqb_eq in B.
      destruct Hm as [[E _]|E].
      * exists d0. split; [apply IC; exists d0; auto|]. rewrite E. cbn. auto.
      * exists (set_mode m d0). split; [apply IC; exists d0; auto|]. rewrite E. cbn. auto.
  - exists m. split; [|split; [exists q; split; [exact Eq|intros o Io To; apply MR, R; auto]|exact Mm]]. intros d [->|I].
    + destruct Hm as [[-> ->]| ->]; reflexivity.
    + apply IC in I. destruct I as [d' [I [[-> E]|[-> _]]]]; [|reflexivity].
      destruct Hm as [[_ ->]|E2]; [apply U, I|].
      assert (map (set_mode m) sorted = sorted) as Em by (rewrite E in E2; symmetry; exact (f_equal nc_cands E2)).
      assert (In d' sorted) as J by (eapply Permutation_in; [apply Permutation_sym; exact P|exact I]).
      rewrite <- Em in J. apply in_map_iff in J. destruct J as [d2 [<- _]]. reflexivity.
Qed.

Lemma load_inv fuel f g l : forall pre st0 st, NoDup (map gn_id (pre ++ l)) ->
  (forall k, In k (map fst st0) -> In k (map gn_id pre)) ->
  (forall x, In x pre -> exists c, dict_get (gn_id x) st0 = Some c /\ loaded f g x c /\ mode_of f g st0 x c) ->
  foldM (set_node fuel f g) l st0 = Ok st ->
  (forall k, In k (map fst st) -> In k (map gn_id (pre ++ l))) /\
  forall x, In x (pre ++ l) -> exists c, dict_get (gn_id x) st = Some c /\ loaded f g x c /\ mode_of f g st x c.
Proof.
  induction l as [|x l IH]; intros pre st0 st N K A H; cbn [foldM] in H.
  { inversion H; subst. rewrite app_nil_r in *. auto. }
  destruct (set_node fuel f g st0 x) as [st1|] eqn:E; [|discriminate]. cbn [bind] in H.
  destruct (set_node_spec _ _ _ _ _ _ E) as [c [-> [L M]]].
  assert (~ In (gn_id x) (map gn_id pre)) as Fr.
  { rewrite map_app in N. cbn in N. apply NoDup_remove_2 in N. intro I. apply N. apply in_app_iff. auto. }
  assert (forall k, In k (map gn_id pre) -> dict_get k (dict_set (gn_id x) c st0) = dict_get k st0) as G.
  { intros k I. rewrite dict_get_set. destruct (Nat.eqb_spec k (gn_id x)) as [->|_]; [contradiction|reflexivity]. }
  assert (forall y cy, mode_of f g st0 y cy -> mode_of f g (dict_set (gn_id x) c st0) y cy) as MO.
  { intros y cy [m [Um [[q [Eq MR]] Cm]]].
    assert (forall p pm, has_mode st0 p pm -> has_mode (dict_set (gn_id x) c st0) p pm) as HM.
    { intros p pm [pc [Gp Up]]. exists pc. split; [|exact Up]. rewrite G; [exact Gp|]. apply K. apply dict_get_key. eauto. }
    exists m. split; [exact Um|]. split.
    { exists q. split; [exact Eq|]. intros o Io To. destruct (MR o Io To);
        [apply R_off|apply R_quant|apply R_none|eapply R_preserve|eapply R_source_off|apply R_not_single]; eauto. }
    destruct Cm as [Cm|[Cm|[Cm [p [pm [Lp [[pc [Gp Up]] Np]]]]]]]; [auto|auto|].
    right. right. split; [exact Cm|]. exists p, pm. split; [exact Lp|]. split; [|exact Np]. exists pc. split; [|exact Up].
    rewrite G; [exact Gp|]. apply K. apply dict_get_key. eauto. }
  assert (pre ++ x :: l = (pre ++ [x]) ++ l) as Eq by (rewrite <- app_assoc; reflexivity). rewrite Eq in *.
  eapply IH; [exact N| | |exact H].
  - intros k I. apply dict_set_keys in I. rewrite map_app, in_app_iff. cbn. destruct I as [->|I]; auto.
  - intros y I. apply in_app_iff in I. destruct I as [I|[<-|[]]].
    + destruct (A y I) as [cy [Gy [Ly My]]]. exists cy. split; [rewrite G; [exact Gy|apply in_map, I]|]. split; [exact Ly|apply MO, My].
    + exists c. split; [rewrite dict_get_set, Nat.eqb_refl; reflexivity|]. split; [exact L|apply MO, M].
Qed.
Lemma load_all fuel f g st : NoDup (map gn_id (lg_nodes g)) -> load_graph fuel f g = Ok st ->
  forall x, In x (lg_nodes g) -> exists c, dict_get (gn_id x) st = Some c /\ loaded f g x c /\ mode_of f g st x c.
Proof.
  intros N H. unfold load_graph in H. destruct (mapM _ _); [|discriminate]. cbn [bind] in H.
  destruct (load_inv fuel f g (lg_nodes g) [] [] st N) as [_ R]; [intros k []|intros x []|exact H|exact R].
Qed.

(* C22: once a graph is loaded, every candidate and the base configuration of every node have an activation bit-width
   that all of its consumers accept; and every option of the platform that the consumers accept is a candidate *)
Theorem loaded_within_consumers fuel f g st : NoDup (map gn_id (lg_nodes g)) -> load_graph fuel f g = Ok st ->
  forall n, In n (lg_nodes g) -> exists c, dict_get (gn_id n) st = Some c /\ nc_cands c <> [] /\
  (forall d, d = nc_base c \/ In d (nc_cands c) ->
     forall m qm, feeds f g (gn_id n) m -> opts_at f g m = Ok qm -> takes qm (cd_bits d)) /\
  exists q, fetch f (gn_f n) = Ok q /\ forall o, In o (qo_cfgs q) ->
    (forall m qm, feeds f g (gn_id n) m -> opts_at f g m = Ok qm -> takes qm (oc_bits o)) ->
    exists d, In d (nc_cands c) /\ made_from (gn_attrs n) o d.
Proof.
  intros N H n I. destruct (load_all _ _ _ _ N H n I) as [c [G [[q [Eq [L1 [L2 [d0 [I0 [B0 _]]]]]]] _]]].
  exists c. split; [exact G|]. split; [intro X; rewrite X in I0; destruct I0|]. split.
  - assert (forall d, In d (nc_cands c) -> forall m qm, feeds f g (gn_id n) m -> opts_at f g m = Ok qm -> takes qm (cd_bits d)) as K.
    { intros d J m qm F O. destruct (L1 d J) as [o [[_ To] [_ [Bo _]]]]. rewrite Bo. eapply To; eassumption. }
    intros d [->|J]; [rewrite B0; apply K, I0|apply K, J].
  - exists q. split; [exact Eq|]. intros o Io To. apply L2. auto.
Qed.
Print Assumptions loaded_within_consumers.

(* the activation mode of every node is the one its options and its input call for *)
Theorem loaded_modes fuel f g st : NoDup (map gn_id (lg_nodes g)) -> load_graph fuel f g = Ok st ->
  forall n, In n (lg_nodes g) -> exists m q, has_mode st (gn_id n) m /\ fetch f (gn_f n) = Ok q /\
  forall o, In o (qo_cfgs q) -> (forall m qm, feeds f g (gn_id n) m -> opts_at f g m = Ok qm -> takes qm (oc_bits o)) ->
  mode_rule g st n o m.
Proof.
  intros N H n I. destruct (load_all _ _ _ _ N H n I) as [c [G [_ [m [U [[q [Eq MR]] _]]]]]].
  exists m, q. split; [exists c; auto|]. split; [exact Eq|]. exact MR.
Qed.
Print Assumptions loaded_modes.

(* C54: every node is either not quantized at all, or its output is quantized at the source: by itself or, for a
   quantization-preserving node, by its single input *)
Theorem preserving_has_quantized_source fuel f g st : topological g -> load_graph fuel f g = Ok st ->
  forall n, In n (lg_nodes g) -> has_mode st (gn_id n) M_no \/ quantized_source g st (gn_id n).
Proof.
  intros [N [Ed T]] H. pose proof (load_all _ _ _ _ N H) as A.
  assert (forall k pre post, length pre = k -> lg_nodes g = pre ++ post -> forall n, In n pre ->
     has_mode st (gn_id n) M_no \/ quantized_source g st (gn_id n)) as K.
  { induction k as [|k IH]; intros pre post L E n I; [destruct pre; [destruct I|discriminate]|].
    assert (pre <> []) as NE by (intros ->; discriminate). destruct (exists_last NE) as [pre' [x ->]].
    rewrite app_length in L. cbn in L. rewrite <- app_assoc in E. cbn in E.
    apply in_app_iff in I. destruct I as [I|[<-|[]]]; [apply (IH pre' (x :: post)); [lia|exact E|exact I]|].
    destruct (A x) as [c [G [_ [m [U [_ Cm]]]]]]; [rewrite E; apply in_app_iff; right; left; reflexivity|].
    assert (has_mode st (gn_id x) m) as Hm by (exists c; auto).
    destruct Cm as [->|[->|[-> [p [pm [Lp [Hp Np]]]]]]]; [right; apply QS_quant, Hm|left; exact Hm|].
    right. eapply QS_preserve; [exact Hm|exact Lp|].
    assert (In p (map gn_id pre')) as Ip.
    { eapply (T pre' x post (p, gn_id x) E); [|reflexivity]. apply lprev_in. rewrite Lp. left. reflexivity. }
    apply in_map_iff in Ip. destruct Ip as [y [<- Iy]].
    destruct (IH pre' (x :: post) ltac:(lia) E y Iy) as [[c' [G' U']]|Q]; [|exact Q].
    destruct Hp as [c2 [G2 U2]]. rewrite G' in G2. inversion G2; subst c2. exfalso. apply Np.
    rewrite <- (U2 (nc_base c')), <- (U' (nc_base c')); auto. }
  intros n I. apply (K (length (lg_nodes g)) (lg_nodes g) []); [reflexivity|rewrite app_nil_r; reflexivity|exact I].
Qed.
Print Assumptions preserving_has_quantized_source.

(* ---- C55: expansion of fusing patterns ---- *)
Lemma product_spec {A} (l : list (list A)) : forall x, In x (product l) <-> Forall2 (fun a s => In a s) x l.
Proof.
  induction l as [|s l IH]; intro x; cbn.
  - split; [intros [<-|[]]; constructor|]. intro H. inversion H. auto.
  - rewrite in_flat_map. split.
    + intros [a [I J]]. apply in_map_iff in J. destruct J as [y [<- J]]. constructor; [exact I|]. apply IH, J.
    + intro H. inversion H as [|a ? y ? Ia Fy]; subst. exists a. split; [exact Ia|]. apply in_map, IH, Fy.
Qed.
Lemma layers_of_name_spec ops s k : NoDup (map ol_name ops) -> (In k (or_old (layers_of_name ops s) []) <-> layer_named ops s k).
Proof.
  intro N. unfold layers_of_name, layer_named. destruct (find _ ops) as [o|] eqn:E; cbn.
  - apply find_some in E. destruct E as [I E]. apply String.eqb_eq in E. subst s. split; [eauto|].
    intros [o' [I' [E' K]]]. enough (o = o') by congruence.
    clear K. induction ops as [|y l IH]; [destruct I|]. cbn in N. inversion N as [|? ? A B]; subst.
    destruct I as [->|I], I' as [->|I']; [reflexivity| | |auto]; exfalso; apply A; [rewrite <- E'|rewrite E']; apply in_map; assumption.
  - split; [intros []|]. intros [o [I [E' _]]]. exfalso. pose proof (find_none _ _ E o I) as F. cbn in F. subst s. rewrite String.eqb_refl in F. discriminate.
Qed.
Lemma layers_by_op_spec ops p k : NoDup (map ol_name ops) -> (In k (layers_by_op ops p) <-> stands_for ops k p).
Proof.
  intro N. destruct p as [s|nm l]; cbn [layers_by_op stands_for]; [apply layers_of_name_spec, N|].
  pose proof (layers_of_name_spec ops nm k N) as L. destruct (layers_of_name ops nm) as [r|] eqn:E; cbn in L.
  - rewrite L. split; [auto|]. intros [H|[H _]]; [exact H|]. exfalso. unfold layers_of_name in E. destruct (find _ ops) as [o|] eqn:F; [|discriminate].
    apply find_some in F. destruct F as [I F]. apply String.eqb_eq in F. apply (H o I). congruence.
  - rewrite in_flat_map. split.
    + intros [s [I K]]. right. split; [|exists s; split; [exact I|apply layers_of_name_spec; assumption]].
      intros o I' Eo. unfold layers_of_name in E. destruct (find _ ops) as [o'|] eqn:F; [discriminate|].
      pose proof (find_none _ _ F o I') as X. cbn in X. rewrite Eo, String.eqb_refl in X. discriminate.
    + intros [H|[_ [s [I K]]]]; [apply L in H; destruct H|]. exists s. split; [exact I|]. apply layers_of_name_spec; assumption.
Qed.
Theorem fusing_expansion ops t x c : NoDup (map ol_name ops) -> In (x, c) (fusing_patterns ops t) <->
  exists l p, t2_fusing t = Some l /\ In p l /\ c = fu_cfg p /\ Forall2 (stands_for ops) x (fu_groups p).
Proof.
  intro N. assert (forall y gs, Forall2 (stands_for ops) y gs <-> Forall2 (fun k p => In k (layers_by_op ops p)) y gs) as FE.
  { intros y gs. split; intro F; (eapply Forall2_impl; [|exact F]); intros; apply layers_by_op_spec; assumption. }
  unfold fusing_patterns. destruct (t2_fusing t) as [l|]; [|split; [intros []|intros [l [p [E _]]]; discriminate]].
  rewrite in_flat_map. split.
  - intros [p [I J]]. apply in_map_iff in J. destruct J as [y [E J]]. inversion E; subst. exists l, p. repeat split; [exact I|].
    apply FE. apply product_spec in J. clear - J. remember (map (layers_by_op ops) (fu_groups p)) as m eqn:Em.
    revert Em. generalize (fu_groups p). induction J as [|a s y m H F IH]; intros [|g gs] Em; try discriminate; constructor.
    + cbn in Em. inversion Em; subst. exact H.
    + apply IH. cbn in Em. inversion Em. reflexivity.
  - intros [l' [p [E [I [-> F]]]]]. inversion E; subst l'. exists p. split; [exact I|]. apply in_map_iff. exists x. split; [reflexivity|].
    apply product_spec. apply FE in F. clear - F. induction F as [|a g y gs H F IH]; cbn; constructor; auto.
Qed.
Print Assumptions fusing_expansion.

(* ---- order of the candidates: most kernel bits first, then most activation bits ---- *)
Definition before (kernel : option string) (a b : cand) : Prop :=
  match kernel with
  | None => (cd_bits b <= cd_bits a)%Z
  | Some s => forall wa wb, get_attr_config a s = Ok wa -> get_attr_config b s = Ok wb ->
      (wc_bits wb < wc_bits wa)%Z \/ (wc_bits wb = wc_bits wa /\ (cd_bits b <= cd_bits a)%Z)
  end.
Lemma key_le_spec a b : key_le a b = true <-> (fst a < fst b)%Z \/ (fst a = fst b /\ (snd a <= snd b)%Z).
Proof. unfold key_le. rewrite orb_true_iff, andb_true_iff, Z.ltb_lt, Z.eqb_eq, Z.leb_le. tauto. Qed.
Lemma insert_sorted x l : StronglySorted (fun a b => key_le (fst b) (fst a) = true) l -> StronglySorted (fun a b => key_le (fst b) (fst a) = true) (insert_desc x l).
Proof.
  induction 1 as [|y l S IH F]; cbn; [repeat constructor|]. destruct (key_le (fst y) (fst x)) eqn:E.
  - constructor; [constructor; assumption|]. constructor; [exact E|]. eapply Forall_impl; [|exact F]. cbn. intros z Hz.
    rewrite key_le_spec in *. lia.
  - constructor; [exact IH|]. apply Forall_forall. intros z I. eapply Permutation_in in I; [|apply insert_perm].
    destruct I as [<-|I]; [|rewrite Forall_forall in F; apply F, I].
    rewrite key_le_spec. assert (~ key_le (fst y) (fst x) = true) as E' by congruence. rewrite key_le_spec in E'. lia.
Qed.
Theorem sorted_candidates kernel l r : sort_candidates kernel l = Ok r -> Permutation r l /\ StronglySorted (before kernel) r.
Proof.
  intro H. split; [eapply sort_candidates_perm, H|]. unfold sort_candidates in H. destruct (mapM _ l) as [ks|] eqn:E; [|discriminate]. cbn [bind] in H. inversion H; subst. clear H.
  assert (forall x, In x (sort_desc ks) -> match kernel with Some k => exists w, get_attr_config (snd x) k = Ok w /\ fst x = (wc_bits w, cd_bits (snd x))
             | None => fst x = (0%Z, cd_bits (snd x)) end) as K.
  { intros x I. eapply Permutation_in in I; [|apply sort_perm]. apply mapM_Forall2 in E. induction E as [|c y l l' Hy F IH]; [destruct I|].
    destruct I as [<-|I]; [|apply IH, I]. destruct kernel as [s|].
    - destruct (get_attr_config c s) as [w|] eqn:G; [|discriminate]. cbn [bind] in Hy. inversion Hy. cbn. exists w. auto.
    - inversion Hy. reflexivity. }
  assert (StronglySorted (fun a b => key_le (fst b) (fst a) = true) (sort_desc ks)) as SS.
  { clear. induction ks as [|x l IH]; cbn; [constructor|]. apply insert_sorted, IH. }
  induction SS as [|x l' S IH F]; cbn; [constructor|]. constructor; [apply IH; intros y I; apply K; right; exact I|].
  rewrite Forall_forall in F |- *. intros c I. apply in_map_iff in I. destruct I as [y [<- I]]. specialize (F y I). rewrite key_le_spec in F.
  pose proof (K x (or_introl eq_refl)) as Kx. pose proof (K y (or_intror I)) as Ky. unfold before. destruct kernel as [s|].
  - destruct Kx as [wx [Gx Ex]], Ky as [wy [Gy Ey]]. intros wa wb A B. rewrite Gx in A. rewrite Gy in B. inversion A; inversion B; subst.
    rewrite Ex, Ey in F. cbn in F. exact F.
  - rewrite Kx, Ky in F. cbn in F. lia.
Qed.
Print Assumptions sorted_candidates.

(* ---- concrete cases ---- *)
Definition xat (b : Z) : attrcfg := AttrCfg 0 b true true None.
Definition xop (b : Z) (i : list Z) (e p : bool) : opcfg := OpCfg (xat 8) [] 0 b (I_tuple i) e p 0 None None None.
Definition xf (t : nat) : fnode := FNode t None [] [].
Definition xn (i t : nat) : gnode := GNode i (xf t) [] None true false.
(* layer 1: 16 or 8 bits out; layer 2: accepts 16, or only 8; layer 3: accepts 8; layer 4 preserves *)
Definition xq1 : qco := Qco (xop 16 [16%Z] true false) [xop 16 [16%Z] true false; xop 8 [16%Z] true false].
Definition xq2 : qco := Qco (xop 8 [16%Z] true false) [xop 8 [16%Z] true false; xop 4 [8%Z] true false].
Definition xq3 : qco := Qco (xop 8 [8%Z] true false) [xop 8 [8%Z] true false].
Definition xq4 : qco := Qco (xop 8 [16%Z] false true) [xop 8 [16%Z] false true].
Definition xfq : fqc := Fqc [] [((1, "a"%string), xq1); ((2, "b"%string), xq2); ((4, "d"%string), xq4)]%nat xq3.
Definition xg : lgraph := LGraph [xn 0 1; xn 1 4; xn 2 3]%nat [(0, 1); (1, 2)]%nat.

Example x_topological : topological xg.
Proof.
  repeat split; cbn.
  - repeat constructor; cbn; intuition lia.
  - intros e [<-|[<-|[]]]; cbn; auto.
  - intros pre x post e E [<-|[<-|[]]] S; cbn in *;
      destruct pre as [|a [|b [|c [|]]]]; inversion E; subst; cbn in *; try discriminate; auto.
Qed.
(* the consumer behind the preserving node limits the first node to 8 bits *)
Example x_loaded : exists st, load_graph 9 xfq xg = Ok st /\
  (exists c, dict_get 0 st = Some c /\ cd_bits (nc_base c) = 8%Z /\ map cd_bits (nc_cands c) = [8%Z]) /\
  has_mode st 0 M_quant /\ has_mode st 1 M_preserve /\ feeds xfq xg 0 2.
Proof.
  eexists. split; [vm_compute; reflexivity|]. split; [eexists; vm_compute; auto|]. split; [|split].
  - eexists. split; [vm_compute; reflexivity|]. cbn. intros d [->|[<-|[]]]; reflexivity.
  - eexists. split; [vm_compute; reflexivity|]. cbn. intros d [->|[<-|[]]]; reflexivity.
  - apply (F_through _ _ _ 1); [apply F_next; cbn; auto| |cbn; auto].
    eexists _, _, _. vm_compute. auto.
Qed.
Example x_fetch : fetch xfq (xf 1) = Ok xq1 /\ fetch xfq (xf 7) = Ok xq3.
Proof. vm_compute. auto. Qed.

(* finding: when the consumer's base option accepts the bits and another option of it does not, the base
   configuration is kept although no remaining option has that many bits; loading such a graph raises *)
Theorem base_above_limit_refuted : exists fuel f g n q base opts, topological g /\ fetch f (gn_f n) = Ok q /\ In n (lg_nodes g) /\
  filter_by_graph fuel f g (gn_id n) q = Ok (base, opts) /\ In (qo_base q) (qo_cfgs q) /\
  (forall d, In d opts -> (oc_bits d < oc_bits base)%Z) /\ load_graph fuel f g = Err E_value.
Proof.
  exists 9%nat, xfq, (LGraph [xn 0 1; xn 1 2]%nat [(0, 1)]%nat), (xn 0 1), xq1, (xop 16 [16%Z] true false), [xop 8 [16%Z] true false].
  split; [repeat split; cbn|].
  - repeat constructor; cbn; intuition lia.
  - intros e [<-|[]]; cbn; auto.
  - intros pre x post e E [<-|[]] S; cbn in *; destruct pre as [|a [|b [|]]]; inversion E; subst; cbn in *; try discriminate; auto.
  - repeat split; try (vm_compute; auto; fail). intros d [<-|[]]. reflexivity.
Qed.
Print Assumptions base_above_limit_refuted.

Example x_fusing : let conv := OpSet "Conv" None in let add := OpSet "Add" None in let relu := OpSet "ReLU" None in
  let ops := [OpLayers "Conv" [K_layer 1 "Conv2D"] None; OpLayers "ReLU" [K_layer 2 "ReLU"; K_layer 3 "relu"] None] in
  fusing_patterns ops (Tpc2 xq3 None (Some [Fusing [G_set conv; G_group "acts" [add; relu]] None "p"]) None None None false None false false) =
  [([K_layer 1 "Conv2D"; K_layer 2 "ReLU"], None); ([K_layer 1 "Conv2D"; K_layer 3 "relu"], None)].
Proof. vm_compute. reflexivity. Qed.
