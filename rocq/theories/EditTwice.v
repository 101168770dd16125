(* EditTwice.v -- sequences of edit rules on one node: the last writer of a field, and a second run of the same rules. *)
From Coq Require Import String Lia.
From Verif Require Import Base SDict FilterModel FilterProps EditModel EditSpec EditProofs.
Local Open Scope list_scope.

Definition wf_rules (rs : list rule) : Prop := forall r, In r rs -> wf_action (r_action r).
Definition not_replace (a : action) : Prop := match a with Replace_layer _ _ => False | _ => True end.

Lemma step_frame T r n m : wf_node n -> wf_action (r_action r) -> step T r n m -> frame n m.
Proof. intros W Wa [[_ A]|[_ ->]]; [apply (action_effect T _ _ _ W Wa A)|apply frame_refl]. Qed.
Lemma runs_frame T rs : forall n n', wf_node n -> wf_rules rs -> runs T rs n n' -> frame n n'.
Proof.
  induction rs as [|r rs IH]; intros n n' W Wr R.
  - inversion R; subst. apply frame_refl.
  - apply runs_cons in R. destruct R as (m & S & R).
    assert (F : frame n m) by (eapply step_frame; eauto; apply Wr; left; reflexivity).
    eapply frame_trans; [exact F|]. apply IH; [eapply frame_wf; eauto|intros x I; apply Wr; right; exact I|exact R].
Qed.

(* some rule of the sequence writes the field *)
Inductive swrites (T : tables) : list rule -> node -> slot -> Prop :=
  | SW_here : forall r rs n s v, matches (r_filter r) n -> writes T (r_action r) n s v -> swrites T (r :: rs) n s
  | SW_later : forall r rs n m s, step T r n m -> swrites T rs m s -> swrites T (r :: rs) n s.

Lemma not_swrites T rs s : forall n n', wf_node n -> wf_rules rs -> runs T rs n n' -> ~ swrites T rs n s -> read n' s = read n s.
Proof.
  induction rs as [|r rs IH]; intros n n' W Wr R N.
  - inversion R; subst. reflexivity.
  - apply runs_cons in R. destruct R as (m & S & R).
    assert (Wa : wf_action (r_action r)) by (apply Wr; left; reflexivity).
    assert (F : frame n m) by (eapply step_frame; eauto).
    rewrite (IH m n'); [|eapply frame_wf; eauto|intros x I; apply Wr; right; exact I|exact R|intro H; apply N; eapply SW_later; eauto].
    destruct S as [[M A]|[_ ->]]; [|reflexivity]. apply (action_effect T _ _ _ W Wa A). intros v H. apply N. eapply SW_here; eauto.
Qed.

Lemma writes_last T rs r s v : forall n m n1 n', wf_node n -> wf_rules rs -> wf_action (r_action r) ->
  matches (r_filter r) n -> writes T (r_action r) n s v -> step T r n m -> n1 = m -> runs T rs n1 n' ->
  ~ swrites T rs m s -> read n' s = Some v.
Proof.
  intros n m n1 n' W Wr Wa M H S -> R N. rewrite (not_swrites T rs s m n'); auto.
  - destruct S as [[_ A]|[Nm _]]; [|tauto]. apply (action_effect T _ _ _ W Wa A). exact H.
  - eapply frame_wf; [|exact W]. eapply step_frame; eauto.
Qed.

Lemma swrites_split T rs s : forall n, swrites T rs n s ->
  exists p r q m v, rs = p ++ r :: q /\ runs T p n m /\ matches (r_filter r) m /\ writes T (r_action r) m s v.
Proof.
  intros n H. induction H as [r rs n s v M H|r rs n m s S H (p & r' & q & m' & v & -> & R & M & Hw)].
  - exists [], r, rs, n, v. split; [reflexivity|]. split; [constructor|auto].
  - exists (r :: p), r', q, m', v. split; [reflexivity|]. split; [apply runs_cons; eauto|auto].
Qed.

(* the same frame means the same fields are written with the same values *)
Lemma frame_names n m o w w' a k : frame n m -> obj_w n o = Some w -> obj_w m o = Some w' -> names w a k -> names w' a k.
Proof.
  intros (_ & _ & _ & _ & _ & K) E E' H. specialize (K o). rewrite E, E' in K. cbn in K. inversion K as [K'].
  eapply names_keys; [symmetry; exact K'|exact H].
Qed.
Lemma frame_obj_w n m o w : frame n m -> obj_w n o = Some w -> exists w', obj_w m o = Some w'.
Proof.
  intros (_ & _ & _ & _ & _ & K) E. specialize (K o). rewrite E in K. cbn in K. destruct (obj_w m o); [eauto|discriminate].
Qed.
Lemma frame_obj_act n m o c : frame n m -> obj_act n o = Some c -> exists c', obj_act m o = Some c'.
Proof.
  intros (_ & _ & _ & _ & K & _) E. specialize (K o). destruct (obj_act m o); [eauto|]. rewrite (proj1 K eq_refl) in E. discriminate.
Qed.
Lemma frame_sym n m : frame n m -> frame m n.
Proof.
  intros (N & F & A & W & O & K). split; [auto|]. split; [auto|]. split; [intro o; symmetry; apply A|].
  split; [intro o; symmetry; apply W|]. split; [intro o; symmetry; apply O|]. intro o. symmetry. apply K.
Qed.

Lemma kw_w_mono (P Q : option nat -> Prop) attr kw n m s v : frame n m -> (forall o, P o -> Q o) ->
  (read n s <> None -> read m s <> None) -> kw_w P attr kw n s v -> kw_w Q attr kw m s v.
Proof.
  intros F PQ D. unfold kw_w. destruct attr as [a|].
  - intros (o & w & k & f & -> & Po & E & Nm & I & R). destruct (frame_obj_w n m o w F E) as [w' E'].
    exists o, w', k, f. split; [reflexivity|]. split; [auto|]. split; [exact E'|]. split; [eapply frame_names; eauto|]. auto.
  - intros (o & f & -> & Po & I & R). exists o, f. auto.
Qed.
Lemma writes_mono T a n m s v : not_replace a -> frame n m -> (read n s <> None -> read m s <> None) ->
  writes T a n s v -> writes T a m s v.
Proof.
  intros NR F D. pose proof F as (_ & _ & A & W & _ & _).
  destruct a as [attr kw|attr kw|kw|kw|attr act w|mm|mm|a mm|a mm|cls fn]; cbn [writes not_replace] in *; try tauto.
  - apply kw_w_mono; auto.
  - apply kw_w_mono; auto. intros o H. apply W, H.
  - intros (o & f & -> & P & I & R). exists o, f. auto.
  - intros (o & f & -> & P & I & R). exists o, f. repeat split; auto. apply A, P.
  - intros [(o & c & g & -> & P & E & R)|(o & wc & k & a & g & -> & P & E & Ea & Nm & R)].
    + left. destruct (frame_obj_act n m o c F E) as [c' E']. exists o, c', g. auto.
    + right. destruct (frame_obj_w n m o wc F E) as [w' E']. exists o, w', k, a, g. repeat split; auto; try (eapply frame_names; eauto); apply R.
  - intros (o & c & f & m' & -> & P & E & R). destruct (frame_obj_act n m o c F E) as [c' E']. exists o, c', f, m'.
    repeat split; auto; try apply R. apply A, P.
  - intros (o & c & f & m' & -> & P & E & R). destruct (frame_obj_act n m o c F E) as [c' E']. exists o, c', f, m'.
    repeat split; auto; apply R.
  - intros (o & w & k & f & m' & -> & P & E & Nm & R). destruct (frame_obj_w n m o w F E) as [w' E']. exists o, w', k, f, m'.
    split; [reflexivity|]. split; [apply W, P|]. split; [exact E'|]. split; [eapply frame_names; eauto|exact R].
  - intros (o & w & k & f & m' & -> & P & E & Nm & R). destruct (frame_obj_w n m o w F E) as [w' E']. exists o, w', k, f, m'.
    split; [reflexivity|]. split; [exact P|]. split; [exact E'|]. split; [eapply frame_names; eauto|exact R].
Qed.

Lemma cands_nil n m : frame n m -> n_cands m <> [] -> n_cands n <> [].
Proof.
  intros (_ & _ & _ & _ & K & _) H E. specialize (K (Some 0%nat)). cbn in K. rewrite E in K. cbn in K.
  destruct (n_cands m); [congruence|]. cbn in K. destruct K as [_ K]. specialize (K eq_refl). discriminate.
Qed.
Lemma applicable_frame T a n m : not_replace a -> frame n m -> applicable T a n -> applicable T a m.
Proof.
  intros NR F. pose proof F as (_ & _ & A & W & _ & _). pose proof (frame_sym n m F) as F'.
  destruct a as [attr kw|attr kw|kw|kw|attr act w|mm|mm|a mm|a mm|cls fn]; cbn [applicable not_replace] in *; try tauto; intro H.
  - intros o w P E Nk. destruct (frame_obj_w m n o w F' E) as [w' E']. specialize (H o w' P E' Nk).
    destruct attr; [|exact H]. destruct H as [k Hk]. exists k. eapply (frame_names n m); eauto.
  - intros o w P E Nk. destruct (frame_obj_w m n o w F' E) as [w' E']. specialize (H o w' (proj1 (W o) P) E' Nk).
    destruct attr; [|exact H]. destruct H as [k Hk]. exists k. eapply (frame_names n m); eauto.
  - intro Nc. apply H. eapply cands_nil; eauto.
  - intros (o & c & P & E). apply H. destruct (frame_obj_act m n o c F' E) as [c' E']. exists o, c'. split; [apply A, P|exact E'].
  - intros o wc g P E Ew. destruct (frame_obj_w m n o wc F' E) as [w' E']. destruct (H o w' g P E' Ew) as (a & k & Ea & Nm).
    exists a, k. split; [exact Ea|]. eapply (frame_names n m); eauto.
  - intros o c m' P E Em. destruct (frame_obj_act m n o c F' E) as [c' E']. eapply H; eauto. apply A, P.
  - intros m' Nc Em. apply H; [eapply cands_nil; eauto|exact Em].
  - intros o w m' P E Em. destruct (frame_obj_w m n o w F' E) as [w' E']. destruct (H o w' m' (proj1 (W o) P) E' Em) as (H1 & H2 & k & Nm).
    repeat split; auto. exists k. eapply (frame_names n m); eauto.
  - intros o w m' P E Em. destruct (frame_obj_w m n o w F' E) as [w' E']. destruct (H o w' m' P E' Em) as (H1 & H2 & k & Nm).
    repeat split; auto. exists k. eapply (frame_names n m); eauto.
Qed.
Lemma action_class T a n n' : not_replace a -> apply_action T a n = Ok n' -> n_class n' = n_class n.
Proof.
  intro NR. assert (X : forall x y : node, static x y -> n_class y = n_class x) by (intros x y S; apply S).
  destruct a as [attr kw|attr kw|kw|kw|attr act w|mm|mm|a mm|a mm|cls fn]; cbn [apply_action not_replace] in *; try tauto; intro E.
  - rewrite each_w in E. apply each_cand_obj in E. apply X, E.
  - apply final_w_obj in E. apply X, E.
  - rewrite each_a in E. apply each_cand_obj in E. apply X, E.
  - apply final_act_obj in E. apply X, E.
  - rewrite each_p in E. apply each_cand_obj in E. apply X, E.
  - destruct mm; [apply final_act_obj in E; apply X, E|inversion E; reflexivity].
  - destruct mm; [rewrite each_a in E; apply each_cand_obj in E; apply X, E|inversion E; reflexivity].
  - destruct mm; [apply final_w_obj in E; apply X, E|inversion E; reflexivity].
  - destruct mm; [rewrite each_w in E; apply each_cand_obj in E; apply X, E|inversion E; reflexivity].
Qed.
Lemma matches_same f n m : n_name m = n_name n -> n_class m = n_class n -> n_func m = n_func n -> (matches f n <-> matches f m).
Proof.
  intros En Ec Ef. assert (Et : node_type m = node_type n) by (unfold node_type; rewrite Ec, Ef; reflexivity).
  induction f as [t|s|s| |a IHa b IHb|a IHa b IHb|a IHa]; cbn [matches]; rewrite ?En, ?Et; tauto.
Qed.

Lemma opt_stable (x y : option pyv) : ~ ~ x = y -> x = y.
Proof.
  intro H. assert (D : {x = y} + {x <> y}) by (repeat decide equality). destruct D; [assumption|tauto].
Qed.
Lemma none_stable (x : option pyv) : ~ ~ x <> None -> x <> None.
Proof. destruct x; [discriminate|tauto]. Qed.
Lemma nn (P : Prop) : ~ ~ (P \/ ~ P).
Proof. tauto. Qed.

Lemma action_grows T a n n' s : wf_node n -> wf_action a -> apply_action T a n = Ok n' -> read n s <> None -> read n' s <> None.
Proof.
  intros W Wa A H. apply none_stable. intro K. destruct (action_effect T a n n' W Wa A) as (_ & B1 & B2).
  apply (nn (exists v, writes T a n s v)). intros [[v Hv]|N].
  - apply K. rewrite (B1 s v Hv). discriminate.
  - apply K. rewrite B2; [exact H|]. intros v Hv. apply N. eauto.
Qed.
Lemma runs_grows T rs s : forall n n', wf_node n -> wf_rules rs -> runs T rs n n' -> read n s <> None -> read n' s <> None.
Proof.
  induction rs as [|r rs IH]; intros n n' W Wr R H.
  - inversion R; subst. exact H.
  - apply runs_cons in R. destruct R as (m & S & R).
    assert (Wa : wf_action (r_action r)) by (apply Wr; left; reflexivity).
    apply (IH m n'); [eapply frame_wf; [eapply step_frame; eauto|exact W]|intros x I; apply Wr; right; exact I|exact R|].
    destruct S as [[M A]|[_ ->]]; [|exact H]. eapply action_grows; eauto.
Qed.

(* a second run of rules that replace no layer: n is the first run's node, m the second's, n1 the first run's result *)
Lemma twice T rs n1 : forall n m, wf_node n -> wf_node m -> wf_rules rs -> (forall r, In r rs -> not_replace (r_action r)) ->
  frame n m -> n_class m = n_class n -> runs T rs n n1 ->
  (forall s, read m s <> None <-> read n1 s <> None) ->
  (forall s, ~ swrites T rs n s -> read m s = read n1 s) ->
  exists m1, runs T rs m m1 /\ (forall s, read m1 s = read n1 s) /\ n_class m1 = n_class n1.
Proof.
  induction rs as [|r rs IH]; intros n m Wn Wm Wr NR F Ec R D Inv.
  - inversion R; subst. exists m. split; [constructor|]. split; [|exact Ec]. intro s. apply Inv. intro H. inversion H.
  - apply runs_cons in R. destruct R as (n' & S & R).
    assert (Wa : wf_action (r_action r)) by (apply Wr; left; reflexivity).
    assert (Nr : not_replace (r_action r)) by (apply NR; left; reflexivity).
    assert (Fn : frame n n') by (eapply step_frame; eauto).
    assert (Wn' : wf_node n') by (eapply frame_wf; eauto).
    assert (Wr' : wf_rules rs) by (intros x I; apply Wr; right; exact I).
    assert (Mm : matches (r_filter r) n <-> matches (r_filter r) m) by (apply matches_same; [apply F|exact Ec|apply F]).
    destruct S as [[M A]|[N E]].
    + destruct (proj2 (action_total T (r_action r) m Wm Wa)) as [m' A'].
      { apply (applicable_frame T _ n m Nr F). apply (action_total T (r_action r) n Wn Wa). eauto. }
      destruct (action_effect T _ n n' Wn Wa A) as (_ & Wn1 & Wn2).
      destruct (action_effect T _ m m' Wm Wa A') as (Fm & Wm1 & Wm2).
      assert (Wm' : wf_node m') by (eapply frame_wf; eauto).
      assert (Back : forall s v, read n1 s = read n s \/ read n1 s = None -> writes T (r_action r) m s v -> writes T (r_action r) n s v).
      { intros s v Q Hw. apply (writes_mono T _ m n s v Nr (frame_sym _ _ F)); [|exact Hw]. intro H. apply D in H.
        destruct Q as [Q|Q]; congruence. }
      assert (Fwd : forall s v, writes T (r_action r) n s v -> writes T (r_action r) m s v).
      { intros s v Hw. apply (writes_mono T _ n m s v Nr F); [|exact Hw]. intro H. apply D.
        apply (runs_grows T rs s n' n1 Wn' Wr' R). exact (action_grows T _ n n' s Wn Wa A H). }
      destruct (IH n' m') as (m1 & R1 & E1 & C1); auto.
      * intros x I. apply NR. right. exact I.
      * eapply frame_trans; [apply frame_sym; exact Fn|]. eapply frame_trans; [exact F|exact Fm].
      * rewrite (action_class T _ _ _ Nr A'), (action_class T _ _ _ Nr A). exact Ec.
      * intro s. split.
        -- intro H. apply none_stable. intro K. apply (nn (exists v, writes T (r_action r) m s v)). intros [[v Hv]|N].
           ++ assert (Z : read n1 s = None) by (destruct (read n1 s); [exfalso; apply K; discriminate|reflexivity]).
              pose proof (Back s v (or_intror Z) Hv) as Hv'. apply Wn1 in Hv'.
              apply (runs_grows T rs s n' n1 Wn' Wr' R); congruence.
           ++ apply K, D. rewrite <- (Wm2 s); [exact H|]. intros v Hv. apply N. eauto.
        -- intro H. apply D in H. exact (action_grows T _ m m' s Wm Wa A' H).
      * intros s Ns. apply opt_stable. intro K.
        pose proof (not_swrites T rs s n' n1 Wn' Wr' R Ns) as Q.
        apply (nn (exists v, writes T (r_action r) n s v)). intros [[v Hv]|N].
        -- apply K. rewrite Q, (Wn1 s v Hv). apply Wm1, Fwd, Hv.
        -- assert (Zn : read n' s = read n s) by (apply Wn2; intros v Hv; apply N; eauto).
           assert (Zm : read m' s = read m s).
           { apply Wm2. intros v Hv. apply N. exists v. apply Back; [left; congruence|exact Hv]. }
           apply K. rewrite Zm. apply Inv. intro Sw. inversion Sw as [? ? ? ? v M' Hv|? ? ? x ? S' Sw']; subst.
           ++ apply N. eauto.
           ++ apply Ns. destruct S' as [[_ A2]|[N2 _]]; [|tauto]. congruence.
      * exists m1. split; [|auto]. apply runs_cons. exists m'. split; [left; split; [apply Mm, M|exact A']|exact R1].
    + subst n'. destruct (IH n m) as (m1 & R1 & E1 & C1); auto.
      * intros x I. apply NR. right. exact I.
      * intros s Ns. apply Inv. intro Sw. inversion Sw as [? ? ? ? v M' Hv|? ? ? x ? S' Sw']; subst; [tauto|].
        destruct S' as [[M' _]|[_ ->]]; [tauto|]. tauto.
      * exists m1. split; [|auto]. apply runs_cons. exists m. split; [right; split; [|reflexivity]|exact R1]. rewrite <- Mm. exact N.
Qed.

Lemma runs_class T rs : forall n n', (forall r, In r rs -> not_replace (r_action r)) -> runs T rs n n' -> n_class n' = n_class n.
Proof.
  induction rs as [|r rs IH]; intros n n' NR R; [inversion R; reflexivity|].
  apply runs_cons in R. destruct R as (m & S & R). rewrite (IH m n'); [|intros x I; apply NR; right; exact I|exact R].
  destruct S as [[_ A]|[_ ->]]; [|reflexivity]. eapply action_class; [|exact A]. apply NR. left. reflexivity.
Qed.
Lemma run_twice T rs n n1 : wf_node n -> wf_rules rs -> (forall r, In r rs -> not_replace (r_action r)) -> runs T rs n n1 ->
  exists n2, runs T rs n1 n2 /\ (forall s, read n2 s = read n1 s) /\ n_class n2 = n_class n1.
Proof.
  intros W Wr NR R. pose proof (runs_frame T rs n n1 W Wr R) as F. apply (twice T rs n1 n n1); auto.
  - eapply frame_wf; eauto.
  - apply runs_class with (T := T) (rs := rs); assumption.
  - tauto.
Qed.
