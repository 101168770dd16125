(* ReconProofs.v -- lists, candidates and the partition of the original graph over the virtual graph. *)
From Coq Require Import String Permutation.
From Verif Require Import Base SDict ReconModel ReconSpec.
Local Open Scope list_scope.
Local Open Scope nat_scope.

(* ---- lists ---- *)
Lemma all_equal_spec l : all_equal l = true <-> forall x y, In x l -> In y l -> x = y.
Proof.
  destruct l as [|a r]; cbn; [split; [intros _ x y []|reflexivity]|].
  rewrite forallb_forall. split.
  - intros H x y Hx Hy.
    assert (F : forall z, a = z \/ In z r -> a = z).
    { intros z [E0|I]; [exact E0|]. apply H in I. apply Nat.eqb_eq in I. exact I. }
    rewrite <- (F x Hx), <- (F y Hy). reflexivity.
  - intros H x I. apply Nat.eqb_eq. apply H; auto.
Qed.

Lemma all_equal_same l l' : (forall x, In x l <-> In x l') -> all_equal l = all_equal l'.
Proof.
  intro H. destruct (all_equal l) eqn:A, (all_equal l') eqn:B; auto.
  - rewrite all_equal_spec in A. assert (all_equal l' = true); [|congruence].
    apply all_equal_spec. intros x y Hx Hy. apply A; apply H; assumption.
  - rewrite all_equal_spec in B. assert (all_equal l = true); [|congruence].
    apply all_equal_spec. intros x y Hx Hy. apply B; apply H; assumption.
Qed.

Lemma existsb_eqb x l : existsb (Nat.eqb x) l = true <-> In x l.
Proof.
  rewrite existsb_exists. split.
  - intros [y [I E0]]. apply Nat.eqb_eq in E0. subst. exact I.
  - intro I. exists x. split; [exact I|apply Nat.eqb_refl].
Qed.

Lemma uniq_incl key cs : forall seen c, In c (uniq key seen cs) -> In c cs.
Proof.
  induction cs as [|d r IH]; cbn; intros seen c H; [exact H|].
  destruct (existsb (Nat.eqb (key d)) seen); [right; eauto|].
  destruct H as [->|H]; [left; reflexivity|right; eauto].
Qed.

Lemma uniq_complete key cs : forall seen c, In c cs -> ~ In (key c) seen -> exists d, In d (uniq key seen cs) /\ key d = key c.
Proof.
  induction cs as [|d r IH]; cbn; intros seen c H N; [destruct H|].
  destruct (existsb (Nat.eqb (key d)) seen) eqn:X.
  - destruct H as [->|H]; [|eauto]. apply existsb_eqb in X. contradiction.
  - destruct H as [->|H]; [exists c; split; [left|]; reflexivity|].
    destruct (Nat.eq_dec (key d) (key c)) as [Q|Q]; [exists d; split; [left; reflexivity|exact Q]|].
    destruct (IH (key d :: seen) c H) as [d' [I K]]; [cbn; tauto|].
    exists d'. split; [right; exact I|exact K].
Qed.

Lemma uniq_nodup key cs : forall seen, NoDup (map key (uniq key seen cs)) /\ forall c, In c (uniq key seen cs) -> ~ In (key c) seen.
Proof.
  induction cs as [|d r IH]; cbn; intros seen; [split; [constructor|intros c []]|].
  destruct (existsb (Nat.eqb (key d)) seen) eqn:X; [apply IH|].
  destruct (IH (key d :: seen)) as [N M]. split; cbn.
  - constructor; [|exact N]. intro I. apply in_map_iff in I. destruct I as [c [K I]].
    apply (M c I). rewrite K. left. reflexivity.
  - intros c [<-|I].
    + intro I. apply existsb_eqb in I. congruence.
    + intro J. apply (M c I). right. exact J.
Qed.

Lemma uniq_keys key cs x : In x (map key (uniq key [] cs)) <-> In x (map key cs).
Proof.
  rewrite !in_map_iff. split.
  - intros [c [K I]]. exists c. split; [exact K|eapply uniq_incl; exact I].
  - intros [c [K I]]. destruct (uniq_complete key cs [] c I) as [d [J Kd]]; [cbn; tauto|].
    exists d. split; [congruence|exact J].
Qed.

Lemma mapM_spec {A B} (f : A -> result B) l r : mapM f l = Ok r -> Forall2 (fun x y => f x = Ok y) l r.
Proof.
  revert r. induction l as [|x l IH]; cbn; intros r H; [injection H as <-; constructor|].
  destruct (f x) as [y|] eqn:Fx; cbn in H; [|discriminate].
  destruct (mapM f l) as [ys|]; cbn in H; [|discriminate]. injection H as <-. constructor; auto.
Qed.

Lemma mapM_ok {A B} (f : A -> result B) (h : A -> B) l : (forall x, In x l -> f x = Ok (h x)) -> mapM f l = Ok (map h l).
Proof.
  induction l as [|x l IH]; cbn; intro H; [reflexivity|].
  rewrite (H x) by auto. cbn. rewrite IH by auto. reflexivity.
Qed.

Section Bits.
Variables bits_a bits_w : nat -> nat.

Lemma insert_perm x l : Permutation (x :: l) (insert bits_a bits_w x l).
Proof.
  induction l as [|y r IH]; cbn; [apply Permutation_refl|].
  destruct (before bits_a bits_w x y); [apply Permutation_refl|].
  eapply perm_trans; [apply perm_swap|]. apply perm_skip. exact IH.
Qed.
Lemma sort_perm l : Permutation l (sort bits_a bits_w l).
Proof.
  induction l as [|x r IH]; cbn; [constructor|].
  eapply perm_trans; [apply perm_skip; exact IH|]. apply insert_perm.
Qed.
Lemma sort_in l c : In c (sort bits_a bits_w l) <-> In c l.
Proof. split; apply Permutation_in; [apply Permutation_sym|]; apply sort_perm. Qed.

(* ---- candidates of the virtual nodes ---- *)
Lemma split_w_keys n x : In x (map c_w (split_w_cands n)) <-> In x (map c_w (o_cands n)).
Proof. unfold split_w_cands. rewrite map_map. cbn. apply uniq_keys. Qed.
Lemma split_a_keys n x : In x (map c_a (split_a_cands n)) <-> In x (map c_a (o_cands n)).
Proof. unfold split_a_cands. rewrite map_map. cbn. apply uniq_keys. Qed.

Lemma act_keys p x : In x (map c_a (if o_kernel p then split_a_cands p else o_cands p)) <-> In x (map c_a (o_cands p)).
Proof. destruct (o_kernel p); [apply split_a_keys|tauto]. Qed.

Lemma aw_cands p n c : In c (v_cands bits_a bits_w (VAW p n)) <-> In (c_a c) (map c_a (o_cands p)) /\ In (c_w c) (map c_w (o_cands n)).
Proof.
  cbn [v_cands]. rewrite sort_in, in_flat_map. split.
  - intros [ca [I J]]. apply in_map_iff in J. destruct J as [cw [<- J]]. cbn [c_a c_w]. split.
    + apply act_keys. apply in_map. exact I.
    + apply split_w_keys. apply in_map. eapply uniq_incl. exact J.
  - intros [A W]. rewrite <- act_keys in A. rewrite <- split_w_keys in W.
    apply in_map_iff in A. destruct A as [ca [Qa Ia]].
    unfold uniq_w. apply (uniq_keys c_w) in W. apply in_map_iff in W. destruct W as [cw [Qw Iw]].
    exists ca. split; [exact Ia|]. apply in_map_iff. exists cw. split; [|exact Iw].
    destruct c as [a w]. cbn in *. congruence.
Qed.

(* the activation configurations of a virtual node are those of the original node *)
Lemma v_act_keys v n x : act_part v = Some n -> (forall m, wts_part v = Some m -> o_cands m <> []) ->
  In x (map c_a (v_cands bits_a bits_w v)) <-> In x (map c_a (o_cands n)).
Proof.
  destruct v as [m|m|m|p m]; cbn [act_part]; intros Q Ne; try discriminate; injection Q as ->.
  - tauto.
  - apply split_a_keys.
  - rewrite in_map_iff. split.
    + intros [c [<- I]]. apply aw_cands in I. tauto.
    + intro I. destruct (o_cands m) as [|d r] eqn:C; [exfalso; apply (Ne m eq_refl); exact C|].
      exists (Cand x (c_w d)). split; [reflexivity|]. apply aw_cands. cbn [c_a c_w].
      split; [exact I|]. rewrite C. left. reflexivity.
Qed.
Lemma v_wts_keys v n x : wts_part v = Some n -> (forall m, act_part v = Some m -> o_cands m <> []) ->
  In x (map c_w (v_cands bits_a bits_w v)) <-> In x (map c_w (o_cands n)).
Proof.
  destruct v as [m|m|m|p m]; cbn [wts_part]; intros Q Ne; try discriminate.
  - destruct (o_weights m); [injection Q as ->; tauto|discriminate].
  - injection Q as ->. apply split_w_keys.
  - injection Q as ->. rewrite in_map_iff. split.
    + intros [c [<- I]]. apply aw_cands in I. tauto.
    + intro I. destruct (o_cands p) as [|d r] eqn:C; [exfalso; apply (Ne p eq_refl); exact C|].
      exists (Cand (c_a d) x). split; [reflexivity|]. apply aw_cands. cbn [c_a c_w].
      split; [|exact I]. rewrite C. left. reflexivity.
Qed.

Lemma v_conf_a_part v n : act_part v = Some n -> (forall m, wts_part v = Some m -> o_cands m <> []) ->
  v_conf_a bits_a bits_w v = o_conf_a n.
Proof.
  intros Q Ne. assert (K := fun x => v_act_keys v n x Q Ne). apply all_equal_same in K.
  destruct v; cbn [act_part] in Q; try discriminate; injection Q as ->; cbn [v_conf_a];
    unfold o_conf_a, conf_a; try rewrite K; reflexivity.
Qed.
Lemma v_conf_w_part v n : wts_part v = Some n -> (forall m, act_part v = Some m -> o_cands m <> []) ->
  v_conf_w bits_a bits_w v = o_conf_w n.
Proof.
  intros Q Ne. assert (K := fun x => v_wts_keys v n x Q Ne). apply all_equal_same in K.
  destruct v as [m|m|m|p m]; cbn [wts_part] in Q; try discriminate;
    [destruct (o_weights m); [|discriminate]| |]; injection Q as ->; cbn [v_conf_w];
    unfold o_conf_w, conf_w; try rewrite K; reflexivity.
Qed.
Lemma v_conf_a_none v : act_part v = None -> v_conf_a bits_a bits_w v = false.
Proof. destruct v; cbn; try discriminate. reflexivity. Qed.
Lemma v_conf_w_none v : wts_part v = None -> v_conf_w bits_a bits_w v = false.
Proof.
  destruct v as [m|m|m|p m]; cbn; try discriminate; [|reflexivity].
  unfold o_conf_w. destruct (o_weights m); [discriminate|reflexivity].
Qed.

(* ---- the partition ---- *)
Section Graph.
Variable g : ograph.
Hypothesis G : graph_ok g.

Lemma name_inj n m : In n (og_nodes g) -> In m (og_nodes g) -> o_name n = o_name m -> n = m.
Proof.
  assert (N := gk_names _ G). revert N. generalize (og_nodes g) as l.
  induction l as [|x l IH]; cbn; intros N I J Q; [destruct I|].
  inversion N as [|? ? N1 N2]; subst.
  destruct I as [->|I], J as [->|J]; auto.
  - exfalso. apply N1. rewrite Q. apply in_map. exact J.
  - exfalso. apply N1. rewrite <- Q. apply in_map. exact I.
Qed.

Lemma find_node_in name n : find_node g name = Ok n -> In n (og_nodes g) /\ o_name n = name.
Proof.
  unfold find_node. destruct (find _ _) as [m|] eqn:F; [|discriminate]. intro H. injection H as ->.
  apply find_some in F. destruct F as [I Q]. apply String.eqb_eq in Q. auto.
Qed.
Lemma find_node_ok n : In n (og_nodes g) -> find_node g (o_name n) = Ok n.
Proof.
  intro I. unfold find_node. destruct (find _ _) as [m|] eqn:F.
  - apply find_some in F. destruct F as [J Q]. apply String.eqb_eq in Q. rewrite (name_inj m n J I Q). reflexivity.
  - exfalso. apply (find_none _ _ F) in I. rewrite String.eqb_refl in I. discriminate.
Qed.

Lemma composable_some n p : composable g n = Ok (Some p) ->
  In p (og_nodes g) /\ preds g (o_name n) = [o_name p] /\ out_degree g (o_name p) <= 1 /\ (o_kernel p = false -> o_conf_w p = false).
Proof.
  unfold composable. destruct (preds g (o_name n)) as [|q [|q' r]] eqn:P; try discriminate.
  destruct (Nat.ltb_spec 1 (out_degree g q)) as [|L]; [discriminate|].
  destruct (find_node g q) as [pn|] eqn:F; cbn [bind]; [|discriminate].
  destruct (negb (o_kernel pn) && o_conf_w pn) eqn:X; [discriminate|].
  intro H. injection H as ->. apply find_node_in in F. destruct F as [I <-].
  repeat split; auto. intro K. rewrite K in X. exact X.
Qed.

Lemma preds_edge name p : preds g name = [p] -> In (p, name) (og_edges g).
Proof.
  unfold preds. intro H. assert (I : In p (map fst (filter (fun e => String.eqb (snd e) name) (og_edges g)))) by (rewrite H; left; reflexivity).
  apply in_map_iff in I. destruct I as [[a b] [Q I]]. apply filter_In in I. destruct I as [I E0].
  apply String.eqb_eq in E0. cbn in *. subst. exact I.
Qed.

Lemma one_successor p a b : out_degree g p <= 1 -> In (p, a) (og_edges g) -> In (p, b) (og_edges g) -> a = b.
Proof.
  unfold out_degree. intros L I J.
  assert (I' : In (p, a) (filter (fun e => String.eqb (fst e) p) (og_edges g))) by (apply filter_In; split; [exact I|apply String.eqb_refl]).
  assert (J' : In (p, b) (filter (fun e => String.eqb (fst e) p) (og_edges g))) by (apply filter_In; split; [exact J|apply String.eqb_refl]).
  destruct (filter _ _) as [|x [|y r]]; cbn in *; [destruct I'| |lia].
  destruct I' as [->|[]], J' as [Q|[]]. congruence.
Qed.

Lemma composable_inj n m p : In n (og_nodes g) -> In m (og_nodes g) ->
  composable g n = Ok (Some p) -> composable g m = Ok (Some p) -> n = m.
Proof.
  intros I J A B. apply composable_some in A. apply composable_some in B.
  destruct A as [_ [A [L _]]], B as [_ [B _]]. apply name_inj; auto.
  eapply one_successor; [exact L| |]; apply preds_edge; assumption.
Qed.

Lemma consumed_spec p : In p (og_nodes g) ->
  (consumed g p = true <-> exists n, In n (og_nodes g) /\ o_kernel n = true /\ composable g n = Ok (Some p)).
Proof.
  intro I. unfold consumed. rewrite existsb_exists. split.
  - intros [n [J H]]. apply andb_true_iff in H. destruct H as [K H].
    destruct (composable g n) as [[q|]|] eqn:C; try discriminate. apply String.eqb_eq in H.
    exists n. split; [exact J|]. split; [exact K|]. apply composable_some in C as D.
    rewrite (name_inj p q) by (tauto || congruence). exact C.
  - intros [n [J [K C]]]. exists n. split; [exact J|]. rewrite K, C. cbn. apply String.eqb_refl.
Qed.

Variable vs : list vnode.
Hypothesis V : virtual_nodes bits_a bits_w g = Ok vs.

Lemma virtual_forall2 : exists l, Forall2 (fun n y => virtual_nodes_of bits_a bits_w g n = Ok y) (og_nodes g) l /\ vs = concat l.
Proof.
  unfold virtual_nodes in V. destruct (mapM _ _) as [l|] eqn:M; cbn in V; [|discriminate].
  injection V as <-. exists l. split; [apply mapM_spec; exact M|reflexivity].
Qed.

Lemma in_virtual v : In v vs <-> exists n l, In n (og_nodes g) /\ virtual_nodes_of bits_a bits_w g n = Ok l /\ In v l.
Proof.
  destruct virtual_forall2 as [l [F ->]]. clear V. revert F. generalize (og_nodes g) as ns. intros ns F.
  induction F as [|n y ns ys H F IH]; cbn.
  - split; [intros []|intros [n [l0 [[] _]]]].
  - rewrite in_app_iff, IH. split.
    + intros [I|[m [l0 [I R]]]]; [exists n, y; auto|exists m, l0; auto].
    + intros [m [l0 [[->|I] [Q R]]]]; [left; congruence|right; exists m, l0; auto].
Qed.
Lemma virtual_of_ok n : In n (og_nodes g) -> exists l, virtual_nodes_of bits_a bits_w g n = Ok l.
Proof.
  destruct virtual_forall2 as [l [F _]]. clear V. revert F. generalize (og_nodes g) as ns. intros ns F.
  induction F as [|m y ns ys H F IH]; cbn; [intros []|]. intros [->|I]; [exists y; exact H|auto].
Qed.

(* which virtual nodes there are *)
Lemma virtual_cases v : In v vs <->
  match v with
  | VReg n => In n (og_nodes g) /\ o_kernel n = false /\ consumed g n = false
  | VSplitA n => In n (og_nodes g) /\ o_kernel n = true /\ consumed g n = false
  | VSplitW n => In n (og_nodes g) /\ o_kernel n = true /\ composable g n = Ok None
  | VAW p n => In n (og_nodes g) /\ o_kernel n = true /\ composable g n = Ok (Some p)
  end.
Proof.
  rewrite in_virtual. split.
  - intros [n [l [I [H J]]]]. unfold virtual_nodes_of in H. destruct (o_kernel n) eqn:K.
    + destruct (_ && _) in H; [discriminate|].
      destruct (composable g n) as [[p|]|] eqn:C; cbn [bind] in H; try discriminate; injection H as <-;
        (destruct J as [<-|J]; [auto|]; destruct (consumed g n) eqn:X; [destruct J|]; destruct J as [<-|[]]; auto).
    + injection H as <-. destruct (consumed g n) eqn:X; [destruct J|]. destruct J as [<-|[]]. auto.
  - assert (D : forall n, In n (og_nodes g) -> o_kernel n = true -> exists c, composable g n = Ok c /\
        virtual_nodes_of bits_a bits_w g n = Ok ((match c with Some p => VAW p n | None => VSplitW n end) :: (if consumed g n then [] else [VSplitA n]))).
    { intros n I K. destruct (virtual_of_ok n I) as [l L]. rewrite L. unfold virtual_nodes_of in L. rewrite K in L.
      destruct (_ && _) in L; [discriminate|].
      destruct (composable g n) as [c|]; cbn [bind] in L; [|discriminate]. exists c. split; [reflexivity|congruence]. }
    destruct v as [n|n|n|p n]; intros [I [K C]].
    + exists n, [VReg n]. unfold virtual_nodes_of. rewrite K, C. cbn. auto.
    + destruct (D n I K) as [c [Q L]]. rewrite C in Q. injection Q as <-. eexists n, _. split; [exact I|]. split; [exact L|left; reflexivity].
    + destruct (D n I K) as [c [Q L]]. eexists n, _. split; [exact I|]. split; [exact L|]. rewrite C. right. left. reflexivity.
    + destruct (D n I K) as [c [Q L]]. rewrite C in Q. injection Q as <-. eexists n, _. split; [exact I|]. split; [exact L|left; reflexivity].
Qed.

Lemma virtual_composite n : In n (og_nodes g) -> o_kernel n = true -> o_conf_a n = true -> o_conf_w n = true ->
  composite bits_a bits_w n = true.
Proof.
  intros I K A W. destruct (virtual_of_ok n I) as [l L]. unfold virtual_nodes_of in L. rewrite K, A, W in L.
  destruct (composite _ _ n); [reflexivity|discriminate].
Qed.

Lemma act_part_in v n : In v vs -> act_part v = Some n -> In n (og_nodes g).
Proof.
  intros I Q. apply virtual_cases in I. destruct v; cbn in Q; try discriminate; injection Q as <-; try tauto.
  destruct I as [_ [_ C]]. apply composable_some in C. tauto.
Qed.
Lemma wts_part_in v n : In v vs -> wts_part v = Some n -> In n (og_nodes g).
Proof.
  intros I Q. apply virtual_cases in I. destruct v as [m|m|m|p m]; cbn in Q; try discriminate;
    [destruct (o_weights m); [|discriminate]| |]; injection Q as <-; tauto.
Qed.

Lemma act_part_unique v v' n : In v vs -> In v' vs -> act_part v = Some n -> act_part v' = Some n -> v = v'.
Proof.
  intros I J Q R. assert (N := act_part_in v n I Q). apply virtual_cases in I. apply virtual_cases in J.
  assert (U : forall m, In m (og_nodes g) /\ o_kernel m = true /\ composable g m = Ok (Some n) -> consumed g n = true).
  { intros m H. apply consumed_spec; [exact N|]. exists m. exact H. }
  destruct v as [m|m|m|p m], v' as [m'|m'|m'|p' m']; cbn in Q, R; try discriminate; injection Q as ->; injection R as ->;
    try (exfalso; specialize (U _ I); destruct J as [_ [_ J]]; congruence);
    try (exfalso; specialize (U _ J); destruct I as [_ [_ I]]; congruence);
    try reflexivity; try (exfalso; destruct I as [_ [I _]], J as [_ [J _]]; congruence).
  f_equal. destruct I as [I [_ C]], J as [J [_ D]]. eapply composable_inj; eassumption.
Qed.
Lemma wts_part_unique v v' n : In v vs -> In v' vs -> wts_part v = Some n -> wts_part v' = Some n -> v = v'.
Proof.
  intros I J Q R. apply virtual_cases in I. apply virtual_cases in J.
  destruct v as [m|m|m|p m], v' as [m'|m'|m'|p' m']; cbn in Q, R; try discriminate;
    try (destruct (o_weights m); [|discriminate]); try (destruct (o_weights m'); [|discriminate]);
    injection Q as ->; injection R as ->; try reflexivity;
    destruct I as [_ [I C]], J as [_ [J D]]; try congruence.
Qed.

Lemma act_part_exists n : In n (og_nodes g) -> exists v, In v vs /\ act_part v = Some n.
Proof.
  intro I. destruct (consumed g n) eqn:X.
  - apply consumed_spec in X; [|exact I]. destruct X as [m H]. exists (VAW n m). split; [|reflexivity].
    apply virtual_cases. exact H.
  - destruct (o_kernel n) eqn:K; [exists (VSplitA n)|exists (VReg n)]; (split; [apply virtual_cases; auto|reflexivity]).
Qed.
Lemma wts_part_exists n : In n (og_nodes g) -> o_conf_w n = true \/ o_kernel n = true -> exists v, In v vs /\ wts_part v = Some n.
Proof.
  intros I H. destruct (o_kernel n) eqn:K.
  - destruct (virtual_of_ok n I) as [l L]. unfold virtual_nodes_of in L. rewrite K in L.
    destruct (_ && _) in L; [discriminate|].
    destruct (composable g n) as [[p|]|] eqn:C; cbn [bind] in L; try discriminate;
      [exists (VAW p n)|exists (VSplitW n)]; (split; [apply virtual_cases; auto|reflexivity]).
  - destruct H as [H|]; [|discriminate]. destruct (consumed g n) eqn:X.
    + apply consumed_spec in X; [|exact I]. destruct X as [m [J [_ C]]]. apply composable_some in C.
      destruct C as [_ [_ [_ C]]]. rewrite (C K) in H. discriminate.
    + exists (VReg n). split; [apply virtual_cases; auto|]. cbn. unfold o_conf_w in H. destruct (o_weights n); [reflexivity|discriminate].
Qed.

Lemma conf_a_of v n : In v vs -> act_part v = Some n -> v_conf_a bits_a bits_w v = o_conf_a n.
Proof. intros I Q. apply v_conf_a_part; [exact Q|]. intros m R. eapply gk_some; [exact G|]. eapply wts_part_in; eassumption. Qed.
Lemma conf_w_of v n : In v vs -> wts_part v = Some n -> v_conf_w bits_a bits_w v = o_conf_w n.
Proof. intros I Q. apply v_conf_w_part; [exact Q|]. intros m R. eapply gk_some; [exact G|]. eapply act_part_in; eassumption. Qed.

(* ---- matching candidates ---- *)
Lemma matching_spec f cs i : In i (matching f cs) <-> exists c, nth_error cs i = Some c /\ f c = true.
Proof.
  unfold matching. rewrite in_map_iff.
  assert (H : forall k, (exists x : nat * cand, fst x = i /\ In x (filter (fun ic => f (snd ic)) (combine (seq k (length cs)) cs))) <->
                        (k <= i /\ exists c, nth_error cs (i - k) = Some c /\ f c = true)).
  { induction cs as [|d r IH]; intro k; cbn [length seq combine filter].
    - split; [intros [x [_ []]]|]. intros [_ [c [Q _]]]. destruct (i - k); discriminate.
    - assert (S0 : (exists x : nat * cand, fst x = i /\ In x (if f (snd (k, d)) then (k, d) :: filter (fun ic => f (snd ic)) (combine (seq (S k) (length r)) r)
                        else filter (fun ic => f (snd ic)) (combine (seq (S k) (length r)) r)))
                   <-> (k = i /\ f d = true) \/ exists x : nat * cand, fst x = i /\ In x (filter (fun ic => f (snd ic)) (combine (seq (S k) (length r)) r))).
      { cbn [snd]. destruct (f d) eqn:Fd; cbn [In]; split.
        - intros [x [Q [<-|I]]]; [left; auto|right; eauto].
        - intros [[-> _]|[x [Q I]]]; [exists (i, d); auto|exists x; auto].
        - intros R. right. exact R.
        - intros [[_ Q]|R]; [discriminate|exact R]. }
      rewrite S0, IH. split.
      + intros [[-> Fd]|[L [c [Q Fc]]]].
        * split; [lia|]. exists d. rewrite Nat.sub_diag. auto.
        * split; [lia|]. exists c. replace (i - k) with (S (i - S k)) by lia. auto.
      + intros [L [c [Q Fc]]]. destruct (Nat.eq_dec k i) as [->|N].
        * rewrite Nat.sub_diag in Q. cbn in Q. injection Q as ->. auto.
        * right. split; [lia|]. exists c. replace (i - k) with (S (i - S k)) in Q by lia. auto. }
  rewrite (H 0). rewrite Nat.sub_0_r. split; [tauto|]. intro X. split; [lia|exact X].
Qed.
Lemma matching_nodup f cs : NoDup (matching f cs).
Proof.
  unfold matching. assert (N : NoDup (map fst (combine (seq 0 (length cs)) cs))).
  { assert (M : forall (a : list nat) (b : list cand), length a = length b -> map fst (combine a b) = a).
    { induction a as [|x a IH]; intros [|y b] L; cbn in *; try discriminate; [reflexivity|]. rewrite IH by lia. reflexivity. }
    rewrite M by (rewrite seq_length; reflexivity). apply seq_NoDup. }
  revert N. generalize (combine (seq 0 (length cs)) cs) as l. induction l as [|x l IH]; cbn; intro N; [constructor|].
  inversion N as [|? ? N1 N2]; subst. destruct (f (snd x)); cbn; [|auto].
  constructor; [|auto]. intro I. apply N1. apply in_map_iff in I. destruct I as [y [Q I]]. apply filter_In in I.
  apply in_map_iff. exists y. tauto.
Qed.

Lemma nodup_single (l : list nat) i : NoDup l -> In i l -> (forall j, In j l -> j = i) -> l = [i].
Proof.
  destruct l as [|a [|b r]]; cbn; intros N I H; [destruct I| |].
  - rewrite (H a) by auto. reflexivity.
  - exfalso. inversion N as [|? ? N1 _]; subst. apply N1. left. rewrite (H b), (H a) by auto. reflexivity.
Qed.

Lemma intersect_in a b x : In x (intersect a b) <-> In x a /\ In x b.
Proof. unfold intersect. rewrite filter_In, existsb_eqb. tauto. Qed.
Lemma intersect_nodup a b : NoDup a -> NoDup (intersect a b).
Proof. apply NoDup_filter. Qed.

End Graph.
End Bits.
