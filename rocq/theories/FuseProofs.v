(* FuseProofs.v -- lemmas about the book-keeping of fused operations. *)
From Coq Require Import Permutation Sorted String Lia.
From Verif Require Import Base GraphModel GraphSpec GraphProofs FuseModel FuseSpec.
Open Scope list_scope.
Open Scope res_scope.
Local Open Scope nat_scope.

(* ---- dictionaries ---- *)
Section Dict.
Context {V : Type}.
Implicit Types d : list (string * V).
Lemma sget_sset k v d k' : sget k' (sset k v d) = if String.eqb k' k then Some v else sget k' d.
Proof.
  induction d as [|[a b] d IH]; cbn; [destruct (String.eqb k' k); reflexivity|].
  destruct (String.eqb_spec k a) as [->|N]; cbn.
  - destruct (String.eqb k' a); reflexivity.
  - rewrite IH. destruct (String.eqb_spec k' a) as [->|N']; [|reflexivity]. destruct (String.eqb_spec a k); [congruence|reflexivity].
Qed.
Lemma sget_sdel k d k' : sget k' (sdel k d) = if String.eqb k' k then None else sget k' d.
Proof.
  unfold sdel. induction d as [|[a b] d IH]; cbn; [destruct (String.eqb k' k); reflexivity|].
  destruct (String.eqb_spec k a) as [->|N]; cbn.
  - rewrite IH. destruct (String.eqb_spec k' a); reflexivity.
  - rewrite IH. destruct (String.eqb_spec k' a) as [->|N']; [|reflexivity]. destruct (String.eqb_spec a k); [congruence|reflexivity].
Qed.
Lemma sget_in k v d : sget k d = Some v -> In (k, v) d.
Proof. induction d as [|[a b] d IH]; [discriminate|]. cbn. destruct (String.eqb_spec k a) as [->|N]; [intro H; injection H as ->; left; reflexivity|intro H; right; auto]. Qed.
Lemma in_sget k v d : NoDup (map fst d) -> In (k, v) d -> sget k d = Some v.
Proof.
  induction d as [|[a b] d IH]; [intros _ []|]. cbn. intros N I. inversion N; subst. destruct I as [I|I].
  - injection I as -> ->. rewrite String.eqb_refl. reflexivity.
  - destruct (String.eqb_spec k a) as [->|N']; [exfalso; apply H1; change a with (fst (a, v)); apply in_map, I|auto].
Qed.
Lemma sget_none k d : sget k d = None <-> ~ In k (map fst d).
Proof. induction d as [|[a b] d IH]; cbn; [tauto|]. destruct (String.eqb_spec k a) as [->|N]; [split; [discriminate|intro H; destruct H; left; reflexivity]|]. rewrite IH. intuition congruence. Qed.
Lemma sset_new k v d : sget k d = None -> sset k v d = d ++ [(k, v)].
Proof. induction d as [|[a b] d IH]; [reflexivity|]. cbn. destruct (String.eqb_spec k a); [discriminate|]. intro H. rewrite (IH H). reflexivity. Qed.
Lemma sdel_in k d x : In x (sdel k d) <-> In x d /\ fst x <> k.
Proof. unfold sdel. rewrite filter_In. destruct (String.eqb_spec k (fst x)); cbn; intuition congruence. Qed.
Lemma sdel_keys k d : map fst (sdel k d) = filter (fun a => negb (String.eqb k a)) (map fst d).
Proof. unfold sdel. induction d as [|x d IH]; [reflexivity|]. cbn. destruct (String.eqb k (fst x)); cbn; rewrite IH; reflexivity. Qed.
End Dict.

Section Fuse.
Context {E : Type}.
Variable name : nat -> string.
Variable matches : E -> nat -> bool.
Notation finfo := (@finfo E).

Lemma map_nodes_get op ns : forall m nm, sget nm (map_nodes name op ns m) = if existsb (fun n => String.eqb nm (name n)) ns then Some op else sget nm m.
Proof.
  unfold map_nodes. induction ns as [|n ns IH]; intros m nm; [reflexivity|]. cbn. rewrite IH, sget_sset. destruct (existsb _ ns); [rewrite orb_true_r; reflexivity|]. rewrite orb_false_r. reflexivity.
Qed.
Lemma del_nodes_get ns : forall (m : list (string * string)) nm, sget nm (fold_left (fun m n => sdel (name n) m) ns m) = if existsb (fun n => String.eqb nm (name n)) ns then None else sget nm m.
Proof.
  induction ns as [|n ns IH]; intros m nm; [reflexivity|]. cbn. rewrite IH, sget_sdel. destruct (existsb _ ns); [rewrite orb_true_r; reflexivity|]. rewrite orb_false_r. reflexivity.
Qed.
Lemma named_in ns nm : existsb (fun n => String.eqb nm (name n)) ns = true <-> exists n, In n ns /\ name n = nm.
Proof. rewrite existsb_exists. split; intros (n & I & H); exists n; (split; [exact I|]); [apply String.eqb_eq in H; congruence|apply String.eqb_eq; congruence]. Qed.
Lemma named_out ns nm : existsb (fun n => String.eqb nm (name n)) ns = false <-> forall n, In n ns -> name n <> nm.
Proof.
  rewrite <- not_true_iff_false, named_in. split; [intros H n I Q; apply H; eauto|intros H (n & I & Q); exact (H n I Q)].
Qed.
Lemma match_all_spec p ns : match_all matches p ns = true <-> full_match matches p ns.
Proof.
  unfold full_match. revert ns. induction p as [|x p IH]; destruct ns as [|n ns]; cbn; try (split; [discriminate|intro H; inversion H]); [split; [constructor|reflexivity]|].
  rewrite andb_true_iff, IH. split; [intros [A B]; constructor; assumption|intro H; inversion H; subst; auto].
Qed.
Lemma names_eqb_spec a b : names_eqb a b = true <-> a = b.
Proof.
  unfold names_eqb. revert b. induction a as [|x a IH]; destruct b as [|y b]; cbn; try (split; congruence). rewrite andb_true_iff, IH, String.eqb_eq. split; [intros [-> ->]; reflexivity|intro H; injection H as -> ->; auto].
Qed.
Lemma valid_fusion_spec ps ns manual : is_valid_fusion name matches ps ns manual = true <->
  In (map name ns) manual \/ (2 <= length ns /\ exists p, In p ps /\ full_match matches p ns).
Proof.
  unfold is_valid_fusion. assert (M : existsb (fun m => names_eqb m (map name ns)) manual = true <-> In (map name ns) manual).
  { rewrite existsb_exists. split; [intros (m & I & H); apply names_eqb_spec in H; congruence|intro I; exists (map name ns); split; [exact I|apply names_eqb_spec; reflexivity]]. }
  destruct (existsb (fun m => names_eqb m (map name ns)) manual); [intuition|]. destruct (Nat.leb_spec (length ns) 1) as [L|L].
  - split; [discriminate|]. intros [I|[I _]]; [apply M in I; discriminate|lia].
  - rewrite existsb_exists. split.
    + intros (p & I & H). right. split; [lia|]. exists p. split; [exact I|]. apply match_all_spec, H.
    + intros [I|[_ (p & I & H)]]; [apply M in I; discriminate|]. exists p. split; [exact I|]. apply match_all_spec, H.
Qed.
Lemma set_cfg_rest f op ns : let f' := set_cfg name matches f op ns in
  fi_patterns f' = fi_patterns f /\ fi_manual f' = fi_manual f /\ fi_data f' = fi_data f /\ fi_map f' = fi_map f /\
  (forall o, o <> op -> sget o (fi_cfg f') = sget o (fi_cfg f)) /\
  (sget op (fi_cfg f) = None -> 2 <= length ns -> config_of matches (fi_patterns f) ns (sget op (fi_cfg f'))).
Proof.
  cbn. unfold set_cfg. destruct (find _ (fi_patterns f)) as [fp|] eqn:F; cbn [fi_patterns fi_manual fi_data fi_map fi_cfg].
  - repeat (split; [reflexivity|]). split; [intros o N; rewrite sget_sset; destruct (String.eqb_spec o op); [contradiction|reflexivity]|].
    intros _ L. rewrite sget_sset, String.eqb_refl. left. revert F. generalize (fi_patterns f). intro ps. induction ps as [|p ps IH]; [discriminate|]. cbn [find].
    destruct (is_valid_fusion name matches [fp_layers p] ns []) eqn:Q.
    + intro H. injection H as ->. apply valid_fusion_spec in Q. destruct Q as [[]|[_ (q & [<-|[]] & M)]]. exists [], fp, ps. split; [reflexivity|]. split; [intros ? []|]. auto.
    + intro H. destruct (IH H) as (pre & q & post & -> & A & B & C). exists (p :: pre), q, post. split; [reflexivity|]. split; [|auto]. intros r [<-|I]; [|auto].
      intro M. assert (is_valid_fusion name matches [fp_layers p] ns [] = true) by (apply valid_fusion_spec; right; split; [exact L|]; exists (fp_layers p); split; [left; reflexivity|exact M]). congruence.
  - repeat (split; [reflexivity|]). intros N L. right. split; [|exact N]. intros q I M. apply (find_none _ _ F) in I.
    assert (is_valid_fusion name matches [fp_layers q] ns [] = true) by (apply valid_fusion_spec; right; split; [exact L|]; exists (fp_layers q); split; [left; reflexivity|exact M]). congruence.
Qed.
Lemma set_cfg_none f op ns o : sget o (fi_cfg (set_cfg name matches f op ns)) <> None -> o = op \/ sget o (fi_cfg f) <> None.
Proof. intro H. destruct (String.eqb_spec o op) as [->|N]; [left; reflexivity|right]. destruct (set_cfg_rest f op ns) as (_ & _ & _ & _ & A & _). rewrite <- (A o N). exact H. Qed.

Lemma lists_snoc data op ns o nm : lists name (data ++ [(op, ns)]) o nm <-> lists name data o nm \/ (o = op /\ exists n, In n ns /\ name n = nm).
Proof.
  unfold lists. split.
  - intros (l & n & I & J & K). apply in_app_or in I. destruct I as [I|[I|[]]]; [left; exists l, n; auto|]. injection I as -> ->. right. split; [reflexivity|]. exists n. auto.
  - intros [(l & n & I & J & K)|[-> (n & J & K)]]; [exists l, n; split; [apply in_or_app; left; exact I|auto]|exists ns, n; split; [apply in_or_app; right; left; reflexivity|auto]].
Qed.
Lemma lists_key data op nm : lists name data op nm -> In op (map fst data).
Proof. intros (ns & n & I & _). change op with (fst (op, ns)). apply in_map, I. Qed.

Lemma add_op_ok f op ns f' : add_op name matches f op ns = Ok f' -> consistent name matches f -> (forall n o, In n ns -> ~ lists name (fi_data f) o (name n)) ->
  consistent name matches f' /\ fi_data f' = fi_data f ++ [(op, ns)] /\ fi_patterns f' = fi_patterns f /\ fi_manual f' = fi_manual f.
Proof.
  intros H [S M C K] D. unfold add_op, sin in H. destruct (sget op (fi_data f)) eqn:G; [discriminate|]. injection H as <-.
  set (f1 := FInfo _ _ _ _ _). destruct (set_cfg_rest f1 op ns) as (R1 & R2 & R3 & R4 & R5 & R6). assert (D1 : fi_data f1 = fi_data f ++ [(op, ns)]) by (cbn; apply sset_new, G).
  split; [|split; [rewrite R3, D1; reflexivity|split; [rewrite R1; reflexivity|rewrite R2; reflexivity]]].
  assert (CN : sget op (fi_cfg f) = None). { destruct (sget op (fi_cfg f)) eqn:Q; [|reflexivity]. apply K in Q. apply sget_none in G. contradiction. }
  destruct S as [S1 S2]. assert (NK : ~ In op (map fst (fi_data f))) by (apply sget_none, G). split.
  - rewrite R3, D1. split; [rewrite map_app; apply NoDup_snoc; assumption|]. intros o1 o2 nm. rewrite !lists_snoc. intros [A|[-> (n & A & <-)]] [B|[-> (n' & B & Bn)]]; try reflexivity.
    + exact (S2 _ _ _ A B).
    + exfalso. apply (D n' o1 B). rewrite Bn. exact A.
    + exfalso. exact (D n o2 A B).
  - intros nm o. unfold op_of_node. rewrite R4, R3, D1, lists_snoc. cbn [fi_map f1]. rewrite map_nodes_get. destruct (existsb _ ns) eqn:X.
    + apply named_in in X. destruct X as (n & I & <-). split; [intro Q; injection Q as ->; right; split; [reflexivity|eauto]|]. intros [L|[-> _]]; [destruct (D n o I L)|reflexivity].
    + rewrite named_out in X. split; [intro Q; left; apply M, Q|]. intros [L|[-> (n & I & N)]]; [apply M, L|destruct (X n I N)].
  - intros o l I L. rewrite R3, D1 in I. rewrite R1. apply in_app_or in I. destruct I as [I|[I|[]]].
    + rewrite R5; [cbn; apply C; assumption|]. intros ->. apply NK. change op with (fst (op, l)). apply in_map, I.
    + injection I as <- <-. apply R6; [exact CN|exact L].
  - intros o c Q. rewrite R3, D1, map_app. apply in_or_app. destruct (set_cfg_none f1 op ns o) as [->|Q']; [rewrite Q; discriminate|right; left; reflexivity|left].
    cbn in Q'. destruct (sget o (fi_cfg f)) eqn:QQ; [|congruence]. apply (K _ _ QQ).
Qed.
Lemma remove_op_ok f op f' : remove_op name f op = Ok f' -> consistent name matches f ->
  exists ns, In (op, ns) (fi_data f) /\ consistent name matches f' /\ fi_data f' = sdel op (fi_data f) /\ fi_patterns f' = fi_patterns f /\
  (forall nm, op_of_node f' nm = if existsb (fun n => String.eqb nm (name n)) ns then None else op_of_node f nm) /\
  (forall o, sget o (fi_cfg f') = if String.eqb o op then None else sget o (fi_cfg f)) /\
  (fi_manual f' = fi_manual f /\ ~ In (map name ns) (fi_manual f) \/ exists a b, fi_manual f = a ++ map name ns :: b /\ fi_manual f' = a ++ b /\ ~ In (map name ns) a).
Proof.
  intros H [S M C K]. unfold remove_op in H. destruct (sget op (fi_data f)) as [ns|] eqn:G; [|discriminate]. injection H as <-. exists ns. assert (I := sget_in _ _ _ G). split; [exact I|].
  destruct S as [S1 S2]. assert (LS : forall o nm, lists name (sdel op (fi_data f)) o nm <-> lists name (fi_data f) o nm /\ o <> op).
  { intros o nm. unfold lists. split.
    - intros (l & n & A & B & N). apply sdel_in in A. cbn in A. destruct A as [A A']. split; [exists l, n; auto|exact A'].
    - intros [(l & n & A & B & N) Q]. exists l, n. split; [apply sdel_in; auto|auto]. }
  assert (OM : forall nm, sget nm (fold_left (fun m n => sdel (name n) m) ns (fi_map f)) = if existsb (fun n => String.eqb nm (name n)) ns then None else sget nm (fi_map f)) by (intro; apply del_nodes_get).
  split; [|split; [reflexivity|split; [reflexivity|split; [exact OM|split; [intro o; cbn; apply sget_sdel|]]]]].
  - split; cbn [fi_data fi_map fi_cfg fi_patterns].
    + split; [rewrite sdel_keys; apply NoDup_filter, S1|]. intros o1 o2 nm A B. apply LS in A. apply LS in B. apply (S2 o1 o2 nm); [apply A|apply B].
    + intros nm o. unfold op_of_node. cbn [fi_map]. rewrite OM, LS. destruct (existsb _ ns) eqn:X.
      * apply named_in in X. destruct X as (n & J & <-). split; [discriminate|]. intros [L Q]. exfalso. apply Q. apply (S2 o op (name n) L). exists ns, n. auto.
      * rewrite named_out in X. rewrite (M nm o). split; [|tauto]. intro L. split; [exact L|]. intros ->. destruct L as (l & n & A & B & N). assert (l = ns). { apply (in_sget _ _ _ S1) in A. congruence. } subst l. exact (X n B N).
    + intros o l J L. apply sdel_in in J. cbn in J. destruct J as [J N]. rewrite sget_sdel. destruct (String.eqb_spec o op); [contradiction|]. apply C; assumption.
    + intros o c. rewrite sget_sdel. destruct (String.eqb_spec o op) as [|N]; [discriminate|]. intro Q. apply K in Q. rewrite sdel_keys, filter_In. split; [exact Q|]. destruct (String.eqb_spec op o); [congruence|reflexivity].
  - cbn [fi_manual]. destruct (remove_first _ (fi_manual f)) as [l|] eqn:R.
    + right. apply remove_first_spec in R. destruct R as (a & x & b & A1 & A2 & A3 & A4). apply names_eqb_spec in A3. subst x. exists a, b. split; [exact A1|]. split; [exact A2|]. intro J. apply A4 in J. assert (names_eqb (map name ns) (map name ns) = true) by (apply names_eqb_spec; reflexivity). congruence.
    + left. split; [reflexivity|]. intro J. rewrite remove_first_none in R. apply R in J. assert (names_eqb (map name ns) (map name ns) = true) by (apply names_eqb_spec; reflexivity). congruence.
Qed.

(* construction: the same as adding the operations one by one *)
Lemma separate_snoc data op ns : separate name (data ++ [(op, ns)]) -> separate name data /\ ~ In op (map fst data) /\ forall n o, In n ns -> ~ lists name data o (name n).
Proof.
  intros [A B]. rewrite map_app in A. cbn in A. assert (A' := NoDup_remove _ _ _ A). rewrite app_nil_r in A'. destruct A' as [A1 A2]. split; [|split; [exact A2|]].
  - split; [exact A1|]. intros o1 o2 nm L1 L2. apply (B o1 o2 nm); apply lists_snoc; left; assumption.
  - intros n o I L. assert (o = op). { apply (B o op (name n)); apply lists_snoc; [left; exact L|right; eauto]. } subst o. apply A2, (lists_key _ _ _ L).
Qed.
Lemma make_info_ok patterns manual data f : make_info name matches patterns manual data = Ok f -> separate name data ->
  consistent name matches f /\ fi_data f = data /\ fi_patterns f = patterns /\ fi_manual f = manual /\ (forall op ns, In (op, ns) data -> 2 <= length ns).
Proof.
  intros H S. unfold make_info in H. destruct (forallb _ data) eqn:F; [|discriminate]. cbn [negb] in H. injection H as <-.
  set (m := fold_left (fun m kv => map_nodes name (fst kv) (snd kv) m) data []).
  assert (MM : forall nm op, sget nm m = Some op <-> lists name data op nm).
  { unfold m. clear F m. induction data as [|[o ns] d IH] using rev_ind; intros nm op; [split; [discriminate|intros (l & n & [] & _)]|].
    destruct (separate_snoc _ _ _ S) as (S' & NK & D). rewrite fold_left_app, lists_snoc. cbn [fold_left fst snd]. rewrite map_nodes_get. destruct (existsb _ ns) eqn:X.
    - apply named_in in X. destruct X as (n & I & <-). split; [intro Q; injection Q as <-; right; split; [reflexivity|eauto]|]. intros [L|[-> _]]; [destruct (D n op I L)|reflexivity].
    - rewrite named_out in X. rewrite (IH S' nm op). split; [left; assumption|]. intros [L|[-> (n & I & N)]]; [exact L|destruct (X n I N)]. }
  assert (G : forall d, (exists d', data = d ++ d') -> let f := fold_left (fun f kv => set_cfg name matches f (fst kv) (snd kv)) d (FInfo patterns manual data m []) in
     fi_patterns f = patterns /\ fi_manual f = manual /\ fi_data f = data /\ fi_map f = m /\ (forall op ns, In (op, ns) d -> 2 <= length ns -> config_of matches patterns ns (sget op (fi_cfg f))) /\
     (forall op c, sget op (fi_cfg f) = Some c -> In op (map fst d))).
  { intro d. induction d as [|[o ns] d IH] using rev_ind; intros [d' Ed].
    - cbn. repeat (split; [reflexivity|]). split; [intros ? ? []|discriminate].
    - rewrite fold_left_app. cbn [fold_left fst snd]. set (f1 := fold_left _ d _). destruct IH as (I1 & I2 & I3 & I4 & I5 & I6); [exists ((o, ns) :: d'); rewrite Ed, <- app_assoc; reflexivity|]. fold f1 in I1, I2, I3, I4, I5, I6.
      destruct (set_cfg_rest f1 o ns) as (R1 & R2 & R3 & R4 & R5 & R6). cbn zeta. rewrite R1, R2, R3, R4. repeat (split; [assumption|]).
      assert (NK : ~ In o (map fst d)). { destruct S as [S _]. rewrite Ed, !map_app in S. cbn in S. rewrite <- app_assoc in S. cbn in S. apply NoDup_remove_2 in S. intro J. apply S, in_or_app. left. exact J. }
      split.
      + intros op l J L. apply in_app_or in J. destruct J as [J|[J|[]]].
        * rewrite R5; [apply I5; assumption|]. intros ->. apply NK. change o with (fst (o, l)). apply in_map, J.
        * injection J as <- <-. rewrite I1 in R6. apply R6; [|exact L]. destruct (sget o (fi_cfg f1)) eqn:Q; [|reflexivity]. destruct (NK (I6 _ _ Q)).
      + intros op c Q. rewrite map_app. apply in_or_app. destruct (set_cfg_none f1 o ns op) as [->|Q']; [rewrite Q; discriminate|right; left; reflexivity|left]. destruct (sget op (fi_cfg f1)) eqn:QQ; [apply (I6 _ _ QQ)|congruence]. }
  destruct (G data (ex_intro _ [] (eq_sym (app_nil_r data)))) as (G1 & G2 & G3 & G4 & G5 & G6). split; [|split; [exact G3|split; [exact G1|split; [exact G2|]]]].
  - split.
    + rewrite G3. exact S.
    + intros nm op. unfold op_of_node. rewrite G4, G3. apply MM.
    + intros op ns I L. rewrite G3 in I. rewrite G1. apply G5; assumption.
    + intros op c Q. rewrite G3. apply (G6 _ _ Q).
  - intros op ns I. rewrite forallb_forall in F. apply F in I. apply andb_true_iff in I. destruct I as [_ I]. apply Nat.ltb_lt in I. cbn [snd] in I. lia.
Qed.
End Fuse.
