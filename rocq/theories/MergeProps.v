(* MergeProps.v -- merging two nodes and appending a node keep the outputs of the graph. *)
From Coq Require Import Permutation Sorted Lia.
From Verif Require Import Base GraphModel GraphSpec GraphProofs GraphProps GraphFindProps FuseSpec FuserProps MergeModel MergeSpec.
Open Scope list_scope.
Open Scope res_scope.
Local Open Scope nat_scope.

Lemma mg_edge g a b c e : mergeable g a b c e -> In e (g_edges g) /\ src e = a /\ snk e = b /\ exists R, Permutation (g_edges g) (e :: R) /\ (forall x, In x R -> src x <> a /\ snk x <> b) /\ R = filter (fun x => negb (inside [a; b] x)) (g_edges g).
Proof.
  intros M. assert (I : In e (filter (fun x => Nat.eqb (src x) a) (g_edges g))) by (rewrite (mg_out _ _ _ _ _ M); left; reflexivity). apply filter_In in I. destruct I as [I S]. apply Nat.eqb_eq in S.
  assert (J : In e (filter (fun x => Nat.eqb (snk x) b) (g_edges g))) by (rewrite (mg_in _ _ _ _ _ M); left; reflexivity). apply filter_In in J. destruct J as [_ T]. apply Nat.eqb_eq in T.
  split; [exact I|]. split; [exact S|]. split; [exact T|]. exists (filter (fun x => negb (inside [a; b] x)) (g_edges g)).
  assert (X : forall x, In x (g_edges g) -> inside [a; b] x = Nat.eqb (src x) a).
  { intros x Ix. unfold inside, mem. cbn [existsb]. rewrite !orb_false_r. destruct (Nat.eqb_spec (src x) a) as [E|E].
    - assert (In x (filter (fun x => Nat.eqb (src x) a) (g_edges g))) as Q by (apply filter_In; split; [exact Ix|apply Nat.eqb_eq, E]). rewrite (mg_out _ _ _ _ _ M) in Q. destruct Q as [<-|[]]. rewrite T, Nat.eqb_refl. cbn. apply orb_true_r.
    - cbn. destruct (Nat.eqb_spec (src x) b) as [F|F]; [cbn|reflexivity]. destruct (Nat.eqb_spec (snk x) a) as [G|G]; [destruct (mg_acyclic _ _ _ _ _ M x Ix (conj F G))|]. cbn. destruct (Nat.eqb_spec (snk x) b) as [H|H]; [|reflexivity].
      assert (In x (filter (fun x => Nat.eqb (snk x) b) (g_edges g))) as Q by (apply filter_In; split; [exact Ix|apply Nat.eqb_eq, H]). rewrite (mg_in _ _ _ _ _ M) in Q. destruct Q as [<-|[]]. contradiction. }
  split; [|split; [|reflexivity]].
  - rewrite (filter_ext_in _ (fun x => negb (Nat.eqb (src x) a))) by (intros x Ix; rewrite (X x Ix); reflexivity).
    assert (P : forall l, Permutation l (filter (fun x => Nat.eqb (src x) a) l ++ filter (fun x => negb (Nat.eqb (src x) a)) l)).
    { induction l as [|y l IH]; [constructor|]. cbn. destruct (Nat.eqb (src y) a); cbn; [constructor; exact IH|]. eapply Permutation_trans; [apply perm_skip, IH|]. apply Permutation_middle. }
    rewrite (P (g_edges g)) at 1. rewrite (mg_out _ _ _ _ _ M). reflexivity.
  - intros x Q. apply filter_In in Q. destruct Q as [Ix Q]. rewrite (X x Ix) in Q. apply negb_true_iff, Nat.eqb_neq in Q. split; [exact Q|]. intro H.
    assert (In x (filter (fun x => Nat.eqb (snk x) b) (g_edges g))) as Y by (apply filter_In; split; [exact Ix|apply Nat.eqb_eq, H]). rewrite (mg_in _ _ _ _ _ M) in Y. destruct Y as [<-|[]]. contradiction.
Qed.
Definition moved (a b c : nat) (x : edge) : edge := resnk a c (resrc b c x).
Section Steps.
Variable validate : graph -> result unit.
Variables (g : graph) (a b c : nat) (e : edge).
Hypothesis M : mergeable g a b c e.
(* the graph before the old edge is removed *)
Definition ready (g3 : graph) : Prop :=
  wf g3 /\ Permutation (g_edges g3) (map (moved a b c) (g_edges g)) /\ (forall m, In m (g_nodes g3) <-> In m (g_nodes g) \/ m = c) /\ g_in g3 = g_in g /\ g_out g3 = map (reout b c) (g_out g).
Lemma ends_in : In a (g_nodes g) /\ In b (g_nodes g) /\ a <> c /\ b <> c.
Proof.
  destruct (mg_edge g a b c e M) as (I & S & T & _). destruct (wf_ends g (mg_wf _ _ _ _ _ M) e I) as [A B]. rewrite S in A. rewrite T in B. pose proof (mg_new _ _ _ _ _ M) as N.
  split; [exact A|]. split; [exact B|]. split; intros ->; contradiction.
Qed.
Lemma step_ready g1 g2 g3 : reconnect_out_edges validate (add_node_nx g c) b c = Ok g1 -> reconnect_in_edges validate g1 a c = Ok g2 -> replace_output_node validate g2 b c = Ok g3 -> ready g3.
Proof.
  intros H1 H2 H3. destruct (add_node_rest g c) as (A1 & A2 & A3). pose proof (add_node_wf g c (mg_wf _ _ _ _ _ M)) as W0.
  destruct (reconnect_out_spec _ _ _ _ _ W0 H1) as (P1 & I1 & O1 & W1 & N1). destruct (reconnect_in_spec _ _ _ _ _ W1 H2) as (P2 & I2 & O2 & W2 & N2). apply replace_output_renames in H3. subst g3.
  split; [split; [exact (wf_nodes _ W2)|exact (wf_ends _ W2)]|]. cbn. split; [rewrite P2, P1, A1, map_map; reflexivity|]. split; [|split; [congruence|rewrite O2, O1, A3; reflexivity]].
  intro m. rewrite N2, N1, add_node_in. tauto.
Qed.
Lemma step_edges g3 : ready g3 -> exists R, R = filter (fun x => negb (inside [a; b] x)) (g_edges g) /\ Permutation (g_edges g3) (e :: map (moved a b c) R) /\ (forall x, In x (map (moved a b c) R) -> src x <> a /\ snk x <> a /\ src x <> b /\ snk x <> b) /\ map (moved a b c) R = map (collapse [a; b] c) R.
Proof.
  intros (_ & P & _). destruct (mg_edge g a b c e M) as (I & S & T & R & PR & HR & ER). destruct ends_in as (_ & _ & AC & BC). pose proof (mg_diff _ _ _ _ _ M) as AB. exists R. split; [exact ER|]. split; [|split].
  - rewrite P, PR. cbn [map]. replace (moved a b c e) with e; [reflexivity|]. unfold moved, resrc. rewrite S, (proj2 (Nat.eqb_neq a b) AB). unfold resnk. rewrite T, (proj2 (Nat.eqb_neq b a) (not_eq_sym AB)). reflexivity.
  - intros x J. apply in_map_iff in J. destruct J as (y & <- & J). destruct (HR y J) as [HR1 HR2]. unfold moved, resnk, resrc.
    destruct (Nat.eqb_spec (src y) b); cbn; (destruct (Nat.eqb_spec (snk y) a); cbn; repeat split; congruence).
  - apply map_ext_in. intros y J. destruct (HR y J) as [HR1 HR2]. unfold moved, collapse, rep, resnk, resrc, mem. cbn [existsb]. rewrite (proj2 (Nat.eqb_neq (src y) a) HR1), (proj2 (Nat.eqb_neq (snk y) b) HR2), !orb_false_r. cbn [orb].
    destruct (Nat.eqb (src y) b); cbn; destruct (Nat.eqb (snk y) a); cbn; destruct y; reflexivity.
Qed.
Lemma out_rename : map (reout b c) (g_out g) = map (fun o => (rep [a; b] c (fst o), snd o)) (g_out g).
Proof.
  apply map_ext_in. intros o I. unfold reout, rename, rep, mem. cbn [existsb]. rewrite orb_false_r. assert (N : fst o <> a). { intro E. apply (mg_noout _ _ _ _ _ M). rewrite <- E. apply in_map, I. }
  rewrite (proj2 (Nat.eqb_neq _ _) N). reflexivity.
Qed.
Lemma step_rest g3 g4 g5 g6 : ready g3 -> remove_edge validate g3 a b = Ok g4 -> remove_node validate g4 b None None = Ok g5 -> remove_node validate g5 a None None = Ok g6 -> fused g [a; b] c g6 /\ wf g6.
Proof.
  intros RD H4 H5 H6. destruct (step_edges g3 RD) as (R & ER & P & HR & CR). destruct RD as (W3 & _ & N3 & I3 & O3). destruct (mg_edge g a b c e M) as (_ & S & T & _). destruct ends_in as (IA & IB & AC & BC). pose proof (mg_diff _ _ _ _ _ M) as AB.
  apply remove_edge_ok in H4. destruct (remove_edge_spec _ _ _ _ H4) as (e' & S' & T' & P' & G4). 
  assert (e' = e). { assert (In e' (e :: map (moved a b c) R)) as J by (rewrite <- P, P'; left; reflexivity). destruct J as [J|J]; [congruence|]. destruct (HR e' J) as (X & _). contradiction. } subst e'.
  assert (P4 : Permutation (g_edges g4) (map (moved a b c) R)) by (apply (Permutation_cons_inv (a := e)); rewrite <- P', <- P; reflexivity).
  destruct (remove_node_removes _ _ _ _ _ _ H5) as [_ (E5 & N5 & I5 & O5)]. destruct (remove_node_removes _ _ _ _ _ _ H6) as [_ (E6 & N6 & I6 & O6)].
  assert (G4i : g_in g4 = g_in g) by (rewrite G4; exact I3). assert (G4o : g_out g4 = map (reout b c) (g_out g)) by (rewrite G4; exact O3). assert (G4n : g_nodes g4 = g_nodes g3) by (rewrite G4; reflexivity).
  destruct (mg_noin _ _ _ _ _ M) as [NA NB].
  rewrite G4i, (proj2 (mem_false _ _) NB) in I5. assert (MO : mem b (map fst (g_out g4)) = false). { apply mem_false. rewrite G4o, map_map. cbn. intro J. apply in_map_iff in J. destruct J as (o & J & _). unfold rename in J. destruct (Nat.eqb_spec (fst o) b); congruence. } rewrite MO in O5.
  rewrite I5, (proj2 (mem_false _ _) NA) in I6. assert (MO' : mem a (map fst (g_out g5)) = false). { apply mem_false. rewrite O5, G4o, map_map. cbn. intro J. apply in_map_iff in J. destruct J as (o & J & J2). unfold rename in J. destruct (Nat.eqb_spec (fst o) b); [congruence|]. apply (mg_noout _ _ _ _ _ M). rewrite <- J. apply in_map, J2. } rewrite MO' in O6.
  split.
  - split; [|split; [|split]].
    + rewrite E6, E5, P4, CR, ER. reflexivity.
    + intro m. rewrite N6, filter_In, N5, filter_In, G4n, N3. rewrite !negb_true_iff, !Nat.eqb_neq. cbn [In]. split; [intros [[[J|J] X] Y]; [left; split; [exact J|intros [Q|[Q|[]]]; congruence]|right; exact J]|].
      intros [[J X]| ->]; [split; [split; [left; exact J|]|]; intro Q; apply X; auto|split; [split; [right; reflexivity|]|]; congruence].
    + congruence.
    + rewrite O6, O5, G4o. apply out_rename.
  - split.
    + rewrite N6, N5, G4n. apply NoDup_filter, NoDup_filter, (wf_nodes _ W3).
    + rewrite E6, E5. intros x J. apply (Permutation_in _ P4) in J. destruct (HR x J) as (X1 & X2 & X3 & X4). assert (J3 : In x (g_edges g3)) by (rewrite P; right; exact J). destruct (wf_ends _ W3 x J3) as [Y1 Y2].
      rewrite N6, N5, G4n, !filter_In, !negb_true_iff, !Nat.eqb_neq. repeat split; try assumption; congruence.
Qed.
End Steps.
(* whatever check runs after each change, exactly the two nodes and the edge between them are replaced by the new node *)
Theorem merging validate g a b c e g' : mergeable g a b c e -> merge_nodes validate g a b c = Ok g' -> fused g [a; b] c g' /\ wf g'.
Proof.
  intros M H. unfold merge_nodes in H. destruct (reconnect_out_edges _ _ _ _) as [g1|] eqn:H1; cbn [bind] in H; [|discriminate]. destruct (reconnect_in_edges _ _ _ _) as [g2|] eqn:H2; cbn [bind] in H; [|discriminate].
  destruct (replace_output_node _ _ _ _) as [g3|] eqn:H3; cbn [bind] in H; [|discriminate]. destruct (remove_edge _ _ _ _) as [g4|] eqn:H4; cbn [bind] in H; [|discriminate].
  destruct (remove_node _ g4 _ _ _) as [g5|] eqn:H5; cbn [bind] in H; [|discriminate]. destruct (remove_node _ g5 _ _ _) as [g6|] eqn:H6; cbn [bind] in H; [|discriminate].
  destruct (_ && _); [|discriminate]. injection H as <-. eapply step_rest; eauto. eapply step_ready; eauto.
Qed.
Print Assumptions merging.
Theorem merging_succeeds g a b c e : mergeable g a b c e -> exists g', merge_nodes no_check g a b c = Ok g'.
Proof.
  intros M. unfold merge_nodes. destruct (reconnect_out_total no_check (fun _ => eq_refl) (add_node_nx g c) b c) as [g1 H1]. rewrite H1. cbn [bind]. destruct (reconnect_in_total no_check (fun _ => eq_refl) g1 a c) as [g2 H2]. rewrite H2. cbn [bind].
  assert (X3 : exists g3, replace_output_node no_check g2 b c = Ok g3) by (eexists; reflexivity). destruct X3 as [g3 H3]. rewrite H3. cbn [bind]. pose proof (step_ready no_check g a b c e M g1 g2 g3 H1 H2 H3) as RD.
  destruct (step_edges g a b c e M g3 RD) as (R & ER & P & HR & CR). destruct (mg_edge g a b c e M) as (IE & S & T & _). destruct (ends_in g a b c e M) as (IA & IB & AC & BC). pose proof (mg_diff _ _ _ _ _ M) as AB.
  destruct (remove_edge_total g3 a b e) as [g4 H4]; [rewrite P; left; reflexivity|exact S|exact T|]. assert (H4' : remove_edge no_check g3 a b = Ok g4) by (unfold remove_edge; rewrite H4; reflexivity). rewrite H4'. cbn [bind].
  destruct (remove_edge_spec _ _ _ _ H4) as (e' & S' & T' & P' & G4).
  assert (e' = e). { assert (In e' (e :: map (moved a b c) R)) as J by (rewrite <- P, P'; left; reflexivity). destruct J as [J|J]; [congruence|]. destruct (HR e' J) as (X & _). contradiction. } subst e'.
  assert (P4 : Permutation (g_edges g4) (map (moved a b c) R)) by (apply (Permutation_cons_inv (a := e)); rewrite <- P', <- P; reflexivity).
  assert (G4i : g_in g4 = g_in g) by (rewrite G4; apply RD). assert (G4o : g_out g4 = map (reout b c) (g_out g)) by (rewrite G4; apply RD). assert (G4n : g_nodes g4 = g_nodes g3) by (rewrite G4; reflexivity).
  destruct (mg_noin _ _ _ _ _ M) as [NA NB]. destruct RD as (W3 & P3 & N3 & I3 & O3).
  destruct (remove_node_succeeds g4 b None None) as [g5 H5].
  { split; [rewrite G4n; apply N3; left; exact IB|]. split; [intros x J; apply (Permutation_in _ P4) in J; destruct (HR x J) as (_ & _ & Y); exact Y|]. split; [|rewrite G4i; intro; contradiction].
    rewrite G4o, map_map. cbn. intro J. exfalso. apply in_map_iff in J. destruct J as (o & J & _). unfold rename in J. destruct (Nat.eqb_spec (fst o) b); congruence. }
  rewrite H5. cbn [bind]. destruct (remove_node_removes _ _ _ _ _ _ H5) as [(_ & _ & D1 & D2) (E5 & N5 & I5 & O5)].
  rewrite G4i, (proj2 (mem_false _ _) NB) in I5. destruct (mem b (map fst (g_out g4))) eqn:MB; [apply mem_spec in MB; destruct (D1 MB); reflexivity|].
  destruct (remove_node_succeeds g5 a None None) as [g6 H6].
  { split; [rewrite N5, filter_In, G4n; split; [apply N3; left; exact IA|apply negb_true_iff, Nat.eqb_neq; congruence]|]. split; [intros x J; rewrite E5 in J; apply (Permutation_in _ P4) in J; destruct (HR x J) as (Y1 & Y2 & _); split; assumption|].
    split; [|rewrite I5; intro; contradiction]. rewrite O5, G4o, map_map. cbn. intro J. exfalso. apply in_map_iff in J. destruct J as (o & J & J2). unfold rename in J. destruct (Nat.eqb_spec (fst o) b); [congruence|]. apply (mg_noout _ _ _ _ _ M). rewrite <- J. apply in_map, J2. }
  rewrite H6. cbn [bind]. exists g6. destruct (step_rest no_check g a b c e M g3 g4 g5 g6) as [FU W6]; try assumption; [split; [exact W3|auto]|].
  destruct (remove_node_removes _ _ _ _ _ _ H6) as [_ (E6 & N6 & _)].
  assert (LE : length (g_edges g) = Datatypes.S (length (g_edges g6))). { rewrite E6, E5. rewrite (Permutation_length P4). pose proof (Permutation_length P) as L. pose proof (Permutation_length P3) as L3. rewrite map_length in L3. cbn in L. lia. }
  assert (LN : length (g_nodes g) = Datatypes.S (length (g_nodes g6))).
  { assert (PN : Permutation (c :: g_nodes g) (a :: b :: g_nodes g6)).
    { destruct FU as (_ & FN & _). apply NoDup_Permutation.
      - constructor; [apply (mg_new _ _ _ _ _ M)|apply (wf_nodes _ (mg_wf _ _ _ _ _ M))].
      - constructor; [|constructor; [|apply (wf_nodes _ W6)]]; [intros [Q|Q]; [congruence|]|intro Q]; apply FN in Q; destruct Q as [[_ Q]|Q]; try congruence; apply Q; cbn; auto.
      - intro m. cbn [In]. rewrite FN. cbn [In]. split; [intros [<-|J]; [auto|]|intros [<-|[<-|[[J _]| ->]]]; auto]. destruct (Nat.eq_dec m a) as [->|Xa]; [auto|]. destruct (Nat.eq_dec m b) as [->|Xb]; [auto|]. right. right. left. split; [exact J|]. intros [Q|[Q|[]]]; congruence. }
    apply Permutation_length in PN. cbn in PN. lia. }
  rewrite LE, LN, !Nat.eqb_refl. reflexivity.
Qed.
Print Assumptions merging_succeeds.

(* ---- the outputs of the graph ---- *)
Section Values.
Context {V : Type}.
Theorem merging_preserves_outputs g a b c e g' : mergeable g a b c e -> fused g [a; b] c g' -> (forall o, In o (g_out g) -> In (fst o) (g_nodes g)) ->
  forall (op op' : nat -> list V -> nat -> V),
    (forall m l k, m <> c -> op' m l k = op m l k) -> (forall l k, op' c l k = op b [op a l (si e)] k) ->
    forall val, computes op g val -> exists val', computes op' g' val' /\ outputs g' val' = outputs g val /\ forall m k, m <> c -> val' m k = val m k.
Proof.
  intros M FU OG op op' HO HC val C. destruct (mg_edge g a b c e M) as (IE & S & T & R & PR & HR & ER). destruct (ends_in g a b c e M) as (IA & IB & AC & BC). pose proof (mg_diff _ _ _ _ _ M) as AB. pose proof (mg_new _ _ _ _ _ M) as NC. pose proof (mg_wf _ _ _ _ _ M) as W.
  assert (HR' : forall x, In x (g_edges g) -> inside [a; b] x = false -> src x <> a /\ snk x <> b). { intros x I J. apply HR. rewrite ER. apply filter_In. split; [exact I|]. rewrite J. reflexivity. }
  assert (RP : forall m, m <> a -> m <> b -> rep [a; b] c m = m). { intros m X Y. unfold rep, mem. cbn. rewrite (proj2 (Nat.eqb_neq _ _) X), (proj2 (Nat.eqb_neq _ _) Y). reflexivity. }
  assert (RA : rep [a; b] c a = c) by (unfold rep, mem; cbn; rewrite Nat.eqb_refl; reflexivity). assert (RB : rep [a; b] c b = c) by (unfold rep, mem; cbn; rewrite Nat.eqb_refl, orb_true_r; reflexivity).
  assert (NN : forall m, In m (g_nodes g) -> m <> c) by (intros m I ->; contradiction).
  exists (fun m k => if Nat.eqb m c then val b k else val m k).
  assert (HV : forall x, In x (g_edges g) -> inside [a; b] x = false -> (if Nat.eqb (rep [a; b] c (src x)) c then val b (si x) else val (rep [a; b] c (src x)) (si x)) = val (src x) (si x)).
  { intros x I J. destruct (HR' x I J) as [X _]. destruct (Nat.eq_dec (src x) b) as [E|E]; [rewrite E, RB, Nat.eqb_refl; reflexivity|]. rewrite RP by assumption. rewrite (proj2 (Nat.eqb_neq _ _) (NN _ (proj1 (wf_ends g W x I)))). reflexivity. }
  assert (IN : forall x, In x (g_edges g) -> snk x <> b -> inside [a; b] x = false).
  { intros x I X. unfold inside, mem. cbn. rewrite !orb_false_r, (proj2 (Nat.eqb_neq _ _) X). destruct (Nat.eqb_spec (snk x) a) as [Y|Y]; cbn; [|apply andb_false_r]. rewrite andb_true_r. apply orb_false_iff. split; apply Nat.eqb_neq; intro Z.
    - assert (In x (filter (fun x => Nat.eqb (src x) a) (g_edges g))) as Q by (apply filter_In; split; [exact I|apply Nat.eqb_eq, Z]). rewrite (mg_out _ _ _ _ _ M) in Q. destruct Q as [<-|[]]. contradiction.
    - exact (mg_acyclic _ _ _ _ _ M x I (conj Z Y)). }
  split; [|split].
  - intros n J l RD k. pose proof FU as (P & N' & GI & GO). apply N' in J. destruct (Nat.eqb_spec n c) as [->|NC'].
    + assert (RDA : reads g val a l).
      { eapply reads_fused; [exact FU| | | |exact RD].
        - intros x I X. destruct (HR' x I X) as [_ Y]. destruct (Nat.eq_dec (snk x) a) as [E|E]; [rewrite E, RA; tauto|]. rewrite RP by assumption. pose proof (NN _ (proj2 (wf_ends g W x I))). tauto.
        - intros x I X. apply IN; [exact I|congruence].
        - exact HV. }
      rewrite HC. rewrite (C b IB [val a (si e)]); [|exists [e]; rewrite (mg_in _ _ _ _ _ M); split; [reflexivity|]; split; [repeat constructor|]; cbn; rewrite S; reflexivity]. do 2 f_equal. apply (C a IA l RDA).
    + destruct J as [[J1 J2]|J]; [|contradiction]. rewrite (HO n l k NC'). apply (C n J1). cbn [In] in J2. eapply reads_fused; [exact FU| | | |exact RD].
      * intros x I X. destruct (HR' x I X) as [_ Y]. destruct (Nat.eq_dec (snk x) a) as [E|E]; [rewrite E, RA; split; intro Q; [congruence|]; destruct J2; left; exact Q|]. rewrite RP by assumption. tauto.
      * intros x I X. apply IN; [exact I|]. intro Q. apply J2. right. left. congruence.
      * exact HV.
  - unfold outputs. destruct FU as (_ & _ & _ & ->). rewrite map_map. apply map_ext_in. intros o I. cbn. destruct (Nat.eq_dec (fst o) b) as [E|E]; [rewrite E, RB, Nat.eqb_refl; reflexivity|].
    assert (fst o <> a) as Na by (intro Q; apply (mg_noout _ _ _ _ _ M); rewrite <- Q; apply in_map, I). rewrite RP by assumption. rewrite (proj2 (Nat.eqb_neq _ _) (NN _ (OG o I))). reflexivity.
  - intros m k NM. rewrite (proj2 (Nat.eqb_neq m c) NM). reflexivity.
Qed.
End Values.
Print Assumptions merging_preserves_outputs.

(* the test before merging: an edge of an acyclic graph that passes it satisfies the conditions, if the first
   node is no output of the model and neither is an input *)
Theorem may_merge_exact reused g a b x : In x (g_edges g) -> src x = a -> snk x = b ->
  (may_merge reused g a b = true <-> reused a = false /\ reused b = false /\ filter (fun x => Nat.eqb (src x) a) (g_edges g) = [x] /\ filter (fun x => Nat.eqb (snk x) b) (g_edges g) = [x]).
Proof.
  intros I S T. unfold may_merge, next_nodes, prev_nodes. rewrite !map_length, (Permutation_length (out_edges_perm g a)), (Permutation_length (in_edges_perm g b)).
  assert (A : In x (filter (fun x => Nat.eqb (src x) a) (g_edges g))) by (apply filter_In; split; [exact I|apply Nat.eqb_eq, S]). assert (B : In x (filter (fun x => Nat.eqb (snk x) b) (g_edges g))) by (apply filter_In; split; [exact I|apply Nat.eqb_eq, T]).
  rewrite !andb_true_iff, negb_true_iff, orb_false_iff, !Nat.leb_le. split.
  - intros [[[R1 R2] L1] L2]. split; [exact R1|]. split; [exact R2|]. split.
    + destruct (filter (fun x => Nat.eqb (src x) a) (g_edges g)) as [|y [|z l]]; [destruct A| |cbn in L1; lia]. destruct A as [->|[]]. reflexivity.
    + destruct (filter (fun x => Nat.eqb (snk x) b) (g_edges g)) as [|y [|z l]]; [destruct B| |cbn in L2; lia]. destruct B as [->|[]]. reflexivity.
  - intros (R1 & R2 & F1 & F2). rewrite F1, F2. cbn. auto.
Qed.
Print Assumptions may_merge_exact.
(* it does not ask whether the first node is an output of the model *)
Theorem merging_inner_output_refuted : exists g a b x, wf g /\ In x (g_edges g) /\ src x = a /\ snk x = b /\ may_merge (fun _ => false) g a b = true /\ merge_nodes no_check g a b 9 = Err E_critical.
Proof.
  exists (Graph [0; 1; 2] [Edge 0 1 0 0; Edge 1 2 0 0] [0] [(1, 0); (2, 0)]), 1, 2, (Edge 1 2 0 0). split.
  - split; [repeat constructor; cbn; intuition lia|]. cbn. intros e [<-|[<-|[]]]; cbn; auto.
  - repeat split. cbn. auto.
Qed.
Print Assumptions merging_inner_output_refuted.
Definition line : graph := Graph [0; 1; 2; 3] [Edge 0 1 0 0; Edge 1 2 0 0; Edge 2 3 0 0; Edge 2 3 0 1] [0] [(3, 0); (2, 0)].
Example line_mergeable : mergeable line 1 2 9 (Edge 1 2 0 0) /\ exists g', merge_nodes no_check line 1 2 9 = Ok g' /\ g_nodes g' = [0; 3; 9] /\ g_out g' = [(3, 0); (9, 0)].
Proof.
  split; [|eexists; split; [vm_compute; reflexivity|split; reflexivity]]. split; try reflexivity; try discriminate.
  - split; [repeat constructor; cbn; intuition lia|]. cbn. intros e [<-|[<-|[<-|[<-|[]]]]]; cbn; tauto.
  - cbn. intuition lia.
  - cbn. intros x [<-|[<-|[<-|[<-|[]]]]] [A B]; discriminate.
  - cbn. intuition lia.
  - cbn. intuition lia.
Qed.

(* ---- appending a node ---- *)
Theorem appending validate g a n g' : wf g -> In a (g_nodes g) -> ~ In n (g_nodes g) -> append_node validate g a n = Ok g' -> appended g a n g' /\ wf g'.
Proof.
  intros W IA NN H. unfold append_node in H. destruct (reconnect_out_edges _ _ _ _) as [g1|] eqn:H1; cbn [bind] in H; [|discriminate]. destruct (replace_output_node _ _ _ _) as [g2|] eqn:H2; cbn [bind] in H; [|discriminate]. destruct (add_node_with_in_edges _ _ _ _ _) as [g3|] eqn:H3; cbn [bind] in H; [|discriminate].
  destruct (_ && _); [|discriminate]. injection H as <-. destruct (reconnect_out_spec _ _ _ _ _ W H1) as (P1 & I1 & O1 & W1 & N1). apply replace_output_renames in H2. subst g2.
  apply add_node_adds in H3. cbn in H3. destruct H3 as (_ & [J1 J2] & W3 & N3 & new & E3 & L3 & F3). destruct new as [|x [|]]; try discriminate L3. specialize (F3 0 (le_n 1)). cbn in F3. injection F3 as ->. cbn in J1, J2.
  split; [|apply W3; split; [exact (wf_nodes _ W1)|exact (wf_ends _ W1)]]. split; [|split; [|split]].
  - rewrite E3, P1. symmetry. apply Permutation_cons_append.
  - intro m. rewrite N3, N1. cbn. split; [intros [[J|[J _]]|[J|[J|[]]]]; subst; auto|tauto].
  - congruence.
  - congruence.
Qed.
Print Assumptions appending.
Theorem appending_succeeds g a n : wf g -> In a (g_nodes g) -> ~ In n (g_nodes g) -> exists g', append_node no_check g a n = Ok g'.
Proof.
  intros W IA NN. unfold append_node. destruct (reconnect_out_total no_check (fun _ => eq_refl) g a n) as [g1 H1]. rewrite H1. cbn [bind]. destruct (reconnect_out_spec _ _ _ _ _ W H1) as (P1 & I1 & O1 & W1 & N1).
  assert (X2 : exists g2, replace_output_node no_check g1 a n = Ok g2) by (eexists; reflexivity). destruct X2 as [g2 H2]. rewrite H2. cbn [bind]. apply replace_output_renames in H2.
  assert (X3 : exists g3, add_node_with_in_edges no_check g2 n [a] [] = Ok g3) by (eexists; reflexivity). destruct X3 as [g3 H3]. rewrite H3. cbn [bind].
  apply add_node_adds in H3. cbn in H3. destruct H3 as (_ & _ & W3 & N3 & new & E3 & L3 & _). subst g2. cbn in *. exists g3.
  assert (LE : length (g_edges g3) = S (length (g_edges g))) by (rewrite E3, app_length, (Permutation_length P1), map_length; lia). 
  assert (LN : length (g_nodes g3) = S (length (g_nodes g))).
  { assert (PN : Permutation (g_nodes g3) (n :: g_nodes g)).
    { apply NoDup_Permutation; [apply (wf_nodes _ (W3 ltac:(split; [exact (wf_nodes _ W1)|exact (wf_ends _ W1)])))|constructor; [exact NN|apply (wf_nodes _ W)]|]. intro m. rewrite N3, N1. cbn. split; [intros [[J|[J _]]|[J|[J|[]]]]; subst; auto|intros [<-|J]; auto]. }
    apply Permutation_length in PN. exact PN. }
  rewrite LE, LN, !Nat.eqb_refl. reflexivity.
Qed.
Print Assumptions appending_succeeds.
Section Append.
Context {V : Type}.
(* a node that computes the identity can be appended to a node with one output *)
Theorem appending_preserves_outputs g a n g' : wf g -> In a (g_nodes g) -> ~ In n (g_nodes g) -> single_output g a -> (forall o, In o (g_out g) -> In (fst o) (g_nodes g)) -> appended g a n g' ->
  forall (op op' : nat -> list V -> nat -> V), (forall m l k, m <> n -> op' m l k = op m l k) -> (forall v k, op' n [v] k = v) ->
  forall val, computes op g val -> exists val', computes op' g' val' /\ outputs g' val' = outputs g val /\ forall m k, m <> n -> val' m k = val m k.
Proof.
  intros W IA NN [SE SO] OG (P & N' & GI & GO) op op' HO HN val C. exists (fun m k => if Nat.eqb m n then val a 0 else val m k).
  assert (NE : forall m, In m (g_nodes g) -> Nat.eqb m n = false) by (intros m I; apply Nat.eqb_neq; intros ->; contradiction).
  assert (AN : Nat.eqb a n = false) by (apply NE, IA).
  assert (HV : forall x, In x (g_edges g) -> (if Nat.eqb (src (resrc a n x)) n then val a 0 else val (src (resrc a n x)) (si (resrc a n x))) = val (src x) (si x)).
  { intros x I. unfold resrc. destruct (Nat.eqb_spec (src x) a) as [E|E]; cbn; [rewrite Nat.eqb_refl, (SE x I E), E; reflexivity|]. rewrite (NE _ (proj1 (wf_ends g W x I))). reflexivity. }
  split; [|split].
  - intros m J l (es & P1 & S1 & ->) k. apply N' in J. destruct (Nat.eqb_spec m n) as [->|MN].
    + rewrite (filter_perm _ _ _ P) in P1. cbn [filter] in P1. cbn [snk] in P1. rewrite Nat.eqb_refl in P1. rewrite filter_map_comm in P1. rewrite filter_nil in P1.
      * cbn in P1. apply Permutation_sym, Permutation_length_1_inv in P1. subst es. cbn. rewrite AN, HN. reflexivity.
      * intros x I. unfold resrc. pose proof (NE _ (proj2 (wf_ends g W x I))) as Q. destruct (Nat.eqb (src x) a); exact Q.
    + destruct J as [J|J]; [|contradiction]. rewrite (HO m _ k MN). apply (C m J).
      rewrite (filter_perm _ _ _ P) in P1. cbn [filter] in P1. cbn [snk] in P1. rewrite (proj2 (Nat.eqb_neq n m)) in P1 by congruence. rewrite filter_map_comm in P1. apply Permutation_map_inv in P1. destruct P1 as (es0 & -> & P1).
      assert (Q : Permutation es0 (filter (fun e => Nat.eqb (snk e) m) (g_edges g))). { rewrite <- P1. erewrite filter_ext; [reflexivity|]. intro x. unfold resrc. destruct (Nat.eqb (src x) a); reflexivity. }
      exists es0. split; [exact Q|]. split; [apply (sorted_map_ti (resrc a n)); [intro x; unfold resrc; destruct (Nat.eqb (src x) a); reflexivity|exact S1]|].
      rewrite map_map. apply map_ext_in. intros x I. apply (Permutation_in _ Q) in I. apply filter_In in I. apply HV, I.
  - unfold outputs. rewrite GO, map_map. apply map_ext_in. intros o I. cbn. unfold rename. destruct (Nat.eqb_spec (fst o) a) as [E|E]; [rewrite Nat.eqb_refl, (SO o I E), E; reflexivity|]. rewrite (NE _ (OG o I)). reflexivity.
  - intros m k MN. rewrite (proj2 (Nat.eqb_neq m n) MN). reflexivity.
Qed.
End Append.
Print Assumptions appending_preserves_outputs.
