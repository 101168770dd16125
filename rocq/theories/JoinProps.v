(* JoinProps.v -- joining nodes keeps the outputs of the graph. *)
From Coq Require Import Permutation Sorted Lia.
From Verif Require Import Base GraphModel GraphSpec GraphProofs GraphProps GraphFindProps FuseSpec FuserProps MergeModel MergeSpec MergeProps JoinModel JoinSpec.
Open Scope list_scope.
Open Scope res_scope.
Local Open Scope nat_scope.

Lemma filter_split {A} (p : A -> bool) l : Permutation l (filter p l ++ filter (fun x => negb (p x)) l).
Proof. induction l as [|y l IH]; [constructor|]. cbn. destruct (p y); cbn; [constructor; exact IH|]. eapply Permutation_trans; [apply perm_skip, IH|]. apply Permutation_middle. Qed.
Lemma remove_all validate b : forall ss g L rest, Permutation ss (map src L) -> (forall x, In x L -> snk x = b) -> (forall x, In x rest -> snk x <> b) -> Permutation (g_edges g) (L ++ rest) ->
  (forall g', foldM (fun g s => remove_edge validate g s b) ss g = Ok g' -> Permutation (g_edges g') rest /\ g' = set_edges g (g_edges g')) /\
  ((forall g, validate g = Ok tt) -> exists g', foldM (fun g s => remove_edge validate g s b) ss g = Ok g').
Proof.
  induction ss as [|s ss IH]; intros g L rest PS HL HR P.
  - apply Permutation_nil in PS. destruct L; [|discriminate]. split; [|intros _; eexists; reflexivity]. intros g' H. injection H as <-. split; [exact P|destruct g; reflexivity].
  - assert (ST : forall g1, remove_edge_nx g s b = Ok g1 -> exists L', Permutation ss (map src L') /\ (forall x, In x L' -> snk x = b) /\ Permutation (g_edges g1) (L' ++ rest) /\ g1 = set_edges g (g_edges g1)).
    { intros g1 H. destruct (remove_edge_spec _ _ _ _ H) as (x & S & T & P1 & G1). assert (I : In x L). { assert (J : In x (L ++ rest)) by (rewrite <- P, P1; left; reflexivity). apply in_app_or in J. destruct J as [J|J]; [exact J|]. destruct (HR x J T). }
      apply in_split in I. destruct I as (l1 & l2 & ->). exists (l1 ++ l2). split; [|split; [|split]].
      - apply (Permutation_cons_inv (a := s)). rewrite PS, !map_app. cbn. rewrite S. symmetry. apply Permutation_middle.
      - intros y J. apply HL. apply in_app_or in J. apply in_or_app. destruct J; [left|right; right]; assumption.
      - apply (Permutation_cons_inv (a := x)). rewrite <- P1, P, <- !app_assoc. cbn. symmetry. apply Permutation_middle.
      - exact G1. }
    split.
    + intros g' H. cbn [foldM] in H. destruct (remove_edge validate g s b) as [g1|] eqn:E; cbn [bind] in H; [|discriminate]. apply remove_edge_ok in E. destruct (ST g1 E) as (L' & P1 & P2 & P3 & G1). destruct (IH g1 L' rest P1 P2 HR P3) as [X _]. destruct (X g' H) as [Y1 Y2]. split; [exact Y1|]. rewrite Y2, G1. reflexivity.
    + intro V. assert (I : In s (map src L)) by (rewrite <- PS; left; reflexivity). apply in_map_iff in I. destruct I as (x & S & I). destruct (remove_edge_total g s b x) as [g1 E]; [rewrite P; apply in_or_app; left; exact I|exact S|apply HL, I|].
      destruct (ST g1 E) as (L' & P1 & P2 & P3 & G1). destruct (IH g1 L' rest P1 P2 HR P3) as [_ X]. destruct (X V) as [g' H]. exists g'. cbn [foldM]. unfold remove_edge at 1. rewrite E. cbn [bind]. unfold checked. rewrite V. exact H.
Qed.

Section Steps.
Variable validate : graph -> result unit.
Variables (g : graph) (a b c : nat) (e : edge) (sides : list edge).
Hypothesis J : joinable g a b c e sides.
Let W := j_wf _ _ _ _ _ _ J.
Let R := filter (fun x => negb (Nat.eqb (snk x) b)) (g_edges g).
Lemma j_facts : In e (g_edges g) /\ src e = a /\ snk e = b /\ In a (g_nodes g) /\ In b (g_nodes g) /\ a <> c /\ b <> c /\ (forall x, In x sides -> In x (g_edges g) /\ src x <> b /\ snk x = b) /\ (forall x, In x R -> In x (g_edges g) /\ src x <> a /\ snk x <> b).
Proof.
  assert (I : In e (filter (fun x => Nat.eqb (src x) a) (g_edges g))) by (rewrite (j_out _ _ _ _ _ _ J); left; reflexivity). apply filter_In in I. destruct I as [I S]. apply Nat.eqb_eq in S.
  assert (I2 : In e (filter (fun x => Nat.eqb (snk x) b) (g_edges g))) by (rewrite (j_in _ _ _ _ _ _ J); left; reflexivity). apply filter_In in I2. destruct I2 as [_ T]. apply Nat.eqb_eq in T.
  destruct (wf_ends g W e I) as [A B]. rewrite S in A. rewrite T in B. pose proof (j_new _ _ _ _ _ _ J) as N.
  split; [exact I|]. split; [exact S|]. split; [exact T|]. split; [exact A|]. split; [exact B|]. split; [intros ->; contradiction|]. split; [intros ->; contradiction|]. split.
  - intros x K. assert (K2 : In x (filter (fun x => Nat.eqb (snk x) b) (g_edges g))) by (rewrite (j_in _ _ _ _ _ _ J); right; exact K). apply filter_In in K2. destruct K2 as [K2 K3]. apply Nat.eqb_eq in K3. split; [exact K2|]. split; [|exact K3]. intro Q. destruct (j_acyclic _ _ _ _ _ _ J x K2 Q). contradiction.
  - intros x K. apply filter_In in K. destruct K as [K1 K2]. apply negb_true_iff, Nat.eqb_neq in K2. split; [exact K1|]. split; [|exact K2]. intro Q.
    assert (In x (filter (fun x => Nat.eqb (src x) a) (g_edges g))) as Y by (apply filter_In; split; [exact K1|apply Nat.eqb_eq, Q]). rewrite (j_out _ _ _ _ _ _ J) in Y. destruct Y as [<-|[]]. contradiction.
Qed.
Definition ready' (g3 : graph) : Prop :=
  wf g3 /\ Permutation (g_edges g3) ((e :: sides) ++ map (moved a b c) R) /\ (forall m, In m (g_nodes g3) <-> In m (g_nodes g) \/ m = c) /\ g_in g3 = g_in g /\ g_out g3 = map (reout b c) (g_out g).
Lemma step_ready' g1 g2 g3 : reconnect_out_edges validate (add_node_nx g c) b c = Ok g1 -> reconnect_in_edges validate g1 a c = Ok g2 -> replace_output_node validate g2 b c = Ok g3 -> ready' g3.
Proof.
  intros H1 H2 H3. destruct (add_node_rest g c) as (A1 & A2 & A3). pose proof (add_node_wf g c W) as W0.
  destruct (reconnect_out_spec _ _ _ _ _ W0 H1) as (P1 & I1 & O1 & W1 & N1). destruct (reconnect_in_spec _ _ _ _ _ W1 H2) as (P2 & I2 & O2 & W2 & N2). apply replace_output_renames in H3. subst g3.
  split; [split; [exact (wf_nodes _ W2)|exact (wf_ends _ W2)]|]. cbn [g_edges set_out]. split; [|split; [|split]].
  - rewrite P2, P1, A1, map_map. fold (moved a b c). change (fun x => resnk a c (resrc b c x)) with (moved a b c). rewrite (Permutation_map _ (filter_split (fun x => Nat.eqb (snk x) b) (g_edges g))), map_app. apply Permutation_app_tail. rewrite (Permutation_map _ (j_in _ _ _ _ _ _ J)).
    apply Permutation_refl'. transitivity (map (fun x => x) (e :: sides)); [|apply map_id]. apply (map_ext_in (moved a b c) (fun x => x) (e :: sides)). intros x K. destruct j_facts as (_ & S & T & _ & _ & _ & _ & F & _). pose proof (j_diff _ _ _ _ _ _ J) as AB.
    assert (X : src x <> b /\ snk x = b) by (destruct K as [<-|K]; [split; congruence|apply F in K; tauto]). destruct X as [X1 X2]. unfold moved, resrc. rewrite (proj2 (Nat.eqb_neq _ _) X1). unfold resnk. rewrite X2, (proj2 (Nat.eqb_neq b a)) by congruence. reflexivity.
  - intro m. cbn [set_out g_nodes]. rewrite N2, N1, add_node_in. tauto.
  - cbn. congruence.
  - cbn. rewrite O2, O1, A3. reflexivity.
Qed.
Lemma moved_facts x : In x (map (moved a b c) R) -> src x <> a /\ snk x <> a /\ src x <> b /\ snk x <> b.
Proof.
  destruct j_facts as (_ & _ & _ & _ & _ & AC & BC & _ & F). intro K. apply in_map_iff in K. destruct K as (y & <- & K). destruct (F y K) as (_ & F1 & F2). unfold moved, resnk, resrc.
  destruct (Nat.eqb_spec (src y) b); cbn; (destruct (Nat.eqb_spec (snk y) a); cbn; repeat split; congruence).
Qed.
Lemma moved_collapse : map (moved a b c) R = map (collapse [a; b] c) R.
Proof.
  destruct j_facts as (_ & _ & _ & _ & _ & AC & BC & _ & F). apply map_ext_in. intros y K. destruct (F y K) as (_ & F1 & F2). unfold moved, collapse, rep, resnk, resrc, mem. cbn [existsb]. rewrite (proj2 (Nat.eqb_neq (src y) a) F1), (proj2 (Nat.eqb_neq (snk y) b) F2), !orb_false_r. cbn [orb].
  destruct (Nat.eqb (src y) b); cbn; destruct (Nat.eqb (snk y) a); cbn; destruct y; reflexivity.
Qed.
Lemma out_rename' : map (reout b c) (g_out g) = map (fun o => (rep [a; b] c (fst o), snd o)) (g_out g).
Proof.
  apply map_ext_in. intros o I. unfold reout, rename, rep, mem. cbn [existsb]. rewrite orb_false_r. assert (N : fst o <> a). { intro E. apply (j_noout _ _ _ _ _ _ J). rewrite <- E. apply in_map, I. }
  rewrite (proj2 (Nat.eqb_neq _ _) N). reflexivity.
Qed.
Definition cleared (g3 g5 : graph) : Prop := Permutation (g_edges g5) (map (moved a b c) R) /\ g5 = set_edges g3 (g_edges g5).
Lemma step_clear g3 g4 g5 : ready' g3 -> remove_edge validate g3 a b = Ok g4 -> foldM (fun g s => remove_edge validate g s b) (map src sides) g4 = Ok g5 -> cleared g3 g5.
Proof.
  intros (_ & P & _) H4 H5. destruct j_facts as (_ & S & T & _ & _ & _ & _ & F & _). destruct (remove_all validate b (map src (e :: sides)) g3 (e :: sides) (map (moved a b c) R)) as [X _].
  - reflexivity.
  - intros x [<-|K]; [exact T|apply F, K].
  - intros x K. apply (moved_facts x K).
  - exact P.
  - apply X. cbn [map foldM]. rewrite S, H4. exact H5.
Qed.
Lemma no_outs g3 : ready' g3 -> ~ In a (map fst (g_out g3)) /\ ~ In b (map fst (g_out g3)).
Proof.
  intros (_ & _ & _ & _ & ->). destruct j_facts as (_ & _ & _ & _ & _ & AC & BC & _). rewrite map_map. cbn. split; intro K; apply in_map_iff in K; destruct K as (o & K & K2); unfold rename in K; (destruct (Nat.eqb_spec (fst o) b); [congruence|]); [|congruence]. apply (j_noout _ _ _ _ _ _ J). rewrite <- K. apply in_map, K2.
Qed.
Lemma step_nodes g3 g5 g6 g7 : ready' g3 -> cleared g3 g5 -> remove_node validate g5 a None None = Ok g6 -> remove_node validate g6 b None None = Ok g7 -> joined g a b c g7 /\ wf g7 /\ g_edges g7 = g_edges g5.
Proof.
  intros RD (P5 & G5) H6 H7. destruct (no_outs g3 RD) as [NOA NOB]. pose proof RD as (W3 & P3 & N3 & I3 & O3). destruct (j_noin _ _ _ _ _ _ J) as [NA NB]. destruct j_facts as (_ & _ & _ & IA & IB & AC & BC & _). pose proof (j_diff _ _ _ _ _ _ J) as AB.
  assert (Gi : g_in g5 = g_in g) by (rewrite G5; exact I3). assert (Go : g_out g5 = map (reout b c) (g_out g)) by (rewrite G5; exact O3). assert (Gn : g_nodes g5 = g_nodes g3) by (rewrite G5; reflexivity).
  destruct (remove_node_removes _ _ _ _ _ _ H6) as [_ (E6 & N6 & I6 & O6)]. destruct (remove_node_removes _ _ _ _ _ _ H7) as [_ (E7 & N7 & I7 & O7)].
  rewrite Gi, (proj2 (mem_false _ _) NA) in I6. rewrite <- O3 in Go. rewrite Go, (proj2 (mem_false _ _) NOA) in O6. rewrite I6, (proj2 (mem_false _ _) NB) in I7. rewrite O6, (proj2 (mem_false _ _) NOB) in O7.
  split; [|split].
  - split; [|split; [|split]].
    + rewrite E7, E6, P5, moved_collapse. reflexivity.
    + intro m. rewrite N7, filter_In, N6, filter_In, Gn, N3. rewrite !negb_true_iff, !Nat.eqb_neq. cbn [In]. split; [intros [[[K|K] X] Y]; [left; split; [exact K|intros [Q|[Q|[]]]; congruence]|right; exact K]|].
      intros [[K X]| ->]; [split; [split; [left; exact K|]|]; intro Q; apply X; auto|split; [split; [right; reflexivity|]|]; congruence].
    + congruence.
    + rewrite O7, O3. apply out_rename'.
  - split.
    + rewrite N7, N6, Gn. apply NoDup_filter, NoDup_filter, (wf_nodes _ W3).
    + rewrite E7, E6. intros x K. apply (Permutation_in _ P5) in K. destruct (moved_facts x K) as (X1 & X2 & X3 & X4). assert (K3 : In x (g_edges g3)) by (rewrite P3; apply in_or_app; right; exact K). destruct (wf_ends _ W3 x K3) as [Y1 Y2].
      rewrite N7, N6, Gn, !filter_In, !negb_true_iff, !Nat.eqb_neq. repeat split; try assumption; congruence.
  - congruence.
Qed.
End Steps.
(* whatever check runs after each change *)
Theorem joining validate g a b c e sides g' : joinable g a b c e sides -> join_nodes validate g a b c (map src sides) = Ok g' -> joined g a b c g' /\ wf g'.
Proof.
  intros J H. unfold join_nodes in H. destruct (reconnect_out_edges _ _ _ _) as [g1|] eqn:H1; cbn [bind] in H; [|discriminate]. destruct (reconnect_in_edges _ _ _ _) as [g2|] eqn:H2; cbn [bind] in H; [|discriminate].
  destruct (replace_output_node _ _ _ _) as [g3|] eqn:H3; cbn [bind] in H; [|discriminate]. destruct (remove_edge validate g3 a b) as [g4|] eqn:H4; cbn [bind] in H; [|discriminate]. destruct (foldM _ _ g4) as [g5|] eqn:H5; cbn [bind] in H; [|discriminate].
  destruct (remove_node _ g5 _ _ _) as [g6|] eqn:H6; cbn [bind] in H; [|discriminate]. pose proof (step_ready' validate g a b c e sides J g1 g2 g3 H1 H2 H3) as RD.
  destruct (step_nodes validate g a b c e sides J g3 g5 g6 g' RD) as (X & Y & _); try assumption; [|split; assumption]. eapply step_clear; eassumption.
Qed.
Print Assumptions joining.
Theorem joining_succeeds g a b c e sides : joinable g a b c e sides -> exists g', join_nodes no_check g a b c (map src sides) = Ok g' /\ counted (S (length sides)) g g' = true.
Proof.
  intro J. unfold join_nodes. destruct (reconnect_out_total no_check (fun _ => eq_refl) (add_node_nx g c) b c) as [g1 H1]. rewrite H1. cbn [bind]. destruct (reconnect_in_total no_check (fun _ => eq_refl) g1 a c) as [g2 H2]. rewrite H2. cbn [bind].
  assert (X3 : exists g3, replace_output_node no_check g2 b c = Ok g3) by (eexists; reflexivity). destruct X3 as [g3 H3]. rewrite H3. cbn [bind]. pose proof (step_ready' no_check g a b c e sides J g1 g2 g3 H1 H2 H3) as RD.
  destruct (j_facts g a b c e sides J) as (_ & S & T & IA & IB & AC & BC & F & _). pose proof (j_diff _ _ _ _ _ _ J) as AB. destruct (j_noin _ _ _ _ _ _ J) as [NA NB].
  destruct (remove_all no_check b (map src (e :: sides)) g3 (e :: sides) (map (moved a b c) (filter (fun x => negb (Nat.eqb (snk x) b)) (g_edges g)))) as [X Y].
  { reflexivity. } { intros x [<-|K]; [exact T|apply F, K]. } { intros x K. apply (moved_facts g a b c e sides J x K). } { apply RD. }
  destruct (Y (fun _ => eq_refl)) as [g5 H5]. destruct (X g5 H5) as [P5 G5]. cbn [map foldM] in H5. rewrite S in H5. destruct (remove_edge no_check g3 a b) as [g4|]; cbn [bind] in *; [|discriminate]. rewrite H5. cbn [bind].
  destruct (no_outs g a b c e sides J g3 RD) as [NOA NOB]. pose proof RD as (W3 & P3 & N3 & I3 & O3).
  destruct (remove_node_succeeds g5 a None None) as [g6 H6].
  { split; [rewrite G5; apply N3; left; exact IA|]. split; [intros x K; apply (Permutation_in _ P5) in K; destruct (moved_facts g a b c e sides J x K) as (Y1 & Y2 & _); split; assumption|]. split; [rewrite G5; intro; contradiction|rewrite G5; cbn; rewrite I3; intro; contradiction]. }
  rewrite H6. cbn [bind]. destruct (remove_node_removes _ _ _ _ _ _ H6) as [(_ & _ & D1 & D2) (E6 & N6 & I6 & O6)].
  rewrite G5 in I6, O6. cbn [set_edges g_in g_out] in I6, O6. rewrite I3, (proj2 (mem_false _ _) NA) in I6. rewrite (proj2 (mem_false _ _) NOA) in O6.
  destruct (remove_node_succeeds g6 b None None) as [g7 H7].
  { split; [rewrite N6, filter_In, G5; split; [apply N3; left; exact IB|apply negb_true_iff, Nat.eqb_neq; congruence]|]. split; [intros x K; rewrite E6 in K; apply (Permutation_in _ P5) in K; destruct (moved_facts g a b c e sides J x K) as (_ & _ & Y1 & Y2); split; assumption|]. split; [rewrite O6; intro; contradiction|rewrite I6; intro; contradiction]. }
  exists g7. split; [exact H7|]. destruct (step_nodes no_check g a b c e sides J g3 g5 g6 g7 RD (conj P5 G5) H6 H7) as (FU & W7 & E7).
  unfold counted. apply andb_true_iff. split; apply Nat.eqb_eq.
  - assert (PN : Permutation (c :: g_nodes g) (a :: b :: g_nodes g7)).
    { destruct FU as (_ & FN & _). apply NoDup_Permutation.
      - constructor; [apply (j_new _ _ _ _ _ _ J)|apply (wf_nodes _ (j_wf _ _ _ _ _ _ J))].
      - constructor; [|constructor; [|apply (wf_nodes _ W7)]]; [intros [Q|Q]; [congruence|]|intro Q]; apply FN in Q; destruct Q as [[_ Q]|Q]; try congruence; apply Q; cbn; auto.
      - intro m. cbn [In]. rewrite FN. cbn [In]. split; [intros [<-|K]; [auto|]|intros [<-|[<-|[[K _]| ->]]]; auto]. destruct (Nat.eq_dec m a) as [->|Xa]; [auto|]. destruct (Nat.eq_dec m b) as [->|Xb]; [auto|]. right. right. left. split; [exact K|]. intros [Q|[Q|[]]]; congruence. }
    apply Permutation_length in PN. cbn in PN. cbn. lia.
  - rewrite E7, (Permutation_length P5), map_length. rewrite (Permutation_length (filter_split (fun x => Nat.eqb (snk x) b) (g_edges g))), app_length, (Permutation_length (j_in _ _ _ _ _ _ J)). reflexivity.
Qed.
Print Assumptions joining_succeeds.

Section Values.
Context {V : Type}.
Lemma joining_values g a b c e sides g' : joinable g a b c e sides -> joined g a b c g' -> (forall o, In o (g_out g) -> In (fst o) (g_nodes g)) ->
  forall (op op' : nat -> list V -> nat -> V), (forall m l k, m <> c -> op' m l k = op m l k) ->
  forall val, computes op g val -> (forall l, reads g val a l -> forall k, op' c l k = val b k) ->
  exists val', computes op' g' val' /\ outputs g' val' = outputs g val /\ forall m k, m <> c -> val' m k = val m k.
Proof.
  intros J FU OG op op' HO val C HC. destruct (j_facts g a b c e sides J) as (IE & S & T & IA & IB & AC & BC & F & FR). pose proof (j_diff _ _ _ _ _ _ J) as AB. pose proof (j_new _ _ _ _ _ _ J) as NC. pose proof (j_wf _ _ _ _ _ _ J) as W.
  assert (RP : forall m, m <> a -> m <> b -> rep [a; b] c m = m). { intros m X Y. unfold rep, mem. cbn. rewrite (proj2 (Nat.eqb_neq _ _) X), (proj2 (Nat.eqb_neq _ _) Y). reflexivity. }
  assert (RA : rep [a; b] c a = c) by (unfold rep, mem; cbn; rewrite Nat.eqb_refl; reflexivity). assert (RB : rep [a; b] c b = c) by (unfold rep, mem; cbn; rewrite Nat.eqb_refl, orb_true_r; reflexivity).
  assert (NN : forall m, In m (g_nodes g) -> m <> c) by (intros m I ->; contradiction).
  set (val' := fun m k => if Nat.eqb m c then val b k else val m k). exists val'.
  assert (FR' : forall x, In x (g_edges g) -> snk x <> b -> src x <> a) by (intros x I X; apply FR, filter_In; split; [exact I|apply negb_true_iff, Nat.eqb_neq, X]).
  assert (HV : forall x, In x (g_edges g) -> snk x <> b -> val' (rep [a; b] c (src x)) (si x) = val (src x) (si x)).
  { intros x I X. unfold val'. destruct (Nat.eq_dec (src x) b) as [E|E]; [rewrite E, RB, Nat.eqb_refl; reflexivity|]. rewrite RP by (try assumption; apply FR'; assumption). rewrite (proj2 (Nat.eqb_neq _ _) (NN _ (proj1 (wf_ends g W x I)))). reflexivity. }
  assert (RD : forall n n' l, n <> b -> (forall x, In x (g_edges g) -> snk x <> b -> (rep [a; b] c (snk x) = n' <-> snk x = n)) -> reads g' val' n' l -> reads g val n l).
  { intros n n' l NB HN (es & P1 & SS & ->). destruct FU as (P & _). rewrite (filter_perm _ _ _ P), filter_map_comm in P1. apply Permutation_map_inv in P1. destruct P1 as (es0 & -> & P1).
    assert (Q : Permutation es0 (filter (fun e => Nat.eqb (snk e) n) (g_edges g))).
    { rewrite <- P1, <- filter_and. rewrite (filter_ext_in _ (fun e => Nat.eqb (snk e) n)); [reflexivity|]. intros x I. cbn [collapse snk]. apply Bool.eq_iff_eq_true. rewrite andb_true_iff, negb_true_iff, !Nat.eqb_eq, Nat.eqb_neq.
      split; [intros [A B]; apply (HN x I A), B|]. intro A. assert (B : snk x <> b) by congruence. split; [exact B|]. apply (HN x I B), A. }
    exists es0. split; [exact Q|]. split; [apply (sorted_map_ti (collapse [a; b] c)); [reflexivity|exact SS]|]. rewrite map_map. apply map_ext_in. intros x I. apply (Permutation_in _ Q) in I. apply filter_In in I.
    destruct I as [I K]. apply Nat.eqb_eq in K. cbn [collapse src si]. apply HV; [exact I|congruence]. }
  split; [|split].
  - intros n K l R k. pose proof FU as (_ & N' & _). apply N' in K. unfold val' at 1. destruct (Nat.eqb_spec n c) as [->|NC'].
    + symmetry. apply HC. apply (RD a c); [exact AB| |exact R]. intros x I X. destruct (Nat.eq_dec (snk x) a) as [E|E]; [rewrite E, RA; tauto|]. rewrite RP by assumption. pose proof (NN _ (proj2 (wf_ends g W x I))). tauto.
    + destruct K as [[K1 K2]|K]; [|contradiction]. cbn [In] in K2. rewrite (HO n l k NC'). apply (C n K1). apply (RD n n); [intros ->; apply K2; auto| |exact R].
      intros x I X. destruct (Nat.eq_dec (snk x) a) as [E|E]; [rewrite E, RA; split; intro Q; [congruence|]; destruct K2; left; exact Q|]. rewrite RP by assumption. tauto.
  - unfold outputs. destruct FU as (_ & _ & _ & ->). rewrite map_map. apply map_ext_in. intros o I. cbn. unfold val'. destruct (Nat.eq_dec (fst o) b) as [E|E]; [rewrite E, RB, Nat.eqb_refl; reflexivity|].
    assert (fst o <> a) as Na by (intro Q; apply (j_noout _ _ _ _ _ _ J); rewrite <- Q; apply in_map, I). rewrite RP by assumption. rewrite (proj2 (Nat.eqb_neq _ _) (NN _ (OG o I))). reflexivity.
  - intros m k NM. unfold val'. rewrite (proj2 (Nat.eqb_neq m c) NM). reflexivity.
Qed.
(* two nodes in a row *)
Theorem joining_preserves_outputs g a b c e g' : joinable g a b c e [] -> joined g a b c g' -> (forall o, In o (g_out g) -> In (fst o) (g_nodes g)) ->
  forall (op op' : nat -> list V -> nat -> V), (forall m l k, m <> c -> op' m l k = op m l k) -> (forall l k, op' c l k = op b [op a l (si e)] k) ->
  forall val, computes op g val -> exists val', computes op' g' val' /\ outputs g' val' = outputs g val /\ forall m k, m <> c -> val' m k = val m k.
Proof.
  intros J FU OG op op' HO HC val C. destruct (j_facts g a b c e [] J) as (_ & S & _ & IA & IB & _). apply (joining_values g a b c e [] g' J FU OG op op' HO val C).
  intros l R k. rewrite HC. rewrite (C b IB [val a (si e)]); [rewrite (C a IA l R); reflexivity|]. exists [e]. split; [symmetry; apply (j_in _ _ _ _ _ _ J)|]. split; [repeat constructor|]. cbn. rewrite S. reflexivity.
Qed.
(* a node and its addition to its own input: the second node must not care about the order *)
Theorem residual_preserves_outputs g a b c p e e1 e2 g' : residual g a b c p e e1 e2 -> joined g a b c g' -> (forall o, In o (g_out g) -> In (fst o) (g_nodes g)) ->
  forall (op op' : nat -> list V -> nat -> V), (forall m l k, m <> c -> op' m l k = op m l k) -> (forall v k, op' c [v] k = op b [op a [v] (si e); v] k /\ op' c [v] k = op b [v; op a [v] (si e)] k) ->
  forall val, computes op g val -> exists val', computes op' g' val' /\ outputs g' val' = outputs g val /\ forall m k, m <> c -> val' m k = val m k.
Proof.
  intros [J RI [S1 S2] SI] FU OG op op' HO HC val C. destruct (j_facts g a b c e [e2] J) as (_ & S & _ & IA & IB & _). apply (joining_values g a b c e [e2] g' J FU OG op op' HO val C).
  intros l R k. set (v := val p (si e1)).
  assert (L : l = [v]). { destruct R as (es & P & _ & ->). rewrite RI in P. apply Permutation_sym, Permutation_length_1_inv in P. subst es. cbn. rewrite S1. reflexivity. } subst l.
  assert (VA : val a (si e) = op a [v] (si e)) by (apply (C a IA), R). assert (VP : val (src e2) (si e2) = v) by (unfold v; rewrite S2, SI; reflexivity).
  destruct (HC v k) as [H1 H2]. destruct (le_lt_dec (ti e) (ti e2)) as [L|L].
  - rewrite H1. symmetry. apply (C b IB). exists [e; e2]. split; [symmetry; apply (j_in _ _ _ _ _ _ J)|]. split; [repeat constructor; exact L|]. cbn. rewrite S, VA, VP. reflexivity.
  - rewrite H2. symmetry. apply (C b IB). exists [e2; e]. split; [rewrite (j_in _ _ _ _ _ _ J); apply perm_swap|]. split; [repeat constructor; lia|]. cbn. rewrite S, VA, VP. reflexivity.
Qed.
End Values.
Print Assumptions joining_preserves_outputs.
Print Assumptions residual_preserves_outputs.
(* the test finds the residual connections, up to the output of the producer that is read *)
Theorem residual_source_exact reused g a b p e : In e (g_edges g) -> src e = a -> snk e = b -> a <> b ->
  (residual_source reused g a b = Ok (Some p) <->
   reused a = false /\ reused b = false /\ filter (fun x => Nat.eqb (src x) a) (g_edges g) = [e] /\
   (exists e2, Permutation (filter (fun x => Nat.eqb (snk x) b) (g_edges g)) [e; e2] /\ src e2 = p) /\ hd_error (prev_nodes g a) = Some p).
Proof.
  intros I S T AB. unfold residual_source.
  assert (A : In e (filter (fun x => Nat.eqb (src x) a) (g_edges g))) by (apply filter_In; split; [exact I|apply Nat.eqb_eq, S]). assert (B : In e (filter (fun x => Nat.eqb (snk x) b) (g_edges g))) by (apply filter_In; split; [exact I|apply Nat.eqb_eq, T]).
  assert (LN : length (next_nodes g a) = length (filter (fun x => Nat.eqb (src x) a) (g_edges g))) by (unfold next_nodes; rewrite map_length; apply Permutation_length, out_edges_perm).
  pose proof (in_edges_perm g b) as PB. assert (LB : length (prev_nodes g b) = length (filter (fun x => Nat.eqb (snk x) b) (g_edges g))) by (unfold prev_nodes; rewrite map_length; apply Permutation_length, PB).
  destruct (reused a); cbn [orb]; [split; [discriminate|intros (Q & _); discriminate]|]. destruct (reused b); cbn [orb]; [split; [discriminate|intros (_ & Q & _); discriminate]|].
  rewrite LN, LB. destruct (filter (fun x => Nat.eqb (src x) a) (g_edges g)) as [|y [|z r]] eqn:FA; [destruct A| |cbn; split; [discriminate|intros (_ & _ & Q & _); discriminate]]. destruct A as [->|[]]. cbn [length]. change (Nat.ltb 1 1) with false. cbn [orb].
  destruct (prev_nodes g a) as [|q qs] eqn:PA; [cbn; split; [discriminate|intros (_ & _ & _ & _ & Q); discriminate]|]. cbn [length]. change (Nat.ltb (Datatypes.S (length qs)) 1) with false. cbn [orb hd_error].
  destruct (Nat.eqb_spec (length (filter (fun x => Nat.eqb (snk x) b) (g_edges g))) 2) as [L2|L2]; cbn [negb].
  2:{ split; [discriminate|]. intros (_ & _ & _ & (e2 & P & _) & _). apply Permutation_length in P. cbn in P. contradiction. }
  assert (X : exists e2, Permutation (filter (fun x => Nat.eqb (snk x) b) (g_edges g)) [e; e2]). { destruct (filter (fun x => Nat.eqb (snk x) b) (g_edges g)) as [|u [|v [|]]]; try discriminate L2. destruct B as [->|[->|[]]]; [exists v; reflexivity|exists u; apply perm_swap]. }
  destruct X as (e2 & P2). assert (N2 : src e2 <> a).
  { intro Q. assert (K : In e2 (filter (fun x => Nat.eqb (src x) a) (g_edges g))). { apply filter_In. split; [|apply Nat.eqb_eq, Q]. assert (In e2 (filter (fun x => Nat.eqb (snk x) b) (g_edges g))) as Y by (rewrite P2; cbn; auto). apply filter_In in Y. apply Y. } rewrite FA in K. destruct K as [<-|[]].
    pose proof (filter_length_perm (fun x => Nat.eqb (src x) a) _ _ P2) as CL. rewrite <- filter_and in CL. cbn [filter] in CL. rewrite S, Nat.eqb_refl in CL. cbn in CL.
    rewrite (filter_ext _ (fun x => Nat.eqb (src x) a && Nat.eqb (snk x) b)) in CL by (intro; apply andb_comm). rewrite filter_and, FA in CL. cbn in CL. rewrite T, Nat.eqb_refl in CL. discriminate. }
  rewrite P2 in PB. unfold prev_nodes. assert (RM : remove_first (Nat.eqb a) (map src (in_edges g b)) = Some [src e2]).
  { assert (K : in_edges g b = [e; e2] \/ in_edges g b = [e2; e]). { symmetry in PB. apply Permutation_length_2_inv in PB. tauto. }
    destruct K as [-> | ->]; cbn; rewrite S, Nat.eqb_refl; [reflexivity|]. rewrite (proj2 (Nat.eqb_neq a (src e2))) by congruence. reflexivity. }
  rewrite RM. destruct (Nat.eqb_spec q (src e2)) as [Q|Q].
  - split; [intro H; injection H as <-; repeat split; [exists e2; split; [exact P2|reflexivity]|rewrite Q; reflexivity]|]. intros (_ & _ & _ & (e3 & P3 & <-) & H). injection H as ->. rewrite <- Q. reflexivity.
  - split; [discriminate|]. intros (_ & _ & _ & (e3 & P3 & <-) & H). injection H as ->. exfalso. apply Q. rewrite P3 in P2. apply Permutation_cons_inv in P2. apply Permutation_length_1 in P2. congruence.
Qed.
Print Assumptions residual_source_exact.
