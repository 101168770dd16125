(* FuserAllProps.v -- C31: replacing the nodes of all fused operations of a graph. *)
From Coq Require Import Permutation Sorted Lia String.
From Verif Require Import Base GraphModel GraphSpec GraphProofs GraphProps GraphFindProps FuseModel FuseSpec FuseProofs FuseProps FuseGenProofs FuseGenProps FuserProofs FuserProps.
Open Scope list_scope.
Open Scope res_scope.
Local Open Scope nat_scope.

Lemma NoDup_map_in {A B} (h : A -> B) l : (forall x y, In x l -> In y l -> h x = h y -> x = y) -> NoDup l -> NoDup (map h l).
Proof.
  intros H N. induction N as [|x l N1 N2 IH]; cbn; constructor.
  - intro I. apply in_map_iff in I. destruct I as (y & E & I). apply N1. rewrite (H x y); [exact I|left; reflexivity|right; exact I|symmetry; exact E].
  - apply IH. intros a b A1 B1. apply H; right; assumption.
Qed.
Lemma NoDup_map_filter {A B} (h : A -> B) p l : NoDup (map h l) -> NoDup (map h (filter p l)).
Proof.
  induction l as [|x l IH]; intro N; [constructor|]. cbn in *. inversion N as [|? ? N1 N2]; subst. destruct (p x); cbn; [|apply IH, N2]. constructor; [|apply IH, N2].
  intro I. apply N1. apply in_map_iff in I. destruct I as (y & E & I). apply filter_In in I. rewrite <- E. apply in_map, I.
Qed.
(* ---- fusing one group leaves the others as they are ---- *)
Section Other.
Variables (g : graph) (ns ns2 : list nat) (f f2 : nat) (g' : graph).
Hypothesis F : fusible g ns f.
Hypothesis R : fused_with (fun e => negb (enters_late ns e)) g ns f g'.
Hypothesis W' : wf g'.
Hypothesis F2 : fusible g ns2 f2.
Hypothesis DJ : forall n, In n ns -> ~ In n ns2.
Hypothesis FF : f <> f2.
Lemma f_fresh m : In m (g_nodes g) -> m <> f.
Proof. intros I ->. exact (fu_new _ _ _ F I). Qed.
Lemma rep_is m n : In n (g_nodes g) -> ~ In n ns -> (rep ns f m = n <-> m = n).
Proof.
  intros I N. unfold rep. destruct (mem m ns) eqn:M.
  - apply mem_spec in M. split; [intros <-; exfalso; exact (fu_new _ _ _ F I)|intros <-; contradiction].
  - tauto.
Qed.
Lemma ns2_ok n : In n ns2 -> In n (g_nodes g) /\ ~ In n ns.
Proof. intro I. split; [apply (fu_nodes _ _ _ F2), I|]. intro J. exact (DJ n J I). Qed.
Lemma kept_same e : ~ In (src e) ns -> ~ In (snk e) ns -> collapse ns f e = e.
Proof. intros A B. unfold collapse, rep. rewrite (proj2 (mem_false _ _) A), (proj2 (mem_false _ _) B). destruct e; reflexivity. Qed.
Lemma kept_next x y : In x ns2 -> In y ns2 -> only_next g x y -> only_next g' x y.
Proof.
  intros X Y (e & O1 & O2). destruct (ns2_ok x X) as [X1 X2]. destruct (ns2_ok y Y) as [Y1 Y2]. destruct R as (P & _). exists e. split; [|exact O2]. apply perm_one.
  rewrite (filter_perm _ _ _ P), filter_map_comm, <- filter_and.
  rewrite (filter_ext_in _ (fun d => Nat.eqb (src d) x)).
  - rewrite O1. cbn. rewrite kept_same; [reflexivity| |rewrite O2; exact Y2]. assert (In e [e]) as I by (left; reflexivity). rewrite <- O1 in I. apply filter_In in I. destruct I as [_ I]. apply Nat.eqb_eq in I. rewrite I. exact X2.
  - intros d I. cbn. apply Bool.eq_iff_eq_true. rewrite andb_true_iff, !Nat.eqb_eq. rewrite (rep_is (src d) x X1 X2). split; [tauto|]. intro E. split; [|exact E].
    assert (In d (filter (fun d => Nat.eqb (src d) x) (g_edges g))) as J by (apply filter_In; split; [exact I|apply Nat.eqb_eq, E]). rewrite O1 in J. destruct J as [<-|[]].
    apply negb_true_iff. unfold enters_late. apply mem_false. rewrite O2. intro J. apply Y2. destruct ns; [destruct J|right; exact J].
Qed.
Lemma kept_prev x y : In x ns2 -> In y ns2 -> only_prev g x y -> only_prev g' x y.
Proof.
  intros X Y (e & O1 & O2). destruct (ns2_ok x X) as [X1 X2]. destruct (ns2_ok y Y) as [Y1 Y2]. destruct R as (P & _). exists e. split; [|exact O2]. apply perm_one.
  rewrite (filter_perm _ _ _ P), filter_map_comm, <- filter_and.
  rewrite (filter_ext_in _ (fun d => Nat.eqb (snk d) y)).
  - rewrite O1. cbn. rewrite kept_same; [reflexivity|rewrite O2; exact X2|]. assert (In e [e]) as I by (left; reflexivity). rewrite <- O1 in I. apply filter_In in I. destruct I as [_ I]. apply Nat.eqb_eq in I. rewrite I. exact Y2.
  - intros d I. cbn. apply Bool.eq_iff_eq_true. rewrite andb_true_iff, !Nat.eqb_eq. rewrite (rep_is (snk d) y Y1 Y2). split; [tauto|]. intro E. split; [|exact E].
    apply negb_true_iff. unfold enters_late. apply mem_false. rewrite E. intro J. apply Y2. destruct ns; [destruct J|right; exact J].
Qed.
Lemma tl_incl (l : list nat) n : In n (tl l) -> In n l.
Proof. destruct l; [auto|]. intro. right. assumption. Qed.
Lemma other_fusible : fusible g' ns2 f2.
Proof.
  destruct (ends_of g ns f F) as (a & z & r & HA & HZ). pose proof F2 as [W FN ND TW NO NX FI FO NI]. destruct R as (P & N' & GI & GO). split.
  - exact W'.
  - rewrite N'. intros [[I _]|E]; [contradiction|congruence].
  - exact ND.
  - exact TW.
  - intros n I. apply N'. left. apply ns2_ok, I.
  - eapply steps_impl; [|exact NX]. intros x y X Y. apply kept_next; [apply removelast_incl, X|apply tl_incl, Y].
  - intros b B. assert (Bi : In b ns2) by (destruct ns2; [discriminate|]; injection B as ->; left; reflexivity). destruct (ns2_ok b Bi) as [B1 B2].
    eapply Permutation_NoDup; [symmetry; apply Permutation_map, filter_perm, P|]. rewrite filter_map_comm, map_map. cbn [collapse src].
    rewrite <- filter_and. rewrite (filter_ext_in _ (fun e => Nat.eqb (snk e) b && negb (enters_late ns e))).
    2:{ intros e I. cbn. rewrite andb_comm. f_equal. apply Bool.eq_iff_eq_true. rewrite !Nat.eqb_eq. apply rep_is; assumption. }
    rewrite filter_and. rewrite <- (map_map src (rep ns f)). apply NoDup_map_in; [|apply NoDup_map_filter, FI, B].
    intros s t S T. assert (Q : forall s, In s (map src (filter (fun e => negb (enters_late ns e)) (filter (fun e => Nat.eqb (snk e) b) (g_edges g)))) -> (In s (g_nodes g) /\ (In s ns -> s = z))).
    { clear -F HA HZ. intros s S. apply in_map_iff in S. destruct S as (e & <- & S). apply filter_In in S. destruct S as [S1 S2]. apply filter_In in S1. destruct S1 as [S1 _]. split; [apply (wf_ends g (fu_wf _ _ _ F) e S1)|].
      intro J. apply (in_rz ns z r HZ) in J. destruct J as [J|J]; [|exact J]. exfalso. apply (r_out g ns f z r F HZ e S1) in J. apply mem_spec in J. unfold enters_late in S2. rewrite J in S2. discriminate. }
    destruct (Q s S) as [S1 S2]. destruct (Q t T) as [T1 T2]. unfold rep. destruct (mem s ns) eqn:Ms; destruct (mem t ns) eqn:Mt.
    + apply mem_spec in Ms, Mt. rewrite (S2 Ms), (T2 Mt). auto.
    + intro E. exfalso. exact (f_fresh t T1 (eq_sym E)).
    + intro E. exfalso. exact (f_fresh s S1 E).
    + auto.
  - intros y q E. destruct (FO y q E) as (O1 & O2 & O3 & O4). assert (Yi : In y ns2) by (rewrite E; apply in_or_app; right; left; reflexivity). destruct (ns2_ok y Yi) as [Y1 Y2]. split; [|split; [|split]].
    + eapply Permutation_NoDup; [symmetry; apply Permutation_map, filter_perm, P|]. rewrite filter_map_comm, map_map. cbn [collapse snk].
      rewrite <- filter_and. rewrite (filter_ext_in _ (fun e => Nat.eqb (src e) y && negb (enters_late ns e))).
      2:{ intros e I. cbn. rewrite andb_comm. f_equal. apply Bool.eq_iff_eq_true. rewrite !Nat.eqb_eq. apply rep_is; assumption. }
      rewrite filter_and. rewrite <- (map_map snk (rep ns f)). apply NoDup_map_in; [|apply NoDup_map_filter, O1].
      intros s t S T. assert (Q : forall s, In s (map snk (filter (fun e => negb (enters_late ns e)) (filter (fun e => Nat.eqb (src e) y) (g_edges g)))) -> (In s (g_nodes g) /\ (In s ns -> s = a))).
      { clear -F HA HZ. intros s S. apply in_map_iff in S. destruct S as (e & <- & S). apply filter_In in S. destruct S as [S1 S2]. apply filter_In in S1. destruct S1 as [S1 _]. split; [apply (wf_ends g (fu_wf _ _ _ F) e S1)|].
        intro J. apply (in_tl g ns f a z r F HA HZ) in J. destruct J as [J|J]; [exact J|]. exfalso. apply mem_spec in J. unfold enters_late in S2. rewrite J in S2. discriminate. }
      destruct (Q s S) as [S1 S2]. destruct (Q t T) as [T1 T2]. unfold rep. destruct (mem s ns) eqn:Ms; destruct (mem t ns) eqn:Mt.
      * apply mem_spec in Ms, Mt. rewrite (S2 Ms), (T2 Mt). auto.
      * intro X. exfalso. exact (f_fresh t T1 (eq_sym X)).
      * intro X. exfalso. exact (f_fresh s S1 X).
      * auto.
    + intros e I S J. apply (Permutation_in _ P) in I. apply in_map_iff in I. destruct I as (d & <- & I). apply filter_In in I. destruct I as [I _]. cbn in S, J. apply (proj1 (rep_is _ _ Y1 Y2)) in S.
      unfold rep in J. destruct (mem (snk d) ns) eqn:M; [|exact (O2 d I S J)]. exact (fu_new _ _ _ F (NO f J)).
    + intros o I J. rewrite GO in I. apply in_map_iff in I. destruct I as (p & <- & I). cbn in J |- *. unfold rep in *. destruct (mem (fst p) ns) eqn:M; [exfalso; exact (fu_new _ _ _ F (NO f J))|exact (O3 p I J)].
    + rewrite GO, filter_map_comm, map_length. cbn. rewrite (filter_ext _ (fun o => Nat.eqb (fst o) y)); [exact O4|]. intro o. apply Bool.eq_iff_eq_true. rewrite !Nat.eqb_eq. apply rep_is; assumption.
  - intros n I. rewrite GI. apply NI, I.
Qed.
Lemma other_no_side : no_side_inputs g ns2 -> no_side_inputs g' ns2.
Proof. apply steps_impl. intros x y X Y. apply kept_prev; [apply removelast_incl, X|apply tl_incl, Y]. Qed.
End Other.

(* ---- a check that looks only at nodes and edges the fusion does not touch ---- *)
Section Check.
Variables (check : graph -> result unit) (g : graph) (ns : list nat) (f : nat) (inner all : list nat).
Definition untouched (h : graph) : Prop := (forall n, In n all -> In n (g_nodes h)) /\ (forall p, In p inner -> filter (fun e => Nat.eqb (src e) p) (g_edges h) = filter (fun e => Nat.eqb (src e) p) (g_edges g)).
Hypothesis CK : forall h, untouched h -> check h = Ok tt.
Hypothesis U : untouched g.
Hypothesis D1 : forall n, In n ns -> ~ In n all.
Hypothesis D2 : forall n, In n inner -> In n all.
Hypothesis D3 : ~ In f inner.
Hypothesis D4 : forall e, In e (g_edges g) -> In (src e) inner -> ~ In (snk e) ns.
Lemma inner_edge h e : untouched h -> In e (g_edges h) -> In (src e) inner -> In e (g_edges g).
Proof. intros [_ H] I J. assert (In e (filter (fun x => Nat.eqb (src x) (src e)) (g_edges h))) as K by (apply filter_In; split; [exact I|apply Nat.eqb_refl]). rewrite (H _ J) in K. apply filter_In in K. apply K. Qed.
Lemma checked_same h : untouched h -> checked check h = checked no_check h.
Proof. intro H. unfold checked. rewrite (CK h H). reflexivity. Qed.
Lemma add_nodes_edges h n : g_edges (add_node_nx h n) = g_edges h.
Proof. unfold add_node_nx. destruct (mem n (g_nodes h)); reflexivity. Qed.
Lemma add_untouched h e : untouched h -> ~ In (src e) inner -> untouched (add_edge_nx h e).
Proof.
  intros [H1 H2] N. split.
  - intros n I. cbn. rewrite !add_node_in. left. left. apply H1, I.
  - intros p I. cbn. rewrite !add_nodes_edges, filter_app. cbn. destruct (Nat.eqb_spec (src e) p) as [E|E]; [exfalso; apply N; rewrite E; exact I|]. rewrite app_nil_r. apply H2, I.
Qed.
Lemma remove_untouched h u v h' : untouched h -> ~ In u inner -> remove_edge_nx h u v = Ok h' -> untouched h'.
Proof.
  intros [H1 H2] N E. unfold remove_edge_nx in E. destruct (remove_first _ _) as [es|] eqn:R; [|discriminate]. injection E as <-. split; [exact H1|]. intros p I. cbn. rewrite <- (H2 p I).
  apply remove_first_spec in R. destruct R as (a & x & b & E1 & -> & P & _). rewrite <- (rev_involutive (g_edges h)), E1, !rev_app_distr. cbn [rev]. rewrite !filter_app. cbn. apply is_between_spec in P. destruct P as [P _].
  destruct (Nat.eqb_spec (src x) p) as [E|E]; [exfalso; apply N; rewrite <- P, E; exact I|]. rewrite app_nil_r. reflexivity.
Qed.
Lemma add_edge_same h e : untouched h -> ~ In (src e) inner -> add_edge check h e = add_edge no_check h e /\ forall h', add_edge no_check h e = Ok h' -> untouched h'.
Proof.
  intros H N. split; [apply checked_same, add_untouched; assumption|]. intros h' E. apply add_edge_ok in E. subst. apply add_untouched; assumption.
Qed.
Lemma remove_edge_same h u v : untouched h -> ~ In u inner -> remove_edge check h u v = remove_edge no_check h u v /\ forall h', remove_edge no_check h u v = Ok h' -> untouched h'.
Proof.
  intros H N. unfold remove_edge. destruct (remove_edge_nx h u v) as [h1|] eqn:E; cbn [bind]; [|split; [reflexivity|discriminate]]. pose proof (remove_untouched h u v h1 H N E) as H1. split; [apply checked_same, H1|].
  intros h' X. cbn in X. congruence.
Qed.
Lemma remove_node_same h n i o : untouched h -> ~ In n all -> remove_node check h n i o = remove_node no_check h n i o /\ forall h', remove_node no_check h n i o = Ok h' -> untouched h'.
Proof.
  intros H N. assert (X : forall h', remove_node no_check h n i o = Ok h' -> untouched h').
  { intros h' E. apply remove_node_removes in E. destruct E as [_ (E1 & E2 & _)]. destruct H as [H1 H2]. split; [|rewrite E1; exact H2]. intros m I. rewrite E2. apply filter_In. split; [apply H1, I|]. apply negb_true_iff, Nat.eqb_neq. congruence. }
  split; [|exact X]. revert X. unfold remove_node, set_outputs, set_inputs. intros X.
  assert (E1 : (if mem n (map fst (g_out h)) then match o with None => Err E_critical | Some l => checked check (set_out h l) end else Ok h) = (if mem n (map fst (g_out h)) then match o with None => Err E_critical | Some l => checked no_check (set_out h l) end else Ok h)).
  { destruct (mem n (map fst (g_out h))); [|reflexivity]. destruct o; [|reflexivity]. apply checked_same. exact H. }
  rewrite E1. destruct (if mem n (map fst (g_out h)) then match o with None => Err E_critical | Some l => checked no_check (set_out h l) end else Ok h) as [h1|] eqn:Q1; cbn [bind]; [|reflexivity].
  assert (H1 : untouched h1). { destruct (mem n (map fst (g_out h))); [destruct o; [|discriminate]; cbn in Q1|]; injection Q1 as <-; exact H. }
  assert (E2 : (if mem n (g_in h1) then match i with None => Err E_critical | Some l => checked check (set_in h1 l) end else Ok h1) = (if mem n (g_in h1) then match i with None => Err E_critical | Some l => checked no_check (set_in h1 l) end else Ok h1)).
  { destruct (mem n (g_in h1)); [|reflexivity]. destruct i; [|reflexivity]. apply checked_same. exact H1. }
  rewrite E2 in *. cbn [bind] in X. destruct (if mem n (g_in h1) then match i with None => Err E_critical | Some l => checked no_check (set_in h1 l) end else Ok h1) as [h2|] eqn:Q2; cbn [bind] in *; [|reflexivity].
  destruct (in_edges h2 n); [|reflexivity]. destruct (out_edges h2 n); [|reflexivity]. destruct (remove_node_nx h2 n) as [h3|]; [|reflexivity]. cbn [bind] in *. apply checked_same. apply X. reflexivity.
Qed.
Lemma bind_same {A B} (r r' : result A) (k k' : A -> result B) (I : A -> Prop) (J : B -> Prop) : r = r' /\ (forall x, r' = Ok x -> I x) ->
  (forall x, I x -> k x = k' x /\ forall y, k' x = Ok y -> J y) -> bind r k = bind r' k' /\ forall y, bind r' k' = Ok y -> J y.
Proof. intros [<- H] K. destruct r as [x|]; cbn; [apply K, H; reflexivity|split; [reflexivity|discriminate]]. Qed.
Lemma fuse_group_same : ns <> [] -> fuse_group check g ns f = fuse_group no_check g ns f.
Proof.
  intro NE. assert (X : exists a l, ns = a :: l) by (destruct ns as [|a l]; [congruence|eauto]). destruct X as (a & l & EN). rewrite EN, !fuse_group_unfold, <- EN. cbv zeta. set (z := last ns a).
  assert (NI : forall n, In n ns -> ~ In n inner) by (intros n I J; exact (D1 n I (D2 n J))).
  assert (AI : In a ns) by (rewrite EN; left; reflexivity). assert (ZI : In z ns). { unfold z. rewrite (split_last ns a) at 2 by (rewrite EN; discriminate). apply in_or_app. right. left. reflexivity. }
  apply (bind_same _ _ _ _ untouched (fun _ => True)).
  { apply foldM_inv; [|exact U]. intros h p I H. unfold oldest. destruct (between h p a); cbn [bind]; [split; [reflexivity|discriminate]|].
    assert (~ In p inner). { intro J. apply in_map_iff in I. destruct I as (d & <- & I). apply in_edges_in in I. destruct I as [I I']. apply (D4 d I J). rewrite I'. exact AI. }
    apply (bind_same _ _ _ _ untouched untouched); [apply add_edge_same; assumption|]. intros h1 H1. apply remove_edge_same; assumption. }
  intros g1 U1. apply (bind_same _ _ _ _ untouched (fun _ => True)).
  { apply foldM_inv; [|exact U1]. intros h p I H. unfold oldest. destruct (between h z p); cbn [bind]; [split; [reflexivity|discriminate]|].
    apply (bind_same _ _ _ _ untouched untouched); [apply add_edge_same; assumption|]. intros h1 H1. apply remove_edge_same; [exact H1|apply NI, ZI]. }
  intros g2 U2. apply (bind_same _ _ _ _ untouched (fun _ => True)).
  { apply foldM_inv; [|exact U2]. intros h c I H. unfold clear_loop. apply foldM_inv; [|exact H]. intros h1 m _ H1. destruct (mem m ns) eqn:M; cbn [negb]; [|split; [reflexivity|discriminate]]. apply mem_spec in M.
    apply (bind_same _ _ _ _ untouched untouched). { apply remove_edge_same; [exact H1|]. apply NI. apply removelast_incl, I. }
    intros h2 H2. apply foldM_inv; [|exact H2]. intros h3 ie J H3. apply remove_edge_same; [exact H3|]. intro K. apply in_edges_in in J. destruct J as [J1 J2].
    apply (D4 ie); [apply (inner_edge h2); assumption|exact K|rewrite J2; exact M]. }
  intros g3 U3. apply (bind_same _ _ _ _ untouched (fun _ => True)).
  { apply foldM_inv; [|exact U3]. intros h n I H. unfold drop_loop. destruct (mem n (map fst (g_out g3))); apply remove_node_same; try exact H; try (apply D1, I). }
  intros g4 U4. split; [reflexivity|auto].
Qed.
End Check.

(* ---- all operations, with the check of the operations that are left ---- *)
Section FuseAll.
Context {E : Type}.
Variable name : nat -> string.
Variable matches : E -> nat -> bool.
Variable fused_of : string -> nat.
Lemma rest_valid f op f' ns g : consistent name matches f -> remove_op name f op = Ok f' -> In (op, ns) (fi_data f) -> ns <> [] -> valid name matches f g -> valid name matches f' g.
Proof.
  intros C H I NE [V1 V2]. destruct (remove_op_ok name matches f op f' H C) as (ns' & I' & C' & D & P & M & G & Q). assert (ns' = ns) as ->.
  { destruct (co_sep _ _ _ C) as [S1 _]. clear -S1 I I'. induction (fi_data f) as [|[o l] d IH]; [destruct I|]. cbn in *. inversion S1 as [|? ? S2 S3]; subst. destruct I as [I|I], I' as [I'|I'].
    - congruence.
    - injection I as -> ->. exfalso. apply S2. change op with (fst (op, ns')). apply in_map, I'.
    - injection I' as -> ->. exfalso. apply S2. change op with (fst (op, ns)). apply in_map, I.
    - apply IH; assumption. }
  assert (DI : forall o l, In (o, l) (fi_data f') -> In (o, l) (fi_data f) /\ o <> op) by (intros o l J; rewrite D, sdel_in in J; exact J).
  split.
  - intros o l J. destruct (DI o l J) as [J1 J2]. destruct (V1 o l J1) as (A & B & X). split; [exact A|]. split; [exact B|]. rewrite P. destruct X as [X|X]; [|right; exact X]. left.
    assert (NN : map name l <> map name ns).
    { intro EQ. apply J2. destruct ns as [|n ns]; [congruence|]. destruct l as [|m l]; [discriminate|]. injection EQ as EQ _. destruct (co_sep _ _ _ C) as [_ S]. apply (S o op (name n)).
      - exists (m :: l), m. split; [exact J1|]. split; [left; reflexivity|exact EQ].
      - exists (n :: ns), n. split; [exact I|]. split; [left; reflexivity|reflexivity]. }
    destruct Q as [[-> _]|(p & q & Q1 & -> & _)]; [exact X|]. rewrite Q1 in X. apply in_app_or in X. apply in_or_app. destruct X as [X|[X|X]]; [left; exact X|congruence|right; exact X].
  - intros a kv b kv' c n EQ J J'. assert (K1 : In kv (fi_data f')) by (rewrite EQ; apply in_or_app; right; left; reflexivity). assert (K2 : In kv' (fi_data f')) by (rewrite EQ; apply in_or_app; right; right; apply in_or_app; right; left; reflexivity).
    destruct (co_sep _ _ _ C') as [S1 S2]. assert (KE : fst kv = fst kv'). { apply (S2 _ _ (name n)); [exists (snd kv), n|exists (snd kv'), n]; (split; [rewrite <- surjective_pairing; assumption|split; [assumption|reflexivity]]). }
    rewrite EQ, map_app in S1. cbn in S1. apply NoDup_remove_2 in S1. apply S1. apply in_or_app. right. rewrite map_app. apply in_or_app. right. left. symmetry. exact KE.
Qed.
Lemma valid_untouched f g : valid name matches f g -> forall h, untouched g (inner_nodes f) (flat_map snd (fi_data f)) h -> valid name matches f h.
Proof.
  intros [V1 V2] h [U1 U2]. split; [|exact V2]. intros op ns I. destruct (V1 op ns I) as (A & B & X). split; [|split; [|exact X]].
  - intros n J. apply U1. apply in_flat_map. exists (op, ns). auto.
  - unfold chain in *. eapply steps_impl; [|exact B]. intros x y Hx _ (e & O1 & O2). exists e. split; [|exact O2]. rewrite U2; [exact O1|]. unfold inner_nodes. apply in_flat_map. exists (op, ns). auto.
Qed.
Lemma find_none data m : (forall op ns, In (op, ns) data -> ~ In m ns) -> rep_all data fused_of m = m.
Proof.
  intro H. unfold rep_all. destruct (find _ data) as [[o l]|] eqn:Q; [|reflexivity]. apply find_some in Q. destruct Q as [Q1 Q2]. apply mem_spec in Q2. exfalso. exact (H o l Q1 Q2).
Qed.
(* every operation is replaced by its own node; whatever the order, the result is the same *)
Theorem fusing_all f g : wf g -> consistent name matches f -> validate name matches f g = Ok tt -> NoDup (map fused_of (map fst (fi_data f))) ->
  (forall op ns, In (op, ns) (fi_data f) -> fusible g ns (fused_of op)) ->
  exists g' f', fuse_all name matches g f fused_of = Ok (g', f') /\ fi_data f' = [] /\ wf g' /\
    fused_all_with (fi_data f) fused_of (fun e => negb (existsb (fun kv => enters_late (snd kv) e) (fi_data f))) g g'.
Proof.
  unfold fuse_all. remember (fi_data f) as data eqn:ED. intros W C V. apply validate_exact in V. revert f g ED W C V. induction data as [|[op ns] data IH]; intros f g ED W C V N F.
  - exists g, f. split; [reflexivity|]. split; [symmetry; exact ED|]. split; [exact W|]. split; [|split; [|split; [reflexivity|]]].
    + rewrite (map_ext _ (fun e => e)), map_id; [|intros []; reflexivity]. rewrite filter_all; reflexivity.
    + intro m. split; [intro I; left; split; [exact I|intros ? ? []]|]. intros [[I _]|(? & ? & [] & _)]. exact I.
    + rewrite (map_ext _ (fun e => e)), map_id; [reflexivity|intros []; reflexivity].
  - cbn [foldM fst snd]. destruct (co_sep _ _ _ C) as [S1 S2]. rewrite <- ED in S1, S2. cbn [map fst] in S1. apply NoDup_cons_iff in S1. destruct S1 as [S3 S4].
    assert (I0 : In (op, ns) (fi_data f)) by (rewrite <- ED; left; reflexivity).
    destruct (remove_op name f op) as [f1|] eqn:RO.
    2:{ unfold remove_op in RO. rewrite <- ED in RO. cbn [sget] in RO. rewrite String.eqb_refl in RO. discriminate. }
    cbn [bind]. pose proof (F op ns (or_introl eq_refl)) as F0. assert (NE : ns <> []) by (intros ->; pose proof (fu_two _ _ _ F0) as L; cbn in L; lia).
    assert (V1 := rest_valid f op f1 ns g C RO I0 NE V).
    destruct (remove_op_ok name matches f op f1 RO C) as (ns' & _ & C1 & D & _).
    assert (D' : fi_data f1 = data).
    { rewrite D, <- ED. unfold sdel. cbn [filter fst]. rewrite String.eqb_refl. cbn [negb]. apply filter_all. intros [o l] I. cbn. apply negb_true_iff, String.eqb_neq. intros <-. apply S3. change op with (fst (op, l)). apply in_map, I. }
    assert (DJ : forall o l n, In (o, l) data -> In n ns -> ~ In n l).
    { intros o l n I J K. assert (op = o). { apply (S2 op o (name n)); [exists ns, n; split; [left; reflexivity|auto]|exists l, n; split; [right; exact I|auto]]. } subst o. apply S3. change op with (fst (op, l)). apply in_map, I. }
    cbn [map fst] in N. apply NoDup_cons_iff in N. destruct N as [N1 N2].
    assert (FO : forall o l, In (o, l) data -> fusible g l (fused_of o)) by (intros o l I; apply F; right; exact I).
    destruct (ends_of g ns _ F0) as (a & z & r & HA & HZ).
    destruct (fuse_one g ns _ a z r F0 HA HZ) as (g1 & E1 & R1 & W1).
    assert (E2 : fuse_group (validate name matches f1) g ns (fused_of op) = Ok g1).
    { rewrite <- E1. apply (fuse_group_same (validate name matches f1) g ns (fused_of op) (inner_nodes f1) (flat_map snd (fi_data f1))).
      - intros h H. apply validate_exact. exact (valid_untouched f1 g V1 h H).
      - split; [|reflexivity]. intros n I. apply in_flat_map in I. destruct I as ([o l] & I & J). destruct V1 as [V1 _]. apply (V1 o l I). exact J.
      - intros n I J. apply in_flat_map in J. destruct J as ([o l] & J & K). rewrite D' in J. exact (DJ o l n J I K).
      - intros n I. unfold inner_nodes in I. apply in_flat_map in I. destruct I as ([o l] & I & J). apply in_flat_map. exists (o, l). split; [exact I|apply removelast_incl, J].
      - intro I. unfold inner_nodes in I. apply in_flat_map in I. destruct I as ([o l] & I & J). rewrite D' in I. apply (fu_new _ _ _ F0). apply (fu_nodes _ _ _ (FO o l I)), removelast_incl, J.
      - intros e I J K. unfold inner_nodes in J. apply in_flat_map in J. destruct J as ([o l] & J & Q). rewrite D' in J. cbn [snd] in Q. destruct (ends_of g l _ (FO o l J)) as (a2 & z2 & r2 & HA2 & HZ2).
        rewrite (r_removelast l z2 r2 HZ2) in Q. pose proof (r_out g l _ z2 r2 (FO o l J) HZ2 e I Q) as T. exact (DJ o l (snk e) J K (tl_incl l _ T)).
      - exact NE. }
    rewrite E2. cbn [bind].
    assert (FR : forall o l, In (o, l) data -> fused_of op <> fused_of o). { intros o l I EQ. apply N1. rewrite EQ. apply in_map. change o with (fst (o, l)). apply in_map, I. }
    assert (F1 : forall o l, In (o, l) data -> fusible g1 l (fused_of o)).
    { intros o l I. apply (other_fusible g ns l (fused_of op) (fused_of o) g1 F0 R1 W1 (FO o l I)); [intros n J; exact (DJ o l n I J)|exact (FR o l I)]. }
    assert (V2 : valid name matches f1 g1).
    { destruct V1 as [VA VB]. split; [|exact VB]. intros o l I. destruct (VA o l I) as (_ & _ & X). rewrite D' in I. split; [exact (fu_nodes _ _ _ (F1 o l I))|]. split; [exact (fu_next _ _ _ (F1 o l I))|exact X]. }
    destruct (IH f1 g1 (eq_sym D') W1 C1 V2 N2 F1) as (g' & f' & E3 & D3 & W3 & P3 & N3 & I3 & O3).
    exists g', f'. split; [exact E3|]. split; [exact D3|]. split; [exact W3|]. destruct R1 as (P1 & NN1 & I1 & O1).
    assert (FRESH : forall o l, In (o, l) data -> ~ In (fused_of op) l). { intros o l I J. apply (fu_new _ _ _ F0), (fu_nodes _ _ _ (FO o l I)), J. }
    assert (RA : forall m, rep_all data fused_of (rep ns (fused_of op) m) = rep_all ((op, ns) :: data) fused_of m).
    { intro m. unfold rep. unfold rep_all at 2. cbn [find snd]. destruct (mem m ns); [|reflexivity]. cbn [fst]. apply find_none. exact FRESH. }
    split; [|split; [|split]].
    + rewrite P3. rewrite (Permutation_map _ (filter_perm _ _ _ P1)). rewrite filter_map_comm, map_map, <- filter_and.
      rewrite (map_ext _ (collapse_all ((op, ns) :: data) fused_of)); [|intro e; unfold collapse_all; cbn [collapse src snk si ti]; rewrite !RA; reflexivity].
      rewrite (filter_ext_in _ (fun e => negb (existsb (fun kv => enters_late (snd kv) e) ((op, ns) :: data)))); [reflexivity|].
      intros e I. cbn [existsb snd]. rewrite negb_orb. f_equal. f_equal. assert (X : forall d, (forall o l, In (o, l) d -> In (o, l) data) -> existsb (fun kv => enters_late (snd kv) (collapse ns (fused_of op) e)) d = existsb (fun kv => enters_late (snd kv) e) d).
      { induction d as [|[o l] d IHd]; intro SUB; [reflexivity|]. cbn [existsb snd]. rewrite IHd by (intros; apply SUB; right; assumption). f_equal. unfold enters_late. cbn [collapse snk]. unfold rep. destruct (mem (snk e) ns) eqn:M; [|reflexivity].
        apply mem_spec in M. pose proof (SUB o l (or_introl eq_refl)) as J. rewrite (proj2 (mem_false _ _)); [|intro K; exact (FRESH o l J (tl_incl l _ K))]. symmetry. apply mem_false. intro K. exact (DJ o l (snk e) J M (tl_incl l _ K)). }
      apply X. auto.
    + intro m. rewrite N3, NN1. split.
      * intros [[[[A B]|A] Q]|(o & l & I & ->)].
        -- left. split; [exact A|]. intros o l [J|J]; [injection J as <- <-; exact B|exact (Q o l J)].
        -- right. exists op, ns. split; [left; reflexivity|exact A].
        -- right. exists o, l. split; [right; exact I|reflexivity].
      * intros [[A B]|(o & l & [J|J] & ->)].
        -- left. split; [left; split; [exact A|exact (B op ns (or_introl eq_refl))]|]. intros o l J. apply (B o l). right. exact J.
        -- injection J as <- <-. left. split; [right; reflexivity|exact FRESH].
        -- right. exists o, l. split; [exact J|reflexivity].
    + congruence.
    + rewrite O3, O1, map_map. apply map_ext. intro o. cbn [fst snd]. rewrite RA. reflexivity.
Qed.

(* ---- operations generated for this very graph pass the comparison ---- *)
Lemma keys_sset {V} k (v : V) d : NoDup (map fst d) -> NoDup (map fst (sset k v d)).
Proof.
  induction d as [|[x w] d IH]; intro N; [repeat constructor; intros []|]. cbn in *. apply NoDup_cons_iff in N. destruct N as [N1 N2]. destruct (String.eqb_spec k x) as [->|D]; cbn; [constructor; assumption|]. constructor; [|apply IH, N2].
  intro I. apply N1. clear -I D. induction d as [|[y u] d IH]; cbn in *; [destruct I; [congruence|contradiction]|]. destruct (String.eqb_spec k y) as [->|E]; cbn in *; [exact I|]. destruct I as [I|I]; [left; exact I|right; apply IH, I].
Qed.
Lemma dict_same_self {V} (eqb : V -> V -> bool) d : (forall v, eqb v v = true) -> NoDup (map fst d) -> dict_same eqb d d = true.
Proof.
  intros R N. unfold dict_same. rewrite Nat.eqb_refl. cbn [andb]. apply forallb_forall. intros [k v] I. cbn [fst snd]. rewrite (in_sget k v d N I). apply R.
Qed.
Lemma fold_keep {A S} (P : S -> Prop) (h : S -> A -> S) : (forall s x, P s -> P (h s x)) -> forall l s, P s -> P (fold_left h l s).
Proof. intros H. induction l as [|x l IH]; intros s I; [exact I|]. cbn. apply IH, H, I. Qed.
Lemma list_eqb_refl {A} (eqb : A -> A -> bool) : (forall a, eqb a a = true) -> forall l, list_eqb eqb l l = true.
Proof. intros H. induction l as [|x l IH]; [reflexivity|]. cbn. rewrite H. exact IH. Qed.
Lemma make_info_same ps manual data f : make_info name matches ps manual data = Ok f -> NoDup (map fst data) -> same_info f f = true /\ fi_patterns f = ps /\ fi_manual f = manual /\ fi_data f = data.
Proof.
  unfold make_info. destruct (negb _); [discriminate|]. intros H N. injection H as <-. set (m := fold_left _ data []). set (f0 := FInfo _ _ _ _ _).
  assert (Nm : NoDup (map fst m)).
  { unfold m. apply (fold_keep (fun m => NoDup (map fst m))); [|constructor]. intros s [o l] I. cbn [fst snd]. unfold map_nodes. apply (fold_keep (fun m => NoDup (map fst m))); [|exact I]. intros t n. apply keys_sset. }
  assert (X : let h := fold_left (fun f kv => set_cfg name matches f (fst kv) (snd kv)) data f0 in fi_data h = data /\ fi_map h = m /\ NoDup (map fst (fi_cfg h)) /\ fi_patterns h = ps /\ fi_manual h = manual).
  { cbv zeta. apply (fold_keep (fun h => fi_data h = data /\ fi_map h = m /\ NoDup (map fst (fi_cfg h)) /\ fi_patterns h = ps /\ fi_manual h = manual)).
    - intros h [o l] (A & B & C & D & G). cbn [fst snd]. unfold set_cfg. destruct (find _ _); [|auto]. cbn. repeat split; try assumption. apply keys_sset, C.
    - cbn. repeat split; try reflexivity. constructor. }
  cbv zeta in X. destruct X as (A & B & C & D & G). split; [|auto]. unfold same_info. rewrite A, B, !dict_same_self; try assumption; try reflexivity.
  - intro v. destruct v as [[i b]|]; [|reflexivity]. cbn. rewrite Nat.eqb_refl. destruct b; reflexivity.
  - apply String.eqb_refl.
  - apply list_eqb_refl, Nat.eqb_refl.
Qed.
Lemma foldM_keep {A S} (P : S -> Prop) (h : S -> A -> result S) : (forall s x s', h s x = Ok s' -> P s -> P s') -> forall l s s', foldM h l s = Ok s' -> P s -> P s'.
Proof. intros H. induction l as [|x l IH]; intros s s' E1 I; cbn in E1; [congruence|]. destruct (h s x) as [t|] eqn:T; cbn in E1; [|discriminate]. exact (IH t s' E1 (H s x t T I)). Qed.
Lemma filter_keys {V} (p : string * V -> bool) d : NoDup (map fst d) -> NoDup (map fst (filter p d)).
Proof. apply NoDup_map_filter. Qed.
Lemma generate_same g topo ps manual f : generate name matches g topo ps manual = Ok f -> same_info f f = true /\ fi_patterns f = ps /\ fi_manual f = manual /\ NoDup (map fst (fi_data f)).
Proof.
  intro H. assert (X : exists data, make_info name matches ps manual data = Ok f /\ NoDup (map fst data)).
  { unfold generate in H. destruct ps as [|p0 ps0]; [exists []; split; [exact H|constructor]|].
    destruct (foldM _ topo _) as [st|] eqn:E1; cbn [bind] in H; [|discriminate]. destruct (foldM _ manual _) as [data|] eqn:E2; cbn [bind] in H; [|discriminate]. exists data. split; [exact H|].
    assert (K1 : NoDup (map fst (fst st))).
    { revert E1. intro E1. eapply (foldM_keep (fun s => NoDup (map fst (fst s)))) in E1; [exact E1| |constructor]. clear. intros [d fu] n s' G N. unfold gen_step in G. destruct (mem n fu); [congruence|].
      destruct (is_valid_fusion _ _ _ _ _); [|congruence]. destruct (sin _ d); [discriminate|]. injection G as <-. cbn. apply keys_sset, N. }
    eapply (foldM_keep (fun d => NoDup (map fst d))) in E2; [exact E2| |exact K1]. clear. intros d names d' G N. unfold manual_step in G. destruct (mapM _ names) as [ns|]; cbn [bind] in G; [|discriminate].
    destruct (sin _ _); [discriminate|]. injection G as <-. apply keys_sset, filter_keys, N. }
  destruct X as (data & M & N). destruct (make_info_same ps manual data f M N) as (A & B & C & D). rewrite D. auto.
Qed.
Theorem fusing_generated g topo ps manual f : generate name matches g topo ps manual = Ok f -> apply_fusion name matches g topo f fused_of = fuse_all name matches g f fused_of.
Proof. intro H. destruct (generate_same g topo ps manual f H) as (A & B & C & _). unfold apply_fusion. rewrite B, C, H. cbn [bind]. rewrite A. reflexivity. Qed.
(* operations that differ from those of the graph are refused *)
Theorem fusing_needs_current g topo f r : apply_fusion name matches g topo f fused_of = Ok r -> NoDup (map fst (fi_data f)) ->
  exists f0, generate name matches g topo (fi_patterns f) (fi_manual f) = Ok f0 /\ forall op ns, In (op, ns) (fi_data f) <-> In (op, ns) (fi_data f0).
Proof.
  unfold apply_fusion. destruct (generate _ _ _ _ _ _) as [f0|] eqn:G; cbn [bind]; [|discriminate]. destruct (same_info f0 f) eqn:S; [|discriminate]. intros _ N. exists f0. split; [reflexivity|].
  destruct (generate_same _ _ _ _ _ G) as (_ & _ & _ & N0). unfold same_info in S. rewrite !andb_true_iff in S. destruct S as [[S _] _]. unfold dict_same in S. apply andb_true_iff in S. destruct S as [L S]. apply Nat.eqb_eq in L. rewrite forallb_forall in S.
  assert (LE : forall a b, list_eqb Nat.eqb a b = true -> a = b). { clear. induction a as [|x a IH]; destruct b as [|y b]; cbn; try discriminate; [reflexivity|]. rewrite andb_true_iff, Nat.eqb_eq. intros [-> H]. f_equal. apply IH, H. }
  assert (F0 : forall op ns, In (op, ns) (fi_data f0) -> In (op, ns) (fi_data f)).
  { intros op ns I. specialize (S (op, ns) I). cbn [fst snd] in S. destruct (sget op (fi_data f)) as [l|] eqn:Q; [|discriminate]. apply LE in S. subst l. apply sget_in, Q. }
  intros op ns. split; [|apply F0]. intro I.
  assert (K : In op (map fst (fi_data f0))).
  { assert (incl (map fst (fi_data f)) (map fst (fi_data f0))) as IN.
    { apply NoDup_length_incl; [exact N0|rewrite !map_length; lia|]. intros k J. apply in_map_iff in J. destruct J as ([o l] & <- & J). apply in_map, F0, J. }
    apply IN. change op with (fst (op, ns)). apply in_map, I. }
  apply in_map_iff in K. destruct K as ([o l] & Q & J). cbn in Q. subst o. pose proof (F0 _ _ J) as J'. apply (in_sget _ _ _ N) in I. apply (in_sget _ _ _ N) in J'. congruence.
Qed.
End FuseAll.
Print Assumptions fusing_group.
Print Assumptions fusing_group_exact.
Print Assumptions fusing_group_succeeds.
Print Assumptions fusing_preserves_outputs.
Print Assumptions fusing_all.
Print Assumptions fusing_generated.
Print Assumptions fusing_needs_current.

(* ---- example: A -> B -> C -> D with B, C fused ---- *)
Example line4_fusible : fusible line4 [1; 2] 9 /\ no_side_inputs line4 [1; 2].
Proof.
  split.
  - split.
    + exact line4_wf.
    + cbn. intuition lia.
    + repeat (constructor; [cbn; intuition lia|]); constructor.
    + cbn. lia.
    + cbn. intros n H. intuition.
    + split; [|exact I]. exists (Edge 1 2 0 0). split; reflexivity.
    + intros a H. injection H as <-. cbn. repeat constructor. intros [].
    + intros z r H. destruct r as [|x [|y [|? ?]]]; try discriminate. injection H as _ <-. cbn. split; [repeat constructor; intros []|]. split; [|split; [|lia]].
      * intros e I S. destruct I as [<-|[<-|[<-|[]]]]; cbn in *; try discriminate. intuition lia.
      * intros o [<-|[]] I. cbn in I. intuition lia.
    + cbn. intuition lia.
  - split; [|exact I]. exists (Edge 1 2 0 0). split; reflexivity.
Qed.
Example line4_result : fuse_group no_check line4 [1; 2] 9 = Ok (Graph [0; 3; 9] [Edge 0 9 0 0; Edge 9 3 0 0] [0] [(3, 0)]).
Proof. reflexivity. Qed.

(* ---- findings; the operations are those generated for the graph ---- *)
Definition fuse_generated (g : graph) (kinds : list nat) (p : list nat) : result graph :=
  let! f := generate nm (of_kind kinds) g [0; 1; 2; 3] [pt p] [] in
  let! r := apply_fusion nm (of_kind kinds) g [0; 1; 2; 3] f (fun _ => 9) in Ok (fst r).
(* an input of a later node of the group from outside is dropped (B and the addition C both read A) *)
Theorem side_input_lost_refuted : exists g e g', fuse_generated g [0; 1; 2; 3] [1; 2] = Ok g' /\ In e (g_edges g) /\ inside [1; 2] e = false /\
  ~ In (collapse [1; 2] 9 e) (g_edges g').
Proof.
  exists (Graph [0; 1; 2; 3] [Edge 0 1 0 0; Edge 0 2 0 1; Edge 1 2 0 0; Edge 2 3 0 0] [0] [(3, 0)]), (Edge 0 2 0 1). eexists. split; [vm_compute; reflexivity|].
  split; [right; left; reflexivity|]. split; [reflexivity|]. cbn. intros [H|[H|[]]]; discriminate.
Qed.
(* of two edges between the same nodes the attributes of the first are used twice *)
Theorem parallel_edges_confused_refuted : exists g g', fuse_generated g [0; 1; 2; 3] [1; 2] = Ok g' /\
  In (Edge 0 1 1 1) (g_edges g) /\ (forall e, In e (g_edges g') -> ti e = 0).
Proof.
  exists (Graph [0; 1; 2; 3] [Edge 0 1 0 0; Edge 0 1 1 1; Edge 1 2 0 0; Edge 2 3 0 0] [0] [(3, 0)]). eexists. split; [vm_compute; reflexivity|]. split; [right; left; reflexivity|].
  cbn. intros e [<-|[<-|[<-|[]]]]; reflexivity.
Qed.
(* an output listed twice is replaced once: the other names a node that is gone *)
Theorem repeated_output_dangles_refuted : exists g g', fuse_generated g [0; 1; 2; 3] [1; 2] = Ok g' /\ (exists o, In o (g_out g') /\ ~ In (fst o) (g_nodes g')).
Proof.
  exists (Graph [0; 1; 2; 3] [Edge 0 1 0 0; Edge 1 2 0 0; Edge 2 3 0 0] [0] [(2, 0); (2, 0)]). eexists. split; [vm_compute; reflexivity|]. exists (2, 0). split; [right; left; reflexivity|]. cbn. intuition lia.
Qed.
(* a model output taken from the first node of the group becomes the output of the group *)
Theorem inner_output_changed_refuted : exists g g', fuse_generated g [0; 1; 2; 3] [1; 2] = Ok g' /\ g_out g = [(1, 0); (2, 0)] /\ g_out g' = [(9, 0); (9, 0)].
Proof. exists (Graph [0; 1; 2; 3] [Edge 0 1 0 0; Edge 1 2 0 0; Edge 2 3 0 0] [0] [(1, 0); (2, 0)]). eexists. split; [vm_compute; reflexivity|]. split; reflexivity. Qed.
(* a group that begins with a model input cannot be fused *)
Theorem input_node_not_fused_refuted : fuse_generated line4 [0; 1; 2; 3] [0; 1] = Err E_critical.
Proof. vm_compute. reflexivity. Qed.
(* replacing a node that belongs to a fused operation is refused half way *)
Theorem fused_node_not_replaced_refuted : exists f, generate nm (of_kind [0; 1; 2; 3]) line4 [0; 1; 2; 3] [pt [1; 2]] [] = Ok f /\
  validate nm (of_kind [0; 1; 2; 3]) f line4 = Ok tt /\ replace_node (validate nm (of_kind [0; 1; 2; 3]) f) line4 1 9 = Err E_value.
Proof. eexists. split; [vm_compute; reflexivity|]. split; vm_compute; reflexivity. Qed.
Print Assumptions side_input_lost_refuted.
Print Assumptions parallel_edges_confused_refuted.
Print Assumptions repeated_output_dangles_refuted.
Print Assumptions inner_output_changed_refuted.
Print Assumptions input_node_not_fused_refuted.
Print Assumptions fused_node_not_replaced_refuted.
