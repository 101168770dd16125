(* DeadProofs.v -- the loops removing unused nodes. *)
From Coq Require Import Permutation Lia.
From Verif Require Import Base GraphModel GraphSpec GraphProofs GraphProps DeadModel DeadSpec.
Open Scope res_scope.
Local Open Scope nat_scope.
Notation nc := no_check.

Lemma degree_0 g n : degree g n = 0 <-> feeds_nothing g n.
Proof.
  unfold degree, feeds_nothing. split.
  - intros H e I Q. apply length_zero_iff_nil in H. assert (In e []) as K; [|destruct K]. rewrite <- H. apply filter_In. split; [exact I|apply Nat.eqb_eq, Q].
  - intro H. rewrite filter_nil; [reflexivity|]. intros e I. apply Nat.eqb_neq. exact (H e I).
Qed.
Lemma degree_pos g n : degree g n <> 0 -> exists e, In e (g_edges g) /\ src e = n.
Proof.
  unfold degree. destruct (filter _ _) as [|e r] eqn:E; [intro H; destruct (H eq_refl)|]. intros _. exists e.
  assert (In e (filter (fun e => Nat.eqb (src e) n) (g_edges g))) as K by (rewrite E; left; reflexivity). apply filter_In in K. destruct K as [K Q]. apply Nat.eqb_eq in Q. auto.
Qed.
Lemma filter_filter {A} (p q : A -> bool) l : filter p (filter q l) = filter (fun x => q x && p x) l.
Proof. induction l as [|x l IH]; [reflexivity|]. cbn [filter]. destruct (q x); cbn [filter andb]; [destruct (p x)|]; rewrite IH; reflexivity. Qed.
Lemma filter_ext_eq {A} (p q : A -> bool) l : (forall x, In x l -> p x = q x) -> filter p l = filter q l.
Proof. induction l as [|x l IH]; intro H; [reflexivity|]. cbn [filter]. rewrite (H x (or_introl eq_refl)), IH; [reflexivity|]. intros y I. apply H. right. exact I. Qed.

(* removing one edge into n leaves the edges not into n as they are *)
Lemma remove_edge_into g p n g' : remove_edge nc g p n = Ok g' ->
  exists e, src e = p /\ snk e = n /\ Permutation (g_edges g) (e :: g_edges g') /\ g' = set_edges g (g_edges g') /\
    filter (fun e => negb (Nat.eqb (snk e) n)) (g_edges g') = filter (fun e => negb (Nat.eqb (snk e) n)) (g_edges g).
Proof.
  intro H. apply remove_edge_ok in H. pose proof H as H0. unfold remove_edge_nx in H0. destruct (remove_first _ _) as [es|] eqn:E; [|discriminate]. injection H0 as <-.
  apply remove_first_spec in E. destruct E as (a & x & b & E1 & -> & P & _). apply is_between_spec in P. destruct P as [P1 P2]. exists x. split; [exact P1|]. split; [exact P2|].
  assert (g_edges g = rev b ++ x :: rev a) as Eg by (rewrite <- (rev_involutive (g_edges g)), E1, rev_app_distr; cbn [rev]; rewrite <- app_assoc; reflexivity).
  cbn [g_edges set_edges]. rewrite rev_app_distr. split; [rewrite Eg; symmetry; apply Permutation_middle|]. split; [reflexivity|].
  rewrite Eg, !filter_app. cbn [filter]. rewrite P2, Nat.eqb_refl. reflexivity.
Qed.

Lemma leave_parents n : forall ps g l, Permutation ps (map src (filter (fun e => Nat.eqb (snk e) n) (g_edges g))) ->
  exists new, let g' := set_edges g (filter (fun e => negb (Nat.eqb (snk e) n)) (g_edges g)) in
    foldM (leave_parent nc n) ps (g, l) = Ok (g', l ++ new) /\ NoDup new /\ forall q, In q new <-> In q ps /\ degree g' q = 0.
Proof.
  induction ps as [|p ps IH]; intros g l P.
  - exists []. cbn [foldM]. rewrite app_nil_r. split; [|split; [constructor|intro q; cbn; tauto]].
    apply Permutation_nil, map_eq_nil in P. rewrite filter_all; [destruct g; reflexivity|].
    intros e I. destruct (Nat.eqb (snk e) n) eqn:Q; [|reflexivity]. assert (In e []) as K; [|destruct K]. rewrite <- P. apply filter_In. auto.
  - assert (exists e, In e (g_edges g) /\ src e = p /\ snk e = n) as (e0 & I0 & S0 & T0).
    { assert (In p (map src (filter (fun e => Nat.eqb (snk e) n) (g_edges g)))) as K by (apply (Permutation_in _ P); left; reflexivity).
      apply in_map_iff in K. destruct K as (e & Q & K). apply filter_In in K. destruct K as [K T]. apply Nat.eqb_eq in T. exists e. auto. }
    destruct (remove_edge nc g p n) as [g1|] eqn:R.
    2: { exfalso. destruct (remove_edge_total g p n e0 I0 S0 T0) as [g1 R1]. unfold remove_edge in R. rewrite R1 in R. cbn in R. discriminate. }
    destruct (remove_edge_into g p n g1 R) as (e & Se & Te & Pe & Eg & F).
    assert (Permutation ps (map src (filter (fun e => Nat.eqb (snk e) n) (g_edges g1)))) as P1.
    { apply (filter_perm (fun e => Nat.eqb (snk e) n)) in Pe. cbn [filter] in Pe. rewrite Te, Nat.eqb_refl in Pe. apply (Permutation_map src) in Pe. cbn [map] in Pe. rewrite Se in Pe.
      apply (Permutation_cons_inv (a := p)). eapply Permutation_trans; [exact P|exact Pe]. }
    assert (degree g p = S (degree g1 p)) as Dp.
    { unfold degree. rewrite (filter_length_perm _ _ _ Pe). cbn [filter]. rewrite Se, Nat.eqb_refl. reflexivity. }
    set (l1 := if Nat.eqb (degree g p) 1 then l ++ [p] else l). destruct (IH g1 l1 P1) as (new & E & N & M). cbn zeta in E, M. rewrite F in E, M.
    replace (set_edges g1 (filter (fun e => negb (Nat.eqb (snk e) n)) (g_edges g))) with (set_edges g (filter (fun e => negb (Nat.eqb (snk e) n)) (g_edges g))) in E, M by (rewrite Eg; reflexivity).
    assert (leave_parent nc n (g, l) p = Ok (g1, l1)) as ST by (unfold leave_parent; cbn [fst snd]; rewrite R; reflexivity).
    cbn [foldM]. rewrite ST. cbn [bind]. rewrite E. set (g' := set_edges g (filter (fun e => negb (Nat.eqb (snk e) n)) (g_edges g))) in *.
    unfold l1. destruct (Nat.eqb_spec (degree g p) 1) as [Q|Q].
    + assert (degree g1 p = 0) as D1 by lia. rewrite degree_0 in D1. exists (p :: new). rewrite <- app_assoc. split; [reflexivity|].
      assert (~ In p ps) as Np. { intro K. apply (Permutation_in _ P1) in K. apply in_map_iff in K. destruct K as (x & Qx & K). apply filter_In in K. exact (D1 x (proj1 K) Qx). }
      assert (degree g' p = 0) as Dg.
      { apply degree_0. intros x I Qx. unfold g' in I. cbn [g_edges set_edges] in I. rewrite <- F in I. apply filter_In in I. exact (D1 x (proj1 I) Qx). }
      split; [constructor; [intro K; apply M in K; tauto|exact N]|]. intro q. cbn [In]. rewrite M. intuition (subst; auto).
    + exists new. split; [reflexivity|]. split; [exact N|]. intro q. rewrite M. cbn [In]. split; [tauto|]. intros [[<- | K] D]; [|tauto]. split; [|exact D].
      assert (degree g1 p <> 0) as D1 by lia. apply degree_pos in D1. destruct D1 as (x & I & Sx). apply (Permutation_in _ (Permutation_sym P1)), in_map_iff. exists x. split; [exact Sx|]. apply filter_In. split; [exact I|].
      destruct (Nat.eqb (snk x) n) eqn:Tx; [reflexivity|exfalso]. rewrite degree_0 in D. apply (D x); [|exact Sx]. unfold g'. cbn [g_edges set_edges]. rewrite <- F. apply filter_In. split; [exact I|]. rewrite Tx. reflexivity.
Qed.

Lemma in_split_first (n : nat) l : In n l -> exists a b, l = a ++ n :: b /\ ~ In n a.
Proof.
  induction l as [|x l IH]; [intros []|]. intro I. destruct (Nat.eq_dec x n) as [->|Q]; [exists [], l; split; [reflexivity|intros []]|].
  destruct I as [I|I]; [congruence|]. destruct (IH I) as (a & b & -> & N). exists (x :: a), b. split; [reflexivity|]. intros [K|K]; [congruence|contradiction].
Qed.

Section Loops.
Variable g0 : graph.
Hypothesis W0 : wf g0.
Notation outs := (map fst (g_out g0)).
(* the state of the algorithm: the present graph and the nodes still to be removed *)
Record inv (keep : nat -> bool) (g : graph) (W : list nat) : Prop := {
  i_part : g = part keep g0;
  i_gone : forall n, In n (g_nodes g0) -> keep n = false -> ~ In n outs /\ ~ In n (g_in g0) /\ forall e, In e (g_edges g0) -> src e = n -> keep (snk e) = false;
  i_todo : forall n, In n W -> In n (g_nodes g) /\ degree g n = 0 /\ (In n outs -> ~ feeds_nothing g0 n);
  i_all : forall n, In n (g_nodes g) -> degree g n = 0 -> In n W \/ (In n outs /\ feeds_nothing g0 n);
  i_once : NoDup W
}.
Lemma part_edge keep e : In e (g_edges (part keep g0)) <-> In e (g_edges g0) /\ keep (src e) = true /\ keep (snk e) = true.
Proof. cbn. rewrite filter_In, andb_true_iff. tauto. Qed.
Lemma part_node keep n : In n (g_nodes (part keep g0)) <-> In n (g_nodes g0) /\ keep n = true.
Proof. cbn. apply filter_In. Qed.
Lemma part_wf keep : wf (part keep g0).
Proof.
  constructor; [apply NoDup_filter, W0|]. intros e I. apply part_edge in I. destruct I as (I & A & B). rewrite !part_node. destruct (wf_ends _ W0 e I). auto.
Qed.
Lemma gone_unused keep g W : inv keep g W -> forall n, used g0 n -> In n (g_nodes g0) -> keep n = true.
Proof.
  intros H n U. induction U as [n i I|e I U IH]; intro N.
  - destruct (keep n) eqn:K; [reflexivity|exfalso]. apply (proj1 (i_gone _ _ _ H n N K)). apply (in_map fst) in I. exact I.
  - destruct (keep (src e)) eqn:K; [reflexivity|exfalso]. destruct (i_gone _ _ _ H _ N K) as (_ & _ & Q). specialize (Q e I eq_refl). rewrite IH in Q; [discriminate|]. apply (wf_ends _ W0 e I).
Qed.
(* why the removal may stop: an input is not used, or an output only feeds nodes which are not used *)
Definition blocked : Prop := exists n, In n (g_nodes g0) /\
  ((In n (g_in g0) /\ ~ used g0 n) \/ (In n outs /\ ~ feeds_nothing g0 n /\ forall e, In e (g_edges g0) -> src e = n -> ~ used g0 (snk e))).

Lemma next_gone keep g W n : inv keep g W -> In n (g_nodes g) -> degree g n = 0 -> forall e, In e (g_edges g0) -> src e = n -> keep (snk e) = false.
Proof.
  intros H N D e I Q. destruct (keep (snk e)) eqn:K; [exfalso|reflexivity]. rewrite (i_part _ _ _ H) in *. apply part_node in N. rewrite degree_0 in D. apply (D e); [|exact Q].
  apply part_edge. rewrite Q, K. tauto.
Qed.

Lemma one_node keep g l R n : inv keep g (l ++ R) -> In n l ->
  (exists keep' g' l', remove_dead nc (g, l) n = Ok (g', l') /\ inv keep' g' (l' ++ R) /\ length (g_nodes g) = S (length (g_nodes g'))) \/
  (remove_dead nc (g, l) n = Err E_critical /\ blocked).
Proof.
  intros H I. destruct (i_todo _ _ _ H n (in_or_app _ _ _ (or_introl I))) as (N & D & O).
  pose proof (next_gone keep g (l ++ R) n H N D) as NG.
  assert (wf g) as Wg by (rewrite (i_part _ _ _ H); apply part_wf).
  assert (In n (g_nodes g0) /\ keep n = true) as [N0 Kn] by (rewrite (i_part _ _ _ H) in N; apply part_node, N).
  unfold remove_dead. cbn [fst].
  destruct (leave_parents n (map src (in_edges g n)) g l) as (new & E & Nn & Mn); [apply Permutation_map, in_edges_perm|]. cbn zeta in E, Mn. rewrite E. cbn [bind fst snd]. clear E.
  set (g1 := set_edges g _) in *.
  assert (g_out g1 = g_out g0 /\ g_in g1 = g_in g0) as [Go Gi] by (unfold g1; rewrite (i_part _ _ _ H); split; reflexivity).
  assert (forall m, used g0 m -> In m (g_nodes g0) -> keep m = true) as GU by (intros; eapply gone_unused; eassumption).
  unfold remove_node. rewrite Go.
  destruct (mem n outs) eqn:Mo.
  { right. split; [reflexivity|]. apply mem_spec in Mo. exists n. split; [exact N0|]. right. split; [exact Mo|]. split; [exact (O Mo)|].
    intros e Ie Se U. pose proof (GU _ U (proj2 (wf_ends _ W0 e Ie))) as Q. rewrite (NG e Ie Se) in Q. discriminate. }
  cbn [bind]. rewrite Gi. destruct (mem n (g_in g0)) eqn:Mi.
  { right. split; [reflexivity|]. apply mem_spec in Mi. exists n. split; [exact N0|]. left. split; [exact Mi|]. intro U. inversion U; subst.
    - apply mem_false in Mo. apply Mo. eapply (in_map fst) in H0. exact H0.
    - pose proof (GU _ H1 (proj2 (wf_ends _ W0 e H0))) as Q. rewrite (NG e H0 eq_refl) in Q. discriminate. }
  cbn [bind]. left. apply mem_false in Mo, Mi.
  assert (in_edges g1 n = []) as E1.
  { destruct (in_edges g1 n) as [|e r] eqn:E; [reflexivity|exfalso]. assert (In e (in_edges g1 n)) as K by (rewrite E; left; reflexivity). apply in_edges_in in K. destruct K as [K Q].
    unfold g1 in K. cbn [g_edges set_edges] in K. apply filter_In in K. rewrite Q, Nat.eqb_refl in K. destruct K. discriminate. }
  assert (out_edges g1 n = []) as E2.
  { destruct (out_edges g1 n) as [|e r] eqn:E; [reflexivity|exfalso]. assert (In e (out_edges g1 n)) as K by (rewrite E; left; reflexivity). apply out_edges_in in K. destruct K as [K Q].
    unfold g1 in K. cbn [g_edges set_edges] in K. apply filter_In in K. rewrite degree_0 in D. exact (D e (proj1 K) Q). }
  rewrite E1, E2. unfold remove_node_nx. replace (mem n (g_nodes g1)) with true by (symmetry; apply mem_spec; exact N). cbn [bind checked].
  destruct (in_split_first n l I) as (a & b & El & Na).
  replace (remove_first (Nat.eqb n) (l ++ new)) with (Some (a ++ b ++ new)).
  2: { rewrite El, <- app_assoc. cbn [app]. clear - Na. induction a as [|x a IH]; cbn [app remove_first]; [rewrite Nat.eqb_refl; reflexivity|].
       destruct (Nat.eqb_spec n x) as [->|Q]; [destruct Na; left; reflexivity|]. rewrite <- IH; [reflexivity|]. intro K. apply Na. right. exact K. }
  set (keep' := fun m => keep m && negb (Nat.eqb n m)).
  set (g2 := Graph _ _ _ _). exists keep', g2, (a ++ b ++ new). split; [reflexivity|].
  assert (g2 = part keep' g0) as Eg2.
  { unfold g2, part, keep'. rewrite Go, Gi. unfold g1. cbn [g_nodes g_edges set_edges]. rewrite (i_part _ _ _ H). cbn [g_nodes g_edges part]. rewrite !filter_filter. f_equal.
    apply filter_ext_eq. intros e _. rewrite (Nat.eqb_sym (snk e) n). destruct (keep (src e)), (keep (snk e)), (Nat.eqb n (src e)), (Nat.eqb n (snk e)); reflexivity. }
  assert (forall m, keep' m = true <-> keep m = true /\ m <> n) as Kp.
  { intro m. unfold keep'. destruct (Nat.eqb_spec n m); destruct (keep m); cbn; intuition congruence. }
  assert (forall e, In e (g_edges g2) <-> In e (g_edges g) /\ src e <> n /\ snk e <> n) as Ed2.
  { intro e. rewrite Eg2, (i_part _ _ _ H), !part_edge, !Kp. tauto. }
  assert (forall q, In q new -> In q (g_nodes g) /\ q <> n /\ degree g2 q = 0 /\ exists e, In e (g_edges g) /\ src e = q /\ snk e = n) as New.
  { intros q K. apply Mn in K. destruct K as [K Dq]. apply in_map_iff in K. destruct K as (e & Qe & K). apply in_edges_in in K. destruct K as [K Te].
    assert (q <> n) as Qn by (intros ->; rewrite degree_0 in D; exact (D e K Qe)). split; [rewrite <- Qe; apply (wf_ends _ Wg e K)|]. split; [exact Qn|]. split; [|exists e; auto].
    apply degree_0. rewrite degree_0 in Dq. intros x Ix Sx. apply Ed2 in Ix. apply (Dq x); [|exact Sx]. unfold g1. cbn [g_edges set_edges]. apply filter_In. split; [apply Ix|]. destruct (Nat.eqb_spec (snk x) n); [tauto|reflexivity]. }
  split; [|].
  2: { rewrite Eg2, (i_part _ _ _ H). cbn [g_nodes part]. clear - W0 N0 Kn. unfold keep'. pose proof (wf_nodes _ W0) as ND. revert ND N0. induction (g_nodes g0) as [|x r IH]; [intros _ []|]; intros ND [->|N0]; inversion ND; subst; cbn [filter].
       - rewrite Kn, Nat.eqb_refl. cbn [andb negb length]. f_equal. f_equal. apply filter_ext_eq. intros y Iy. destruct (Nat.eqb_spec n y) as [->|]; [contradiction|]. rewrite andb_true_r. reflexivity.
       - assert (Nat.eqb n x = false) as -> by (apply Nat.eqb_neq; intros ->; contradiction). rewrite andb_true_r. destruct (keep x); cbn [length]; rewrite (IH H2 N0); reflexivity. }
  assert (forall q, In q ((a ++ b ++ new) ++ R) -> (In q (l ++ R) /\ q <> n) \/ In q new) as Todo.
  { pose proof (i_once _ _ _ H) as ND. rewrite El in ND |- *. rewrite <- app_assoc in ND. cbn [app] in ND. apply NoDup_remove_2 in ND.
    intros q K. rewrite !in_app_iff in *. cbn [In]. destruct K as [[K|[K|K]]|K]; [left|left|right; exact K|left]; (split; [tauto|intros ->; apply ND; tauto]). }
  constructor.
  - exact Eg2.
  - intros m Nm Km. destruct (Nat.eq_dec m n) as [->|Q].
    + split; [exact Mo|]. split; [exact Mi|]. intros e Ie Se. unfold keep'. rewrite (NG e Ie Se). reflexivity.
    + assert (keep m = false) as Km' by (destruct (keep m) eqn:K; [|reflexivity]; rewrite (proj2 (Kp m) (conj K Q)) in Km; discriminate).
      destruct (i_gone _ _ _ H m Nm Km') as (A & B & C). split; [exact A|]. split; [exact B|]. intros e Ie Se. unfold keep'. rewrite (C e Ie Se). reflexivity.
  - intros q K. apply Todo in K. destruct K as [[K Q]|K].
    + destruct (i_todo _ _ _ H q K) as (A & B & C). split; [|split; [|exact C]].
      * rewrite Eg2. rewrite (i_part _ _ _ H) in A. rewrite part_node in *. rewrite Kp. tauto.
      * apply degree_0. rewrite degree_0 in B. intros e Ie. apply B. apply Ed2, Ie.
    + destruct (New q K) as (A & B & C & e & Ie & Se & _). split; [|split; [exact C|]].
      * rewrite Eg2. rewrite (i_part _ _ _ H) in A. rewrite part_node in *. rewrite Kp. tauto.
      * intros _ F. apply (F e); [|exact Se]. rewrite (i_part _ _ _ H) in Ie. apply part_edge in Ie. apply Ie.
  - intros m Nm Dm. rewrite Eg2, part_node, Kp in Nm. destruct Nm as (Nm & Km & Q).
    assert (In m (g_nodes g)) as Ng by (rewrite (i_part _ _ _ H); apply part_node; auto).
    assert (In m new \/ In m (l ++ R) \/ (In m outs /\ feeds_nothing g0 m)) as K.
    { destruct (Nat.eq_dec (degree g m) 0) as [Z|Z]; [right; exact (i_all _ _ _ H m Ng Z)|left]. apply degree_pos in Z. destruct Z as (e & Ie & Se).
      rewrite degree_0 in Dm. assert (forall x, In x (g_edges g) -> src x = m -> snk x = n) as All.
      { intros x Ix Sx. destruct (Nat.eq_dec (snk x) n); [assumption|exfalso]. apply (Dm x); [|exact Sx]. apply Ed2. rewrite Sx. auto. }
      apply Mn. split; [apply in_map_iff; exists e; split; [exact Se|]; apply in_edges_in; split; [exact Ie|apply All; assumption]|].
      apply degree_0. intros x Ix Sx. unfold g1 in Ix. cbn [g_edges set_edges] in Ix. apply filter_In in Ix. destruct Ix as [Ix T]. rewrite (All x Ix Sx), Nat.eqb_refl in T. discriminate. }
    destruct K as [K|[K|K]]; [left|left|right; exact K].
    + rewrite !in_app_iff. tauto.
    + rewrite El in K. rewrite !in_app_iff in *. cbn [In] in K. destruct K as [[K|[K|K]]|K]; [tauto|congruence|tauto|tauto].
  - pose proof (i_once _ _ _ H) as ND. rewrite El in ND. rewrite <- app_assoc in ND. cbn [app] in ND. apply NoDup_remove_1 in ND.
    apply (Permutation_NoDup (l := new ++ (a ++ b) ++ R)).
    + rewrite <- !app_assoc. rewrite (app_assoc a b), (app_assoc a b). eapply Permutation_trans; [|apply Permutation_app_comm]. rewrite <- !app_assoc.
      apply Permutation_trans with ((new ++ a ++ b) ++ R); [rewrite <- !app_assoc; reflexivity|]. apply Permutation_trans with (((a ++ b) ++ new) ++ R); [apply Permutation_app_tail, Permutation_app_comm|].
      rewrite <- !app_assoc. apply Permutation_sym. apply Permutation_trans with (((new ++ R) ++ a) ++ b); [rewrite <- !app_assoc; reflexivity|]. rewrite <- app_assoc. eapply Permutation_trans; [apply Permutation_app_comm|]. rewrite <- !app_assoc. reflexivity.
    + clear - Nn ND New H El. rewrite app_assoc in ND. revert Nn New. induction new as [|q r IH]; intros Nn New; [exact ND|]. cbn [app]. inversion Nn; subst. constructor.
      * intro K. apply in_app_or in K. destruct K as [K|K]; [contradiction|]. destruct (New q (or_introl eq_refl)) as (_ & _ & _ & e & Ie & Se & _).
        assert (In q ((a ++ n :: b) ++ R)) as K' by (rewrite !in_app_iff in *; cbn [In]; tauto). destruct (i_todo _ _ _ H q K') as (_ & Z & _). rewrite degree_0 in Z. exact (Z e Ie Se).
      * apply IH; [assumption|]. intros x Ix. apply New. right. exact Ix.
Qed.

Lemma loop_step fuel k g l : l <> [] -> dead_loop nc (S fuel) k (g, l) =
  match nth_error l k with Some n => let! st := remove_dead nc (g, l) n in dead_loop nc fuel (S k) st | None => dead_loop nc fuel 0 (g, l) end.
Proof. destruct l; [congruence|reflexivity]. Qed.
Lemma loop_runs : forall fuel k keep g l R, inv keep g (l ++ R) -> 2 * length (g_nodes g) + (if Nat.eqb k 0 then 0 else 1) <= fuel ->
  (exists keep' g', dead_loop nc fuel k (g, l) = Ok g' /\ inv keep' g' R) \/ (dead_loop nc fuel k (g, l) = Err E_critical /\ blocked).
Proof.
  induction fuel as [|fuel IH]; intros k keep g l R H F.
  - destruct l as [|n l]; [left; exists keep, g; split; [reflexivity|exact H]|exfalso].
    destruct (i_todo _ _ _ H n (or_introl eq_refl)) as (N & _). destruct (g_nodes g); [destruct N|cbn in F; lia].
  - destruct l as [|n0 l0] eqn:El; [left; exists keep, g; split; [reflexivity|exact H]|]. rewrite <- El in *. rewrite loop_step by (rewrite El; discriminate).
    destruct (nth_error l k) as [n|] eqn:E.
    + destruct (one_node keep g l R n H (nth_error_In _ _ E)) as [(keep' & g' & l' & Q & H' & L)|[Q B]]; rewrite Q; cbn [bind]; [|right; split; [reflexivity|exact B]].
      apply (IH (S k) keep' g' l' R H'). cbn [Nat.eqb]. lia.
    + apply (IH 0 keep g l R H). cbn [Nat.eqb]. destruct (Nat.eqb_spec k 0) as [->|Q]; [rewrite El in E; discriminate|lia].
Qed.
Lemma all_loops : forall R keep g, inv keep g R ->
  (exists keep' g', foldM (fun g n => dead_loop nc (2 * length (g_nodes g)) 0 (g, [n])) R g = Ok g' /\ inv keep' g' []) \/
  (foldM (fun g n => dead_loop nc (2 * length (g_nodes g)) 0 (g, [n])) R g = Err E_critical /\ blocked).
Proof.
  induction R as [|n R IH]; intros keep g H; [left; exists keep, g; split; [reflexivity|exact H]|]. cbn [foldM].
  destruct (loop_runs (2 * length (g_nodes g)) 0 keep g [n] R H) as [(keep' & g' & Q & H')|[Q B]]; [rewrite Nat.eqb_refl; lia| |].
  - rewrite Q. cbn [bind]. exact (IH keep' g' H').
  - rewrite Q. right. split; [reflexivity|exact B].
Qed.
Lemma broken_runs : (exists keep g', remove_broken_nodes nc g0 = Ok g' /\ inv keep g' []) \/ (remove_broken_nodes nc g0 = Err E_critical /\ blocked).
Proof.
  unfold remove_broken_nodes. apply (all_loops _ (fun _ => true)). constructor.
  - unfold part. rewrite !filter_all by reflexivity. destruct g0. reflexivity.
  - discriminate.
  - intros n I. apply filter_In in I. destruct I as [I Q]. apply andb_prop in Q. destruct Q as [Q M]. split; [exact I|]. split; [apply Nat.eqb_eq, Q|]. intro O. apply mem_spec in O. rewrite O in M. discriminate.
  - intros n I D. destruct (mem n outs) eqn:M.
    + right. split; [apply mem_spec, M|apply degree_0, D].
    + left. apply filter_In. split; [exact I|]. rewrite D, M. reflexivity.
  - apply NoDup_filter, W0.
Qed.
Lemma kept_used keep g : acyclic g0 -> inv keep g [] -> forall n, In n (g_nodes g0) -> keep n = true -> used g0 n.
Proof.
  intros (rank & A) H.
  assert (exists M, forall n, In n (g_nodes g0) -> rank n < M) as (M & HM).
  { clear. induction (g_nodes g0) as [|x l (M & IH)]; [exists 0; intros n []|]. exists (S (Nat.max (rank x) M)). intros n [<- | I]; [lia|]. specialize (IH n I). lia. }
  assert (forall d n, M - rank n <= d -> In n (g_nodes g0) -> keep n = true -> used g0 n) as K; [|intros n; apply (K (M - rank n)); lia].
  induction d as [|d IH]; intros n Hd N K; [specialize (HM n N); lia|].
  assert (In n (g_nodes g)) as Ng by (rewrite (i_part _ _ _ H); apply part_node; auto).
  destruct (Nat.eq_dec (degree g n) 0) as [Z|Z].
  - destruct (i_all _ _ _ H n Ng Z) as [[]|[O _]]. apply in_map_iff in O. destruct O as ([m i] & Q & O). cbn in Q. subst m. exact (used_output _ n i O).
  - apply degree_pos in Z. destruct Z as (e & I & S). rewrite (i_part _ _ _ H) in I. apply part_edge in I. destruct I as (I & _ & K'). rewrite <- S. apply used_by; [exact I|].
    specialize (A e I). rewrite S in A. apply IH; [|apply (wf_ends _ W0 e I)|exact K']. specialize (HM n N). lia.
Qed.
Lemma not_blocked keep g : acyclic g0 -> inv keep g [] -> blocked -> False.
Proof.
  intros A H (n & N & [(I & U)|(O & F & U)]).
  - apply U. apply (kept_used keep g A H n N). destruct (keep n) eqn:K; [reflexivity|]. destruct (i_gone _ _ _ H n N K) as (_ & C & _). contradiction.
  - assert (keep n = true) as K by (destruct (keep n) eqn:K; [reflexivity|]; destruct (i_gone _ _ _ H n N K) as (C & _); contradiction).
    assert (In n (g_nodes g)) as Ng by (rewrite (i_part _ _ _ H); apply part_node; auto).
    assert (degree g n = 0) as Z. { apply degree_0. intros e I S. rewrite (i_part _ _ _ H) in I. apply part_edge in I. destruct I as (I & _ & K'). apply (U e I S), (kept_used keep g A H); [apply (wf_ends _ W0 e I)|exact K']. }
    destruct (i_all _ _ _ H n Ng Z) as [[]|[_ C]]. contradiction.
Qed.
End Loops.
