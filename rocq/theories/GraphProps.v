(* GraphProps.v -- C32: the primitives that edit a graph move exactly the intended edges.
   [validate] is the check that runs after every change; a theorem about a result that is returned holds
   for every check, and [no_check] is the check of a graph without fused operations. *)
From Coq Require Import Permutation Sorted Lia.
From Verif Require Import Base GraphModel GraphSpec GraphProofs.
Open Scope res_scope.
Local Open Scope nat_scope.

Definition no_check (g : graph) : result unit := Ok tt.
Definition same_interface (g g' : graph) : Prop := g_in g' = g_in g /\ g_out g' = g_out g.

Theorem reconnect_out_moves validate g c n g' : wf g -> reconnect_out_edges validate g c n = Ok g' ->
  Permutation (g_edges g') (map (resrc c n) (g_edges g)) /\ same_interface g g' /\ wf g' /\
  (forall m, In m (g_nodes g') <-> In m (g_nodes g) \/ (m = n /\ exists e, In e (g_edges g) /\ src e = c)).
Proof. intros W H. destruct (reconnect_out_spec validate g c n g' W H) as (A & B & C & D). split; [exact A|]. split; [split; assumption|exact D]. Qed.
Print Assumptions reconnect_out_moves.
Theorem reconnect_in_moves validate g c n g' : wf g -> reconnect_in_edges validate g c n = Ok g' ->
  Permutation (g_edges g') (map (resnk c n) (g_edges g)) /\ same_interface g g' /\ wf g' /\
  (forall m, In m (g_nodes g') <-> In m (g_nodes g) \/ (m = n /\ exists e, In e (g_edges g) /\ snk e = c)).
Proof. intros W H. destruct (reconnect_in_spec validate g c n g' W H) as (A & B & C & D). split; [exact A|]. split; [split; assumption|exact D]. Qed.
Print Assumptions reconnect_in_moves.
Theorem reconnect_never_fails g c n : (exists g', reconnect_out_edges no_check g c n = Ok g') /\ (exists g', reconnect_in_edges no_check g c n = Ok g').
Proof. split; [apply reconnect_out_total|apply reconnect_in_total]; reflexivity. Qed.
Print Assumptions reconnect_never_fails.

Lemma no_in g n : in_edges g n = [] <-> forall e, In e (g_edges g) -> snk e <> n.
Proof.
  split.
  - intros H e I E. assert (In e (in_edges g n)) as J by (apply in_edges_in; split; assumption). rewrite H in J. destruct J.
  - intro H. destruct (in_edges g n) as [|e l] eqn:E; [reflexivity|]. exfalso. assert (In e (in_edges g n)) as J by (rewrite E; left; reflexivity). apply in_edges_in in J. apply (H e); apply J.
Qed.
Lemma no_out g n : out_edges g n = [] <-> forall e, In e (g_edges g) -> src e <> n.
Proof.
  split.
  - intros H e I E. assert (In e (out_edges g n)) as J by (apply out_edges_in; split; assumption). rewrite H in J. destruct J.
  - intro H. destruct (out_edges g n) as [|e l] eqn:E; [reflexivity|]. exfalso. assert (In e (out_edges g n)) as J by (rewrite E; left; reflexivity). apply out_edges_in in J. apply (H e); apply J.
Qed.
(* the node is one of the graph, no edge is left at it, and new inputs (outputs) are given if it was one *)
Definition removable (g : graph) (n : nat) (ins : option (list nat)) (outs : option (list (nat * nat))) : Prop :=
  In n (g_nodes g) /\ (forall e, In e (g_edges g) -> src e <> n /\ snk e <> n) /\
  (In n (map fst (g_out g)) -> outs <> None) /\ (In n (g_in g) -> ins <> None).
Definition removed (g : graph) (n : nat) (ins : option (list nat)) (outs : option (list (nat * nat))) (g' : graph) : Prop :=
  g_edges g' = g_edges g /\ g_nodes g' = filter (fun m => negb (Nat.eqb n m)) (g_nodes g) /\
  (if mem n (g_in g) then ins = Some (g_in g') else g_in g' = g_in g) /\
  (if mem n (map fst (g_out g)) then outs = Some (g_out g') else g_out g' = g_out g).
Theorem remove_node_removes validate g n ins outs g' : remove_node validate g n ins outs = Ok g' -> removable g n ins outs /\ removed g n ins outs g'.
Proof.
  intro H. unfold remove_node in H.
  destruct (if mem n (map fst (g_out g)) then match outs with None => Err E_critical | Some l => set_outputs validate g l end else Ok g) as [g1|] eqn:E1; cbn [bind] in H; [|discriminate].
  destruct (if mem n (g_in g1) then match ins with None => Err E_critical | Some l => set_inputs validate g1 l end else Ok g1) as [g2|] eqn:E2; cbn [bind] in H; [|discriminate].
  assert (F1 : g_nodes g1 = g_nodes g /\ g_edges g1 = g_edges g /\ g_in g1 = g_in g /\ (if mem n (map fst (g_out g)) then outs = Some (g_out g1) else g_out g1 = g_out g)).
  { destruct (mem n (map fst (g_out g))); [|inversion E1; subst; auto]. destruct outs as [l|]; [|discriminate]. apply checked_ok in E1. subst g1. auto. }
  destruct F1 as (N1 & D1 & I1 & O1).
  assert (F2 : g_nodes g2 = g_nodes g1 /\ g_edges g2 = g_edges g1 /\ g_out g2 = g_out g1 /\ (if mem n (g_in g1) then ins = Some (g_in g2) else g_in g2 = g_in g1)).
  { destruct (mem n (g_in g1)); [|inversion E2; subst; auto]. destruct ins as [l|]; [|discriminate]. apply checked_ok in E2. subst g2. auto. }
  destruct F2 as (N2 & D2 & O2 & I2). rewrite I1 in I2.
  destruct (in_edges g2 n) as [|] eqn:Ei; [|discriminate]. destruct (out_edges g2 n) as [|] eqn:Eo; [|discriminate].
  rewrite no_in, D2, D1 in Ei. rewrite no_out, D2, D1 in Eo. unfold remove_node_nx in H. destruct (mem n (g_nodes g2)) eqn:M; cbn [bind] in H; [|discriminate]. apply checked_ok in H.
  apply mem_spec in M. rewrite N2, N1 in M. split.
  - split; [exact M|]. split; [intros e I; split; [apply Eo|apply Ei]; exact I|]. split; intros I.
    + apply mem_spec in I. rewrite I in O1. congruence.
    + apply mem_spec in I. rewrite I in I2. congruence.
  - subst g'. split; [|split; [|split]]; cbn.
    + rewrite D2, D1. apply filter_all. intros e I. specialize (Ei e I). specialize (Eo e I). destruct (Nat.eqb_spec n (src e)); [congruence|]. destruct (Nat.eqb_spec n (snk e)); [congruence|]. reflexivity.
    + rewrite N2, N1. reflexivity.
    + exact I2.
    + rewrite O2. exact O1.
Qed.
Print Assumptions remove_node_removes.
Theorem remove_node_succeeds g n ins outs : removable g n ins outs -> exists g', remove_node no_check g n ins outs = Ok g'.
Proof.
  intros (A & B & C & D). unfold remove_node.
  assert (E1 : exists g1, (if mem n (map fst (g_out g)) then match outs with None => Err E_critical | Some l => set_outputs no_check g l end else Ok g) = Ok g1 /\ g_nodes g1 = g_nodes g /\ g_edges g1 = g_edges g /\ g_in g1 = g_in g).
  { destruct (mem n (map fst (g_out g))) eqn:M; [|exists g; auto]. apply mem_spec in M. specialize (C M). destruct outs as [l|]; [|congruence]. eexists. split; [reflexivity|]. auto. }
  destruct E1 as (g1 & -> & N1 & D1 & I1). cbn [bind].
  assert (E2 : exists g2, (if mem n (g_in g1) then match ins with None => Err E_critical | Some l => set_inputs no_check g1 l end else Ok g1) = Ok g2 /\ g_nodes g2 = g_nodes g /\ g_edges g2 = g_edges g).
  { rewrite I1. destruct (mem n (g_in g)) eqn:M; [|exists g1; auto]. apply mem_spec in M. specialize (D M). destruct ins as [l|]; [|congruence]. eexists. split; [reflexivity|]. auto. }
  destruct E2 as (g2 & -> & N2 & D2). cbn [bind].
  assert (in_edges g2 n = []) as -> by (apply no_in; rewrite D2; intros e I; apply (B e I)). assert (out_edges g2 n = []) as -> by (apply no_out; rewrite D2; intros e I; apply (B e I)).
  unfold remove_node_nx. assert (mem n (g_nodes g2) = true) as -> by (apply mem_spec; rewrite N2; exact A). eexists. reflexivity.
Qed.
Print Assumptions remove_node_succeeds.

Theorem replace_output_renames validate g c n g' : replace_output_node validate g c n = Ok g' -> g' = set_out g (map (reout c n) (g_out g)).
Proof.
  unfold replace_output_node. destruct (set_outputs validate g _) as [g1|] eqn:E; cbn [bind]; [|discriminate]. intro H. apply checked_ok in H. apply checked_ok in E. subst. f_equal.
  apply map_ext. intros [m k]. unfold reout, rename. cbn. rewrite (Nat.eqb_sym m c). destruct (Nat.eqb c m); reflexivity.
Qed.
Print Assumptions replace_output_renames.
Theorem replace_input_renames validate g c n g' : NoDup (g_in g) -> replace_input_node validate g c n = Ok g' ->
  g' = set_in g (g_in g') /\ Permutation (g_in g') (map (rename c n) (g_in g)).
Proof.
  intros ND H. unfold replace_input_node in H. destruct (set_inputs validate g _) as [g1|] eqn:E; cbn [bind] in H; [|discriminate]. apply checked_ok in H. apply checked_ok in E. subst. split; [reflexivity|]. cbn.
  assert (R : forall l, ~ In c l -> map (rename c n) l = l).
  { intros l NI. rewrite (map_ext_in _ (fun x => x)), map_id; [reflexivity|]. intros x I. unfold rename. destruct (Nat.eqb_spec x c); [congruence|reflexivity]. }
  destruct (remove_first (Nat.eqb c) (g_in g)) as [l|] eqn:F.
  - apply remove_first_spec in F. destruct F as (a & x & b & E & -> & P & _). apply Nat.eqb_eq in P. subst x. rewrite E in ND |- *. apply NoDup_remove_2 in ND. rewrite in_app_iff in ND.
    rewrite map_app. cbn [map]. rewrite (R a), (R b) by tauto. unfold rename at 1. rewrite Nat.eqb_refl. rewrite <- Permutation_cons_append. apply Permutation_middle.
  - rewrite remove_first_none in F. rewrite R; [reflexivity|]. intro I. specialize (F c I). rewrite Nat.eqb_refl in F. discriminate.
Qed.
Print Assumptions replace_input_renames.

Lemma rename_other c n m : m <> c -> rename c n m = m.
Proof. intro N. unfold rename. destruct (Nat.eqb_spec m c); [contradiction|reflexivity]. Qed.
Theorem replace_node_replaces validate g c n g' : wf g -> NoDup (g_in g) -> c <> n -> replace_node validate g c n = Ok g' ->
  Permutation (g_edges g') (map (fun e => Edge (rename c n (src e)) (rename c n (snk e)) (si e) (ti e)) (g_edges g)) /\
  (forall m, In m (g_nodes g') <-> (In m (g_nodes g) /\ m <> c) \/ m = n) /\ wf g' /\
  g_out g' = map (reout c n) (g_out g) /\ Permutation (g_in g') (map (rename c n) (g_in g)).
Proof.
  intros W ND cn H. unfold replace_node in H. destruct (add_node_rest g n) as (A1 & A2 & A3). pose proof (add_node_wf g n W) as W0.
  destruct (reconnect_out_edges validate (add_node_nx g n) c n) as [g1|] eqn:E1; cbn [bind] in H; [|discriminate]. destruct (reconnect_out_spec validate _ _ _ _ W0 E1) as (P1 & I1 & O1 & W1 & M1).
  destruct (reconnect_in_edges validate g1 c n) as [g2|] eqn:E2; cbn [bind] in H; [|discriminate]. destruct (reconnect_in_spec validate _ _ _ _ W1 E2) as (P2 & I2 & O2 & W2 & M2).
  destruct (replace_output_node validate g2 c n) as [g3|] eqn:E3; cbn [bind] in H; [|discriminate]. apply replace_output_renames in E3.
  destruct (replace_input_node validate g3 c n) as [g4|] eqn:E4; cbn [bind] in H; [|discriminate].
  assert (I3 : g_in g3 = g_in g) by (subst g3; cbn; congruence). apply replace_input_renames in E4; [|rewrite I3; exact ND]. destruct E4 as [E4 I4]. rewrite I3 in I4.
  destruct (remove_node validate g4 c None None) as [g5|] eqn:E5; cbn [bind] in H; [|discriminate]. apply checked_ok in H. subst g5. apply remove_node_removes in E5.
  destruct E5 as [(R1 & R2 & R3 & R4) (D1 & D2 & D3 & D4)].
  assert (G4 : g_edges g4 = g_edges g2 /\ g_nodes g4 = g_nodes g2 /\ g_out g4 = map (reout c n) (g_out g)).
  { rewrite E4. cbn. subst g3. cbn. rewrite O2, O1, A3. auto. }
  destruct G4 as (G4e & G4n & G4o). assert (PE : Permutation (g_edges g') (map (fun e => Edge (rename c n (src e)) (rename c n (snk e)) (si e) (ti e)) (g_edges g))).
  { rewrite D1, G4e, P2, P1, A1, map_map. apply Permutation_refl'. apply map_ext. intro e. unfold resnk, resrc, rename.
    destruct (Nat.eqb (src e) c) eqn:S; cbn [snk src si ti]; destruct (Nat.eqb (snk e) c) eqn:T; try (rewrite S); destruct e; reflexivity. }
  assert (MN : forall m, In m (g_nodes g') <-> (In m (g_nodes g) /\ m <> c) \/ m = n).
  { intro m. rewrite D2, filter_In, G4n, M2, M1, add_node_in. destruct (Nat.eqb_spec c m) as [<-|N]; cbn; intuition congruence. }
  split; [exact PE|]. split; [exact MN|]. split; [|split].
  - split; [rewrite D2, G4n; apply NoDup_filter, (wf_nodes _ W2)|]. intros e I. apply (Permutation_in e PE) in I. apply in_map_iff in I. destruct I as [x [<- I]]. cbn. destruct (wf_ends g W x I) as [S T].
    rewrite !MN. unfold rename. destruct (Nat.eqb_spec (src x) c), (Nat.eqb_spec (snk x) c); split; tauto || (right; reflexivity) || (left; split; assumption).
  - rewrite <- G4o. destruct (mem c (map fst (g_out g4))) eqn:M; [|exact D4]. apply mem_spec in M. specialize (R3 M). congruence.
  - rewrite <- I4. destruct (mem c (g_in g4)) eqn:M; [|rewrite D3; reflexivity]. apply mem_spec in M. specialize (R4 M). congruence.
Qed.
Print Assumptions replace_node_replaces.
Theorem replace_node_succeeds g c n : wf g -> NoDup (g_in g) -> c <> n -> In c (g_nodes g) -> exists g', replace_node no_check g c n = Ok g'.
Proof.
  intros W ND cn I. unfold replace_node. destruct (add_node_rest g n) as (A1 & A2 & A3). pose proof (add_node_wf g n W) as W0.
  destruct (reconnect_out_total no_check (fun _ => eq_refl) (add_node_nx g n) c n) as [g1 E1]. rewrite E1. cbn [bind]. destruct (reconnect_out_spec _ _ _ _ _ W0 E1) as (P1 & I1 & O1 & W1 & M1).
  destruct (reconnect_in_total no_check (fun _ => eq_refl) g1 c n) as [g2 E2]. rewrite E2. cbn [bind]. destruct (reconnect_in_spec _ _ _ _ _ W1 E2) as (P2 & I2 & O2 & W2 & M2).
  destruct (replace_output_node no_check g2 c n) as [g3|] eqn:E3; [|discriminate]. cbn [bind]. apply replace_output_renames in E3.
  destruct (replace_input_node no_check g3 c n) as [g4|] eqn:E4; [|discriminate]. cbn [bind].
  assert (I3 : g_in g3 = g_in g) by (subst g3; cbn; congruence). apply replace_input_renames in E4; [|rewrite I3; exact ND]. destruct E4 as [E4 I4]. rewrite I3 in I4.
  destruct (remove_node_succeeds g4 c None None) as [g5 E5]; [|rewrite E5; cbn [bind]; eexists; reflexivity].
  rewrite E4. subst g3. cbn. assert (NR : forall l, ~ In c (map (rename c n) l)).
  { intros l J. apply in_map_iff in J. destruct J as [x [J _]]. unfold rename in J. destruct (Nat.eqb_spec x c); congruence. }
  split; [|split; [|split]]; cbn.
  - apply M2. left. apply M1. left. apply add_node_in. left. exact I.
  - intros e J. apply (Permutation_in e P2) in J. apply in_map_iff in J. destruct J as [x [<- J]]. apply (Permutation_in x P1) in J. apply in_map_iff in J. destruct J as [y [<- J]].
    unfold resnk, resrc. destruct (Nat.eqb_spec (src y) c) as [S|S]; cbn; destruct (Nat.eqb_spec (snk y) c) as [T|T]; cbn; auto; split; congruence.
  - intro J. exfalso. apply (NR (map fst (g_out g))). rewrite map_map. rewrite map_map in J. rewrite O2, O1, A3 in J. exact J.
  - intro J. exfalso. apply (NR (g_in g)). apply (Permutation_in c I4), J.
Qed.
Print Assumptions replace_node_succeeds.

(* the new node reads the listed tensors, in order *)
Lemma add_edges_spec validate n : forall (l : list (nat * (nat * nat))) g g', foldM (fun g x => let '(k, (m, i)) := x in add_edge validate g (Edge m n i k)) l g = Ok g' ->
  g_edges g' = g_edges g ++ map (fun x => Edge (fst (snd x)) n (snd (snd x)) (fst x)) l /\ same_interface g g' /\
  (forall m, In m (g_nodes g') <-> In m (g_nodes g) \/ exists x, In x l /\ (m = fst (snd x) \/ m = n)) /\ (wf g -> wf g').
Proof.
  induction l as [|[k [m i]] l IH]; intros g g' H; cbn [foldM] in H.
  - inversion H; subst. rewrite app_nil_r. split; [reflexivity|]. split; [split; reflexivity|]. split; [|tauto]. intro m. split; [tauto|]. intros [I|[x [[] _]]]. exact I.
  - destruct (add_edge validate g (Edge m n i k)) as [g1|] eqn:E; cbn [bind] in H; [|discriminate]. apply add_edge_ok in E. subst g1. destruct (IH _ _ H) as (A & [B1 B2] & C & D).
    destruct (add_edge_edges g (Edge m n i k)) as (E1 & E2 & E3). rewrite A, E1, <- app_assoc. split; [reflexivity|]. split; [split; congruence|]. split; [|intro W; apply D, add_edge_wf, W].
    intro q. rewrite C, add_edge_in. cbn. split.
    + intros [[I|I]|[x [I J]]]; [left; exact I|right; exists (k, (m, i)); split; [left; reflexivity|exact I]|right; exists x; tauto].
    + intros [I|[x [[<-|I] J]]]; [tauto|tauto|right; exists x; tauto].
Qed.
Lemma enumerate_nth {A} (l : list A) : forall i, map snd (enumerate_from i l) = l /\ map fst (enumerate_from i l) = seq i (length l).
Proof. induction l as [|x l IH]; intro i; [split; reflexivity|]. cbn. destruct (IH (S i)) as [-> ->]. split; reflexivity. Qed.
Theorem add_node_adds validate g n ins idx g' : add_node_with_in_edges validate g n ins idx = Ok g' ->
  let idx' := match idx with [] => repeat 0 (length ins) | _ => idx end in
  length idx' = length ins /\ same_interface g g' /\ (wf g -> wf g') /\ (forall m, In m (g_nodes g') <-> In m (g_nodes g) \/ m = n \/ In m ins) /\
  exists new, g_edges g' = g_edges g ++ new /\ length new = length ins /\
    forall k, k < length ins -> nth_error new k = Some (Edge (nth k ins 0) n (nth k idx' 0) k).
Proof.
  intros H idx'. unfold add_node_with_in_edges in H. fold idx' in H. destruct (Nat.eqb_spec (length idx') (length ins)) as [L|L]; [|discriminate]. cbn [negb] in H.
  destruct (foldM _ _ _) as [g1|] eqn:F; cbn [bind] in H; [|discriminate]. apply checked_ok in H. subst g1. apply add_edges_spec in F. destruct F as (A & [B1 B2] & C & D).
  destruct (add_node_rest g n) as (R1 & R2 & R3). destruct (enumerate_nth (combine ins idx') 0) as [EN1 EN2]. set (en := enumerate_from 0 (combine ins idx')) in *.
  assert (LE : length en = length ins). { rewrite <- (map_length snd), EN1, combine_length, L. lia. }
  split; [exact L|]. split; [split; congruence|]. split; [intro W; apply D, add_node_wf, W|]. split.
  - intro m. rewrite C, add_node_in. split.
    + intros [I|[x [I [->| ->]]]]; [tauto| |tauto]. right. right. assert (In (snd x) (combine ins idx')) as J by (rewrite <- EN1; apply in_map, I). destruct (snd x) as [p q] eqn:E. apply in_combine_l in J. exact J.
    + intros [I|[->|I]]; [tauto|tauto|]. right. apply (In_nth _ _ 0) in I. destruct I as [k [K <-]].
      assert (In (nth k ins 0, nth k idx' 0) (map snd en)) as J. { rewrite EN1, <- (combine_nth ins idx' k 0 0 (eq_sym L)). apply nth_In. rewrite combine_length, L. lia. }
      apply in_map_iff in J. destruct J as [x [J1 J2]]. exists x. split; [exact J2|left; rewrite J1; reflexivity].
  - eexists. rewrite A, R1. split; [reflexivity|]. rewrite map_length. split; [exact LE|]. intros k K.
    rewrite nth_error_map. assert (nth_error en k = Some (k, (nth k ins 0, nth k idx' 0))) as ->; [|reflexivity].
    assert (Q : nth_error (combine (map fst en) (map snd en)) k = Some (k, (nth k ins 0, nth k idx' 0))).
    { rewrite EN1, EN2, (nth_error_nth' _ (0, (0, 0))); [|rewrite combine_length, seq_length, combine_length, L; lia]. rewrite combine_nth; [|rewrite seq_length; reflexivity].
      rewrite seq_nth; [|rewrite combine_length, L; lia]. rewrite combine_nth by (symmetry; exact L). reflexivity. }
    rewrite <- Q. f_equal. clear. induction en as [|[a b] en IH]; [reflexivity|]. cbn. f_equal. exact IH.
Qed.
Print Assumptions add_node_adds.

Theorem insert_between_inserts validate g n a b g' : wf g -> a <> n -> b <> n -> insert_between validate g n a b = Ok g' ->
  exists e rest, src e = a /\ snk e = b /\ Permutation (g_edges g) (e :: rest) /\ (forall x, In x rest -> ~ (src x = a /\ snk x = b)) /\
    Permutation (g_edges g') (Edge a n (si e) (ti e) :: Edge n b (si e) (ti e) :: rest) /\ same_interface g g' /\ wf g' /\
    (forall m, In m (g_nodes g') <-> In m (g_nodes g) \/ m = n).
Proof.
  intros W na nb H. unfold insert_between in H. destruct (add_node_rest g n) as (R1 & R2 & R3).
  destruct (between (add_node_nx g n) a b) as [|e [|? ?]] eqn:B; try discriminate.
  destruct (add_edge validate _ (Edge a n _ _)) as [g1|] eqn:E1; cbn [bind] in H; [|discriminate]. apply add_edge_ok in E1.
  destruct (add_edge validate g1 _) as [g2|] eqn:E2; cbn [bind] in H; [|discriminate]. apply add_edge_ok in E2. apply remove_edge_ok in H.
  destruct (remove_edge_spec _ _ _ _ H) as (x & X1 & X2 & P & X3).
  destruct (add_edge_edges (add_node_nx g n) (Edge a n (si e) (ti e))) as (F1 & F2 & F3). rewrite <- E1 in F1, F2, F3.
  destruct (add_edge_edges g1 (Edge n b (si e) (ti e))) as (K1 & K2 & K3). rewrite <- E2 in K1, K2, K3.
  assert (Ie : In e (between (add_node_nx g n) a b)) by (rewrite B; left; reflexivity). apply between_in in Ie. destruct Ie as (Ie & Ea & Eb). rewrite R1 in Ie.
  rewrite K1, F1, R1 in P.
  assert (xe : x = e).
  { assert (In x (g_edges g)) as J.
    { assert (In x ((g_edges g ++ [Edge a n (si e) (ti e)]) ++ [Edge n b (si e) (ti e)])) as J by (apply (Permutation_in x (Permutation_sym P)); left; reflexivity).
      rewrite !in_app_iff in J. destruct J as [[J|[J|[]]]|[J|[]]]; [exact J| |]; subst x; cbn in X1, X2; congruence. }
    assert (In x (between (add_node_nx g n) a b)) as J' by (apply between_in; rewrite R1; auto). rewrite B in J'. destruct J' as [J'|[]]. congruence. }
  subst x. apply in_split in Ie. destruct Ie as (l1 & l2 & El). exists e, (l1 ++ l2). split; [exact Ea|]. split; [exact Eb|]. split; [rewrite El; symmetry; apply Permutation_middle|]. split; [|split; [|split; [|split]]].
  - intros y J [Y1 Y2]. unfold between in B. rewrite R1, El, filter_app in B. cbn [filter] in B. assert (is_between a b e = true) as Q by (apply is_between_spec; auto). rewrite Q in B.
    apply in_app_or in J. assert (is_between a b y = true) as Qy by (apply is_between_spec; auto). apply (f_equal (@length _)) in B. rewrite app_length in B. cbn [length] in B.
    destruct J as [J|J]; [assert (In y (filter (is_between a b) l1)) as Z|assert (In y (filter (is_between a b) l2)) as Z]; try (apply filter_In; auto).
    + destruct (filter (is_between a b) l1); [destruct Z|cbn in B; lia].
    + destruct (filter (is_between a b) l2); [destruct Z|cbn in B; lia].
  - assert (Q : Permutation (e :: g_edges g') (e :: Edge a n (si e) (ti e) :: Edge n b (si e) (ti e) :: l1 ++ l2)).
    { rewrite <- P, El. rewrite <- !app_assoc. cbn. rewrite <- Permutation_middle. constructor. rewrite app_assoc. rewrite Permutation_app_comm. cbn. reflexivity. }
    apply Permutation_cons_inv in Q. exact Q.
  - rewrite X3. split; cbn; congruence.
  - apply (remove_edge_wf g2 a b g'); [subst g2; apply add_edge_wf; subst g1; apply add_edge_wf, add_node_wf, W|exact H].
  - intro m. rewrite X3. cbn. subst g2. rewrite add_edge_in. subst g1. rewrite add_edge_in, add_node_in. cbn. destruct (wf_ends g W e); [rewrite El; apply in_or_app; right; left; reflexivity|]. intuition congruence.
Qed.
Print Assumptions insert_between_inserts.

(* after the only consumer's edge of a, before the only producer's edge of b *)
Theorem insert_after_inserts validate g n a g' : wf g -> a <> n -> ~ In n (g_nodes g) -> insert_after validate g n a = Ok g' ->
  exists e rest, out_edges g a = [e] /\ Permutation (g_edges g) (e :: rest) /\
    Permutation (g_edges g') (Edge a n (si e) (ti e) :: Edge n (snk e) (si e) (ti e) :: rest) /\ same_interface g g' /\ wf g'.
Proof.
  intros W an Nn H. unfold insert_after in H. destruct (next_nodes g a) as [|b [|? ?]] eqn:E; try discriminate. unfold next_nodes in E. destruct (out_edges g a) as [|e [|? ?]] eqn:O; try discriminate. injection E as E.
  assert (I : In e (g_edges g) /\ src e = a) by (apply out_edges_in; rewrite O; left; reflexivity). destruct I as [I S].
  assert (bn : b <> n) by (intro; subst; apply Nn; destruct (wf_ends g W e I); congruence).
  destruct (insert_between_inserts validate g n a b g' W an bn H) as (e' & rest & A & B & C & D & F & G & K & _).
  assert (e' = e). { assert (In e' (out_edges g a)) as J. { apply out_edges_in. split; [apply (Permutation_in e' (Permutation_sym C)); left; reflexivity|exact A]. } rewrite O in J. destruct J as [J|[]]. congruence. }
  subst e'. exists e, rest. rewrite E. auto.
Qed.
Print Assumptions insert_after_inserts.
Theorem insert_before_inserts validate g n b g' : wf g -> b <> n -> ~ In n (g_nodes g) -> insert_before validate g n b = Ok g' ->
  exists e rest, in_edges g b = [e] /\ Permutation (g_edges g) (e :: rest) /\
    Permutation (g_edges g') (Edge (src e) n (si e) (ti e) :: Edge n b (si e) (ti e) :: rest) /\ same_interface g g' /\ wf g'.
Proof.
  intros W bn Nn H. unfold insert_before in H. destruct (prev_nodes g b) as [|a [|? ?]] eqn:E; try discriminate. unfold prev_nodes in E. destruct (in_edges g b) as [|e [|? ?]] eqn:O; try discriminate. injection E as E.
  assert (I : In e (g_edges g) /\ snk e = b) by (apply in_edges_in; rewrite O; left; reflexivity). destruct I as [I S].
  assert (an : a <> n) by (intro; subst; apply Nn; destruct (wf_ends g W e I); congruence).
  destruct (insert_between_inserts validate g n a b g' W an bn H) as (e' & rest & A & B & C & D & F & G & K & _).
  assert (e' = e). { assert (In e' (in_edges g b)) as J. { apply in_edges_in. split; [apply (Permutation_in e' (Permutation_sym C)); left; reflexivity|exact B]. } rewrite O in J. destruct J as [J|[]]. congruence. }
  subst e'. exists e, rest. rewrite E. auto.
Qed.
Print Assumptions insert_before_inserts.

Theorem remove_between_removes validate g n a b g' : wf g -> a <> n -> b <> n -> remove_between validate g n a b = Ok g' ->
  exists e f rest, src e = a /\ snk e = n /\ src f = n /\ snk f = b /\ Permutation (g_edges g) (e :: f :: rest) /\ (forall x, In x rest -> src x <> n /\ snk x <> n) /\
    Permutation (g_edges g') (Edge a b (si e) (ti e) :: rest) /\ same_interface g g' /\ wf g' /\
    (forall m, In m (g_nodes g') <-> In m (g_nodes g) /\ m <> n) /\ ~ In n (g_in g) /\ ~ In n (map fst (g_out g)).
Proof.
  intros W na nb H. unfold remove_between in H.
  destruct (between g a n) as [|e [|? ?]] eqn:B; try discriminate.
  destruct (add_edge validate g _) as [g1|] eqn:E1; cbn [bind] in H; [|discriminate]. apply add_edge_ok in E1.
  destruct (remove_edge validate g1 a n) as [g2|] eqn:E2; cbn [bind] in H; [|discriminate]. apply remove_edge_ok in E2.
  destruct (remove_edge validate g2 n b) as [g3|] eqn:E3; cbn [bind] in H; [|discriminate]. apply remove_edge_ok in E3.
  destruct (remove_edge_spec _ _ _ _ E2) as (x & X1 & X2 & P2 & X3). destruct (remove_edge_spec _ _ _ _ E3) as (y & Y1 & Y2 & P3 & Y3).
  destruct (remove_node_removes _ _ _ _ _ _ H) as [(R1 & R2 & R3 & R4) (D1 & D2 & D3 & D4)].
  destruct (add_edge_edges g (Edge a b (si e) (ti e))) as (F1 & F2 & F3). rewrite <- E1 in F1, F2, F3.
  assert (Ie : In e (between g a n)) by (rewrite B; left; reflexivity). apply between_in in Ie. destruct Ie as (Ie & Ea & En).
  rewrite F1 in P2.
  assert (xe : x = e).
  { assert (In x (g_edges g)) as J.
    { assert (In x (g_edges g ++ [Edge a b (si e) (ti e)])) as J by (apply (Permutation_in x (Permutation_sym P2)); left; reflexivity).
      rewrite in_app_iff in J. destruct J as [J|[J|[]]]; [exact J|]. subst x. cbn in X2. congruence. }
    assert (In x (between g a n)) as J' by (apply between_in; auto). rewrite B in J'. destruct J' as [J'|[]]. congruence. }
  subst x. assert (P : Permutation (g_edges g ++ [Edge a b (si e) (ti e)]) (e :: y :: g_edges g3)) by (rewrite P2, P3; reflexivity).
  assert (In (Edge a b (si e) (ti e)) (g_edges g3)) as J.
  { assert (In (Edge a b (si e) (ti e)) (e :: y :: g_edges g3)) as J by (apply (Permutation_in _ P), in_or_app; right; left; reflexivity).
    destruct J as [J|[J|J]]; [| |exact J].
    - exfalso. rewrite <- Ea in na. rewrite J in En. cbn in En. congruence.
    - exfalso. subst y. cbn in Y1. congruence. }
  apply in_split in J. destruct J as (l1 & l2 & El). exists e, y, (l1 ++ l2). split; [exact Ea|]. split; [exact En|]. split; [exact Y1|]. split; [exact Y2|].
  assert (O3 : g_in g3 = g_in g /\ g_out g3 = g_out g) by (rewrite Y3, X3; cbn; auto). destruct O3 as [O3i O3o].
  assert (NI : ~ In n (g_in g)) by (intro J; rewrite <- O3i in J; exact (R4 J eq_refl)). assert (NO : ~ In n (map fst (g_out g))) by (intro J; rewrite <- O3o in J; exact (R3 J eq_refl)).
  split; [|split; [|split; [|split; [|split; [|split; [|split; [exact NI|exact NO]]]]]]].
  - assert (Q : Permutation (Edge a b (si e) (ti e) :: g_edges g) (Edge a b (si e) (ti e) :: e :: y :: l1 ++ l2)).
    { rewrite Permutation_cons_append, P, El. rewrite <- Permutation_middle. apply perm_trans with (e :: Edge a b (si e) (ti e) :: y :: l1 ++ l2); [constructor; apply perm_swap|apply perm_swap]. }
    apply Permutation_cons_inv in Q. exact Q.
  - intros z J. apply R2. rewrite El. apply in_app_or in J. apply in_or_app. destruct J; [left|right; right]; assumption.
  - rewrite D1, El. symmetry. apply Permutation_middle.
  - split; [destruct (mem n (g_in g3)) eqn:M; [apply mem_spec in M; rewrite O3i in M; contradiction|congruence]|destruct (mem n (map fst (g_out g3))) eqn:M; [apply mem_spec in M; rewrite O3o in M; contradiction|congruence]].
  - assert (W3 : wf g3) by (apply (remove_edge_wf g2 n b g3); [apply (remove_edge_wf g1 a n g2); [subst g1; apply add_edge_wf, W|exact E2]|exact E3]).
    split; [rewrite D2; apply NoDup_filter, (wf_nodes _ W3)|]. rewrite D1, D2. intros z J. destruct (R2 z J) as [Z1 Z2]. destruct (wf_ends _ W3 z J) as [Z3 Z4].
    rewrite !filter_In. split; (split; [assumption|]); (destruct (Nat.eqb_spec n (src z)); [congruence|]) || idtac; [reflexivity|]; destruct (Nat.eqb_spec n (snk z)); [congruence|reflexivity].
  - intro m. rewrite D2, filter_In, Y3, X3. cbn. subst g1. rewrite add_edge_in. cbn.
    assert (In a (g_nodes g)) by (destruct (wf_ends g W e Ie); congruence).
    assert (Iy : In y (g_edges g)).
    { assert (In y (g_edges g ++ [Edge a b (si e) (ti e)])) as J by (apply (Permutation_in _ (Permutation_sym P)); right; left; reflexivity).
      apply in_app_or in J. destruct J as [J|[J|[]]]; [exact J|]. exfalso. subst y. cbn in Y1. congruence. }
    assert (In b (g_nodes g)) by (destruct (wf_ends g W y Iy); congruence). destruct (Nat.eqb_spec n m); cbn; intuition congruence.
Qed.
Print Assumptions remove_between_removes.

(* ---- a diamond with a double edge: 0 => 1 (twice), 0 -> 2, 1 -> 3, 2 -> 3 ---- *)
Definition dg : graph := Graph [0; 1; 2; 3] [Edge 0 1 0 0; Edge 0 2 0 0; Edge 0 1 1 1; Edge 1 3 0 0; Edge 2 3 0 1] [0] [(3, 0)].
Example dg_wf : wf dg /\ NoDup (g_in dg).
Proof.
  split; [split|].
  - repeat (constructor; [cbn; intuition lia|]). constructor.
  - intros e I. cbn in I. cbn. intuition (subst; cbn; tauto).
  - repeat (constructor; [cbn; intuition lia|]). constructor.
Qed.
Example dg_out_edges : out_edges dg 0 = [Edge 0 1 0 0; Edge 0 1 1 1; Edge 0 2 0 0].
Proof. vm_compute. reflexivity. Qed.
Example dg_replace : replace_node no_check dg 1 4 = Ok (Graph [0; 2; 3; 4] [Edge 0 2 0 0; Edge 2 3 0 1; Edge 4 3 0 0; Edge 0 4 0 0; Edge 0 4 1 1] [0] [(3, 0)]).
Proof. vm_compute. reflexivity. Qed.
Example dg_insert : insert_between no_check dg 4 0 2 = Ok (Graph [0; 1; 2; 3; 4] [Edge 0 1 0 0; Edge 0 1 1 1; Edge 1 3 0 0; Edge 2 3 0 1; Edge 0 4 0 0; Edge 4 2 0 0] [0] [(3, 0)]).
Proof. vm_compute. reflexivity. Qed.

(* ---- findings ---- *)
(* replacing the first of two inputs of the model changes the order of its inputs *)
Theorem replaced_input_moves_last_refuted : exists g c n g', wf g /\ NoDup (g_in g) /\ c <> n /\ replace_node no_check g c n = Ok g' /\ g_in g' <> map (rename c n) (g_in g).
Proof.
  exists (Graph [0; 1; 2] [Edge 0 2 0 0; Edge 1 2 0 1] [0; 1] [(2, 0)]), 0, 3. eexists. split; [|split; [|split; [discriminate|split; [vm_compute; reflexivity|vm_compute; discriminate]]]].
  - split; [repeat (constructor; [cbn; intuition lia|]); constructor|]. intros e I. cbn in *. intuition (subst; cbn; tauto).
  - repeat (constructor; [cbn; intuition lia|]). constructor.
Qed.
Print Assumptions replaced_input_moves_last_refuted.
(* a node inserted before the second input of another node gets its only input at input index 1, and one
   inserted after the second output of a node has its own output at index 1 *)
Theorem inserted_node_indices_refuted : exists g n a b g', wf g /\ ~ In n (g_nodes g) /\ insert_between no_check g n a b = Ok g' /\
  (exists e, in_edges g' n = [e] /\ ti e <> 0) /\ (exists e, out_edges g' n = [e] /\ si e <> 0).
Proof.
  exists (Graph [0; 1; 2] [Edge 0 2 0 0; Edge 1 2 1 1] [0; 1] [(2, 0)]), 3, 1, 2. eexists. split; [|split; [|split; [vm_compute; reflexivity|split]]].
  - split; [repeat (constructor; [cbn; intuition lia|]); constructor|]. intros e I. cbn in *. intuition (subst; cbn; tauto).
  - cbn. intuition lia.
  - eexists. split; [vm_compute; reflexivity|discriminate].
  - eexists. split; [vm_compute; reflexivity|discriminate].
Qed.
Print Assumptions inserted_node_indices_refuted.
(* removing a node between two others gives its consumer the input index the removed node had *)
Theorem removed_node_input_index_refuted : exists g n a b g', wf g /\ remove_between no_check g n a b = Ok g' /\
  (exists e, out_edges g n = [e] /\ ti e = 1) /\ forall e, In e (in_edges g' b) -> ti e <> 1.
Proof.
  exists (Graph [0; 1; 2] [Edge 0 2 0 0; Edge 0 1 0 0; Edge 1 2 0 1] [0] [(2, 0)]), 1, 0, 2. eexists. split; [|split; [vm_compute; reflexivity|split]].
  - split; [repeat (constructor; [cbn; intuition lia|]); constructor|]. intros e I. cbn in *. intuition (subst; cbn; tauto).
  - eexists. split; [vm_compute; reflexivity|reflexivity].
  - intros e I. vm_compute in I. destruct I as [<-|[<-|[]]]; discriminate.
Qed.
Print Assumptions removed_node_input_index_refuted.
