(* FnLayGraphProofs.v -- what replacing one, two or three nodes of a graph by a new one does to what the graph computes. *)
From Coq Require Import Permutation Sorted.
From Verif Require Import LinNode GraphModel GraphSpec GraphProofs GraphProps GraphFindProps EqualizeGraphProps DecompProps KCallModel FnLayModel FnLaySpec.
Local Open Scope nat_scope.

(* ---- one node ---- *)
Lemma call_replaced validate g n m g' : wf g -> In n (g_nodes g) -> ~ In m (g_nodes g) -> replace_call validate g n m = Ok g' ->
  Permutation (g_edges g') (map (rewire (rename n m) (rename n m)) (g_edges g)) /\
  (forall x, In x (g_nodes g') <-> (In x (g_nodes g) /\ x <> n) \/ x = m) /\ g_in g' = g_in g /\ g_out g' = map (reout n m) (g_out g).
Proof.
  intros W IN NM H. unfold replace_call in H. assert (nm : n <> m) by congruence. destruct (add_node_rest g m) as (A1 & A2 & A3). pose proof (add_node_wf g m W) as W0.
  destruct (reconnect_in_edges validate (add_node_nx g m) n m) as [g2|] eqn:E2; cbn [bind] in H; [|discriminate]. destruct (reconnect_in_spec validate _ _ _ _ W0 E2) as (P2 & I2 & O2 & W2 & M2).
  destruct (reconnect_out_edges validate g2 n m) as [g3|] eqn:E3; cbn [bind] in H; [|discriminate]. destruct (reconnect_out_spec validate _ _ _ _ W2 E3) as (P3 & I3 & O3 & W3 & M3).
  destruct (replace_output_node validate g3 n m) as [g4|] eqn:E4; cbn [bind] in H; [|discriminate]. apply replace_output_renames in E4.
  destruct (remove_node_removes _ _ _ _ _ _ H) as [(R1 & R2 & R3 & R4) (D1 & D2 & D3 & D4)]. subst g4. cbn [set_out g_edges g_nodes g_in g_out] in *.
  split; [|split; [|split]].
  - rewrite D1, P3, P2, A1, map_map. apply Permutation_refl', map_ext. intros [s t i j]. unfold resrc, resnk, rewire, rename. cbn. destruct (Nat.eqb t n); cbn; destruct (Nat.eqb s n); reflexivity.
  - intro x. rewrite D2, filter_In, negb_true_iff, Nat.eqb_neq, M3, M2, add_node_in. intuition (try congruence; subst; auto).
  - destruct (mem n (g_in g3)) eqn:MM; [discriminate|]. congruence.
  - rewrite D4 || idtac. destruct (mem n (map fst (map (reout n m) (g_out g3)))) eqn:MM; [discriminate|]. congruence.
Qed.
Section Function.
Context {V : Type}.
Lemma call_preserves validate (op op' : nat -> list V -> nat -> V) g n m g' val : wf g -> outs_in g -> In n (g_nodes g) -> ~ In m (g_nodes g) -> replace_call validate g n m = Ok g' ->
  (forall x, In x (g_nodes g) -> x <> n -> op' x = op x) -> (forall l k, reads g val n l -> op' m l k = op n l k) -> computes op g val ->
  exists val', computes op' g' val' /\ (forall x k, In x (g_nodes g) -> val' x k = val x k) /\ (forall k, val' m k = val n k) /\ outputs g' val' = outputs g val.
Proof.
  intros W OI IN NM H OE OM C. destruct (call_replaced validate g n m g' W IN NM H) as (P & N & _ & O). assert (nm : n <> m) by congruence.
  set (val' := fun x k => if Nat.eqb x m then val n k else val x k). assert (VO : forall x k, In x (g_nodes g) -> val' x k = val x k) by (intros x k X; unfold val'; destruct (Nat.eqb_spec x m); [congruence|reflexivity]). assert (VM : forall k, val' m k = val n k) by (intro k; unfold val'; rewrite Nat.eqb_refl; reflexivity).
  assert (VE : forall e, In e (g_edges g) -> val' (rename n m (src e)) (si e) = val (src e) (si e)).
  { intros y I. unfold rename. destruct (Nat.eqb_spec (src y) n) as [S|S]; [rewrite VM, S; reflexivity|]. apply VO, (wf_ends g W y I). }
  exists val'. split; [|split; [exact VO|split; [exact VM|]]].
  - intros x I l R k. apply N in I.
    assert (FX : forall y, ((x = m /\ y = n) \/ (x <> m /\ x <> n /\ y = x)) -> reads g val y l).
    { intros y Y. apply (reads_rewired g g' val val' (rename n m) (rename n m) y x); [|intros z I2 _; apply VE, I2|exact R]. rewrite (filter_perm _ _ _ P). apply Permutation_refl', filter_rewired. intros z I2.
      assert (snk z <> m) by (intro Z; apply NM; rewrite <- Z; apply (wf_ends g W z I2)). unfold rename. destruct Y as [[-> ->]|(X1 & X2 & ->)].
      - destruct (Nat.eqb_spec (snk z) n); [apply Nat.eqb_refl|]. apply Nat.eqb_neq. assumption.
      - destruct (Nat.eqb_spec (snk z) n) as [Z|Z]; [|reflexivity]. rewrite (proj2 (Nat.eqb_neq m x)) by congruence. symmetry; apply Nat.eqb_neq; congruence. }
    destruct I as [[I xn]| ->].
    + assert (xm : x <> m) by congruence. rewrite VO, OE by assumption. apply (C x I l). apply FX. right. auto.
    + assert (R0 : reads g val n l) by (apply FX; left; auto). rewrite VM, OM by exact R0. apply (C n IN _ R0).
  - unfold outputs. rewrite O, map_map. apply map_ext_in. intros y I. cbn [reout fst snd]. unfold rename. destruct (Nat.eqb_spec (fst y) n) as [->|]; [apply VM|]. apply VO, OI, I.
Qed.
End Function.
Lemma call_succeeds g n m : wf g -> In n (g_nodes g) -> ~ In m (g_nodes g) -> ~ In n (g_in g) -> exists g', replace_call no_check g n m = Ok g'.
Proof.
  intros W IN NM NI. unfold replace_call. assert (nm : n <> m) by congruence. destruct (add_node_rest g m) as (A1 & A2 & A3). pose proof (add_node_wf g m W) as W0.
  destruct (reconnect_never_fails (add_node_nx g m) n m) as [_ (g2 & E2)]. rewrite E2. cbn [bind]. destruct (reconnect_in_spec _ _ _ _ _ W0 E2) as (P2 & I2 & O2 & W2 & M2).
  destruct (reconnect_never_fails g2 n m) as [(g3 & E3) _]. rewrite E3. cbn [bind]. destruct (reconnect_out_spec _ _ _ _ _ W2 E3) as (P3 & I3 & O3 & W3 & M3).
  destruct (replace_output_node no_check g3 n m) as [g4|] eqn:E4; [|discriminate]. cbn [bind]. apply replace_output_renames in E4.
  apply remove_node_succeeds. subst g4. unfold removable. cbn [set_out g_edges g_nodes g_in g_out]. split; [rewrite M3, M2, add_node_in; tauto|]. split; [|split].
  - intros e I. apply (Permutation_in e P3) in I. apply in_map_iff in I. destruct I as (y & <- & I). apply (Permutation_in y P2) in I. apply in_map_iff in I. destruct I as (z & <- & I).
    destruct (resrc_props n m (resnk n m z)) as (-> & _ & _ & ->). split.
    + unfold rename. destruct (Nat.eqb_spec (src (resnk n m z)) n); congruence.
    + unfold resnk. destruct (Nat.eqb_spec (snk z) n); cbn [snk]; congruence.
  - rewrite in_map_iff. intros ((x & k) & E & I) _. cbn in E. subst x. apply in_map_iff in I. destruct I as ([y j] & E & _). unfold reout, rename in E. cbn in E. destruct (Nat.eqb_spec y n); congruence.
  - intro I. exfalso. congruence.
Qed.

(* ---- a node and the only node behind it ---- *)
Lemma followed_nodes g n a : followed g n a <-> next_nodes g n = [a] /\ length (prev_nodes g a) = 1.
Proof.
  assert (L1 : length (next_nodes g n) = out_degree g n) by (unfold next_nodes, out_degree; rewrite map_length; apply Permutation_length, out_edges_perm).
  assert (L2 : length (prev_nodes g a) = in_degree g a) by (unfold prev_nodes, in_degree; rewrite map_length; apply Permutation_length, in_edges_perm).
  unfold followed. rewrite <- L1, <- L2. split.
  - intros ((e & I & S & K) & N & P). split; [|exact P]. assert (J : In e (out_edges g n)) by (apply out_edges_in; auto). unfold next_nodes in *. destruct (out_edges g n) as [|x [|]]; try discriminate. destruct J as [->|[]]. cbn. congruence.
  - intros [N P]. rewrite N. split; [|auto]. unfold next_nodes in N. destruct (out_edges g n) as [|e [|]] eqn:OO; try discriminate. injection N as N. assert (I : In e (out_edges g n)) by (rewrite OO; left; reflexivity). apply out_edges_in in I. exists e. tauto.
Qed.
Lemma followed_edge g n a : followed g n a -> n <> a -> exists e rest, In e (g_edges g) /\ src e = n /\ snk e = a /\ Permutation (g_edges g) (e :: rest) /\ filter (fun e => Nat.eqb (snk e) a) (g_edges g) = [e] /\
  (forall y, In y rest -> src y <> n /\ snk y <> a) /\ prev_nodes g a = [n].
Proof.
  intros FL na. apply followed_nodes in FL. destruct FL as [N P]. unfold next_nodes in N. destruct (out_edges g n) as [|e [|]] eqn:OE; try discriminate. injection N as SE.
  assert (I : In e (out_edges g n)) by (rewrite OE; left; reflexivity). apply out_edges_in in I. destruct I as [I S].
  assert (D : in_degree g a = 1). { unfold in_degree. rewrite <- (Permutation_length (in_edges_perm g a)). unfold prev_nodes in P. rewrite map_length in P. exact P. }
  destruct (single_in g a D) as (e' & rest & IE & Ie & Se & F & PR & NR). assert (e' = e). { assert (J : In e (in_edges g a)) by (apply in_edges_in; auto). rewrite IE in J. destruct J as [J|[]]. exact J. } subst e'.
  exists e, rest. split; [exact I|]. split; [exact S|]. split; [exact Se|]. split; [exact PR|]. split; [exact F|]. split; [|unfold prev_nodes; rewrite IE; cbn; congruence].
  intros y Y. split; [|apply NR, Y]. intro SY. pose proof (out_edges_perm g n) as Q. rewrite OE, (filter_perm _ _ _ PR) in Q. cbn [filter] in Q. rewrite S, Nat.eqb_refl in Q. apply Permutation_cons_inv in Q.
  assert (J : In y (filter (fun e0 => Nat.eqb (src e0) n) rest)) by (apply filter_In; split; [exact Y|apply Nat.eqb_eq, SY]). apply (Permutation_in y (Permutation_sym Q)) in J. destruct J.
Qed.
Lemma next_of_resnk validate g n m a e rest g2 : wf g -> ~ In m (g_nodes g) -> n <> a -> src e = n -> snk e = a -> Permutation (g_edges g) (e :: rest) -> (forall y, In y rest -> src y <> n /\ snk y <> a) -> wf (add_node_nx g m) ->
  reconnect_in_edges validate (add_node_nx g m) n m = Ok g2 -> next_nodes g2 n = [a].
Proof.
  intros W NM na SE KE PR NR W0 E2. destruct (reconnect_in_spec validate _ _ _ _ W0 E2) as (P2 & I2 & O2 & W2 & M2). destruct (add_node_rest g m) as (A1 & A2 & A3). rewrite A1 in P2.
  unfold next_nodes. assert (Q : Permutation (out_edges g2 n) [e]).
  { rewrite (out_edges_perm g2 n), (filter_perm _ _ _ P2), (filter_perm _ _ _ (Permutation_map (resnk n m) PR)). cbn [map filter]. assert (R1 : resnk n m e = e) by (unfold resnk; rewrite KE, (proj2 (Nat.eqb_neq a n)) by congruence; reflexivity).
    rewrite R1, SE, Nat.eqb_refl. rewrite filter_map_comm, filter_nil; [reflexivity|]. intros y Y. destruct (NR y Y) as [Y1 _]. apply Nat.eqb_neq. unfold resnk. destruct (Nat.eqb (snk y) n); exact Y1. }
  apply Permutation_sym, Permutation_length_1_inv in Q. rewrite Q. cbn. congruence.
Qed.
Lemma call_and_add_replaced validate g n a m g' : wf g -> In n (g_nodes g) -> In a (g_nodes g) -> ~ In m (g_nodes g) -> n <> a -> followed g n a -> replace_call_and_add validate g n m = Ok g' ->
  exists e rest, src e = n /\ snk e = a /\ Permutation (g_edges g) (e :: rest) /\ filter (fun e => Nat.eqb (snk e) a) (g_edges g) = [e] /\ (forall y, In y rest -> src y <> n /\ snk y <> a) /\
  Permutation (g_edges g') (map (rewire (rename a m) (rename n m)) rest) /\
  (forall x, In x (g_nodes g') <-> (In x (g_nodes g) /\ x <> n /\ x <> a) \/ x = m) /\ g_in g' = g_in g /\ g_out g' = map (reout a m) (g_out g) /\ ~ In n (map fst (g_out g)).
Proof.
  intros W IN IA NM na FL H. destruct (followed_edge g n a FL na) as (e & rest & Ie & SE & KE & PR & F & NR & _). exists e, rest. split; [exact SE|]. split; [exact KE|]. split; [exact PR|]. split; [exact F|]. split; [exact NR|].
  unfold replace_call_and_add in H. assert (nm : n <> m) by congruence. assert (am : a <> m) by congruence. destruct (add_node_rest g m) as (A1 & A2 & A3). pose proof (add_node_wf g m W) as W0.
  destruct (reconnect_in_edges validate (add_node_nx g m) n m) as [g2|] eqn:E2; cbn [bind] in H; [|discriminate]. destruct (reconnect_in_spec validate _ _ _ _ W0 E2) as (P2 & I2 & O2 & W2 & M2).
  rewrite (next_of_resnk validate g n m a e rest g2 W NM na SE KE PR NR W0 E2) in H.
  destruct (reconnect_out_edges validate g2 a m) as [g3|] eqn:E3; cbn [bind] in H; [|discriminate]. destruct (reconnect_out_spec validate _ _ _ _ W2 E3) as (P3 & I3 & O3 & W3 & M3).
  destruct (replace_output_node validate g3 a m) as [g4|] eqn:E4; cbn [bind] in H; [|discriminate]. apply replace_output_renames in E4.
  destruct (remove_edge validate g4 n a) as [g5|] eqn:E5; cbn [bind] in H; [|discriminate]. apply remove_edge_ok in E5. destruct (remove_edge_spec _ _ _ _ E5) as (x & X1 & X2 & X3 & X4).
  destruct (remove_node validate g5 a None None) as [g6|] eqn:E6; cbn [bind] in H; [|discriminate]. destruct (remove_node_removes _ _ _ _ _ _ E6) as [(R1 & R2 & R3 & R4) (D1 & D2 & D3 & D4)].
  destruct (remove_node_removes _ _ _ _ _ _ H) as [(S1 & S2 & S3 & S4) (F1 & F2 & F3 & F4)].
  assert (G4 : g_edges g4 = g_edges g3 /\ g_nodes g4 = g_nodes g3 /\ g_in g4 = g_in g3 /\ g_out g4 = map (reout a m) (g_out g3)) by (subst g4; repeat split). destruct G4 as (G4e & G4n & G4i & G4o).
  assert (G5 : g_nodes g5 = g_nodes g4 /\ g_in g5 = g_in g4 /\ g_out g5 = g_out g4) by (rewrite X4; auto). destruct G5 as (G5n & G5i & G5o).
  assert (PE : Permutation (g_edges g4) (e :: map (rewire (rename a m) (rename n m)) rest)).
  { rewrite G4e, P3, P2, A1, PR, map_map. cbn [map]. assert (Ee : resrc a m (resnk n m e) = e). { unfold resnk. rewrite KE, (proj2 (Nat.eqb_neq a n)) by congruence. unfold resrc. rewrite SE, (proj2 (Nat.eqb_neq n a)) by congruence. reflexivity. } rewrite Ee. constructor.
    apply Permutation_refl', map_ext. intros [s t i j]. unfold resrc, resnk, rewire, rename. cbn. destruct (Nat.eqb t n); cbn; destruct (Nat.eqb s a); reflexivity. }
  assert (xe : x = e). { assert (J : In x (g_edges g4)) by (apply (Permutation_in x (Permutation_sym X3)); left; reflexivity). apply (Permutation_in x PE) in J. destruct J as [J|J]; [congruence|]. apply in_map_iff in J. destruct J as (z & Z & J). destruct (NR z J) as [Z1 _]. subst x. unfold rewire, rename in X1. cbn [src] in X1. destruct (Nat.eqb (src z) a); congruence. }
  subst x. assert (P5 : Permutation (g_edges g5) (map (rewire (rename a m) (rename n m)) rest)) by (apply (Permutation_cons_inv (a := e)); rewrite <- X3; exact PE).
  split; [rewrite F1, D1; exact P5|]. split; [|split; [|split]].
  - intro x. rewrite F2, filter_In, D2, filter_In, !negb_true_iff, !Nat.eqb_neq, G5n, G4n, M3, M2, add_node_in. intuition (try congruence; subst; auto).
  - destruct (mem n (g_in g6)); [discriminate|]. destruct (mem a (g_in g5)); [discriminate|]. congruence.
  - destruct (mem n (map fst (g_out g6))); [discriminate|]. destruct (mem a (map fst (g_out g5))); [discriminate|]. congruence.
  - assert (NO : ~ In n (map fst (g_out g6))) by (intro Z; apply (S3 Z); reflexivity). intro Z. apply NO. destruct (mem a (map fst (g_out g5))); [discriminate|]. rewrite D4, G5o, G4o, O3, O2, A3, map_map. apply in_map_iff in Z. destruct Z as (o & Z & Io). apply in_map_iff. exists o. split; [|exact Io]. cbn. unfold rename. rewrite Z, (proj2 (Nat.eqb_neq n a)) by congruence. reflexivity.
Qed.
Section Function2.
Context {V : Type}.
Lemma call_and_add_preserves validate (op op' : nat -> list V -> nat -> V) g n a m g' val : wf g -> outs_in g -> In n (g_nodes g) -> In a (g_nodes g) -> ~ In m (g_nodes g) -> n <> a -> followed g n a -> replace_call_and_add validate g n m = Ok g' ->
  (forall x, In x (g_nodes g) -> x <> n -> x <> a -> op' x = op x) -> (forall l j k, reads g val n l -> op' m l k = op a [op n l j] k) -> computes op g val ->
  exists val', computes op' g' val' /\ (forall x k, In x (g_nodes g) -> val' x k = val x k) /\ (forall k, val' m k = val a k) /\ outputs g' val' = outputs g val.
Proof.
  intros W OI IN IA NM na FL H OE OM C. destruct (call_and_add_replaced validate g n a m g' W IN IA NM na FL H) as (e & rest & SE & KE & PR & F & NR & P & N & _ & O & _).
  assert (nm : n <> m) by congruence. assert (am : a <> m) by congruence.
  set (val' := fun x k => if Nat.eqb x m then val a k else val x k). assert (VO : forall x k, In x (g_nodes g) -> val' x k = val x k) by (intros x k X; unfold val'; destruct (Nat.eqb_spec x m); [congruence|reflexivity]). assert (VM : forall k, val' m k = val a k) by (intro k; unfold val'; rewrite Nat.eqb_refl; reflexivity).
  assert (VE : forall e, In e (g_edges g) -> val' (rename a m (src e)) (si e) = val (src e) (si e)).
  { intros y I. unfold rename. destruct (Nat.eqb_spec (src y) a) as [S|S]; [rewrite VM, S; reflexivity|]. apply VO, (wf_ends g W y I). }
  assert (IR : forall y, In y rest -> In y (g_edges g)) by (intros y Y; apply (Permutation_in y (Permutation_sym PR)); right; exact Y).
  exists val'. split; [|split; [exact VO|split; [exact VM|]]].
  - intros x I l R k. apply N in I.
    assert (FX : forall y, ((x = m /\ y = n) \/ (x <> m /\ x <> n /\ x <> a /\ y = x)) -> reads g val y l).
    { intros y Y. assert (ya : y <> a) by (destruct Y as [[_ ->]|(_ & _ & X & ->)]; congruence). apply (reads_rewired g g' val val' (rename a m) (rename n m) y x); [|intros z I2 _; apply VE, I2|exact R].
      rewrite (filter_perm _ _ _ P), (filter_perm _ _ _ PR). cbn [filter]. rewrite KE, (proj2 (Nat.eqb_neq a y)) by congruence. rewrite filter_map_comm. apply Permutation_refl'. f_equal. apply filter_ext_in. intros z I2. apply IR in I2.
      assert (snk z <> m) by (intro Z; apply NM; rewrite <- Z; apply (wf_ends g W z I2)). unfold rewire, rename. cbn [snk]. destruct Y as [[-> ->]|(X1 & X2 & _ & ->)].
      - destruct (Nat.eqb_spec (snk z) n); [apply Nat.eqb_refl|]. apply Nat.eqb_neq. assumption.
      - destruct (Nat.eqb_spec (snk z) n) as [Z|Z]; [|reflexivity]. rewrite (proj2 (Nat.eqb_neq m x)) by congruence. symmetry; apply Nat.eqb_neq; congruence. }
    destruct I as [(I & xn & xa)| ->].
    + assert (xm : x <> m) by congruence. rewrite VO, OE by assumption. apply (C x I l). apply FX. right. auto.
    + assert (R0 : reads g val n l) by (apply FX; left; auto). rewrite VM, (OM l (si e)) by exact R0.
      rewrite <- (C n IN _ R0). rewrite <- SE. apply (C a IA). apply reads_single_intro, F.
  - unfold outputs. rewrite O, map_map. apply map_ext_in. intros y I. cbn [reout fst snd]. unfold rename. destruct (Nat.eqb_spec (fst y) a) as [->|]; [apply VM|]. apply VO, OI, I.
Qed.
End Function2.
Lemma call_and_add_succeeds g n a m : wf g -> In n (g_nodes g) -> In a (g_nodes g) -> ~ In m (g_nodes g) -> n <> a -> followed g n a -> ~ In n (g_in g) -> ~ In a (g_in g) -> ~ In n (map fst (g_out g)) ->
  exists g', replace_call_and_add no_check g n m = Ok g'.
Proof.
  intros W IN IA NM na FL NI AI NO. destruct (followed_edge g n a FL na) as (e & rest & Ie & SE & KE & PR & F & NR & _).
  unfold replace_call_and_add. assert (nm : n <> m) by congruence. assert (am : a <> m) by congruence. destruct (add_node_rest g m) as (A1 & A2 & A3). pose proof (add_node_wf g m W) as W0.
  destruct (reconnect_never_fails (add_node_nx g m) n m) as [_ (g2 & E2)]. rewrite E2. cbn [bind]. destruct (reconnect_in_spec _ _ _ _ _ W0 E2) as (P2 & I2 & O2 & W2 & M2).
  rewrite (next_of_resnk no_check g n m a e rest g2 W NM na SE KE PR NR W0 E2).
  destruct (reconnect_never_fails g2 a m) as [(g3 & E3) _]. rewrite E3. cbn [bind]. destruct (reconnect_out_spec _ _ _ _ _ W2 E3) as (P3 & I3 & O3 & W3 & M3).
  destruct (replace_output_node no_check g3 a m) as [g4|] eqn:E4; [|discriminate]. cbn [bind]. apply replace_output_renames in E4.
  assert (G4 : g_edges g4 = g_edges g3 /\ g_nodes g4 = g_nodes g3 /\ g_in g4 = g_in g3 /\ g_out g4 = map (reout a m) (g_out g3)) by (subst g4; repeat split). destruct G4 as (G4e & G4n & G4i & G4o). clear E4.
  assert (PE : Permutation (g_edges g4) (e :: map (rewire (rename a m) (rename n m)) rest)).
  { rewrite G4e, P3, P2, A1, PR, map_map. cbn [map]. assert (Ee : resrc a m (resnk n m e) = e). { unfold resnk. rewrite KE, (proj2 (Nat.eqb_neq a n)) by congruence. unfold resrc. rewrite SE, (proj2 (Nat.eqb_neq n a)) by congruence. reflexivity. } rewrite Ee. constructor.
    apply Permutation_refl', map_ext. intros [s t i j]. unfold resrc, resnk, rewire, rename. cbn. destruct (Nat.eqb t n); cbn; destruct (Nat.eqb s a); reflexivity. }
  destruct (remove_edge_total g4 n a e) as (g5 & E5); [apply (Permutation_in e (Permutation_sym PE)); left; reflexivity|exact SE|exact KE|]. unfold remove_edge. rewrite E5. cbn [bind checked no_check].
  destruct (remove_edge_spec _ _ _ _ E5) as (x & X1 & X2 & X3 & X4). assert (G5 : g_nodes g5 = g_nodes g4 /\ g_in g5 = g_in g4 /\ g_out g5 = g_out g4) by (rewrite X4; auto). destruct G5 as (G5n & G5i & G5o).
  assert (xe : x = e). { assert (J : In x (g_edges g4)) by (apply (Permutation_in x (Permutation_sym X3)); left; reflexivity). apply (Permutation_in x PE) in J. destruct J as [J|J]; [congruence|]. apply in_map_iff in J. destruct J as (z & Z & J). destruct (NR z J) as [Z1 _]. subst x. unfold rewire, rename in X1. cbn [src] in X1. destruct (Nat.eqb (src z) a); congruence. }
  subst x. assert (P5 : Permutation (g_edges g5) (map (rewire (rename a m) (rename n m)) rest)) by (apply (Permutation_cons_inv (a := e)); rewrite <- X3; exact PE).
  assert (EE : forall z, In z (g_edges g5) -> (src z <> a /\ snk z <> a) /\ (src z <> n /\ snk z <> n)).
  { intros z Z. apply (Permutation_in z P5) in Z. apply in_map_iff in Z. destruct Z as (y & <- & Y). destruct (NR y Y) as [Y1 Y2]. unfold rewire, rename. cbn [src snk]. destruct (Nat.eqb_spec (src y) a), (Nat.eqb_spec (snk y) n); repeat split; congruence. }
  assert (OA : ~ In a (map fst (g_out g5))). { rewrite G5o, G4o, map_map. rewrite in_map_iff. intros (o & Z & _). unfold reout, rename in Z. cbn in Z. destruct (Nat.eqb_spec (fst o) a); congruence. }
  destruct (remove_node_succeeds g5 a None None) as (g6 & E6). { split; [rewrite G5n, G4n, M3, M2, add_node_in; tauto|]. split; [intros z Z; apply EE, Z|]. split; [contradiction|]. intro I. exfalso. apply AI. congruence. }
  cbn [bind]. rewrite E6. cbn [bind]. destruct (remove_node_removes _ _ _ _ _ _ E6) as [_ (D1 & D2 & D3 & D4)]. destruct (mem a (g_in g5)); [discriminate|]. destruct (mem a (map fst (g_out g5))); [discriminate|].
  apply remove_node_succeeds. split; [rewrite D2, filter_In, G5n, G4n, M3, M2, add_node_in, negb_true_iff, Nat.eqb_neq; split; [tauto|congruence]|]. split; [intros z Z; rewrite D1 in Z; apply EE, Z|]. split.
  - intros Z _. apply NO. rewrite D4, G5o, G4o, O3, O2, A3, map_map in Z. apply in_map_iff in Z. destruct Z as (o & Z & Io). unfold reout, rename in Z. cbn in Z. destruct (Nat.eqb_spec (fst o) a); [congruence|]. apply in_map_iff. exists o. auto.
  - intro I. exfalso. apply NI. congruence.
Qed.

(* ---- the sigmoid of a tensor and its product with the tensor ---- *)
Lemma two_left {A} (dec : forall x y : A, {x = y} + {x <> y}) (p : A -> bool) l a b : a <> b -> In a l -> In b l -> p a = true -> p b = true -> length (filter p l) = 2 ->
  exists r, Permutation l (a :: b :: r) /\ forall x, In x r -> p x = false.
Proof.
  intros N IA IB PA PB L. exists (filter (fun x => negb (p x)) l). split; [|intros x I; apply filter_In in I; destruct I as [_ I]; apply negb_true_iff, I].
  assert (Q : Permutation (filter p l) [a; b]).
  { assert (I1 : In a (filter p l)) by (apply filter_In; auto). assert (I2 : In b (filter p l)) by (apply filter_In; auto). destruct (filter p l) as [|x [|y [|]]]; try discriminate.
    destruct I1 as [->|[->|[]]], I2 as [->|[->|[]]]; try congruence; [reflexivity|apply perm_swap]. }
  change (a :: b :: filter (fun x => negb (p x)) l) with ([a; b] ++ filter (fun x => negb (p x)) l). rewrite <- Q. clear. induction l as [|x l IH]; [constructor|]. cbn. destruct (p x); cbn; [constructor; exact IH|]. apply Permutation_cons_app. exact IH.
Qed.
Lemma edge_dec (x y : edge) : {x = y} + {x <> y}.
Proof. decide equality; apply Nat.eq_dec. Qed.
Lemma swish_edges g s u i r : swish_site g s u -> prev_nodes g s = i :: r -> Nat.ltb 1 (length (next_nodes g s)) = false -> In i (prev_nodes g u) ->
  exists e1 e2 e3 rest, src e1 = i /\ snk e1 = s /\ src e2 = s /\ snk e2 = u /\ src e3 = i /\ snk e3 = u /\ i <> s /\ i <> u /\ Permutation (g_edges g) (e1 :: e2 :: e3 :: rest) /\
    forall y, In y rest -> snk y <> s /\ snk y <> u /\ src y <> s.
Proof.
  intros [Is Iu su (e2 & I2 & S2 & K2) Ds Du NB NS] PV NX IP. destruct (single_in g s Ds) as (e1 & r1 & IE & I1 & K1 & F1 & PR & NR). unfold prev_nodes in PV. rewrite IE in PV. injection PV as S1 _.
  unfold prev_nodes in IP. apply in_map_iff in IP. destruct IP as (e3 & S3 & I3). apply in_edges_in in I3. destruct I3 as [I3 K3].
  assert (is_ : i <> s) by (intro Z; apply NS; exists e1; repeat split; congruence). assert (iu : i <> u) by (intro Z; apply NB; exists e1; repeat split; congruence).
  destruct (two_left edge_dec (fun e => Nat.eqb (snk e) u) (g_edges g) e2 e3) as (R & PR2 & NR2); [congruence|exact I2|exact I3|apply Nat.eqb_eq, K2|apply Nat.eqb_eq, K3|exact Du|].
  assert (J : In e1 R). { pose proof I1 as J. apply (Permutation_in e1 PR2) in J. destruct J as [J|[J|J]]; [congruence|congruence|exact J]. }
  apply in_split in J. destruct J as (ra & rb & ->). assert (PA : Permutation (g_edges g) (e1 :: e2 :: e3 :: (ra ++ rb))). { rewrite PR2. rewrite (Permutation_app_comm ra (e1 :: rb)). cbn [app]. rewrite (Permutation_app_comm rb ra). eapply Permutation_trans; [apply perm_skip, perm_swap|]. apply perm_swap. }
  exists e1, e2, e3, (ra ++ rb). repeat (split; [assumption|]). intros y Y. split; [|split].
  - intro Z. rewrite (filter_perm _ _ _ PA) in F1 || idtac. pose proof (filter_perm (fun e => Nat.eqb (snk e) s) _ _ PA) as Q. rewrite F1 in Q. cbn [filter] in Q. rewrite K1, Nat.eqb_refl, K2, K3, (proj2 (Nat.eqb_neq u s)) in Q by congruence. apply Permutation_cons_inv in Q.
    assert (J : In y (filter (fun e => Nat.eqb (snk e) s) (ra ++ rb))) by (apply filter_In; split; [exact Y|apply Nat.eqb_eq, Z]). apply (Permutation_in y (Permutation_sym Q)) in J. destruct J.
  - intro Z. assert (In y (ra ++ e1 :: rb)) by (apply in_app_iff in Y; apply in_app_iff; cbn; tauto). specialize (NR2 y H). cbn in NR2. apply Nat.eqb_neq in NR2. contradiction.
  - intro Z. apply Nat.ltb_ge in NX. unfold next_nodes in NX. rewrite map_length, (Permutation_length (out_edges_perm g s)), (Permutation_length (filter_perm _ _ _ PA)) in NX. cbn [filter] in NX. rewrite S1, S2, S3, Nat.eqb_refl, (proj2 (Nat.eqb_neq i s)) in NX by congruence. cbn [length] in NX.
    assert (J : In y (filter (fun e => Nat.eqb (src e) s) (ra ++ rb))) by (apply filter_In; split; [exact Y|apply Nat.eqb_eq, Z]). destruct (filter (fun e => Nat.eqb (src e) s) (ra ++ rb)); [destruct J|cbn in NX; lia].
Qed.
Lemma swish_replaced validate g s u w g' : wf g -> swish_site g s u -> ~ In w (g_nodes g) -> substitute_swish validate g s u w = Ok g' ->
  (g' = g /\ ~ swish_found g s u) \/
  (swish_found g s u /\ exists e1 e2 e3 rest, snk e1 = s /\ src e2 = s /\ snk e2 = u /\ src e3 = src e1 /\ snk e3 = u /\ src e1 <> u /\ src e1 <> s /\ Permutation (g_edges g) (e1 :: e2 :: e3 :: rest) /\
     (forall y, In y rest -> snk y <> s /\ snk y <> u /\ src y <> s) /\
     Permutation (g_edges g') (Edge (src e1) w (si e1) (ti e1) :: map (rewire (rename u w) (fun v => v)) rest) /\
     (forall x, In x (g_nodes g') <-> (In x (g_nodes g) /\ x <> s /\ x <> u) \/ x = w) /\ g_in g' = g_in g /\ g_out g' = map (reout u w) (g_out g)).
Proof.
  intros W SS NW H. pose proof SS as [Is Iu su LK Ds Du NB NS]. unfold substitute_swish in H. destruct (mem s (map fst (g_out g))) eqn:MO; [injection H as <-; left; split; [reflexivity|]; intros (A & _); apply mem_spec in MO; contradiction|]. apply mem_false in MO.
  destruct (single_in g s Ds) as (e0 & r0 & IE & I0 & K0 & F0 & _ & _). assert (PV : prev_nodes g s = [src e0]) by (unfold prev_nodes; rewrite IE; reflexivity). rewrite PV in H.
  assert (LN : 1 <= length (next_nodes g s)). { destruct LK as (z & Iz & Sz & _). assert (J : In z (out_edges g s)) by (apply out_edges_in; auto). unfold next_nodes. rewrite map_length. destruct (out_edges g s); [destruct J|cbn; lia]. }
  assert (LO : length (next_nodes g s) = out_degree g s) by (unfold next_nodes, out_degree; rewrite map_length; apply Permutation_length, out_edges_perm).
  destruct (Nat.ltb 1 (length (next_nodes g s))) eqn:NX; cbn [orb] in H; [injection H as <-; left; split; [reflexivity|]; intros (_ & A & _); rewrite <- LO in A; apply Nat.ltb_lt in NX; lia|].
  destruct (mem (src e0) (prev_nodes g u)) eqn:MP; cbn [negb] in H.
  2:{ injection H as <-. left. split; [reflexivity|]. intros (_ & _ & i & (z & Iz & Sz & Kz) & (y & Iy & Sy & Ky)). apply mem_false in MP. apply MP. assert (z = e0). { assert (J : In z (in_edges g s)) by (apply in_edges_in; auto). rewrite IE in J. destruct J as [J|[]]. congruence. } subst z. unfold prev_nodes. rewrite Sz, <- Sy. apply in_map, in_edges_in. auto. }
  apply mem_spec in MP. destruct (swish_edges g s u (src e0) [] SS PV NX MP) as (e1 & e2 & e3 & rest & S1 & K1 & S2 & K2 & S3 & K3 & is_ & iu & PR & NR).
  right. split. { split; [exact MO|]. split; [apply Nat.ltb_ge in NX; lia|]. exists (src e0). split; [exists e0; auto|]. exists e3. split; [apply (Permutation_in e3 (Permutation_sym PR)); cbn; auto|auto]. }
  exists e1, e2, e3, rest. split; [exact K1|]. split; [exact S2|]. split; [exact K2|]. split; [congruence|]. split; [exact K3|]. split; [congruence|]. split; [congruence|]. split; [exact PR|]. split; [exact NR|].
  assert (sw : s <> w) by congruence. assert (uw : u <> w) by congruence. destruct (add_node_rest g w) as (A1 & A2 & A3). pose proof (add_node_wf g w W) as W0. rewrite <- S1 in H, is_, iu, S3. set (i := src e1) in *. clear S1.
  destruct (reconnect_in_edges validate (add_node_nx g w) s w) as [g2|] eqn:E2; cbn [bind] in H; [|discriminate]. destruct (reconnect_in_spec validate _ _ _ _ W0 E2) as (P2 & I2 & O2 & W2 & M2).
  destruct (reconnect_out_edges validate g2 u w) as [g3|] eqn:E3; cbn [bind] in H; [|discriminate]. destruct (reconnect_out_spec validate _ _ _ _ W2 E3) as (P3 & I3 & O3 & W3 & M3).
  destruct (replace_output_node validate g3 u w) as [g4|] eqn:E4; cbn [bind] in H; [|discriminate]. apply replace_output_renames in E4.
  destruct (remove_edge validate g4 i u) as [g5|] eqn:E5; cbn [bind] in H; [|discriminate]. apply remove_edge_ok in E5. destruct (remove_edge_spec _ _ _ _ E5) as (x & X1 & X2 & X3 & X4).
  destruct (remove_edge validate g5 s u) as [g6|] eqn:E6; cbn [bind] in H; [|discriminate]. apply remove_edge_ok in E6. destruct (remove_edge_spec _ _ _ _ E6) as (y & Y1 & Y2 & Y3 & Y4).
  destruct (remove_node validate g6 s None None) as [g7|] eqn:E7; cbn [bind] in H; [|discriminate]. destruct (remove_node_removes _ _ _ _ _ _ E7) as [_ (D1 & D2 & D3 & D4)]. destruct (remove_node_removes _ _ _ _ _ _ H) as [_ (F1 & F2 & F3 & F4)].
  assert (G4 : g_edges g4 = g_edges g3 /\ g_nodes g4 = g_nodes g3 /\ g_in g4 = g_in g3 /\ g_out g4 = map (reout u w) (g_out g3)) by (subst g4; repeat split). destruct G4 as (G4e & G4n & G4i & G4o). clear E4.
  assert (G5 : g_nodes g5 = g_nodes g4 /\ g_in g5 = g_in g4 /\ g_out g5 = g_out g4) by (rewrite X4; auto). destruct G5 as (G5n & G5i & G5o).
  assert (G6 : g_nodes g6 = g_nodes g5 /\ g_in g6 = g_in g5 /\ g_out g6 = g_out g5) by (rewrite Y4; auto). destruct G6 as (G6n & G6i & G6o).
  set (e1' := Edge i w (si e1) (ti e1)) in *.
  assert (PE : Permutation (g_edges g4) (e3 :: e2 :: e1' :: map (rewire (rename u w) (fun v => v)) rest)).
  { rewrite G4e, P3, P2, A1, PR, map_map. cbn [map].
    assert (Q1 : resrc u w (resnk s w e1) = e1'). { unfold resnk. rewrite K1, Nat.eqb_refl. unfold resrc. cbn [src]. fold i. rewrite (proj2 (Nat.eqb_neq i u)) by congruence. reflexivity. }
    assert (Q2 : resrc u w (resnk s w e2) = e2). { unfold resnk. rewrite K2, (proj2 (Nat.eqb_neq u s)) by congruence. unfold resrc. rewrite S2, (proj2 (Nat.eqb_neq s u)) by congruence. reflexivity. }
    assert (Q3 : resrc u w (resnk s w e3) = e3). { unfold resnk. rewrite K3, (proj2 (Nat.eqb_neq u s)) by congruence. unfold resrc. rewrite S3, (proj2 (Nat.eqb_neq i u)) by exact iu. reflexivity. }
    rewrite Q1, Q2, Q3. eapply Permutation_trans; [apply perm_skip, perm_swap|]. eapply Permutation_trans; [apply perm_swap|]. constructor. eapply Permutation_trans; [apply perm_swap|]. do 2 constructor.
    apply Permutation_refl', map_ext_in. intros z Z. destruct (NR z Z) as (Z1 & _). destruct z as [a b c d]. unfold resrc, resnk, rewire, rename. cbn in *. rewrite (proj2 (Nat.eqb_neq b s) Z1). cbn. destruct (Nat.eqb a u); reflexivity. }
  assert (NX3 : forall z, In z (map (rewire (rename u w) (fun v => v)) rest) -> snk z <> u) by (intros z Z; apply in_map_iff in Z; destruct Z as (q & <- & Q); cbn; apply (NR q Q)).
  assert (xe : x = e3). { assert (J : In x (g_edges g4)) by (apply (Permutation_in x (Permutation_sym X3)); left; reflexivity). apply (Permutation_in x PE) in J. destruct J as [J|[J|[J|J]]]; [symmetry; exact J|exfalso; apply is_; rewrite <- X1, <- J; exact S2| |destruct (NX3 x J X2)]. subst x. unfold e1' in X2. cbn in X2. congruence. }
  subst x. assert (P5 : Permutation (g_edges g5) (e2 :: e1' :: map (rewire (rename u w) (fun v => v)) rest)) by (apply (Permutation_cons_inv (a := e3)); rewrite <- X3; exact PE).
  assert (ye : y = e2). { assert (J : In y (g_edges g5)) by (apply (Permutation_in y (Permutation_sym Y3)); left; reflexivity). apply (Permutation_in y P5) in J. destruct J as [J|[J|J]]; [congruence| |destruct (NX3 y J Y2)]. subst y. unfold e1' in Y2. cbn in Y2. congruence. }
  subst y. assert (P6 : Permutation (g_edges g6) (e1' :: map (rewire (rename u w) (fun v => v)) rest)) by (apply (Permutation_cons_inv (a := e2)); rewrite <- Y3; exact P5).
  split; [rewrite F1, D1; exact P6|]. split; [|split].
  - intro x. rewrite F2, filter_In, D2, filter_In, !negb_true_iff, !Nat.eqb_neq, G6n, G5n, G4n, M3, M2, add_node_in. intuition (try congruence; subst; auto).
  - destruct (mem u (g_in g7)); [discriminate|]. destruct (mem s (g_in g6)); [discriminate|]. congruence.
  - destruct (mem u (map fst (g_out g7))); [discriminate|]. destruct (mem s (map fst (g_out g6))); [discriminate|]. congruence.
Qed.
Section Function3.
Context {V : Type}.
Lemma swish_preserves validate (op op' : nat -> list V -> nat -> V) g s u w g' val : wf g -> outs_in g -> swish_site g s u -> ~ In w (g_nodes g) -> substitute_swish validate g s u w = Ok g' ->
  (forall e e', In e (g_edges g) -> In e' (g_edges g) -> snk e = s -> snk e' = u -> src e = src e' -> si e = si e') ->
  (forall x, In x (g_nodes g) -> x <> s -> x <> u -> op' x = op x) -> (~ swish_found g s u -> op' s = op s /\ op' u = op u) ->
  (forall v j k, op u [v; op s [v] j] k = op' w [v] k /\ op u [op s [v] j; v] k = op' w [v] k) -> computes op g val ->
  exists val', computes op' g' val' /\ (forall x k, In x (g_nodes g) -> val' x k = val x k) /\ outputs g' val' = outputs g val.
Proof.
  intros W OI SS NW H ST OE OL OM C. pose proof (ss_s _ _ _ SS) as Is. pose proof (ss_u _ _ _ SS) as Iu. pose proof (ss_su _ _ _ SS) as su.
  destruct (swish_replaced validate g s u w g' W SS NW H) as [[-> NF]|(FD & e1 & e2 & e3 & rest & K1 & S2 & K2 & S3 & K3 & iu & is_ & PR & NR & P & N & _ & O)].
  { exists val. split; [|split; [reflexivity|reflexivity]]. intros x I l R k. destruct (OL NF) as [L1 L2]. destruct (Nat.eq_dec x s) as [->|xs]; [rewrite L1; apply (C s I l R)|]. destruct (Nat.eq_dec x u) as [->|xu]; [rewrite L2; apply (C u I l R)|]. rewrite OE by assumption. apply (C x I l R). }
  assert (sw : s <> w) by congruence. assert (uw : u <> w) by congruence.
  set (val' := fun x k => if Nat.eqb x w then val u k else val x k). assert (VO : forall x k, In x (g_nodes g) -> val' x k = val x k) by (intros x k X; unfold val'; destruct (Nat.eqb_spec x w); [congruence|reflexivity]). assert (VM : forall k, val' w k = val u k) by (intro k; unfold val'; rewrite Nat.eqb_refl; reflexivity).
  assert (VE : forall e, In e (g_edges g) -> val' (rename u w (src e)) (si e) = val (src e) (si e)).
  { intros y I. unfold rename. destruct (Nat.eqb_spec (src y) u) as [S|S]; [rewrite VM, S; reflexivity|]. apply VO, (wf_ends g W y I). }
  assert (IR : forall y, In y (e1 :: e2 :: e3 :: rest) -> In y (g_edges g)) by (intros y Y; apply (Permutation_in y (Permutation_sym PR)); exact Y).
  assert (F1 : filter (fun e => Nat.eqb (snk e) s) (g_edges g) = [e1]). { apply Permutation_length_1_inv. rewrite (filter_perm _ _ _ PR). cbn [filter]. rewrite K1, K2, K3, Nat.eqb_refl, (proj2 (Nat.eqb_neq u s)) by congruence. rewrite filter_nil; [reflexivity|]. intros y Y. apply Nat.eqb_neq, (NR y Y). }
  assert (F2 : Permutation (filter (fun e => Nat.eqb (snk e) u) (g_edges g)) [e2; e3]). { rewrite (filter_perm _ _ _ PR). cbn [filter]. rewrite K1, K2, K3, Nat.eqb_refl, (proj2 (Nat.eqb_neq s u)) by congruence. rewrite filter_nil; [reflexivity|]. intros y Y. apply Nat.eqb_neq, (NR y Y). }
  assert (V1 : val' (src e1) (si e1) = val (src e1) (si e1)) by (apply VO, (wf_ends g W e1), IR; cbn; auto).
  assert (S13 : si e3 = si e1) by (symmetry; apply ST; [apply IR; cbn; auto|apply IR; cbn; auto|exact K1|exact K3|congruence]).
  exists val'. split; [|split; [exact VO|]].
  - intros x I l R k. apply N in I. destruct I as [(I & xs & xu)| ->].
    + assert (xw : x <> w) by congruence. rewrite VO, OE by assumption. apply (C x I l). apply (reads_rewired g g' val val' (rename u w) (fun v => v) x x); [|intros z I2 _; apply VE, I2|exact R].
      rewrite (filter_perm _ _ _ P), (filter_perm _ _ _ PR). cbn [filter snk]. rewrite K1, K2, K3, (proj2 (Nat.eqb_neq w x)), (proj2 (Nat.eqb_neq s x)), (proj2 (Nat.eqb_neq u x)) by congruence. rewrite filter_map_comm. reflexivity.
    + assert (FW : filter (fun e => Nat.eqb (snk e) w) (g_edges g') = [Edge (src e1) w (si e1) (ti e1)]).
      { apply Permutation_length_1_inv. rewrite (filter_perm _ _ _ P). cbn [filter snk]. rewrite Nat.eqb_refl, filter_map_comm, filter_nil; [reflexivity|]. intros z Z. cbn. apply Nat.eqb_neq. intro Q. apply NW. rewrite <- Q. apply (wf_ends g W z), IR. cbn. auto. }
      rewrite (reads_single g' val' w _ l FW R). cbn [src si]. rewrite V1, VM. set (v := val (src e1) (si e1)).
      assert (VS : val s (si e2) = op s [v] (si e2)) by (apply (C s Is), reads_single_intro, F1).
      assert (LS : exists l0, reads g val u l0 /\ (l0 = [v; val s (si e2)] \/ l0 = [val s (si e2); v])).
      { assert (V3 : val (src e3) (si e3) = v) by (unfold v; rewrite S3, S13; reflexivity). destruct (Nat.le_gt_cases (ti e2) (ti e3)).
        - exists [val (src e2) (si e2); val (src e3) (si e3)]. split; [|right; rewrite V3, S2; reflexivity]. exists [e2; e3]. split; [symmetry; exact F2|]. split; [repeat constructor; lia|reflexivity].
        - exists [val (src e3) (si e3); val (src e2) (si e2)]. split; [|left; rewrite V3, S2; reflexivity]. exists [e3; e2]. split; [rewrite F2; apply perm_swap|]. split; [repeat constructor; lia|reflexivity]. }
      destruct LS as (l0 & R0 & L0). rewrite (C u Iu l0 R0). rewrite VS in L0. destruct (OM v (si e2) k) as [O1 O2]. destruct L0 as [-> | ->]; [exact O1|exact O2].
  - unfold outputs. rewrite O, map_map. apply map_ext_in. intros y I. cbn [reout fst snd]. unfold rename. destruct (Nat.eqb_spec (fst y) u) as [->|]; [apply VM|]. apply VO, OI, I.
Qed.
End Function3.
