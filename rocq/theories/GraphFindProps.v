(* GraphFindProps.v -- removal of identity nodes, equality of edges, searching a graph (C33, C52). *)
From Coq Require Import Permutation Sorted Lia.
From Verif Require Import Base GraphModel GraphSpec GraphProofs GraphProps.
Local Open Scope nat_scope.

Lemma resrc_props c n e : snk (resrc c n e) = snk e /\ si (resrc c n e) = si e /\ ti (resrc c n e) = ti e /\ src (resrc c n e) = rename c n (src e).
Proof. unfold resrc, rename. destruct (Nat.eqb (src e) c); cbn; auto. Qed.
Lemma filter_map_comm {A B} (f : A -> B) (p : B -> bool) (l : list A) : filter p (map f l) = map f (filter (fun x => p (f x)) l).
Proof. induction l as [|x l IH]; [reflexivity|]. cbn. destruct (p (f x)); cbn; rewrite IH; reflexivity. Qed.

(* ---- the identity n, which reads output k of p, is bypassed ---- *)
Definition bypassed (g : graph) (n p k : nat) (g' : graph) : Prop :=
  exists e rest, e = Edge p n k (ti e) /\ Permutation (g_edges g) (e :: rest) /\ (forall x, In x rest -> snk x <> n) /\
    Permutation (g_edges g') (map (resrc n p) rest) /\ g_nodes g' = filter (fun m => negb (Nat.eqb n m)) (g_nodes g) /\
    g_in g' = g_in g /\ g_out g' = map (reout n p) (g_out g).
Theorem identity_bypassed validate g n p g' : wf g -> prev_nodes g n = [p] -> p <> n -> remove_identity validate g n = Ok g' ->
  exists k, bypassed g n p k g' /\ wf g' /\ ~ In n (g_in g).
Proof.
  intros W HP pn H. unfold remove_identity in H. rewrite HP in H. set (outs := map _ (g_out g)) in H.
  assert (OUT : outs = map (reout n p) (g_out g)).
  { apply map_ext. intros [a b]. unfold reout, rename. cbn. destruct (Nat.eqb a n); reflexivity. }
  destruct (reconnect_out_edges validate (set_out g outs) n p) as [g1|] eqn:E1; cbn [bind] in H; [|discriminate].
  assert (W0 : wf (set_out g outs)) by (destruct W; split; assumption).
  destruct (reconnect_out_spec validate _ _ _ _ W0 E1) as (P1 & I1 & O1 & W1 & N1). cbn in P1, I1, O1, N1.
  destruct (remove_edge validate g1 p n) as [g2|] eqn:E2; cbn [bind] in H; [|discriminate]. apply remove_edge_ok in E2.
  destruct (remove_edge_spec _ _ _ _ E2) as (x & X1 & X2 & P2 & X3).
  destruct (remove_node_removes _ _ _ _ _ _ H) as [(R1 & R2 & R3 & R4) (D1 & D2 & D3 & D4)].
  assert (exists e, in_edges g n = [e] /\ src e = p) as (e & IE & Ep).
  { unfold prev_nodes in HP. destruct (in_edges g n) as [|e [|? ?]]; try discriminate. exists e. split; [reflexivity|]. cbn in HP. congruence. }
  assert (Ie : In e (g_edges g) /\ snk e = n) by (apply in_edges_in; rewrite IE; left; reflexivity). destruct Ie as [Ie En].
  assert (UE : forall y, In y (g_edges g) -> snk y = n -> y = e). { intros y J K. assert (In y (in_edges g n)) as L by (apply in_edges_in; auto). rewrite IE in L. destruct L as [L|[]]. congruence. }
  assert (ONE : exists rest, Permutation (g_edges g) (e :: rest) /\ forall y, In y rest -> snk y <> n).
  { pose proof (in_edges_perm g n) as Q. rewrite IE in Q. apply in_split in Ie. destruct Ie as (l1 & l2 & El). exists (l1 ++ l2). split; [rewrite El; symmetry; apply Permutation_middle|].
    intros y J K. rewrite El, filter_app in Q. cbn [filter] in Q. rewrite En, Nat.eqb_refl in Q. apply Permutation_length in Q. rewrite app_length in Q. cbn [length] in Q.
    assert (In y (filter (fun e0 => Nat.eqb (snk e0) n) l1 ++ filter (fun e0 => Nat.eqb (snk e0) n) l2)) as Z.
    { rewrite <- filter_app. apply filter_In. split; [exact J|]. apply Nat.eqb_eq, K. }
    assert (length (filter (fun e0 => Nat.eqb (snk e0) n) l1 ++ filter (fun e0 => Nat.eqb (snk e0) n) l2) = 0) as L by (rewrite app_length; lia).
    destruct (filter (fun e0 => Nat.eqb (snk e0) n) l1 ++ filter (fun e0 => Nat.eqb (snk e0) n) l2); [destruct Z|discriminate]. }
  destruct ONE as (rest & PR & NR).
  assert (Re : resrc n p e = e). { unfold resrc. rewrite Ep. destruct (Nat.eqb_spec p n); [contradiction|reflexivity]. }
  rewrite PR in P1. cbn [map] in P1. rewrite Re in P1. rewrite P2 in P1.
  assert (xe : x = e).
  { assert (In x (e :: map (resrc n p) rest)) as J by (apply (Permutation_in x P1); left; reflexivity). destruct J as [J|J]; [congruence|].
    apply in_map_iff in J. destruct J as (y & <- & J). destruct (resrc_props n p y) as (Z & _). rewrite Z in X2. exfalso. exact (NR y J X2). }
  subst x. apply Permutation_cons_inv in P1.
  assert (G2 : g_nodes g2 = g_nodes g1 /\ g_in g2 = g_in g1 /\ g_out g2 = g_out g1) by (rewrite X3; auto). destruct G2 as (G2n & G2i & G2o).
  assert (NI : ~ In n (g_in g)) by (intro J; rewrite <- I1, <- G2i in J; exact (R4 J eq_refl)).
  assert (Inp : In p (g_nodes g)) by (destruct (wf_ends g W e Ie); congruence).
  assert (NN : g_nodes g1 = g_nodes g).
  { clear -E1 Inp W. assert (forall h h', In p (g_nodes h) -> wf h -> reconnect_out_edges validate h n p = Ok h' -> g_nodes h' = g_nodes h) as L; [|apply (L (set_out g outs)); [exact Inp|destruct W; split; assumption|exact E1]].
    clear. intros h h' I W H. unfold reconnect_out_edges in H. destruct (foldM _ (out_edges h n) h) as [h1|] eqn:F; cbn [bind] in H; [|discriminate]. apply checked_ok in H. subst h1.
    assert (SK : forall y, In y (out_edges h n) -> In (snk y) (g_nodes h)). { intros y J. apply out_edges_in in J. destruct J as [J _]. apply (wf_ends h W y J). }
    clear W. revert F. generalize (out_edges h n) SK I. clear. intro l. revert h. induction l as [|y l IH]; intros h SK I F; cbn [foldM] in F; [inversion F; reflexivity|].
    destruct (add_edge validate h _) as [h1|] eqn:A; cbn [bind] in F; [|discriminate]. apply add_edge_ok in A.
    destruct (remove_edge validate h1 n (snk y)) as [h2|] eqn:B; cbn [bind] in F; [|discriminate]. apply remove_edge_ok in B.
    destruct (remove_edge_spec _ _ _ _ B) as (x & _ & _ & _ & X3).
    assert (N : g_nodes h2 = g_nodes h).
    { rewrite X3. cbn. subst h1. unfold add_edge_nx. cbn. rewrite (add_node_known (add_node_nx h p)); rewrite (add_node_known h p I); [reflexivity|apply SK; left; reflexivity]. }
    rewrite <- N. apply IH; rewrite ?N; auto. intros z J. apply SK. right. exact J. }
  exists (si e). split; [|split].
  - exists e, rest. split; [destruct e; cbn in *; congruence|]. split; [exact PR|]. split; [exact NR|]. split; [rewrite D1; exact P1|]. split; [rewrite D2, G2n, NN; reflexivity|]. split.
    + destruct (mem n (g_in g2)) eqn:M; [apply mem_spec in M; rewrite G2i, I1 in M; contradiction|congruence].
    + destruct (mem n (map fst (g_out g2))); [injection D4 as D4; congruence|congruence].
  - assert (W2 : wf g2) by (apply (remove_edge_wf g1 p n g2); [exact W1|exact E2]).
    split; [rewrite D2; apply NoDup_filter, (wf_nodes _ W2)|]. rewrite D1, D2. intros z J. destruct (R2 z J) as [Z1 Z2]. destruct (wf_ends _ W2 z J) as [Z3 Z4].
    rewrite !filter_In. split; (split; [assumption|]); [destruct (Nat.eqb_spec n (src z)); [congruence|reflexivity]|destruct (Nat.eqb_spec n (snk z)); [congruence|reflexivity]].
  - exact NI.
Qed.
Print Assumptions identity_bypassed.

(* an identity with several inputs, or none, is left alone *)
Theorem identity_left_alone validate g n : (forall p, prev_nodes g n <> [p]) -> remove_identity validate g n = Ok g.
Proof. intro H. unfold remove_identity. destruct (prev_nodes g n) as [|p [|? ?]]; try reflexivity. destruct (H p eq_refl). Qed.
Print Assumptions identity_left_alone.

(* ---- the computed function: if every reader of the identity reads the output index that the identity
   itself reads from its producer, removing it changes no value and no output ---- *)
Section Function.
Context {V : Type} (op : nat -> list V -> nat -> V).
Lemma reads_bypassed g n p k g' (val : nat -> nat -> V) m l : bypassed g n p k g' -> m <> n ->
  (forall x, In x (g_edges g) -> src x = n -> val n (si x) = val p (si x)) ->
  (reads g val m l <-> reads g' val m l).
Proof.
  intros (e & rest & Ee & PR & NR & PG & _) mn HV. unfold reads.
  assert (F1 : Permutation (filter (fun e => Nat.eqb (snk e) m) (g_edges g)) (filter (fun e => Nat.eqb (snk e) m) rest)).
  { rewrite (filter_perm _ _ _ PR). cbn [filter]. rewrite Ee. cbn [snk]. destruct (Nat.eqb_spec n m); [congruence|reflexivity]. }
  assert (F2 : Permutation (filter (fun e => Nat.eqb (snk e) m) (g_edges g')) (map (resrc n p) (filter (fun e => Nat.eqb (snk e) m) rest))).
  { rewrite (filter_perm _ _ _ PG), filter_map_comm. apply Permutation_map. apply Permutation_refl'. apply filter_ext. intro y. destruct (resrc_props n p y) as (-> & _). reflexivity. }
  assert (VE : forall es, (forall x, In x es -> In x (g_edges g)) -> map (fun e => val (src e) (si e)) (map (resrc n p) es) = map (fun e => val (src e) (si e)) es).
  { intros es I. rewrite map_map. apply map_ext_in. intros x J. destruct (resrc_props n p x) as (_ & -> & _ & ->). unfold rename. destruct (Nat.eqb_spec (src x) n) as [S|S]; [|reflexivity]. rewrite S. symmetry. apply HV; auto. }
  assert (SE : forall es, StronglySorted (fun a b => ti a <= ti b) (map (resrc n p) es) <-> StronglySorted (fun a b => ti a <= ti b) es).
  { induction es as [|y es IHes]; [split; constructor|]. cbn [map]. split; intro S; inversion S; subst; constructor; try (apply IHes; assumption).
    - rewrite Forall_forall in *. intros z J. destruct (resrc_props n p y) as (_ & _ & T & _). destruct (resrc_props n p z) as (_ & _ & T' & _). rewrite <- T, <- T'. apply H2, in_map, J.
    - rewrite Forall_forall in *. intros z J. apply in_map_iff in J. destruct J as (w & <- & J). destruct (resrc_props n p y) as (_ & _ & -> & _). destruct (resrc_props n p w) as (_ & _ & -> & _). auto. }
  assert (IN : forall es, Permutation es (filter (fun e => Nat.eqb (snk e) m) rest) -> forall x, In x es -> In x (g_edges g)).
  { intros es P x J. apply (Permutation_in x P) in J. apply filter_In in J. apply (Permutation_in x (Permutation_sym PR)). right. apply J. }
  split; intros (es & P & S & ->).
  - rewrite F1 in P. exists (map (resrc n p) es). split; [rewrite F2; apply Permutation_map, P|]. split; [apply SE, S|]. symmetry. apply VE, IN, P.
  - rewrite F2 in P. apply Permutation_map_inv in P. destruct P as (es0 & -> & P). apply Permutation_sym in P. exists es0. split; [rewrite F1; exact P|]. split; [apply SE, S|]. apply VE, IN, P.
Qed.
Lemma identity_reads g n p k g' (val : nat -> nat -> V) l : bypassed g n p k g' -> (reads g val n l <-> l = [val p k]).
Proof.
  intros (e & rest & Ee & PR & NR & _). unfold reads.
  assert (F : Permutation (filter (fun e => Nat.eqb (snk e) n) (g_edges g)) [e]).
  { rewrite (filter_perm _ _ _ PR). cbn [filter]. rewrite Ee at 1. cbn [snk]. rewrite Nat.eqb_refl. rewrite (filter_nil _ rest); [reflexivity|]. intros x J. apply Nat.eqb_neq, NR, J. }
  split.
  - intros (es & P & S & ->). rewrite F in P. apply Permutation_sym, Permutation_length_1_inv in P. subst es. cbn. rewrite Ee. reflexivity.
  - intros ->. exists [e]. split; [rewrite F; reflexivity|]. split; [repeat constructor|]. cbn. rewrite Ee. reflexivity.
Qed.
Theorem identity_removal_preserves validate g n p g' : wf g -> prev_nodes g n = [p] -> p <> n -> remove_identity validate g n = Ok g' ->
  forall k, In k (map si (in_edges g n)) ->
  (forall x, op n [x] k = x) ->
  (forall x, In x (g_edges g) -> src x = n -> si x = k) -> (forall o, In o (g_out g) -> fst o = n -> snd o = k) ->
  (forall val, computes op g val -> computes op g' val /\ outputs g' val = outputs g val) /\
  (forall val', computes op g' val' -> exists val, computes op g val /\ (forall m, m <> n -> val m = val' m) /\ outputs g' val' = outputs g val).
Proof.
  intros W HP pn H k Ik OP RE RO. destruct (identity_bypassed validate g n p g' W HP pn H) as (k' & B & W' & NI).
  assert (k' = k).
  { destruct B as (e & rest & Ee & PR & NR & _). apply in_map_iff in Ik. destruct Ik as (y & <- & J). apply in_edges_in in J. destruct J as [J K]. apply (Permutation_in y PR) in J. destruct J as [<-|J]; [rewrite Ee; reflexivity|]. destruct (NR y J K). }
  subst k'. assert (BB := B). destruct BB as (e & rest & Ee & PR & NR & PG & GN & GI & GO).
  assert (Inn : In n (g_nodes g)). { assert (In e (g_edges g)) as J by (apply (Permutation_in e (Permutation_sym PR)); left; reflexivity). destruct (wf_ends g W e J) as [_ J']. rewrite Ee in J'. exact J'. }
  assert (OUT : forall val : nat -> nat -> V, val n k = val p k -> outputs g' val = outputs g val).
  { intros val E. unfold outputs. rewrite GO, map_map. apply map_ext_in. intros [a b] J. unfold reout, rename. cbn. destruct (Nat.eqb_spec a n) as [->|N]; [|reflexivity]. specialize (RO (n, b) J eq_refl). cbn in RO. subst b. symmetry. exact E. }
  split.
  - intros val C. assert (E : val n k = val p k). { rewrite (C n Inn [val p k]); [apply OP|]. apply (identity_reads _ _ _ _ _ _ _ B). reflexivity. }
    split; [|apply OUT, E]. intros m I l R j. rewrite GN in I. apply filter_In in I. destruct I as [I J]. destruct (Nat.eqb_spec n m) as [?|N]; [discriminate|].
    apply C; [exact I|]. apply (reads_bypassed _ _ _ _ _ _ _ _ B); [congruence| |exact R]. intros x X1 X2. rewrite (RE x X1 X2). exact E.
  - intros val' C. set (val := fun m j => if Nat.eqb m n then op n [val' p k] j else val' m j).
    assert (VN : forall m, m <> n -> val m = val' m). { intros m N. unfold val. destruct (Nat.eqb_spec m n); [contradiction|reflexivity]. }
    assert (E : val n k = val p k). { rewrite (VN p pn). unfold val. rewrite Nat.eqb_refl. apply OP. }
    assert (Vn : forall j, val n j = op n [val' p k] j). { intro j. unfold val. rewrite Nat.eqb_refl. reflexivity. }
    assert (NV : forall m l, m <> n -> (reads g' val m l <-> reads g' val' m l)).
    { intros m l N. unfold reads. assert (Q : forall es, Permutation es (filter (fun e => Nat.eqb (snk e) m) (g_edges g')) -> map (fun e => val (src e) (si e)) es = map (fun e => val' (src e) (si e)) es).
      { intros es P. apply map_ext_in. intros x J. apply (Permutation_in x P) in J. apply filter_In in J. destruct J as [J _]. apply (Permutation_in x PG) in J. apply in_map_iff in J. destruct J as (y & <- & J).
        rewrite VN; [reflexivity|]. destruct (resrc_props n p y) as (_ & _ & _ & ->). unfold rename. destruct (Nat.eqb_spec (src y) n); congruence. }
      split; intros (es & P & S & ->); exists es; (split; [exact P|]); (split; [exact S|]); [|symmetry]; apply Q, P. }
    exists val. split; [|split].
    + intros m I l R j. destruct (Nat.eq_dec m n) as [->|N].
      * apply (identity_reads _ _ _ _ _ _ _ B) in R. subst l. rewrite Vn, (VN p pn). reflexivity.
      * rewrite (VN m N). apply C; [rewrite GN; apply filter_In; split; [exact I|destruct (Nat.eqb_spec n m); [congruence|reflexivity]]|].
        apply NV; [exact N|]. apply (reads_bypassed _ _ _ _ _ _ _ _ B); [exact N| |exact R]. intros x X1 X2. rewrite (RE x X1 X2). exact E.
    + exact VN.
    + rewrite <- (OUT val E). unfold outputs. rewrite GO. apply map_ext_in. intros o J. apply in_map_iff in J. destruct J as ([a b] & <- & J). unfold reout, rename. cbn. rewrite VN; [reflexivity|]. destruct (Nat.eqb_spec a n); congruence.
Qed.
End Function.
Print Assumptions identity_removal_preserves.

Theorem identity_removal_succeeds g n p : wf g -> prev_nodes g n = [p] -> p <> n -> ~ In n (g_in g) -> exists g', remove_identity no_check g n = Ok g'.
Proof.
  intros W HP pn NI. unfold remove_identity. rewrite HP. set (outs := map _ (g_out g)).
  destruct (reconnect_out_total no_check (fun _ => eq_refl) (set_out g outs) n p) as [g1 E1]. rewrite E1. cbn [bind].
  assert (W0 : wf (set_out g outs)) by (destruct W; split; assumption).
  destruct (reconnect_out_spec no_check _ _ _ _ W0 E1) as (P1 & I1 & O1 & W1 & N1). cbn in P1, I1, O1, N1.
  assert (exists e, in_edges g n = [e] /\ src e = p) as (e & IE & Ep).
  { unfold prev_nodes in HP. destruct (in_edges g n) as [|e [|? ?]]; try discriminate. exists e. split; [reflexivity|]. cbn in HP. congruence. }
  assert (Ie : In e (g_edges g) /\ snk e = n) by (apply in_edges_in; rewrite IE; left; reflexivity). destruct Ie as [Ie En].
  assert (Re : resrc n p e = e). { unfold resrc. rewrite Ep. destruct (Nat.eqb_spec p n); [contradiction|reflexivity]. }
  assert (J : In e (g_edges g1)) by (apply (Permutation_in e (Permutation_sym P1)); rewrite <- Re; apply in_map, Ie).
  destruct (remove_edge_total g1 p n e J Ep En) as [g2 E2]. unfold remove_edge. rewrite E2. cbn [bind]. unfold checked. unfold no_check at 1. cbn [bind].
  destruct (remove_edge_spec _ _ _ _ E2) as (x & X1 & X2 & P2 & X3).
  apply remove_node_succeeds. split; [rewrite X3; cbn; apply N1; left; destruct (wf_ends g W e Ie); congruence|]. split; [|split].
  - intros z Z. assert (Z1 : In z (g_edges g1)) by (apply (Permutation_in z (Permutation_sym P2)); right; exact Z). apply (Permutation_in z P1) in Z1. apply in_map_iff in Z1. destruct Z1 as (y & Ey & Y).
    destruct (resrc_props n p y) as (A & _ & _ & D). rewrite Ey in A, D. split; [rewrite D; unfold rename; destruct (Nat.eqb_spec (src y) n); congruence|].
    intro Zn. assert (CT : length (filter (fun e => Nat.eqb (snk e) n) (g_edges g1)) = 1).
    { rewrite (filter_length_perm _ _ _ P1), filter_map_comm, map_length. rewrite (filter_ext _ (fun e => Nat.eqb (snk e) n)); [|intro w; destruct (resrc_props n p w) as (-> & _); reflexivity].
      rewrite <- (Permutation_length (in_edges_perm g n)), IE. reflexivity. }
    rewrite (filter_length_perm _ _ _ P2) in CT. cbn [filter] in CT. rewrite X2, Nat.eqb_refl in CT. cbn [length] in CT.
    assert (In z (filter (fun e => Nat.eqb (snk e) n) (g_edges g2))) as Q by (apply filter_In; split; [exact Z|apply Nat.eqb_eq, Zn]). destruct (filter _ (g_edges g2)); [destruct Q|discriminate].
  - discriminate.
  - rewrite X3. cbn. rewrite I1. contradiction.
Qed.
Print Assumptions identity_removal_succeeds.

(* ---- finding: the readers of an identity of the second output of a split read its first output instead ---- *)
Lemma reads_small {V} g (val : nat -> nat -> V) n l : reads g val n l -> length (filter (fun e => Nat.eqb (snk e) n) (g_edges g)) <= 1 ->
  l = map (fun e => val (src e) (si e)) (filter (fun e => Nat.eqb (snk e) n) (g_edges g)).
Proof.
  intros (es & P & _ & ->) L. f_equal. destruct (filter _ (g_edges g)) as [|e [|? ?]]; [apply Permutation_nil; symmetry; exact P|apply Permutation_length_1_inv; symmetry; exact P|cbn in L; lia].
Qed.
Definition split_op (n : nat) (l : list nat) (k : nat) : nat := match n with 0 => k + 7 | _ => hd 0 l end.
Theorem identity_of_second_output_refuted : exists g n p g' val val', wf g /\ prev_nodes g n = [p] /\ p <> n /\ remove_identity no_check g n = Ok g' /\
  (forall x, split_op n [x] 0 = x) /\ (forall x, In x (g_edges g) -> src x = n -> si x = 0) /\ (forall o, In o (g_out g) -> fst o = n -> snd o = 0) /\
  computes split_op g val /\ computes split_op g' val' /\ Forall2 (fun a b => a <> b) (outputs g' val') (outputs g val) /\ outputs g val <> [].
Proof.
  exists (Graph [0; 1; 2] [Edge 0 1 1 0; Edge 1 2 0 0] [0] [(2, 0); (1, 0)]), 1, 0. eexists. exists (fun n k => match n with 0 => k + 7 | _ => 8 end), (fun n k => match n with 0 => k + 7 | _ => 7 end).
  split; [|split; [reflexivity|split; [discriminate|split; [vm_compute; reflexivity|]]]].
  - split; [repeat (constructor; [cbn; intuition lia|]); constructor|]. intros e I. cbn in *. intuition (subst; cbn; tauto).
  - split; [reflexivity|]. split; [|split; [|split; [|split; [|split]]]].
    + intros x I. cbn in I. destruct I as [<-|[<-|[]]]; cbn; [discriminate|reflexivity].
    + intros x I. cbn in I. destruct I as [<-|[<-|[]]]; cbn; [discriminate|reflexivity].
    + intros n I l R k. cbn in I. destruct I as [<-|[<-|[<-|[]]]]; apply reads_small in R; cbn; try lia; cbn in R; subst l; reflexivity.
    + intros n I l R k. cbn in I. destruct I as [<-|[<-|[]]]; apply reads_small in R; cbn; try lia; cbn in R; subst l; reflexivity.
    + cbn. repeat constructor; discriminate.
    + cbn. discriminate.
Qed.
Print Assumptions identity_of_second_output_refuted.
(* an identity of the first output of a split that two nodes read and that is an output of the model *)
Example identity_ex : exists g', remove_identity no_check (Graph [0; 1; 2; 3] [Edge 0 1 0 0; Edge 0 2 1 1; Edge 1 2 0 0; Edge 1 3 0 0] [0] [(3, 0); (1, 0); (2, 0)]) 1 = Ok g' /\
  g_edges g' = [Edge 0 2 1 1; Edge 0 2 0 0; Edge 0 3 0 0] /\ g_out g' = [(3, 0); (0, 0); (2, 0)].
Proof. eexists. split; [vm_compute; reflexivity|]. split; reflexivity. Qed.

(* ---- equality of edges ---- *)
Theorem edge_equality a b : edge_eq a b = true <-> src a = src b /\ snk a = snk b /\ si a = si b /\ ti b = si b.
Proof. unfold edge_eq. rewrite !andb_true_iff, !Nat.eqb_eq. intuition congruence. Qed.
Print Assumptions edge_equality.
(* equal edges have the same ends and source index; edges with sink index equal to source index on both
   sides are equal exactly when all four agree; but an edge whose two indices differ is not equal to itself *)
Theorem edge_equality_not_reflexive_refuted : (exists e, edge_eq e e = false) /\ (exists a b, edge_eq a b = true /\ edge_eq b a = false /\ ti a <> ti b).
Proof. split; [exists (Edge 0 1 0 1); reflexivity|]. exists (Edge 0 1 0 1), (Edge 0 1 0 0). split; [reflexivity|]. split; [reflexivity|]. cbn. discriminate. Qed.
Print Assumptions edge_equality_not_reflexive_refuted.

(* ---- searching ---- *)
Lemma all_edges_perm g : wf g -> Permutation (all_edges g) (g_edges g).
Proof.
  intro W. unfold all_edges. apply perm_trans with (flat_map (fun k => filter (fun e => Nat.eqb (src e) k) (g_edges g)) (g_nodes g)).
  - induction (g_nodes g) as [|k ks IH]; [constructor|]. cbn. apply Permutation_app; [apply out_edges_perm|exact IH].
  - apply group_perm; [apply (wf_nodes g W)|]. intros e I. apply (wf_ends g W e I).
Qed.
(* every edge of the graph that matches is returned as often as it occurs *)
Theorem edge_search g p : wf g -> Permutation (edge_filter g p) (filter p (map (fun e => (src e, snk e)) (g_edges g))).
Proof.
  intro W. unfold edge_filter. rewrite filter_map_comm. apply Permutation_map. rewrite <- (filter_perm _ _ _ (all_edges_perm g W)).
  apply Permutation_refl'. apply filter_ext_in. intros e I. apply (Permutation_in e (all_edges_perm g W)) in I.
  assert (In e (out_edges g (src e))) as J by (apply out_edges_in; auto). destruct (out_edges g (src e)); [destruct J|]. cbn. rewrite andb_true_r. reflexivity.
Qed.
Print Assumptions edge_search.

Lemma next_degree g n : length (next_nodes g n) = out_degree g n.
Proof. unfold next_nodes, out_degree. rewrite map_length. apply Permutation_length, out_edges_perm. Qed.
Lemma next_linked g n m : In m (next_nodes g n) <-> linked g n m.
Proof.
  unfold next_nodes, linked. rewrite in_map_iff. split; [intros (e & <- & I); apply out_edges_in in I; exists e; tauto|intros (e & I & A & B)]. exists e. split; [exact B|]. apply out_edges_in. auto.
Qed.
(* all nodes but the first and the last of a walk *)
Definition inner (w : list nat) : list nat := removelast (tl w).
Lemma walk_match_spec g ms : forall n acc w, In w (walk_match g ms n acc) <->
  exists r, w = acc ++ n :: r /\ Forall2 (fun m x => m x = true) ms (n :: r) /\ walk g (n :: r) /\ Forall (fun x => out_degree g x = 1) (inner (n :: r)).
Proof.
  induction ms as [|m ms IH]; intros n acc w; [cbn; split; [tauto|]; intros (r & _ & F & _); inversion F|].
  cbn [walk_match]. destruct (m n) eqn:M.
  2:{ split; [intros []|]. intros (r & _ & F & _). inversion F; subst. congruence. }
  destruct ms as [|m' ms'].
  { split.
    - intros [<-|[]]. exists []. split; [reflexivity|]. split; [repeat constructor; exact M|]. split; [exact I|constructor].
    - intros (r & -> & F & _). inversion F as [|? ? ? ? _ F']; subst. inversion F'; subst. left. reflexivity. }
  rewrite in_flat_map. split.
  - intros (nn & I1 & I2). apply filter_In in I1. destruct I1 as [I1 C]. apply next_linked in I1. apply IH in I2. destruct I2 as (r & -> & F & WK & IN).
    exists (nn :: r). split; [rewrite <- app_assoc; reflexivity|]. split; [constructor; assumption|]. split; [split; assumption|].
    unfold inner in *. cbn [tl] in *. destruct r as [|x r]; [constructor|]. change (removelast (nn :: x :: r)) with (nn :: removelast (x :: r)).
    assert (out_degree g nn = 1) as D.
    { destruct ms' as [|m'' ms'']; [inversion F as [|? ? ? ? _ F']; subst; inversion F'|]. rewrite orb_false_r in C. apply Nat.eqb_eq in C. rewrite next_degree in C. exact C. }
    constructor; [exact D|exact IN].
  - intros (r & -> & F & WK & IN). inversion F as [|? ? ? ? _ F']; subst. inversion F' as [|? nn ? r' Hm F'']; subst. destruct WK as [L WK]. exists nn. split.
    + apply filter_In. split; [apply next_linked, L|]. rewrite next_degree. destruct ms' as [|m'' ms'']; [apply orb_true_r|]. rewrite orb_false_r. apply Nat.eqb_eq.
      inversion F'' as [|? x ? r'' ? ?]; subst. unfold inner in IN. cbn in IN. inversion IN; subst. assumption.
    + apply IH. exists r'. split; [rewrite <- app_assoc; reflexivity|]. split; [exact F'|]. split; [exact WK|]. unfold inner in *. cbn [tl] in *. destruct r' as [|x r']; [constructor|]. change (removelast (nn :: x :: r')) with (nn :: removelast (x :: r')) in IN. inversion IN; subst. assumption.
Qed.
(* exactly the walks of the graph that match in order, whose first node and inner nodes have one consumer *)
Theorem walk_search g ms w : wf g ->
  (In w (walk_filter g ms) <->
   Forall2 (fun m x => m x = true) ms w /\ walk g w /\ (exists n, hd_error w = Some n /\ In n (g_nodes g) /\ out_degree g n = 1) /\ Forall (fun x => out_degree g x = 1) (inner w)).
Proof.
  intro W. unfold walk_filter. rewrite in_flat_map. split.
  - intros (n & I1 & I2). apply filter_In in I1. destruct I1 as [I1 C]. apply Nat.eqb_eq in C. rewrite next_degree in C. apply walk_match_spec in I2. destruct I2 as (r & -> & F & WK & IN). cbn [app].
    split; [exact F|]. split; [exact WK|]. split; [exists n; auto|exact IN].
  - intros (F & WK & (n & H1 & H2 & H3) & IN). destruct w as [|n' r]; [discriminate|]. injection H1 as ->. exists n. split; [apply filter_In; split; [exact H2|]; rewrite next_degree; apply Nat.eqb_eq, H3|].
    apply walk_match_spec. exists r. auto.
Qed.
Print Assumptions walk_search.
(* no walk is returned twice *)
Lemma walk_match_nodup g ms : forall n acc, (out_degree g n <= 1) -> NoDup (walk_match g ms n acc).
Proof.
  induction ms as [|m ms IH]; intros n acc D; [constructor|]. cbn [walk_match]. destruct (m n); [|constructor]. destruct ms as [|m' ms']; [repeat constructor; intros []|].
  rewrite <- next_degree in D. destruct (next_nodes g n) as [|a [|? ?]]; [constructor| |cbn in D; lia]. cbn [filter].
  destruct (Nat.eqb_spec (length (next_nodes g a)) 1) as [E|E]; cbn [orb].
  - cbn [flat_map]. rewrite app_nil_r. apply IH. rewrite <- next_degree. lia.
  - destruct ms'; [|constructor]. cbn [flat_map]. rewrite app_nil_r. cbn. destruct (m' a); repeat constructor; intros [].
Qed.
Theorem walk_search_once g ms : wf g -> NoDup (walk_filter g ms).
Proof.
  intro W. unfold walk_filter. assert (ND : NoDup (filter (fun n => Nat.eqb (length (next_nodes g n)) 1) (g_nodes g))) by apply NoDup_filter, (wf_nodes g W).
  assert (D : forall n, In n (filter (fun n => Nat.eqb (length (next_nodes g n)) 1) (g_nodes g)) -> out_degree g n <= 1).
  { intros n I. apply filter_In in I. destruct I as [_ I]. apply Nat.eqb_eq in I. rewrite next_degree in I. lia. }
  induction ND as [|n l N ND IH]; [constructor|]. cbn [flat_map].
  assert (A : NoDup (walk_match g ms n [])) by (apply walk_match_nodup, D; left; reflexivity). assert (B := IH (fun m I => D m (or_intror I))).
  assert (C : forall w, In w (walk_match g ms n []) -> ~ In w (flat_map (fun n => walk_match g ms n []) l)).
  { intros w I J. apply walk_match_spec in I. destruct I as (r & -> & _). apply in_flat_map in J. destruct J as (k & K & J). apply walk_match_spec in J. destruct J as (r' & E & _). injection E as -> _. contradiction. }
  induction (walk_match g ms n []) as [|w ws IHw]; [exact B|]. cbn. inversion A; subst. constructor; [|apply IHw; [assumption|intros v V; apply C; right; exact V]].
  intro J. apply in_app_or in J. destruct J as [J|J]; [contradiction|]. exact (C w (or_introl eq_refl) J).
Qed.
Print Assumptions walk_search_once.
(* finding: a pattern of a single node is not found at a node with two consumers, or at the last node *)
Theorem single_node_pattern_refuted : exists g m, wf g /\ (exists n, In n (g_nodes g) /\ m n = true) /\ node_filter g m <> [] /\ walk_filter g [m] = [].
Proof.
  exists (Graph [0; 1; 2] [Edge 0 1 0 0; Edge 0 2 0 0] [0] [(1, 0); (2, 0)]), (fun _ => true). split; [|split; [|split]].
  - split; [repeat (constructor; [cbn; intuition lia|]); constructor|]. intros e I. cbn in *. intuition (subst; cbn; tauto).
  - exists 0. cbn. auto.
  - discriminate.
  - vm_compute. reflexivity.
Qed.
Print Assumptions single_node_pattern_refuted.
(* the chain 0 -> 1 -> 2 where 2 has two consumers *)
Example walk_ex : walk_filter (Graph [0; 1; 2; 3; 4] [Edge 0 1 0 0; Edge 1 2 0 0; Edge 2 3 0 0; Edge 2 4 0 0] [0] [(3, 0)]) [Nat.eqb 0; Nat.leb 1; fun n => Nat.eqb n 2] = [[0; 1; 2]].
Proof. vm_compute. reflexivity. Qed.
Example edge_ex : edge_filter dg (fun p => Nat.eqb (fst p) 0) = [(0, 1); (0, 1); (0, 2)].
Proof. vm_compute. reflexivity. Qed.
