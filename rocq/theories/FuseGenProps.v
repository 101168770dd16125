(* FuseGenProps.v -- generation of fused operations (C30) and findings about their book-keeping (C29). *)
From Coq Require Import Permutation Sorted String Lia.
From Verif Require Import Base GraphModel GraphSpec GraphProofs FuseModel FuseSpec FuseProofs FuseProps FuseGenProofs.
Open Scope list_scope.
Open Scope res_scope.
Local Open Scope nat_scope.

Section Gen.
Context {E : Type}.
Variable name : nat -> string.
Variable matches : E -> nat -> bool.
Notation fits ps := (fits matches (map fp_layers ps)).
Notation longest g ps := (longest matches g (map (@fp_layers E) ps)).

Lemma depth_ok (ps : list (@pattern E)) p : In p (map fp_layers ps) -> length p <= fold_right Nat.max 0 (map (@length _) (map fp_layers ps)).
Proof. induction (map fp_layers ps) as [|q l IH]; [intros []|]. cbn. intros [->|I]; [lia|]. specialize (IH I). lia. Qed.
Lemma generate_inv g topo ps f : generate name matches g topo ps [] = Ok f -> ps <> [] ->
  exists data fused, gen_inv name matches g (map fp_layers ps) topo (data, fused) /\ make_info name matches ps [] data = Ok f.
Proof.
  intros H N. destruct ps as [|p0 ps']; [congruence|]. set (ps := p0 :: ps') in *. unfold generate in H. cbn [ps] in H. fold ps in H.
  destruct (foldM (gen_step _ _ _ _ _) topo ([], [])) as [[data fused]|] eqn:F; cbn [bind foldM fst] in H; [|discriminate]. exists data, fused. split; [|exact H].
  apply (gen_loop_inv name matches g (map fp_layers ps) _ (depth_ok ps) topo [] ([], []) (data, fused) (gen_start _ _ _ _) F).
Qed.
Lemma make_info_data patterns manual data f : make_info name matches patterns manual data = Ok f -> fi_data f = data /\ fi_patterns f = patterns /\ fi_manual f = manual.
Proof.
  unfold make_info. destruct (negb _); [discriminate|]. intro H. injection H as <-.
  assert (Q : forall d (f0 : @finfo E), let f1 := fold_left (fun f kv => set_cfg name matches f (fst kv) (snd kv)) d f0 in fi_data f1 = fi_data f0 /\ fi_patterns f1 = fi_patterns f0 /\ fi_manual f1 = fi_manual f0).
  { induction d as [|kv d IH]; intro f0; [cbn; auto|]. cbn. destruct (IH (set_cfg name matches f0 (fst kv) (snd kv))) as (-> & -> & ->). destruct (set_cfg_rest name matches f0 (fst kv) (snd kv)) as (A & B & C & _). rewrite A, B, C. auto. }
  apply Q.
Qed.

(* every operation is a chain of the graph that matches a pattern in full: the longest chain from its first
   node that some pattern begins with *)
Theorem generated_operations g topo ps f op ns : generate name matches g topo ps [] = Ok f -> In (op, ns) (fi_data f) ->
  chain g ns /\ 2 <= length ns /\ (exists p, In p ps /\ full_match matches (fp_layers p) ns) /\
  exists n, In n topo /\ hd_error ns = Some n /\ longest g ps n ns.
Proof.
  intros H I. destruct ps as [|p0 ps']; [injection H as <-; destruct I|]. set (ps := p0 :: ps') in *. destruct (generate_inv g topo ps f H) as (data & fused & G & M); [discriminate|].
  apply make_info_data in M. destruct M as (M & _). rewrite M in I. destruct (gi_ops _ _ _ _ _ _ G op ns I) as (_ & [A (p & B & C)] & n & D & F & L).
  split; [apply L|]. split; [exact A|]. split; [apply in_map_iff in B; destruct B as (q & <- & B); eauto|eauto].
Qed.
(* and nothing is missed: a node that is in no operation starts no such chain *)
Theorem generated_all g topo ps f n : generate name matches g topo ps [] = Ok f -> In n topo ->
  (exists op ns, In (op, ns) (fi_data f) /\ In n ns) \/
  forall ns p, longest g ps n ns -> In p ps -> 2 <= length ns -> ~ full_match matches (fp_layers p) ns.
Proof.
  intros H I. destruct ps as [|p0 ps']; [right; intros ns p _ []|]. set (ps := p0 :: ps') in *. destruct (generate_inv g topo ps f H) as (data & fused & G & M); [discriminate|].
  apply make_info_data in M. destruct M as (M & _). rewrite M. destruct (gi_all _ _ _ _ _ _ G n I) as [A|A]; [left; apply (gi_fused _ _ _ _ _ _ G), A|].
  right. intros ns p L J L2 F. apply (A ns L). split; [exact L2|]. exists (fp_layers p). split; [apply in_map, J|exact F].
Qed.
(* when every node of an operation but the first has a single producer, operations share no node *)
Theorem generated_disjoint g topo ps f : generate name matches g topo ps [] = Ok f -> wf g -> topological g topo ->
  (forall op ns, In (op, ns) (fi_data f) -> steps (only_prev g) ns) ->
  (forall op ns, In (op, ns) (fi_data f) -> NoDup ns) /\
  (forall o1 o2 l1 l2 n, In (o1, l1) (fi_data f) -> In (o2, l2) (fi_data f) -> In n l1 -> In n l2 -> o1 = o2 /\ l1 = l2).
Proof.
  intros H W T SP. assert (NT : NoDup topo) by (destruct T as [T _]; apply (Permutation_NoDup (Permutation_sym T)), (wf_nodes g W)).
  split; [intros op ns I; apply (topo_nodup g topo ns NT T); apply (generated_operations g topo ps f op ns H I)|].
  destruct ps as [|p0 ps']; [injection H as <-; intros ? ? ? ? ? []|]. set (ps := p0 :: ps') in *. destruct (generate_inv g topo ps f H) as (data & fused & G & M); [discriminate|].
  apply make_info_data in M. destruct M as (M & _). rewrite M in SP |- *. cbn [fst] in *.
  (* the earlier operation and the later one *)
  assert (KEY : forall a kv b kv' c n, data = a ++ kv :: b ++ kv' :: c -> In n (snd kv) -> ~ In n (snd kv')).
  { intros a kv b kv' c n Eq I1. destruct (gi_order _ _ _ _ _ _ G a kv b kv' c Eq) as (s & s' & p & q & r & D1 & D2 & D3 & D4). apply (idx_order _ _ _ _ _ _ NT) in D4.
    assert (In kv data) as J1 by (rewrite Eq; apply in_or_app; right; left; reflexivity). assert (In kv' data) as J2 by (rewrite Eq; apply in_or_app; right; right; apply in_or_app; right; left; reflexivity).
    destruct kv as [o1 l1]. destruct kv' as [o2 l2]. cbn [snd] in *. destruct (gi_ops _ _ _ _ _ _ G o1 l1 J1) as (_ & _ & u1 & _ & _ & L1). destruct (gi_ops _ _ _ _ _ _ G o2 l2 J2) as (_ & _ & u2 & _ & _ & L2).
    destruct L1 as [C1 _]. destruct L2 as [C2 _]. assert (P1 := SP o1 l1 J1). assert (P2 := SP o2 l2 J2).
    (* walk l2 from its start *)
    destruct l2 as [|b0 l2]; [discriminate|]. injection D2 as ->.
    assert (WALK : forall l x, steps (only_prev g) (x :: l) -> chain g (x :: l) -> ~ In x l1 -> idx topo s < idx topo x -> forall y, In y (x :: l) -> ~ In y l1).
    { induction l as [|z l IH]; intros x P C NX IX y [<-|Y]; [exact NX|destruct Y|exact NX|]. destruct P as [P P']. destruct C as [C C'].
      assert (IZ : idx topo x < idx topo z) by (apply (topo_steps g topo [x; z] NT T) with (r := [z]); [split; [exact C|exact I]|reflexivity|left; reflexivity]).
      apply (IH z P' C'); [|lia|exact Y]. intro IN. apply in_split in IN. destruct IN as (u & v & Eu). destruct u as [|w u] using rev_ind.
      - rewrite Eu in D1. injection D1 as ->. lia.
      - clear IHu. rewrite Eu, <- app_assoc in P1. cbn [app] in P1. change (u ++ w :: z :: v) with (u ++ [w; z] ++ v) in P1. rewrite app_assoc in P1. apply steps_prefix, steps_snoc in P1. destruct P1 as [_ P1].
        assert (w = x) by exact (only_prev_unique g w x z P1 P). subst w. apply NX. rewrite Eu, <- app_assoc. apply in_or_app. right. left. reflexivity. }
    intro I2. exact (WALK l2 s' P2 C2 D3 D4 n I2 I1). }
  intros o1 o2 l1 l2 n I1 I2 N1 N2. assert (Q : (o1, l1) = (o2, l2)); [|injection Q as -> ->; auto].
  apply in_split in I1. destruct I1 as (a & b & Ea). rewrite Ea in I2. apply in_app_or in I2. destruct I2 as [I2|[I2|I2]]; [|exact I2|].
  - exfalso. apply in_split in I2. destruct I2 as (a1 & a2 & E2). apply (KEY a1 (o2, l2) a2 (o1, l1) b n); [rewrite Ea, E2, <- app_assoc; reflexivity|exact N2|exact N1].
  - exfalso. apply in_split in I2. destruct I2 as (a1 & a2 & E2). apply (KEY a (o1, l1) a1 (o2, l2) a2 n); [rewrite Ea, E2; reflexivity|exact N1|exact N2].
Qed.

(* ---- operations asked for by hand ---- *)
Definition named (g : graph) (names : list string) (ns : list nat) : Prop :=
  Forall2 (fun nm n => In n (g_nodes g) /\ name n = nm /\ forall m, In m (g_nodes g) -> name m = nm -> m = n) names ns.
Definition apart (a b : list nat) : Prop := forall n, In n a -> ~ In n b.
Lemma named_spec g names ns : wf g -> mapM (fun nm => match filter (fun n => String.eqb nm (name n)) (g_nodes g) with [n] => Ok n | _ => Err E_value end) names = Ok ns <-> named g names ns.
Proof.
  intro W. revert ns. induction names as [|nm names IH]; intro ns; cbn [mapM].
  - split; [intro H; injection H as <-; constructor|intro H; inversion H; reflexivity].
  - assert (ONE : forall n, filter (fun n => String.eqb nm (name n)) (g_nodes g) = [n] <-> In n (g_nodes g) /\ name n = nm /\ forall m, In m (g_nodes g) -> name m = nm -> m = n).
    { intro n. split.
      - intro Q. assert (I : In n (filter (fun n => String.eqb nm (name n)) (g_nodes g))) by (rewrite Q; left; reflexivity). apply filter_In in I. destruct I as [I J]. apply String.eqb_eq in J. split; [exact I|]. split; [congruence|].
        intros m Im Nm. assert (J' : In m (filter (fun n => String.eqb nm (name n)) (g_nodes g))) by (apply filter_In; split; [exact Im|apply String.eqb_eq; congruence]). rewrite Q in J'. destruct J' as [J'|[]]. congruence.
      - intros (I & J & U). assert (ND := NoDup_filter (fun n => String.eqb nm (name n)) (wf_nodes g W)). assert (In n (filter (fun n => String.eqb nm (name n)) (g_nodes g))) as K by (apply filter_In; split; [exact I|apply String.eqb_eq; congruence]).
        assert (U' : forall m, In m (filter (fun n => String.eqb nm (name n)) (g_nodes g)) -> m = n) by (intros m Q; apply filter_In in Q; destruct Q as [Q1 Q2]; apply String.eqb_eq in Q2; apply U; congruence).
        destruct (filter _ (g_nodes g)) as [|a [|b l]]; [destruct K|f_equal; apply U'; left; reflexivity|]. inversion ND; subst. exfalso. apply H1. left. rewrite (U' a (or_introl eq_refl)), (U' b (or_intror (or_introl eq_refl))). reflexivity. }
    split.
    + intro H. destruct (filter _ (g_nodes g)) as [|n [|? ?]] eqn:Q; try discriminate. cbn [bind] in H. destruct (mapM _ names) as [l|] eqn:M; cbn [bind] in H; [|discriminate]. injection H as <-. constructor; [apply ONE; reflexivity|]. apply IH. reflexivity.
    + intro H. inversion H as [|? n ? l A B]; subst. apply ONE in A. rewrite A. cbn [bind]. apply IH in B. rewrite B. reflexivity.
Qed.
(* the operations that remain are the generated ones that share no node with a manual one, and the manual
   ones that share no node with a later manual one *)
Lemma manual_steps g manual : wf g -> forall data data', NoDup (map fst data) -> foldM (manual_step name g) manual data = Ok data' -> NoDup (map fst data') /\
  exists nss, Forall2 (named g) manual nss /\
  forall op ns, In (op, ns) data' <->
    (In (op, ns) data /\ Forall (fun m => apart m ns) nss) \/ (exists pre post, nss = pre ++ ns :: post /\ op = op_id name ns /\ Forall (fun m => apart m ns) post).
Proof.
  intro W. induction manual as [|names manual IH]; intros data data' ND H; cbn [foldM] in H.
  - injection H as <-. split; [exact ND|]. exists []. split; [constructor|]. intros op ns. split; [intro I; left; split; [exact I|constructor]|]. intros [[I _]|(pre & post & Q & _)]; [exact I|destruct pre; discriminate].
  - destruct (manual_step name g data names) as [d1|] eqn:S; cbn [bind] in H; [|discriminate]. unfold manual_step in S. destruct (mapM _ names) as [l|] eqn:M; cbn [bind] in S; [|discriminate]. apply (named_spec g names l W) in M.
    set (d0 := filter _ data) in S. unfold sin in S. destruct (sget (op_id name l) d0) eqn:G; [discriminate|]. injection S as <-. rewrite (sset_new _ _ _ G) in H. apply sget_none in G.
    assert (N0 : NoDup (map fst d0)).
    { unfold d0. clear -ND. induction data as [|x d IHd]; [constructor|]. cbn in ND |- *. inversion ND; subst. destruct (negb _); [|auto]. cbn. constructor; [|auto]. intro J. apply H1. apply in_map_iff in J. destruct J as (y & Q & J). apply filter_In in J. rewrite <- Q. apply in_map, J. }
    assert (I0 : forall op ns, In (op, ns) d0 <-> In (op, ns) data /\ apart l ns).
    { intros op ns. unfold d0, apart. rewrite filter_In. cbn [snd]. split.
      - intros [A B]. split; [exact A|]. intros n I J. apply negb_true_iff in B. rewrite <- not_true_iff_false in B. apply B, existsb_exists. exists n. split; [exact I|apply mem_spec, J].
      - intros [A B]. split; [exact A|]. apply negb_true_iff, not_true_iff_false. intro Q. apply existsb_exists in Q. destruct Q as (n & I & J). apply mem_spec in J. exact (B n I J). }
    assert (N1 : NoDup (map fst (d0 ++ [(op_id name l, l)]))) by (rewrite map_app; apply NoDup_snoc; assumption). destruct (IH _ _ N1 H) as (N' & nss & F & C). split; [exact N'|]. exists (l :: nss). split; [constructor; [exact M|exact F]|].
    intros op ns. rewrite C, in_app_iff, I0. split.
    + intros [[[[A B]|[A|[]]] D]|(pre & post & Q & R & D)].
      * left. split; [exact A|]. constructor; assumption.
      * injection A as <- <-. right. exists [], nss. auto.
      * right. exists (l :: pre), post. rewrite Q. auto.
    + intros [[A B]|(pre & post & Q & R & D)].
      * inversion B; subst. left. split; [left; auto|assumption].
      * destruct pre as [|x pre]; cbn in Q; injection Q as -> ->; [left; split; [right; left; congruence|exact D]|right; exists pre, post; auto].
Qed.
Theorem manual_operations g topo ps manual f : wf g -> ps <> [] -> generate name matches g topo ps manual = Ok f ->
  exists f0 nss, generate name matches g topo ps [] = Ok f0 /\ Forall2 (named g) manual nss /\
  forall op ns, In (op, ns) (fi_data f) <->
    (In (op, ns) (fi_data f0) /\ Forall (fun m => apart m ns) nss) \/ (exists pre post, nss = pre ++ ns :: post /\ op = op_id name ns /\ Forall (fun m => apart m ns) post).
Proof.
  intros W N H. destruct ps as [|p0 ps']; [congruence|]. set (ps := p0 :: ps') in *. unfold generate in H. cbn [ps] in H. fold ps in H.
  destruct (foldM (gen_step _ _ _ _ _) topo ([], [])) as [[data fused]|] eqn:F; cbn [bind fst] in H; [|discriminate].
  assert (G := gen_loop_inv name matches g (map fp_layers ps) _ (depth_ok ps) topo [] ([], []) (data, fused) (gen_start _ _ _ _) F).
  destruct (foldM (manual_step name g) manual data) as [d'|] eqn:M; cbn [bind] in H; [|discriminate]. apply make_info_data in H. destruct H as (H & _).
  assert (OK : exists f0, make_info name matches ps [] data = Ok f0).
  { unfold make_info. assert (forallb (fun kv => String.prefix FUSED_OP_ID_PREFIX (fst kv) && Nat.ltb 1 (length (snd kv))) data = true) as ->; [|cbn [negb]; eauto].
    apply forallb_forall. intros [op ns] I. destruct (gi_ops _ _ _ _ _ _ G op ns I) as (-> & [L _] & _). cbn [fst snd]. apply andb_true_iff. split; [|apply Nat.ltb_lt; lia]. unfold op_id. clear. generalize (join (map name ns)). intro s. unfold FUSED_OP_ID_PREFIX. cbn. destruct s; reflexivity. }
  destruct OK as [f0 OK]. exists f0. destruct (manual_steps g manual W data d' (gi_keys _ _ _ _ _ _ G) M) as (_ & nss & A & B). exists nss. split; [|split; [exact A|]].
  - unfold generate. cbn [ps]. fold ps. rewrite F. cbn [bind foldM fst]. exact OK.
  - apply make_info_data in OK. destruct OK as (OK & _). rewrite H, OK. exact B.
Qed.
End Gen.
Print Assumptions generated_operations.
Print Assumptions generated_all.
Print Assumptions generated_disjoint.
Print Assumptions manual_operations.

(* ---- examples: layers of kind 0, 1, 2, ... ---- *)
Definition nm (n : nat) : string := String (Ascii.ascii_of_nat (65 + n)) EmptyString.
Definition of_kind (kinds : list nat) (x n : nat) : bool := Nat.eqb x (nth n kinds 99).
Definition pt (l : list nat) : @pattern nat := Pattern l (Some (QCfg 0 true)).
(* A -> B -> C -> D with kinds 0 1 0 1: A-B and C-D are fused *)
Definition line4 : graph := Graph [0; 1; 2; 3] [Edge 0 1 0 0; Edge 1 2 0 0; Edge 2 3 0 0] [0] [(3, 0)].
Lemma line4_wf : wf line4.
Proof. split; [repeat (constructor; [cbn; intuition lia|]); constructor|]. intros e I. cbn in *. intuition (subst; cbn; tauto). Qed.
Example line4_fused : exists f, generate nm (of_kind [0; 1; 0; 1]) line4 [0; 1; 2; 3] [pt [0; 1]] [] = Ok f /\ map snd (fi_data f) = [[0; 1]; [2; 3]] /\ op_of_node f "C"%string = Some "FusedNode_C_D"%string.
Proof. eexists. split; [vm_compute; reflexivity|]. split; reflexivity. Qed.
Example line4_manual : exists f, generate nm (of_kind [0; 1; 0; 1]) line4 [0; 1; 2; 3] [pt [0; 1]] [["B"%string; "C"%string]] = Ok f /\ map snd (fi_data f) = [[1; 2]].
Proof. eexists. split; [vm_compute; reflexivity|]. reflexivity. Qed.
Example line4_topological : topological line4 [0; 1; 2; 3].
Proof.
  split; [reflexivity|]. intros e I. cbn in I. destruct I as [<-|[<-|[<-|[]]]]; [exists [], [], [2; 3]|exists [0], [], [3]|exists [0; 1], [], []]; reflexivity.
Qed.
Example book_ex : history nm (of_kind []) (FInfo [] [] [] [] []) (after nm (of_kind []) (after nm (of_kind []) (FInfo [] [] [] [] []) (C_add "X" [0; 1])) (C_remove "X")).
Proof. apply H_call; [|exact I]. apply H_call; [apply H_start|]. cbn. intros n op _ (ns & m & [] & _). Qed.

(* ---- findings ---- *)
(* registering an operation that shares a node with another is accepted; when it is removed again the node
   is no longer found although the first operation still lists it, and asking for it raises *)
Theorem overlapping_operations_refuted : exists f f1 f2 f3, consistent nm (of_kind []) f /\ add_op nm (of_kind []) f "X" [0; 1] = Ok f1 /\ add_op nm (of_kind []) f1 "Y" [1; 2] = Ok f2 /\
  in_fused_op f2 1 = true /\ remove_op nm f2 "Y" = Ok f3 /\ in_fused_op f3 1 = true /\ op_of_node f3 (nm 1) = None /\ quantized_in_op nm f3 1 = Err E_key.
Proof.
  exists (FInfo [] [] [] [] []). eexists. eexists. eexists. split; [|repeat (split; [vm_compute; reflexivity|]); vm_compute; reflexivity]. split; cbn.
  - split; [constructor|]. intros o1 o2 x (l & n & [] & _).
  - intros x op. split; [discriminate|]. intros (l & n & [] & _).
  - intros op l [].
  - discriminate.
Qed.
(* an operation that matches no pattern (one asked for by hand) has no entry among the configurations, and
   the question whether its nodes are quantized raises *)
Theorem unmatched_operation_query_refuted : exists f, make_info nm (of_kind []) [] [["A"; "B"]]%string [("FusedNode_A_B"%string, [0; 1])] = Ok f /\ consistent nm (of_kind []) f /\
  quantized_in_op nm f 0 = Err E_key.
Proof.
  assert (Q : exists f, make_info nm (of_kind []) [] [["A"; "B"]]%string [("FusedNode_A_B"%string, [0; 1])] = Ok f /\ quantized_in_op nm f 0 = Err E_key) by (eexists; split; vm_compute; reflexivity).
  destruct Q as (f & Q1 & Q2). exists f. split; [exact Q1|]. split; [|exact Q2]. apply (make_info_ok nm (of_kind []) [] _ _ f Q1).
  split; [repeat constructor; intros []|]. intros o1 o2 x (l1 & n1 & [I1|[]] & _) (l2 & n2 & [I2|[]] & _). injection I1 as <- <-. injection I2 as <- <-. reflexivity.
Qed.
(* two layers that feed the same addition are both fused with it: the operations overlap and the graph no
   longer validates *)
Theorem generated_overlap_refuted : exists g topo ps f, wf g /\ topological g topo /\ generate nm (of_kind [0; 0; 2; 3]) g topo ps [] = Ok f /\
  map snd (fi_data f) = [[0; 2]; [1; 2]] /\ validate nm (of_kind [0; 0; 2; 3]) f g = Err E_value.
Proof.
  exists (Graph [0; 1; 2; 3] [Edge 0 2 0 0; Edge 1 2 0 1; Edge 2 3 0 0] [0; 1] [(3, 0)]), [0; 1; 2; 3], [pt [0; 2]]. eexists. split; [|split; [|split; [vm_compute; reflexivity|split; vm_compute; reflexivity]]].
  - split; [repeat (constructor; [cbn; intuition lia|]); constructor|]. intros e I. cbn in *. intuition (subst; cbn; tauto).
  - split; [reflexivity|]. intros e I. cbn in I. destruct I as [<-|[<-|[<-|[]]]]; [exists [], [1], [3]|exists [0], [], [3]|exists [0; 1], [], []]; reflexivity.
Qed.
(* following a longer pattern that fails in the end, a shorter one that matches is missed *)
Theorem shorter_pattern_missed_refuted : exists ps f, generate nm (of_kind [0; 1; 2; 5]) line4 [0; 1; 2; 3] ps [] = Ok f /\ fi_data f = [] /\
  In (pt [0; 1]) ps /\ chain line4 [0; 1] /\ full_match (of_kind [0; 1; 2; 5]) [0; 1] [0; 1].
Proof.
  exists [pt [0; 1]; pt [0; 1; 2; 3]]. eexists. split; [vm_compute; reflexivity|]. split; [reflexivity|]. split; [left; reflexivity|]. split.
  - split; [|exact I]. exists (Edge 0 1 0 0). split; reflexivity.
  - repeat constructor.
Qed.
(* without patterns of the platform, operations asked for by hand are ignored *)
Theorem manual_without_patterns_refuted : exists f, generate nm (of_kind [0; 1; 2; 3]) line4 [0; 1; 2; 3] [] [["A"; "B"]]%string = Ok f /\ fi_data f = [].
Proof. eexists. split; [vm_compute; reflexivity|]. reflexivity. Qed.
(* different nodes can give the same id: the names are joined by "_" *)
Definition clash (n : nat) : string := nth n ["a_b"; "c"; "a"; "b_c"]%string ""%string.
Theorem fused_id_collision_refuted : exists g topo, wf g /\ (forall a b, In a (g_nodes g) -> In b (g_nodes g) -> clash a = clash b -> a = b) /\
  generate clash (of_kind [0; 1; 0; 1]) g topo [pt [0; 1]] [] = Err E_assert.
Proof.
  exists (Graph [0; 1; 2; 3] [Edge 0 1 0 0; Edge 2 3 0 0] [0; 2] [(1, 0); (3, 0)]), [0; 1; 2; 3]. split; [|split; [|vm_compute; reflexivity]].
  - split; [repeat (constructor; [cbn; intuition lia|]); constructor|]. intros e I. cbn in *. intuition (subst; cbn; tauto).
  - intros a b A B. cbn in A, B. destruct A as [<-|[<-|[<-|[<-|[]]]]]; destruct B as [<-|[<-|[<-|[<-|[]]]]]; cbn; congruence.
Qed.
Print Assumptions overlapping_operations_refuted.
Print Assumptions unmatched_operation_query_refuted.
Print Assumptions generated_overlap_refuted.
Print Assumptions shorter_pattern_missed_refuted.
Print Assumptions manual_without_patterns_refuted.
Print Assumptions fused_id_collision_refuted.
