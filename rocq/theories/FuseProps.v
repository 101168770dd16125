(* FuseProps.v -- book-keeping of fused operations (C29) and their generation (C30). *)
From Coq Require Import Permutation Sorted String Lia.
From Verif Require Import Base GraphModel GraphSpec GraphProofs GraphFindProps FuseModel FuseSpec FuseProofs.
Open Scope list_scope.
Open Scope res_scope.
Local Open Scope nat_scope.

Section Book.
Context {E : Type}.
Variable name : nat -> string.
Variable matches : E -> nat -> bool.

(* ---- histories of calls; a call that raises changes nothing ---- *)
Inductive call := C_add (op : string) (ns : list nat) | C_remove (op : string) | C_manual (names : list string).
Definition run (f : @finfo E) (c : call) : result finfo :=
  match c with C_add op ns => add_op name matches f op ns | C_remove op => remove_op name f op | C_manual l => add_manual f l end.
Definition after (f : @finfo E) (c : call) : finfo := match run f c with Ok f' => f' | Err _ => f end.
(* nodes are registered only while they belong to no operation *)
Definition allowed (f : @finfo E) (c : call) : Prop :=
  match c with C_add _ ns => forall n op, In n ns -> ~ lists name (fi_data f) op (name n) | _ => True end.
Inductive history (f0 : @finfo E) : @finfo E -> Prop :=
| H_start : history f0 f0
| H_call f c : history f0 f -> allowed f c -> history f0 (after f c).
Theorem fused_operations_consistent f0 f : consistent name matches f0 -> history f0 f -> consistent name matches f.
Proof.
  intros C0 H. induction H as [|f c H IH A]; [exact C0|]. unfold after. destruct (run f c) as [f'|] eqn:R; [|exact IH]. destruct c as [op ns|op|l]; cbn [run] in R.
  - apply (add_op_ok name matches f op ns f' R IH A).
  - destruct (remove_op_ok name matches f op f' R IH) as (ns & _ & C & _). exact C.
  - unfold add_manual in R. destruct (existsb _ _); [discriminate|]. injection R as <-. destruct IH as [S M C K]. split; assumption.
Qed.
(* the starting points: no operations, or the operations given at construction *)
Theorem construction_consistent patterns manual data f : make_info name matches patterns manual data = Ok f -> separate name data ->
  consistent name matches f /\ fi_data f = data /\ fi_patterns f = patterns /\ fi_manual f = manual.
Proof. intros H S. destruct (make_info_ok name matches patterns manual data f H S) as (A & B & C & D & _). auto. Qed.

(* what a consistent state answers, when nodes have different names *)
Theorem fused_operations_queries f : consistent name matches f -> (forall a b, name a = name b -> a = b) ->
  (forall n op, op_of_node f (name n) = Some op <-> exists ns, In (op, ns) (fi_data f) /\ In n ns) /\
  (forall n, in_fused_op f n = true <-> exists op, op_of_node f (name n) = Some op) /\
  (forall n o1 o2 l1 l2, In (o1, l1) (fi_data f) -> In (o2, l2) (fi_data f) -> In n l1 -> In n l2 -> o1 = o2 /\ l1 = l2) /\
  (forall n, In n (inner_nodes f) <-> exists op ns, In (op, ns) (fi_data f) /\ In n (removelast ns)).
Proof.
  intros [[S1 S2] M C K] NI.
  assert (A : forall n op, op_of_node f (name n) = Some op <-> exists ns, In (op, ns) (fi_data f) /\ In n ns).
  { intros n op. rewrite M. split; [intros (ns & m & I & J & Q); apply NI in Q; subst; eauto|intros (ns & I & J); exists ns, n; auto]. }
  split; [exact A|]. split; [|split].
  - intro n. unfold in_fused_op. rewrite existsb_exists. split; [intros ([op ns] & I & J); cbn in J; apply mem_spec in J; exists op; apply A; eauto|intros (op & Q); apply A in Q; destruct Q as (ns & I & J); exists (op, ns); split; [exact I|apply mem_spec, J]].
  - intros n o1 o2 l1 l2 I1 I2 J1 J2. assert (o1 = o2) by (apply (S2 o1 o2 (name n)); [exists l1, n|exists l2, n]; auto). subst o2. split; [reflexivity|]. apply (in_sget _ _ _ S1) in I1. apply (in_sget _ _ _ S1) in I2. congruence.
  - intro n. unfold inner_nodes. rewrite in_flat_map. split; [intros ([op ns] & I & J); eauto|intros (op & ns & I & J); exists (op, ns); auto].
Qed.
(* is the activation inside an operation quantized: by the configuration of the first pattern the operation matches *)
Theorem operation_activation_quantized f : consistent name matches f -> (forall a b, name a = name b -> a = b) ->
  (forall n, (forall op ns, In (op, ns) (fi_data f) -> ~ In n ns) -> quantized_in_op name f n = Ok false) /\
  (forall op ns n pre p post, In (op, ns) (fi_data f) -> In n ns -> 2 <= length ns -> fi_patterns f = pre ++ p :: post -> (forall q, In q pre -> ~ full_match matches (fp_layers q) ns) -> full_match matches (fp_layers p) ns ->
     quantized_in_op name f n = Ok (match fp_cfg p with Some q => qc_enabled q | None => false end)).
Proof.
  intros C NI. destruct (fused_operations_queries f C NI) as (A & B & _). split.
  - intros n H. unfold quantized_in_op. destruct (in_fused_op f n) eqn:I; [|reflexivity]. apply B in I. destruct I as (op & I). apply A in I. destruct I as (ns & I & J). destruct (H op ns I J).
  - intros op ns n pre p post I J L P N M. assert (O : op_of_node f (name n) = Some op) by (apply A; eauto). unfold quantized_in_op. rewrite (proj2 (B n)) by eauto. unfold op_of_node in O. rewrite O.
    destruct (co_cfg _ _ _ C op ns I L) as [(pre' & p' & post' & P' & N' & M' & ->)|[N' _]]; [|destruct (N' p); [rewrite P; apply in_app_iff; right; left; reflexivity|exact M]].
    assert (EP : p' = p).
    { rewrite P in P'. clear -P' N N' M M'. revert pre' P' N'. induction pre as [|q pre IH]; intros [|q' pre'] P' N'; cbn in P'; injection P' as Q R.
      - congruence.
      - subst q'. destruct (N' p); [left; reflexivity|exact M].
      - subst q. destruct (N p'); [left; reflexivity|exact M'].
      - apply (IH (fun q0 H => N q0 (or_intror H)) pre' R (fun q0 H => N' q0 (or_intror H))). }
    subst p'. destruct (fp_cfg p); reflexivity.
Qed.
(* adding: a known id raises, otherwise exactly this operation is new *)
Theorem add_operation f op ns : (In op (map fst (fi_data f)) -> add_op name matches f op ns = Err E_value) /\
  (~ In op (map fst (fi_data f)) -> exists f', add_op name matches f op ns = Ok f' /\ fi_data f' = fi_data f ++ [(op, ns)] /\ fi_manual f' = fi_manual f /\
     forall nm, op_of_node f' nm = if existsb (fun n => String.eqb nm (name n)) ns then Some op else op_of_node f nm).
Proof.
  unfold add_op, sin. split.
  - intro I. destruct (sget op (fi_data f)) eqn:G; [reflexivity|]. apply sget_none in G. contradiction.
  - intro N. apply sget_none in N. rewrite N. eexists. split; [reflexivity|]. set (f1 := FInfo _ _ _ _ _). destruct (set_cfg_rest name matches f1 op ns) as (R1 & R2 & R3 & R4 & _).
    rewrite R3, R2. split; [cbn; apply sset_new, N|]. split; [reflexivity|]. intro nm. unfold op_of_node. rewrite R4. cbn. apply map_nodes_get.
Qed.
(* removing: the operation leaves no trace and everything else stays *)
Theorem remove_operation f op f' : consistent name matches f -> remove_op name f op = Ok f' ->
  exists ns, In (op, ns) (fi_data f) /\
  (forall o l, In (o, l) (fi_data f') <-> In (o, l) (fi_data f) /\ o <> op) /\ (forall nm, op_of_node f' nm <> Some op) /\ sget op (fi_cfg f') = None /\
  (forall nm o, o <> op -> (op_of_node f' nm = Some o <-> op_of_node f nm = Some o)) /\ (forall o, o <> op -> sget o (fi_cfg f') = sget o (fi_cfg f)) /\
  (NoDup (fi_manual f) -> forall l, In l (fi_manual f') <-> In l (fi_manual f) /\ l <> map name ns).
Proof.
  intros C H. destruct (remove_op_ok name matches f op f' H C) as (ns & I & C' & D & P & M & G & Q). exists ns. split; [exact I|].
  split; [intros o l; rewrite D, sdel_in; reflexivity|]. split; [|split; [rewrite G, String.eqb_refl; reflexivity|split; [|split]]].
  - intros nm X. apply (co_map _ _ _ C') in X. destruct X as (l & n & X & _). rewrite D in X. apply sdel_in in X. apply X. reflexivity.
  - intros nm o N. rewrite M. destruct (existsb _ ns) eqn:X; [|reflexivity]. apply named_in in X. destruct X as (n & J & <-). split; [discriminate|]. intro Y. apply (co_map _ _ _ C) in Y. exfalso. apply N. apply (proj2 (co_sep _ _ _ C) o op (name n) Y). exists ns, n. auto.
  - intros o N. rewrite G. destruct (String.eqb_spec o op); [contradiction|reflexivity].
  - intros ND l. destruct Q as [[-> Q]|(a & b & Q1 & -> & Q3)]; [split; [intro J; split; [exact J|congruence]|tauto]|]. rewrite Q1 in ND |- *. apply NoDup_remove in ND. destruct ND as [_ ND]. rewrite !in_app_iff in *. cbn. split.
    + intros J. split; [tauto|]. intros ->. exact (ND J).
    + intros [[J|[J|J]] N]; [tauto|congruence|tauto].
Qed.
Theorem remove_unknown (f : @finfo E) op : ~ In op (map fst (fi_data f)) -> remove_op name f op = Err E_value.
Proof. intro N. unfold remove_op. apply sget_none in N. rewrite N. reflexivity. Qed.

(* ---- the check after every change of the graph ---- *)
Definition valid (f : @finfo E) (g : graph) : Prop :=
  (forall op ns, In (op, ns) (fi_data f) -> (forall n, In n ns -> In n (g_nodes g)) /\ chain g ns /\
     (In (map name ns) (fi_manual f) \/ (2 <= length ns /\ exists p, In p (fi_patterns f) /\ full_match matches (fp_layers p) ns))) /\
  (forall a kv b kv' c n, fi_data f = a ++ kv :: b ++ kv' :: c -> In n (snd kv) -> ~ In n (snd kv')).
Lemma one_next g a b : (exists s, next_nodes g a = [s] /\ s = b) <-> only_next g a b.
Proof.
  unfold only_next, next_nodes. pose proof (out_edges_perm g a) as P. split.
  - intros (s & H & ->). destruct (out_edges g a) as [|e [|? ?]] eqn:O; try discriminate. injection H as H. apply Permutation_length_1_inv in P. exists e. auto.
  - intros (e & H & <-). rewrite H in P. apply Permutation_sym, Permutation_length_1_inv in P. rewrite P. exists (snk e). auto.
Qed.
Lemma chain_ok_spec g ns : chain_ok g ns = true <-> chain g ns.
Proof.
  induction ns as [|a [|b r] IH]; [split; [intro; exact I|reflexivity]|split; [intro; exact I|reflexivity]|]. change (chain_ok g (a :: b :: r)) with (match next_nodes g a with [s] => Nat.eqb s b | _ => false end && chain_ok g (b :: r)).
  unfold chain. change (steps (only_next g) (a :: b :: r)) with (only_next g a b /\ steps (only_next g) (b :: r)). rewrite andb_true_iff. rewrite IH. unfold chain. rewrite <- one_next.
  destruct (next_nodes g a) as [|s [|s' q]]; (split; intros [A B]; (split; [|exact B])); try discriminate; try (destruct A as (x & A & _); discriminate).
  - apply Nat.eqb_eq in A. exists s. auto.
  - destruct A as (x & A & ->). injection A as ->. apply Nat.eqb_refl.
Qed.
Theorem validate_exact f g : validate name matches f g = Ok tt <-> valid f g.
Proof.
  unfold validate, valid. 
  assert (G : forall data seen, (exists s, foldM (validate_op name matches f g) data seen = Ok s) <->
     (forall op ns, In (op, ns) data -> (forall n, In n ns -> In n (g_nodes g) /\ ~ In n seen) /\ chain g ns /\ (In (map name ns) (fi_manual f) \/ (2 <= length ns /\ exists p, In p (fi_patterns f) /\ full_match matches (fp_layers p) ns))) /\
     (forall a kv b kv' c n, data = a ++ kv :: b ++ kv' :: c -> In n (snd kv) -> ~ In n (snd kv'))).
  { induction data as [|[op ns] data IH]; intro seen; cbn [foldM].
    - split; [intros _; split; [intros ? ? []|]|intros _; eauto]. intros a kv b kv' c n Q. destruct a; discriminate.
    - assert (VS : (exists s, validate_op name matches f g seen (op, ns) = Ok s) <-> (forall n, In n ns -> In n (g_nodes g) /\ ~ In n seen) /\ chain g ns /\ (In (map name ns) (fi_manual f) \/ (2 <= length ns /\ exists p, In p (fi_patterns f) /\ full_match matches (fp_layers p) ns))).
      { unfold validate_op. cbn [snd]. rewrite <- chain_ok_spec.
        assert (V := valid_fusion_spec name matches (map fp_layers (fi_patterns f)) ns (fi_manual f)).
        assert (PP : (exists p, In p (map fp_layers (fi_patterns f)) /\ full_match matches p ns) <-> exists p, In p (fi_patterns f) /\ full_match matches (fp_layers p) ns).
        { split; [intros (p & I & H); apply in_map_iff in I; destruct I as (q & <- & I); eauto|intros (p & I & H); exists (fp_layers p); split; [apply in_map, I|exact H]]. }
        rewrite PP in V.
        destruct (forallb (fun n => mem n (g_nodes g)) ns) eqn:F1; cbn [negb].
        2:{ split; [intros (s & H); discriminate|]. intros (A & _). exfalso. rewrite <- not_true_iff_false in F1. apply F1, forallb_forall. intros n I. apply mem_spec, A, I. }
        destruct (chain_ok g ns); cbn [negb]; [|split; [intros (s & H); discriminate|intros (_ & H & _); discriminate]].
        destruct (existsb (fun n => mem n seen) ns) eqn:F2.
        { split; [intros (s & H); discriminate|]. intros (A & _). exfalso. apply existsb_exists in F2. destruct F2 as (n & I & J). apply mem_spec in J. apply (A n I), J. }
        rewrite forallb_forall in F1. destruct (is_valid_fusion _ _ _ _ _); cbn [negb].
        - split; [intros _|eauto]. split; [|split; [reflexivity|apply V; reflexivity]]. intros n I. split; [apply mem_spec, F1, I|]. intro J. rewrite <- not_true_iff_false in F2. apply F2, existsb_exists. exists n. split; [exact I|apply mem_spec, J].
        - split; [intros (s & H); discriminate|]. intros (_ & _ & H). apply V in H. discriminate. }
      destruct (validate_op name matches f g seen (op, ns)) as [s1|] eqn:Q; cbn [bind].
      + assert (s1 = seen ++ ns). { unfold validate_op in Q. cbn [snd] in Q. repeat (destruct (negb _) in Q; [discriminate|]). destruct (existsb _ ns) in Q; [discriminate|]. destruct (negb _) in Q; [discriminate|]. injection Q as <-. reflexivity. }
        subst s1. rewrite IH. destruct VS as [VS _]. specialize (VS (ex_intro _ _ eq_refl)). split.
        * intros [A B]. split.
          -- intros o l [I|I]; [injection I as <- <-; exact VS|]. destruct (A o l I) as (A1 & A2). split; [|exact A2]. intros n J. destruct (A1 n J) as [X Y]. split; [exact X|]. intro Z. apply Y, in_or_app. left. exact Z.
          -- intros a kv b kv' c n Eq In1. destruct a as [|x a]; cbn in Eq; injection Eq as Eq1 Eq2; [|apply (B a kv b kv' c n Eq2 In1)]. subst kv. cbn in In1. intro In2. destruct kv' as [o' l']. cbn in In2.
             destruct (A o' l') as (A1 & _); [rewrite Eq2; apply in_or_app; right; left; reflexivity|]. apply (A1 n In2), in_or_app. right. exact In1.
        * intros [A B]. split.
          -- intros o l I. destruct (A o l (or_intror I)) as (A1 & A2). split; [|exact A2]. intros n J. destruct (A1 n J) as [X Y]. split; [exact X|]. intro Z. apply in_app_or in Z. destruct Z as [Z|Z]; [exact (Y Z)|].
             apply in_split in I. destruct I as (p & q & ->). apply (B [] (op, ns) p (o, l) q n eq_refl Z J).
          -- intros a kv b kv' c n Eq. apply (B ((op, ns) :: a) kv b kv' c n). cbn. f_equal. exact Eq.
      + split; [intros (s & H); discriminate|]. intros [A _]. exfalso. specialize (A op ns (or_introl eq_refl)). apply VS in A. destruct A as (s & A). discriminate. }
  specialize (G (fi_data f) []). assert (Q : (let! _ := foldM (validate_op name matches f g) (fi_data f) [] in Ok tt) = Ok tt <-> exists s, foldM (validate_op name matches f g) (fi_data f) [] = Ok s).
  { destruct (foldM _ _ _) as [s|]; cbn [bind]; split; intro H; [eauto|reflexivity|discriminate|destruct H; discriminate]. }
  rewrite Q, G. split; intros [A B]; (split; [|exact B]); intros op ns I; destruct (A op ns I) as (A1 & A2 & A3); (split; [|auto]); intros n J; [apply A1, J|split; [apply A1, J|intros []]].
Qed.
End Book.
Print Assumptions fused_operations_consistent.
Print Assumptions construction_consistent.
Print Assumptions fused_operations_queries.
Print Assumptions operation_activation_quantized.
Print Assumptions add_operation.
Print Assumptions remove_operation.
Print Assumptions remove_unknown.
Print Assumptions validate_exact.
