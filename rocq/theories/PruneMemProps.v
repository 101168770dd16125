(* PruneMemProps.v -- C27: the memory reported for a pruned graph counts every remaining parameter once. *)
From Coq Require Import String Permutation Lia.
From Verif Require Import Base SearchProofs HessianModel HessianProofs FilterModel PruneModel PruneProofs PruneMemModel PruneMemSpec PruneMemProofs.
Open Scope Z_scope.
Local Open Scope res_scope.

(* the sections found are exactly the chains that can be pruned *)
Theorem sections_exact f g secs : wf_graph g -> sections f g = Ok secs -> NoDup (map sc_entry secs) /\
  forall e i x, In (Section_ e i x) secs <-> is_section f g e i x.
Proof.
  intros W H. destruct (sections_spec f g secs W H) as (A & B & C). split; [exact C|]. intros e i x. split; [intro I; apply (A _ I)|apply B].
Qed.
Print Assumptions sections_exact.
Theorem sections_terminate f g : wf_graph g -> sections f g <> Err E_fuel.
Proof. apply sections_no_fuel. Qed.
Print Assumptions sections_terminate.

(* every node contributes once, and its contribution is what the masks that apply to it leave *)
Theorem memory_counts_once f padded g masks p : wf_graph g -> graph_params f padded g masks = Ok p ->
  exists ps, Forall2 (fun n z => exists im om, applies f g masks n im om /\ charged f padded n im om z) (pg_nodes g) ps /\
             p = fold_right Z.add 0 ps.
Proof.
  intros W H. destruct (sections f g) as [secs|] eqn:HS; [|unfold graph_params in H; rewrite HS in H; discriminate].
  destruct (every_parameter_once f padded g masks secs W HS p H) as [-> A].
  exists (map (V f padded masks secs) (pg_nodes g)). split; [|reflexivity].
  revert A. generalize (pg_nodes g). clear. induction l as [|n l IH]; intro A; cbn; constructor.
  - apply A. left. reflexivity.
  - apply IH. intros m I. apply A. right. exact I.
Qed.
Print Assumptions memory_counts_once.
(* the masks that apply to a node are determined, and so is its charge *)
Theorem applies_unique f g masks n im om im' om' : wf_graph g -> applies f g masks n im om -> applies f g masks n im' om' -> im = im' /\ om = om'.
Proof.
  intros W A B.
  assert (EN : forall a b i x e j y, is_section f g a i x -> is_section f g e j y -> In b j -> a = b -> False).
  { intros a b i x e j y (_ & _ & _ & X & _) (_ & _ & Y & _) I ->. destruct (Y b I) as [_ Z]. exact (edge_not_inter b X Z). }
  assert (XN : forall a b i x e j y, is_section f g a i x -> is_section f g e j y -> In b j -> x = b -> False).
  { intros a b i x e j y (_ & _ & _ & _ & X & _) (_ & _ & Y & _) I ->. destruct (Y b I) as [_ Z]. exact (edge_not_inter b X Z). }
  destruct A as [A|i x A A'|e i A|e i x A Ai], B as [B|i' x' B B'|e' i' B|e' i' x' B Bi]; try (split; reflexivity).
  - exfalso. apply A in B. tauto.
  - exfalso. apply A in B. tauto.
  - exfalso. apply A in B. tauto.
  - exfalso. apply B in A. tauto.
  - exfalso. exact (A' _ _ B).
  - exfalso. exact (EN _ _ _ _ _ _ _ A B Bi eq_refl).
  - exfalso. apply B in A. tauto.
  - exfalso. exact (B' _ _ A).
  - assert (e = e') as <- by (eapply (section_same_end f g e i n e' i' n n W A B); right; reflexivity). split; reflexivity.
  - exfalso. exact (XN _ _ _ _ _ _ _ A B Bi eq_refl).
  - exfalso. apply B in A. tauto.
  - exfalso. exact (EN _ _ _ _ _ _ _ B A Ai eq_refl).
  - exfalso. exact (XN _ _ _ _ _ _ _ B A Ai eq_refl).
  - assert (e = e') as <- by (eapply (section_same_end f g e i x e' i' x' n W A B); left; assumption). split; reflexivity.
Qed.
Print Assumptions applies_unique.
Theorem charged_unique f padded n im om p q : charged f padded n im om p -> charged f padded n im om q -> p = q.
Proof.
  unfold charged. destruct padded; [|congruence].
  intros (oc & s & O1 & S1 & S2 & S3 & O2 & c & per & -> & [C1 C2] & P) (oc' & s' & O1' & S1' & S2' & S3' & O2' & c' & per' & -> & [C1' C2'] & P').
  assert (oc = oc') as <- by (destruct om; [congruence|rewrite O2 in O2'; congruence]).
  assert (s = s') as <- by (apply S3 in S2'; apply S3' in S2; lia).
  assert (c = c') as <-.
  { apply Z.div_exact in C1; [|lia]. apply Z.div_exact in C1'; [|lia]. rewrite C1, C1' in *.
    generalize dependent (c / s). generalize dependent (c' / s). intros k' _ K' k _ K. clear - S1 K K'. destruct (Z.lt_trichotomy k k') as [L|[->|L]]; [nia|reflexivity|nia]. }
  assert (per = per') as <- by nia. reflexivity.
Qed.
Print Assumptions charged_unique.
(* four bytes for each parameter *)
Theorem memory_bytes f padded g masks m : graph_memory f padded g masks = Ok m -> exists p, graph_params f padded g masks = Ok p /\ (m == inject_Z p * 4)%Q.
Proof.
  unfold graph_memory. destruct (graph_params f padded g masks) as [p|]; cbn [bind]; [|discriminate]. intro H. inversion H. exists p. split; [reflexivity|].
  rewrite inject_Z_mult. reflexivity.
Qed.
Print Assumptions memory_bytes.

(* ---- a chain of two sections: conv - batch norm - conv - relu - conv ---- *)
Definition xt (s : list nat) : tensor := Tensor s (fun _ => 0%Q).
Definition xkern (s : list nat) : list (wkey * tensor) := [(WS "kernel", xt s); (WS "bias", xt [last s 0%nat])].
Definition xn (i : nat) (k : kind) (ws : list (wkey * tensor)) (c : Z) : pnode := PNode i "n" k ws (Some 3) (O_flat [1; 1; 1; c]) [2] true c.
Definition x0 := xn 0 (K_conv false 1) (xkern [1; 1; 1; 3]%nat) 3.
Definition x1 := xn 1 K_bn [(WS "gamma", xt [3%nat])] 3.
Definition x2 := xn 2 (K_conv false 1) (xkern [1; 1; 3; 2]%nat) 2.
Definition x3 := xn 3 K_other [] 2.
Definition x4 := xn 4 (K_conv false 1) (xkern [1; 1; 2; 1]%nat) 1.
Definition xg : pgraph := PGraph [x0; x1; x2; x3; x4] [(0, 1); (1, 2); (2, 3); (3, 4)]%nat [x0; x1; x2; x3; x4].
Definition xm : masks_t := [(0%nat, [1; 0; 1]); (2%nat, [0; 1])].
Example xg_wf : wf_graph xg.
Proof.
  split.
  - cbn. repeat (constructor; [cbn; intuition discriminate|]). constructor.
  - apply Permutation_refl.
  - assert (B : forall p q r x y, [x0; x1; x2; x3; x4] = p ++ x :: q ++ y :: r -> before (pg_topo xg) (pn_id x) (pn_id y)) by (intros; exists p, q, r, x, y; auto).
    intros a b [E|[E|[E|[E|[]]]]]; inversion E; subst.
    + exact (B [] [] [x2; x3; x4] x0 x1 eq_refl).
    + exact (B [x0] [] [x3; x4] x1 x2 eq_refl).
    + exact (B [x0; x1] [] [x4] x2 x3 eq_refl).
    + exact (B [x0; x1; x2] [] [] x3 x4 eq_refl).
Qed.
Example xg_sections : sections Keras xg = Ok [Section_ x0 [x1] x2; Section_ x2 [x3] x4].
Proof. vm_compute. reflexivity. Qed.
(* kernels 2, 2, 1; biases 2, 1, 1; batch norm 2 *)
Example xg_params : graph_params Keras false xg xm = Ok 11.
Proof. vm_compute. reflexivity. Qed.
Example xg_padded : graph_params Keras true xg xm = Ok (4 + 2 + 2 * 3 + 0 + 2 * 2).
Proof. vm_compute. reflexivity. Qed.

(* the ends of a section are dense layers or convolutions without groups, no layer with a kernel lies
   between them, and the exit reads exactly the channels the entry writes *)
Theorem section_meaning f g secs e i x : wf_graph g -> sections f g = Ok secs -> In (Section_ e i x) secs ->
  ungrouped (pn_kind e) /\ ungrouped (pn_kind x) /\ (forall n, In n i -> no_kernel (pn_kind n)) /\
  exists s, size_along f e R_out s /\ size_along f x R_in s.
Proof.
  intros W H I. destruct (sections_exact f g secs W H) as [_ S]. apply S in I. destruct I as (_ & _ & IN & E & X & M & _).
  assert (UG : forall n, is_edge n = true -> ungrouped (pn_kind n)).
  { intros n Q. unfold is_edge in Q. unfold ungrouped. destruct (pn_kind n); try discriminate; [right|left; reflexivity]. apply Z.eqb_eq in Q. subst. eauto. }
  split; [apply UG, E|]. split; [apply UG, X|]. split.
  - intros n J. destruct (IN n J) as [_ Q]. unfold is_inter in Q. unfold no_kernel. destruct (pn_kind n); try discriminate; eauto.
  - unfold matching in M.
    destruct (axis_of snd (channel_axis f (pn_kind x))) as [ia|] eqn:A1; cbn [bind] in M; [|discriminate].
    destruct (axis_of fst (channel_axis f (pn_kind e))) as [oa|] eqn:A2; cbn [bind] in M; [|discriminate].
    destruct (kernel_of f x) as [kx|] eqn:K1; cbn [bind] in M; [|discriminate].
    destruct (dim kx ia) as [a|] eqn:D1; cbn [bind] in M; [|discriminate].
    destruct (kernel_of f e) as [ke|] eqn:K2; cbn [bind] in M; [|discriminate].
    destruct (dim ke oa) as [b|] eqn:D2; cbn [bind] in M; [|discriminate].
    injection M as M. apply Nat.eqb_eq in M. unfold dim in *. exists b. split.
    + exists ke, oa. split; [exact K2|]. split; [|destruct (nth_error (t_shape ke) oa); [injection D2 as ->; reflexivity|discriminate]].
      apply UG in E. destruct E as [E|[t E]]; rewrite E in A2 |- *; [|destruct t]; destruct f; cbn in A2; injection A2 as <-; reflexivity.
    + exists kx, ia. split; [exact K1|]. split; [|destruct (nth_error (t_shape kx) ia); [injection D1 as ->; congruence|discriminate]].
      apply UG in X. destruct X as [X|[t X]]; rewrite X in A1 |- *; [|destruct t]; destruct f; cbn in A1; injection A1 as <-; reflexivity.
Qed.
Print Assumptions section_meaning.
Theorem section_complete f g secs e i x s : wf_graph g -> sections f g = Ok secs ->
  In e (pg_nodes g) -> In x (pg_nodes g) -> (forall n, In n i -> In n (pg_nodes g) /\ no_kernel (pn_kind n)) ->
  ungrouped (pn_kind e) -> ungrouped (pn_kind x) -> size_along f e R_out s -> size_along f x R_in s -> chain g e i x -> In (Section_ e i x) secs.
Proof.
  intros W H Ie Ix Ii E X Se Sx C. destruct (sections_exact f g secs W H) as [_ S]. apply S. split; [exact Ie|]. split; [exact Ix|].
  assert (UG : forall n, ungrouped (pn_kind n) -> is_edge n = true). { intros n [Q|[t Q]]; unfold is_edge; rewrite Q; reflexivity. }
  split; [|split; [apply UG, E|split; [apply UG, X|split; [|exact C]]]].
  - intros n J. destruct (Ii n J) as [J1 J2]. split; [exact J1|]. unfold is_inter. destruct J2 as [->|[->|[p ->]]]; reflexivity.
  - destruct Se as (we & a & K1 & L1 & D1). destruct Sx as (wx & b & K2 & L2 & D2). unfold matching. rewrite K1, K2.
    assert (A1 : axis_of fst (channel_axis f (pn_kind e)) = Ok a).
    { destruct E as [E|[t E]]; rewrite E in L1 |- *; [|destruct t]; destruct f; cbn in L1 |- *; repeat (destruct a as [|a]; cbn in L1; try discriminate); reflexivity. }
    assert (A2 : axis_of snd (channel_axis f (pn_kind x)) = Ok b).
    { destruct X as [X|[t X]]; rewrite X in L2 |- *; [|destruct t]; destruct f; cbn in L2 |- *; repeat (destruct b as [|b]; cbn in L2; try discriminate); reflexivity. }
    rewrite A1, A2. cbn [bind]. unfold dim. rewrite D1, D2. cbn [from_index bind]. rewrite Nat.eqb_refl. reflexivity.
Qed.
Print Assumptions section_complete.

(* ---- findings ---- *)
(* a layer with a constant among its weights has no name for it: the count raises for every mask *)
Theorem constant_weight_not_counted_refuted : exists g, wf_graph g /\ length (pg_nodes g) = 1%nat /\
  forall f masks, graph_params f false g masks = Err E_type.
Proof.
  set (n := xn 0 K_other [(WI 0, xt [2%nat])] 2). exists (PGraph [n] [] [n]). split; [|split; [reflexivity|]].
  - split; [repeat constructor; intros []|apply Permutation_refl|intros a b []].
  - intros f masks. destruct f; vm_compute; reflexivity.
Qed.
Print Assumptions constant_weight_not_counted_refuted.
(* in Keras a weight is recognised by a part of its name, which contains the name of the layer: a layer
   called "bias..." makes the count raise *)
Theorem layer_name_confuses_count_refuted : exists n p, graph_params Keras false (PGraph [n] [] [n]) [] = Err E_critical /\
  graph_params Keras false (PGraph [x0] [] [x0]) [] = Ok p /\ map (fun kw => t_shape (snd kw)) (pn_weights n) = map (fun kw => t_shape (snd kw)) (pn_weights x0).
Proof.
  exists (xn 0 (K_conv false 1) [(WS "bias_net/kernel:0", xt [1; 1; 1; 3]%nat); (WS "bias_net/bias:0", xt [3%nat])] 3). eexists.
  split; [vm_compute; reflexivity|]. split; vm_compute; reflexivity.
Qed.
Print Assumptions layer_name_confuses_count_refuted.
(* the number of output channels is looked up even when no padding is counted: a layer whose output has no
   channel axis makes the count raise *)
Theorem missing_channel_axis_refuted : exists n, pn_weights n = [] /\ forall f masks, graph_params f false (PGraph [n] [] [n]) masks = Err E_index.
Proof.
  exists (PNode 0 "n" K_other [] (Some 1) (O_many [[1]]) [1] true 1). split; [reflexivity|]. intros f masks. destruct f; vm_compute; reflexivity.
Qed.
Print Assumptions missing_channel_axis_refuted.
