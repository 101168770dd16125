(* CollapseGraphProps.v -- C37 and C38 in a whole graph. *)
From Coq Require Import Permutation.
From Verif Require GraphProofs.
From Verif Require Import LinNode LinSpec BnModel BnSpec LinProofs BnProofs LinGraph CollapseModel CollapseSpec CollapseProofs CollapseProps GraphModel GraphSpec GraphProps FuseSpec MergeModel BnGraphProps JoinModel JoinSpec JoinProps.

(* two nodes become c: what c computes is what the two computed in turn *)
Section Pair.
Variables (g : graph) (a b c : nat) (e : edge).
Hypothesis J : joinable g a b c e [].
Hypothesis OG : forall o, In o (g_out g) -> In (fst o) (g_nodes g).
Variable op : nat -> list image -> nat -> image.
Definition keeps_outputs (g' : graph) (f : list image -> image) : Prop :=
  wf g' /\ forall val, computes op g val -> exists val', computes (with_node c op f) g' val' /\ outputs g' val' = outputs g val.
Lemma join_keeps f : (forall args k, f args = op b [op a args (si e)] k) ->
  exists g', join_conv no_check g a b c = Ok g' /\ join_const no_check g a b c = Ok g' /\ keeps_outputs g' f.
Proof.
  intro H. destruct (joining_succeeds g a b c e [] J) as (g' & E & K). cbn [map length] in E, K. destruct (joining _ g a b c e [] g' J E) as [FU W]. exists g'.
  split; [unfold join_conv; rewrite E; cbn [bind]; rewrite K; reflexivity|]. split; [exact E|]. split; [exact W|]. intros val C.
  destruct (joining_preserves_outputs g a b c e g' J FU OG op (with_node c op f)) with (val := val) as (val' & C' & O' & _); [| |exact C|exists val'; split; assumption].
  - intros m l k N. unfold with_node. rewrite (proj2 (Nat.eqb_neq m c) N). reflexivity.
  - intros l k. unfold with_node. rewrite Nat.eqb_refl. apply H.
Qed.
Theorem conv_collapsing_in_graph l1 l2 l' : (forall args k, op a args k = lin_op l1 args) -> (forall args k, op b args k = lin_op l2 args) ->
  lin_wf l1 -> lin_wf l2 -> conv_pair l1 l2 -> l_in l2 = l_out l1 -> (0 < fst (ksize l1))%nat -> (0 < snd (ksize l1))%nat ->
  (l_kind l1 = T_conv -> fst (ksize l1) = snd (ksize l1)) -> (l_kind l1 = K_conv -> l_out l2 = 1%nat -> l_bias l1 = None \/ l_bias l2 <> None) ->
  collapse_convs l1 l2 = Ok (Some l') -> exists g', join_conv no_check g a b c = Ok g' /\ keeps_outputs g' (lin_op l').
Proof.
  intros OA OB W1 W2 CP CI KH KW SQ KB E.
  assert (PA : pointwise_after l1 l2). { apply collapsible_spec. unfold collapse_convs in E. destruct (collapsible l1 l2); [reflexivity|discriminate]. }
  destruct (conv_collapsing l1 l2 W1 W2 CP CI PA KH KW SQ KB) as [[_ N]|(_ & l'' & E' & _ & _ & _ & LO & _ & H)]; [congruence|]. assert (l'' = l') by congruence. subst l''.
  destruct (join_keeps (lin_op l')) as (g' & G1 & _ & G3); [|exists g'; split; assumption]. intros args k. rewrite OB, OA. destruct args as [|[[hw x]|] [|]]; try reflexivity. cbn [lin_op]. destruct (H hw) as [OH HV]. rewrite OH, LO. do 2 f_equal. apply clip_ext. intros o p L P. rewrite HV by assumption.
  rewrite <- CI, lin_val_clip; [reflexivity|]. apply (conv_kind l1 l2 CP).
Qed.
Theorem const_collapsing_in_graph l v l' : (forall args k, op a args k = lin_op l args) -> (forall args k, op b args k = const_op (l_out l) v args) ->
  lin_wf l -> shp v = [l_out l] \/ (shp v = [] /\ l_bias l <> None) -> collapse_const l (Some v) = Ok l' -> exists g', join_const no_check g a b c = Ok g' /\ keeps_outputs g' (lin_op l').
Proof.
  intros OA OB W S E. destruct (const_collapsing l v W S) as (l'' & E' & _ & SN & H). assert (l'' = l') by congruence. subst l''.
  destruct (join_keeps (lin_op l')) as (g' & _ & G2 & G3); [|exists g'; split; assumption]. intros args k. rewrite OB, OA. destruct args as [|[[hw x]|] [|]]; try reflexivity. cbn [lin_op const_op]. rewrite (out_hw_same _ _ hw SN). do 2 f_equal. destruct SN as (_ & _ & _ & -> & _).
  apply clip_ext. intros o p L P. rewrite H by exact L. rewrite clip_in by assumption. reflexivity.
Qed.
End Pair.
Print Assumptions conv_collapsing_in_graph.
Print Assumptions const_collapsing_in_graph.
(* the addition takes its two arguments in any order *)
Theorem residual_collapsing_in_graph g a b c p e e1 e2 (op : nat -> list image -> nat -> image) l : residual g a b c p e e1 e2 -> (forall o, In o (g_out g) -> In (fst o) (g_nodes g)) ->
  (forall args k, op a args k = lin_op l args) -> (forall args k, op b args k = add_op (l_out l) args) ->
  lin_wf l -> (l_kind l = K_conv \/ l_kind l = T_conv) -> l_groups l = 1%nat -> l_out l = l_in l -> (0 < fst (ksize l))%nat -> (0 < snd (ksize l))%nat -> centred l ->
  residual_source (fun _ => false) g a b = Ok (Some p) /\ exists l' g', collapse_residual l = Ok l' /\ join_residual no_check g a b c p = Ok g' /\ keeps_outputs g c op g' (lin_op l').
Proof.
  intros RS OG OA OB W K G IO KH KW C. pose proof RS as [J RI [S1 S2] SI]. split.
  { destruct (j_facts g a b c e [e2] J) as (IE & S & T & _). apply (residual_source_exact (fun _ => false) g a b p e IE S T (j_diff _ _ _ _ _ _ J)). split; [reflexivity|]. split; [reflexivity|]. split; [apply (j_out _ _ _ _ _ _ J)|]. split; [exists e2; split; [apply (j_in _ _ _ _ _ _ J)|exact S2]|].
    unfold prev_nodes. pose proof (GraphProofs.in_edges_perm g a) as P. rewrite RI in P. apply Permutation_sym, Permutation_length_1_inv in P. rewrite P. cbn. rewrite S1. reflexivity. }
  destruct (residual_collapsing l W K G IO KH KW C) as (l' & E & W' & SN & H). destruct (joining_succeeds g a b c e [e2] J) as (g' & EG & KG). cbn [map length] in EG, KG. rewrite S2 in EG. exists l', g'. split; [exact E|]. split; [unfold join_residual; rewrite EG; cbn [bind]; rewrite KG; reflexivity|].
  rewrite <- S2 in EG. destruct (joining _ g a b c e [e2] g' J EG) as [FU WG]. split; [exact WG|]. intros val CV.
  destruct (residual_preserves_outputs g a b c p e e1 e2 g' RS FU OG op (with_node c op (lin_op l'))) with (val := val) as (val' & C' & O' & _); [| |exact CV|exists val'; split; assumption].
  - intros m r k N. unfold with_node. rewrite (proj2 (Nat.eqb_neq m c) N). reflexivity.
  - intros v k. unfold with_node. rewrite Nat.eqb_refl, !OB, !OA. destruct v as [[hw x]|]; [|split; reflexivity]. cbn [lin_op add_op]. destruct (H hw) as [OH HV].
    rewrite (out_hw_same _ _ hw SN), OH. assert (Q : same_hw hw hw = true) by (unfold same_hw; rewrite !Z.eqb_refl; reflexivity). rewrite Q. destruct SN as (_ & _ & _ & -> & _). split; do 2 f_equal; apply clip_ext; intros o q L P; rewrite HV by assumption; rewrite clip_in by assumption; ring.
Qed.
Print Assumptions residual_collapsing_in_graph.
