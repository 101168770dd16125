(* BnGraphProps.v -- folding, reconstructing and refusing batch normalization in a whole graph. *)
From Coq Require Import Permutation Sorted.
From Verif Require Import LinNode LinSpec BnModel BnSpec LinProofs BnProofs BnProps LinGraph BnExProps GraphModel GraphSpec GraphProps FuseSpec MergeModel MergeSpec MergeProps.

Lemma out_hw_same l l' hw : same_node l' l -> out_hw l' hw = out_hw l hw.
Proof. intros (K & G & I & O & S & D & P & KS). unfold out_hw, out_dim. rewrite K, S, D, P, KS. reflexivity. Qed.

(* a node is merged into c: what c computes is what the two nodes computed in turn *)
Section Merge.
Variables (g : graph) (a b c : nat) (e : edge).
Hypothesis M : mergeable g a b c e.
Hypothesis OG : forall o, In o (g_out g) -> In (fst o) (g_nodes g).
Variable op : nat -> list image -> nat -> image.
Definition with_node (f : list image -> image) : nat -> list image -> nat -> image := fun m args k => if Nat.eqb m c then f args else op m args k.
(* merging succeeds and the graph in which c computes f has the outputs of g *)
Definition replaces (f : list image -> image) : Prop :=
  exists g', merge_nodes no_check g a b c = Ok g' /\ wf g' /\
    forall val, computes op g val -> exists val', computes (with_node f) g' val' /\ outputs g' val' = outputs g val.
Lemma merge_replaces f : (forall args k, f args = op b [op a args (si e)] k) -> replaces f.
Proof.
  intro H. destruct (merging_succeeds g a b c e M) as [g' E]. destruct (merging _ g a b c e g' M E) as [FU W]. exists g'. split; [exact E|]. split; [exact W|]. intros val C.
  destruct (merging_preserves_outputs g a b c e g' M FU OG op (with_node f)) with (val := val) as (val' & C' & O' & _); [| |exact C|exists val'; split; assumption].
  - intros m l k N. unfold with_node. rewrite (proj2 (Nat.eqb_neq m c) N). reflexivity.
  - intros l k. unfold with_node. rewrite Nat.eqb_refl. apply H.
Qed.
(* C34 *)
Theorem bn_folding_in_graph l bnp : (forall args k, op a args k = lin_op l args) -> (forall args k, op b args k = bn_op (l_out l) bnp args) ->
  lin_wf l -> foldable_kind (l_kind l) = true -> groups_ok l -> bn_wf (l_out l) bnp ->
  exists l', fold_bn l bnp = Ok l' /\ same_node l' l /\ replaces (lin_op l').
Proof.
  intros OA OB W F G BW. destruct (bn_folding l bnp W F G BW) as (l' & E & SN & W' & H). exists l'. split; [exact E|]. split; [exact SN|]. apply merge_replaces. intros args k. rewrite OB, OA. destruct args as [|[[hw x]|] [|]]; try reflexivity. cbn [lin_op bn_op].
  assert (OE : out_hw l' hw = out_hw l hw) by (apply out_hw_same; exact SN). rewrite OE. do 2 f_equal. destruct SN as (_ & _ & _ & -> & _). apply clip_ext. intros o p L P. rewrite H by exact L. unfold bn_val. rewrite clip_in by assumption. reflexivity.
Qed.
(* C36: refusing *)
Theorem refusing_in_graph l bnp : (forall args k, op a args k = lin_op l args) -> (forall args k, op b args k = bn_op (l_out l) bnp args) ->
  lin_wf l -> foldable_kind (l_kind l) = true -> groups_ok l -> bn_wf (l_out l) bnp -> l_bias l <> None -> b_gamma bnp <> None -> b_beta bnp <> None ->
  exists l', refuse l bnp = Ok l' /\ same_node l' l /\ replaces (lin_op l').
Proof.
  intros OA OB W F G BW B1 B2 B3. destruct (bn_folding_in_graph l bnp OA OB W F G BW) as (l' & E & R). exists l'. split; [|exact R]. unfold refuse. unfold fold_bn in E. destruct (l_bias l), (b_gamma bnp), (b_beta bnp); try congruence. exact E.
Qed.
(* C35 *)
Theorem forward_folding_in_graph l bnp : (forall args k, op a args k = bn_op (l_in l) bnp args) -> (forall args k, op b args k = lin_op l args) ->
  lin_wf l -> ksize l = (1, 1)%nat -> takes_input_scale l -> bn_wf (l_in l) bnp -> reads_everywhere l ->
  exists l', forward_fold (F_bn bnp) l = Ok (Some l') /\ same_node l' l /\ replaces (lin_op l').
Proof.
  intros OA OB W KS T BW RE. destruct (forward_folding l bnp W KS T BW) as (l' & E & SN & W' & H). exists l'. split; [exact E|]. split; [exact SN|]. apply merge_replaces. intros args k. rewrite OB, OA. destruct args as [|[[hw x]|] [|]]; try reflexivity. cbn [lin_op bn_op].
  rewrite (out_hw_same _ _ hw SN). do 2 f_equal. destruct SN as (_ & _ & _ & -> & _). apply clip_ext. intros o p L P. destruct (reads_all l hw p (scale_kind l T) KS RE P) as (q & TQ & _).
  rewrite H by (try exact L; rewrite TQ; discriminate). rewrite lin_val_clip by (apply not_dense, scale_kind, T). reflexivity.
Qed.
Theorem forward_folding_depthwise_in_graph d l : (forall args k, op a args k = lin_op d args) -> (forall args k, op b args k = lin_op l args) ->
  lin_wf d -> dw_valid d = true -> l_out d = l_in d -> reads_everywhere d -> l_stride d = (1, 1)%nat ->
  lin_wf l -> l_in l = l_out d -> ksize l = (1, 1)%nat -> takes_input_scale l -> reads_everywhere l ->
  exists l', forward_fold (F_dw d) l = Ok (Some l') /\ same_node l' l /\ replaces (lin_op l').
Proof.
  intros OA OB WD DV DM RD SD W CI KS T RE. destruct (forward_folding_depthwise d l WD DV DM W CI KS T) as (l' & E & SN & W' & H). exists l'. split; [exact E|]. split; [exact SN|]. apply merge_replaces. intros args k. rewrite OB, OA. destruct args as [|[[hw x]|] [|]]; try reflexivity. cbn [lin_op].
  assert (OD : out_hw d hw = hw).
  { assert (FD : foldable_kind (l_kind d) = true) by (unfold dw_valid in DV; destruct (l_kind d); try discriminate DV; reflexivity).
    assert (KD : ksize d = (1, 1)%nat). { apply (hw_one d WD FD). unfold dw_valid in DV. destruct (l_kind d); try discriminate DV; [exact DV|apply andb_prop in DV; tauto]. }
    destruct RD as (UD & _). unfold out_hw, out_dim. rewrite KD, SD, (not_dense d FD). cbn [fst snd]. change (Z.of_nat 1) with 1%Z. destruct hw as [h w]. cbn [fst snd]. destruct (transposed (l_kind d)); destruct UD as [-> | [-> | ->]]; cbn [fst snd]; unfold ceil_div; rewrite ?Z.div_1_r; f_equal; lia. }
  rewrite OD, (out_hw_same _ _ hw SN). do 2 f_equal. destruct SN as (_ & _ & _ & -> & _). apply clip_ext. intros o p L P. rewrite H by assumption. rewrite <- CI, lin_val_clip by (apply not_dense, scale_kind, T). reflexivity.
Qed.
End Merge.
Print Assumptions bn_folding_in_graph.
Print Assumptions refusing_in_graph.
Print Assumptions forward_folding_in_graph.
Print Assumptions forward_folding_depthwise_in_graph.
Lemma insert_by_perm key e l : Permutation.Permutation (insert_by key e l) (e :: l).
Proof. induction l as [|x l IH]; [reflexivity|]. cbn. destruct (Nat.leb _ _); [reflexivity|]. rewrite IH. apply Permutation.perm_swap. Qed.
Lemma sort_by_perm key l : Permutation.Permutation (sort_by key l) l.
Proof. induction l as [|x l IH]; [reflexivity|]. cbn [sort_by fold_right]. rewrite insert_by_perm. apply Permutation.perm_skip, IH. Qed.
Lemma sort_by_sorted key l : StronglySorted (fun a b => key a <= key b)%nat (sort_by key l).
Proof.
  induction l as [|x l IH]; [constructor|]. cbn [sort_by fold_right]. fold (sort_by key l). revert IH. generalize (sort_by key l) as r. clear l.
  induction r as [|y r IR]; intro S; cbn [insert_by]; [repeat constructor|]. inversion S as [|? ? S1 S2]; subst. destruct (Nat.leb_spec (key x) (key y)) as [L|L].
  - constructor; [exact S|]. constructor; [exact L|]. eapply Forall_impl; [|exact S2]. cbn. intros z Z. lia.
  - constructor; [apply IR, S1|]. apply Forall_forall. intros z I. apply (Permutation.Permutation_in _ (insert_by_perm key x r)) in I. destruct I as [<-|I]; [lia|]. rewrite Forall_forall in S2. apply S2, I.
Qed.
Lemma reads_some {V} g (val : nat -> nat -> V) n : exists l, reads g val n l.
Proof. eexists. exists (sort_by ti (filter (fun e => Nat.eqb (snk e) n) (g_edges g))). split; [apply sort_by_perm|]. split; [apply sort_by_sorted|reflexivity]. Qed.
(* C36: the reconstructed node is put behind the layer; images are those of a graph with C channels at this node *)
Theorem reconstruction_in_graph g a n std mean eps C : wf g -> In a (g_nodes g) -> ~ In n (g_nodes g) -> single_output g a -> (forall o, In o (g_out g) -> In (fst o) (g_nodes g)) ->
  shp std = [C] -> shp mean = [C] -> 0 < eps ->
  exists b g', reconstruct std mean eps = Ok b /\ append_node no_check g a n = Ok g' /\ wf g' /\
    forall op : nat -> list image -> nat -> image, (forall args k, match op a args k with Some (hw, x) => clip C hw x = x | None => True end) ->
    forall val, computes op g val -> exists val', computes (fun m args k => if Nat.eqb m n then bn_op C b args else op m args k) g' val' /\ outputs g' val' = outputs g val.
Proof.
  intros W IA NN SO OG S MN E. destruct (reconstructed_identity C std mean eps S MN E) as (b & B1 & _ & B2). destruct (appending_succeeds g a n W IA NN) as [g' G1]. destruct (appending _ g a n g' W IA NN G1) as [AP W']. exists b, g'. split; [exact B1|]. split; [exact G1|]. split; [exact W'|].
  intros op HC val CV. set (A := val a 0%nat).
  assert (VA : match A with Some (hw, x) => clip C hw x = x | None => True end).
  { unfold A. destruct (reads_some g val a) as [l R]. rewrite (CV a IA l R). apply HC. }
  destruct (appending_preserves_outputs g a n g' W IA NN SO OG AP op (fun m args k => if Nat.eqb m n then (match args with [v] => v | _ => None end) else op m args k)) with (val := val) as (val' & C' & O' & V').
  - intros m l k N. rewrite (proj2 (Nat.eqb_neq m n) N). reflexivity.
  - intros v k. rewrite Nat.eqb_refl. reflexivity.
  - exact CV.
  - exists val'. split; [|exact O']. intros m IM l R k. rewrite (C' m IM l R k). cbn beta. destruct (Nat.eqb_spec m n) as [->|NM]; [|reflexivity].
    assert (L : l = [A]).
    { destruct R as (es & P & _ & ->). destruct AP as (PE & _). rewrite (GraphProofs.filter_perm _ _ _ PE) in P. cbn [filter] in P. cbn [snk] in P. rewrite Nat.eqb_refl in P. rewrite GraphFindProps.filter_map_comm in P. rewrite GraphProofs.filter_nil in P.
      - cbn in P. apply Permutation.Permutation_sym, Permutation.Permutation_length_1_inv in P. subst es. cbn. rewrite V' by (intros ->; contradiction). reflexivity.
      - intros x I. assert (Q : Nat.eqb (snk x) n = false) by (apply Nat.eqb_neq; intros Z; apply NN; rewrite <- Z; apply (wf_ends g W x I)). unfold resrc. destruct (Nat.eqb (src x) a); exact Q. }
    subst l. cbn [bn_op]. destruct A as [[hw x]|]; [|reflexivity]. do 2 f_equal. rewrite <- VA at 1. apply clip_ext. intros c p L _. symmetry. apply B2, L.
Qed.
Print Assumptions reconstruction_in_graph.
(* the hypotheses are met: the graph `line` of MergeProps with a strided grouped convolution and its batch normalization *)
Example line_folds : exists op l', (forall args k, op 1%nat args k = lin_op conv_g args) /\ (forall args k, op 2%nat args k = bn_op 2 (bn2 5 7) args) /\ fold_bn conv_g (bn2 5 7) = Ok l' /\ replaces line 1 2 9 op (lin_op l').
Proof.
  set (op := fun n args (_ : nat) => match n with 1%nat => lin_op conv_g args | 2%nat => bn_op 2 (bn2 5 7) args | _ => nth 0 args None end : image).
  assert (OG : forall o, In o (g_out line) -> In (fst o) (g_nodes line)) by (cbn; intros o [<-|[<-|[]]]; cbn; tauto).
  destruct (bn_folding_in_graph line 1 2 9 (Edge 1 2 0 0) (proj1 line_mergeable) OG op conv_g (bn2 5 7)) as (l' & E & _ & R); try reflexivity; try (intros; reflexivity).
  - wf.
  - intro; discriminate.
  - apply bn2_wf.
  - exists op, l'. repeat split; assumption.
Qed.
