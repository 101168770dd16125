(* EqualizeGraphProps.v -- C39 in a whole graph: a chain of nodes found by the walk search. *)
From Coq Require Import Permutation Sorted FunctionalExtensionality.
From Verif Require Import LinNode LinSpec BnModel BnSpec LinProofs BnProofs LinGraph EqualizeModel EqualizeSpec EqualizeProps GraphModel GraphSpec GraphFindProps.

(* ---- values inside a chain can be changed when the last node undoes it ---- *)
Section Chain.
Context {V : Type}.
Variables (g : graph) (a b : nat) (mids : list nat) (sc : V -> V).
Hypothesis inner_only : forall n, In n (a :: mids) -> ~ In n (map fst (g_out g)).
Hypothesis into : forall e, In e (g_edges g) -> (In (src e) (a :: mids) <-> In (snk e) (mids ++ [b])).
Hypothesis distinct : NoDup (a :: mids ++ [b]).
Theorem rescaling_chain (op op' : nat -> list V -> nat -> V) :
  (forall n l k, ~ In n (a :: mids ++ [b]) -> op' n l k = op n l k) -> (forall l k, op' a l k = sc (op a l k)) ->
  (forall m l k, In m mids -> op' m (map sc l) k = sc (op m l k)) -> (forall l k, op' b (map sc l) k = op b l k) ->
  forall val, computes op g val -> exists val', computes op' g val' /\ outputs g val' = outputs g val /\ forall n k, ~ In n (a :: mids) -> val' n k = val n k.
Proof.
  intros HO HA HM HB val C. set (ins := fun n => if in_dec Nat.eq_dec n (a :: mids) then true else false).
  assert (INS : forall n, ins n = true <-> In n (a :: mids)) by (intro n; unfold ins; destruct (in_dec Nat.eq_dec n (a :: mids)); split; intro; congruence || contradiction || assumption).
  set (val' := fun n k => if ins n then sc (val n k) else val n k). exists val'.
  assert (OUT : forall n k, ~ In n (a :: mids) -> val' n k = val n k). { intros n k N. unfold val'. destruct (ins n) eqn:I; [|reflexivity]. destruct N. apply INS, I. }
  assert (INN : forall n k, In n (a :: mids) -> val' n k = sc (val n k)). { intros n k I. unfold val'. rewrite (proj2 (INS n) I). reflexivity. }
  split; [|split; [|exact OUT]].
  2:{ unfold outputs. apply map_ext_in. intros o IO. apply OUT. intro I. apply (inner_only _ I). apply in_map, IO. }
  inversion distinct as [|? ? NA ND]; subst. assert (NB : ~ In b (a :: mids)).
  { intros [<-|I]; [apply NA, in_or_app; right; left; reflexivity|]. apply NoDup_remove_2 in ND. apply ND. rewrite app_nil_r. exact I. }
  intros n IN l (es & PE & SE & ->) k.
  assert (ED : forall e, In e es -> In e (g_edges g) /\ snk e = n). { intros e I. apply (Permutation_in _ PE), filter_In in I. destruct I as [I E]. apply Nat.eqb_eq in E. auto. }
  assert (RD : reads g val n (map (fun e => val (src e) (si e)) es)) by (exists es; auto).
  destruct (in_dec Nat.eq_dec n (mids ++ [b])) as [I|NI].
  - assert (M : map (fun e => val' (src e) (si e)) es = map sc (map (fun e => val (src e) (si e)) es)). { rewrite map_map. apply map_ext_in. intros e IE. destruct (ED e IE) as [G1 G2]. apply INN. apply (into e G1). rewrite G2. exact I. }
    rewrite M. apply in_app_or in I. destruct I as [I|[<-|[]]].
    + rewrite INN by (right; exact I). rewrite HM by exact I. f_equal. apply (C n IN _ RD).
    + rewrite OUT by exact NB. rewrite HB. apply (C b IN _ RD).
  - assert (M : map (fun e => val' (src e) (si e)) es = map (fun e => val (src e) (si e)) es). { apply map_ext_in. intros e IE. destruct (ED e IE) as [G1 G2]. apply OUT. intro J. apply NI. rewrite <- G2. apply (into e G1), J. }
    rewrite M. destruct (Nat.eq_dec n a) as [->|NA'].
    + rewrite INN by (left; reflexivity). rewrite HA. f_equal. apply (C a IN _ RD).
    + rewrite OUT by (intros [Q|Q]; [congruence|apply NI, in_or_app; left; exact Q]). rewrite HO; [apply (C n IN _ RD)|]. intros [Q|Q]; [congruence|contradiction].
Qed.
End Chain.
Print Assumptions rescaling_chain.

(* the walks that the search finds are such chains if the later nodes have one input *)
Definition in_degree (g : graph) (n : nat) : nat := length (filter (fun e => Nat.eqb (snk e) n) (g_edges g)).
Lemma one_edge g (p : edge -> bool) e e' : length (filter p (g_edges g)) = 1%nat -> In e (g_edges g) -> In e' (g_edges g) -> p e = true -> p e' = true -> e = e'.
Proof.
  intros L I I' P P'. assert (A : In e (filter p (g_edges g))) by (apply filter_In; auto). assert (B : In e' (filter p (g_edges g))) by (apply filter_In; auto).
  destruct (filter p (g_edges g)) as [|x [|]]; try discriminate L. destruct A as [<-|[]], B as [<-|[]]. reflexivity.
Qed.
Lemma walk_app g : forall l n m, walk g (l ++ [n]) -> linked g n m -> walk g (l ++ [n; m]).
Proof. induction l as [|x l IH]; intros n m W L; [split; [exact L|exact I]|]. cbn [app] in *. destruct l as [|y l]; cbn [app] in *; [destruct W; split; [assumption|split; [exact L|exact I]]|]. destruct W as [W1 W2]. split; [exact W1|]. apply IH; assumption. Qed.
Lemma walk_pairs g : forall w e, walk g w -> (forall n, In n (removelast w) -> out_degree g n = 1%nat) -> In e (g_edges g) -> In (src e) (removelast w) -> In (snk e) (tl w).
Proof.
  induction w as [|x w IH]; intros e W D IE IS; [destruct IS|]. destruct w as [|y w]; [destruct IS|]. destruct W as [(f & F1 & F2 & F3) W]. change (removelast (x :: y :: w)) with (x :: removelast (y :: w)) in *. cbn [tl].
  destruct IS as [Q|IS].
  - left. rewrite <- F3. f_equal. apply (one_edge g (fun e => Nat.eqb (src e) x)); try assumption; [apply (D x); left; reflexivity| |]; apply Nat.eqb_eq; congruence.
  - right. destruct w as [|z w]; [destruct IS|]. apply (IH e W); [intros n I; apply D; right; exact I|exact IE|exact IS].
Qed.
Lemma walk_pairs' g : forall w e, walk g w -> (forall n, In n (tl w) -> in_degree g n = 1%nat) -> In e (g_edges g) -> In (snk e) (tl w) -> In (src e) (removelast w).
Proof.
  induction w as [|x w IH]; intros e W D IE IS; [destruct IS|]. destruct w as [|y w]; [destruct IS|]. destruct W as [(f & F1 & F2 & F3) W]. change (removelast (x :: y :: w)) with (x :: removelast (y :: w)). cbn [tl] in *.
  destruct IS as [Q|IS].
  - left. rewrite <- F2. f_equal. apply (one_edge g (fun e => Nat.eqb (snk e) y)); try assumption; [apply (D y); left; reflexivity| |]; apply Nat.eqb_eq; congruence.
  - right. apply (IH e W); [intros n I; apply D; right; exact I|exact IE|exact IS].
Qed.
Lemma removelast_snoc {A} (l : list A) x : removelast (l ++ [x]) = l.
Proof. rewrite removelast_app by discriminate. cbn. apply app_nil_r. Qed.
Theorem walk_is_chain g ms a mids b : wf g -> In (a :: mids ++ [b]) (walk_filter g ms) -> (forall n, In n (mids ++ [b]) -> in_degree g n = 1%nat) ->
  forall e, In e (g_edges g) -> (In (src e) (a :: mids) <-> In (snk e) (mids ++ [b])).
Proof.
  intros W F D e IE. apply (walk_search g ms _ W) in F. destruct F as (_ & WK & (n & Hn & _ & Dn) & FI). injection Hn as <-. unfold inner in FI. cbn [tl] in FI. rewrite removelast_snoc in FI. rewrite Forall_forall in FI.
  assert (RL : removelast (a :: mids ++ [b]) = a :: mids). { rewrite app_comm_cons. apply removelast_snoc. }
  split; intro I.
  - change (mids ++ [b]) with (tl (a :: mids ++ [b])). apply (walk_pairs g _ e WK); [|exact IE|rewrite RL; exact I]. rewrite RL. intros n [<-|J]; [exact Dn|apply FI, J].
  - rewrite <- RL. apply (walk_pairs' g _ e WK); [exact D|exact IE|exact I].
Qed.
Print Assumptions walk_is_chain.

(* ---- nodes that work channel by channel ---- *)
Lemma channel_op_scales C size G s args : (forall c, (c < C)%nat -> 0 < s c) -> (forall hw, homogeneous (G hw)) -> channel_op C size G (map (scale_image s) args) = scale_image s (channel_op C size G args).
Proof.
  intros P H. destruct args as [|[[hw x]|] [|]]; try reflexivity; cbn.
  - f_equal. f_equal. apply functional_extensionality. intro c. apply functional_extensionality. intro p. unfold clip. destruct (Nat.ltb_spec c C); cbn [andb]; [|ring]. destruct (inside_hw (size hw) p); [|ring]. apply H, P. assumption.
Qed.
Lemma relu_homogeneous : homogeneous (fun f p => relu (f p)).
Proof. intros a f p A. unfold relu. rewrite <- RmaxRmult by lra. rewrite Rmult_0_r. reflexivity. Qed.
Lemma zeros_homogeneous t l hw : homogeneous (fun f p => if inside_hw hw (fst p - t, snd p - l)%Z then f (fst p - t, snd p - l)%Z else 0).
Proof. intros a f p A. destruct (inside_hw _ _); ring. Qed.
(* the activation function inside a Keras layer *)
Definition activated (C : nat) (G : (Z * Z -> R) -> Z * Z -> R) (v : image) : image := channel_op C (fun hw => hw) (fun _ => G) [v].
Lemma activated_linear l args : activated (l_out l) (fun f => f) (lin_op l args) = lin_op l args.
Proof.
  destruct args as [|[[hw x]|] [|]]; try reflexivity. cbn. f_equal. f_equal. apply functional_extensionality. intro c. apply functional_extensionality. intro p. unfold clip. destruct (_ && _)%bool; reflexivity.
Qed.
(* any chain of such nodes (ReLU, zero padding) between the two layers *)
Theorem equalization_in_graph g ms a mids b l1 l2 s GA GB (op : nat -> list image -> nat -> image) : wf g -> In (a :: mids ++ [b]) (walk_filter g ms) -> NoDup (a :: mids ++ [b]) ->
  (forall n, In n (mids ++ [b]) -> in_degree g n = 1%nat) -> (forall n, In n (a :: mids) -> ~ In n (map fst (g_out g))) ->
  homogeneous GA -> (forall args k, op a args k = activated (l_out l1) GA (lin_op l1 args)) -> (forall args k, op b args k = activated (l_out l2) GB (lin_op l2 args)) ->
  (forall m, In m mids -> exists size G, (forall hw, homogeneous (G hw)) /\ forall args k, op m args k = channel_op (l_out l1) size G args) ->
  lin_wf l1 -> lin_wf l2 -> l_in l2 = l_out l1 -> scales_outputs l1 -> scales_inputs l2 -> shp s = [l_out l1] -> (forall c, (c < l_out l1)%nat -> 0 < at_ s [c]) ->
  exists l1' l2', update_linear_nodes l1 l2 s = Ok (l1', l2') /\
    forall val, computes op g val -> exists val', computes (fun n args k => if Nat.eqb n a then activated (l_out l1) GA (lin_op l1' args) else if Nat.eqb n b then activated (l_out l2) GB (lin_op l2' args) else op n args k) g val' /\ outputs g val' = outputs g val.
Proof.
  intros W F ND D NO HGA OA OB OM W1 W2 CI SO SI S P. destruct (equalization l1 l2 s W1 W2 CI SO SI S P) as (l1' & l2' & E & _ & _ & N1 & N2 & H1 & H2 & _). exists l1', l2'. split; [exact E|]. intros val C.
  assert (AB : a <> b). { intros ->. inversion ND as [|? ? Q _]. apply Q, in_or_app. right. left. reflexivity. }
  assert (OH : forall l l' hw, same_node l' l -> out_hw l' hw = out_hw l hw) by (intros l l' hw (Q1 & _ & _ & _ & Q5 & Q6 & Q7 & Q8); unfold out_hw, out_dim; rewrite Q1, Q5, Q6, Q7, Q8; reflexivity).
  destruct (rescaling_chain g a b mids (scale_image (fun c => at_ s [c])) NO (walk_is_chain g ms a mids b W F D) ND op (fun n args k => if Nat.eqb n a then activated (l_out l1) GA (lin_op l1' args) else if Nat.eqb n b then activated (l_out l2) GB (lin_op l2' args) else op n args k)) with (val := val) as (val' & C' & O' & _).
  - intros n l k N. rewrite (proj2 (Nat.eqb_neq n a)) by (intros ->; apply N; left; reflexivity). rewrite (proj2 (Nat.eqb_neq n b)) by (intros ->; apply N; right; apply in_or_app; right; left; reflexivity). reflexivity.
  - intros args k. rewrite Nat.eqb_refl, OA. unfold activated. rewrite <- (channel_op_scales (l_out l1) (fun hw => hw) (fun _ => GA) (fun c => at_ s [c]) [lin_op l1 args]) by (assumption || intro; exact HGA). f_equal. cbn [map]. f_equal.
    destruct args as [|[[hw x]|] [|]]; try reflexivity. cbn [lin_op scale_image]. rewrite (OH l1 l1' hw N1). f_equal. f_equal. apply functional_extensionality. intro c. apply functional_extensionality. intro p. unfold clip. destruct N1 as (_ & _ & _ & -> & _).
    destruct (Nat.ltb_spec c (l_out l1)); cbn [andb]; [|ring]. destruct (inside_hw _ p); [|ring]. apply H1. assumption.
  - intros m l k IM. rewrite (proj2 (Nat.eqb_neq m a)), (proj2 (Nat.eqb_neq m b)).
    + destruct (OM m IM) as (size & G & HG & HO). rewrite !HO. apply channel_op_scales; [exact P|exact HG].
    + intros ->. inversion ND as [|? ? _ ND']. apply NoDup_remove_2 in ND'. apply ND'. rewrite app_nil_r. exact IM.
    + intros ->. inversion ND as [|? ? Q _]. apply Q, in_or_app. left. exact IM.
  - intros args k. rewrite (proj2 (Nat.eqb_neq b a)) by congruence. rewrite Nat.eqb_refl, OB. f_equal. destruct args as [|[[hw x]|] [|v r]]; try reflexivity. cbn [map scale_image lin_op]. rewrite (OH l2 l2' hw N2). f_equal. f_equal. destruct N2 as (_ & _ & _ & -> & _). apply clip_ext. intros o p L _. apply H2; [exact L|reflexivity].
  - exact C.
  - exists val'. auto.
Qed.
Print Assumptions equalization_in_graph.
