(* GTrainProps.v -- C93: after GPTQ training every trained layer has its own kernel, parameters and bias, and nothing else has changed. *)
From Coq Require Import String List Arith Lia Bool Permutation QArith.
From Verif Require Import Base GTrainModel GTrainSpec GTrainProofs.
Import ListNotations.
Open Scope nat_scope.
Open Scope list_scope.

Section Names.
  Context {V P A : Type}.
  Lemma layers_names (ns : list (@tnode V P)) ls : Forall2 layer_of ns ls -> map l_name ls = map t_name ns.
  Proof. induction 1 as [|n l ns ls (E & _) _ IH]; [reflexivity|]. cbn. rewrite E, IH. reflexivity. Qed.
  Lemma names_sub (ns : list (@tnode V P)) q : NoDup (map t_name ns) -> NoDup (map t_name (filter q ns)).
  Proof.
    induction ns as [|n ns IH]; [intros _; constructor|]. cbn. intro N. inversion N as [|? ? Nn Nr E]. subst. specialize (IH Nr). destruct (q n); [|exact IH]. cbn. constructor; [|exact IH].
    intro I. apply Nn. apply in_map_iff in I. destruct I as (m & Em & I). apply filter_In in I. rewrite <- Em. apply in_map, I.
  Qed.
  Lemma unique_filter (ns : list (@tnode V P)) n : NoDup (map t_name ns) -> In n ns -> filter (fun m => String.eqb (t_name m) (t_name n)) ns = [n].
  Proof.
    induction ns as [|m ns IH]; [intros _ []|]. cbn. intros N I. inversion N as [|? ? Nm Nr E]. subst. destruct I as [->|I].
    - rewrite String.eqb_refl. f_equal. clear IH Nr N. induction ns as [|a r IHr]; [reflexivity|]. cbn in *. destruct (String.eqb_spec (t_name a) (t_name n)) as [E|]; [exfalso; apply Nm; left; exact E|].
      apply IHr. intro J. apply Nm. right. exact J.
    - destruct (String.eqb_spec (t_name m) (t_name n)) as [E|]; [exfalso; apply Nm; rewrite E; apply in_map; exact I|]. apply IH; assumption.
  Qed.
  Lemma forall2_in {X Y} (R : X -> Y -> Prop) l l' y : Forall2 R l l' -> In y l' -> exists x, In x l /\ R x y.
  Proof. induction 1 as [|a b l l' Rab F IH]; [intros []|]. intros [<-|I]; [exists a; split; [left; reflexivity|exact Rab]|]. destruct (IH I) as (x & Ix & Rx). exists x. split; [right; exact Ix|exact Rx]. Qed.
  Lemma forall2_in_l {X Y} (R : X -> Y -> Prop) l l' x : Forall2 R l l' -> In x l -> exists y, In y l' /\ R x y.
  Proof. induction 1 as [|a b l l' Rab F IH]; [intros []|]. intros [<-|I]; [exists b; split; [left; reflexivity|exact Rab]|]. destruct (IH I) as (y & Iy & Ry). exists y. split; [right; exact Iy|exact Ry]. Qed.
  Variables (hard : V -> A -> V) (qconf : A -> P).
  Lemma gptq_update tb (gq : list (@tnode V P)) res order ls : (forall l, Permutation (order l) l) -> NoDup (map t_name gq) ->
    (forall n, In n gq -> trains n -> exists kw kb kp, named n kw kb kp) -> wrapped gq = Ok ls ->
    exists gq', update_graph hard qconf tb gq (map (fun l => (l, res (l_name l))) (order ls)) = Ok gq'
      /\ Forall2 (fun n n' => (trains n -> learned hard qconf tb res n n') /\ (~ trains n -> n' = n)) gq gq'.
  Proof.
    intros Po Nd Nm W. pose proof (wrapped_ok gq ls W) as F. set (los := map (fun l => (l, res (l_name l))) (order ls)).
    assert (Il : forall lo, In lo los -> exists n, In n (compare_points gq) /\ layer_of n (fst lo) /\ snd lo = res (t_name n)).
    { intros lo I. unfold los in I. apply in_map_iff in I. destruct I as (l & <- & I). apply (Permutation_in _ (Po ls)) in I. destruct (forall2_in _ _ _ _ F I) as (n & In_ & L).
      exists n. split; [exact In_|]. split; [exact L|]. cbn. destruct L as (-> & _). reflexivity. }
    assert (Nl : NoDup (map (fun lo => l_name (fst lo)) los)).
    { unfold los. rewrite map_map. cbn. apply (Permutation_NoDup (l := map l_name ls)); [apply Permutation_map, Permutation_sym, Po|]. rewrite (layers_names _ _ F). apply names_sub. exact Nd. }
    destruct (update_steps hard qconf tb los gq Nl) as (gq' & E & St).
    { intros lo I. destruct (Il lo I) as (n & In_ & L & R). unfold compare_points in In_. apply filter_In in In_. destruct In_ as [In_ T]. apply trained_iff in T. destruct (Nm n In_ T) as (kw & kb & kp & N).
      exists n. pose proof L as (-> & _). split; [apply unique_filter; assumption|]. rewrite R. exact (update_learned hard qconf tb (fst lo) res n kw kb kp L N). }
    exists gq'. split; [exact E|].
    assert (G : forall n n', In n gq -> step hard qconf tb los n n' -> (trains n -> learned hard qconf tb res n n') /\ (~ trains n -> n' = n)).
    { intros n n' In_ S_. unfold step in S_. destruct (find (fun lo => String.eqb (t_name n) (l_name (fst lo))) los) as [lo|] eqn:Ef.
      - apply find_some in Ef. destruct Ef as [Ilo Q]. apply String.eqb_eq in Q. destruct (Il lo Ilo) as (m & Im & L & R). unfold compare_points in Im. apply filter_In in Im. destruct Im as [Im T].
        assert (m = n) as ->.
        { pose proof L as (Lm & _). pose proof (unique_filter gq n Nd In_) as U. assert (In m (filter (fun m => String.eqb (t_name m) (t_name n)) gq)) as J by (apply filter_In; split; [exact Im|apply String.eqb_eq; congruence]).
          rewrite U in J. destruct J as [->|[]]. reflexivity. }
        apply trained_iff in T. rewrite R in S_. split; [intros _; exact (learned_ok hard qconf tb (fst lo) res n n' L S_)|intro N; contradiction].
      - subst n'. split; [|reflexivity]. intro T. exfalso. apply trained_iff in T. destruct (forall2_in_l _ _ _ n F) as (l & I & L); [apply filter_In; split; assumption|].
        assert (Ilo : In (l, res (l_name l)) los) by (unfold los; apply (in_map (fun l => (l, res (l_name l)))); apply (Permutation_in _ (Permutation_sym (Po ls))); exact I).
        pose proof (find_none _ _ Ef _ Ilo) as Q. cbn in Q. destruct L as (L & _). rewrite L, String.eqb_refl in Q. discriminate. }
    clear E. revert G. generalize gq' St. clear. intros gq' St. induction St as [|n n' r r' S_ F IH]; intro G; constructor; [apply G; [left; reflexivity|exact S_]|]. apply IH. intros m m' I. apply G. right. exact I.
  Qed.
End Names.

(* Whatever training does: if GPTQ returns a graph, each trained layer has got its own quantized kernel, its own quantization
   parameters and, if biases are trained, its own bias; all other nodes and weights are as before, in whatever order the layers of the
   trained model are visited. *)
Theorem trained_graph : forall V P A (hard : V -> A -> V) (qconf : A -> P) fw c aux service fs qs gf gq res order gq',
  (forall l, Permutation (order l) l) -> NoDup (map t_name gq) -> (forall n, In n gq -> trains n -> exists kw kb kp, named n kw kb kp) ->
  gptq hard qconf fw c aux service fs qs gf gq res order = Ok gq' ->
  Forall2 (fun n n' => (trains n -> learned hard qconf (g_train_bias c) res n n') /\ (~ trains n -> n' = n)) gq gq'.
Proof.
  intros V P A hard qconf fw c aux service fs qs gf gq res order gq' Po Nd Nm E. unfold gptq, prepare in E. destruct (wrapped gq) as [ls|] eqn:W; [|discriminate]. cbn [bind] in E.
  destruct (gptq_update hard qconf (g_train_bias c) gq res order ls Po Nd Nm W) as (g' & U & F).
  match type of E with bind ?x _ = _ => destruct x as [ls'|] eqn:Ep; [|discriminate] end. cbn [bind] in E.
  assert (ls' = ls) as ->.
  { repeat match type of Ep with (if ?b then _ else _) = _ => destruct b; [discriminate|] end. destruct (g_hess c); [|congruence].
    match type of Ep with (if ?b then _ else _) = _ => destruct b; [discriminate|] end. congruence. }
  destruct (train fw c ls); [|discriminate]. cbn [bind] in E. rewrite U in E. injection E as <-. exact F.
Qed.
Print Assumptions trained_graph.

(* When GPTQ returns a graph: with a Hessian service if Hessian scores are asked for, equal input scales, as many layers to train in
   the float as in the quantized graph, no normalization of scores per sample, and for PyTorch one trained variable per layer and,
   with soft rounding, some layer at all. *)
Theorem trained_iff_admissible : forall V P A (hard : V -> A -> V) (qconf : A -> P) fw c aux service fs qs gf gq res order,
  (forall l, Permutation (order l) l) -> NoDup (map t_name gq) -> (forall n, In n gq -> trains n -> exists kw kb kp, named n kw kb kp) ->
  ((exists gq', gptq hard qconf fw c aux service fs qs gf gq res order = Ok gq') <->
   (g_hess c <> None -> service = true) /\ (fs == qs)%Q /\ length (compare_points gf) = length (compare_points gq)
   /\ (forall h, g_hess c = Some h -> h_per_sample h = true -> h_norm h = false /\ h_log h = false /\ h_scale h = false)
   /\ (fw = GTorch -> (aux = 1 \/ compare_points gq = []) /\ (g_soft c = true -> compare_points gq <> []))).
Proof.
  intros V P A hard qconf fw c aux service fs qs gf gq res order Po Nd Nm.
  destruct (wrapped_exists gq) as (ls & W).
  { intros n k I T K. destruct (Nm n I T) as (kw & kb & kp & N). destruct (nm_kernel _ _ _ _ N k K) as [O _]. rewrite (get_only _ _ _ O). destruct O as (_ & Ik & _). apply lookup_in. exact Ik. }
  destruct (gptq_update hard qconf (g_train_bias c) gq res order ls Po Nd Nm W) as (g' & U & _).
  pose proof (wrapped_ok gq ls W) as F. assert (L : length (compare_points gq) = length ls) by (clear - F; induction F; cbn; congruence).
  assert (Z : compare_points gq = [] <-> ls = []) by (clear - F; destruct F; split; congruence).
  unfold gptq, prepare. rewrite W. cbn [bind]. rewrite Z, L.
  assert (HQ : Qeq_bool fs qs = true <-> (fs == qs)%Q) by apply Qeq_bool_iff.
  assert (Cn : forall b : bool, (Nat.eqb (length (compare_points gf)) (match fw with GTorch => aux * length ls | GKeras => length ls end) && Nat.eqb (match fw with GTorch => aux * length ls | GKeras => length ls end) (length ls)) = b ->
     (b = true <-> length (compare_points gf) = length ls /\ (fw = GTorch -> aux = 1 \/ ls = []))).
  { intros b <-. rewrite andb_true_iff, !Nat.eqb_eq. destruct fw.
    - split.
      + intros [E1 E2]. split; [congruence|]. intros _. destruct ls; [right; reflexivity|left]. cbn [length] in E2. nia.
      + intros [E1 E2]. destruct (E2 eq_refl) as [->| ->]; [rewrite E1; lia|]. rewrite E1. cbn. lia.
    - split; [intros [E1 _]; split; [exact E1|discriminate]|]. intros [E1 _]. split; [exact E1|reflexivity]. }
  set (cnt := _ && _) in *. specialize (Cn cnt eq_refl).
  destruct (match g_hess c with Some _ => negb service | None => false end) eqn:Hs.
  { split; [intros (? & ?); discriminate|]. intros (H & _). destruct (g_hess c); [|discriminate]. rewrite H in Hs by discriminate. discriminate. }
  assert (Hs' : g_hess c <> None -> service = true) by (destruct (g_hess c); [destruct service; [reflexivity|discriminate]|congruence]).
  destruct (Qeq_bool fs qs) eqn:Hq; cbn [negb]; [|split; [intros (? & ?); discriminate|intros (_ & H & _); apply HQ in H; discriminate]].
  assert (fs == qs)%Q as Hq' by (apply HQ; reflexivity).
  destruct cnt; cbn [negb]; [|split; [intros (? & ?); discriminate|]; intros (_ & _ & H1 & _ & H2); discriminate (proj2 Cn (conj H1 (fun T => proj1 (H2 T))))].
  destruct (proj1 Cn eq_refl) as [Hl Ha]. clear Cn.
  assert (Tr : (exists gq', (bind (train fw c ls) (fun _ => update_graph hard qconf (g_train_bias c) gq (map (fun l => (l, res (l_name l))) (order ls)))) = Ok gq') <-> (fw = GTorch -> g_soft c = true -> ls <> [])).
  { unfold train. destruct fw.
    - destruct ls as [|l ls]; [destruct (g_soft c); cbn [bind]|cbn [bind]].
      + split; [intros (? & ?); discriminate|]. intro H. destruct (H eq_refl eq_refl eq_refl).
      + rewrite U. split; [intros _ _ Q; discriminate Q|]. intros _. eexists. reflexivity.
      + rewrite U. split; [intros _ _ _ Q; discriminate Q|]. intros _. eexists. reflexivity.
    - cbn [bind]. rewrite U. split; [intros _ Q; discriminate Q|]. intros _. eexists. reflexivity. }
  destruct (g_hess c) as [h|] eqn:Eh.
  - destruct (h_per_sample h && (h_norm h || h_log h || h_scale h)) eqn:Hn.
    + split; [intros (? & ?); discriminate|]. intros (_ & _ & _ & H & _). apply andb_true_iff in Hn. destruct Hn as [Hp Hn]. destruct (H h eq_refl Hp) as (E1 & E2 & E3). rewrite E1, E2, E3 in Hn. discriminate.
    + cbn [bind]. rewrite Tr. split.
      * intro H. split; [exact Hs'|]. split; [exact Hq'|]. split; [exact Hl|]. split; [|intro T; split; [apply Ha; exact T|apply H; exact T]].
        intros h' E Hp. injection E as <-. rewrite Hp in Hn. cbn [andb] in Hn. apply orb_false_iff in Hn. destruct Hn as [Hn H3]. apply orb_false_iff in Hn. destruct Hn. repeat split; assumption.
      * intros (_ & _ & _ & _ & H) T. apply H. exact T.
  - cbn [bind]. rewrite Tr. split.
    + intro H. split; [exact Hs'|]. split; [exact Hq'|]. split; [exact Hl|]. split; [intros h Q; discriminate Q|]. intro T. split; [apply Ha; exact T|apply H; exact T].
    + intros (_ & _ & _ & _ & H) T. apply H. exact T.
Qed.
Print Assumptions trained_iff_admissible.

(* A trained layer that shares its name with another node of the graph is refused. *)
Theorem shared_name : forall V P A (hard : V -> A -> V) (qconf : A -> P) fw c aux service fs qs gf gq res order l1 l2 l3 n m,
  (forall l, Permutation (order l) l) -> gq = l1 ++ n :: l2 ++ m :: l3 -> (trains n \/ trains m) -> t_name n = t_name m ->
  exists e, gptq hard qconf fw c aux service fs qs gf gq res order = Err e.
Proof.
  intros V P A hard qconf fw c aux service fs qs gf gq res order l1 l2 l3 n m Po Eg T En. unfold gptq. destruct (prepare fw c aux service fs qs gf gq) as [ls|e] eqn:Ep; [|exists e; reflexivity].
  cbn [bind]. destruct (train fw c ls); [|eexists; reflexivity]. cbn [bind].
  assert (W : wrapped gq = Ok ls).
  { unfold prepare in Ep. destruct (wrapped gq) as [ls'|]; [|discriminate]. cbn [bind] in Ep. repeat match type of Ep with (if ?b then _ else _) = _ => destruct b; [discriminate|] end.
    destruct (g_hess c); [|congruence]. match type of Ep with (if ?b then _ else _) = _ => destruct b; [discriminate|] end. congruence. }
  pose proof (wrapped_ok gq ls W) as F.
  assert (exists x, In x (compare_points gq) /\ t_name x = t_name n) as (x & Ix & Ex).
  { destruct T as [T|T]; apply trained_iff in T; [exists n|exists m]; (split; [|congruence]); apply filter_In; (split; [|exact T]); rewrite Eg; apply in_or_app; right; [left; reflexivity|right; apply in_or_app; right; left; reflexivity]. }
  destruct (forall2_in_l _ _ _ x F Ix) as (l & Il & (Ln & _)).
  apply (update_dup hard qconf (g_train_bias c) _ gq (l, res (l_name l))).
  - apply (in_map (fun l => (l, res (l_name l)))). apply (Permutation_in _ (Permutation_sym (Po ls))). exact Il.
  - cbn [fst]. rewrite Ln, Ex, Eg. rewrite !filter_app. cbn [filter]. rewrite String.eqb_refl. rewrite filter_app. cbn [filter]. rewrite <- En, String.eqb_refl.
    rewrite app_length. cbn [length]. rewrite app_length. cbn [length]. lia.
Qed.
Print Assumptions shared_name.

(* Without a configuration, or without epochs, the graph is returned as it is. *)
Theorem not_trained : forall V P A (hard : V -> A -> V) (qconf : A -> P) fw c aux service fs qs gf gq res order, (forall c', c = Some c' -> g_epochs c' = 0) ->
  apply_gptq hard qconf fw c aux service fs qs gf gq res order = Ok gq.
Proof. intros V P A hard qconf fw [c|] aux service fs qs gf gq res order H; [|reflexivity]. unfold apply_gptq. rewrite (H c eq_refl). reflexivity. Qed.
Print Assumptions not_trained.

(* PyTorch: the regularization weight of each compared layer meets this layer. *)
Theorem torch_reg_order : forall V P W (gf gq : list (@tnode V P)) ls (ws : list W), wrapped gq = Ok ls -> map t_name (compare_points gf) = map t_name (compare_points gq) ->
  length ws = length (compare_points gf) -> exists ps, reg_pairs ls ws = Ok ps /\ map (fun p => (l_name (fst p), snd p)) ps = combine (map t_name (compare_points gf)) ws.
Proof.
  intros V P W gf gq ls ws Wr En L. pose proof (layers_names _ _ (wrapped_ok gq ls Wr)) as N. rewrite <- En in N.
  assert (length ws = length ls) as Lw by (apply (f_equal (@length _)) in N; rewrite !map_length in N; congruence).
  unfold reg_pairs. rewrite Lw, Nat.eqb_refl. eexists. split; [reflexivity|]. rewrite <- N. clear - Lw. revert ws Lw. induction ls as [|l ls IH]; intros [|w ws] Lw; try discriminate; [reflexivity|]. cbn. f_equal. apply IH. injection Lw as Lw. exact Lw.
Qed.
Print Assumptions torch_reg_order.

(* Keras: so it does if each compared layer is nearer to the outputs than the one before. *)
Theorem keras_reg_order : forall g points, NoDup points -> decreasing (depth g) points -> filter (fun n => existsb (Nat.eqb n) points) (keras_layers g points) = points.
Proof. exact layers_in_order. Qed.
Print Assumptions keras_reg_order.

(* FINDING (gptq/keras/quantizer/soft_rounding/soft_quantizer_reg.py L53-75; gptq/keras/gptq_training.py L135-143): the weights are in
   the topological order of the compare points, the layers in the order of model.layers, by distance to the outputs: with a branch of
   one layer beside a branch of two the weights of layers are exchanged. *)
Theorem keras_reg_order_refuted : ~ (forall g points, NoDup points -> filter (fun n => existsb (Nat.eqb n) points) (keras_layers g points) = points).
Proof.
  intro H. specialize (H [(0, []); (1, [0]); (2, [0]); (3, [2])] [1; 2; 3]). vm_compute in H. assert (NoDup [1; 2; 3]) as N by (repeat constructor; cbn; intuition discriminate).
  specialize (H N). discriminate.
Qed.
Print Assumptions keras_reg_order_refuted.

(* FINDING (core/common/graph/base_node.py L303-304, L334-339; gptq/keras/gptq_training.py L446): the bias goes to the only weight whose
   name has "bias" in it; in Keras that name has the name of the layer in it: for a layer called bias_conv the trained bias is added
   as another weight, and the old one stays. *)
Definition bias_conv : @tnode nat nat := mk_tnode "bias_conv" false (Some "kernel"%string) true true [("bias_conv/kernel:0"%string, 1); ("bias_conv/bias:0"%string, 2)] [("bias_conv/kernel:0"%string, 0)].
Theorem trained_bias_refuted : ~ (forall (n n' : @tnode nat nat) l (o : @outcome nat nat), layer_of n l -> t_bias n = true -> update_node (fun v _ => v) (fun p => p) true l o n = Ok n' ->
  map fst (t_weights n') = map fst (t_weights n)).
Proof.
  intro H. specialize (H bias_conv). specialize (H (mk_tnode "bias_conv" false (Some "kernel"%string) true true
    [("bias_conv/kernel:0"%string, 1); ("bias_conv/bias:0"%string, 2); ("bias"%string, 7)] [("bias_conv/kernel:0"%string, 5)]) (mk_layer "bias_conv" "kernel" 1 true) (mk_outcome 5 7)).
  assert (layer_of bias_conv (mk_layer "bias_conv" "kernel" 1 true)) as L by (repeat split; vm_compute; reflexivity). specialize (H L eq_refl eq_refl). vm_compute in H. discriminate.
Qed.
Print Assumptions trained_bias_refuted.

(* FINDING (gptq/pytorch/gptq_training.py L229-249; gptq/pytorch/quantizer/soft_rounding/soft_quantizer_reg.py L58): a model without any
   quantized kernel is returned as it is by Keras, and makes PyTorch fail. *)
Theorem nothing_to_train : forall V P A (hard : V -> A -> V) (qconf : A -> P) c aux service fs qs gf gq res order,
  (forall l, Permutation (order l) l) -> compare_points gf = [] -> compare_points gq = [] -> g_hess c = None -> (fs == qs)%Q ->
  gptq hard qconf GKeras c aux service fs qs gf gq res order = Ok gq
  /\ gptq hard qconf GTorch c aux service fs qs gf gq res order = if g_soft c then Err E_runtime else Ok gq.
Proof.
  intros V P A hard qconf c aux service fs qs gf gq res order Po Ef Eq Eh Es. unfold gptq, prepare. rewrite Ef, Eh.
  assert (wrapped gq = Ok []) as ->.
  { destruct (wrapped_exists gq) as (ls & W); [|pose proof (wrapped_ok gq ls W) as F; rewrite Eq in F; inversion F; subst; exact W].
    intros n k I T. exfalso. apply trained_iff in T. assert (In n (compare_points gq)) as J by (apply filter_In; split; assumption). rewrite Eq in J. destruct J. }
  cbn [bind]. apply Qeq_bool_iff in Es. rewrite Es. assert (order [] = []) as O by (apply Permutation_nil, Permutation_sym, Po).
  cbn [negb length]. rewrite Nat.mul_0_r. cbn [Nat.eqb andb negb bind train]. destruct (g_soft c); cbn [bind]; rewrite O; split; reflexivity.
Qed.
Print Assumptions nothing_to_train.

(* a trained convolution, a reused one and a layer without kernel *)
Definition conv1 : @tnode nat nat := mk_tnode "conv1" false (Some "weight"%string) true true [("weight"%string, 1); ("bias"%string, 2)] [("weight"%string, 0); ("bias"%string, 0)].
Definition conv1_again : @tnode nat nat := mk_tnode "conv1_reuse_1" true (Some "weight"%string) true true [("weight"%string, 1); ("bias"%string, 2)] [("weight"%string, 0); ("bias"%string, 0)].
Definition relu : @tnode nat nat := mk_tnode "relu" false None false false [] [].
Definition cfg1 : gcfg := mk_gcfg 1 true None true.
Lemma no_occurs a b : FilterModel.str_contains b a = false -> ~ occurs a b.
Proof. intros E O. apply contains_occurs in O. congruence. Qed.
Example conv1_named : trains conv1 /\ named conv1 "weight" "bias" "weight" /\ ~ trains conv1_again /\ ~ trains relu.
Proof.
  assert (Ow : occurs "weight" "weight") by (exists ""%string, ""%string; reflexivity). assert (Ob : occurs "bias" "bias") by (exists ""%string, ""%string; reflexivity).
  assert (N1 : ~ occurs "weight" "bias") by (apply no_occurs; reflexivity). assert (N2 : ~ occurs "bias" "weight") by (apply no_occurs; reflexivity).
  assert (Nd : NoDup ["weight"%string; "bias"%string]) by (repeat constructor; cbn; intuition discriminate).
  split; [repeat split; exists "weight"%string; reflexivity|]. split; [|split; [intros (_ & _ & H); discriminate|intros ((k & H) & _); discriminate]].
  split.
  - intros k E. injection E as <-. split; (split; [exact Nd|]; split; [left; reflexivity|]; split; [exact Ow|]; intros k' [<-|[<-|[]]] O; [reflexivity|contradiction]).
  - intros _. split; [|discriminate]. split; [exact Nd|]. split; [right; left; reflexivity|]. split; [exact Ob|]. intros k' [<-|[<-|[]]] O; [contradiction|reflexivity].
Qed.
Example conv1_trained : gptq (fun v a => v + a) (fun a => a) GTorch cfg1 1 false 1 1 [conv1; conv1_again; relu] [conv1; conv1_again; relu] (fun _ => mk_outcome 10 20) (fun l => l)
  = Ok [mk_tnode "conv1" false (Some "weight"%string) true true [("weight"%string, 11); ("bias"%string, 20)] [("weight"%string, 10); ("bias"%string, 0)]; conv1_again; relu].
Proof. reflexivity. Qed.

(* Where the name of the kernel occurs in several attributes, the trained parameters go to the attribute of exactly this name, and without
   one the export of the training is refused. *)
Theorem trained_params_ambiguous : forall P attr (p : P) cfg k1 k2, k1 <> k2 -> In k1 (map fst cfg) -> In k2 (map fst cfg) -> occurs attr k1 -> occurs attr k2 ->
  (In attr (map fst cfg) -> exists cfg', set_params attr p cfg = Ok cfg' /\ changed attr p cfg cfg') /\
  (~ In attr (map fst cfg) -> set_params attr p cfg = Err E_critical).
Proof.
  intros P attr p cfg k1 k2 N I1 I2 O1 O2.
  assert (forall k, In k (map fst cfg) -> occurs attr k -> In k (keys_with attr cfg)) as K.
  { intros k I O. unfold keys_with. apply filter_In. split; [exact I | apply contains_occurs; exact O]. }
  pose proof (K k1 I1 O1) as J1. pose proof (K k2 I2 O2) as J2. unfold set_params.
  destruct (keys_with attr cfg) as [|x [|y l]]; [destruct J1 | destruct J1 as [<-|[]]; destruct J2 as [<-|[]]; contradiction|]. split.
  - intros I. destruct (lookup_in attr cfg I) as [v ->]. eexists. split; [reflexivity|]. split; [apply assign_keys; exact I|]. split; [apply assign_same|].
    intros k' D. apply assign_other. exact D.
  - intros I. destruct (lookup attr cfg) as [v|] eqn:L; [exfalso|reflexivity]. apply I. clear - L. induction cfg as [|[k x] r IH]; [discriminate|]. cbn in L |- *.
    destruct (String.eqb_spec k attr) as [->|D]; [left; reflexivity | right; apply IH; exact L].
Qed.
Print Assumptions trained_params_ambiguous.
Example two_kernels : set_params "kernel" 9 [("depthwise_kernel", 1); ("kernel", 2)]%string = Ok [("depthwise_kernel", 1); ("kernel", 9)]%string.
Proof. reflexivity. Qed.
