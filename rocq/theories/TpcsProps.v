(* TpcsProps.v -- C110: the QNNPACK and TFLite platform descriptions. *)
From Coq Require Import String.
From Verif Require Import Base SDict FilterModel PlatModel PlatSpec PlatProofs PlatProps HessianModel LookupModel LookupSpec LookupProps TabModel TabSpec TabProofs TabProps ImxModel ImxProps TpcsModel.
Local Open Scope list_scope.

(* a property of configurations that does not depend on attribute names passes from the description to every node *)
Lemma node_configs (P : opcfg -> Prop) t fw a n q : NoDup (map os_name (or_old (t2_opsets t) [])) ->
  (forall c c', same_but_attrs c c' -> (forall k x, In (k, x) (oc_attrs c') -> exists k', In (k', x) (oc_attrs c)) -> P c -> P c') ->
  (forall c, In c (qo_base (t2_default t) :: qo_cfgs (t2_default t)) -> P c) ->
  (forall s o, In s (or_old (t2_opsets t) []) -> os_qco s = Some o -> forall c, In c (qo_base o :: qo_cfgs o) -> P c) ->
  attach [] (builtin fw) t = Ok a -> fetch a n = Ok q -> forall c, In c (qo_base q :: qo_cfgs q) -> P c.
Proof.
  intros ND HP HD HS A F c I. destruct (attached_tables [] (builtin fw) t a ND A) as (TF & TL & TD).
  assert (PE : forall k, entry [] (builtin fw) t k q -> P c).
  { intros k (s & o & Is & _ & _ & ->). apply mapped_cfgs in I. destruct I as (c0 & I0 & S & V). apply (HP c0 c S V). destruct (os_qco s) as [o'|] eqn:Q; [exact (HS s o' Is Q c0 I0)|exact (HD c0 I0)]. }
  destruct (fetched a n q F) as [[flt J]|[[[id nm] J]| ->]].
  - apply TF in J. destruct J as [i J]. exact (PE _ J).
  - apply TL in J. exact (PE _ J).
  - rewrite TD in I. exact (HD c I).
Qed.

Lemma qnnpack_inv d base mp name : wf_cfg d -> exists t, qnnpack_generate d base mp name = Ok t /\ t2_default t = Qco d [d] /\
  t2_opsets t = Some (map plain ["Conv"; "DepthwiseConv2D"; "ConvTranspose"; "BatchNorm"; "ReLU"; "ReLU6"; "HardTanh"; "FullyConnected"]%string).
Proof.
  intro W. unfold qnnpack_generate. rewrite (default_ok d W). cbn [bind]. unfold fuse, new_fusing. cbn [length Nat.ltb Nat.leb bind]. unfold new_tpc2. cbn [qo_cfgs length Nat.eqb negb].
  match goal with |- exists _, (if negb ?b then _ else _) = _ /\ _ => assert (b = true) as -> by reflexivity end. eexists. repeat split.
Qed.
(* FINDING (qnnpack_tpc/v1/tpc.py L120-186): the base configuration with the quantized kernel is not used: whatever it is, every operation gets the default options. *)
Theorem qnnpack_base_unused_refuted d base mp name : wf_cfg d -> exists t, qnnpack_generate d base mp name = Ok t /\ forall s q, options t s q -> q = Qco d [d].
Proof.
  intro W. destruct (qnnpack_inv d base mp name W) as (t & E & D & O). exists t. split; [exact E|]. intros s q (o & H & ->). unfold options_of_opset in H. rewrite O, D in H. rewrite D.
  match type of H with Ok ?x = Ok ?y => assert (y = x) as -> by congruence end. destruct (find _ _) as [x|] eqn:F; [|reflexivity].
  apply find_some in F. destruct F as [I _]. apply in_map_iff in I. destruct I as (z & <- & _). reflexivity.
Qed.
Print Assumptions qnnpack_base_unused_refuted.
(* FINDING (same): on this platform no weight of any node is quantized, in neither framework, although kernels should have 8 bits; activations are quantized with powers of two, not uniformly. *)
Theorem qnnpack_weights_refuted : exists t, qnnpack_tpc = Ok t /\ forall fw, exists a, attach [] (builtin fw) t = Ok a /\ forall n q c, fetch a n = Ok q -> In c (qo_base q :: qo_cfgs q) ->
  oc_attrs c = [] /\ ac_enable (oc_default c) = false /\ oc_method c = pot.
Proof.
  destruct (qnnpack_inv eight_bits (linear_config false) [] "qnnpack_tpc") as (t & E & D & O); [constructor|]. exists t. split; [exact E|]. intro fw.
  assert (N : NoDup (map os_name (or_old (t2_opsets t) []))) by (rewrite O; apply distinctb_nodup; reflexivity).
  destruct (standard_platform_attaches fw t N) as [a A].
  { intros s I. rewrite O in I. cbn [or_old] in I. apply in_map_iff in I. destruct I as (x & <- & I). cbn [os_name plain].
    assert (forallb (fun s => existsb (String.eqb s) standard_names) ["Conv"; "DepthwiseConv2D"; "ConvTranspose"; "BatchNorm"; "ReLU"; "ReLU6"; "HardTanh"; "FullyConnected"]%string = true) as B by reflexivity.
    rewrite forallb_forall in B. specialize (B _ I). apply existsb_exists in B. destruct B as (y & J & Q). apply String.eqb_eq in Q. rewrite Q. exact J. }
  exists a. split; [exact A|]. intros n q c F. revert c. apply (node_configs (fun c => oc_attrs c = [] /\ ac_enable (oc_default c) = false /\ oc_method c = pot) t fw a n q N); try assumption.
  - intros c c' (E1 & E2 & _) V (P1 & P2 & P3). rewrite <- E1, <- E2. repeat split; try assumption. destruct (oc_attrs c') as [|[k x] l]; [reflexivity|]. destruct (V k x (or_introl eq_refl)) as [k' J]. rewrite P1 in J. destruct J.
  - rewrite D. intros c [<-|[<-|[]]]; repeat split.
  - intros s o I Q. rewrite O in I. cbn [or_old] in I. apply in_map_iff in I. destruct I as (x & <- & _). discriminate.
Qed.
Print Assumptions qnnpack_weights_refuted.
(* FINDING (tflite_tpc/v1/tpc.py L148 with node_quantization_config.py L106-107): the operations declared to preserve the quantization of their input keep their own quantization enabled;
   the constructor of the configuration of a node refuses that combination with a ValueError. *)
Theorem tflite_preserving_refuted d base mp name t s q c attrs : wf_cfg d -> oc_enable d = true -> tflite_generate d base mp name = Ok t ->
  In s ["Unstack"; "Transpose"; "Gather"; "Reshape"; "MaxPool"; "AvgPool"; "StridedSlice"; "Concatenate"; "Mul"; "Min"; "Max"; "ZeroPadding2D"; "Resize"; "Pad"; "Fold"; "Squeeze"]%string ->
  options t s q -> In c (qo_cfgs q) ->
  oc_preserve c = true /\ oc_enable c = true /\ new_cand attrs c = Err E_value.
Proof.
  intros W EN H I (o & E & ->) C. unfold tflite_generate in H. rewrite (default_ok d W) in H. cbn [bind] in H.
  destruct (new_qco (Some base) [base]) as [bq|]; [|discriminate]. cbn [bind] in H. destruct (qco_edit_weights None per_tensor (Qco d [d])) as [sq|]; [|discriminate]. cbn [bind] in H.
  destruct (qco_edit_weights None per_tensor bq) as [fq|]; [|discriminate]. cbn [bind] in H.
  unfold fuse, new_fusing in H. cbn [length Nat.ltb Nat.leb bind] in H. unfold new_tpc2 in H. cbn [qo_cfgs length Nat.eqb negb] in H.
  match type of H with (if negb ?b then _ else _) = _ => destruct b; [|discriminate] end. cbn [negb] in H. inversion H; subst t. clear H.
  assert (Q : o = Some (qco_clone [] preserve_edit (Qco d [d]))).
  { unfold options_of_opset in E. cbn [t2_opsets] in E. cbn [In] in I. repeat (destruct I as [<-|I]; [cbn in E; inversion E; reflexivity|]). destruct I. }
  subst o. cbn [or_old qco_clone qo_cfgs map] in C. destruct C as [<-|[]].
  assert (E1 : oc_enable (op_clone [] preserve_edit d) = true) by exact EN. assert (E2 : oc_preserve (op_clone [] preserve_edit d) = true) by reflexivity.
  split; [exact E2|]. split; [exact E1|]. unfold new_cand. rewrite E1, E2. reflexivity.
Qed.
Print Assumptions tflite_preserving_refuted.
(* what the TFLite description gives to the linear operations: convolutions the base configuration, other convolutions (depthwise, transposed) only the default one *)
Theorem tflite_linear_partial d base mp name t q : wf_cfg d -> tflite_generate d base mp name = Ok t ->
  (options t "Conv" q -> q = Qco base [base]) /\
  (options t "DepthwiseConv2D" q \/ options t "ConvTranspose" q -> q = Qco d [d]).
Proof.
  intros W H. unfold tflite_generate in H. rewrite (default_ok d W) in H. cbn [bind] in H.
  destruct (new_qco (Some base) [base]) as [bq|] eqn:B; [|discriminate]. cbn [bind] in H. destruct (qco_edit_weights None per_tensor (Qco d [d])) as [sq|]; [|discriminate]. cbn [bind] in H.
  destruct (qco_edit_weights None per_tensor bq) as [fq|]; [|discriminate]. cbn [bind] in H.
  unfold fuse, new_fusing in H. cbn [length Nat.ltb Nat.leb bind] in H. unfold new_tpc2 in H. cbn [qo_cfgs length Nat.eqb negb] in H.
  match type of H with (if negb ?b then _ else _) = _ => destruct b; [|discriminate] end. cbn [negb] in H. inversion H; subst t. clear H.
  assert (Q : bq = Qco base [base]).
  { unfold new_qco in B. cbn [bind] in B. destruct (existsb (opcfg_eqb base) [base]); [inversion B; reflexivity|discriminate]. }
  split.
  - intros (o & E & ->). unfold options_of_opset in E. cbn [t2_opsets] in E. cbn in E. inversion E. exact Q.
  - intros [(o & E & ->)|(o & E & ->)]; unfold options_of_opset in E; cbn [t2_opsets] in E; cbn in E; inversion E; reflexivity.
Qed.
Print Assumptions tflite_linear_partial.
Lemma foldM_step {A S} (f : S -> A -> result S) l : forall s s', foldM f l s = Ok s' -> forall x, In x l -> exists s1 s2, f s1 x = Ok s2.
Proof.
  induction l as [|y l IH]; intros s s' H x I; [destruct I|]. cbn [foldM] in H. destruct (f s y) as [s1|] eqn:E; [|discriminate]. cbn [bind] in H.
  destruct I as [<-|I]; [exists s, s1; exact E|exact (IH _ _ H x I)].
Qed.
Lemma tflite_enabled t : tflite_tpc = Ok t -> NoDup (map os_name (or_old (t2_opsets t) [])) /\
  (forall c, In c (qo_base (t2_default t) :: qo_cfgs (t2_default t)) -> oc_enable c = true) /\
  (forall s o, In s (or_old (t2_opsets t) []) -> os_qco s = Some o -> forall c, In c (qo_base o :: qo_cfgs o) -> oc_enable c = true).
Proof.
  intro H. assert (B : match tflite_tpc with Ok t => distinctb (map os_name (or_old (t2_opsets t) [])) &&
    forallb oc_enable (qo_base (t2_default t) :: qo_cfgs (t2_default t)) &&
    forallb (fun s => match os_qco s with Some o => forallb oc_enable (qo_base o :: qo_cfgs o) | None => true end) (or_old (t2_opsets t) []) | Err _ => false end = true) by (vm_compute; reflexivity).
  rewrite H in B. apply andb_true_iff in B. destruct B as [B B3]. apply andb_true_iff in B. destruct B as [B1 B2]. split; [apply distinctb_nodup, B1|].
  split; [apply forallb_forall, B2|]. rewrite forallb_forall in B3. intros s o I Q. specialize (B3 s I). rewrite Q in B3. apply forallb_forall, B3.
Qed.
(* FINDING (same): so a model with a node for which this platform asks to preserve the quantization cannot be loaded, whatever the rest of the model is. *)
Theorem tflite_loading_refuted t fw a fuel g n q : tflite_tpc = Ok t -> attach [] (builtin fw) t = Ok a -> In n (lg_nodes g) ->
  fetch a (gn_f n) = Ok q -> (forall c, In c (qo_cfgs q) -> oc_preserve c = true) -> forall st, load_graph fuel a g <> Ok st.
Proof.
  intros H A I F P st L. destruct (tflite_enabled t H) as (N & HD & HS).
  assert (EN : forall c, In c (qo_base q :: qo_cfgs q) -> oc_enable c = true).
  { apply (node_configs (fun c => oc_enable c = true) t fw a (gn_f n) q N); try assumption. intros c c' S _ E. unfold same_but_attrs in S. decompose [and] S. congruence. }
  unfold load_graph in L. destruct (mapM (check_custom a) (lg_nodes g)); [|discriminate]. cbn [bind] in L. destruct (foldM_step _ _ _ _ L n I) as (s1 & s2 & E). clear L.
  unfold set_node in E. rewrite F in E. cbn [bind] in E. destruct (filter_by_graph fuel a g (gn_id n) q) as [[b opts]|] eqn:Ef; [|discriminate]. cbn [bind] in E.
  destruct (mapM (new_cand (gn_attrs n)) opts) as [cands|] eqn:Ec; [|discriminate]. cbn [bind] in E. destruct (new_cand (gn_attrs n) b) as [sp|]; [|discriminate]. cbn [bind] in E.
  destruct (restricted_options _ _ _ _ _ _ _ Ef) as [_ [R _]].
  destruct opts as [|o opts]; [cbn in Ec; inversion Ec; subst; discriminate|].
  assert (J : In o (qo_cfgs q)) by (apply (R o); left; reflexivity).
  cbn [mapM] in Ec. unfold new_cand at 1 in Ec. rewrite (EN o (or_intror J)), (P o J) in Ec. discriminate.
Qed.
Print Assumptions tflite_loading_refuted.
Example tflite_exists : exists t, tflite_tpc = Ok t.
Proof. unfold tflite_tpc, tflite_generate. cbn [bind new_qco]. eexists. vm_compute. reflexivity. Qed.
(* the hypotheses are met: the attached tables of both frameworks have layers with preserving options *)
Example reshape_preserves t fw a : tflite_tpc = Ok t -> attach [] (builtin fw) t = Ok a -> exists id nm q c, In ((id, nm), q) (q_layers a) /\ qo_cfgs q = [c] /\ oc_preserve c = true.
Proof.
  intros H A. destruct (tflite_enabled t H) as (N & _ & _). destruct (attached_tables [] (builtin fw) t a N A) as (_ & TL & _).
  assert (S : exists q c, In (OpSet "Reshape" (Some q)) (or_old (t2_opsets t) []) /\ qo_cfgs q = [c] /\ oc_preserve c = true).
  { clear - H. vm_compute in H. inversion H; subst t. do 2 eexists. split; [apply (nth_error_In _ 3); reflexivity|]. split; reflexivity. }
  destruct S as (q & c & S & C & P).
  assert (K : exists o id nm, sget "Reshape" (builtin fw) = Some o /\ In (K_layer id nm) (ol_layers o) /\ ol_attr o = None).
  { destruct fw; do 3 eexists; (split; [reflexivity|]; split; [left; reflexivity|reflexivity]). }
  destruct K as (o & id & nm & K1 & K2 & K3). do 4 eexists. split; [apply TL; exists (OpSet "Reshape" (Some q)), o; split; [exact S|]; split; [right; split; [reflexivity|exact K1]|]; split; [exact K2|reflexivity]|].
  rewrite K3. cbn [option_map os_qco or_old]. split; [unfold qco_map_keys; first [exact C | cbn; rewrite C; reflexivity]|exact P].
Qed.
