(* FnLayProps.v -- C85: calls of TensorFlow functions turned into Keras layers. *)
From Coq Require Import FunctionalExtensionality Permutation Sorted String.
From Verif Require Import LinNode LinSpec GraphModel GraphSpec GraphProofs GraphProps GraphFindProps EqualizeGraphProps DecompProps KCallModel KCallSpec FnLayModel FnLaySpec FnLayProofs FnLayGraphProofs.
Local Open Scope nat_scope.

Section Pass.
Variables (obj : nat -> pyobj) (array_of : val -> nd).
(* the bias absorbed and the node it is taken from *)
Lemma bias_extracted first co op info g c cn b : follower_sound obj array_of first co op info g c -> extract_bias array_of info g c cn = Some b ->
  exists a, followed g c a /\ shp b = [co] /\
    forall y h w, dims first (shp y) = Some (h, w, co) -> op a [Some y] = (fun _ => Some (array (shp y) (fun idx => at_ y idx + at_ b [fst (where_ first idx)])%R)).
Proof.
  intros FS E. unfold extract_bias in E. destruct (next_nodes g c) as [|a [|]] eqn:NX; try discriminate. destruct (prev_nodes g a) as [|q [|]] eqn:PV; try discriminate.
  assert (FL : followed g c a) by (apply followed_nodes; split; [exact NX|rewrite PV; reflexivity]). exists a. split; [exact FL|]. specialize (FS a FL).
  inversion FS as [EO|n args kw v VC PC AO CV RD OP SH EO|n args kw v VC PC GB CV RD OP FM SH EO]; rewrite <- EO in E; [discriminate| |].
  - destruct (add_read args kw v VC PC AO CV) as (n' & RD' & W). rewrite RD in RD'. injection RD' as <-. rewrite W, contents_arr in E. destruct (Nat.eqb_spec (length (shp (contents array_of v))) 1) as [L|]; [|discriminate]. injection E as <-. destruct (SH L) as [-> SB]. split; [exact SB|].
    intros y h w D. apply functional_extensionality. intro k. rewrite OP. unfold dims in D. destruct (shp y) as [|h' [|w' [|c' [|]]]] eqn:SY; try discriminate. injection D as -> -> ->. destruct (last_axis_add y h w co (contents array_of v) SY SB) as [B1 B2].
    unfold tf_add. destruct AO as [[-> [t ->]]|[-> [t ->]]]; [exact B1|]. destruct v; try exact B2. discriminate CV.
  - destruct (bias_read args kw v VC PC GB CV) as (n' & RD' & W). rewrite RD in RD'. injection RD' as <-. rewrite W in E. cbn [first_some option_map] in E. rewrite contents_arr in E. injection E as <-. split; [exact SH|].
    intros y h w D. apply functional_extensionality. intro k. rewrite OP. unfold tf_bias_add. rewrite GB, FM, D, SH, Nat.eqb_refl. reflexivity.
Qed.

(* a function that becomes a layer, whatever the bias *)
Definition becomes (dw : bool) (cn : fnode) (f : nd -> option nd) (first : bool) (co : nat) (x : nd) : Prop :=
  exists k s d p y, (forall b, (if dw then convert_dw obj array_of cn b else convert_conv obj array_of cn b) = Ok (Some (CLayer dw k b s d p first))) /\
    f x = Some y /\ run_layer (CLayer dw k None s d p first) x = Some y /\ exists h w, dims first (shp y) = Some (h, w, co).
Lemma conv_becomes args kw n first co v x : conv_call obj args kw -> read_function conv_sig false args kw = Ok n -> format obj (gives conv_sig args kw p_data_format) = Some first ->
  gives conv_sig args kw p_filters = Some v -> co = nth 3 (shp (contents array_of v)) 0 -> ungrouped obj array_of args kw x -> tf_conv2d obj array_of args kw x <> None -> becomes false n (tf_conv2d obj array_of args kw) first co x.
Proof.
  intros CC RD EF EV -> UG T. destruct (tf_conv2d obj array_of args kw x) as [y|] eqn:TY; [|contradiction]. destruct CC.
  destruct (conv_converted obj array_of args kw x y) as (n' & k & s & d & p & fi & co & RD' & EF' & SK & CO & DY & CV & RL); try assumption.
  { intros fi h w c F D v0 V0. eapply UG; eauto. }
  rewrite RD in RD'. injection RD' as <-. rewrite EF in EF'. injection EF' as <-. exists k, s, d, p, y. split; [exact CV|]. split; [exact TY|]. split; [exact RL|]. rewrite (SK v EV), CO. exact DY.
Qed.
Lemma dw_becomes args kw n co v x : dw_call obj args kw -> read_function dw_sig false args kw = Ok n ->
  gives dw_sig args kw p_filter = Some v -> co = nth 2 (shp (contents array_of v)) 0 * nth 3 (shp (contents array_of v)) 0 -> tf_depthwise_conv2d obj array_of args kw x <> None -> becomes true n (tf_depthwise_conv2d obj array_of args kw) false co x.
Proof.
  intros CC RD EV -> T. destruct (tf_depthwise_conv2d obj array_of args kw x) as [y|] eqn:TY; [|contradiction]. destruct CC.
  destruct (dw_converted obj array_of args kw x y) as (n' & k & s & d & p & c & m & RD' & SK & C2 & C3 & DY & CV & RL); try assumption.
  rewrite RD in RD'. injection RD' as <-. exists k, s, d, p, y. split; [exact CV|]. split; [exact TY|]. split; [exact RL|]. rewrite (SK v EV), C2, C3. exact DY.
Qed.
Lemma pass_preserves validate dw info (op op' : nat -> list (option nd) -> nat -> option nd) g c m cn f first co g' L val :
  wf g -> outs_in g -> In c (g_nodes g) -> ~ In m (g_nodes g) -> ~ linked g c c ->
  substitute_conv obj array_of validate dw info g c m cn = Ok (g', Some L) ->
  at_node f (op c) -> at_node (run_layer L) (op' m) -> follower_sound obj array_of first co op info g c ->
  (forall x, In x (g_nodes g) -> x <> c -> (followed g c x -> extract_bias array_of info g c cn = None) -> op' x = op x) ->
  (forall l, reads g val c l -> exists x, l = [Some x] /\ becomes dw cn f first co x) -> computes op g val ->
  exists val', computes op' g' val' /\ (forall x k, In x (g_nodes g) -> val' x k = val x k) /\ outputs g' val' = outputs g val.
Proof.
  intros W OI IC NM NL H OC OM FS OE RN C. unfold substitute_conv in H. remember (extract_bias array_of info g c cn) as ob eqn:EB. symmetry in EB.
  destruct (if dw then convert_dw obj array_of cn ob else convert_conv obj array_of cn ob) as [[l|]|] eqn:EC; cbn [bind] in H; try discriminate.
  destruct (replace_conv_node validate g c m match ob with Some _ => true | None => false end) as [g1|] eqn:EG; cbn [bind] in H; [|discriminate]. injection H as <- <-. unfold replace_conv_node in EG. destruct ob as [b|].
  - destruct (bias_extracted first co op info g c cn b FS EB) as (a & FL & SB & OA). assert (ca : c <> a). { intro Z. apply NL. rewrite Z at 2. apply FL. }
    assert (IA : In a (g_nodes g)). { destruct (followed_edge g c a FL ca) as (e & rest & Ie & _ & KE & _). rewrite <- KE. apply (wf_ends g W e Ie). }
    destruct (call_and_add_preserves validate op op' g c a m g1 val W OI IC IA NM ca FL EG) as (val' & A & B & _ & D); [| |exact C|exists val'; auto].
    + intros x I X1 X2. apply OE; [exact I|exact X1|]. intro FX. exfalso. apply X2. apply followed_nodes in FX, FL. destruct FX as [F1 _], FL as [F2 _]. congruence.
    + intros l0 j k R. destruct (RN l0 R) as (x & -> & k0 & s & d & p & y & CV & FY & RL & h & w & DY). rewrite OM, OC, FY. rewrite (OA y h w DY). pose proof (CV (Some b)) as CB. rewrite EC in CB. injection CB as ->. apply (layer_bias dw k0 b s d p first x y RL co SB). rewrite DY. reflexivity.
  - destruct (call_preserves validate op op' g c m g1 val W OI IC NM EG) as (val' & A & B & _ & D); [| |exact C|exists val'; auto].
    + intros x I X1. apply OE; auto.
    + intros l0 k R. destruct (RN l0 R) as (x & -> & k0 & s & d & p & y & CV & FY & RL & _). rewrite OM, OC, FY. pose proof (CV None) as CB. rewrite EC in CB. injection CB as ->. exact RL.
Qed.
Lemma pass_succeeds dw info g c m cn f first co x : wf g -> In c (g_nodes g) -> ~ In m (g_nodes g) -> ~ linked g c c -> ~ In c (g_in g) -> becomes dw cn f first co x ->
  (forall a, followed g c a -> ~ In a (g_in g)) -> (extract_bias array_of info g c cn <> None -> ~ In c (map fst (g_out g))) ->
  exists g' L, substitute_conv obj array_of no_check dw info g c m cn = Ok (g', Some L).
Proof.
  intros W IC NM NL NI (k & s & d & p & y & CV & _) NA NO. unfold substitute_conv. rewrite CV. cbn [bind]. unfold replace_conv_node. destruct (extract_bias array_of info g c cn) as [b|] eqn:EB.
  - assert (FL : exists a, followed g c a). { unfold extract_bias in EB. destruct (next_nodes g c) as [|a [|]] eqn:NX; try discriminate. destruct (prev_nodes g a) as [|q [|]] eqn:PV; try discriminate. exists a. apply followed_nodes. split; [exact NX|rewrite PV; reflexivity]. }
    destruct FL as [a FL]. assert (ca : c <> a). { intro Z. apply NL. rewrite Z at 2. apply FL. }
    assert (IA : In a (g_nodes g)). { destruct (followed_edge g c a FL ca) as (e & rest & Ie & _ & KE & _). rewrite <- KE. apply (wf_ends g W e Ie). }
    destruct (call_and_add_succeeds g c a m W IC IA NM ca FL NI (NA a FL)) as (g' & ->); [apply NO; discriminate|]. cbn [bind]. eauto.
  - destruct (call_succeeds g c m W IC NM NI) as (g' & ->). cbn [bind]. eauto.
Qed.

(* ---- tf.nn.conv2d and tf.nn.convolution ---- *)
(* the model with the layer in place of the call, and of the addition behind it, computes what the model computed; the
   values of all remaining tensors are those of the given run.  x: what the convolution reads *)
Theorem conv_function_preserved validate info (op op' : nat -> list (option nd) -> nat -> option nd) g c m n args kw first v g' L val :
  wf g -> outs_in g -> In c (g_nodes g) -> ~ In m (g_nodes g) -> ~ linked g c c ->
  conv_call obj args kw -> read_function conv_sig false args kw = Ok n ->
  format obj (gives conv_sig args kw p_data_format) = Some first -> gives conv_sig args kw p_filters = Some v ->
  substitute_conv obj array_of validate false info g c m n = Ok (g', Some L) ->
  at_node (tf_conv2d obj array_of args kw) (op c) -> at_node (run_layer L) (op' m) ->
  follower_sound obj array_of first (nth 3 (shp (contents array_of v)) 0) op info g c ->
  (forall x, In x (g_nodes g) -> x <> c -> (followed g c x -> extract_bias array_of info g c n = None) -> op' x = op x) ->
  (forall l, reads g val c l -> exists x, l = [Some x] /\ ungrouped obj array_of args kw x /\ tf_conv2d obj array_of args kw x <> None) ->
  computes op g val ->
  exists val', computes op' g' val' /\ (forall x k, In x (g_nodes g) -> val' x k = val x k) /\ outputs g' val' = outputs g val.
Proof.
  intros W OI IC NM NL CC RD EF EV H OC OM FS OE RN C. eapply (pass_preserves validate false info op op' g c m n); eauto. intros l R. destruct (RN l R) as (x & -> & UG & T). exists x. split; [reflexivity|]. eapply conv_becomes; eauto.
Qed.
(* and such a call is replaced *)
Theorem conv_function_replaced info g c m n args kw first v x :
  wf g -> In c (g_nodes g) -> ~ In m (g_nodes g) -> ~ linked g c c -> ~ In c (g_in g) -> (forall a, followed g c a -> ~ In a (g_in g)) ->
  conv_call obj args kw -> read_function conv_sig false args kw = Ok n ->
  format obj (gives conv_sig args kw p_data_format) = Some first -> gives conv_sig args kw p_filters = Some v ->
  ungrouped obj array_of args kw x -> tf_conv2d obj array_of args kw x <> None ->
  (extract_bias array_of info g c n <> None -> ~ In c (map fst (g_out g))) ->
  exists g' L, substitute_conv obj array_of no_check false info g c m n = Ok (g', Some L).
Proof. intros W IC NM NL NI NA CC RD EF EV UG T NO. eapply (pass_succeeds false); eauto. eapply conv_becomes; eauto. Qed.

(* ---- tf.nn.depthwise_conv2d ---- *)
Theorem depthwise_function_preserved validate info (op op' : nat -> list (option nd) -> nat -> option nd) g c m n args kw v g' L val :
  wf g -> outs_in g -> In c (g_nodes g) -> ~ In m (g_nodes g) -> ~ linked g c c ->
  dw_call obj args kw -> read_function dw_sig false args kw = Ok n -> gives dw_sig args kw p_filter = Some v ->
  substitute_conv obj array_of validate true info g c m n = Ok (g', Some L) ->
  at_node (tf_depthwise_conv2d obj array_of args kw) (op c) -> at_node (run_layer L) (op' m) ->
  follower_sound obj array_of false (nth 2 (shp (contents array_of v)) 0 * nth 3 (shp (contents array_of v)) 0) op info g c ->
  (forall x, In x (g_nodes g) -> x <> c -> (followed g c x -> extract_bias array_of info g c n = None) -> op' x = op x) ->
  (forall l, reads g val c l -> exists x, l = [Some x] /\ tf_depthwise_conv2d obj array_of args kw x <> None) ->
  computes op g val ->
  exists val', computes op' g' val' /\ (forall x k, In x (g_nodes g) -> val' x k = val x k) /\ outputs g' val' = outputs g val.
Proof.
  intros W OI IC NM NL CC RD EV H OC OM FS OE RN C. eapply (pass_preserves validate true info op op' g c m n); eauto. intros l R. destruct (RN l R) as (x & -> & T). exists x. split; [reflexivity|]. eapply dw_becomes; eauto.
Qed.
Theorem depthwise_function_replaced info g c m n args kw v x :
  wf g -> In c (g_nodes g) -> ~ In m (g_nodes g) -> ~ linked g c c -> ~ In c (g_in g) -> (forall a, followed g c a -> ~ In a (g_in g)) ->
  dw_call obj args kw -> read_function dw_sig false args kw = Ok n -> gives dw_sig args kw p_filter = Some v ->
  tf_depthwise_conv2d obj array_of args kw x <> None ->
  (extract_bias array_of info g c n <> None -> ~ In c (map fst (g_out g))) ->
  exists g' L, substitute_conv obj array_of no_check true info g c m n = Ok (g', Some L).
Proof. intros W IC NM NL NI NA CC RD EV T NO. eapply (pass_succeeds true); eauto. eapply dw_becomes; eauto. Qed.

(* the addition disappears exactly when it is the only consumer, reads nothing else and its constant is a vector *)
Theorem addition_absorbed_iff g c cn info a n args kw v : followed g c a -> info a = F_add n -> valid_call add_sig args kw -> plain_call args kw -> add_operand args kw v -> constant v -> read_function add_sig false args kw = Ok n ->
  extract_bias array_of info g c cn = if Nat.eqb (length (shp (contents array_of v))) 1 then Some (contents array_of v) else None.
Proof.
  intros FL EI VC PC AO CV RD. apply followed_nodes in FL. destruct FL as [NX PV]. unfold extract_bias. rewrite NX. destruct (prev_nodes g a) as [|q [|]] eqn:PE; try discriminate. rewrite EI.
  destruct (add_read args kw v VC PC AO CV) as (n' & RD' & Q). rewrite RD in RD'. injection RD' as <-. rewrite Q, contents_arr. reflexivity.
Qed.
Theorem not_followed_kept g c cn info : (forall a, ~ followed g c a) -> extract_bias array_of info g c cn = None.
Proof.
  intro NF. unfold extract_bias. destruct (next_nodes g c) as [|a [|]] eqn:NX; try reflexivity. destruct (prev_nodes g a) as [|q [|]] eqn:PE; try reflexivity. destruct (NF a). apply followed_nodes. split; [exact NX|rewrite PE; reflexivity].
Qed.

(* ---- tf.matmul by a constant matrix ---- *)
Theorem matmul_preserved validate (op op' : nat -> list (option nd) -> nat -> option nd) g c m n args kw cfg g' w val :
  wf g -> outs_in g -> In c (g_nodes g) -> ~ In m (g_nodes g) -> in_degree g c = 1 ->
  matmul_call obj args kw -> plain_config obj cfg -> read_function matmul_sig false args kw = Ok n ->
  substitute_matmul obj array_of validate cfg g c m n = Ok (g', Some w) ->
  at_node (tf_matmul obj array_of args kw) (op c) -> at_node (run_dense w) (op' m) ->
  (forall x, In x (g_nodes g) -> x <> c -> op' x = op x) ->
  (forall l, reads g val c l -> exists x, l = [Some x] /\ tf_matmul obj array_of args kw x <> None) -> computes op g val ->
  exists val', computes op' g' val' /\ (forall x k, In x (g_nodes g) -> val' x k = val x k) /\ outputs g' val' = outputs g val.
Proof.
  intros W OI IC NM D MC (C1 & C2 & C3) RD H OC OM OE RN C. unfold substitute_matmul in H. assert (PV : length (prev_nodes g c) = 1) by (unfold prev_nodes; rewrite map_length, (Permutation_length (in_edges_perm g c)); exact D). rewrite PV in H.
  destruct (convert_matmul obj array_of cfg 1 n) as [[w0|]|] eqn:EC; cbn [bind] in H; try discriminate. destruct (replace_call validate g c m) as [g1|] eqn:EG; cbn [bind] in H; [|discriminate]. injection H as <- <-.
  destruct (call_preserves validate op op' g c m g1 val W OI IC NM EG) as (val' & A & B & _ & E); [exact OE| |exact C|exists val'; auto].
  intros l k R. destruct (RN l R) as (x & -> & T). rewrite OM, OC. destruct (tf_matmul obj array_of args kw x) as [y|] eqn:TY; [|contradiction]. destruct MC as [Q1 Q2 [t TA] Q4 [TB1 TB2] Q6 Q7 Q8].
  destruct (matmul_converted obj array_of args kw x y cfg t) as (n' & w' & RD' & CV & RL); try assumption. rewrite RD in RD'. injection RD' as <-. rewrite EC in CV. injection CV as ->. exact RL.
Qed.
Theorem matmul_replaced g c m n args kw cfg x : wf g -> In c (g_nodes g) -> ~ In m (g_nodes g) -> ~ In c (g_in g) -> in_degree g c = 1 ->
  matmul_call obj args kw -> plain_config obj cfg -> read_function matmul_sig false args kw = Ok n -> tf_matmul obj array_of args kw x <> None ->
  exists g' w, substitute_matmul obj array_of no_check cfg g c m n = Ok (g', Some w).
Proof.
  intros W IC NM NI D MC (C1 & C2 & C3) RD T. unfold substitute_matmul. assert (PV : length (prev_nodes g c) = 1) by (unfold prev_nodes; rewrite map_length, (Permutation_length (in_edges_perm g c)); exact D). rewrite PV.
  destruct (tf_matmul obj array_of args kw x) as [y|] eqn:TY; [|contradiction]. destruct MC as [Q1 Q2 [t TA] Q4 [TB1 TB2] Q6 Q7 Q8].
  destruct (matmul_converted obj array_of args kw x y cfg t) as (n' & w' & RD' & CV & RL); try assumption. rewrite RD in RD'. injection RD' as <-. rewrite CV. cbn [bind]. destruct (call_succeeds g c m W IC NM NI) as (g' & ->). cbn [bind]. eauto.
Qed.
(* ---- calls no layer can stand for leave the graph as it is ---- *)
(* tf.nn.convolution over sequences or volumes: the kernel is no image kernel *)
Theorem other_ranks_left_alone validate info g c m n args kw v :
  valid_call conv_sig args kw -> plain_call args kw -> gives conv_sig args kw p_filters = Some v -> constant v ->
  read_function conv_sig false args kw = Ok n -> length (shp (contents array_of v)) <> 4 ->
  substitute_conv obj array_of validate false info g c m n = Ok (g, None).
Proof.
  intros VC PC EV CV RD NL. destruct (call_read conv_sig args kw p_filters conv_sig_nodup VC PC) as (n' & RD' & _ & W & _); [exists v; auto|]. rewrite RD in RD'. injection RD' as <-.
  unfold substitute_conv, convert_conv, conv_kernel. rewrite W. cbn [nth_error conv_sig]. rewrite EV, (const_isc v CV). cbn [first_some option_map]. rewrite contents_arr.
  destruct (Nat.eqb_spec (length (shp (contents array_of v))) 4); [contradiction|]. reflexivity.
Qed.
(* tf.matmul of two tensors, whatever its settings *)
Theorem two_tensors_left_alone validate cfg g c m n : 1 < length (prev_nodes g c) -> substitute_matmul obj array_of validate cfg g c m n = Ok (g, None).
Proof. intro H. unfold substitute_matmul, convert_matmul. apply Nat.ltb_lt in H. rewrite H. reflexivity. Qed.
End Pass.
Print Assumptions other_ranks_left_alone.
Print Assumptions two_tensors_left_alone.
Print Assumptions conv_function_preserved.
Print Assumptions conv_function_replaced.
Print Assumptions depthwise_function_preserved.
Print Assumptions depthwise_function_replaced.
Print Assumptions addition_absorbed_iff.
Print Assumptions not_followed_kept.
Print Assumptions matmul_preserved.
Print Assumptions matmul_replaced.

(* ---- x * sigmoid(x) ---- *)
Lemma product_is_swish x : run_multiply [Some x; run_sigmoid [Some x]] = run_swish [Some x] /\ run_multiply [run_sigmoid [Some x]; Some x] = run_swish [Some x].
Proof.
  cbn [run_sigmoid run_multiply run_swish]. assert (DD : forall s, bdims s s = Some s). { intro s. apply bdims_sub. induction s; constructor; auto. }
  assert (BP : forall s, pad_left (length s) s = s). { intro s. unfold pad_left. rewrite Nat.sub_diag. reflexivity. }
  unfold each. split; unfold bop, bshape; cbn [shp array]; rewrite Nat.max_id, !BP, DD; cbn [shp at_]; f_equal; apply array_ext; intros idx I; cbn [array at_]; (rewrite !bget_same by (apply inside_inb, I)); cbn [array at_ shp]; rewrite I; try reflexivity. apply Rmult_comm.
Qed.
(* the pair of nodes replaced by one; the tensors of the given run are kept, also when the pair is left alone *)
Theorem swish_function_preserved validate (op op' : nat -> list (option nd) -> nat -> option nd) g s u w g' val :
  wf g -> outs_in g -> swish_site g s u -> ~ In w (g_nodes g) -> substitute_swish validate g s u w = Ok g' ->
  (forall e e', In e (g_edges g) -> In e' (g_edges g) -> snk e = s -> snk e' = u -> src e = src e' -> si e = si e') ->
  (forall x, In x (g_nodes g) -> op' x = op x) -> (forall l k, op s l k = run_sigmoid l) -> (forall l k, op u l k = run_multiply l) -> (forall l k, op' w l k = run_swish l) ->
  computes op g val ->
  exists val', computes op' g' val' /\ (forall x k, In x (g_nodes g) -> val' x k = val x k) /\ outputs g' val' = outputs g val.
Proof.
  intros W OI SS NW H ST OE OS OU OW C. eapply (swish_preserves validate op op' g s u w g' val); eauto.
  - intros _. split; apply OE; apply SS.
  - intros v j k. rewrite !OU, !OS, OW. destruct v as [x|]; [apply product_is_swish|]. split; reflexivity.
Qed.
Print Assumptions swish_function_preserved.
(* the pair is replaced exactly when the sigmoid is no output of the model, nothing else reads it, and both read the same node *)
Theorem swish_replaced_iff validate g s u w g' : wf g -> swish_site g s u -> ~ In w (g_nodes g) -> substitute_swish validate g s u w = Ok g' ->
  (swish_found g s u <-> In w (g_nodes g')) /\ (swish_found g s u <-> ~ In u (g_nodes g')) /\ (~ swish_found g s u -> g' = g).
Proof.
  intros W SS NW H. destruct (swish_replaced validate g s u w g' W SS NW H) as [[-> NF]|(FD & e1 & e2 & e3 & rest & _ & _ & _ & _ & _ & _ & _ & _ & _ & _ & N & _)].
  - split; [tauto|]. split; [|tauto]. pose proof (ss_u _ _ _ SS). tauto.
  - split; [rewrite N; tauto|]. split; [|tauto]. rewrite N. split; [|tauto]. intros _ [(_ & _ & Z)|Z]; [contradiction|]. apply NW. rewrite <- Z. apply SS.
Qed.
Print Assumptions swish_replaced_iff.
