(* KBuildProps.v -- C82: the Keras model built from a graph runs every layer on the right tensors; reading a Keras
   model and building it again gives a model that computes the same. *)
From Coq Require Import Permutation Sorted Lia String.
From Verif Require Import Base GraphModel GraphSpec GraphProofs FxModel FxSpec FxProofs KReadModel KReadSpec KReadMergeProofs KReadProofs KReadNestProofs KReadProps KBuildModel KBuildSpec KBuildProofs KBuildReadProofs.
Open Scope res_scope.
Local Open Scope nat_scope.

(* The names.  When calls of equal names are calls of one layer object, and no layer is named like a further call of
   another, the nodes of a level get different names, only further calls are marked as such, and the layer that the
   builder finds for a node is the layer the node calls, in whatever order the builder sorts the nodes. *)
Theorem level_names_found : forall xs order,
  (forall x y, In x xs -> In y xs -> fst (snd x) = fst (snd y) -> snd (snd x) = snd (snd y)) ->
  (forall x y i, In x xs -> In y xs -> fst (snd x) <> reused_name (fst (snd y)) i) ->
  Permutation order (name_level xs) ->
  map b_id (name_level xs) = map fst xs /\ NoDup (map b_name (name_level xs)) /\
  Forall2 (fun x b => op_function order b = Ok (snd (snd x))) xs (name_level xs) /\
  (forall s, In s (map (fun x => fst (snd x)) xs) -> exists b, In b (name_level xs) /\ b_name b = s /\ b_reuse b = false).
Proof.
  intros xs order SL PN P. destruct (name_level_spec xs SL PN) as [F N]. split; [|split; [exact N|split]].
  - clear - F. generalize dependent (name_level xs). intros st F. revert F. generalize st at 1. intros st' F. induction F as [|x b l k H _ IH]; [reflexivity|]. cbn. rewrite IH. f_equal. apply H.
  - assert (forall b, In b (name_level xs) -> In b order) as I by (intros b; apply Permutation_in, Permutation_sym, P). assert (forall b, In b order -> In b (name_level xs)) as J by (intros b; apply Permutation_in, P).
    assert (forall x b, In b (name_level xs) -> named (name_level xs) x b -> op_function order b = Ok (snd (snd x))) as K.
    { intros x b B (E1 & E2 & E3). unfold op_function. destruct (b_reuse b) eqn:R; [|rewrite E2; reflexivity]. destruct E3 as (k & i & K1 & K2 & K3 & K4 & K5). rewrite K4, original_reused.
      destruct (find _ order) as [k'|] eqn:Q.
      - apply find_some in Q. destruct Q as [Q1 Q2]. apply andb_true_iff in Q2. destruct Q2 as [_ Q2]. apply String.eqb_eq in Q2. rewrite (names_inj _ k' k N (J _ Q1) K1); [congruence|congruence].
      - exfalso. pose proof (find_none _ _ Q k (I _ K1)) as X. cbn in X. rewrite K2, K3, String.eqb_refl in X. discriminate. }
    assert (forall l k st, Forall2 (named st) l k -> st = name_level xs -> incl k (name_level xs) -> Forall2 (fun x b => op_function order b = Ok (snd (snd x))) l k) as H.
    { intros l k st G. induction G as [|x b l k G _ IH]; intros E C; constructor; [subst st; apply K; [apply C; left; reflexivity|exact G]|apply IH; [exact E|intros y Y; apply C; right; exact Y]]. }
    apply (H _ _ _ F eq_refl), incl_refl.
  - intros s I. apply in_map_iff in I. destruct I as (x & <- & I). destruct (in_split _ _ I) as (a & c & E). clear I. rewrite E in F at 2. apply Forall2_app_inv_l in F. destruct F as (ka & kc & _ & F & Ek). inversion F as [|? b ? kc' H _]; subst. destruct H as (_ & _ & H).
    destruct (b_reuse b) eqn:R; [destruct H as (k & i & K1 & K2 & K3 & _); exists k; repeat split; assumption|]. exists b. split; [rewrite Ek; apply in_or_app; right; left; reflexivity|split; assumption].
Qed.
Print Assumptions level_names_found.

(* Further calls of a separable convolution: the nodes it is decomposed into are named after the nodes that the first
   call is decomposed into. *)
Theorem decomposed_name_found : forall part s i, original_name (part_name part (reused_name s i) true) = part_name part s false.
Proof. intros part s i. rewrite part_reused. apply original_reused. Qed.
Print Assumptions decomposed_name_found.

(* The built model.  The nodes without incoming edges are the inputs, every node finds its layer by its name, every
   layer returns ao tensors, edges and outputs refer to existing tensors, and quantized nodes return one tensor.  Then
   the built model runs on every list of inputs of the right length: there is one way to run the graph (raw, val), and
   the model returns the outputs of the graph in their order -- the quantized ones or, on request, those before
   quantization; or, for the nodes in append, what they return, as a list if it is not a single tensor. *)
Theorem built_model_runs : forall {V} (op : nat -> nat -> list V -> ores V) quant pack lay g bs order ao xs,
  layered g -> well_named g lay bs -> topological g order ->
  (forall e, In e (g_edges g) -> si e < ao (src e)) -> (forall o, In o (g_out g) -> snd o < ao (fst o)) -> (forall n, In n (g_in g) -> ao n = 1) ->
  (forall n l, In n (g_nodes g) -> ~ In n (g_in g) -> length l = length (filter (fun e => Nat.eqb (snk e) n) (g_edges g)) ->
     length (tensors (op (lay n) n l)) = ao n /\ 0 < ao n) ->
  (forall n l l', In n (g_nodes g) -> ~ In n (g_in g) -> quant n <> None -> op (lay n) n l <> Many l') ->
  length xs = length (g_in g) ->
  exists raw val, runs op quant lay g xs raw val /\
    (forall raw' val', runs op quant lay g xs raw' val' -> forall n, In n (g_nodes g) -> raw' n = raw n /\ val' n = val n) /\
    (forall float_out : bool, let res := if float_out then raw else val in
       (exists ys, build_model op quant pack g bs order None float_out xs = Ok (map OTensor ys) /\
                   Forall2 (fun o y => nth_error (tensors (res (fst o))) (snd o) = Some y) (g_out g) ys) /\
       forall append, incl append (g_nodes g) ->
         build_model op quant pack g bs order (Some append) float_out xs =
           Ok (map (fun n => match tensors (res n) with [y] => OTensor y | l => OList l end) append)).
Proof.
  intros V op quant pack lay g bs order ao xs LG WN TP PE PO I1 RET QO LEN.
  destruct (run_ok op quant pack lay g bs order ao xs LG WN TP PE I1 RET QO LEN) as (raw & st & R & ST).
  exists raw, (fun n => quantized quant n (raw n)). pose proof (state_runs op quant lay g order ao xs LG TP LEN raw st ST) as RS.
  split; [exact RS|]. split; [intros raw' val' R' n N; apply (runs_unique op quant lay g order xs LG TP raw' val' raw _ R' RS n N)|].
  assert (forall app float_out, build_model op quant pack g bs order app float_out xs =
    let! ys := mapM (pick bs (match app with Some _ => true | None => false end) float_out st) (match app with Some l => map (fun n => (n, 0)) l | None => g_out g end) in Ok ys) as B.
  { intros app fo. unfold build_model. rewrite LEN, Nat.eqb_refl. cbn [negb]. rewrite (sorted_ok lay g bs order WN TP). cbn [bind]. rewrite R. cbn [bind].
    destruct (mapM _ _) as [ys|e]; [|reflexivity]. cbn [bind]. rewrite (distinct_ok _ (sorted_names lay g bs order WN TP)). reflexivity. }
  assert (forall n (fo : bool), In n (g_nodes g) -> length (tensors (if fo then raw n else quantized quant n (raw n))) = ao n /\ 0 < ao n) as LN.
  { intros n fo N. destruct (s_len _ _ _ _ _ _ _ _ _ ST n (proj2 (in_order g order TP n) N)) as [L1 _]. assert (0 < ao n) as P.
    { destruct (in_dec Nat.eq_dec n (g_in g)) as [I|I]; [rewrite (I1 n I); lia|]. destruct (run_op _ _ _ _ _ _ _ RS n N I) as (es & l & P1 & _ & F & E). rewrite E in L1. apply (RET n l N I). rewrite <- (Permutation_length P1). clear - F. induction F; cbn; congruence. }
    split; [|exact P]. destruct fo; [exact L1|]. rewrite <- L1. unfold quantized. destruct (quant n); destruct (raw n); cbn; try rewrite map_length; reflexivity. }
  intros fo res. split.
  - rewrite B. set (f := fun o : nat * nat => let l := tensors (if fo then raw (fst o) else quantized quant (fst o) (raw (fst o))) in nth (snd o) l (nth 0 l (pack []))). exists (map f (g_out g)). split.
    + rewrite (mapM_ok _ (fun o => OTensor (f o))); [cbn [bind]; rewrite map_map; reflexivity|]. intros o O. rewrite (pick_ok op quant pack lay g bs order ao xs WN TP raw st false fo o ST (lg_out_nodes _ LG o O) (PO o O)). cbn [negb]. rewrite orb_true_r. reflexivity.
    + assert (forall o, In o (g_out g) -> nth_error (tensors (res (fst o))) (snd o) = Some (f o)) as H.
      { intros o O. destruct (LN (fst o) fo (lg_out_nodes _ LG o O)) as [L1 _]. unfold f, res. assert (tensors ((if fo then raw else fun n => quantized quant n (raw n)) (fst o)) = tensors (if fo then raw (fst o) else quantized quant (fst o) (raw (fst o)))) as -> by (destruct fo; reflexivity). apply nth_error_nth'. rewrite L1. apply PO, O. }
      clear - H. induction (g_out g) as [|o l IH]; [constructor|]. cbn. constructor; [apply H; left; reflexivity|apply IH; intros x X; apply H; right; exact X].
  - intros app IA. rewrite B. rewrite (mapM_ok _ (fun o => match tensors (res (fst o)) with [y] => OTensor y | l => OList l end)).
    + cbn [bind]. rewrite map_map. reflexivity.
    + intros o O. apply in_map_iff in O. destruct O as (n & <- & N). cbn [fst]. destruct (LN n fo (IA n N)) as [L1 L2].
      rewrite (pick_ok op quant pack lay g bs order ao xs WN TP raw st true fo (n, 0) ST (IA n N) L2). cbn [negb fst snd]. rewrite orb_false_r. unfold res. cbv zeta.
      assert (tensors ((if fo then raw else fun n => quantized quant n (raw n)) n) = tensors (if fo then raw n else quantized quant n (raw n))) as -> by (destruct fo; reflexivity).
      rewrite <- L1. destruct (tensors _) as [|y [|z l]]; reflexivity.
Qed.
Print Assumptions built_model_runs.

(* Reading and building.  The model built from the graph of a Keras model, in any order of its nodes compatible with
   the edges, gives on every list of inputs of the right length exactly the outputs the Keras model gives -- with
   layers called several times and with nested models, whatever the layers compute, as long as every call takes a
   tensor and returns the tensors it returns in the Keras model, and the names are plain (KBuildSpec.v). *)
Theorem keras_model_rebuilt : forall {V} (op : nat -> nat -> list V -> ores V) pack d nm lay m g order ai ao xs ys,
  keras_model m -> parse_model m = Ok g -> topological g order ->
  plain_names nm m -> same_layers lay m -> shaped ai ao m ->
  (forall n l, In n (op_ids m) -> length l = ai n -> 0 < ai n /\ 0 < ao n /\ length (tensors (op (lay n) n l)) = ao n) ->
  length xs = length (ins_of m) ->
  (model_gives (op_at op lay d) m xs ys <->
   build_model op (fun _ => None) pack g (read_names nm lay true m) order None false xs = Ok (map OTensor ys)).
Proof.
  intros V op pack d nm lay m g order ai ao xs ys KM PM TP (NMI & NL & PA) SL SH RET LEN.
  destruct (keras_model_read (op_at op lay d) m g KM PM) as (SEM & PERM & WF & LI & LO & INP).
  destruct (keras_graph_shape m g ai ao KM PM SH) as (S1 & S2 & S3 & S4 & S5 & S6).
  pose proof (names_main nm lay NMI m true (proj1 KM) (proj2 KM) SL NL PA) as [NI NN NA].
  assert (forall n, In n (g_nodes g) -> ~ In n (g_in g) -> In n (op_ids m)) as OPS.
  { intros n N I. apply (Permutation_in _ PERM), in_app_or in N. destruct N as [N|N]; [exfalso; apply I, INP, N|exact N]. }
  assert (forall n, In n (g_nodes g) -> ~ In n (g_in g) -> length (filter (fun e => Nat.eqb (snk e) n) (g_edges g)) = ai n) as LEN_IN.
  { intros n N I. rewrite <- (map_length ti), (Permutation_length (S1 n N I)). apply seq_length. }
  assert (layered g) as LG.
  { constructor; [exact S5|exact S6|intros o O; apply (S4 o O)| |].
    - intros n N. split; [apply S2|]. intro Z. destruct (in_dec Nat.eq_dec n (g_in g)) as [I|I]; [exact I|]. exfalso. pose proof (LEN_IN n N I) as Q. rewrite Z in Q. destruct (RET n [] (OPS n N I) Q) as [P _]. cbn in Q. lia.
    - intros n. destruct (in_dec Nat.eq_dec n (g_in g)) as [I|I]; [rewrite (S2 n I); constructor|]. destruct (in_dec Nat.eq_dec n (g_nodes g)) as [N|N].
      + apply (Permutation_NoDup (Permutation_sym (S1 n N I))), seq_NoDup.
      + rewrite filter_nil; [constructor|]. intros e E. apply Nat.eqb_neq. intros <-. apply N, (wf_ends _ WF e E). }
  assert (NoDup (map b_id (read_names nm lay true m)) /\ Permutation (map b_id (read_names nm lay true m)) (g_nodes g)) as [NB PB].
  { assert (Permutation (map b_id (read_names nm lay true m)) (g_nodes g)) as P. { rewrite PERM, NI. unfold leafs. destruct m as [ns i o]. apply leaf_perm. } split; [|exact P]. apply (Permutation_NoDup (Permutation_sym P)), (wf_nodes _ WF). }
  assert (well_named g lay (read_names nm lay true m)) as WN.
  { constructor; [exact PB|exact NB|exact NN|intros b B; apply (NA b B)|]. intros b B R. destruct (NA b B) as [_ (a & _ & K)]. rewrite R in K. destruct K as (k & i & K1 & K2 & K3 & K4 & K5). exists k, i. split; [exact K1|]. split; [exact K2|]. split; [rewrite K3; exact K4|exact K5]. }
  assert (forall n, In n (g_in g) -> ao n = 1) as INS1.
  { intros n I. apply INP in I. unfold input_ids in I. apply in_map_iff in I. destruct I as (k & <- & I). apply filter_In in I. destruct I as [I1 I2]. destruct m as [ns i o]. destruct KM as [LVS _]. rewrite levels_unfold in LVS. destruct (inputs_listed _ _ _ (proj1 LVS) k I1 I2) as (t & K1 & K2 & _). rewrite shaped_level in SH. rewrite (proj2 (proj1 (SH k I1))), K2. reflexivity. }
  assert (forall n l, In n (g_nodes g) -> ~ In n (g_in g) -> length l = length (filter (fun e => Nat.eqb (snk e) n) (g_edges g)) -> length (tensors (op (lay n) n l)) = ao n /\ 0 < ao n) as RET'.
  { intros n l N I L. rewrite (LEN_IN n N I) in L. destruct (RET n l (OPS n N I) L) as (_ & R1 & R2). split; assumption. }
  assert (length xs = length (g_in g)) as LEN' by congruence.
  destruct (built_model_runs op (fun _ => None) pack lay g _ order ao xs LG WN TP S3 (fun o O => proj2 (S4 o O)) INS1 RET' (fun n l l' _ _ Q => match Q eq_refl with end) LEN') as (raw & val & RUN & _ & B).
  destruct (B false) as [(zs & BZ & FZ) _]. cbv zeta in FZ. rewrite BZ. clear B.
  assert (forall n, In n (g_nodes g) -> val n = raw n) as VR by (intros n N; rewrite (run_quant _ _ _ _ _ _ _ RUN n N); unfold quantized; destruct (raw n); reflexivity).
  (* every way of running the graph gives these outputs *)
  assert (forall v, (forall n, In n (g_nodes g) -> ~ In n (g_in g) -> forall l, reads g v n l -> forall k, v n k = op_at op lay d n l k) -> map (fun n => v n 0) (g_in g) = xs ->
     forall n, In n (g_nodes g) -> forall k, k < ao n -> nth_error (tensors (val n)) k = Some (v n k)) as UNIQ.
  { intros v H1 H2. destruct TP as [TP1 TP2].
    assert (forall rest done, order = done ++ rest -> (forall n, In n done -> forall k, k < ao n -> nth_error (tensors (val n)) k = Some (v n k)) -> forall n, In n order -> forall k, k < ao n -> nth_error (tensors (val n)) k = Some (v n k)) as H.
    2:{ intros n N. apply (H order [] eq_refl); [intros ? []|apply (Permutation_in _ (Permutation_sym TP1)), N]. }
    induction rest as [|n rest IH]; intros done E D; [rewrite app_nil_r in E; subst; exact D|]. apply (IH (done ++ [n])); [rewrite <- app_assoc; exact E|]. intros p I. apply in_app_or in I. destruct I as [I|[<-|[]]]; [exact (D p I)|]. intros k K.
    assert (In n (g_nodes g)) as Ng. { apply (Permutation_in _ TP1). rewrite E. apply in_or_app. right. left. reflexivity. }
    rewrite (VR n Ng). destruct (in_dec Nat.eq_dec n (g_in g)) as [I|I].
    - rewrite (INS1 n I) in K. assert (k = 0) as -> by lia. pose proof (run_input _ _ _ _ _ _ _ RUN) as F. rewrite <- H2 in F. clear - F I. induction (g_in g) as [|a l IHl]; [destruct I|]. cbn in F. inversion F; subst. destruct I as [->|I]; [rewrite H2; reflexivity|apply IHl; assumption].
    - destruct (run_op _ _ _ _ _ _ _ RUN n Ng I) as (es & l & P1 & St & F & ->).
      assert (l = map (fun e => v (src e) (si e)) es) as El.
      { assert (forall e, In e es -> In e (g_edges g) /\ In (src e) done) as Hd.
        { intros e Ie. apply (Permutation_in _ P1), filter_In in Ie. destruct Ie as [I1 I2]. apply Nat.eqb_eq in I2. split; [exact I1|exact (TP2 done n rest e E I1 I2)]. }
        clear - F Hd D S3. induction F as [|e x es l Fe _ IHF]; [reflexivity|]. cbn. destruct (Hd e (or_introl eq_refl)) as [He1 He2]. rewrite (D _ He2 _ (S3 e He1)) in Fe. injection Fe as ->. f_equal. apply IHF. intros e' Ie. apply Hd. right. exact Ie. }
      rewrite (H1 n Ng I l); [|exists es; split; [exact P1|split; [exact St|exact El]]]. unfold op_at. apply nth_error_nth'. destruct (RET' n l Ng I) as [-> _]; [|exact K]. rewrite <- (Permutation_length P1), El. apply map_length. }
  rewrite SEM. split.
  - intros (v & H1 & H2 & <-). do 2 f_equal. unfold outputs. pose proof (UNIQ v H1 H2) as U. clear - FZ U S4. induction FZ as [|o z os zs Fo _ IH]; [reflexivity|]. cbn. destruct (S4 o (or_introl eq_refl)) as [O1 O2]. rewrite (U _ O1 _ O2) in Fo. injection Fo as ->. f_equal. apply IH. intros o' O'. apply S4. right. exact O'.
  - intro Q. assert (zs = ys) as ->. { injection Q as Q. clear - Q. revert ys Q. induction zs as [|z zs IH]; intros [|y ys] Q; try discriminate; [reflexivity|]. cbn in Q. injection Q as -> Q. f_equal. apply IH, Q. }
    exists (fun n k => nth k (tensors (val n)) d). split; [|split].
    + intros n N I l (es & P1 & St & ->) k. destruct (run_op _ _ _ _ _ _ _ RUN n N I) as (es' & l' & P1' & St' & F & E). cbv beta. rewrite (VR n N), E. unfold op_at. do 3 f_equal.
      rewrite (in_unique g LG n es P1 St). rewrite (in_unique g LG n es' P1' St') in F. clear - F. induction F as [|e x es l Fe _ IHF]; [reflexivity|]. cbn. rewrite <- IHF. f_equal. symmetry. apply nth_error_nth, Fe.
    + pose proof (run_input _ _ _ _ _ _ _ RUN) as F. assert (forall n, In n (g_in g) -> val n = raw n) as VI by (intros n I; apply VR, S6, I). clear - F VI. revert VI. induction F as [|a x l k Fa _ IHF]; intro VI; [reflexivity|]. cbn. rewrite (VI a (or_introl eq_refl)), Fa. cbn. f_equal. apply IHF. intros n I. apply VI. right. exact I.
    + unfold outputs. clear - FZ. induction FZ as [|o z os zs Fo _ IH]; [reflexivity|]. cbn. rewrite IH. f_equal. apply nth_error_nth, Fo.
Qed.
Print Assumptions keras_model_rebuilt.
