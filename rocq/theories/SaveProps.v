(* SaveProps.v -- C102: the files written compute what the quantized model computes *)
From Coq Require Import String List Bool Arith Lia FinFun.
From Verif Require Import Base SaveModel SaveSpec SaveProofs.
Import ListNotations.
Open Scope nat_scope.
Open Scope res_scope.

(* ---- PyTorch ---- *)

(* ONNX in the fakely-quant format: the file computes the model, its activations quantized except where that takes more than eight bits. *)
Theorem onnx_fq_meaning : forall T ch fw (m' : module T), torch_export Onnx_fq (Block ch fw) = Ok m' ->
  forall args, run m' args = meaning (fun b => b <=? 8) (Block ch fw) args.
Proof.
  intros T ch fw m' H args. unfold torch_export in H. destruct (check_children (drop_wide (Block ch fw))); cbn [bind] in H; [|discriminate].
  rewrite (set_all_run _ _ H). change (drop_wide (Block ch fw)) with (drop_child (Block ch fw)). apply drop_child_run.
Qed.
Print Assumptions onnx_fq_meaning.
(* So it computes the same if there are none with more bits. *)
Theorem onnx_fq_same : forall T ch fw (m' : module T), torch_export Onnx_fq (Block ch fw) = Ok m' ->
  (forall b q, inside (Holder b q) (Block ch fw) -> b <= 8) -> forall args, run m' args = run (Block ch fw) args.
Proof.
  intros T ch fw m' H N args. rewrite (onnx_fq_meaning _ _ _ _ H). apply meaning_all. intros b q I. apply Nat.leb_le. exact (N b q I).
Qed.
Print Assumptions onnx_fq_same.
(* FINDING (exporter/model_exporter/pytorch/fakely_quant_onnx_pytorch_exporter.py L76-94): activations quantized to 16 bits are not quantized at
   all in the fakely-quant ONNX file, which then computes something else than the model. *)
Definition wide : module nat := Block [("act"%string, Holder 16 (fun x => x / 2))] (fun c => c "act"%string).
Theorem onnx_fq_wide_refuted : exists m', torch_export Onnx_fq wide = Ok m' /\ run wide [5] = Ok 2 /\ run m' [5] = Ok 5.
Proof. eexists. split; [reflexivity|]. split; reflexivity. Qed.
Print Assumptions onnx_fq_wide_refuted.

(* ONNX with the quantizers in the file, the default: the same. *)
Theorem onnx_mctq_same : forall T (m m' : module T), torch_export Onnx_mctq m = Ok m' -> m' = m.
Proof. intros T m m' H. unfold torch_export in H. destruct (check_children m); cbn [bind] in H; [injection H as <-; reflexivity | discriminate]. Qed.
Print Assumptions onnx_mctq_same.

(* TorchScript: the same, activations of any number of bits included, if no wrapped child has weights among its arguments. *)
Theorem torchscript_same : forall T ch fw (m' : module T), torch_export Torchscript_fq (Block ch fw) = Ok m' ->
  (forall n w, In (n, Wrapped w) ch -> w_positions w = []) -> forall args, run m' args = run (Block ch fw) args.
Proof.
  intros T ch fw m' H P args. unfold torch_export in H. destruct (check_children (Block ch fw)); cbn [bind] in H; [|discriminate].
  rewrite set_block in H. destruct (set_list ch) as [ch'|] eqn:E; cbn [bind] in H; [|discriminate]. cbn [unwrap] in H.
  destruct (mapM _ ch') as [ch2|] eqn:U; cbn [bind] in H; [|discriminate]. injection H as <-. rewrite !run_block. f_equal. symmetry. apply child_agree.
  apply set_list_all in E. revert ch2 U. induction E as [|[n c] [n' c'] r r' [A B] _ IH]; intros ch2 U; cbn in U; [injection U as <-; constructor|].
  cbn in A, B. subst n'. destruct (unwrap_child c') as [c2|] eqn:C; cbn in U; [|discriminate].
  destruct (mapM _ r') as [r2|] eqn:R; cbn in U; [|discriminate]. injection U as <-. constructor.
  - split; [reflexivity|]. cbn. intros a. rewrite <- (set_all_run _ _ B). destruct c' as [f|b q|w'|h' f']; cbn in C; try (injection C as <-; reflexivity).
    destruct (w_module w'); [|discriminate]. injection C as <-. cbn.
    destruct c as [f|b q|w|h f]; cbn in B; try discriminate.
    + destruct (set_quantized_weights w) as [w1|] eqn:W; cbn in B; [|discriminate]. injection B as <-.
      destruct (set_wrapper _ _ W) as [R1 [_ [_ [R4 [R5 _]]]]]. rewrite R1, <- R5. unfold call_layer. rewrite R4, (P n w (or_introl eq_refl)). reflexivity.
    + match type of B with bind ?x _ = _ => destruct x; cbn in B; discriminate end.
  - apply IH; [intros n0 w0 I; exact (P n0 w0 (or_intror I)) | reflexivity].
Qed.
Print Assumptions torchscript_same.
(* Nothing of the float weights is left to be quantized: no wrapper in a fakely-quant file has a quantizer. *)
Theorem fq_weights_final : forall T (m m' : module T), torch_export Onnx_fq m = Ok m' -> forall w, inside (Wrapped w) m' -> w_quantizers w = [].
Proof.
  intros T m m' H. unfold torch_export in H. destruct (check_children (drop_wide m)); cbn [bind] in H; [|discriminate]. exact (set_all_clean _ _ H).
Qed.
Print Assumptions fq_weights_final.

(* When it succeeds: every wrapped child has a quantizer, and every wrapper the weights its quantizers are for. *)
Theorem onnx_fq_succeeds : forall T ch fw, is_ok (torch_export Onnx_fq (Block ch fw : module T)) = true <->
  (forall n w, In (n, Wrapped w) ch -> w_quantizers w <> []) /\ (forall w, inside (Wrapped w) (Block ch fw) -> ready w).
Proof.
  intros T ch fw. unfold torch_export. rewrite bind_ok_unit, set_all_ok, check_ok. rewrite drop_block. cbn [children].
  assert (forall (w : wrapper T), inside (Wrapped w) (Block (map (fun nc => (fst nc, drop_child (snd nc))) ch) fw) <-> inside (Wrapped w) (Block ch fw)) as D.
  { intros w. rewrite <- (drop_inside (Block ch fw)), drop_block. reflexivity. }
  assert (forall n (w : wrapper T), In (n, Wrapped w) (map (fun nc => (fst nc, drop_child (snd nc))) ch) <-> In (n, Wrapped w) ch) as C.
  { intros n w. rewrite in_map_iff. split.
    - intros [[n' c] [E I]]. cbn [fst snd] in E. injection E as <- E. unfold drop_child in E. destruct c as [f|b q|u|h f]; try discriminate; [destruct (max_bits <? b); discriminate|]. cbn [drop_wide] in E. injection E as ->. exact I.
    - intros I. exists (n, Wrapped w). split; [reflexivity | exact I]. }
  split; intros [A B]; split.
  - intros n w I. apply (A n). apply C. exact I.
  - intros w I. apply B. apply D. exact I.
  - intros n w I. apply (A n). apply C. exact I.
  - intros w I. apply B. apply D. exact I.
Qed.
Print Assumptions onnx_fq_succeeds.
(* FINDING (exporter/model_exporter/pytorch/base_pytorch_exporter.py L149-151): TorchScript besides needs every wrapped child to be a module: a model with a
   quantized constant, where a function is wrapped, cannot be exported, the function being assigned in the place of a module. *)
Theorem torchscript_function_refuted : forall T ch fw n (w : wrapper T), In (n, Wrapped w) ch -> w_module w = false ->
  is_ok (torch_export Torchscript_fq (Block ch fw)) = false.
Proof.
  intros T ch fw n w I M. unfold torch_export. destruct (check_children (Block ch fw)); cbn [bind]; [|reflexivity].
  rewrite set_block. destruct (set_list ch) as [ch'|] eqn:E; cbn [bind]; [|reflexivity]. cbn [unwrap].
  apply set_list_all in E. match goal with |- context [mapM ?f ch'] => assert (is_ok (mapM f ch') = false) as K end.
  2: { destruct (mapM _ ch'); [discriminate K | reflexivity]. }
  induction E as [|[a c] [a' c'] r r' [A B] _ IH]; [destruct I|]. cbn in A, B. cbn. destruct I as [I|I].
  - injection I as -> ->. cbn in B. destruct (set_quantized_weights w) as [w1|] eqn:W; cbn in B; [|discriminate]. injection B as <-. cbn.
    destruct (set_wrapper _ _ W) as [_ [_ [R _]]]. rewrite R, M. reflexivity.
  - specialize (IH I). destruct (unwrap_child c'); cbn; [|reflexivity]. destruct (mapM _ r'); [discriminate IH | reflexivity].
Qed.
Print Assumptions torchscript_function_refuted.
Theorem torchscript_succeeds : forall T ch fw, (forall n w, In (n, Wrapped w) ch -> w_quantizers w <> [] /\ w_module w = true) ->
  (forall w, inside (Wrapped w) (Block ch fw) -> ready w) -> exists m' : module T, torch_export Torchscript_fq (Block ch fw) = Ok m'.
Proof.
  intros T ch fw Q R. unfold torch_export.
  pose proof (proj2 (check_ok (Block ch fw)) (fun n w I => proj1 (Q n w I))) as C. destruct (check_children (Block ch fw)); [cbn [bind]; clear C | discriminate C].
  pose proof (proj2 (set_all_ok (Block ch fw)) R) as D. rewrite set_block in *. destruct (set_list ch) as [ch'|] eqn:E; [cbn [bind] in *; clear D | discriminate D].
  cbn [unwrap]. apply set_list_all in E. clear R. assert (exists l, mapM (fun nc : string * module T => let! c' := unwrap_child (snd nc) in Ok (fst nc, c')) ch' = Ok l) as [l ->].
  2: { eexists. reflexivity. }
  induction E as [|[a c] [a' c'] r r' [A B] _ IH]; [exists []; reflexivity|]. cbn in A, B. subst a'.
  destruct IH as [l L]; [intros n w I; exact (Q n w (or_intror I))|]. cbn. rewrite L.
  assert (exists c2, unwrap_child c' = Ok c2) as [c2 ->]; [|eexists; reflexivity].
  destruct c' as [f|b q|w'|h f]; try (eexists; reflexivity). destruct c as [f|b q|w|h f]; cbn in B; try discriminate.
  - destruct (set_quantized_weights w) as [w1|] eqn:W; cbn in B; [|discriminate]. injection B as <-.
    destruct (set_wrapper _ _ W) as [_ [_ [X _]]]. cbn. rewrite X, (proj2 (Q a w (or_introl eq_refl))). eexists. reflexivity.
  - match type of B with bind ?x _ = _ => destruct x; cbn in B; discriminate end.
Qed.
Print Assumptions torchscript_succeeds.
(* FINDING (same lines): a module that takes a quantized constant among its arguments is exported without it. *)
Definition scaled : module nat :=
  Block [("scale"%string, Wrapped (Wrapper true (fun _ a => match a with [x; y] => Ok (x * y) | _ => Err E_type end) [] [(At 1, 7)] [(At 1, fun v => v / 2)] [] [1]))]
        (fun c => c "scale"%string).
Theorem torchscript_constant_refuted : run scaled [5] = Ok 15 /\ exists m', torch_export Torchscript_fq scaled = Ok m' /\ run m' [5] = Err E_type.
Proof. split; [reflexivity|]. eexists. split; reflexivity. Qed.
Print Assumptions torchscript_constant_refuted.
(* a convolution with quantized weight, in a block, and an activation: 2 * 4 + 1, then halved; exported in all formats *)
Definition small : module nat :=
  Block [("conv"%string, Wrapped (Wrapper true (fun p a => match p "weight"%string, p "bias"%string, a with Some w, Some b, [x] => Ok (w * x + b) | _, _, _ => Err E_type end)
            [("weight"%string, 5); ("bias"%string, 1)] [(Named "weight", 5)] [(Named "weight"%string, fun v => v / 2)] [] []));
         ("act"%string, Holder 8 (fun x => x / 2))]
        (fun c a => let! y := c "conv"%string a in c "act"%string [y]).
Example small_files : run small [4] = Ok 4 /\ (exists m, torch_export Onnx_fq small = Ok m /\ run m [4] = Ok 4) /\
  (exists m, torch_export Torchscript_fq small = Ok m /\ run m [4] = Ok 4) /\ (exists m, torch_export Onnx_mctq small = Ok m /\ run m [4] = Ok 4).
Proof. repeat split; eexists; split; reflexivity. Qed.

(* Names in the ONNX file: one for each input and output, all different, for samples that are lists of tensors. *)
Lemma indexed_inj : forall s n, NoDup (map (Indexed s) (seq 0 n)).
Proof. intros s n. apply Injective_map_NoDup; [intros a b H; injection H as ->; reflexivity | apply seq_NoDup]. Qed.
Theorem onnx_names : forall n outs names, 0 < n -> output_names outs None = Ok names ->
  List.length (input_names (Tensors n)) = n /\ List.length names = match outs with Some k => k | None => 1 end /\ NoDup (input_names (Tensors n) ++ names).
Proof.
  intros n outs names N O. cbn in O. injection O as <-. unfold input_names. cbn [len].
  assert (List.length (if 1 <? n then map (Indexed "input") (seq 0 n) else [Plain "input"]) = n) as L.
  { destruct (1 <? n) eqn:E; [rewrite map_length, seq_length; reflexivity|]. apply Nat.ltb_ge in E. cbn. lia. }
  split; [exact L|]. split; [destruct outs; [rewrite map_length, seq_length|]; reflexivity|].
  assert (forall a b : list io_name, NoDup a -> NoDup b -> (forall x, In x a -> ~ In x b) -> NoDup (a ++ b)) as AP.
  { induction a as [|x a IH]; intros b Na Nb D; [exact Nb|]. inversion Na; subst. cbn. constructor.
    - rewrite in_app_iff. intros [I|I]; [contradiction | exact (D x (or_introl eq_refl) I)].
    - apply IH; [assumption | assumption | intros y I; exact (D y (or_intror I))]. }
  apply AP.
  - destruct (1 <? n); [apply indexed_inj | repeat constructor; intros []].
  - destruct outs; [apply indexed_inj | repeat constructor; intros []].
  - intros x I J. assert (exists o, x = match o with Some i => Indexed "input" i | None => Plain "input" end) as [o ->].
    { destruct (1 <? n); [apply in_map_iff in I; destruct I as [i [<- _]]; exists (Some i); reflexivity|]. destruct I as [<-|[]]. exists None. reflexivity. }
    destruct outs as [k|]; [apply in_map_iff in J; destruct J as [i [E _]] | destruct J as [E|[]]]; destruct o; discriminate.
Qed.
Print Assumptions onnx_names.
Theorem onnx_asked_names : forall outs l, output_names outs (Some l) = Ok l <-> List.length l = match outs with Some k => k | None => 1 end.
Proof. intros outs l. cbn. destruct (Nat.eqb_spec (List.length l) (match outs with Some k => k | None => 1 end)); split; intros; congruence. Qed.
Print Assumptions onnx_asked_names.
(* FINDING (fakely_quant_onnx_pytorch_exporter.py L123): for a dataset that gives a single tensor, which the exporter otherwise allows for (L120), the inputs
   are counted by the batch size: the one input has as many names as there are samples in the batch. *)
Theorem onnx_tensor_names_refuted : forall b, 1 < b -> inputs_of (Tensor b) = 1 /\ List.length (input_names (Tensor b)) = b.
Proof.
  intros b B. split; [reflexivity|]. unfold input_names. cbn [len]. rewrite (proj2 (Nat.ltb_lt 1 b) B). rewrite map_length, seq_length. reflexivity.
Qed.
Print Assumptions onnx_tensor_names_refuted.

(* Metadata: the model gets the first found, itself before its modules, in order; its own stays; modules keep theirs. *)
Theorem metadata_first : forall M (own : option M) subs,
  exists own', assign_metadata (MT own subs) = MT own' subs /\
  match own with Some x => own' = Some x | None => own' = hd_error (flat_map search subs) end.
Proof.
  intros M own subs. unfold assign_metadata. destruct own as [x|]; cbn [search app]; [exists (Some x); split; reflexivity|].
  destruct (flat_map search subs) as [|y l]; eexists; split; reflexivity.
Qed.
Print Assumptions metadata_first.

(* ---- Keras ---- *)

(* Layer by layer: quantized layers become layers with the quantized kernel and the bias, quantized activations fake-quant operations with
   the same range and bits, all others stay. *)
Theorem keras_fq_layers : forall T (m m' c : kmodel (T := T)) f, f <> Keras_mctq -> keras_export f m = (Ok m', c) -> Forall2 written_as (k_layers m) (k_layers m').
Proof.
  intros T m m' c f F H.
  assert ((let! l1 := mapM unwrap_layer (k_layers m) in let! l2 := mapM fake_quant l1 in Ok (KModel l2 false)) = Ok m') as E.
  { destruct f; [injection H as E _ | injection H as E _ | contradiction]; exact E. }
  clear H F. destruct (mapM unwrap_layer (k_layers m)) as [l1|] eqn:U; cbn [bind] in E; [|discriminate].
  destruct (mapM fake_quant l1) as [l2|] eqn:Q; cbn [bind] in E; [|discriminate]. injection E as <-. cbn [k_layers].
  revert l1 U l2 Q. induction (k_layers m) as [|x r IH]; intros l1 U l2 Q; cbn in U; [injection U as <-; cbn in Q; injection Q as <-; constructor|].
  destruct (unwrap_layer x) as [y|] eqn:X; cbn in U; [|discriminate]. destruct (mapM unwrap_layer r) as [r1|] eqn:R; cbn in U; [|discriminate]. injection U as <-.
  cbn in Q. destruct (fake_quant y) as [z|] eqn:Y; cbn in Q; [|discriminate]. destruct (mapM fake_quant r1) as [r2|] eqn:R2; cbn in Q; [|discriminate]. injection Q as <-.
  constructor; [|exact (IH r1 eq_refl r2 R2)]. clear - X Y.
  destruct x as [kind q fl qw bias|q|kind ws|lo hi n|i]; cbn in X.
  - destruct q; [|injection X as <-; cbn in Y; injection Y as <-; constructor].
    destruct kind; cbn in X; [| |discriminate].
    + destruct (assoc String.eqb "depthwise_kernel"%string qw) as [k|] eqn:A; cbn in X; [|discriminate]. injection X as <-. cbn in Y. injection Y as <-. constructor. exact A.
    + destruct (assoc String.eqb "kernel"%string qw) as [k|] eqn:A; cbn in X; [|discriminate]. injection X as <-. cbn in Y. injection Y as <-. constructor. exact A.
  - injection X as <-. cbn in Y. destruct q as [lo hi n|]; [|discriminate]. destruct lo as [|lo [|? ?]]; try discriminate. destruct hi as [|hi [|? ?]]; try discriminate. injection Y as <-. constructor.
  - injection X as <-. cbn in Y. injection Y as <-. constructor.
  - injection X as <-. cbn in Y. injection Y as <-. constructor.
  - injection X as <-. cbn in Y. injection Y as <-. constructor.
Qed.
Print Assumptions keras_fq_layers.
(* It succeeds exactly when every layer can be written. *)
Theorem keras_fq_succeeds : forall T (m : kmodel (T := T)) f, f <> Keras_mctq -> ((exists m' c, keras_export f m = (Ok m', c)) <-> Forall (fun l => exists l', written_as l l') (k_layers m)).
Proof.
  intros T m f F. split.
  - intros [m' [c H]]. pose proof (keras_fq_layers _ _ _ _ _ F H) as W. clear H. induction W; constructor; [eexists; eassumption | assumption].
  - intros A. assert (exists l2, (let! l1 := mapM unwrap_layer (k_layers m) in mapM fake_quant l1) = Ok l2) as [l2 E].
    { induction A as [|x r [y W] _ [l2 IH]]; [exists []; reflexivity|]. cbn.
      destruct (mapM unwrap_layer r) as [l1|]; cbn in IH; [|discriminate].
      destruct W; cbn; try rewrite H; cbn; rewrite IH; cbn; eexists; reflexivity. }
    destruct (mapM unwrap_layer (k_layers m)) as [l1|] eqn:U; cbn in E; [|discriminate].
    destruct f; [| |contradiction]; cbn; rewrite U; cbn; rewrite E; do 2 eexists; reflexivity.
Qed.
Print Assumptions keras_fq_succeeds.
(* FINDING (exporter/model_exporter/keras/fakely_quant_keras_exporter.py L96-103, L165-185): a model with a quantized constant (another layer wrapped) or with an
   activation quantized by a lookup table has no fakely-quant file. *)
Theorem keras_fq_refuted : forall T (m : kmodel (T := T)) f l, f <> Keras_mctq -> In l (k_layers m) ->
  (exists fl qw bias, l = KWrapped Other_kind true fl qw bias) \/ l = KHolder Lut -> ~ exists m' c, keras_export f m = (Ok m', c).
Proof.
  intros T m f l F I O H. apply (keras_fq_succeeds T m f F) in H. rewrite Forall_forall in H. destruct (H l I) as [l' W].
  destruct O as [[fl [qw [bias ->]]]| ->]; inversion W.
Qed.
Print Assumptions keras_fq_refuted.
(* FINDING (exporter/model_exporter/keras/fakely_quant_keras_exporter.py L124-127, fakely_quant_tflite_exporter.py L54-57): the metadata is deleted from the
   model of the caller: a model exported in a fakely-quant format, and afterwards with its quantizers, has lost its metadata in the second file too. *)
Theorem keras_metadata_refuted : forall T (m : kmodel (T := T)), k_metadata m = true ->
  fst (keras_export Keras_mctq m) = Ok m /\
  (forall f, f <> Keras_mctq -> exists m2, fst (keras_export Keras_mctq (snd (keras_export f m))) = Ok m2 /\ k_metadata m2 = false).
Proof. intros T m M. split; [reflexivity|]. intros f F. destruct f; [| |contradiction]; eexists; split; reflexivity. Qed.
Print Assumptions keras_metadata_refuted.
(* Nothing else of the caller's model changes. *)
Theorem keras_caller_layers : forall T (m : kmodel (T := T)) f, k_layers (snd (keras_export f m)) = k_layers m.
Proof. intros T m []; reflexivity. Qed.
Print Assumptions keras_caller_layers.
Example small_keras : keras_export Keras_fq (KModel [KWrapped Conv_like true [("kernel"%string, 5)] [("kernel"%string, 4)] (Some 1); KHolder (Ranged [0] [3] 8); KOther 2] true)
  = (Ok (KModel [KLayer Conv_like [4; 1]; KFakeQuant 0 3 8; KOther 2] false), KModel [KWrapped Conv_like true [("kernel"%string, 5)] [("kernel"%string, 4)] (Some 1); KHolder (Ranged [0] [3] 8); KOther 2] false).
Proof. reflexivity. Qed.
