(* FnConvProps.v -- C97: a layer that replaces a function computes what the call computed. *)
From Coq Require Import List Arith ZArith String Bool Lia.
From Verif Require Import Base FnConvModel FnConvSpec FnConvProofs.
Import ListNotations.
Open Scope res_scope.
Open Scope string_scope.
Open Scope nat_scope.

(* conv2d and conv_transpose2d: with the parameters by keyword, one group, and a bias (or bias=None by keyword), the layer that is built has
   the weight, the bias and every parameter of the call -- whatever value a new layer gives to its bias *)
Theorem functional_conv_layer : forall W (wshape : W -> list nat) const init f c x w b,
  f <> FLinear -> valid_call f c -> const_call f c x w b -> input_first f c -> by_keyword c ->
  (b = None -> In ("bias", AVal VNone) (c_kwargs c)) -> param f c "groups" = VInt 1 -> shapes_ok wshape f (const w) (option_map const b) ->
  exists l bt, subst_conv W wshape const f c = Ok l /\ build W wshape init l = Ok bt
    /\ b_weight W bt = const w /\ b_bias W bt = option_map const b /\ forall p, In p (params f) -> b_params W bt p = param f c p.
Proof.
  intros W wshape const init f c x w b NL V C F BK HB G (o & i & k & SW & _ & SB).
  pose proof (kab W const f c x w b V C F) as KB. pose proof V as (_ & ND & _).
  assert (NK : NoDup (map fst (c_kwargs c))) by (unfold bindings in ND; rewrite map_app in ND; exact (nodup_app_r _ _ ND)).
  assert (IG : In "groups" (params f)) by (destruct f; cbn; tauto).
  pose proof (param_kw f c "groups" V BK IG) as AG. rewrite G in AG.
  assert (BF : match kw (value_kwargs c) "bias" with Some v => truthy v | None => true end = match b with Some _ => true | None => false end).
  { unfold value_kwargs. rewrite (kw_values _ "bias" NK). destruct b as [b|].
    - destruct C as (_ & _ & _ & (CB & _)). unfold bound in CB. destruct (kw (c_kwargs c) "bias") as [a|] eqn:E; [|reflexivity].
      apply kw_in in E. assert (I : In ("bias", a) (bindings f c)) by (unfold bindings; apply in_or_app; now right).
      rewrite (in_kw _ _ _ ND I) in CB. injection CB as ->. reflexivity.
    - rewrite (in_kw _ _ _ NK (HB eq_refl)). reflexivity. }
  unfold subst_conv. rewrite KB. cbn [bind fst snd]. eexists. exists (mk_built W (fun p => attr (value_kwargs c) p) (const w) (option_map const b)). split; [reflexivity|].
  unfold build. cbn [l_fn l_attr l_bias_flag l_weight l_bias l_in l_out l_kernel]. rewrite AG, BF, SW.
  assert (E : (match f with FLinear => Ok 1 | _ => groups_of (VInt 1) end) = Ok 1) by (destruct f; reflexivity).
  rewrite E. cbn [bind].
  assert (M : forall n, n mod 1 = 0) by (intros n; apply Nat.mod_1_r). rewrite !M. cbn [Nat.eqb andb negb].
  unfold weight_shape. cbn [l_fn l_attr l_bias_flag l_weight l_bias l_in l_out l_kernel].
  destruct f; [| |now destruct NL]; cbn [nth skipn Nat.sub]; rewrite !Nat.div_1_r, same_shape_refl; cbn [negb];
    (destruct b as [b|]; cbn [option_map] in SB |- *; [rewrite SB, same_shape_refl|]; cbn [bind]; (split; [reflexivity|]); cbn [b_weight b_bias b_params];
     (split; [reflexivity|]); (split; [reflexivity|]); intros p IP; now apply param_kw).
Qed.
Print Assumptions functional_conv_layer.

(* linear: every call with a constant weight, with or without a bias, however its arguments are written, as long as the input is first *)
Theorem functional_linear_layer : forall W (wshape : W -> list nat) const init c x w b o i,
  valid_call FLinear c -> const_call FLinear c x w b -> input_first FLinear c ->
  wshape (const w) = [o; i] -> match b with Some b => wshape (const b) = [o] | None => True end ->
  exists l bt, subst_linear W const c i o = Ok l /\ build W wshape init l = Ok bt /\ b_weight W bt = const w /\ b_bias W bt = option_map const b.
Proof.
  intros W wshape const init c x w b o i V C F SW SB. unfold subst_linear. rewrite (kab W const FLinear c x w b V C F). cbn [bind fst snd].
  eexists. exists (mk_built W (fun p => attr [] p) (const w) (option_map const b)). split; [reflexivity|]. unfold build. cbn [l_fn l_attr l_bias_flag l_weight l_bias l_in l_out l_kernel bind].
  assert (M : forall n, n mod 1 = 0) by (intros n; apply Nat.mod_1_r). rewrite !M. cbn [Nat.eqb andb negb].
  unfold weight_shape. cbn [l_fn l_in l_out]. rewrite SW, same_shape_refl. cbn [negb].
  destruct b as [b|]; cbn [option_map]; [rewrite SB, same_shape_refl|]; cbn [bind]; now repeat split.
Qed.
Print Assumptions functional_linear_layer.

(* a small model of tensors for the examples: a tensor is its shape and a label *)
Definition exW := (list nat * nat)%type.
Definition exc (i : nat) : exW := match i with 1 => ([4; 1; 3; 3], 1) | 2 => ([4], 2) | 3 => ([4; 2; 3; 3], 3) | _ => ([4; 2], 4) end.
Lemma nodup_str : forall l : list string, (fix g (l : list string) : bool := match l with [] => true | x :: r => negb (existsb (String.eqb x) r) && g r end) l = true -> NoDup l.
Proof.
  induction l as [|x r IH]; intros H; constructor; apply andb_prop in H; destruct H as [H1 H2]; [|now apply IH].
  intros I. apply negb_true_iff in H1. assert (existsb (String.eqb x) r = true); [|congruence]. apply existsb_exists. exists x. split; [exact I|apply String.eqb_refl].
Qed.
Ltac valid := split; [cbn; lia|]; split; [apply nodup_str; reflexivity|]; split; [intros p a I; cbn in I; repeat (destruct I as [I|I]; [injection I as <- <-; cbn; tauto|]); destruct I|
  intros p a I; cbn in I; repeat (destruct I as [I|I]; [injection I as <- <-; intros; first [match goal with |- exists v, AVal ?u = AVal v => now exists u end | congruence]|]); destruct I].

(* conv2d(x, bias=b, stride=(2,1), weight=w) meets the hypotheses, and its layer is right *)
Definition call1 := mk_call [AVar 0] [("bias", AConst 2); ("stride", AVal (VList [2; 1])); ("weight", AConst 3)].
Example call1_valid : valid_call FConv call1 /\ const_call FConv call1 0 3 (Some 2) /\ input_first FConv call1 /\ by_keyword call1 /\ param FConv call1 "groups" = VInt 1 /\ shapes_ok (@fst (list nat) nat) FConv (exc 3) (Some (exc 2)).
Proof.
  split; [valid|]. split; [repeat split; congruence|]. split; [exists [], (AVar 0), (c_kwargs call1); split; [reflexivity|intros p a []]|]. split; [cbn; unfold by_keyword; cbn; lia|].
  split; [reflexivity|]. exists 4, 2, [3; 3]. repeat split. discriminate.
Qed.
Example call1_layer : exists l bt, subst_conv exW fst exc FConv call1 = Ok l /\ build exW fst ([0], 9) l = Ok bt /\ b_params _ bt "stride" = VList [2; 1] /\ b_bias _ bt = Some (exc 2).
Proof. eexists. eexists. repeat split; reflexivity. Qed.

(* FINDING (const_holder_conv.py L71): the attributes of the layer are those of the keyword arguments; stride, padding, dilation and groups
   given by position are dropped, so conv2d(x, w, b, 2) becomes a convolution with stride 1 *)
Theorem positional_stride_refuted : exists c, valid_call FConv c /\ const_call FConv c 0 3 (Some 2) /\ input_first FConv c /\ shapes_ok (@fst (list nat) nat) FConv (exc 3) (Some (exc 2)) /\
  exists l bt, subst_conv exW fst exc FConv c = Ok l /\ build exW fst ([0], 9) l = Ok bt /\ param FConv c "stride" = VInt 2 /\ b_params _ bt "stride" = VInt 1.
Proof.
  exists (mk_call [AVar 0; AConst 3; AConst 2; AVal (VInt 2)] []). split; [valid|]. split; [repeat split; congruence|].
  split; [eexists [], (AVar 0), _; split; [reflexivity|intros p a []]|]. split; [exists 4, 2, [3; 3]; repeat split; discriminate|]. eexists. eexists. repeat split; reflexivity.
Qed.
Print Assumptions positional_stride_refuted.

(* every valid call whose stride is positional and not the default gets a wrong layer *)
Theorem positional_param_lost : forall W (wshape : W -> list nat) const init f c l bt p n v,
  valid_call f c -> nth_error (c_args c) n = Some (AVal v) -> nth_error (sig f) n = Some p -> v <> default p ->
  subst_conv W wshape const f c = Ok l -> build W wshape init l = Ok bt -> param f c p = v /\ b_params W bt p = default p.
Proof.
  intros W wshape const init f c l bt p n v (LA & ND & _) HA HS NV HL HB.
  assert (IC : In (p, AVal v) (combine (sig f) (c_args c))).
  { clear - HA HS. revert n HA HS. generalize (sig f). induction (c_args c) as [|a args IH]; intros sg n HA HS; [destruct n; discriminate HA|].
    destruct sg as [|s sg]; [destruct n; discriminate HS|]. destruct n as [|n]; cbn in HA, HS |- *; [left; congruence|]. right. exact (IH sg n HA HS). }
  assert (IB : In (p, AVal v) (bindings f c)) by (unfold bindings; apply in_or_app; now left).
  assert (KN : kw (c_kwargs c) p = None).
  { destruct (kw (c_kwargs c) p) as [a|] eqn:E; [|reflexivity]. exfalso. apply kw_in in E. unfold bindings in ND. rewrite map_app in ND.
    assert (K1 : In p (map fst (combine (sig f) (c_args c)))) by (change p with (fst (p, AVal v)); now apply in_map).
    assert (K2 : In p (map fst (c_kwargs c))) by (change p with (fst (p, a)); now apply in_map).
    clear - ND K1 K2. induction (map fst (combine (sig f) (c_args c))) as [|y r IH]; [destruct K1|]. cbn in ND. apply NoDup_cons_iff in ND. destruct ND as [N ND].
    destruct K1 as [->|K1]; [apply N; apply in_or_app; now right|]. exact (IH ND K1). }
  assert (NK : NoDup (map fst (c_kwargs c))) by (unfold bindings in ND; rewrite map_app in ND; exact (nodup_app_r _ _ ND)).
  split; [unfold param, bound; now rewrite (in_kw _ _ _ ND IB)|].
  unfold subst_conv in HL. destruct (kernel_and_bias W const c) as [wb|e]; [|discriminate HL]. cbn [bind] in HL. injection HL as <-.
  unfold build in HB. cbn [l_fn l_attr l_bias_flag l_weight l_bias l_in l_out l_kernel] in HB.
  destruct (match f with FLinear => Ok 1 | _ => groups_of (attr (value_kwargs c) "groups") end) as [g|]; [|discriminate HB]. cbn [bind] in HB.
  match type of HB with (if ?t then _ else _) = _ => destruct t end; [discriminate HB|]. match type of HB with (if ?t then _ else _) = _ => destruct t end; [discriminate HB|].
  match type of HB with bind ?t _ = _ => destruct t as [bb|] end; [|discriminate HB]. cbn [bind] in HB. injection HB as <-. cbn [b_params].
  unfold attr, value_kwargs. rewrite (kw_values _ p NK), KN. reflexivity.
Qed.
Print Assumptions positional_param_lost.

(* FINDING (const_holder_conv.py L71-80, instance_builder.py L35-37): the flag bias is not set, and a layer has a bias by default; for a call without bias
   the missing entry is ignored when the weights are loaded, and the layer keeps the random bias it was created with *)
Theorem no_bias_refuted : forall init : exW, exists c, valid_call FConv c /\ const_call FConv c 0 3 None /\ input_first FConv c /\ by_keyword c /\ param FConv c "groups" = VInt 1 /\
  exists l bt, subst_conv exW fst exc FConv c = Ok l /\ build exW fst init l = Ok bt /\ b_bias _ bt = Some init.
Proof.
  intros init. exists (mk_call [AVar 0; AConst 3] []). split; [valid|]. split; [split; [reflexivity|split; [reflexivity|split; [congruence|now left]]]|].
  split; [eexists [], (AVar 0), _; split; [reflexivity|intros p a []]|]. split; [unfold by_keyword; cbn; lia|]. split; [reflexivity|]. eexists. eexists. repeat split; reflexivity.
Qed.
Print Assumptions no_bias_refuted.

(* FINDING (const_holder_conv.py L72-73): the number of input channels is read off the weight, which for a grouped conv2d has the channels of one group;
   no layer can be built for a grouped convolution: every weight of a conv2d with more than one group is refused *)
Theorem grouped_conv_refused : forall W (wshape : W -> list nat) const init c x w b g o i k,
  valid_call FConv c -> const_call FConv c x w b -> input_first FConv c -> by_keyword c -> 2 <= g -> param FConv c "groups" = VInt g ->
  wshape (const w) = o :: S i :: k ->
  exists l e, subst_conv W wshape const FConv c = Ok l /\ build W wshape init l = Err e.
Proof.
  intros W wshape const init c x w b g o i k V C F BK HG G SW. unfold subst_conv. rewrite (kab W const FConv c x w b V C F). cbn [bind fst snd]. rewrite SW.
  assert (IG : In "groups" (params FConv)) by (cbn; tauto). pose proof (param_kw FConv c "groups" V BK IG) as AG. rewrite G in AG.
  match goal with |- exists l e, Ok ?t = Ok l /\ _ => exists t end. unfold build. cbn [l_fn l_attr l_bias_flag l_weight l_bias l_in l_out l_kernel nth skipn Nat.sub]. rewrite AG. destruct g as [|g]; [lia|]. cbn [groups_of bind].
  destruct (negb _) eqn:E; [exists E_value; now split|]. destruct (same_shape (wshape (const w)) _) eqn:SS.
  - exfalso. unfold same_shape in SS. destruct (list_eq_dec _ _ _) as [Q|]; [|discriminate SS]. rewrite SW in Q. unfold weight_shape in Q. cbn [l_fn l_in l_out l_kernel] in Q.
    apply (f_equal (fun l => nth 1 l 0)) in Q. pose proof (Nat.div_lt (S i) (S g) ltac:(lia) ltac:(lia)) as D. change (S i = S i / S g) in Q. rewrite <- Q in D. lia.
  - cbn [negb]. exists E_runtime. now split.
Qed.
Print Assumptions grouped_conv_refused.
Example grouped_case : valid_call FConv (mk_call [AVar 0; AConst 1; AConst 2] [("groups", AVal (VInt 4))]) /\ exists l, subst_conv exW fst exc FConv (mk_call [AVar 0; AConst 1; AConst 2] [("groups", AVal (VInt 4))]) = Ok l
  /\ build exW fst ([0], 9) l = Err E_value.
Proof. split; [valid|]. eexists. split; reflexivity. Qed.

(* FINDING (const_holder_conv.py L61, functional_linear.py L51): the weight is required at index 1 of the inputs; linear(weight=w, input=x) is a critical error *)
Theorem weight_first_refuted : exists c, valid_call FLinear c /\ const_call FLinear c 0 4 None /\ subst_linear exW exc c 2 4 = Err E_critical.
Proof. exists (mk_call [] [("weight", AConst 4); ("input", AVar 0)]). split; [valid|]. split; [|reflexivity]. split; [reflexivity|split; [reflexivity|split; [congruence|now left]]]. Qed.
Print Assumptions weight_first_refuted.

(* the padding found for a transposed convolution: it is the one and only padding below the stride that gives the recorded size of the output, and PyTorch accepts it *)
Theorem dynamic_padding_right : forall t n m op, output_padding t n m = Ok op <-> (tconv_out t op n = m /\ 0 <= op < t_stride t)%Z.
Proof.
  intros t n m op. unfold output_padding, tconv_out. set (q := ((n - 1) * t_stride t - 2 * t_pad t + t_dil t * (t_kernel t - 1))%Z).
  destruct ((m <? q + 1)%Z) eqn:E1; cbn [orb].
  - apply Z.ltb_lt in E1. split; [discriminate|]. intros [A B]. lia.
  - apply Z.ltb_ge in E1. destruct ((q + 1 + t_stride t - 1 <? m)%Z) eqn:E2.
    + apply Z.ltb_lt in E2. split; [discriminate|]. intros [A B]. lia.
    + apply Z.ltb_ge in E2. split; [intros [= <-]; lia|]. intros [A B]. f_equal. lia.
Qed.
Print Assumptions dynamic_padding_right.
Theorem dynamic_padding_accepted : forall t n m op, output_padding t n m = Ok op -> padding_accepted t op = true.
Proof.
  intros t n m op H. apply dynamic_padding_right in H. destruct H as [_ H]. unfold padding_accepted.
  rewrite (proj2 (Z.leb_le 0 op)), (proj2 (Z.ltb_lt op (t_stride t))); [reflexivity|lia|lia].
Qed.
Print Assumptions dynamic_padding_accepted.
(* every layer whose own padding is below its stride keeps it, when it is not called with another size *)
Theorem static_padding_kept : forall t n op, (0 <= op < t_stride t)%Z -> output_padding t n (tconv_out t op n) = Ok op.
Proof. intros t n op H. now apply dynamic_padding_right. Qed.
Print Assumptions static_padding_kept.
Example padding_case : output_padding (mk_tconv 2 1 3 1) 4 8 = Ok 1%Z.
Proof. reflexivity. Qed.

(* FINDING (convtranspose_dynamic_padding.py L51-57): PyTorch accepts an output padding below the stride or below the dilation, but only sizes less than a
   stride above the smallest one are accepted here: with a dilation above the stride, a layer that works is refused with ValueError, for every input size *)
Theorem dilated_padding_refuted : exists t op, padding_accepted t op = true /\ forall n, output_padding t n (tconv_out t op n) = Err E_value.
Proof.
  exists (mk_tconv 1 0 3 2), 1%Z. split; [reflexivity|]. intros n. unfold output_padding, tconv_out. cbn [t_stride t_pad t_kernel t_dil].
  match goal with |- (if ?a || ?b then _ else _) = _ => assert (B : b = true) by (apply Z.ltb_lt; lia); rewrite B, orb_true_r end. reflexivity.
Qed.
Print Assumptions dilated_padding_refuted.
(* FINDING (convtranspose_dynamic_padding.py L74): a layer that is used twice with different output sizes keeps the padding of its first use *)
Theorem reused_padding_refuted : exists t uses op n m, dynamic_padding t uses = Ok op /\ In (n, m) uses /\ is_ok (output_padding t n m) = true /\ tconv_out t op n <> m.
Proof. exists (mk_tconv 2 1 3 1), [(4, 8); (4, 7)]%Z, 1%Z, 4%Z, 7%Z. repeat split; [right; now left|discriminate]. Qed.
Print Assumptions reused_padding_refuted.
