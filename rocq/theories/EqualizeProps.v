(* EqualizeProps.v -- C39: scale equalization keeps the function. *)
From Verif Require Import LinNode LinSpec BnModel BnSpec LinProofs BnProofs LinGraph EqualizeModel EqualizeSpec.

Lemma reshape_axis4 v C k : shp v = [C] -> (k < 4)%nat -> exists r, reshape v (axis_shape 4 k) = Ok r /\ shp r = map (fun j => if Nat.eqb j k then C else 1%nat) (seq 0 4) /\
  forall a b c d, (nth k [a; b; c; d] 0 < C)%nat -> at_ r (mask (shp r) [a; b; c; d]) = at_ v [nth k [a; b; c; d] 0%nat].
Proof.
  intros H L. unfold reshape. rewrite H. unfold infer.
  destruct k as [|[|[|[|k]]]]; [| | | |lia]; cbn -[Nat.modulo Nat.div Nat.mul]; ones; rewrite Nat.mod_1_r, Nat.div_1_r; cbn -[Nat.mul]; ones; rewrite Nat.eqb_refl; eexists; (split; [reflexivity|]); (split; [reflexivity|]);
    intros a b c d M; unfold reshape_to; rewrite H; cbn -[Nat.div Nat.modulo] in *; rewrite Nat.div_1_r; f_equal; f_equal; destruct (Nat.eqb_spec C 1); lia.
Qed.
Lemma reshape_axis2 v C k : shp v = [C] -> (k < 2)%nat -> exists r, reshape v (axis_shape 2 k) = Ok r /\ shp r = map (fun j => if Nat.eqb j k then C else 1%nat) (seq 0 2) /\
  forall a b, (nth k [a; b] 0 < C)%nat -> at_ r (mask (shp r) [a; b]) = at_ v [nth k [a; b] 0%nat].
Proof.
  intros H L. unfold reshape. rewrite H. unfold infer.
  destruct k as [|[|k]]; [| |lia]; cbn -[Nat.modulo Nat.div Nat.mul]; ones; rewrite Nat.mod_1_r, Nat.div_1_r; cbn -[Nat.mul]; ones; rewrite Nat.eqb_refl; eexists; (split; [reflexivity|]); (split; [reflexivity|]);
    intros a b M; unfold reshape_to; rewrite H; cbn -[Nat.div Nat.modulo] in *; rewrite Nat.div_1_r; f_equal; f_equal; destruct (Nat.eqb_spec C 1); lia.
Qed.
Ltac fit := unfold fits; cbn; repeat (apply Forall2_cons; [tauto|]); apply Forall2_nil.
Lemma scale_out f l s : lin_wf l -> scales_outputs l -> shp s = [l_out l] -> (forall x, f 0 x = 0) ->
  exists r k, scale_reshaping s l false = Ok r /\ bop f (l_kernel l) r = Ok k /\ shp k = shp (l_kernel l) /\
    forall b u h w i o, (h < fst (ksize l))%nat -> (w < snd (ksize l))%nat -> (i < l_in l)%nat -> (o < l_out l)%nat -> weight (set_weights l k b u) h w i o = f (weight l h w i o) (at_ s [o]).
Proof.
  intros W SO S Z. pose proof (ksize_shape l W) as SH. unfold kernel_shape in SH. set (kh := fst (ksize l)) in *. set (kw := snd (ksize l)) in *.
  assert (IP : (0 < in_per l)%nat) by (pose proof (lw_in l W); pose proof (lw_div_in l W); destruct (in_per l); lia).
  assert (OP : (0 < out_per l)%nat) by (pose proof (lw_out l W); pose proof (lw_div_out l W); destruct (out_per l); lia).
  unfold scales_outputs in SO. unfold scale_reshaping, weight. destruct (l_kind l) eqn:K; rewrite SH; cbn [length out_axis].
  all: match goal with
    | |- context [axis_shape 4 ?k] => destruct (reshape_axis4 s (l_out l) k S ltac:(lia)) as (r & R1 & R2 & R3)
    | |- context [axis_shape 2 ?k] => destruct (reshape_axis2 s (l_out l) k S ltac:(lia)) as (r & R1 & R2 & R3)
    end; exists r.
  - destruct (bop_fits f (l_kernel l) r) as (k & B1 & B2 & B3); [rewrite R2, SH; fit|]. exists k. split; [exact R1|]. split; [exact B1|]. split; [rewrite B2; exact SH|]. intros b u h w i o Hh Hw Hi Ho. cbn [set_weights l_kind l_kernel l_in l_out l_groups]. rewrite K. unfold in_per, out_per in *. cbn [set_weights l_in l_out l_groups]. destruct (Nat.eqb _ _); [|symmetry; apply Z].
    rewrite B3 by (rewrite SH; apply inb4; repeat split; try assumption; apply Nat.mod_upper_bound; lia). rewrite R3 by exact Ho. reflexivity.
  - rewrite SO, Nat.div_same in SH by (pose proof (lw_in l W); lia). destruct (bop_fits f (l_kernel l) r) as (k & B1 & B2 & B3); [rewrite R2, SH, SO; fit|]. exists k. split; [exact R1|]. split; [exact B1|]. split; [rewrite B2, SH, SO, Nat.div_same by (pose proof (lw_in l W); lia); reflexivity|]. intros b u h w i o Hh Hw Hi Ho. cbn [set_weights l_kind l_kernel l_in l_out l_groups]. rewrite K. rewrite SO, Nat.div_same, Nat.div_1_r, Nat.mod_1_r by (pose proof (lw_in l W); lia). destruct (Nat.eqb_spec i o) as [->|]; [|symmetry; apply Z].
    rewrite B3 by (rewrite SH; apply inb4; repeat split; try assumption; lia). rewrite R3 by exact Ho. reflexivity.
  - destruct (bop_fits f (l_kernel l) r) as (k & B1 & B2 & B3); [rewrite R2, SH; fit|]. exists k. split; [exact R1|]. split; [exact B1|]. split; [rewrite B2; exact SH|]. intros b u h w i o Hh Hw Hi Ho. cbn [set_weights l_kind l_kernel l_in l_out l_groups]. rewrite K.
    rewrite B3 by (rewrite SH; apply inb4; repeat split; assumption). rewrite R3 by exact Ho. reflexivity.
  - destruct (bop_fits f (l_kernel l) r) as (k & B1 & B2 & B3); [rewrite R2, SH; fit|]. exists k. split; [exact R1|]. split; [exact B1|]. split; [rewrite B2; exact SH|]. intros b u h w i o Hh Hw Hi Ho. cbn [set_weights l_kind l_kernel l_in l_out l_groups]. rewrite K.
    rewrite B3 by (rewrite SH; apply inb2; split; assumption). rewrite R3 by exact Ho. reflexivity.
  - destruct (bop_fits f (l_kernel l) r) as (k & B1 & B2 & B3); [rewrite R2, SH; fit|]. exists k. split; [exact R1|]. split; [exact B1|]. split; [rewrite B2; exact SH|]. intros b u h w i o Hh Hw Hi Ho. cbn [set_weights l_kind l_kernel l_in l_out l_groups]. rewrite K. unfold in_per, out_per in *. cbn [set_weights l_in l_out l_groups]. destruct (Nat.eqb _ _); [|symmetry; apply Z].
    rewrite B3 by (rewrite SH; apply inb4; repeat split; try assumption; apply Nat.mod_upper_bound; lia). rewrite R3 by exact Ho. reflexivity.
  - assert (OE : out_per l = l_out l) by (unfold out_per; rewrite SO; apply Nat.div_1_r). rewrite OE in SH. destruct (bop_fits f (l_kernel l) r) as (k & B1 & B2 & B3); [rewrite R2, SH; fit|]. exists k. split; [exact R1|]. split; [exact B1|]. split; [rewrite B2, SH, OE; reflexivity|]. intros b u h w i o Hh Hw Hi Ho. cbn [set_weights l_kind l_kernel l_in l_out l_groups]. rewrite K. unfold in_per, out_per in *. cbn [set_weights l_in l_out l_groups]. destruct (Nat.eqb _ _); [|symmetry; apply Z].
    assert (OM : ((o mod (l_out l / l_groups l)) < l_out l)%nat) by (rewrite OE; apply Nat.mod_upper_bound; lia). assert (OM' : (o mod (l_out l / l_groups l) = o)%nat) by (rewrite OE; apply Nat.mod_small, Ho).
    rewrite B3 by (rewrite SH; apply inb4; repeat split; assumption). rewrite R3 by exact OM. rewrite OM'. cbn [nth]. reflexivity.
  - destruct (bop_fits f (l_kernel l) r) as (k & B1 & B2 & B3); [rewrite R2, SH; fit|]. exists k. split; [exact R1|]. split; [exact B1|]. split; [rewrite B2; exact SH|]. intros b u h w i o Hh Hw Hi Ho. cbn [set_weights l_kind l_kernel l_in l_out l_groups]. rewrite K.
    rewrite B3 by (rewrite SH; apply inb2; split; assumption). rewrite R3 by exact Ho. reflexivity.
Qed.
Lemma scale_in f l s : lin_wf l -> scales_inputs l -> shp s = [l_in l] -> (forall x, f 0 x = 0) ->
  exists r k, scale_reshaping s l true = Ok r /\ bop f (l_kernel l) r = Ok k /\ shp k = shp (l_kernel l) /\
    forall b u h w i o, (h < fst (ksize l))%nat -> (w < snd (ksize l))%nat -> (i < l_in l)%nat -> (o < l_out l)%nat -> weight (set_weights l k b u) h w i o = f (weight l h w i o) (at_ s [i]).
Proof.
  intros W SO S Z. pose proof (ksize_shape l W) as SH. unfold kernel_shape in SH. set (kh := fst (ksize l)) in *. set (kw := snd (ksize l)) in *.
  assert (IP : (0 < in_per l)%nat) by (pose proof (lw_in l W); pose proof (lw_div_in l W); destruct (in_per l); lia).
  assert (OP : (0 < out_per l)%nat) by (pose proof (lw_out l W); pose proof (lw_div_out l W); destruct (out_per l); lia).
  unfold scales_inputs in SO. unfold scale_reshaping, weight. destruct (l_kind l) eqn:K; rewrite SH; cbn [length in_axis].
  all: match goal with
    | |- context [axis_shape 4 ?k] => destruct (reshape_axis4 s (l_in l) k S ltac:(lia)) as (r & R1 & R2 & R3)
    | |- context [axis_shape 2 ?k] => destruct (reshape_axis2 s (l_in l) k S ltac:(lia)) as (r & R1 & R2 & R3)
    end; exists r.
  - assert (IE : in_per l = l_in l) by (unfold in_per; rewrite SO; apply Nat.div_1_r). rewrite IE in SH. destruct (bop_fits f (l_kernel l) r) as (k & B1 & B2 & B3); [rewrite R2, SH; fit|]. exists k. split; [exact R1|]. split; [exact B1|]. split; [rewrite B2, SH, IE; reflexivity|]. intros b u h w i o Hh Hw Hi Ho. cbn [set_weights l_kind l_kernel l_in l_out l_groups]. rewrite K. unfold in_per, out_per in *. cbn [set_weights l_in l_out l_groups]. destruct (Nat.eqb _ _); [|symmetry; apply Z].
    assert (OM : (i mod (l_in l / l_groups l) = i)%nat) by (rewrite IE; apply Nat.mod_small, Hi). rewrite OM. rewrite B3 by (rewrite SH; apply inb4; repeat split; assumption). rewrite R3 by exact Hi. reflexivity.
  - destruct (bop_fits f (l_kernel l) r) as (k & B1 & B2 & B3); [rewrite R2, SH; fit|]. exists k. split; [exact R1|]. split; [exact B1|]. split; [rewrite B2; exact SH|]. intros b u h w i o Hh Hw Hi Ho. cbn [set_weights l_kind l_kernel l_in l_out l_groups]. rewrite K. destruct (Nat.eqb_spec i (o / (l_out l / l_in l))) as [E|]; [|symmetry; apply Z].
    pose proof (lw_dw l W K) as DW. assert (M : (0 < l_out l / l_in l)%nat) by (destruct (l_out l / l_in l)%nat; lia).
    rewrite B3 by (rewrite SH; apply inb4; repeat split; try assumption; apply Nat.mod_upper_bound; lia). rewrite R3 by exact Hi. reflexivity.
  - destruct (bop_fits f (l_kernel l) r) as (k & B1 & B2 & B3); [rewrite R2, SH; fit|]. exists k. split; [exact R1|]. split; [exact B1|]. split; [rewrite B2; exact SH|]. intros b u h w i o Hh Hw Hi Ho. cbn [set_weights l_kind l_kernel l_in l_out l_groups]. rewrite K.
    rewrite B3 by (rewrite SH; apply inb4; repeat split; assumption). rewrite R3 by exact Hi. reflexivity.
  - destruct (bop_fits f (l_kernel l) r) as (k & B1 & B2 & B3); [rewrite R2, SH; fit|]. exists k. split; [exact R1|]. split; [exact B1|]. split; [rewrite B2; exact SH|]. intros b u h w i o Hh Hw Hi Ho. cbn [set_weights l_kind l_kernel l_in l_out l_groups]. rewrite K.
    rewrite B3 by (rewrite SH; apply inb2; split; assumption). rewrite R3 by exact Hi. reflexivity.
  - assert (IE : in_per l = l_in l) by (unfold in_per; rewrite SO; apply Nat.div_1_r). rewrite IE in SH. destruct (bop_fits f (l_kernel l) r) as (k & B1 & B2 & B3); [rewrite R2, SH; fit|]. exists k. split; [exact R1|]. split; [exact B1|]. split; [rewrite B2, SH, IE; reflexivity|]. intros b u h w i o Hh Hw Hi Ho. cbn [set_weights l_kind l_kernel l_in l_out l_groups]. rewrite K. unfold in_per, out_per in *. cbn [set_weights l_in l_out l_groups]. destruct (Nat.eqb _ _); [|symmetry; apply Z].
    assert (OM : (i mod (l_in l / l_groups l) = i)%nat) by (rewrite IE; apply Nat.mod_small, Hi). rewrite OM. rewrite B3 by (rewrite SH; apply inb4; repeat split; assumption). rewrite R3 by exact Hi. reflexivity.
  - destruct (bop_fits f (l_kernel l) r) as (k & B1 & B2 & B3); [rewrite R2, SH; fit|]. exists k. split; [exact R1|]. split; [exact B1|]. split; [rewrite B2; exact SH|]. intros b u h w i o Hh Hw Hi Ho. cbn [set_weights l_kind l_kernel l_in l_out l_groups]. rewrite K. unfold in_per, out_per in *. cbn [set_weights l_in l_out l_groups]. destruct (Nat.eqb _ _); [|symmetry; apply Z].
    rewrite B3 by (rewrite SH; apply inb4; repeat split; try assumption; apply Nat.mod_upper_bound; lia). rewrite R3 by exact Hi. reflexivity.
  - destruct (bop_fits f (l_kernel l) r) as (k & B1 & B2 & B3); [rewrite R2, SH; fit|]. exists k. split; [exact R1|]. split; [exact B1|]. split; [rewrite B2; exact SH|]. intros b u h w i o Hh Hw Hi Ho. cbn [set_weights l_kind l_kernel l_in l_out l_groups]. rewrite K.
    rewrite B3 by (rewrite SH; apply inb2; split; assumption). rewrite R3 by exact Hi. reflexivity.
Qed.
(* the second layer undoes a scale of its input *)
Lemma lin_val_unscale l k s hw x y o p : shp k = shp (l_kernel l) -> (o < l_out l)%nat ->
  (forall h w i, (h < fst (ksize l))%nat -> (w < snd (ksize l))%nat -> (i < l_in l)%nat -> weight (set_kernel l k) h w i o = weight l h w i o / s i) ->
  (forall i q, (i < l_in l)%nat -> y i q = s i * x i q /\ s i <> 0) -> lin_val (set_kernel l k) hw y o p = lin_val l hw x o p.
Proof.
  intros SK O HW HY. unfold lin_val, set_kernel. rewrite ksize_set by exact SK. cbn [set_weights l_in]. f_equal. apply rsum_ext. intros h Hh. apply rsum_ext. intros w Hw. rewrite tap_set by exact SK. destruct (tap l hw h w p) as [q|]; [|reflexivity].
  apply rsum_ext. intros i Hi. change (weight (set_weights l k (l_bias l) (l_use_bias l)) h w i o) with (weight (set_kernel l k) h w i o). rewrite HW by assumption. destruct (HY i q Hi) as [-> N]. field. exact N.
Qed.

Theorem equalization l1 l2 s : lin_wf l1 -> lin_wf l2 -> l_in l2 = l_out l1 -> scales_outputs l1 -> scales_inputs l2 -> shp s = [l_out l1] -> (forall c, (c < l_out l1)%nat -> 0 < at_ s [c]) ->
  exists l1' l2', update_linear_nodes l1 l2 s = Ok (l1', l2') /\ lin_wf l1' /\ lin_wf l2' /\ same_node l1' l1 /\ same_node l2' l2 /\
    (forall hw x c p, (c < l_out l1)%nat -> lin_val l1' hw x c p = at_ s [c] * lin_val l1 hw x c p) /\
    (forall hw x y o p, (o < l_out l2)%nat -> (forall c q, (c < l_in l2)%nat -> y c q = at_ s [c] * x c q) -> lin_val l2' hw y o p = lin_val l2 hw x o p) /\
    (forall G hw hw' x o p, homogeneous G -> (o < l_out l2)%nat -> lin_val l2' hw' (fun c => G (lin_val l1' hw x c)) o p = lin_val l2 hw' (fun c => G (lin_val l1 hw x c)) o p).
Proof.
  intros W1 W2 CI SO SI S P.
  destruct (scale_in Rdiv l2 s W2 SI ltac:(rewrite CI; exact S) ltac:(intro; unfold Rdiv; ring)) as (r2 & k2 & A1 & A2 & A3 & A4). destruct (scale_out Rmult l1 s W1 SO S ltac:(intro; ring)) as (r1 & k1 & B1 & B2 & B3 & B4).
  assert (X : exists b, (match l_bias l1 with Some b => let! r := bop Rmult b s in Ok (Some r) | None => Ok None end) = Ok b /\ (match b with Some v => shp v = [l_out l1] /\ l_use_bias l1 = true | None => True end) /\ forall c, (c < l_out l1)%nat -> bias_val (set_weights l1 k1 b (l_use_bias l1)) c = at_ s [c] * bias_val l1 c).
  { pose proof (lw_bias l1 W1) as LB. unfold bias_val. cbn [set_weights l_use_bias l_bias]. destruct (l_bias l1) as [b|]; cbn [bind].
    - destruct LB as [SB U]. destruct (isvec_bop (l_out l1) Rmult b s _ _ (isvec_of _ b SB) (isvec_of _ s S)) as (r & R1 & R2 & R3). rewrite R1. cbn [bind]. eexists. split; [reflexivity|]. assert (SR : shp r = [l_out l1]) by (apply R3; auto). split; [split; assumption|]. intros c C. rewrite U. rewrite (isvec_at _ _ _ R2 SR c C). ring.
    - exists None. split; [reflexivity|]. split; [exact I|]. intros c C. destruct (l_use_bias l1); ring. }
  destruct X as (b & XE & SB & HB). unfold update_linear_nodes. rewrite A1. cbn [bind]. rewrite A2. cbn [bind]. rewrite B1. cbn [bind]. rewrite B2. cbn [bind]. rewrite XE. cbn [bind]. eexists. eexists. split; [reflexivity|].
  assert (HV : forall hw x c p, (c < l_out l1)%nat -> lin_val (set_weights l1 k1 b (l_use_bias l1)) hw x c p = at_ s [c] * lin_val l1 hw x c p).
  { intros hw x c p C. rewrite (lin_val_affine l1 k1 b (l_use_bias l1) (fun o => at_ s [o]) (fun _ => 0)); [ring|exact B3| |rewrite HB by exact C; ring]. intros h w i Hh Hw Hi. rewrite B4 by assumption. ring. }
  assert (HU : forall hw x y o p, (o < l_out l2)%nat -> (forall c q, (c < l_in l2)%nat -> y c q = at_ s [c] * x c q) -> lin_val (set_kernel l2 k2) hw y o p = lin_val l2 hw x o p).
  { intros hw x y o p O HY. apply (lin_val_unscale l2 k2 (fun i => at_ s [i])); try assumption; [intros; apply A4; assumption|]. intros i q I. split; [apply HY, I|]. rewrite CI in I. specialize (P i I). lra. }
  split; [|split; [|split; [apply same_set, B3|split; [apply same_set, A3|split; [exact HV|split; [exact HU|]]]]]].
  - destruct W1 as [[a [c V1]] V2 V3 V4 V5 V6 V7 V8 V9]. constructor; try assumption. exists a, c. cbn [set_weights l_kernel]. rewrite B3. exact V1.
  - destruct W2 as [[a [c V1]] V2 V3 V4 V5 V6 V7 V8 V9]. constructor; try assumption. exists a, c. cbn [set_kernel set_weights l_kernel]. rewrite A3. exact V1.
  - intros G hw hw' x o p HG O. apply HU; [exact O|]. intros c q C. rewrite CI in C. rewrite <- (HG (at_ s [c])) by (apply P, C). f_equal. apply FunctionalExtensionality.functional_extensionality. intro q'. apply HV, C.
Qed.
Print Assumptions equalization.
(* the factors computed from the statistics are positive and at most 1 *)
Theorem equalization_factors erf mean std c : 0 < fixed_variance erf (at_ mean [c]) (Rabs (at_ std [c])) -> 0 < at_ (calculate_scale_correction erf mean std) [c] <= 1.
Proof.
  intro V. cbn [calculate_scale_correction at_]. assert (Q : 0 < 1 / sqrt (fixed_variance erf (at_ mean [c]) (Rabs (at_ std [c])))) by (apply Rdiv_lt_0_compat; [lra|apply sqrt_lt_R0, V]). split; [apply Rmin_pos; [exact Q|lra]|apply Rmin_r].
Qed.
Print Assumptions equalization_factors.
(* nothing happens without statistics or without quantization of the activation *)
Theorem equalization_skipped erf l1 l2 prior q : prior = None \/ q = false -> equalize erf l1 l2 prior q = Ok (l1, l2).
Proof. intros [-> | ->]; [reflexivity|]. destruct prior as [[mean std]|]; reflexivity. Qed.
Print Assumptions equalization_skipped.
Theorem equalization_pass erf l1 l2 mean std : lin_wf l1 -> lin_wf l2 -> l_in l2 = l_out l1 -> scales_outputs l1 -> scales_inputs l2 -> shp mean = [l_out l1] -> (forall c, (c < l_out l1)%nat -> 0 < fixed_variance erf (at_ mean [c]) (Rabs (at_ std [c]))) ->
  exists l1' l2', equalize erf l1 l2 (Some (mean, std)) true = Ok (l1', l2') /\ same_node l1' l1 /\ same_node l2' l2 /\
    forall G hw hw' x o p, homogeneous G -> (o < l_out l2)%nat -> lin_val l2' hw' (fun c => G (lin_val l1' hw x c)) o p = lin_val l2 hw' (fun c => G (lin_val l1 hw x c)) o p.
Proof.
  intros W1 W2 CI SO SI S P. destruct (equalization l1 l2 (calculate_scale_correction erf mean std) W1 W2 CI SO SI S) as (l1' & l2' & E & _ & _ & N1 & N2 & _ & _ & H).
  - intros c C. apply equalization_factors, P, C.
  - exists l1', l2'. auto.
Qed.
Print Assumptions equalization_pass.
