(* PriorProps.v -- C101: ranges of outputs known in advance *)
From Coq Require Import Reals Lra List Bool.
From Verif Require Import Nd.
From Verif Require Import Base PriorModel PriorSpec PriorProofs.
Import ListNotations.
Open Scope R_scope.
Open Scope res_scope.

(* The range is right, for every input: PyTorch, every operation but GELU in its tanh form. *)
Theorem torch_prior_holds : forall o, o <> GeluTanh -> holds (prior Torch o) o.
Proof. intros o N. apply fine_holds. destruct o; cbn; auto. Qed.
Print Assumptions torch_prior_holds.

(* Keras layers and functions: besides, ELU with alpha up to one, ReLU with threshold up to zero or a slope (its max_value is not negative). *)
Theorem keras_prior_holds : forall f o, o <> GeluTanh ->
  (forall a, o = Elu a -> a <= 1) ->
  (forall mx slope thr, o = KRelu mx slope thr -> match mx with Some m => 0 <= m | None => True end /\ (slope <> 0 \/ thr <= 0)) ->
  holds (prior f o) o.
Proof.
  intros f o N E K. apply fine_holds. destruct f, o; cbn; auto; try (now apply E).
  destruct (K _ _ _ eq_refl) as [M [Z|T]]; intros; [contradiction | split; assumption].
Qed.
Print Assumptions keras_prior_holds.
(* what there is to know: operations with both ends, with the lower one, with none *)
Example known : bounded (prior Torch Sigmoid) = true /\ bounded (prior KerasFunction Tanh) = true /\ prior Torch Silu = (Some (- (279 / 1000)), None) /\
  prior Torch Softplus = unknown /\ prior KerasFunction Softplus = (Some 0, None).
Proof. repeat split. Qed.

(* FINDING (core/keras/default_framework_info.py L92): the minimum of ELU is taken to be -1, whatever alpha the layer has: with
   alpha above one smaller values come out, and the range holds exactly when alpha is at most one. *)
Theorem elu_prior_exact : forall a, holds (prior KerasLayer (Elu a)) (Elu a) <-> a <= 1.
Proof.
  intros a. split; [|intros A; apply elu_holds; exact A]. intros H. destruct (Rle_dec a 1) as [L|L]; [exact L | exfalso].
  (* an input where alpha (e^x - 1) < -1 *)
  set (y := (a - 1) / (2 * a)). assert (0 < y < 1) as [Y1 Y2].
  { unfold y. split; [apply Rdiv_lt_0_compat; lra|]. apply Rmult_lt_reg_r with (2 * a); [lra|]. unfold Rdiv. rewrite Rmult_assoc, Rinv_l by lra. lra. }
  assert (2 * a * y = a - 1) as D by (unfold y; field; lra). clearbody y.
  assert (ln y < 0) as Z by (rewrite <- ln_1; apply ln_increasing; lra).
  destruct (H [ln y] (elu a (ln y))) as [B _]; [left; reflexivity|]. cbn in B. unfold elu in B.
  destruct (Rlt_dec 0 (ln y)); [lra|]. rewrite exp_ln in B by exact Y1. nra.
Qed.
Print Assumptions elu_prior_exact.

(* FINDING (core/keras/keras_node_prior_info.py L54-55): a ReLU layer with a threshold is said to have the threshold for its minimum, while
   inputs below the threshold give zero: the range holds exactly for thresholds up to zero. *)
Theorem relu_prior_exact : forall thr, holds (prior KerasLayer (KRelu None 0 thr)) (KRelu None 0 thr) <-> thr <= 0.
Proof.
  intros thr. split.
  - intros H. destruct (H [thr - 1] (krelu None 0 thr (thr - 1))) as [B _]; [left; reflexivity|]. cbn in B.
    destruct (Req_EM_T 0 0) as [_|N]; [|lra]. unfold krelu in B. destruct (Rle_dec thr (thr - 1)); lra.
  - intros T. cbn. destruct (Req_EM_T 0 0) as [_|N]; [|lra]. apply krelu_holds; [exact T | exact I].
Qed.
Print Assumptions relu_prior_exact.

(* FINDING (core/pytorch/default_framework_info.py L76, core/keras/default_framework_info.py L99): GELU in its tanh form goes below the -0.17
   of the tables (by about 4e-5). *)
Theorem gelu_prior_refuted : ~ holds (prior Torch GeluTanh) GeluTanh /\ ~ holds (prior KerasFunction GeluTanh) GeluTanh.
Proof.
  assert (~ holds (Some (- (17 / 100)), None) GeluTanh) as N; [|split; exact N].
  intros H. destruct (H [- (7525 / 10000)] (gelu_tanh (- (7525 / 10000)))) as [B _]; [left; reflexivity|]. cbn in B. pose proof gelu_below. lra.
Qed.
Print Assumptions gelu_prior_refuted.

(* FINDING (core/keras/default_framework_info.py L128): nothing is ever known of an Activation layer, the sigmoid, tanh and softmax included, though
   there is a table for them: the class of the node is asked whether it is an instance of Activation, which no class is.  What the table
   says would be right of all but GELU. *)
Theorem keras_activation_refuted : (forall o, prior KerasActivation o = unknown) /\ (forall o, o <> GeluTanh -> holds (keras_activation_table o) o) /\
  keras_activation_table Sigmoid = (Some 0, Some 1).
Proof.
  split; [reflexivity|]. split; [|reflexivity]. intros [] N; cbn; try apply holds_unknown; try contradiction;
  auto using sigmoid_holds, softmax_holds, hardsigmoid_holds, tanh_holds, relu_holds, relu6_holds, softplus_holds, elu_holds, selu_holds, silu_holds.
Qed.
Print Assumptions keras_activation_refuted.

(* What is reported as the minimum and maximum of an output covers every value seen, if the range is right ... *)
Theorem reported_range_covers : forall f o rows mn mx, holds (prior f o) o -> reported (prior f o) (concat (map (out o) rows)) = Ok (mn, mx) ->
  forall row v, In row rows -> In v (out o row) -> mn <= v <= mx.
Proof.
  intros f o rows mn mx H R row v I J. apply (reported_covers _ _ _ _ R).
  - intros w K. apply in_concat in K. destruct K as [l [L K]]. apply in_map_iff in L. destruct L as [r [<- _]]. exact (H r w K).
  - apply in_concat. exists (out o row). split; [apply in_map; exact I | exact J].
Qed.
Print Assumptions reported_range_covers.
(* ... and every value that can come, seen or not, if both ends are known; an end that is not known is a value seen. *)
Theorem bounded_range_covers : forall f o obs, holds (prior f o) o -> bounded (prior f o) = true ->
  exists mn mx, reported (prior f o) obs = Ok (mn, mx) /\ forall row v, In v (out o row) -> mn <= v <= mx.
Proof.
  intros f o obs H B. destruct (prior f o) as [[m|] [m'|]]; try discriminate. exists m, m'. split; [reflexivity|].
  intros row v I. exact (H row v I).
Qed.
Print Assumptions bounded_range_covers.
Theorem unknown_end_seen : forall p obs mn mx, reported p obs = Ok (mn, mx) ->
  match fst p with Some m => mn = m | None => In mn obs end /\ match snd p with Some m => mx = m | None => In mx obs end.
Proof.
  intros [[m|] [m'|]] [|x r] mn mx H; cbn in H; try discriminate; injection H as <- <-; cbn; split; try reflexivity;
  first [exact (fold_in Rmin Rmin_either r x) | exact (fold_in Rmax Rmax_either r x)].
Qed.
Print Assumptions unknown_end_seen.
Theorem reported_defined : forall p obs, obs <> [] -> exists mn mx, reported p obs = Ok (mn, mx).
Proof. intros [[m|] [m'|]] [|x r] N; try contradiction; cbn; eauto. Qed.
Print Assumptions reported_defined.
(* FINDING (core/common/collectors/statistics_collector.py L104-122): the known end takes the place of the one seen, even if a smaller value has been
   seen: an ELU layer with alpha 2 whose outputs include a value below -1 has -1 reported for its minimum; a ReLU layer with threshold 1 and
   output zero has 1 reported. *)
Theorem reported_above_seen_refuted :
  (forall x, exp x < 1 / 2 -> x <= 0 -> reported (prior KerasLayer (Elu 2)) (out (Elu 2) [x; 3]) = Ok (- (1), 3) /\ exists v, In v (out (Elu 2) [x; 3]) /\ v < - (1)) /\
  (reported (prior KerasLayer (KRelu None 0 1)) (out (KRelu None 0 1) [0; 5]) = Ok (1, 5) /\ In 0 (out (KRelu None 0 1) [0; 5])).
Proof.
  split.
  - intros x E X. assert (elu 2 3 = 3) as T by (unfold elu; destruct (Rlt_dec 0 3); lra).
    assert (elu 2 x < - (1)) as L by (unfold elu; destruct (Rlt_dec 0 x); lra). split.
    + cbn. rewrite T. rewrite Rmax_right by lra. reflexivity.
    + exists (elu 2 x). split; [left; reflexivity | exact L].
  - assert (krelu None 0 1 0 = 0) as A by (unfold krelu; destruct (Rle_dec 1 0); lra).
    assert (krelu None 0 1 5 = 5) as B by (unfold krelu; destruct (Rle_dec 1 5); lra).
    cbn [out map]. rewrite A, B. unfold reported, prior. destruct (Req_EM_T 0 0) as [_|N]; [|lra]. cbn. rewrite Rmax_right by lra. split; [reflexivity | left; reflexivity].
Qed.
Print Assumptions reported_above_seen_refuted.

(* When outputs are shifted by a constant, so is the range, and it stays right. *)
Theorem shifted_prior : forall f o s, holds (prior f o) o -> forall row v, In v (out o row) -> within (shifted (prior f o) s) (v + s) .
Proof. intros f o s H row v I. destruct (H row v I) as [A B]. destruct (prior f o) as [[m|] [m'|]]; cbn in *; split; cbn; lra || exact Logic.I. Qed.
Print Assumptions shifted_prior.
Theorem shifted_unknown : forall p s, (fst (shifted p s) = None <-> fst p = None) /\ (snd (shifted p s) = None <-> snd p = None) /\ bounded (shifted p s) = bounded p.
Proof. intros [[m|] [m'|]] s; cbn; repeat split; intros; discriminate || reflexivity. Qed.
Print Assumptions shifted_unknown.
