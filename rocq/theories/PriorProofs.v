(* PriorProofs.v -- C101 *)
From Coq Require Import Reals Lra List Bool.
From Verif Require Import Nd.
From Verif Require Import Base PriorModel PriorSpec.
Import ListNotations.
Open Scope R_scope.
Open Scope res_scope.

(* ---- bounds of the exponential ---- *)
Lemma exp_ge_line : forall y, 1 + y <= exp y.
Proof. intros y. destruct (Req_dec y 0) as [->|N]; [rewrite exp_0; lra|]. left. apply exp_ineq1. exact N. Qed.
Lemma exp_start : forall a y, a <= 1 + y -> a <= exp y.
Proof. intros a y H. pose proof (exp_ge_line y). lra. Qed.
Lemma exp_double : forall a y b z, a <= exp y -> 0 <= a -> b <= a * a -> z = 2 * y -> b <= exp z.
Proof.
  intros a y b z H P B ->. replace (2 * y) with (y + y) by ring. rewrite exp_plus. apply Rle_trans with (a * a); [exact B|]. apply Rmult_le_compat; assumption.
Qed.
Lemma exp_1279 : 1795089232243 / 500000000000 <= exp (1279 / 1000).
Proof.
  assert (1001249023437 / 1000000000000 <= exp (1279 / 1024000)) as H0 by (apply exp_start; lra).
  assert (1002499606933 / 1000000000000 <= exp (1279 / 512000)) as H1 by (apply (exp_double _ _ _ _ H0); lra).
  assert (10050054619 / 10000000000 <= exp (1279 / 256000)) as H2 by (apply (exp_double _ _ _ _ H1); lra).
  assert (63127248653 / 62500000000 <= exp (1279 / 128000)) as H3 by (apply (exp_double _ _ _ _ H2); lra).
  assert (1020172677759 / 1000000000000 <= exp (1279 / 64000)) as H4 by (apply (exp_double _ _ _ _ H3); lra).
  assert (208150458489 / 200000000000 <= exp (1279 / 32000)) as H5 by (apply (exp_double _ _ _ _ H4); lra).
  assert (1083165334229 / 1000000000000 <= exp (1279 / 16000)) as H6 by (apply (exp_double _ _ _ _ H5); lra).
  assert (46929885651 / 40000000000 <= exp (1279 / 8000)) as H7 by (apply (exp_double _ _ _ _ H6); lra).
  assert (1376508854509 / 1000000000000 <= exp (1279 / 4000)) as H8 by (apply (exp_double _ _ _ _ H7); lra).
  assert (1894776626541 / 1000000000000 <= exp (1279 / 2000)) as H9 by (apply (exp_double _ _ _ _ H8); lra).
  assert (1795089232243 / 500000000000 <= exp (1279 / 1000)) as H10 by (apply (exp_double _ _ _ _ H9); lra).
  exact H10.
Qed.
Lemma exp_gelu : 11676354381 / 40000000000 <= exp (-39399075513487632916278321261 / 32000000000000000000000000000).
Proof.
  assert (499924852227 / 500000000000 <= exp (-39399075513487632916278321261 / 262144000000000000000000000000000)) as H0 by (apply exp_start; lra).
  assert (124962428937 / 125000000000 <= exp (-39399075513487632916278321261 / 131072000000000000000000000000000)) as H1 by (apply (exp_double _ _ _ _ H0); lra).
  assert (999398953333 / 1000000000000 <= exp (-39399075513487632916278321261 / 65536000000000000000000000000000)) as H2 by (apply (exp_double _ _ _ _ H1); lra).
  assert (998798267923 / 1000000000000 <= exp (-39399075513487632916278321261 / 32768000000000000000000000000000)) as H3 by (apply (exp_double _ _ _ _ H2); lra).
  assert (199519596001 / 200000000000 <= exp (-39399075513487632916278321261 / 16384000000000000000000000000000)) as H4 by (apply (exp_double _ _ _ _ H3); lra).
  assert (99520172971 / 100000000000 <= exp (-39399075513487632916278321261 / 8192000000000000000000000000000)) as H5 by (apply (exp_double _ _ _ _ H4); lra).
  assert (990426482817 / 1000000000000 <= exp (-39399075513487632916278321261 / 4096000000000000000000000000000)) as H6 by (apply (exp_double _ _ _ _ H5); lra).
  assert (196188923573 / 200000000000 <= exp (-39399075513487632916278321261 / 2048000000000000000000000000000)) as H7 by (apply (exp_double _ _ _ _ H6); lra).
  assert (481126171659 / 500000000000 <= exp (-39399075513487632916278321261 / 1024000000000000000000000000000)) as H8 by (apply (exp_double _ _ _ _ H7); lra).
  assert (46296478611 / 50000000000 <= exp (-39399075513487632916278321261 / 512000000000000000000000000000)) as H9 by (apply (exp_double _ _ _ _ H8); lra).
  assert (857345572711 / 1000000000000 <= exp (-39399075513487632916278321261 / 256000000000000000000000000000)) as H10 by (apply (exp_double _ _ _ _ H9); lra).
  assert (735041431047 / 1000000000000 <= exp (-39399075513487632916278321261 / 128000000000000000000000000000)) as H11 by (apply (exp_double _ _ _ _ H10); lra).
  assert (108057181071 / 200000000000 <= exp (-39399075513487632916278321261 / 64000000000000000000000000000)) as H12 by (apply (exp_double _ _ _ _ H11); lra).
  assert (11676354381 / 40000000000 <= exp (-39399075513487632916278321261 / 32000000000000000000000000000)) as H13 by (apply (exp_double _ _ _ _ H12); lra).
  exact H13.
Qed.

(* ---- the operations ---- *)
Lemma sigmoid_range : forall x, 0 < sigmoid x < 1.
Proof.
  intros x. unfold sigmoid. pose proof (exp_pos (- x)) as E. split.
  - apply Rinv_0_lt_compat. lra.
  - rewrite <- Rinv_1 at 2. apply Rinv_lt_contravar; lra.
Qed.
Lemma tanh_range : forall x, -1 < tanh' x < 1.
Proof.
  intros x. unfold tanh'. pose proof (exp_pos x) as E. pose proof (exp_pos (- x)) as F. split.
  - apply Rmult_lt_reg_r with (exp x + exp (- x)); [lra|]. unfold Rdiv. rewrite Rmult_assoc, Rinv_l by lra. lra.
  - apply Rmult_lt_reg_r with (exp x + exp (- x)); [lra|]. unfold Rdiv. rewrite Rmult_assoc, Rinv_l by lra. lra.
Qed.
Lemma relu_ge : forall x, 0 <= relu x.
Proof. intros x. apply Rmax_l. Qed.
Lemma relu6_range : forall x, 0 <= relu6 x <= 6.
Proof. intros x. unfold relu6. split; [apply Rmin_glb; [lra | apply Rmax_l] | apply Rmin_l]. Qed.
Lemma hardsigmoid_range : forall x, 0 <= hardsigmoid x <= 1.
Proof. intros x. unfold hardsigmoid. pose proof (relu6_range (x + 3)). lra. Qed.
Lemma softplus_ge : forall x, 0 <= softplus x.
Proof. intros x. unfold softplus. left. rewrite <- ln_1. apply ln_increasing; [lra|]. pose proof (exp_pos x). lra. Qed.
Lemma elu_ge : forall a x, a <= 1 -> -1 <= elu a x.
Proof.
  intros a x A. unfold elu. destruct (Rlt_dec 0 x) as [P|P]; [lra|].
  pose proof (exp_pos x) as E. assert (exp x <= 1) as L.
  { rewrite <- exp_0. destruct (Req_dec x 0) as [->|N]; [lra|]. left. apply exp_increasing. lra. }
  destruct (Rle_dec 0 a) as [Q|Q]; nra.
Qed.
Lemma elu_min : forall a x, 0 <= a -> - a <= elu a x.
Proof.
  intros a x A. unfold elu. destruct (Rlt_dec 0 x) as [P|P]; [lra|]. pose proof (exp_pos x) as E. nra.
Qed.
Lemma selu_ge : forall x, - (176 / 100) <= selu x.
Proof. intros x. unfold selu. pose proof (elu_min (16732632423543772 / 10000000000000000) x ltac:(lra)) as H. lra. Qed.
Lemma silu_ge : forall x, - (279 / 1000) <= silu x.
Proof.
  intros x. unfold silu, sigmoid. remember (- x) as t eqn:T. assert (x = - t) as -> by lra. clear T.
  pose proof (exp_pos t) as E.
  assert (t <= 279 / 1000 * (1 + exp t)) as K.
  { destruct (Rlt_dec t (279 / 1000)) as [L|L]; [nra|].
    replace t with (1279 / 1000 + (t - 1279 / 1000)) at 2 by ring. rewrite exp_plus.
    pose proof (exp_ge_line (t - 1279 / 1000)) as X. pose proof exp_1279 as Y.
    assert (1000 / 279 * (1 + (t - 1279 / 1000)) <= exp (1279 / 1000) * exp (t - 1279 / 1000)) as Z.
    { apply Rmult_le_compat; lra. }
    lra. }
  replace (- t * / (1 + exp t)) with (- (t / (1 + exp t))) by (unfold Rdiv; ring).
  apply Ropp_le_contravar. apply Rmult_le_reg_r with (1 + exp t); [lra|]. unfold Rdiv. rewrite Rmult_assoc, Rinv_l by lra. lra.
Qed.
Lemma krelu_ge : forall mx thr x, thr <= 0 -> match mx with Some m => 0 <= m | None => True end -> thr <= krelu mx 0 thr x.
Proof.
  intros mx thr x T M. unfold krelu. destruct mx as [m|].
  - destruct (Rle_dec m x); [lra|]. destruct (Rle_dec thr x); lra.
  - destruct (Rle_dec thr x); lra.
Qed.
Lemma sum_exp_ge : forall row x, In x row -> exp x <= sum (map exp row).
Proof.
  intros row. assert (forall l, 0 <= sum (map exp l)) as P.
  { induction l as [|y r IH]; cbn; [lra|]. pose proof (exp_pos y). fold (sum (map exp r)). lra. }
  induction row as [|y r IH]; intros x I; [destruct I|]. cbn. fold (sum (map exp r)). destruct I as [->|I].
  - pose proof (P r). lra.
  - pose proof (IH x I). pose proof (exp_pos y). lra.
Qed.
Lemma softmax_range : forall row v, In v (softmax row) -> 0 <= v <= 1.
Proof.
  intros row v I. unfold softmax in I. apply in_map_iff in I. destruct I as [x [<- I]].
  pose proof (sum_exp_ge row x I) as S. pose proof (exp_pos x) as E. split.
  - left. apply Rdiv_lt_0_compat; lra.
  - apply Rmult_le_reg_r with (sum (map exp row)); [lra|]. unfold Rdiv. rewrite Rmult_assoc, Rinv_l by lra. lra.
Qed.
Lemma gelu_form : forall x, gelu_tanh x = x / (1 + exp (- (2 * (7978845608028654 / 10000000000000000 * (x + 44715 / 1000000 * x ^ 3))))).
Proof.
  intros x. unfold gelu_tanh, tanh'. set (u := 7978845608028654 / 10000000000000000 * (x + 44715 / 1000000 * x ^ 3)). clearbody u.
  replace (- (2 * u)) with (- u + - u) by ring. rewrite exp_plus.
  assert (exp u * exp (- u) = 1) as I by (rewrite <- exp_plus; replace (u + - u) with 0 by ring; apply exp_0).
  pose proof (exp_pos u) as E. pose proof (exp_pos (- u)) as F.
  assert (exp (- u) = / exp u) as -> by (rewrite exp_Ropp; reflexivity). 
  set (e := exp u) in *. clearbody e. assert (0 < / e) by (apply Rinv_0_lt_compat; exact E).
  field. split; [|nra]. nra.
Qed.
Lemma gelu_below : gelu_tanh (- (7525 / 10000)) < - (17 / 100).
Proof.
  rewrite gelu_form.
  match goal with |- _ / (1 + exp (- ?y)) < _ => set (z := y); assert (exp (- z) = / exp z) as -> by apply exp_Ropp end.
  pose proof exp_gelu as B. match type of B with _ <= exp ?y => replace y with z in B by (unfold z; field) end. clearbody z.
  pose proof (exp_pos z) as E. set (e := exp z) in *. clearbody e.
  assert (/ e <= / (29184 / 100000 + 6 / 100000)) as I by (apply Rinv_le_contravar; lra).
  replace (- (7525 / 10000) / (1 + / e)) with (- ((7525 / 10000) / (1 + / e))) by (unfold Rdiv; ring).
  apply Ropp_lt_contravar. assert (0 < / e) by (apply Rinv_0_lt_compat; exact E).
  apply Rmult_lt_reg_r with (1 + / e); [lra|]. unfold Rdiv at 2. rewrite Rmult_assoc, Rinv_l by lra. lra.
Qed.

(* which ranges hold *)
Definition fine (f : form) (o : op) : Prop :=
  match f, o with
  | KerasActivation, _ => True
  | KerasLayer, KRelu mx slope thr => slope = 0 -> thr <= 0 /\ match mx with Some m => 0 <= m | None => True end
  | KerasLayer, Elu a | KerasFunction, Elu a => a <= 1
  | Torch, GeluTanh | KerasFunction, GeluTanh => False
  | _, _ => True
  end.
Lemma holds_map : forall p o g, (forall row, out o row = map g row) -> (forall x, within p (g x)) -> holds p o.
Proof. intros p o g E H row v I. rewrite E in I. apply in_map_iff in I. destruct I as [x [<- _]]. apply H. Qed.
Lemma holds_unknown : forall o, holds unknown o.
Proof. intros o row v _. split; exact I. Qed.
Lemma sigmoid_holds : holds (Some 0, Some 1) Sigmoid.
Proof. apply (holds_map _ _ sigmoid); [reflexivity|]. intros x. pose proof (sigmoid_range x). split; cbn; lra. Qed.
Lemma softmax_holds : holds (Some 0, Some 1) Softmax.
Proof. intros row v I. apply softmax_range in I. exact I. Qed.
Lemma hardsigmoid_holds : holds (Some 0, Some 1) HardSigmoid.
Proof. apply (holds_map _ _ hardsigmoid); [reflexivity|]. intros x. apply hardsigmoid_range. Qed.
Lemma tanh_holds : holds (Some (- (1)), Some 1) Tanh.
Proof. apply (holds_map _ _ tanh'); [reflexivity|]. intros x. pose proof (tanh_range x). split; cbn; lra. Qed.
Lemma relu_holds : holds (Some 0, None) Relu.
Proof. apply (holds_map _ _ relu); [reflexivity|]. intros x. split; [apply relu_ge | exact I]. Qed.
Lemma relu6_holds : holds (Some 0, None) Relu6.
Proof. apply (holds_map _ _ relu6); [reflexivity|]. intros x. split; [apply relu6_range | exact I]. Qed.
Lemma softplus_holds : holds (Some 0, None) Softplus.
Proof. apply (holds_map _ _ softplus); [reflexivity|]. intros x. split; [apply softplus_ge | exact I]. Qed.
Lemma elu_holds : forall a, a <= 1 -> holds (Some (- (1)), None) (Elu a).
Proof. intros a A. apply (holds_map _ _ (elu a)); [reflexivity|]. intros x. split; [apply elu_ge; exact A | exact I]. Qed.
Lemma selu_holds : holds (Some (- (176 / 100)), None) Selu.
Proof. apply (holds_map _ _ selu); [reflexivity|]. intros x. split; [apply selu_ge | exact I]. Qed.
Lemma silu_holds : holds (Some (- (279 / 1000)), None) Silu.
Proof. apply (holds_map _ _ silu); [reflexivity|]. intros x. split; [apply silu_ge | exact I]. Qed.
Lemma krelu_holds : forall mx thr, thr <= 0 -> match mx with Some m => 0 <= m | None => True end -> holds (Some thr, None) (KRelu mx 0 thr).
Proof. intros mx thr T M. apply (holds_map _ _ (krelu mx 0 thr)); [reflexivity|]. intros x. split; [apply krelu_ge; assumption | exact I]. Qed.
Lemma fine_holds : forall f o, fine f o -> holds (prior f o) o.
Proof.
  intros [] [] F; cbn in *; try (apply holds_unknown); try contradiction;
  auto using sigmoid_holds, softmax_holds, hardsigmoid_holds, tanh_holds, relu_holds, relu6_holds, softplus_holds, elu_holds, selu_holds, silu_holds.
  destruct (Req_EM_T slope 0) as [->|N]; [|intros row v _; split; exact I]. apply krelu_holds; apply F; reflexivity.
Qed.

(* what is reported *)
Lemma fold_min : forall l x, fold_left Rmin l x <= x /\ forall v, In v l -> fold_left Rmin l x <= v.
Proof.
  induction l as [|y r IH]; intros x; cbn; [split; [lra | intros v []]|]. destruct (IH (Rmin x y)) as [A B]. split.
  - pose proof (Rmin_l x y). lra.
  - intros v [<-|I]; [pose proof (Rmin_r x y); lra | apply B; exact I].
Qed.
Lemma fold_max : forall l x, x <= fold_left Rmax l x /\ forall v, In v l -> v <= fold_left Rmax l x.
Proof.
  induction l as [|y r IH]; intros x; cbn; [split; [lra | intros v []]|]. destruct (IH (Rmax x y)) as [A B]. split.
  - pose proof (Rmax_l x y). lra.
  - intros v [<-|I]; [pose proof (Rmax_r x y); lra | apply B; exact I].
Qed.
Lemma fold_in : forall f, (forall a b : R, f a b = a \/ f a b = b) -> forall l x, In (fold_left f l x) (x :: l).
Proof.
  intros f F l. induction l as [|y r IH]; intros x; cbn; [left; reflexivity|]. specialize (IH (f x y)). cbn in IH.
  destruct IH as [E|I]; [|right; right; exact I]. destruct (F x y) as [G|G]; rewrite <- E, G; [left | right; left]; reflexivity.
Qed.
Lemma Rmin_either : forall a b, Rmin a b = a \/ Rmin a b = b.
Proof. intros a b. unfold Rmin. destruct (Rle_dec a b); auto. Qed.
Lemma Rmax_either : forall a b, Rmax a b = a \/ Rmax a b = b.
Proof. intros a b. unfold Rmax. destruct (Rle_dec a b); auto. Qed.
Lemma reported_covers : forall p obs mn mx, reported p obs = Ok (mn, mx) -> (forall v, In v obs -> within p v) -> forall v, In v obs -> mn <= v <= mx.
Proof.
  intros [pm px] obs mn mx H W v I. unfold reported in H. cbn in H. destruct obs as [|x r]; [destruct I|]. cbn in H.
  assert (mn <= v /\ v <= mx) as K; [|exact K].
  destruct (W v I) as [A B]. cbn in A, B.
  pose proof (fold_min r x) as [C D]. pose proof (fold_max r x) as [E F].
  destruct pm as [m|], px as [m'|]; cbn in H; injection H as <- <-; split; try assumption;
  destruct I as [<-|I]; auto.
Qed.
