(* Int8Props.v -- C94: the pointwise convolution computes what the dense layer computes. *)
From Coq Require Import List Arith Lia Reals Lra.
From Verif Require Import Nd.
From Verif Require Import Base KMhaProofs Int8Model Int8Spec.
Import ListNotations.
Open Scope R_scope.
Open Scope res_scope.

Lemma prod_app s t : prod (s ++ t) = (prod s * prod t)%nat.
Proof. induction s as [|d s IH]; cbn; [lia|]. rewrite IH. lia. Qed.
Lemma inb_app s t i j : inb s i -> inb t j -> inb (s ++ t) (i ++ j).
Proof. unfold inb. apply Forall2_app. Qed.
Lemma inb_split s n i : inb (s ++ [n]) i -> exists j u, i = j ++ [u] /\ inb s j /\ (u < n)%nat.
Proof.
  unfold inb. intro H. apply Forall2_app_inv_l in H. destruct H as (j & l & Hj & Hl & ->). inversion Hl as [|? u ? r Hu Hr]. subst. inversion Hr. subst. exists j, u. repeat split; assumption.
Qed.
Lemma known_ok dims l : known l = Ok dims <-> l = map Some dims.
Proof.
  revert dims. induction l as [|[n|] l IH]; intro dims; cbn [known].
  - split; [intro E; injection E as <-; reflexivity|]. destruct dims; [reflexivity|discriminate].
  - destruct (known l) as [r|] eqn:E; cbn [bind].
    + split; [intro H; injection H as <-; cbn; f_equal; apply IH; reflexivity|]. intro H. destruct dims as [|m dims]; [discriminate|]. injection H as -> H. f_equal. f_equal. apply IH in H. congruence.
    + split; [discriminate|]. intro H. destruct dims as [|m dims]; [discriminate|]. injection H as -> H. apply IH in H. discriminate.
  - split; [discriminate|]. destruct dims; discriminate.
Qed.

(* For every dense layer with thresholds, every input and every local activation function, the replacement has the same output as the
   dense layer with its quantized kernel, if the dimensions of the input are known. *)
Theorem pointwise_is_dense : forall quant act c n d dims B x, local act -> regular c n d -> d_dims d = map Some dims -> shp x = B :: dims ++ [c] ->
  exists p y y', to_pointwise d = Ok p /\ pointwise_layer quant act p x = Ok y /\ dense_layer quant act d x = Ok y' /\ same y y' /\ shp y = B :: dims ++ [n].
Proof.
  intros quant act c n d dims B x La (Sk & Un & q & t & Eq & Et & Ax) Dm Sx.
  set (p := mk_pw [1%nat; prod dims; c] (reshape_to (d_kernel d) [1%nat; 1%nat; c; n]) (d_bias d) (mk_wq (q_per_channel q) 3 4 (Thresholds t)) (dims ++ [n])).
  assert (Ep : to_pointwise d = Ok p) by (unfold to_pointwise; rewrite Sk, Eq, Et, (proj2 (known_ok dims (d_dims d)) Dm), Un; reflexivity).
  exists p. unfold pointwise_layer. change (p_in p) with [1%nat; prod dims; c]. change (p_kernel p) with (reshape_to (d_kernel d) [1%nat; 1%nat; c; n]). change (p_bias p) with (d_bias d). change (p_quant p) with (mk_wq (q_per_channel q) 3 4 (Thresholds t)). change (p_out p) with (dims ++ [n]). unfold reshape_layer at 1. rewrite Sx.
  assert (E1 : Nat.eqb (prod [1%nat; prod dims; c]) (prod (dims ++ [c])) = true) by (apply Nat.eqb_eq; rewrite prod_app; cbn; lia). rewrite E1. cbn [bind].
  set (z := reshape_to x [B; 1%nat; prod dims; c]). set (k4 := reshape_to (d_kernel d) [1%nat; 1%nat; c; n]).
  set (chan := fun i : list nat => if q_per_channel q then nth 1 i 0%nat else 0%nat).
  assert (Q4 : exists k, quantize quant (mk_wq (q_per_channel q) 3 4 (Thresholds t)) k4 = Ok k /\ shp k = [1%nat; 1%nat; c; n] /\
     forall j u, at_ k [0%nat; 0%nat; j; u] = quant (Thresholds t) (chan [j; u]) (at_ k4 [0%nat; 0%nat; j; u])).
  { unfold quantize, chan. cbn [q_per_channel q_rank q_axis q_params]. destruct (q_per_channel q); cbn [shp k4 reshape_to length Nat.eqb]; eexists; (split; [reflexivity|]); split; reflexivity. }
  destruct Q4 as (kq & -> & Skq & Ekq). cbn [bind]. unfold conv_call. cbn [shp z reshape_to]. rewrite Skq, Nat.eqb_refl. cbn [bind].
  unfold reshape_layer. cbn [shp]. assert (E2 : Nat.eqb (prod (dims ++ [n])) (prod [1%nat; prod dims; n]) = true) by (apply Nat.eqb_eq; rewrite prod_app; cbn; lia). rewrite E2.
  unfold dense_layer. rewrite Eq.
  assert (Q2 : exists k, quantize quant q (d_kernel d) = Ok k /\ shp k = [c; n] /\ forall j u, at_ k [j; u] = quant (Thresholds t) (chan [j; u]) (at_ (d_kernel d) [j; u])).
  { unfold quantize, chan. rewrite Et, Sk. destruct (q_per_channel q) eqn:Pc.
    - destruct (Ax eq_refl) as [-> ->]. cbn [length Nat.eqb]. eexists. split; [reflexivity|]. split; reflexivity.
    - eexists. split; [reflexivity|]. split; reflexivity. }
  destruct Q2 as (k2 & -> & Sk2 & Ek2). cbn [bind]. unfold dense_call. rewrite Sx, Sk2. cbn [rev]. rewrite rev_app_distr. cbn [rev app]. rewrite Nat.eqb_refl.
  eexists. eexists. split; [exact Ep|]. split; [reflexivity|]. split; [reflexivity|]. rewrite rev_app_distr, rev_involutive. cbn [rev app]. cbn [shp reshape_to]. split; [|reflexivity]. split; [reflexivity|].
  cbn [shp]. intros i I. unfold inb in I. inversion I as [|? b0 ? r Hb Hr E Er]. subst i. apply inb_split in Hr. destruct Hr as (j & u & -> & Ij & Hu).
  pose proof (flat_lt dims j Ij) as Fl. cbn [at_ reshape_to shp]. 
  assert (Fj : flat (dims ++ [n]) (j ++ [u]) = (flat dims j * n + u)%nat) by (rewrite flat_app by (apply inb_length; exact Ij); cbn; lia).
  replace (flat (B :: dims ++ [n]) (b0 :: j ++ [u])) with (flat [B; 1%nat; prod dims; n] [b0; 0%nat; flat dims j; u]) by (cbn [flat]; rewrite Fj, prod_app; cbn; lia).
  rewrite unflat_flat by (repeat constructor; try assumption; lia). rewrite app_comm_cons, removelast_last, last_last. apply La; [exact Hu|]. intros v Hv. f_equal. apply rsum_ext. intros m Hm.
  rewrite Ekq, Ek2. f_equal.
  - cbn [at_ z reshape_to]. rewrite Sx.
    assert (Fm : flat (dims ++ [c]) (j ++ [m]) = (flat dims j * c + m)%nat) by (rewrite flat_app by (apply inb_length; exact Ij); cbn; lia).
    replace (flat [B; 1%nat; prod dims; c] [b0; 0%nat; flat dims j; m]) with (flat (B :: dims ++ [c]) (b0 :: j ++ [m])) by (cbn [flat]; rewrite Fm, prod_app; cbn; lia).
    rewrite unflat_flat; [reflexivity|]. constructor; [exact Hb|]. apply inb_app; [exact Ij|repeat constructor; exact Hm].
  - f_equal. cbn [at_ k4 reshape_to]. rewrite Sk. replace (flat [1%nat; 1%nat; c; n] [0%nat; 0%nat; m; v]) with (flat [c; n] [m; v]) by (cbn; lia).
    rewrite unflat_flat; [reflexivity|]. repeat constructor; assumption.
Qed.
Print Assumptions pointwise_is_dense.

(* The replacement is built exactly for the dense layers whose kernel quantizer has thresholds and whose input has known inner dimensions. *)
Theorem pointwise_iff : forall c n d, shp (d_kernel d) = [c; n] ->
  ((exists p, to_pointwise d = Ok p) <-> (exists q t, d_quant d = Some q /\ q_params q = Thresholds t) /\ exists dims, d_dims d = map Some dims).
Proof.
  intros c n d Sk. unfold to_pointwise. rewrite Sk. destruct (d_quant d) as [q|]; [|split; [intros (p & E); discriminate|intros ((q & t & E & _) & _); discriminate]].
  destruct (q_params q) as [t|lo hi] eqn:Et; [|split; [intros (p & E); discriminate|intros ((q' & t & E & E') & _); congruence]].
  destruct (known (d_dims d)) as [dims|e] eqn:Ek; cbn [bind].
  - split; [intros _|intros _; eexists; reflexivity]. split; [exists q, t; split; [reflexivity|exact Et]|]. exists dims. apply known_ok. exact Ek.
  - split; [intros (p & E); discriminate|]. intros (_ & dims & E). apply known_ok in E. congruence.
Qed.
Print Assumptions pointwise_iff.

(* two inputs, two outputs, rectified linear activation *)
Definition relu (n : nat) (f : nat -> R) (u : nat) : R := Rmax 0 (f u).
Definition dense1 : dense := mk_dense (Nd [2; 2]%nat (fun i => match i with [0%nat; 1%nat] => 3 | _ => 1 end)) None 2 (Some (mk_wq true 1 2 (Thresholds [1; 2]))) [Some 5%nat].
Example dense1_regular : local relu /\ regular 2 2 dense1 /\ d_dims dense1 = map Some [5%nat].
Proof.
  split; [intros n f g u U H; unfold relu; rewrite (H u U); reflexivity|]. split; [|reflexivity]. split; [reflexivity|]. split; [reflexivity|].
  exists (mk_wq true 1 2 (Thresholds [1; 2])), [1; 2]. split; [reflexivity|]. split; [reflexivity|]. intros _. split; reflexivity.
Qed.
(* softmax acts on the channels of one position too *)
Definition softmax (n : nat) (f : nat -> R) (u : nat) : R := exp (f u) / rsum n (fun k => exp (f k)).
Example softmax_local : local softmax.
Proof. intros n f g u U H. unfold softmax. rewrite (H u U). f_equal. apply rsum_ext. intros k K. rewrite (H k K). reflexivity. Qed.

(* FINDING (exporter/model_exporter/keras/int8_tflite_exporter.py L115, L123-124, L142-143): dense layers with a uniform weight quantizer, with a
   kernel that is not quantized, or with an input of unknown inner dimensions are not exported but make the export fail. *)
Theorem dense_exported_refuted : exists d1 d2 d3 : dense, shp (d_kernel d1) = [2; 2]%nat /\ shp (d_kernel d2) = [2; 2]%nat /\ shp (d_kernel d3) = [2; 2]%nat /\
  d_quant d1 = Some (mk_wq true 1 2 (Ranges [0; 0] [1; 1])) /\ d_dims d1 = [] /\ to_pointwise d1 = Err E_key /\
  d_quant d2 = None /\ d_dims d2 = [] /\ to_pointwise d2 = Err E_key /\
  d_quant d3 = d_quant dense1 /\ d_dims d3 = [None] /\ to_pointwise d3 = Err E_type.
Proof.
  exists (mk_dense (d_kernel dense1) None 2 (Some (mk_wq true 1 2 (Ranges [0; 0] [1; 1]))) []), (mk_dense (d_kernel dense1) None 2 None []),
    (mk_dense (d_kernel dense1) None 2 (d_quant dense1) [None]). repeat split.
Qed.
Print Assumptions dense_exported_refuted.
