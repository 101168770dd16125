(* FuncSubExProps.v -- C73: calls to which the theorems apply, and calls which are replaced wrongly. *)
From Coq Require Import String Lia.
From Verif Require Import Base GraphModel FxModel FxSpec FxExProps FuncSubModel FuncSubSpec FuncSubProofs FuncSubAttProofs FuncSubProps.
From Coq Require Import Reals Lra.
Local Open Scope string_scope.

(* plain values: 0 None, 1 True, 2 False, 3 the number 1/2, 4 the number 3, 5 the number 0, others the number 1 *)
Definition vals (c : nat) : pv :=
  match c with 0 => PNone | 1 => PBool true | 2 => PBool false | 3 => PNum (1 / 2)%R | 4 => PNum 3 | 5 => PNum 0 | _ => PNum 1 end%nat.
Definition five := [5; 6; 7; 8]%nat.

Definition bn_ok := Fx 9 FFunction 1 (map ANode [0; 5; 6]%nat) [("bias", AConst 0); ("eps", AConst 4); ("weight", ANode 7)].
Example bn_ok_call : batch_norm_call five bn_ok 0 5 6 [].
Proof.
  constructor; try reflexivity.
  - cbn. lia.
  - cbn. intuition discriminate.
  - repeat constructor; cbn; intuition discriminate.
  - cbn. intuition (subst; discriminate).
  - intros a I. cbn in I. destruct I as [<-|[<-|[<-|[]]]]; [right|right|left]; reflexivity.
  - repeat constructor; cbn; intuition discriminate.
  - cbn. intuition.
  - intros k n I. cbn in I. destruct I as [E|[E|[E|[]]]]; inversion E. left. reflexivity.
  - cbn. split; discriminate.
Qed.
Example bn_ok_layer : substitute_batch_norm five 4 bn_ok = Ok (Some {| nl_mean := 5; nl_var := 6; nl_gamma := Some 7%nat; nl_beta := None; nl_eps := Some (AConst 4) |}).
Proof. reflexivity. Qed.
(* the mean (5) or both statistics computed in the model *)
Example bn_computed : substitute_batch_norm [6; 7; 8]%nat 4 bn_ok = Err E_key /\ substitute_batch_norm [7; 8]%nat 4 bn_ok = Err E_critical.
Proof. split; reflexivity. Qed.

Definition ln_ok := Fx 9 FFunction 1 [ANode 0; AConst 4; ANode 5] [("bias", ANode 6)].
Example ln_ok_call : layer_norm_call five ln_ok 0 [AConst 4] [5%nat].
Proof.
  constructor; try reflexivity.
  - split; [reflexivity|left; reflexivity].
  - cbn. lia.
  - cbn. intuition discriminate.
  - repeat constructor; cbn; intuition discriminate.
  - cbn. intuition (subst; discriminate).
  - intros a I. cbn in I. destruct I as [<-|[]]. left; reflexivity.
  - repeat constructor; cbn; intuition discriminate.
  - cbn. intuition.
  - intros k n I. cbn in I. destruct I as [E|[]]; inversion E. right. reflexivity.
  - cbn. split; discriminate.
Qed.
Example ln_ok_layer : substitute_layer_norm five 3 ln_ok = Ok {| ln_size := 3; ln_gamma := Some 5%nat; ln_beta := Some 6%nat; ln_eps := None |}.
Proof. reflexivity. Qed.

(* self attention with a constant mask *)
Definition att_ok := Fx 9 FFunction 1 [X; X; X; C5] [("scale", AConst 4)].
Definition att_prog := [x_in; c_attr; att_ok; ret [ANode 9]].
Example att_ok_good : good att_prog.
Proof. apply good_spec; vm_compute; reflexivity. Qed.
Example att_ok_call : attention_call att_prog att_ok 0 0 0 [C5] [5%nat].
Proof.
  constructor; try reflexivity.
  - cbn. lia.
  - repeat constructor; cbn; intuition discriminate.
  - cbn. intuition (subst; discriminate).
  - split; reflexivity.
  - cbn. intuition.
  - cbn. intuition.
  - split; reflexivity.
Qed.
Example att_ok_nodes : substitute_attention vals (fun _ => true) (const_ids att_prog) (sdpa_prev att_prog att_ok) att_ok =
  Ok {| at_q := 0; at_k := 0; at_v := 0; at_nodes := [(OTranspose, [SK]); (OMatmul, [SQ; SNode 0]); (OScale (Some (AConst 4)), [SNode 1]); (OMask 5, [SNode 2]);
    (OSoftmax, [SNode 3]); (ODropout None, [SNode 4]); (OMatmul, [SNode 5; SV])] |}.
Proof.
  unfold substitute_attention. replace (sdpa_prev att_prog att_ok) with [0; 0; 0]%nat by (vm_compute; reflexivity). cbn.
  destruct (Req_EM_T 3 0) as [E|_]; [lra|]. reflexivity.
Qed.
Definition att_causal := Fx 9 FFunction 1 [X; Y; Y; AConst 0; AConst 5; AConst 1] [].
Definition causal_prog := [x_in; y_in; att_causal; ret [ANode 9]].
Example att_causal_call : good causal_prog /\ attention_call causal_prog att_causal 0 1 1 [AConst 0; AConst 5; AConst 1] [] /\ arg_for sdpa_sig att_causal "is_causal" = Some (AConst 1).
Proof.
  split; [apply good_spec; vm_compute; reflexivity|]. split; [|reflexivity]. constructor; try reflexivity.
  - repeat constructor.
  - cbn. intuition.
  - split; reflexivity.
  - cbn. intuition.
  - cbn. intuition.
  - split; [discriminate|intros E; discriminate E].
Qed.

Local Open Scope R_scope.
(* constant vectors: 5 is zero, 6 is three, others one *)
Definition vecs (c _ : nat) : R := match c with 5%nat => 0 | 6%nat => 3 | _ => 1 end.
Definition one_position : list (nat -> R) := [fun _ => 1].

Lemma sqrt_4 : sqrt (3 + 1) = 2.
Proof. replace (3 + 1) with (2 * 2) by lra. apply sqrt_square. lra. Qed.
Lemma differ (a b : list (nat -> R)) : nth 0 a (fun _ => 0) 0%nat <> nth 0 b (fun _ => 0) 0%nat -> a <> b.
Proof. intros H E. apply H. rewrite E. reflexivity. Qed.

(* FINDING (functional_batch_norm.py L73-104): training=True is not looked at.  F.batch_norm(x, mean, var, w, None,
   training=True) normalizes by the statistics of the batch; it becomes a BatchNorm2d using the running statistics. *)
Theorem training_batch_norm_refuted : exists nd l, arg_for bn_sig nd "training" = Some (AConst 1) /\ vals 1 = PBool true /\
  substitute_batch_norm five 4 nd = Ok (Some l) /\ run_batch_norm vals vecs l one_position <> torch_batch_norm vals vecs nd one_position.
Proof.
  exists (Fx 9 FFunction 1 (map ANode [0; 5; 6; 7]%nat) [("bias", AConst 0); ("training", AConst 1); ("eps", AConst 9)]).
  eexists. split; [reflexivity|]. split; [reflexivity|]. split; [reflexivity|]. apply differ. cbn. rewrite sqrt_4. unfold average. cbn. lra.
Qed.
Print Assumptions training_batch_norm_refuted.

(* FINDING (functional_batch_norm.py L86-91): eps is read from the keyword arguments only; given by position it is lost and
   the layer uses 1e-5.  Here F.batch_norm(x, mean, var, w, b, False, 0.1, 3.0). *)
Theorem positional_eps_refuted : exists nd l, arg_for bn_sig nd "eps" = Some (AConst 4) /\ vals 4 = PNum 3 /\
  substitute_batch_norm five 4 nd = Ok (Some l) /\ run_batch_norm vals vecs l one_position <> torch_batch_norm vals vecs nd one_position.
Proof.
  exists (Fx 9 FFunction 1 (map ANode [0; 5; 8; 7; 6]%nat ++ [AConst 2; AConst 3; AConst 4])%list []).
  eexists. split; [reflexivity|]. split; [reflexivity|]. split; [reflexivity|]. apply differ. cbn. unfold default_eps.
  replace (1 + 3) with (3 + 1) by lra. rewrite sqrt_4. intro H.
  assert (sqrt (1 + 1 / 100000) = 2) as E.
  { set (s := sqrt (1 + 1 / 100000)) in *. assert (0 < s) by (apply sqrt_lt_R0; lra). assert ((1 - 0) / s = 1 / 2) as Q by lra. apply (f_equal (fun t => t * s * 2)) in Q. unfold Rdiv in Q. rewrite Rmult_assoc with (r3 := s), Rinv_l in Q; lra. }
  pose proof (sqrt_sqrt (1 + 1 / 100000) ltac:(lra)) as Q. rewrite E in Q. lra.
Qed.
Print Assumptions positional_eps_refuted.

(* FINDING (functional_batch_norm.py L60-69): F.batch_norm(x, mean, var), with weight and bias left out, raises KeyError;
   only weight=None given by keyword is understood.  Likewise F.layer_norm(x, shape) (functional_layer_norm.py L60-69). *)
Theorem omitted_affine_refuted : exists bn ln, arg_for bn_sig bn "weight" = None /\ arg_for bn_sig bn "bias" = None /\ arg_for ln_sig ln "weight" = None /\
  substitute_batch_norm five 4 bn = Err E_key /\ substitute_layer_norm five 3 ln = Err E_key.
Proof.
  exists (Fx 9 FFunction 1 (map ANode [0; 5; 6]%nat) []), (Fx 9 FFunction 1 [ANode 0; AConst 4] []). repeat split; reflexivity.
Qed.
Print Assumptions omitted_affine_refuted.

(* FINDING (functional_batch_norm.py L56-58): the statistics are taken by the order in which the tensors appear:
   F.batch_norm(x, running_var=v, running_mean=m, weight=w, bias=None) uses the variance as mean and the mean as variance. *)
Theorem keyword_order_statistics_refuted : exists nd l, arg_for bn_sig nd "running_mean" = Some (ANode 5) /\ arg_for bn_sig nd "running_var" = Some (ANode 6) /\
  substitute_batch_norm five 4 nd = Ok (Some l) /\ nl_mean l = 6%nat /\ nl_var l = 5%nat /\ run_batch_norm vals vecs l one_position <> torch_batch_norm vals vecs nd one_position.
Proof.
  exists (Fx 9 FFunction 1 [ANode 0] [("running_var", ANode 6); ("running_mean", ANode 5); ("weight", ANode 7); ("bias", AConst 0); ("eps", AConst 9)]).
  eexists. split; [reflexivity|]. split; [reflexivity|]. split; [reflexivity|]. split; [reflexivity|]. split; [reflexivity|]. apply differ. cbn. rewrite sqrt_4.
  replace (0 + 1) with 1 by lra. rewrite sqrt_1. lra.
Qed.
Print Assumptions keyword_order_statistics_refuted.

(* FINDING (functional_layer_norm.py L85-89): normalized_shape is not read, the layer normalizes over the last dimension.
   F.layer_norm(x, (2, 2), w, None) on x = [[0, 0], [1, 1]] becomes a LayerNorm(2). *)
Theorem layer_norm_many_dimensions_refuted : exists nd l x, dims_of (fun _ => 2%nat) (arg_for ln_sig nd "normalized_shape") = [2; 2]%nat /\
  substitute_layer_norm five 2 nd = Ok l /\ ~ torch_layer_norm vals vecs (fun _ => 2%nat) nd x (run_layer_norm vals vecs l x).
Proof.
  exists (Fx 9 FFunction 1 [ANode 0; AList [AConst 4; AConst 4]; ANode 7] [("bias", AConst 0); ("eps", AConst 4)]). eexists. exists [0; 0; 1; 1]. split; [reflexivity|]. split; [reflexivity|].
  intros [_ H]. specialize (H 0%nat 0%nat ltac:(cbn; lia) ltac:(cbn; lia)). cbn in H. unfold average, meanR, varR, meanR in H. cbn in H.
  set (s := sqrt _) in H at 2. assert (0 < s) as P by (apply sqrt_lt_R0; lra). set (s0 := sqrt _) in H. 
  replace (0 - (0 + (0 + 0)) / (1 + 1)) with 0 in H by lra. unfold Rdiv in H at 1. rewrite Rmult_0_l in H.
  assert (/ s <> 0) as Q by (apply Rinv_neq_0_compat; lra). apply Q. unfold Rdiv in H. lra.
Qed.
Print Assumptions layer_norm_many_dimensions_refuted.

(* FINDING (functional_layer_norm.py L60-69): F.layer_norm(x, shape, bias=b), without weight, takes b as the weight too. *)
Theorem layer_norm_bias_only_refuted : exists nd l x, arg_for ln_sig nd "weight" = None /\ arg_for ln_sig nd "bias" = Some (ANode 5) /\
  substitute_layer_norm five 2 nd = Ok l /\ ln_gamma l = Some 5%nat /\ ~ torch_layer_norm vals vecs (fun _ => 2%nat) nd x (run_layer_norm vals vecs l x).
Proof.
  exists (Fx 9 FFunction 1 [ANode 0; AConst 4] [("bias", ANode 5)]). eexists. exists [0; 2]. split; [reflexivity|]. split; [reflexivity|]. split; [reflexivity|]. split; [reflexivity|].
  intros [_ H]. specialize (H 0%nat 0%nat ltac:(cbn; lia) ltac:(cbn; lia)). cbn in H. unfold average, meanR, varR, meanR in H. cbn in H. rewrite Rmult_0_r in H.
  match type of H with context [sqrt ?t] => set (s := sqrt t) in H; assert (0 < s) as P by (apply sqrt_lt_R0; cbn; unfold Rdiv; lra) end.
  assert (/ s <> 0) as Q by (apply Rinv_neq_0_compat; lra). apply Q. unfold Rdiv in H. lra.
Qed.
Print Assumptions layer_norm_bias_only_refuted.

(* 1 x 1 matrices *)
Definition single (r : R) : mat := {| rows := 1; cols := 1; el := fun _ _ => r |}.
(* attention over one key is the value *)
Lemma one_weight e w : exp e / (exp e + 0) * w = w.
Proof. pose proof (exp_pos e). rewrite Rplus_0_r. unfold Rdiv. rewrite Rinv_r, Rmult_1_l; [reflexivity|lra]. Qed.
Lemma one_key s r k v m i j : el (mmul (msoftmax (mmap s (mmul (single r) (mtranspose (single k))))) (single v)) i j = m -> v = m.
Proof. unfold mmul, msoftmax, mmap, sumN, sumR. cbn. rewrite one_weight, Rplus_0_r. intro H. exact H. Qed.
(* FINDING (scaled_dot_product_attention.py L60-64): query, key and value are the inputs in the order of the incoming edges.  When
   query and key are the same tensor q and q is computed after the value v, attention(q, q, v) is computed as attention(q, v, q). *)
Theorem shared_query_key_refuted : exists prog nd a val y, good prog /\ In nd prog /\ f_args nd = map ANode [1; 1; 0]%nat /\ f_kwargs nd = [] /\
  substitute_attention vals (fun _ => true) (const_ids prog) (sdpa_prev prog nd) nd = Ok a /\ at_k a = 0%nat /\ at_v a = 1%nat /\
  run_attention vals (fun _ _ _ => 0) a val = Ok y /\ ~ torch_attention vals (fun _ _ _ => 0) (fun _ _ => true) nd (val 1%nat) (val 1%nat) (val 0%nat) y.
Proof.
  exists [x_in; y_in; Fx 9 FFunction 1 (map ANode [1; 1; 0]%nat) []; ret [ANode 9]], (Fx 9 FFunction 1 (map ANode [1; 1; 0]%nat) []). eexists.
  exists (fun n => single (match n with O => 7 | _ => 5 end)). eexists. split; [apply good_spec; vm_compute; reflexivity|]. split; [cbn; tauto|]. split; [reflexivity|]. split; [reflexivity|].
  split; [match goal with |- context [sdpa_prev ?p ?n] => replace (sdpa_prev p n) with [1; 0; 1]%nat by (vm_compute; reflexivity) end; cbn; reflexivity|]. split; [reflexivity|]. split; [reflexivity|]. split; [cbn; reflexivity|].
  intros (_ & _ & H). specialize (H 0%nat 0%nat). apply one_key in H. unfold total in H. cbn in H. destruct (Req_EM_T 0 0) as [_|D]; [|lra]. rewrite !one_weight in H. lra.
Qed.
Print Assumptions shared_query_key_refuted.

(* FINDING (scaled_dot_product_attention.py L86-87): scale=0.0 is taken for an absent scale and replaced by 1/sqrt(d). *)
Theorem zero_scale_refuted : exists prog nd a val y, good prog /\ In nd prog /\ keyword "scale" (f_kwargs nd) = Some (AConst 5) /\ vals 5 = PNum 0 /\
  substitute_attention vals (fun _ => true) (const_ids prog) (sdpa_prev prog nd) nd = Ok a /\
  run_attention vals (fun _ _ _ => 0) a val = Ok y /\ ~ torch_attention vals (fun _ _ _ => 0) (fun _ _ => true) nd (val 0%nat) (val 1%nat) (val 1%nat) y.
Proof.
  pose (nd := Fx 9 FFunction 1 (map ANode [0; 1; 1]%nat) [("scale", AConst 5)]).
  exists [x_in; y_in; nd; ret [ANode 9]], nd. eexists. exists (fun n => match n with O => single 1 | _ => {| rows := 2; cols := 1; el := fun i _ => INR i |} end). eexists.
  split; [apply good_spec; vm_compute; reflexivity|]. split; [cbn; tauto|]. split; [reflexivity|]. split; [reflexivity|].
  split; [match goal with |- context [sdpa_prev ?p ?n] => replace (sdpa_prev p n) with [0; 1; 1]%nat by (vm_compute; reflexivity) end; cbn; destruct (Req_EM_T 0 0) as [_|D]; [reflexivity|lra]|]. split; [cbn; reflexivity|].
  intros (_ & _ & H). specialize (H 0%nat 0%nat). unfold total, sumN, sumR in H. cbn in H. destruct (Req_EM_T 0 0) as [_|D]; [|lra].
  rewrite sqrt_1 in H. unfold sumN, sumR in H. cbn in H. unfold sumR in H. cbn in H.
  match type of H with context [exp ((1 * 1 + 0) * (1 / 1))] => idtac end. 
  replace ((1 * 0 + 0) * (1 / 1)) with 0 in H by lra. replace ((1 * 1 + 0) * (1 / 1)) with 1 in H by lra.
  replace ((1 * 0 + 0) * 0 + 0) with 0 in H by lra. replace ((1 * 1 + 0) * 0 + 0) with 0 in H by lra. rewrite exp_0 in H.
  pose proof (exp_ineq1 1 ltac:(lra)) as E. assert (exp 1 / (1 + (exp 1 + 0)) = 1 / 2) as Q by lra. apply (f_equal (fun t => t * (1 + (exp 1 + 0)) * 2)) in Q.
  unfold Rdiv in Q at 1. rewrite Rmult_assoc with (r3 := 1 + (exp 1 + 0)), Rinv_l in Q by lra. lra.
Qed.
Print Assumptions zero_scale_refuted.

(* FINDING (scaled_dot_product_attention.py L176-184): F.scaled_dot_product_attention applies dropout_p whenever it is positive; the
   nn.Dropout put in its place does nothing in evaluation mode. *)
Theorem attention_dropout_refuted : exists prog nd a val y, good prog /\ In nd prog /\ arg_for sdpa_sig nd "dropout_p" = Some (AConst 3) /\ vals 3 = PNum (1 / 2) /\
  substitute_attention vals (fun _ => true) (const_ids prog) (sdpa_prev prog nd) nd = Ok a /\
  run_attention vals (fun _ _ _ => 0) a val = Ok y /\ ~ torch_attention vals (fun _ _ _ => 0) (fun _ _ => false) nd (val 0%nat) (val 1%nat) (val 1%nat) y.
Proof.
  pose (nd := Fx 9 FFunction 1 (map ANode [0; 1; 1]%nat) [("dropout_p", AConst 3)]).
  exists [x_in; y_in; nd; ret [ANode 9]], nd. eexists. exists (fun n => single 1). eexists.
  split; [apply good_spec; vm_compute; reflexivity|]. split; [cbn; tauto|]. split; [reflexivity|]. split; [reflexivity|].
  split; [match goal with |- context [sdpa_prev ?p ?n] => replace (sdpa_prev p n) with [0; 1; 1]%nat by (vm_compute; reflexivity) end; cbn; reflexivity|]. split; [cbn; reflexivity|].
  intros (_ & _ & H). specialize (H 0%nat 0%nat). apply one_key in H. unfold total in H. cbn in H. destruct (Req_EM_T (1 / 2) 0) as [D|_]; [lra|]. lra.
Qed.
Print Assumptions attention_dropout_refuted.

(* FINDING (scaled_dot_product_attention.py L226-229): a mask that is computed in the model stays connected to the call, and
   removing the call fails with AssertionError. *)
Theorem computed_mask_refuted : exists prog nd, good prog /\ In nd prog /\ f_args nd = map ANode [0; 1; 1; 2]%nat /\
  substitute_attention vals (fun _ => true) (const_ids prog) (sdpa_prev prog nd) nd = Err E_assert.
Proof.
  exists [x_in; y_in; Fx 2 FFunction 4 [X] []; Fx 9 FFunction 1 (map ANode [0; 1; 1; 2]%nat) []; ret [ANode 9]], (Fx 9 FFunction 1 (map ANode [0; 1; 1; 2]%nat) []).
  split; [apply good_spec; vm_compute; reflexivity|]. split; [cbn; tauto|]. split; [reflexivity|]. match goal with |- context [sdpa_prev ?p ?n] => let e := eval vm_compute in (sdpa_prev p n) in replace (sdpa_prev p n) with e by (vm_compute; reflexivity) end. reflexivity.
Qed.
Print Assumptions computed_mask_refuted.
