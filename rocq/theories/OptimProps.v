(* OptimProps.v -- C43: the trained parameters are partitioned over the optimizers. *)
From Coq Require Import Permutation.
From Verif Require Import OptimModel.

(* the optimizer configured for a group: its own, or the one for the rest *)
Definition either (own rest : option nat) : option nat := match own with Some o => Some o | None => rest end.
(* the parameters to be trained *)
Definition to_train (c : gptq_cfg) (weights bias qparams : list nat) : list nat :=
  weights ++ (if train_bias c then bias else []) ++ (if learn_qparams c then qparams else []).
Definition trained_by (ps : list (nat * list nat)) (o p : nat) : Prop := exists l, In (o, l) ps /\ In p l.

Ltac gcases c := unfold get_optimizer_with_param, to_train; destruct c as [m r b q tb lq]; cbn [o_main o_rest o_bias o_qparam train_bias learn_qparams];
  destruct tb, lq; cbn [orb bind]; try destruct b as [b|]; try destruct q as [q|]; try destruct r as [r|]; cbn [bind app length Nat.ltb Nat.leb].
(* every parameter exactly once, none besides *)
Theorem optimizers_partition : forall c weights bias qparams ps, get_optimizer_with_param c weights bias qparams = Ok ps -> Permutation (flat_map snd ps) (to_train c weights bias qparams).
Proof.
  intros c w bs qs ps. gcases c; intro H; try discriminate H;
    try (destruct (length _) eqn:E in H; cbn [Nat.leb Nat.ltb] in H; [apply length_zero_iff_nil in E|clear E]);
    try (injection H as <-); cbn [flat_map snd app]; rewrite ?app_nil_r, ?E, ?app_nil_r; try reflexivity.
  all: try (apply app_eq_nil in E; destruct E as [-> ->]; cbn; rewrite ?app_nil_r; reflexivity).
  all: try (apply Permutation_app_head; apply Permutation_app_comm).
Qed.
Print Assumptions optimizers_partition.

(* ... and with the optimizer of its group *)
Theorem optimizers_assigned : forall c weights bias qparams ps o p, get_optimizer_with_param c weights bias qparams = Ok ps ->
  (trained_by ps o p <-> (o = o_main c /\ In p weights) \/ (train_bias c = true /\ either (o_bias c) (o_rest c) = Some o /\ In p bias) \/
     (learn_qparams c = true /\ either (o_qparam c) (o_rest c) = Some o /\ In p qparams)).
Proof.
  intros c w bs qs ps o p. assert (T : forall a l r, trained_by ((a, l) :: r) o p <-> (a = o /\ In p l) \/ trained_by r o p).
  { intros a l r. unfold trained_by. cbn. split; [intros (x & [Q|I] & P); [injection Q as -> ->; left; auto|right; eauto]|intros [[-> P]|(x & I & P)]; eauto]. }
  assert (T0 : trained_by [] o p <-> False) by (unfold trained_by; cbn; split; [intros (x & [] & _)|tauto]).
  assert (S : forall a b : nat, Some a = Some b <-> a = b) by (intros; split; congruence). assert (S0 : forall b : nat, None = Some b <-> False) by (intros; split; [discriminate|tauto]). assert (TF : true = true <-> True) by tauto. assert (FT : false = true <-> False) by (split; [discriminate|tauto]).
  gcases c; intro H; try discriminate H;
    try (destruct (length _) eqn:E in H; cbn [Nat.leb Nat.ltb] in H; [apply length_zero_iff_nil in E|clear E]);
    try (injection H as <-); unfold either; rewrite ?T, ?T0, ?S, ?S0, ?TF, ?FT; try (apply app_eq_nil in E; destruct E as [-> ->]); rewrite ?E, ?in_app_iff; cbn [In];
    (split; intro H; repeat (destruct H as [H|H]); try tauto; try (destruct H as [H1 H2]; subst; tauto); try (destruct H as (H1 & H2 & H3); subst; tauto)); try (destruct H as [H1 [H2|H2]]; subst; tauto).
Qed.
Print Assumptions optimizers_assigned.
(* when the optimizers suffice *)
Theorem optimizers_accepted : forall c weights bias qparams, (exists ps, get_optimizer_with_param c weights bias qparams = Ok ps) <->
  (train_bias c = true -> either (o_bias c) (o_rest c) <> None) /\ (learn_qparams c = true -> o_rest c <> None).
Proof.
  intros c w bs qs. unfold either. gcases c; try (destruct (length _)); cbn [Nat.leb Nat.ltb]; split; intro H; try (destruct H; discriminate); try (eexists; reflexivity); try (split; congruence); try (destruct H as [H1 H2]; exfalso; (apply H1; reflexivity) || (apply H2; reflexivity)).
Qed.
Print Assumptions optimizers_accepted.
(* an optimizer for the quantization parameters does not make optimizer_rest unnecessary, though nothing is left for it *)
Theorem override_needs_rest_refuted : exists c, o_qparam c <> None /\ train_bias c = false /\ forall w b q, get_optimizer_with_param c w b q = Err E_critical.
Proof. exists (GptqCfg 0 None None (Some 1%nat) false true). split; [discriminate|]. split; reflexivity. Qed.
Print Assumptions override_needs_rest_refuted.

(* ---- the variables of the layers ---- *)
Theorem layer_variables_trained : forall layers c w b q ps, trainable layers (train_bias c) = (w, b, q) -> get_optimizer_with_param c w b q = Ok ps ->
  forall p, In p (flat_map snd ps) <-> exists l, In l layers /\ (In p (g_weights l) \/ (train_bias c = true /\ g_bias l = Some p) \/ (learn_qparams c = true /\ In p (g_qparams l))).
Proof.
  intros layers c w b q ps T G p. pose proof (optimizers_partition c w b q ps G) as P. assert (I : In p (flat_map snd ps) <-> In p (to_train c w b q)) by (split; apply Permutation_in; [exact P|apply Permutation_sym, P]). rewrite I. clear I P.
  unfold trainable in T. injection T as <- <- <-. unfold to_train. rewrite !in_app_iff. split.
  - intros [H|[H|H]].
    + apply in_flat_map in H. destruct H as (l & L & H). eauto.
    + destruct (train_bias c); [|destruct H]. apply in_flat_map in H. destruct H as (l & L & H). exists l. split; [exact L|]. right; left. destruct (g_bias l); [|destruct H]. destruct H as [->|[]]. auto.
    + destruct (learn_qparams c); [|destruct H]. apply in_flat_map in H. destruct H as (l & L & H). eauto 6.
  - intros (l & L & [H|[[B H]|[B H]]]); [left|right; left|right; right]; rewrite ?B; apply in_flat_map; exists l; split; try exact L; try exact H. rewrite H. left. reflexivity.
Qed.
Print Assumptions layer_variables_trained.

(* ---- PyTorch: the parameter groups, if the optimizers are different objects ---- *)
Lemma attach_other ps groups o : (forall l, ~ In (o, l) ps) -> attach groups ps o = groups o.
Proof.
  revert groups. induction ps as [|[a l] ps IH]; intros groups H; [reflexivity|]. unfold attach. cbn [fold_left]. fold (attach (set_groups groups (a, l)) ps). rewrite IH by (intros x I; apply (H x); right; exact I). unfold set_groups. cbn. destruct (Nat.eqb_spec o a) as [->|]; [|reflexivity]. exfalso. apply (H l). left. reflexivity.
Qed.
Theorem torch_groups : forall ps groups, NoDup (map fst ps) -> (forall o l, In (o, l) ps -> attach groups ps o = [l]) /\ forall o, (forall l, ~ In (o, l) ps) -> attach groups ps o = groups o.
Proof.
  intros ps groups N. split; [|apply attach_other]. revert groups. induction ps as [|[a l] ps IH]; intros groups o l0 M; [destruct M|]. destruct M as [E|I]; inversion N as [|? ? NI N']; subst.
  - injection E as -> ->. unfold attach. cbn [fold_left]. fold (attach (set_groups groups (o, l0)) ps). rewrite attach_other; [unfold set_groups; cbn; rewrite Nat.eqb_refl; reflexivity|]. intros x X. apply NI. apply (in_map fst) in X. exact X.
  - unfold attach. cbn [fold_left]. apply (IH N' _ o l0 I).
Qed.
Print Assumptions torch_groups.
(* one object for the weights and for the rest: the weights are no longer trained *)
Theorem shared_optimizer_refuted : exists c ps, get_optimizer_with_param c [1%nat] [2%nat] [] = Ok ps /\ In 1%nat (flat_map snd ps) /\ attach (fun _ => []) ps 0 = [[2%nat]].
Proof. exists (GptqCfg 0 (Some 0%nat) None None true false). eexists. split; [reflexivity|]. split; [cbn; auto|reflexivity]. Qed.
Print Assumptions shared_optimizer_refuted.

(* ---- Keras: every optimizer gets the gradients of its own parameters, in their order ---- *)
Lemma cut_spec {G} (f : nat -> G) ps pre : cut (pre ++ map f (flat_map snd ps)) (length pre) ps = map (fun p => map f (snd p)) ps.
Proof.
  revert pre. induction ps as [|[o p] ps IH]; intro pre; [reflexivity|]. cbn [cut flat_map snd map]. rewrite map_app. f_equal.
  - rewrite skipn_app, skipn_all, Nat.sub_diag. cbn [app skipn]. rewrite <- (map_length f p), firstn_app, firstn_all, Nat.sub_diag. cbn [firstn]. apply app_nil_r.
  - rewrite app_assoc. replace (length pre + length p)%nat with (length (pre ++ map f p)) by (rewrite app_length, map_length; reflexivity). apply IH.
Qed.
Theorem keras_gradients_of_parameters : forall G (gradient : nat -> G) ps, keras_gradients gradient ps = map (fun p => map gradient (snd p)) ps.
Proof. intros G f ps. apply (cut_spec f ps []). Qed.
Print Assumptions keras_gradients_of_parameters.

(* ---- instances ---- *)
Example optim_ex : get_optimizer_with_param (GptqCfg 0 (Some 1) (Some 2) None true true)%nat [10; 11]%nat [20]%nat [30; 31]%nat = Ok [(0, [10; 11]); (2, [20]); (1, [30; 31])]%nat.
Proof. reflexivity. Qed.
Example layers_ex : trainable [GLayer [1] [2] (Some 3); GLayer [4] [] None]%nat true = ([1; 4], [3], [2])%nat.
Proof. reflexivity. Qed.
