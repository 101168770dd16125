(* MPSearchedProps.v -- C16: the layers whose bit widths are searched. *)
From Verif Require Import Base HessianModel HessianProofs MPModel MPSearchModel.
Local Open Scope nat_scope.
Local Open Scope res_scope.

(* the kernel of a layer that is not a reuse is quantized by all candidates, and not by all in the same way *)
Definition kernel_choice (n : node) : Prop :=
  n_reuse n = false /\ exists k, n_kernel n = Some k /\
    (forall c, In c (n_cands n) -> exists w, dict_get k (c_w c) = Some w /\ w_enable w = true) /\
    exists c d w v, In c (n_cands n) /\ In d (n_cands n) /\ dict_get k (c_w c) = Some w /\ dict_get k (c_w d) = Some v /\ w <> v.
(* the output of a layer is quantized by all candidates, and not by all in the same way *)
Definition output_choice (n : node) : Prop :=
  (forall c, In c (n_cands n) -> a_mode (c_act c) = A_QUANT) /\ exists c d, In c (n_cands n) /\ In d (n_cands n) /\ c_act c <> c_act d.

Lemma wcfg_eqb_eq x y : wcfg_eqb x y = true <-> x = y.
Proof.
  unfold wcfg_eqb. destruct x as [e b t], y as [e' b' t']. cbn. rewrite !andb_true_iff, Bool.eqb_true_iff, Z.eqb_eq, Nat.eqb_eq.
  split; [intros [[-> ->] ->]; reflexivity|]. intro H. inversion H. auto.
Qed.
Lemma amode_eqb_eq x y : amode_eqb x y = true <-> x = y.
Proof. destruct x, y; cbn; split; intro H; try reflexivity; discriminate H. Qed.
Lemma acfg_eqb_eq x y : acfg_eqb x y = true <-> x = y.
Proof.
  unfold acfg_eqb. destruct x as [e b t], y as [e' b' t']. cbn. rewrite !andb_true_iff, amode_eqb_eq, Z.eqb_eq, Nat.eqb_eq.
  split; [intros [[-> ->] ->]; reflexivity|]. intro H. inversion H. auto.
Qed.
Lemma not_all_same {A} (eqb : A -> A -> bool) (E : forall x y, eqb x y = true <-> x = y) c r :
  forallb (fun d => eqb d c) r = false -> exists d, In d r /\ d <> c.
Proof.
  induction r as [|d r IH]; cbn; [discriminate|]. intro H. apply andb_false_iff in H. destruct H as [H|H].
  - exists d. split; [left; reflexivity|]. intro Q. apply E in Q. congruence.
  - destruct (IH H) as [x [J N]]. exists x. auto.
Qed.

Lemma kernel_cfgs k (cs : list cand) : forall ws, mapM (fun c => attr_config (c_w c) k) cs = Ok ws ->
  (forall w, In w ws <-> exists c, In c cs /\ dict_get k (c_w c) = Some w) /\ forall c, In c cs -> exists w, dict_get k (c_w c) = Some w /\ In w ws.
Proof.
  induction cs as [|c cs IH]; intros ws H; cbn [mapM] in H.
  - inversion H. split; [|intros ? []]. intro w. split; [intros []|]. intros [c [[] _]].
  - unfold attr_config in H at 1. destruct (dict_get k (c_w c)) as [w0|] eqn:D; cbn [bind] in H; [|discriminate].
    destruct (mapM _ cs) as [r|]; cbn [bind] in H; [|discriminate]. inversion H; subst ws. destruct (IH r eq_refl) as [A B]. split.
    + intro w. cbn [In]. rewrite A. split.
      * intros [<-|[d [J Q]]]; [exists c; auto|exists d; auto].
      * intros [d [[<-|J] Q]]; [left; congruence|right; exists d; auto].
    + intros d [<-|J]; [exists w0; split; [exact D|left; reflexivity]|]. destruct (B d J) as [w [Q R]]. exists w. split; [exact Q|right; exact R].
Qed.
Lemma weight_choice n k b : configurable_weight n k = Ok b ->
  (b = true <-> (forall c, In c (n_cands n) -> exists w, dict_get k (c_w c) = Some w /\ w_enable w = true) /\
    exists c d w v, In c (n_cands n) /\ In d (n_cands n) /\ dict_get k (c_w c) = Some w /\ dict_get k (c_w d) = Some v /\ w <> v).
Proof.
  unfold configurable_weight, weights_enabled, all_weights_equal, attr_cands.
  destruct (mapM _ (n_cands n)) as [ws|] eqn:M; cbn [bind]; [|discriminate]. destruct (kernel_cfgs k _ _ M) as [A B].
  destruct (forallb w_enable ws) eqn:E; cbn [bind]; intro H; inversion H; subst b; clear H.
  - rewrite forallb_forall in E. split.
    + intro Q. split; [intros c J; destruct (B c J) as [w [D I]]; exists w; auto|]. destruct ws as [|w0 r]; [discriminate|].
      apply negb_true_iff in Q. destruct (not_all_same wcfg_eqb wcfg_eqb_eq w0 r Q) as [w [J N]].
      destruct (proj1 (A w0) (or_introl eq_refl)) as [c [Jc Dc]]. destruct (proj1 (A w) (or_intror J)) as [d [Jd Dd]]. exists d, c, w, w0. auto 6.
    + intros [_ (c & d & w & v & Jc & Jd & Dc & Dd & N)]. apply negb_true_iff, not_true_iff_false. intro Q. apply N.
      assert (Jw : In w ws) by (apply A; exists c; auto). assert (Jv : In v ws) by (apply A; exists d; auto).
      destruct ws as [|w0 r]; [destruct Jw|]. rewrite forallb_forall in Q.
      assert (X : forall u, In u (w0 :: r) -> u = w0) by (intros u [<-|J]; [reflexivity|apply wcfg_eqb_eq, Q, J]). rewrite (X w Jw), (X v Jv). reflexivity.
  - split; [discriminate|]. intros [Q _]. exfalso. apply not_true_iff_false in E. apply E, forallb_forall. intros w J.
    apply A in J. destruct J as [c [J D]]. destruct (Q c J) as [w' [D' W]]. congruence.
Qed.
Lemma act_choice n b : configurable_act n = Ok b -> (b = true <-> output_choice n).
Proof.
  unfold configurable_act, act_enabled, single_mode, all_acts_equal, output_choice. destruct (n_cands n) as [|c cs] eqn:NC; [intro H; discriminate H|].
  destruct (forallb (fun d => amode_eqb (a_mode (c_act d)) (a_mode (c_act c))) cs) eqn:F; cbn [bind]; intro H; [|discriminate H]. inversion H; subst b; clear H. rewrite forallb_forall in F. rewrite andb_true_iff, amode_eqb_eq. split.
  - intros [M Q]. split.
    + intros d [<-|J]; [exact M|]. specialize (F d J). apply amode_eqb_eq in F. congruence.
    + apply negb_true_iff in Q.
      assert (X : exists d, In d (c :: cs) /\ c_act d <> c_act c).
      { clear - Q. change (forallb (fun d => acfg_eqb (c_act d) (c_act c)) (c :: cs) = false) in Q. revert Q. generalize (c :: cs) as l. induction l as [|d l IH]; cbn [forallb In]; intro H; [discriminate H|]. apply andb_false_iff in H. destruct H as [H|H].
        - exists d. split; [left; reflexivity|]. intro E. apply acfg_eqb_eq in E. congruence.
        - destruct (IH H) as [x [J N]]. exists x. auto. }
      destruct X as [d [J N]]. exists d, c. split; [exact J|]. split; [left; reflexivity|exact N].
  - intros [M (d & e & Jd & Je & N)]. split; [apply M; left; reflexivity|]. apply negb_true_iff, not_true_iff_false. intro Q.
    change (forallb (fun d => acfg_eqb (c_act d) (c_act c)) (c :: cs) = true) in Q. rewrite forallb_forall in Q.
    apply N. transitivity (c_act c); [|symmetry]; apply acfg_eqb_eq, Q; assumption.
Qed.
Lemma searched_one n b : is_configurable n = Ok b -> (b = true <-> kernel_choice n \/ output_choice n).
Proof.
  unfold is_configurable. intro H. assert (X : exists w a, configurable_act n = Ok a /\ b = w || a /\ (w = true <-> kernel_choice n)).
  { unfold kernel_choice. destruct (n_kernel n) as [k|].
    - destruct (configurable_weight n k) as [c|] eqn:C; cbn [bind] in H; [|discriminate]. destruct (configurable_act n) as [a|]; cbn [bind] in H; [|discriminate].
      inversion H; subst b. exists (c && negb (n_reuse n)), a. split; [reflexivity|]. split; [reflexivity|].
      rewrite andb_true_iff, negb_true_iff, (weight_choice n k c C). split.
      + intros [A B]. split; [exact B|]. exists k. split; [reflexivity|exact A].
      + intros [B (k' & E & A)]. inversion E; subst k'. split; [exact A|exact B].
    - cbn [bind] in H. destruct (configurable_act n) as [a|]; cbn [bind] in H; [|discriminate]. inversion H; subst b. exists false, a.
      split; [reflexivity|]. split; [reflexivity|]. split; [discriminate|]. intros [_ (k & E & _)]. discriminate. }
  destruct X as (w & a & A & -> & K). rewrite orb_true_iff, K, (act_choice n a A). reflexivity.
Qed.

(* The search is over the layers with a choice for their kernel, reuses excepted, or for their output. *)
Theorem searched_layers g ns : configurable_nodes g = Ok ns ->
  forall n, In n ns <-> In n (g_nodes g) /\ (kernel_choice n \/ output_choice n).
Proof.
  unfold configurable_nodes. generalize (g_nodes g). intro l. revert ns. induction l as [|m l IH]; intros ns H n; cbn [filterM] in H.
  - inversion H. cbn. tauto.
  - destruct (is_configurable m) as [b|] eqn:E; cbn [bind] in H; [|discriminate]. destruct (filterM _ l) as [r|]; cbn [bind] in H; [|discriminate].
    specialize (IH r eq_refl n). pose proof (searched_one m b E) as S. inversion H; subst ns. destruct b; cbn [In]; rewrite IH.
    + split; [intros [<-|[J C]]; [split; [left; reflexivity|apply S; reflexivity]|tauto]|]. intros [[<-|J] C]; tauto.
    + split; [tauto|]. intros [[<-|J] C]; [apply S in C; discriminate|tauto].
Qed.
Print Assumptions searched_layers.

(* a reused kernel is not searched; the same layer not reused is *)
Definition q_cand (b : Z) : cand := mkC (mkA A_QUANT 8 0) [(0, mkW true b 0)].
Definition q_node (reuse : bool) : node := mkN 0 [q_cand 8; q_cand 4] [(0, 9%Z)] 1%Z reuse (Some 0) 9%Z.
Example searched_ex : configurable_nodes (mkG [q_node true; q_node false] (fun _ => []) [] []) = Ok [q_node false].
Proof. reflexivity. Qed.
