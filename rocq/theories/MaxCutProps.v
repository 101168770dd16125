(* MaxCutProps.v -- C14, C15: activation-memory scheduling. *)
From Coq Require Import Permutation Lqa.
From Verif Require Import Base RoundQ MaxCutModel MaxCutSpec MaxCutDriver.
Open Scope nat_scope.

(* C14: whatever the solver returns is a complete valid execution order; the cost is its true peak, the largest of the
   returned cuts; every step's set of held tensors is among the cuts and no cut holds anything else. *)
Theorem max_cut_solution_valid g pick est limit sigma cost cuts :
  wf_graph g -> solve g pick est limit = Some (sigma, cost, cuts) ->
  valid_order g sigma /\ cost = peak g sigma /\ cost = fold_right Nat.max 0 (map (mem g) cuts) /\
  (forall past o future, sigma = past ++ o :: future -> exists c, In c cuts /\ Permutation c (live g past o future)) /\
  (forall c, In c cuts -> c = [] \/ exists past o future, sigma = past ++ o :: future /\ incl c (live g past o future)).
Proof. intros W H. apply (solve_sound_opt g W) in H. destruct H as [H _]. exact H. Qed.
Print Assumptions max_cut_solution_valid.

(* C14: the same for the driver, for every bisection history, with or without timeouts. *)
Theorem max_cut_driver_valid g pick tmo n_iter astar_n_iter eps sigma cost cuts :
  wf_graph g -> max_cut g pick tmo n_iter astar_n_iter eps = Ok (Some (sigma, cost, cuts)) ->
  valid_order g sigma /\ cost = peak g sigma /\ cost = fold_right Nat.max 0 (map (mem g) cuts).
Proof.
  intros W H. apply (driver_sound g W) in H; [|exact I]. cbn in H. tauto.
Qed.
Print Assumptions max_cut_driver_valid.

(* C14: an order is always found when the expansion limit exceeds the number of operations by three, whatever the timeouts. *)
Theorem max_cut_driver_returns g pick tmo n_iter astar_n_iter eps :
  wf_graph g -> 1 <= n_iter -> length (g_ops g) + 3 <= astar_n_iter ->
  exists sigma cost cuts, max_cut g pick tmo n_iter astar_n_iter eps = Ok (Some (sigma, cost, cuts)).
Proof. intros W H1 H2. destruct (max_cut_returns g W pick tmo astar_n_iter eps n_iter H1 H2) as ([[s c] k] & E). eauto. Qed.
Print Assumptions max_cut_driver_returns.

(* ... and never below that: with the default limit of 1000 expansions no model of 998 or more operations gets a schedule. *)
Theorem max_cut_large_graph_unsolved g pick tmo n_iter astar_n_iter eps :
  wf_graph g -> astar_n_iter <= length (g_ops g) + 2 -> (forall it, tmo it = false) ->
  max_cut g pick tmo n_iter astar_n_iter eps = Ok None.
Proof. intros W H1 H2. apply max_cut_large; auto. Qed.
Print Assumptions max_cut_large_graph_unsolved.

(* C15: the returned peak is at most the estimate or the peak of any execution order. *)
Theorem max_cut_solution_optimal g pick est limit sigma cost cuts :
  wf_graph g -> solve g pick est limit = Some (sigma, cost, cuts) ->
  forall tau, valid_order g tau -> (natq (peak g sigma) <= est)%Q \/ peak g sigma <= peak g tau.
Proof.
  intros W H tau V. pose proof (solve_sound_opt g W _ _ _ _ H) as [S O]. specialize (O tau V). cbn in S, O.
  destruct S as (_ & -> & _). destruct (RoundQFacts.Qmax_case est (natq (peak g tau))) as [E|E]; rewrite E in O; auto.
  right. apply MaxCutLoop.natq_le. exact O.
Qed.
Print Assumptions max_cut_solution_optimal.

(* C15: the search ends with a solution, for every estimate and every tie-breaking, when the limit is large enough. *)
Theorem max_cut_solver_terminates g pick est limit :
  wf_graph g -> (length (g_ops g) + 5) ^ (length (g_ops g) + 3) < limit -> exists sigma cost cuts, solve g pick est limit = Some (sigma, cost, cuts).
Proof. intros W H. destruct (solve_total_lem g W pick est limit H) as ([[s c] k] & E). eauto. Qed.
Print Assumptions max_cut_solver_terminates.

(* C15: the memory of a single operation is a lower bound for every execution order. *)
Theorem max_cut_single_op_bound g sigma : wf_graph g -> valid_order g sigma -> lbound_single_op g <= peak g sigma.
Proof. intros W. apply lbound_valid; auto. Qed.
Print Assumptions max_cut_single_op_bound.

(* C15: when no inner search runs into its limit or timeout, the driver's peak is within (1 + eps) of any order's peak, or within
   the initial bracket divided by 2^n_iter of it. *)
Theorem max_cut_driver_optimal g pick tmo n_iter astar_n_iter eps :
  wf_graph g -> 1 <= n_iter -> (0 <= eps)%Q -> (forall it, tmo it = false) ->
  (forall it est, exists r, solve g (pick it) est astar_n_iter = Some r) ->
  exists sigma cost cuts, max_cut g pick tmo n_iter astar_n_iter eps = Ok (Some (sigma, cost, cuts)) /\
    forall tau, valid_order g tau ->
      (natq (peak g sigma) <= (1 + eps) * natq (peak g tau) \/
       natq (peak g sigma) - natq (peak g tau) <= natq (2 * total_memory g) / inject_Z (2 ^ Z.of_nat n_iter))%Q.
Proof.
  intros W Hn He Ht Hs.
  assert (L : length (g_ops g) + 3 <= astar_n_iter).
  { destruct (le_lt_dec (length (g_ops g) + 3) astar_n_iter) as [|L]; auto. destruct (Hs 0 0%Q) as (r & E).
    rewrite (solve_limit g W) in E by lia. discriminate. }
  destruct (max_cut_returns g W pick tmo astar_n_iter eps n_iter Hn L) as ([[s c] k] & E). exists s, c, k. split; auto.
  intros tau V. assert (S := E). apply (driver_sound g W) in S; [|exact I]. cbn in S. destruct S as (_ & <- & _).
  unfold max_cut in E. pose proof (lbound_valid g W tau V) as LB. apply MaxCutLoop.natq_le in LB.
  assert (L0 : (0 <= natq (lbound_single_op g))%Q) by (apply (MaxCutLoop.natq_le 0); lia).
  apply (driver_opt g W) with (tau := tau) in E; auto; [|intros ? X; discriminate]. cbn [fst snd] in E.
  destruct E as [E|E]; auto. right. eapply Qle_trans; [|eapply Qle_trans; [exact E|]]; [lra|].
  unfold Qdiv. apply Qmult_le_compat_r; [lra|]. apply Qlt_le_weak, Qinv_lt_0_compat. change 0%Q with (inject_Z 0). rewrite <- Zlt_Qlt. apply Z.pow_pos_nonneg; lia.
Qed.
Print Assumptions max_cut_driver_optimal.

(* every well-formed graph has an execution order, so the statements above are not vacuous *)
Theorem execution_order_exists g : wf_graph g -> exists sigma, valid_order g sigma.
Proof. intros W. apply order_exists; auto. Qed.
Print Assumptions execution_order_exists.

(* A small model: 0 feeds 1 (held to the end, size 5) and 2 (size 10, consumed by 3); 4 joins 1 and 3. *)
Definition ex_graph : mgraph :=
  {| g_ops := [0; 1; 2; 3; 4]; g_nout := fun _ => 1; g_size := fun n _ => nth n [0; 5; 10; 0; 0] 0;
     g_edges := [(0, 0, 1); (0, 0, 2); (2, 0, 3); (1, 0, 4); (3, 0, 4)] |}.
Lemma ex_graph_wf : wf_graph ex_graph.
Proof.
  split; [discriminate|]. split; [repeat constructor; cbn; intuition discriminate|]. split; [intros; cbn; lia|]. split.
  - intros s i d H. cbn in H. intuition; match goal with E : _ = (s, i, d) |- _ => inversion E; subst; cbn; auto 8 end.
  - exists (fun n => n). intros s i d H. cbn in H. intuition; match goal with E : _ = (s, i, d) |- _ => inversion E; subst; cbn; lia end.
Qed.
Example ex_solve : exists cuts, solve ex_graph (fun _ => 0) 12 20 = Some ([0; 2; 3; 1; 4], 10, cuts).
Proof. eexists. vm_compute. reflexivity. Qed.
Example ex_peaks : peak ex_graph [0; 2; 3; 1; 4] = 10 /\ peak ex_graph [0; 1; 2; 3; 4] = 15.
Proof. split; reflexivity. Qed.

(* C15 finding: an inner search that runs into its expansion limit is taken as proof that no order fits the estimate; the driver
   then returns an order that is not the best one, although the limit exceeds the number of operations by three. *)
Theorem max_cut_driver_limit_refuted :
  exists g pick sigma cost cuts tau, wf_graph g /\ max_cut g pick (fun _ => false) 3 (length (g_ops g) + 3) (1 # 100) = Ok (Some (sigma, cost, cuts)) /\
    valid_order g tau /\ ~ (natq cost <= (1 + (1 # 100)) * natq (peak g tau))%Q /\ 3 * peak g tau <= 2 * cost.
Proof.
  exists ex_graph, (fun _ _ => 0). eexists _, _, _, [0; 2; 3; 1; 4]. split; [apply ex_graph_wf|]. split; [vm_compute; reflexivity|]. split.
  - split; [apply NoDup_Permutation; [repeat constructor; cbn; intuition discriminate|repeat constructor; cbn; intuition discriminate|cbn; intuition]|].
    intros s i d H. cbn in H. intuition; match goal with E : _ = (s, i, d) |- _ => inversion E; subst end.
    + exists [], [2; 3], [4]; reflexivity.
    + exists [], [], [3; 1; 4]; reflexivity.
    + exists [0], [], [1; 4]; reflexivity.
    + exists [0; 2; 3], [], []; reflexivity.
    + exists [0; 2], [1], []; reflexivity.
  - split; [unfold Qle; cbn; lia|cbn; lia].
Qed.
Print Assumptions max_cut_driver_limit_refuted.
