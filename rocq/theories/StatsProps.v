(* StatsProps.v -- C72: who collects activation statistics, from which tensors, with which weights. *)
From Coq Require Import Arith Permutation Lia.
From Verif Require Import Base RoundQ QuantModel SearchModel CollectModel CollectSpec CollectProofs StatsModel StatsSpec StatsProofs StatsHistProofs.
Local Open Scope nat_scope.

(* C72.  After construction a node collects statistics exactly when its own activation is quantized (directly or as the
   quantized member of a fused pattern), or when bias correction is on and it feeds a node with a quantized kernel; in
   the first case its collectors carry the node's prior output range, in the second no range. *)
Theorem statistics_collected_for : forall g bc n, graph_ok g -> In n (order g) -> 1 <= n_outputs (info g n) ->
  (collecting (assign_collectors g bc) n = true <-> needs_stats g bc n) /\
  exists c, assign_collectors g bc n = Some (if Nat.eqb (n_outputs (info g n)) 1 then One c else Many (repeat c (n_outputs (info g n)))) /\
    (own_stats g n -> c = Stats (fst (prior_range (info g n))) (snd (prior_range (info g n)))) /\
    (~ own_stats g n -> needs_stats g bc n -> c = Stats None None) /\
    (~ needs_stats g bc n -> c = NoStats).
Proof.
  intros g bc n Hok Hn Hk. split; [apply collecting_spec; assumption|]. exists (col g bc (topo g) n). split; [apply assign_eq; assumption|].
  unfold needs_stats. rewrite <- own_spec, <- (fed_spec g bc Hok). unfold col. destruct (own g n); [intuition congruence|].
  destruct (fed g bc (topo g) n); intuition congruence.
Qed.
Print Assumptions statistics_collected_for.

(* C72.  Whenever a batch is processed without an error, each output of each node that needs statistics is updated exactly
   once, with that node's own tensor, and no other node is updated. *)
Theorem own_tensor_collected : forall T W (hess : list (value T) -> value T -> W) absw g bc hmse (env : nat -> value T) us,
  graph_ok g -> (forall n, In n (order g) -> 1 <= n_outputs (info g n)) -> value_ok g env ->
  infer hess absw g bc hmse env = Ok us ->
  forall n k, In n (order g) ->
    (needs_stats g bc n -> map fst (updates_of us n k) = match tensor_of (env n) k with Some t => [t] | None => [] end) /\
    (~ needs_stats g bc n -> updates_of us n k = []).
Proof. intros T W hess absw g bc hmse env us Hok Hp Hv E n k Hn. exact (infer_own hess absw g bc Hok Hp env Hv hmse us E n Hn k). Qed.
Print Assumptions own_tensor_collected.

(* C72.  Without Hessian weighting no batch fails and no update is weighted. *)
Theorem collection_without_weights : forall T W (hess : list (value T) -> value T -> W) absw g bc (env : nat -> value T),
  graph_ok g -> value_ok g env ->
  exists us, infer hess absw g bc false env = Ok us /\ forall n k t w, In (t, w) (updates_of us n k) -> w = None.
Proof.
  intros T W hess absw g bc env Hok Hv. exact (infer_plain hess absw g bc Hok env Hv).
Qed.
Print Assumptions collection_without_weights.

(* C72.  With Hessian weighting, provided the graph lists the collecting output nodes after all other collecting nodes, no
   two collecting nodes are uses of one layer and collecting inner nodes have one output: every batch is processed, each
   inner node is weighted by the score of its own tensor with respect to the outputs of the model, and output nodes are
   not weighted. *)
Theorem hessian_weights_of_own_tensor : forall T W (hess : list (value T) -> value T -> W) absw g bc (env : nat -> value T) inner rest,
  graph_ok g -> (forall n, In n (order g) -> 1 <= n_outputs (info g n)) -> value_ok g env ->
  order g = inner ++ rest ->
  (forall n, In n inner -> needs_stats g bc n -> ~ In n (outs g)) ->
  (forall n, In n rest -> needs_stats g bc n -> In n (outs g)) ->
  (forall m n, In m inner -> In n inner -> needs_stats g bc m -> needs_stats g bc n -> primary (info g m) = primary (info g n) -> m = n) ->
  (forall n, In n inner -> needs_stats g bc n -> n_outputs (info g n) = 1) ->
  exists us os, infer hess absw g bc true env = Ok us /\ Permutation os (outs g) /\
    (forall n, In n (order g) -> needs_stats g bc n -> ~ In n (outs g) -> forall k t, tensor_of (env n) k = Some t ->
       updates_of us n k = [(t, Some (absw (hess (map env os) (env n))))]) /\
    (forall n, In n (order g) -> needs_stats g bc n -> In n (outs g) -> forall k t, tensor_of (env n) k = Some t ->
       updates_of us n k = [(t, None)]).
Proof.
  intros T W hess absw g bc env l1 l2 Hok Hp Hv Ho H1 H2 H3 H4.
  assert (forall n, In n l1 -> collecting (assign_collectors g bc) n = true -> needs_stats g bc n) as Hc.
  { intros n Hn Hcl. assert (In n (order g)) as Hno by (rewrite Ho; apply in_or_app; left; exact Hn).
    apply (collecting_spec g bc Hok n Hno (Hp n Hno)). exact Hcl. }
  apply (infer_weights hess absw g bc Hok Hp env Hv l1 l2 Ho); auto.
  - intros n A B C. exact (H1 n A C B).
  - assert (NoDup l1) as N.
    { pose proof (go_nodup g Hok) as N. rewrite Ho in N. clear -N. induction l1; [constructor|]. inversion N; subst. constructor; [|auto].
      intro X. apply H1. apply in_or_app. left. exact X. }
    clear -N Hc H3. induction l1 as [|x l1 IH]; [constructor|]. inversion N; subst. cbn [filter].
    assert (NoDup (map (fun n => primary (info g n)) (filter (collecting (assign_collectors g bc)) l1))) as IHn.
    { apply IH; auto; [intros m n A B; apply H3; right; assumption|intros n A; apply Hc; right; assumption]. }
    destruct (collecting (assign_collectors g bc) x) eqn:E; [|exact IHn]. cbn. constructor; [|exact IHn].
    intro X. apply in_map_iff in X. destruct X as (y & Ey & Hy). apply filter_In in Hy. destruct Hy as [Hy Hyc].
    assert (y = x) as ->; [|tauto]. apply H3; [right; exact Hy|left; reflexivity| | |exact Ey]; apply Hc; auto; [right; exact Hy|left; reflexivity].
Qed.
Print Assumptions hessian_weights_of_own_tensor.

Local Open Scope Q_scope.
(* C72.  Weighted histogram, weights of the shape of the tensor and not all zero: every bin holds the sum of the weights of
   the elements that fall into it, and all bins together hold the sum of all weights.  (Any tensor with an element.) *)
Theorem weighted_histogram_by_element : forall (x w : arr) n, indices (ashape x) <> [] -> ashape w = ashape x -> not_all_zero w ->
  exists c e, weighted_histogram x (Some w) (S n) = Ok (c, e) /\ length c = S n /\
    (exists c0, np_histogram (map (aget x) (indices (ashape x))) (S n) = Ok (c0, e)) /\
    sumQ c == sumQ (map (aget w) (indices (ashape x))) /\
    (forall k (b : Q -> bool), (k < S n)%nat -> (forall v, b v = true <-> in_bin e k v) ->
       nth k c 0 == sumQ (map (aget w) (filter (fun i => b (aget x i)) (indices (ashape x))))).
Proof.
  intros x w n Hx Hs Hz. destruct (element_weights_same_rank (ashape x) w Hz ltac:(rewrite Hs; reflexivity)) as [A _].
  destruct A as (f & Ef & Hf).
  { rewrite Hs. clear. induction (ashape x); constructor; auto. }
  destruct (weighted_hist_lem x (Some w) f n Hx Ef) as (c & e & c0 & E1 & E2 & L & S1 & S2 & _).
  assert (forall i, In i (indices (ashape x)) -> f i = aget w i) as Hfi.
  { intros i Hi. rewrite (Hf i Hi), Hs, squeeze_self; [reflexivity|]. apply indices_valid. exact Hi. }
  exists c, e. split; [exact E1|]. split; [exact L|]. split; [eauto|]. split.
  - rewrite S1. rewrite (map_ext_in _ _ _ Hfi). reflexivity.
  - intros k b Hk Hb. rewrite (S2 k b Hk Hb). rewrite (map_ext_in _ (aget w)); [reflexivity|]. intros i Hi. apply Hfi. apply filter_In in Hi. tauto.
Qed.
Print Assumptions weighted_histogram_by_element.

(* C72.  No weights, or weights that are all zero: the counts of the plain histogram. *)
Theorem weighted_histogram_unweighted : forall (x : arr) w n, indices (ashape x) <> [] ->
  (forall a, w = Some a -> forall i, In i (indices (ashape a)) -> aget a i == 0) ->
  exists c c0 e, weighted_histogram x w (S n) = Ok (c, e) /\
    np_histogram (map (aget x) (indices (ashape x))) (S n) = Ok (c0, e) /\ Forall2 Qeq c c0.
Proof.
  intros x w n Hx Hw. assert (element_weights (ashape x) w = Ok (fun _ => 1)) as E.
  { destruct w as [a|]; [|reflexivity]. unfold element_weights. destruct (forallb _ _) eqn:F; [reflexivity|]. apply all_zero_spec in F.
    destruct F as (i & Hi & Hn). exfalso. apply Hn. eapply Hw; eauto. }
  destruct (weighted_hist_lem x w _ n Hx E) as (c & e & c0 & E1 & E2 & _ & _ & _ & U). exists c, c0, e. split; [exact E1|]. split; [exact E2|].
  apply U. reflexivity.
Qed.
Print Assumptions weighted_histogram_unweighted.

(* C72.  Weights with as many dimensions as the tensor are accepted exactly when each dimension is the tensor's or 1, and the
   weight of an element is read at its own position, except at the first along the dimensions of size 1; weights with more dimensions are
   rejected. *)
Theorem weights_of_same_rank : forall sx (w : arr), not_all_zero w -> length (ashape w) = length sx ->
  (Forall2 (fun x d => d = x \/ d = 1%nat) sx (ashape w) ->
   exists f, element_weights sx (Some w) = Ok f /\ forall i, In i (indices sx) ->
     exists j, weight_position (ashape w) i j /\ f i = aget w j) /\
  (~ Forall2 (fun x d => d = x \/ d = 1%nat) sx (ashape w) -> element_weights sx (Some w) = Err E_critical).
Proof.
  intros sx w Hz Hl. destruct (element_weights_same_rank sx w Hz Hl) as [A B]. split; [|exact B].
  intros F. destruct (A F) as (f & E & Hf). exists f. split; [exact E|]. intros i Hi. exists (squeeze (ashape w) i).
  split; [|exact (Hf i Hi)]. apply squeeze_position. rewrite Hl. symmetry. eapply indices_length. exact Hi.
Qed.
Print Assumptions weights_of_same_rank.
Theorem weights_of_higher_rank_rejected : forall sx (w : arr), not_all_zero w -> (length sx < length (ashape w))%nat ->
  element_weights sx (Some w) = Err E_critical.
Proof.
  intros sx w Hz H. unfold element_weights. rewrite (proj2 (all_zero_spec w) Hz). unfold check_broadcastable.
  apply Nat.ltb_lt in H. rewrite H. reflexivity.
Qed.
Print Assumptions weights_of_higher_rank_rejected.
