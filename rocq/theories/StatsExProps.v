(* StatsExProps.v -- C72: concrete cases and refutations. *)
From Coq Require Import Arith Permutation Lia.
From Verif Require Import Base RoundQ QuantModel SearchModel CollectModel StatsModel StatsSpec StatsHistProofs StatsProps.
Local Open Scope nat_scope.

Definition q1 (p : nat) : ninfo :=
  {| act_quantized := true; fln_quantized := false; kernel_quantized := false; prior_range := (Some 0%Q, None); n_outputs := 1; primary := p |}.
Definition noq (k p : nat) : ninfo :=
  {| act_quantized := false; fln_quantized := false; kernel_quantized := false; prior_range := (None, None); n_outputs := k; primary := p |}.
Definition kq (p : nat) : ninfo :=
  {| act_quantized := true; fln_quantized := false; kernel_quantized := true; prior_range := (None, None); n_outputs := 1; primary := p |}.
(* a score that records the outputs and the target it was computed from *)
Definition hsym (o : list (value nat)) (v : value nat) := (o, v).
Definition idw (w : list (value nat) * value nat) := w.
Definition val1 (n : nat) : value nat := V1 (100 + n).

(* input 0, reshape 1 (not quantized), conv 2 with a quantized kernel, output conv 3 *)
Definition g_ex : sgraph :=
  {| info := fun n => match n with 0 => q1 0 | 1 => noq 1 1 | _ => kq n end;
     topo := [0; 1; 2; 3]; order := [0; 1; 2; 3]; gedges := [(0, 1); (1, 2); (2, 3)]; outs := [3] |}.
Lemma g_ex_ok : graph_ok g_ex.
Proof.
  constructor.
  - repeat constructor; cbn; lia.
  - apply Permutation_refl.
  - intros u v H. cbn in H. destruct H as [H|[H|[H|[]]]]; injection H as <- <-.
    + exists [], [], [2; 3]. reflexivity.
    + exists [0], [], [3]. reflexivity.
    + exists [0; 1], [], []. reflexivity.
  - repeat constructor; cbn; tauto.
Qed.
Example ex_collecting :
  map (collecting (assign_collectors g_ex true)) [0; 1; 2; 3] = [true; true; true; true] /\
  map (collecting (assign_collectors g_ex false)) [0; 1; 2; 3] = [true; false; true; true] /\
  assign_collectors g_ex true 0 = Some (One (Stats (Some 0%Q) None)) /\
  assign_collectors g_ex true 1 = Some (One (Stats None None)).
Proof. repeat split. Qed.
(* the hypotheses of hessian_weights_of_own_tensor hold, and its conclusion gives: *)
Example ex_weights : exists us, infer hsym idw g_ex true true val1 = Ok us /\
  updates_of us 1 0 = [(101, Some ([V1 103], V1 101))] /\ updates_of us 3 0 = [(103, None)].
Proof. eexists. repeat split. Qed.
Example ex_weights_hyps :
  (forall n, In n (order g_ex) -> 1 <= n_outputs (info g_ex n)) /\ value_ok g_ex val1 /\ order g_ex = [0; 1; 2] ++ [3] /\
  (forall n, In n [0; 1; 2] -> needs_stats g_ex true n -> ~ In n (outs g_ex)) /\
  (forall n, In n [3] -> needs_stats g_ex true n -> In n (outs g_ex)).
Proof.
  split; [|split; [|split; [reflexivity|split]]].
  - intros n H. cbn in H. destruct H as [<-|[<-|[<-|[<-|[]]]]]; cbn; lia.
  - intros n H. cbn in H. destruct H as [<-|[<-|[<-|[<-|[]]]]]; reflexivity.
  - intros n H _ Ho. cbn in H, Ho. lia.
  - intros n H _. exact H.
Qed.

(* FINDING (model_collector.py L193-204, hessian/activation_hessian_scores_calculator_pytorch.py L82-94): with Hessian-weighted
   activation statistics the scores are computed by taking the first tensors of the collected list as the targets and the
   remaining ones as the model outputs, but the list follows the order of the graph's nodes.  After batch-normalization
   folding the folded convolution is the last node of the graph, behind the model's output: here input 0, output layer 1,
   folded convolution 2 (0 -> 2 -> 1).  The input's weights are then taken with respect to the convolution instead of the
   model's output, the output layer is weighted, and the convolution is not. *)
Theorem hessian_weights_node_order_refuted : exists g us,
  graph_ok g /\ value_ok g val1 /\ outs g = [1] /\ (forall n, needs_stats g false n) /\
  (forall m n, primary (info g m) = primary (info g n) -> m = n) /\
  infer hsym idw g false true val1 = Ok us /\
  updates_of us 0 0 = [(100, Some ([V1 102], V1 100))] /\
  updates_of us 1 0 = [(101, Some ([V1 102], V1 101))] /\
  updates_of us 2 0 = [(102, None)].
Proof.
  exists {| info := q1; topo := [0; 2; 1]; order := [0; 1; 2]; gedges := [(0, 2); (2, 1)]; outs := [1] |}.
  eexists. split; [|split; [|split; [reflexivity|split; [|split; [|split; [reflexivity|repeat split]]]]]].
  - constructor; cbn.
    + repeat constructor; cbn; lia.
    + apply perm_skip, perm_swap.
    + intros u v [H|[H|[]]]; injection H as <- <-; [exists [], [], [1]|exists [0], [], []]; reflexivity.
    + repeat constructor; cbn; tauto.
  - intros n _. reflexivity.
  - intro n. left. left. reflexivity.
  - intros m n H. exact H.
Qed.
Print Assumptions hessian_weights_node_order_refuted.

(* FINDING (hessian_info_service.py L173-191, L301-303): when a layer is used twice, both uses are requested under the name of
   the layer, the scores are collected in a dictionary keyed by that name, and the list of its values is one element short: the
   first use gets the score of the second, and every node after the second use gets its successor's score or none.  Here
   0 -> 1 -> 2 -> 3 -> 4 where 1 and 2 are uses of one layer: node 1 is weighted by the score of node 2, node 2 by that
   of node 3, node 3 not at all. *)
Theorem hessian_weights_reused_layer_refuted : exists g us,
  graph_ok g /\ value_ok g val1 /\ outs g = [4] /\ order g = [0; 1; 2; 3; 4] /\ (forall n, needs_stats g false n) /\
  infer hsym idw g false true val1 = Ok us /\
  updates_of us 1 0 = [(101, Some ([V1 104], V1 102))] /\
  updates_of us 2 0 = [(102, Some ([V1 104], V1 103))] /\
  updates_of us 3 0 = [(103, None)].
Proof.
  exists {| info := fun n => q1 (if Nat.eqb n 2 then 1 else n); topo := [0; 1; 2; 3; 4]; order := [0; 1; 2; 3; 4];
            gedges := [(0, 1); (1, 2); (2, 3); (3, 4)]; outs := [4] |}.
  eexists. split; [|split; [|split; [reflexivity|split; [reflexivity|split; [|split; [reflexivity|repeat split]]]]]].
  - constructor; cbn.
    + repeat constructor; cbn; lia.
    + apply Permutation_refl.
    + intros u v [H|[H|[H|[H|[]]]]]; injection H as <- <-;
        [exists [], [], [2; 3; 4]|exists [0], [], [3; 4]|exists [0; 1], [], [4]|exists [0; 1; 2], [], []]; reflexivity.
    + repeat constructor; cbn; tauto.
  - intros n _. reflexivity.
  - intro n. left. left. reflexivity.
Qed.
Print Assumptions hessian_weights_reused_layer_refuted.

(* FINDING (model_collector.py L248-251): ensure_matching_data_lengths is called with its arguments in another order than it
   declares them, and the Hessian score of a node with several outputs is one array: Hessian-weighted statistics stop with
   an error on any model where such a node collects, e.g. a split (0 -> 1 -> 2) feeding a convolution under bias correction.
   Without Hessian weighting the same model is processed. *)
Theorem hessian_weights_multiple_outputs_refuted : exists g (env : nat -> value nat),
  graph_ok g /\ value_ok g env /\ outs g = [2] /\
  infer hsym idw g true true env = Err E_critical /\ is_ok (infer hsym idw g true false env) = true.
Proof.
  exists {| info := fun n => match n with 0 => q1 0 | 1 => noq 2 1 | _ => kq n end; topo := [0; 1; 2]; order := [0; 1; 2];
            gedges := [(0, 1); (1, 2)]; outs := [2] |}, (fun n => if Nat.eqb n 1 then VL [7; 8] else val1 n).
  split; [|split; [|split; [reflexivity|split; reflexivity]]].
  - constructor; cbn.
    + repeat constructor; cbn; lia.
    + apply Permutation_refl.
    + intros u v [H|[H|[]]]; injection H as <- <-; [exists [], [], [2]|exists [0], [], []]; reflexivity.
    + repeat constructor; cbn; tauto.
  - intros n H. cbn in H. destruct H as [<-|[<-|[<-|[]]]]; cbn; auto.
Qed.
Print Assumptions hessian_weights_multiple_outputs_refuted.

Local Open Scope Q_scope.
(* FINDING (collectors/weighted_histogram_collector.py L41 against L101-105): weights with fewer dimensions than the tensor are
   checked with their dimensions aligned at the end and applied with their dimensions aligned at the beginning: weights for
   the columns of a 2x3 tensor pass the check and then raise, weights for the columns of a 2x2 tensor are applied to its rows. *)
Theorem weights_of_lower_rank_refuted :
  (exists w, ashape w = [3%nat] /\ not_all_zero w /\ check_broadcastable [2; 3]%nat (ashape w) = Ok tt /\
     element_weights [2; 3]%nat (Some w) = Err E_value) /\
  (exists w f, ashape w = [2%nat] /\ element_weights [2; 2]%nat (Some w) = Ok f /\
     aget w [1%nat] = 5 /\ f [0; 1]%nat = 4 /\ f [1; 0]%nat = 5).
Proof.
  split.
  - exists {| ashape := [3%nat]; aget := fun i => 1 |}. split; [reflexivity|]. split; [|split; reflexivity].
    exists [0%nat]. split; [left; reflexivity|]. discriminate.
  - exists {| ashape := [2%nat]; aget := fun i => match i with [1%nat] => 5 | _ => 4 end |}. eexists. repeat split.
Qed.
Print Assumptions weights_of_lower_rank_refuted.

(* a 1x2 tensor with two different weights *)
Example ex_weighted : exists c e, weighted_histogram {| ashape := [1; 2]%nat; aget := fun i => match i with [_; 1%nat] => 3 | _ => 1 end |}
    (Some {| ashape := [1; 2]%nat; aget := fun i => match i with [_; 1%nat] => 10 | _ => 2 end |}) 2 = Ok (c, e) /\
  Forall2 Qeq c [2; 10].
Proof. eexists _, _. split; [vm_compute; reflexivity|]. repeat constructor. Qed.
