(* KMhaExProps.v -- C86: a layer the theorems apply to, and cases in which the decomposition is wrong. *)
From Coq Require Import String.
From Verif Require Import Base Nd GraphModel KMhaModel KMhaSpec KMhaMainProofs KMhaProps.
Local Open Scope nat_scope.

(* a layer with two heads on inputs with two inner axes, attention over the second only; 2 x 3 query and 2 x 4 key positions *)
Definition arr (s : list nat) : nd := Nd s (fun _ => 1%R).
Definition names : list (string * nd) :=
  [("mha/query/kernel:0", arr [5; 2; 3]%nat); ("mha/query/bias:0", arr [2; 3]%nat);
   ("mha/key/kernel:0", arr [6; 2; 3]%nat); ("mha/key/bias:0", arr [2; 3]%nat);
   ("mha/value/kernel:0", arr [7; 2; 4]%nat); ("mha/value/bias:0", arr [2; 4]%nat);
   ("mha/attention_output/kernel:0", arr [2; 4; 5]%nat); ("mha/attention_output/bias:0", arr [5]%nat)]%string.
Definition node : kmha := KMha false 2 true 3 4 [1; 2; 3; 5]%nat [1; 2; 4; 6]%nat [1; 2; 4; 7]%nat None [2]%nat names.
Definition lay : layer := Layer 2 3 4 [2]%nat (arr [5; 2; 3]%nat) (arr [2; 3]%nat) (arr [6; 2; 3]%nat) (arr [2; 3]%nat)
  (arr [7; 2; 4]%nat) (arr [2; 4]%nat) (arr [2; 4; 5]%nat) (arr [5]%nat).
Lemma stored_at (ws : list (string * nd)) t i name w : nth_error ws i = Some (name, w) -> contains t name = true ->
  forallb (fun x => negb (contains t (fst x))) (firstn i ws) = true -> stored ws t w.
Proof.
  intros E C F. destruct (nth_error_split ws i E) as (l1 & l2 & S & L). exists l1, name, l2. split; [exact S|]. split; [apply contains_text; exact C|].
  intros x I T. rewrite S, firstn_app, <- L, Nat.sub_diag, firstn_all, app_nil_r in F. rewrite forallb_forall in F. specialize (F x I).
  apply contains_text in T. rewrite T in F. discriminate.
Qed.
Example layer_described : axes_ok (axes lay) [2; 3]%nat [2; 4]%nat /\ describes node lay [2; 3]%nat [2; 4]%nat 5 6 7 5 /\ weight_shapes lay 5 6 7 5.
Proof.
  repeat split.
  - repeat constructor. intros [].
  - destruct H as [<-|[]]. lia.
  - destruct H as [<-|[]]. cbn. lia.
  - intros a B N. cbn in B. assert (a = 1 \/ a = 2)%nat as [->| ->] by lia; [reflexivity|exfalso; apply N; left; reflexivity].
  - right. split; reflexivity.
  - apply (stored_at _ _ 0%nat "mha/query/kernel:0"); reflexivity.
  - apply (stored_at _ _ 1%nat "mha/query/bias:0"); reflexivity.
  - apply (stored_at _ _ 2%nat "mha/key/kernel:0"); reflexivity.
  - apply (stored_at _ _ 3%nat "mha/key/bias:0"); reflexivity.
  - apply (stored_at _ _ 4%nat "mha/value/kernel:0"); reflexivity.
  - apply (stored_at _ _ 5%nat "mha/value/bias:0"); reflexivity.
  - apply (stored_at _ _ 6%nat "mha/attention_output/kernel:0"); reflexivity.
  - apply (stored_at _ _ 7%nat "mha/attention_output/bias:0"); reflexivity.
Qed.
(* position (1, 2) of the query attends to the four positions of row 1 of the key *)
Example attends_row : attended lay [2; 4]%nat [1; 2]%nat = [[1; 0]; [1; 1]; [1; 2]; [1; 3]]%nat.
Proof. reflexivity. Qed.

(* FINDING (multi_head_attention_decomposition.py L231-233): a layer without biases (use_bias=False) stops with an
   IndexError: the bias weights are looked up whatever use_bias says. *)
Theorem kmha_without_bias_refuted :
  let m := KMha false 2 false 3 4 [1; 2; 3; 5]%nat [1; 2; 4; 6]%nat [1; 2; 4; 7]%nat None [2]%nat
    (filter (fun x => contains "kernel" (fst x)) names) in
  map fst (k_weights m) = ["mha/query/kernel:0"; "mha/key/kernel:0"; "mha/value/kernel:0"; "mha/attention_output/kernel:0"]%string /\
  expand m 3 = Err E_index.
Proof. split; reflexivity. Qed.
Print Assumptions kmha_without_bias_refuted.

(* FINDING (multi_head_attention_decomposition.py L417): the inputs of the layer are told apart by the order in which the
   edges are listed, not by their input index.  The reader lists edges source by source, so a layer called with a
   query that comes from a node read after the node of the value has the two exchanged: here the layer (node 2) reads
   its query (input 0) from node 1 and its value (input 1) from node 0. *)
Theorem kmha_inputs_exchanged_refuted :
  let g := Graph [0; 1; 2] [Edge 0 2 0 1; Edge 1 2 0 0] [0; 1] [(2, 0)] in
  map (fun e => (ti e, (src e, si e))) (sort_by ti (in_edges g 2)) = [(0, (1, 0)); (1, (0, 0))] /\
  taken g 2 = Ok [(0, 0); (1, 0)].
Proof. split; reflexivity. Qed.
Print Assumptions kmha_inputs_exchanged_refuted.

(* FINDING (multi_head_attention_decomposition.py L417): a layer called with query and key from one tensor and another
   value: the edges come grouped by source, so value and key are exchanged even if the edges were added in order. *)
Theorem kmha_key_of_query_refuted :
  let g := Graph [0; 1; 2] [Edge 0 2 0 0; Edge 1 2 0 1; Edge 0 2 0 2] [0; 1] [(2, 0)] in
  map (fun e => (src e, si e)) (sort_by ti (in_edges g 2)) = [(0, 0); (1, 0); (0, 0)] /\
  taken g 2 = Ok [(0, 0); (0, 0); (1, 0)].
Proof. split; reflexivity. Qed.
Print Assumptions kmha_key_of_query_refuted.

(* FINDING (multi_head_attention_decomposition.py L422-425): with query and value two outputs of one node (a split), both are
   read from the output of the first edge: get_edge_data(u, v, 0). *)
Theorem kmha_split_inputs_refuted :
  let g := Graph [0; 1] [Edge 0 1 0 0; Edge 0 1 1 1] [0] [(1, 0)] in
  map (fun e => (src e, si e)) (sort_by ti (in_edges g 1)) = [(0, 0); (0, 1)] /\
  taken g 1 = Ok [(0, 0); (0, 0)].
Proof. split; reflexivity. Qed.
Print Assumptions kmha_split_inputs_refuted.

(* a layer called on one tensor as query, value and key, and one called on three different tensors *)
Example self_attention : taken (Graph [0; 1] [Edge 0 1 0 0; Edge 0 1 0 1; Edge 0 1 0 2] [0] [(1, 0)]) 1 = Ok [(0, 0); (0, 0); (0, 0)].
Proof. reflexivity. Qed.
Example cross_attention : taken (Graph [0; 1; 2; 3] [Edge 0 3 0 0; Edge 1 3 0 1; Edge 2 3 1 2] [0] [(3, 0)]) 3 = Ok [(0, 0); (1, 0); (2, 1)].
Proof. reflexivity. Qed.
