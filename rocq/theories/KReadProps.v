(* KReadProps.v -- C80: reading a Keras model with nested models gives one flat graph that computes the same. *)
From Coq Require Import Permutation.
From Verif Require Import Base GraphModel GraphSpec GraphProofs KReadModel KReadSpec KReadMergeProofs KReadProofs KReadNestProofs.
Local Open Scope nat_scope.

(* A graph that is read gives the outputs ys on the inputs xs exactly when the Keras model does, whatever the
   operations compute and however deep the models are nested; its nodes are the input layers of the model and
   the operations of all levels, one node per call, and no nested model and no input of a nested model is left. *)
Theorem keras_model_read : forall {V} (op : nat -> list V -> nat -> V) m g, keras_model m -> parse_model m = Ok g ->
  (forall xs ys, model_gives op m xs ys <-> graph_gives op g xs ys) /\
  Permutation (g_nodes g) (input_ids m ++ op_ids m) /\ wf g /\
  length (g_in g) = length (ins_of m) /\ length (g_out g) = length (outs_of m) /\
  (forall x, In x (g_in g) <-> In x (input_ids m)).
Proof.
  intros V op m g [L N] E. pose proof (read_main op m L N) as H. rewrite E in H. destruct H as (_ & fh & [A B C D F G H1 I J _]).
  split; [exact I|]. split; [exact B|]. split; [|split; [exact D|split; [exact F|exact C]]]. constructor; [apply (f_nodes _ _ A)|].
  intros e X. apply (Permutation_in _ (f_edges _ _ A)), wires_in in X. destruct X as [X1 X2]. apply nth_error_In in X2. split; [apply (f_src _ _ A _ _ X1 X2)|exact X1].
Qed.
Print Assumptions keras_model_read.

(* Which models are read: those in which, in every nested model, the operations read the input layers at the
   first position only.  On every other model the reading stops with a ValueError. *)
Theorem keras_model_accepted : forall m, keras_model m ->
  ((exists g, parse_model m = Ok g) <-> nested_read_first m) /\
  ((exists e, parse_model m = Err e) <-> parse_model m = Err E_value) /\ (parse_model m = Err E_value <-> ~ nested_read_first m).
Proof.
  intros m [L N]. pose proof (read_main (V := unit) (fun _ _ _ => tt) m L N) as H. destruct (parse_model m) as [g|e].
  - destruct H as [H _]. split; [split; [intros _; exact H|intros _; exists g; reflexivity]|]. split; [split; [intros [e E]; discriminate|discriminate]|]. split; [discriminate|contradiction].
  - destruct H as [-> H]. split; [split; [intros [g E]; discriminate|contradiction]|]. split; [split; [reflexivity|intro E; exists E_value; exact E]|]. split; [intros _; exact H|reflexivity].
Qed.
Print Assumptions keras_model_accepted.

(* Every node but the inputs receives as many tensors as its call takes, at the input indices 0, 1, ..., and
   the nodes and the outputs of the graph only refer to tensors that the calls return. *)
Theorem keras_graph_shape : forall m g ai ao, keras_model m -> parse_model m = Ok g -> shaped ai ao m ->
  (forall n, In n (g_nodes g) -> ~ In n (g_in g) ->
     Permutation (map ti (filter (fun e => Nat.eqb (snk e) n) (g_edges g))) (seq 0 (ai n))) /\
  (forall n, In n (g_in g) -> filter (fun e => Nat.eqb (snk e) n) (g_edges g) = []) /\
  (forall e, In e (g_edges g) -> si e < ao (src e)) /\ (forall o, In o (g_out g) -> In (fst o) (g_nodes g) /\ snd o < ao (fst o)) /\
  NoDup (g_in g) /\ incl (g_in g) (g_nodes g).
Proof.
  intros m g ai ao [L N] E SH. pose proof (read_main (V := unit) (fun _ _ _ => tt) m L N) as H. rewrite E in H. destruct H as (_ & fh & R). pose proof (r_flat _ _ _ _ R) as A. destruct (r_ports _ _ _ _ R ai ao SH) as [P1 P2 P3].
  assert (forall n, In n (g_nodes g) -> Permutation (filter (fun e => Nat.eqb (snk e) n) (g_edges g)) (eds n (fh n))) as Q.
  { intros n I. rewrite (filter_perm _ _ _ (f_edges _ _ A)). rewrite (wires_filter _ _ _ (f_nodes _ _ A) I). reflexivity. }
  split; [|split; [|split; [|split; [|split; [apply (f_ins _ _ A)|apply (f_ins_in _ _ A)]]]]].
  - intros n I J. rewrite (Q n I), <- (P3 n I J). unfold eds. rewrite eds_gen, map_map. cbn [ti]. rewrite map_id. reflexivity.
  - intros n I. pose proof (Q n (f_ins_in _ _ A n I)) as K. rewrite (f_ins_feed _ _ A n I) in K. apply Permutation_sym, Permutation_nil in K. exact K.
  - intros e I. apply (Permutation_in _ (f_edges _ _ A)), wires_in in I. destruct I as [I1 I2]. apply nth_error_In in I2. exact (P1 _ _ I1 I2).
  - intros o O. split; [apply (f_outs _ _ A o O)|exact (P2 o O)].
Qed.
Print Assumptions keras_graph_shape.
