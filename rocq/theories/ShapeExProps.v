(* ShapeExProps.v -- C77: an instance, and what static shapes do not allow. *)
From Coq Require Import Permutation Sorted Lia ZArith String.
From Verif Require Import Base GraphModel GraphSpec GraphProps FxModel DeadSpec ShapeModel ShapeSpec ShapeProofs ShapeProps.
Open Scope res_scope.
Local Open Scope nat_scope.
Ltac edges H := cbn in H; decompose [or] H; subst; cbn; try lia; try tauto.

(* x.view(b, 2 * c, -1) for x of shape [1, 3, 5, 5]: node 1 is x.size(), 2 and 3 its items 0 and 1, 4 the product, 5 the
   view and 6 the output; everything but x, the view and the output goes *)
Definition g_view : graph := Graph [0; 1; 2; 3; 4; 5; 6]
  [Edge 0 1 0 0; Edge 0 5 0 0; Edge 1 2 0 0; Edge 1 3 0 0; Edge 3 4 0 0; Edge 2 5 0 1; Edge 4 5 0 2; Edge 5 6 0 0] [0] [(6, 0)].
Definition r_view : rsnode := RS [[1; 3; 5; 5]; [1]; [1]]%Z [[1; 6; 12]]%Z [ROther 7] [] [Pos 0; Pos 1; Pos 2].
Example view_ex : static_shapes no_check g_view 5 r_view =
  Ok (Graph [0; 5; 6] [Edge 0 5 0 0; Edge 5 6 0 0] [0] [(6, 0)], RS [[-1; 3; 5; 5]]%Z [[-1; 6; 12]]%Z [RShape [-1; 6; 12]%Z] [] [Pos 0]).
Proof. reflexivity. Qed.
Lemma view_unused m : In m [1; 2; 3; 4] -> ~ used (without_sizes g_view 5) m.
Proof.
  intros I U. induction U as [m i O|e J U IH]; cbn in *.
  - destruct O as [O|[]]. injection O as <- <-. lia.
  - decompose [or] J; subst; cbn in *; try lia; apply IH; lia.
Qed.
Lemma view_used m : In m [0; 5; 6] -> used (without_sizes g_view 5) m.
Proof.
  assert (used (without_sizes g_view 5) 6) as U6 by (apply (used_output _ 6 0); left; reflexivity).
  assert (used (without_sizes g_view 5) 5) as U5 by (apply (used_by (without_sizes g_view 5) (Edge 5 6 0 0)); [cbn; tauto|exact U6]).
  assert (used (without_sizes g_view 5) 0) as U0 by (apply (used_by (without_sizes g_view 5) (Edge 0 5 0 0)); [cbn; tauto|exact U5]).
  intro I. edges I; assumption.
Qed.
Lemma leads_up g a b : leads g a b -> (forall e, In e (g_edges g) -> src e < snk e) -> a = b \/ exists e, In e (g_edges g) /\ src e = a /\ snk e <= b.
Proof.
  intros L H. induction L as [a|e b I L IH]; [left; reflexivity|right]. exists e. split; [exact I|]. split; [reflexivity|]. destruct IH as [->|(e' & I' & S' & K)]; [lia|]. specialize (H e' I'). lia.
Qed.
Example view_meets : wf g_view /\ acyclic g_view /\ NoDup (g_edges g_view) /\ one_tensor g_view 5 /\
  (forall m, In m (g_nodes g_view) -> In m (g_in g_view) -> used (without_sizes g_view 5) m) /\
  (forall e1 e2, In e1 (g_edges g_view) -> In e2 (g_edges g_view) -> e1 <> e2 -> src e1 = src e2 -> ~ used (without_sizes g_view 5) (src e1) -> ~ leads g_view (snk e1) (snk e2)).
Proof.
  assert (forall e, In e (g_edges g_view) -> src e < snk e) as UP by (intros e H; edges H).
  split; [|split; [|split; [|split; [|split]]]].
  - constructor; [cbn; repeat (constructor; [cbn; lia|]); constructor|]. intros e H. edges H.
  - exists (fun n => n). exact UP.
  - cbn. repeat (constructor; [cbn; intuition discriminate|]). constructor.
  - exists (Edge 0 5 0 0). split; [reflexivity|]. intros e H. edges H.
  - intros m _ [<-|[]]. apply view_used. cbn. tauto.
  - intros e1 e2 I1 I2 Q S U L. assert (src e1 = 1 /\ src e2 = 1) as [S1 S2].
    { edges I1; edges I2; cbn in S, U; try congruence; try lia; exfalso; apply U, view_used; cbn; tauto. }
    assert ((snk e1 = 2 /\ snk e2 = 3) \/ (snk e1 = 3 /\ snk e2 = 2)) as [[A B]|[A B]] by (edges I1; edges I2; cbn in S1, S2; try discriminate; try lia; congruence).
    + rewrite A, B in L. apply leads_up in L; [|exact UP]. destruct L as [L|(e & I & Se & K)]; [discriminate|]. edges I; cbn in Se, K; lia.
    + rewrite A, B in L. apply leads_up in L; [|exact UP]. destruct L as [L|(e & I & Se & K)]; [discriminate|]. edges I; cbn in Se, K; lia.
Qed.

(* FINDING (reshape_with_static_shapes.py L80-84): a size used for two axes, as in x.view(b, n, n), is cleaned twice; the
   second time it is no longer in the graph and networkx raises. *)
Theorem size_used_twice_refuted : exists g n r, wf g /\ acyclic g /\ (forall m, In m (g_nodes g) -> used g m) /\ one_tensor g n /\ static_shapes no_check g n r = Err E_runtime.
Proof.
  exists (Graph [0; 1; 2] [Edge 0 1 0 0; Edge 0 2 0 0; Edge 1 2 0 1; Edge 1 2 0 2] [0] [(2, 0)]), 2, (RS [[1; 9]; [1]]%Z [[1; 3; 3]]%Z [] [] [Pos 0; Pos 1; Pos 2]).
  assert (used (Graph [0; 1; 2] [Edge 0 1 0 0; Edge 0 2 0 0; Edge 1 2 0 1; Edge 1 2 0 2] [0] [(2, 0)]) 2) as U2 by (apply (used_output _ 2 0); left; reflexivity).
  split; [|split; [|split; [|split; [|reflexivity]]]].
  - constructor; [cbn; repeat (constructor; [cbn; lia|]); constructor|]. intros e H. edges H.
  - exists (fun n => n). intros e H. edges H.
  - intros m I. edges I; [apply (used_by _ (Edge 0 2 0 0))|apply (used_by _ (Edge 1 2 0 1))]; cbn; try tauto; exact U2.
  - exists (Edge 0 2 0 0). split; [reflexivity|]. intros e H. edges H.
Qed.
Print Assumptions size_used_twice_refuted.
(* FINDING (same lines): a size used directly and in a computed size, as in x.view(2 * b, b), stops the conversion in the
   same way, while x.view(b, 2 * b) does not. *)
Theorem size_used_again_refuted : exists g g0 n r, wf g /\ wf g0 /\ acyclic g /\ one_tensor g n /\ one_tensor g0 n /\
  static_shapes no_check g n r = Err E_runtime /\ (forall e, In e (g_edges g) -> snk e <> n -> In e (g_edges g0)) /\ (exists res, static_shapes no_check g0 n r = Ok res).
Proof.
  exists (Graph [0; 1; 2; 3] [Edge 0 1 0 0; Edge 0 3 0 0; Edge 1 2 0 0; Edge 2 3 0 1; Edge 1 3 0 2] [0] [(3, 0)]),
    (Graph [0; 1; 2; 3] [Edge 0 1 0 0; Edge 0 3 0 0; Edge 1 2 0 0; Edge 1 3 0 1; Edge 2 3 0 2] [0] [(3, 0)]), 3, (RS [[1; 9]; [1]; [1]]%Z [[1; 3; 3]]%Z [] [] [Pos 0; Pos 1; Pos 2]).
  split; [|split; [|split; [|split; [|split; [|split; [reflexivity|split]]]]]].
  - constructor; [cbn; repeat (constructor; [cbn; lia|]); constructor|]. intros e H. edges H.
  - constructor; [cbn; repeat (constructor; [cbn; lia|]); constructor|]. intros e H. edges H.
  - exists (fun n => n). intros e H. edges H.
  - exists (Edge 0 3 0 0). split; [reflexivity|]. intros e H. edges H.
  - exists (Edge 0 3 0 0). split; [reflexivity|]. intros e H. edges H.
  - intros e H. edges H.
  - eexists. reflexivity.
Qed.
Print Assumptions size_used_again_refuted.
(* FINDING (L60): the first axis is taken to be the batch.  A model that moves the batch elsewhere, such as
   x.reshape(5, b) traced with b = 1, keeps the traced 1: with two samples the result is [10, 1] instead of [5, 2]. *)
Theorem batch_elsewhere_refuted : exists g n r g' r' count, static_shapes no_check g n r = Ok (g', r') /\ rs_out r = [[5; 1]]%Z /\
  zprod [5; 2]%Z = count /\ (forall A (x : A), call_of r' x = ([CTensor x; CArg (RShape [-1; 1]%Z)], [])) /\
  reshaped count [-1; 1]%Z [10; 1]%Z /\ ~ reshaped count [-1; 1]%Z [5; 2]%Z.
Proof.
  exists (Graph [0; 1; 2] [Edge 0 1 0 0; Edge 0 2 0 0; Edge 1 2 0 1] [0] [(2, 0)]), 2, (RS [[1; 5]; [1]]%Z [[5; 1]]%Z [ROther 0] [] [Pos 0; Pos 2]), (Graph [0; 2] [Edge 0 2 0 0] [0] [(2, 0)]), (RS [[-1; 5]]%Z [[-1; 1]]%Z [RShape [-1; 1]%Z] [] [Pos 0]), 10%Z.
  split; [reflexivity|]. split; [reflexivity|]. split; [reflexivity|]. split; [reflexivity|].
  destruct (static_shape_correct_iff 10 [1%Z] [10; 1]%Z) as [A _]; [repeat constructor; lia|repeat constructor; lia|reflexivity|].
  destruct (static_shape_correct_iff 10 [1%Z] [5; 2]%Z) as [B _]; [repeat constructor; lia|repeat constructor; lia|reflexivity|].
  split; [apply A; exists 10%Z; reflexivity|]. rewrite B. intros (d & Q). discriminate.
Qed.
Print Assumptions batch_elsewhere_refuted.
(* FINDING (L66): the keywords of the call stay.  torch.reshape(x, shape=(2, 3)) becomes a call with the shape both as
   second positional argument and as keyword, which Python refuses. *)
Theorem shape_keyword_refuted : exists g n r g' r', static_shapes no_check g n r = Ok (g', r') /\ rs_args r = [] /\
  forall A (x : A), call_of r' x = ([CTensor x; CArg (RShape [-1; 3]%Z)], [("shape"%string, CArg (RShape [2; 3]%Z))]).
Proof.
  exists (Graph [0; 1] [Edge 0 1 0 0] [0] [(1, 0)]), 1, (RS [[6; 1]]%Z [[2; 3]]%Z [] [("shape"%string, RShape [2; 3]%Z)] [Pos 0]). eexists _, _. split; [reflexivity|]. split; reflexivity.
Qed.
Print Assumptions shape_keyword_refuted.
(* FINDING (L66): x.view(torch.int32) changes the element type, not the shape; its argument is replaced by a shape and the
   element type is lost. *)
Theorem view_dtype_refuted : exists g n r g' r', static_shapes no_check g n r = Ok (g', r') /\
  (forall A (x : A), call_of r x = ([CTensor x; CArg (ROther 32)], [])) /\ (forall A (x : A), call_of r' x = ([CTensor x; CArg (RShape [-1; 3]%Z)], [])).
Proof.
  exists (Graph [0; 1] [Edge 0 1 0 0] [0] [(1, 0)]), 1, (RS [[2; 3]]%Z [[2; 3]]%Z [ROther 32] [] [Pos 0]). eexists _, _. split; [reflexivity|]. split; reflexivity.
Qed.
Print Assumptions view_dtype_refuted.
(* FINDING (L105): a size which is an input of the model, used for nothing else, stops the conversion: inputs cannot be
   removed. *)
Theorem size_input_refuted : exists g n r, wf g /\ acyclic g /\ (forall m, In m (g_nodes g) -> used g m) /\ one_tensor g n /\ static_shapes no_check g n r = Err E_critical.
Proof.
  exists (Graph [0; 1; 2] [Edge 0 2 0 0; Edge 1 2 0 1] [0; 1] [(2, 0)]), 2, (RS [[6; 1]; [1]]%Z [[2; 3]]%Z [ROther 0] [] [Pos 0; Pos 1]).
  assert (used (Graph [0; 1; 2] [Edge 0 2 0 0; Edge 1 2 0 1] [0; 1] [(2, 0)]) 2) as U2 by (apply (used_output _ 2 0); left; reflexivity).
  split; [|split; [|split; [|split; [|reflexivity]]]].
  - constructor; [cbn; repeat (constructor; [cbn; lia|]); constructor|]. intros e H. edges H.
  - exists (fun n => n). intros e H. edges H.
  - intros m I. edges I; [apply (used_by _ (Edge 0 2 0 0))|apply (used_by _ (Edge 1 2 0 1))]; cbn; try tauto; exact U2.
  - exists (Edge 0 2 0 0). split; [reflexivity|]. intros e H. edges H.
Qed.
Print Assumptions size_input_refuted.
