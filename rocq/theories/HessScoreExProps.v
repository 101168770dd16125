(** C84: instances of the theorems and what the scores do not satisfy. *)

From Coq Require Import Reals List Bool Arith Lia Lra Permutation.
From Verif Require Import Base HessScoreModel HessScoreSpec HessScoreProps.
Import ListNotations.
Local Open Scope R_scope.

(** Two images, one output of one element each, an activation of two elements
    for each image; the output of image [o] has derivative 1 by the first and
    2 by the second element of its own image. *)
Definition jac2 (o k : nat) : R :=
  if Nat.eqb (k / 2) o then (if Nat.eqb (k mod 2) 0 then 1 else 2) else 0.
Definition outs2 : list (item nat) := [One (Tens [2; 1]%nat [0; 1]%nat)].
Definition act2 : target nat := Target [2; 2]%nat 1 jac2 true.

Example outs2_good : good_outputs (Items outs2) 2.
Proof.
  split; [lia|]. split; [discriminate|]. split; [|exact I].
  intros t [<- | []]. split; [reflexivity|]. now exists [1%nat].
Qed.

Example act2_good : good_acts 2 [act2] /\ good_kernels [act2].
Proof.
  split; intros tg [<- | []].
  - split; [reflexivity|]. now exists 2%nat, [].
  - split; [cbn; lia|reflexivity].
Qed.

Example act2_separate : separate_images (fun o => o) outs2 [act2].
Proof.
  split.
  - intros t k o [<- | []] H. destruct k as [|[|k]]; [| |destruct k; discriminate H].
    + injection H as <-. reflexivity.
    + injection H as <-. reflexivity.
  - intros tg o k [<- | []] Ho Hk Hne. cbn in Hk. cbn in Ho.
    destruct k as [|[|[|[|k]]]]; [| | | |lia];
      destruct Ho as [<- | [<- | []]]; cbn in Hne; try (now elim Hne); reflexivity.
Qed.

(** the scores of one random vector *)
Example scores2 : torch_act_compute GTensor outs2 [act2] [[true; false]] = Ok [[5; 5]].
Proof. cbn. do 3 f_equal; [field|]. f_equal. field. Qed.

Example true2 : true_score 1 (elements (Items outs2)) act2 [0; 1]%nat = 5.
Proof. cbn. ring. Qed.

Example cells2 : torch_act_cells GChannel [2; 2; 2]%nat =
                 [[0; 1]; [2; 3]; [4; 5]; [6; 7]]%nat /\
                 keras_act_cells GChannel [2; 2; 2]%nat =
                 [[0; 2]; [1; 3]; [4; 6]; [5; 7]]%nat.
Proof. split; reflexivity. Qed.

Example kernel_cells : weights_cells GChannel [2; 2]%nat 0 = [[0; 1]; [2; 3]]%nat /\
                       weights_cells GChannel [2; 2]%nat 1 = [[0; 2]; [1; 3]]%nat.
Proof. split; reflexivity. Qed.

(** One image, a kernel of one element, an output of two elements with
    derivatives 1 and 1. *)
Definition kern : target nat := Target [1; 1]%nat 0 (fun _ _ => 1) true.
Definition vec_out : tens nat := Tens [1; 2]%nat [0; 1]%nat.

(** FINDING (pytorch/hessian/weights_hessian_scores_calculator_pytorch.py L90):
    the scalar whose gradient is taken is the mean over the rows of the
    concatenated output, where Keras takes the sum.  The rows are the classes
    when the model returns one tensor (a single output is not put in a list,
    and iterating over it goes through the images), and the images otherwise.
    So the scores of the weights of one and the same network differ by the
    square of the number of classes between the frameworks, and between
    returning the output alone or with a second output. *)
Theorem torch_weights_scale_refuted :
  ~ (forall (O : Type) g (t : tens O) tgs draws b r,
       good_outputs (Bare t) b -> good_kernels tgs -> draws <> [] ->
       torch_weights_compute g (Bare t) tgs draws = Ok r ->
       torch_weights_compute g (Items [One t]) tgs draws = Ok r) /\
  ~ (forall (O : Type) g (o : outs O) tgs draws b,
       good_outputs o b -> good_kernels tgs -> draws <> [] ->
       torch_weights_compute g o tgs draws = keras_weights_compute g o tgs draws).
Proof.
  assert (G : good_outputs (Bare vec_out) 1).
  { split; [lia|]. split; [discriminate|]. split.
    - intros t [<- | []]. split; [reflexivity|]. now exists [2%nat].
    - exists 2%nat, []. split; [reflexivity|lia]. }
  assert (K : good_kernels [kern]).
  { intros tg [<- | []]. split; [cbn; lia|reflexivity]. }
  assert (T1 : torch_weights_compute GTensor (Bare vec_out) [kern] [[true; true]] = Ok [[1]]).
  { cbn. do 3 f_equal. field. }
  assert (T2 : torch_weights_compute GTensor (Items [One vec_out]) [kern] [[true; true]] = Ok [[4]]).
  { cbn. do 3 f_equal. field. }
  assert (T3 : keras_weights_compute GTensor (Bare vec_out) [kern] [[true; true]] = Ok [[4]]).
  { cbn. do 3 f_equal. field. }
  split; intro H.
  - specialize (H nat GTensor vec_out [kern] [[true; true]] 1%nat _ G K ltac:(discriminate) T1).
    rewrite T2 in H. injection H. lra.
  - specialize (H nat GTensor (Bare vec_out) [kern] [[true; true]] 1%nat G K ltac:(discriminate)).
    rewrite T1, T3 in H. injection H. lra.
Qed.
Print Assumptions torch_weights_scale_refuted.

Definition act122 : target nat := Target [1; 1; 2]%nat 1 (fun _ _ => 1) true.
Definition out11 : list (item nat) := [One (Tens [1; 1]%nat [0]%nat)].

(** FINDING (pytorch/hessian/activation_hessian_scores_calculator_pytorch.py L131):
    scores of the output channels of an activation are means over the
    positions of the channel, while scores of tensors are sums (and Keras sums
    in both): in PyTorch the scores of the channels do not add up to the score
    of the tensor. *)
Theorem torch_channels_add_up_refuted :
  ~ (forall (O : Type) (l : list (item O)) tgs b draws r r' i,
       good_outputs (Items l) b -> good_acts b tgs -> draws <> [] ->
       torch_act_compute GTensor l tgs draws = Ok r ->
       torch_act_compute GChannel l tgs draws = Ok r' ->
       sumR (nth i r []) = sumR (nth i r' [])).
Proof.
  intro H.
  specialize (H nat out11 [act122] 1%nat [[true]] [[2]] [[1]] 0%nat).
  cbn [nth] in H. assert (X : sumR [2] = sumR [1]); [|cbn in X; lra]. apply H.
  - split; [lia|]. split; [discriminate|]. split; [|exact I].
    intros t [<- | []]. split; [reflexivity|]. now exists [1%nat].
  - intros tg [<- | []]. split; [reflexivity|]. now exists 1%nat, [2%nat].
  - discriminate.
  - cbn. do 3 f_equal. field.
  - cbn. do 3 f_equal. unfold meanR. cbn. field.
Qed.
Print Assumptions torch_channels_add_up_refuted.

(** FINDING (pytorch/hessian/weights_hessian_scores_calculator_pytorch.py L77):
    the list of the images is passed to the model as one argument (the
    calculator of activations spreads it).  With one input it works, because a
    list returned by an operation is taken for the list of its outputs; with
    two inputs the first one gets both images and the second one raises. *)
Theorem weights_of_two_input_models_refuted :
  ~ (forall (X : Type) (images : list X) i x,
       nth_error images i = Some x ->
       input_node_outputs (weights_call images) i = Ok [x]).
Proof. intro H. specialize (H nat [0; 1]%nat 1%nat 1%nat eq_refl). discriminate H. Qed.
Print Assumptions weights_of_two_input_models_refuted.

(** one input, or spread images: every input gets its image *)
Theorem inputs_get_their_images : forall (X : Type) (images : list X) i x,
  nth_error images i = Some x ->
  input_node_outputs (act_call images) i = Ok [x] /\
  (length images = 1%nat -> input_node_outputs (weights_call images) i = Ok [x]).
Proof.
  intros X images i x H. unfold input_node_outputs, act_call, weights_call. split.
  - now rewrite nth_error_map, H.
  - intro L. destruct images as [|y [|z r]]; try discriminate L.
    destruct i as [|i]; [|destruct i; discriminate H]. injection H as <-. reflexivity.
Qed.
Print Assumptions inputs_get_their_images.

Definition dead2 : target nat := Target [2; 2]%nat 1 (fun _ _ => 0) false.
(* an activation in use beside one that is not *)
Example unused_instance : good_acts 2 (filter (@tg_conn nat) [act2; dead2]) /\ ~ good_acts 2 [act2; dead2].
Proof.
  split.
  - intros tg [<- | []]. split; [reflexivity|]. now exists 2%nat, [].
  - intro H. destruct (H dead2) as [E _]; [right; left; reflexivity|discriminate E].
Qed.

(** FINDING (keras/hessian/activation_hessian_scores_calculator_keras.py L101,
    L116-119, L152): an activation on which the outputs do not depend keeps its
    initial score, of one element, "considered to be 0"; but the scores of all
    activations are stacked, and those of the others have one element for each
    image: with more than one image the computation raises.  (PyTorch returns
    the zero.) *)
Theorem keras_unused_activation_refuted :
  ~ (forall (O : Type) g (l : list (item O)) tgs b draws,
       good_outputs (Items l) b -> tgs <> [] -> draws <> [] ->
       (forall tg, In tg tgs -> exists c r, tg_shape tg = b :: c :: r) ->
       exists r, keras_act_compute g l tgs draws = Ok r).
Proof.
  intro H.
  destruct (H nat GTensor outs2 [act2; dead2] 2%nat [[true; true]] outs2_good) as (r & E);
    try discriminate.
  intros tg [<- | [<- | []]]; now exists 2%nat, [].
Qed.
Print Assumptions keras_unused_activation_refuted.

(** FINDING (pytorch/hessian/hessian_scores_calculator_pytorch.py L53 and
    keras/hessian/hessian_scores_calculator_keras.py L72): a model whose single
    output has one value for each image (shape [batch]) gets no scores for its
    weights: the iteration goes over the values, which have no first axis. *)
Theorem scalar_output_refuted :
  ~ (forall (O : Type) g (t : tens O) tgs draws b,
       t_shape t = [b] -> length (t_data t) = b -> (0 < b)%nat ->
       good_kernels tgs ->
       is_ok (torch_weights_compute g (Bare t) tgs draws) = true \/
       is_ok (keras_weights_compute g (Bare t) tgs draws) = true).
Proof.
  intro H.
  destruct (H nat GTensor (Tens [1]%nat [0]%nat) [kern] [[true]] 1%nat eq_refl eq_refl ltac:(lia))
    as [E | E]; try discriminate E.
  intros tg [<- | []]. split; [cbn; lia|reflexivity].
Qed.
Print Assumptions scalar_output_refuted.

Definition act_flat : target nat := Target [2]%nat 0 (fun o k => if Nat.eqb o k then 1 else 0) true.

(** FINDING (pytorch/hessian/activation_hessian_scores_calculator_pytorch.py
    L129): an activation with one value for each image (shape [batch]) has no
    axis to sum over, and a sum over an empty tuple of axes is a sum over all
    of them, the images included: one score for the whole batch. *)
Theorem flat_activation_per_image_refuted :
  ~ (forall (O : Type) (l : list (item O)) tgs b draws r n,
       good_outputs (Items l) b -> draws <> [] ->
       (forall tg, In tg tgs -> tg_conn tg = true /\ nth 0 (tg_shape tg) 0%nat = b) ->
       (n < length tgs)%nat ->
       torch_act_compute GTensor l tgs draws = Ok r -> length (nth n r []) = b).
Proof.
  intro H.
  assert (X : length (nth 0 [[2]] []) = 2%nat); [|discriminate X].
  apply (H nat outs2 [act_flat] 2%nat [[true; true]] [[2]] 0%nat outs2_good).
  - discriminate.
  - intros tg [<- | []]. split; reflexivity.
  - cbn. lia.
  - cbn. do 3 f_equal. field.
Qed.
Print Assumptions flat_activation_per_image_refuted.
