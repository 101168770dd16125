(* KCallExProps.v -- calls meeting the hypotheses of KCallProps.v, and calls that are read or rebuilt wrongly (C81). *)
From Coq Require Import Lia.
From Verif Require Import Base GraphModel HessianModel KCallModel KCallSpec KCallProps.
Local Open Scope nat_scope.

(* f(a, b, c, d): parameters 1, 2, 3, 4 *)
Definition four : params := [1; 2; 3; 4].
Lemma four_nodup : NoDup four. Proof. repeat constructor; cbn; intuition discriminate. Qed.
Ltac here := repeat (first [left; reflexivity|right]).

(* f(const, x, d=y, c=7): constants, tensors and a number *)
Example ex_constants : let args := [VC 0; VT 10] in let kw := [(4, VT 11); (3, VO 7)] in
  valid_call four args kw /\ no_gap four args kw /\ names_ordered four kw /\ keras_inputs args kw = [10; 11] /\
  match read_function four false args kw with
  | Ok n => f_weights n = [(0, VA (VC 0))] /\ f_kw n = [(3, VO 7)] /\ build_function n [10; 11] = Ok ([], [(3, VO 7); (1, VA (VC 0)); (2, VT 10); (4, VT 11)])
  | Err _ => False end.
Proof.
  cbv zeta. split; [|split; [|split; [|split; [reflexivity|repeat split]]]].
  - split; [cbn; lia|]. split; [repeat constructor; cbn; intuition discriminate|]. cbn. intros k [<-|[<-|[]]]; tauto.
  - intros k v i j p [E|[E|[]]] C; injection E as <- <-; discriminate.
  - intros k1 k2 t1 t2 i1 i2 [E|[E|[]]] [F|[F|[]]] P Q L; try discriminate. injection E as <- <-. injection F as <- <-. rewrite P in Q. injection Q as ->. lia.
Qed.
(* concat([x, const, y], 7): three elements *)
Example ex_list : match read_function four true [VSeq true [VT 10; VC 0; VT 11]; VO 7] [(4, VO 8)] with
  | Ok n => f_weights n = [(1, VA (VC 0))] /\ build_function n [10; 11] = Ok ([VSeq true [VT 10; VA (VC 0); VT 11]; VO 7], [(4, VO 8)])
  | Err _ => False end.
Proof. split; reflexivity. Qed.

(* FINDING (core/keras/reader/node_builder.py L174-180, core/keras/back2framework/keras_model_builder.py L274): without
   constants the tensors are put in front of the other arguments: tf.subtract(2.0, x) becomes tf.subtract(x, 2.0), and
   tf.einsum('ij,jk->ik', a, b) is called with the equation last. *)
Theorem number_before_tensor_refuted : exists args kw n args' kw', valid_call four args kw /\ (forall v, In v args -> simple v /\ ~ constant v) /\
  read_function four false args kw = Ok n /\ build_function n (keras_inputs args kw) = Ok (args', kw') /\
  gives four args kw 1 = Some (VO 2) /\ gives four args' kw' 1 = Some (VT 10) /\ ~ same_call four args kw args' kw'.
Proof.
  exists [VO 2; VT 10], [], (FNode [] [VO 2] [] [] false), [VT 10; VO 2], []. split; [split; [cbn; lia|split; [constructor|intros ? []]]|]. split; [intros v [<-|[<-|[]]]; split; try exact I; discriminate|]. repeat split.
  intros [_ H]. specialize (H 1). discriminate H.
Qed.
Print Assumptions number_before_tensor_refuted.

(* FINDING (node_builder.py L106-107, keras_model_builder.py L274): tensors given by keyword are passed by position, in
   the order of their names: f(d=x) becomes f(x); tf.gather(params=x, indices=i) becomes tf.gather(i, x). *)
Theorem keyword_tensors_refuted : exists kw n args' kw', valid_call four [] kw /\ read_function four false [] kw = Ok n /\
  build_function n (keras_inputs [] kw) = Ok (args', kw') /\ gives four [] kw 1 = None /\ gives four args' kw' 1 = Some (VT 10) /\ ~ same_call four [] kw args' kw'.
Proof.
  exists [(4, VT 10)], (FNode [] [] [] [] false), [VT 10], []. split; [split; [cbn; lia|split; [repeat constructor; intros []|cbn; intros k [<-|[]]; tauto]]|]. repeat split.
  intros [_ H]. specialize (H 1). discriminate H.
Qed.
Print Assumptions keyword_tensors_refuted.

(* FINDING (node_builder.py L103, keras_model_builder.py L250-259): a constant keyword is stored under the index of its
   parameter and looked up under its position among the arguments given.  When a parameter in front of it is left out,
   the two differ: f(x, c=const) is refused, and in f(x, c=const, d=y) the constant and the tensor change places. *)
Theorem left_out_parameter_refuted : exists kw n args' kw', valid_call four [VT 10] kw /\ names_ordered four kw /\
  read_function four false [VT 10] kw = Ok n /\ build_function n (keras_inputs [VT 10] kw) = Ok (args', kw') /\
  gives four [VT 10] kw 3 = Some (VC 0) /\ gives four args' kw' 3 = Some (VT 11) /\ gives four args' kw' 4 = Some (VA (VC 0)) /\ ~ same_call four [VT 10] kw args' kw' /\
  exists n', read_function four false [VT 10] [(3, VC 0)] = Ok n' /\ build_function n' (keras_inputs [VT 10] [(3, VC 0)]) = Err E_critical.
Proof.
  exists [(3, VC 0); (4, VT 11)], (FNode [(2, VA (VC 0))] [] [] [1; 3; 4] false), [], [(1, VT 10); (3, VT 11); (4, VA (VC 0))].
  split; [split; [cbn; lia|split; [repeat constructor; cbn; intuition discriminate|cbn; intros k [<-|[<-|[]]]; tauto]]|].
  split; [intros k1 k2 t1 t2 i1 i2 [E|[E|[]]] [F|[F|[]]] P Q L; try discriminate; injection E as <- <-; injection F as <- <-; rewrite P in Q; injection Q as ->; lia|].
  do 5 (split; [reflexivity|]). split; [intros [_ H]; specialize (H 3); discriminate H|]. eexists. split; reflexivity.
Qed.
Print Assumptions left_out_parameter_refuted.

(* FINDING (node_builder.py L106-107): the positions of constants in a list are taken for indices of parameters: with a
   constant in second place, the keyword axis (second parameter of tf.concat and tf.stack) is dropped --
   tf.stack([x, const], axis=1) is built as tf.stack([x, const]). *)
Theorem list_keyword_dropped_refuted : exists kw n args' kw', valid_call four [VSeq true [VT 10; VC 0]] kw /\
  read_function four true [VSeq true [VT 10; VC 0]] kw = Ok n /\ build_function n (keras_inputs [VSeq true [VT 10; VC 0]] kw) = Ok (args', kw') /\
  gives four [VSeq true [VT 10; VC 0]] kw 2 = Some (VI 1) /\ gives four args' kw' 2 = None.
Proof.
  exists [(2, VI 1)], (FNode [(1, VA (VC 0))] [] [] [] true), [VSeq true [VT 10; VA (VC 0)]], []. split; [split; [cbn; lia|split; [repeat constructor; intros []|cbn; intros k [<-|[]]; tauto]]|]. repeat split.
Qed.
Print Assumptions list_keyword_dropped_refuted.

(* FINDING (node_builder.py L164-176): a number in the list is neither a tensor nor a constant and disappears:
   tf.stack([x, 1.0]) is built as tf.stack([x]). *)
Theorem list_number_dropped_refuted : exists n, read_function four true [VSeq true [VT 10; VO 1]] [] = Ok n /\
  build_function n (keras_inputs [VSeq true [VT 10; VO 1]] []) = Ok ([VSeq true [VT 10]], []).
Proof. eexists. split; reflexivity. Qed.
Print Assumptions list_number_dropped_refuted.

(* FINDING (node_builder.py L100-103, base_node.py L367-371): a keyword of a list function given as an array is stored
   under the index of its parameter and put into the list: tf.stack([x, y], axis=array) stacks [x, axis, y]. *)
Theorem list_constant_keyword_refuted : exists n, read_function four true [VSeq true [VT 10; VT 11]] [(2, VC 0)] = Ok n /\
  build_function n (keras_inputs [VSeq true [VT 10; VT 11]] [(2, VC 0)]) = Ok ([VSeq true [VT 10; VA (VC 0); VT 11]], []).
Proof. eexists. split; reflexivity. Qed.
Print Assumptions list_constant_keyword_refuted.

(* FINDING (node_builder.py L48-49): the first element of an empty list is looked at -- tf.reshape(x, []) raises an
   IndexError; a tuple of tensors is taken for a constant -- tf.concat((x, y), 0) raises in numpy. *)
Theorem sequences_refuted : read_function four false [VT 10; VSeq true []] [] = Err E_index /\
  read_function four true [VSeq false [VT 10; VT 11]; VI 0] [] = Err E_type /\ read_function four true [] [(1, VSeq true [VT 10; VT 11]); (2, VI 0)] = Err E_type.
Proof. repeat split. Qed.
Print Assumptions sequences_refuted.

(* FINDING (keras_model_builder.py L275-280): a layer that is not a merge layer and is called on a list of one tensor is
   called on the tensor. *)
Theorem single_list_refuted : exists n, read_layer false [VSeq true [VT 10]] = Ok n /\ build_layer n (keras_inputs [VSeq true [VT 10]] []) = Ok (VT 10).
Proof. eexists. split; reflexivity. Qed.
Print Assumptions single_list_refuted.

(* FINDING (node_builder.py L286-303, keras_model_builder.py L275-280): the keywords of a layer call are not read (a
   BatchNormalization called with training=True is built as a call without it), and a tensor among them becomes an
   element of the list of inputs: layer(x, mask=m) is built as layer([x, m]). *)
Theorem layer_keyword_tensor_refuted : exists n, read_layer false [VT 10] = Ok n /\ build_layer n (keras_inputs [VT 10] [(1, VT 11)]) = Ok (VSeq true [VT 10; VT 11]).
Proof. eexists. split; reflexivity. Qed.
Print Assumptions layer_keyword_tensor_refuted.
