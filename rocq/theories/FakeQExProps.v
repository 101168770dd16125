(* FakeQExProps.v -- C79: an instance, and where the framework's activation quantizers differ from the numpy ones. *)
From Verif Require Import Base RoundQ RoundQFacts QuantModel QuantSpec LutModel FakeQModel FakeQSpec FakeQProps.
From Coq Require Import Qround Qpower Qabs Lia Lqa.
Open Scope Q_scope.

Definition sym_params (t : Q) (s : bool) : aparams := {| fp_threshold := Some t; fp_signed := Some s; fp_min := None; fp_max := None; fp_lut := None |}.
Definition uni_params (a b : Q) : aparams := {| fp_threshold := None; fp_signed := None; fp_min := Some a; fp_max := Some b; fp_lut := None |}.

Example framework_instance :
  (exists k, (4 : Q) == Qpower 2 k) /\ supported Keras 3 /\ tie_free (step 4 3 true) (11#10) /\
  (exists ys, quantize_node_output Keras M_pot 3 (sym_params 4 true) [11#10; -9; 9] = Ok ys /\ map Qred ys = [1; -4; 3]) /\
  (exists ys, quantize_node_output Torch M_pot 3 (sym_params 4 true) [11#10; -9; 9] = Ok ys /\ map Qred ys = [1; -4; 3]).
Proof.
  split; [exists 2%Z; reflexivity|]. split; [cbn; lia|]. split.
  - intros k E. unfold step in E. change (4 / inject_Z (2 ^ (3 - 1))) with (4#4) in E. unfold Qeq in E. cbn in E. lia.
  - split; eexists; (split; [vm_compute; reflexivity|reflexivity]).
Qed.
Example uniform_instance : tie_free (range_step (-1) 2 2) (-1) /\
  exists ys, quantize_node_output Keras M_uniform 2 (uni_params (-1) 2) [1#3; -5; 5] = Ok ys /\ map Qred ys = [0; -1; 2].
Proof.
  split; [|eexists; split; [vm_compute; reflexivity|reflexivity]].
  intros k E. change (range_step (-1) 2 2) with (3#3) in E. unfold Qeq in E. cbn in E. lia.
Qed.

(* FINDING (pytorch/quantizer/fake_quant_builder.py L141-167): an element half-way between two grid values goes to the
   even multiple of the step in PyTorch and to the even offset from the bottom of the range in numpy, so the two differ
   whenever the zero point is odd: range [-1, 2], two bits, element 1/2. *)
Theorem torch_uniform_half_refuted :
  quantize_node_output Torch M_uniform 2 (uni_params (-1) 2) [1#2] <> Err E_critical /\
  ~ (exists y z, quantize_node_output Torch M_uniform 2 (uni_params (-1) 2) [1#2] = Ok [y] /\
       uniform_quantizer [1#2] 2 (Some (-1)) (Some 2) = Ok [z] /\ y == z).
Proof. split; [discriminate|]. intros (y & z & A & B & C). vm_compute in A, B. injection A as <-. injection B as <-. revert C. unfold Qeq. cbn. discriminate. Qed.
Print Assumptions torch_uniform_half_refuted.

(* FINDING (pytorch/quantizer/fake_quant_builder.py L51-54): the same for one signed bit. *)
Theorem torch_one_bit_half_refuted :
  ~ (exists y z, quantize_node_output Torch M_sym 1 (sym_params 1 true) [-1#2] = Ok [y] /\
       symmetric_quantizer [-1#2] 1 true (Some 1) = Ok [z] /\ y == z).
Proof. intros (y & z & A & B & C). vm_compute in A, B. injection A as <-. injection B as <-. revert C. unfold Qeq. cbn. discriminate. Qed.
Print Assumptions torch_one_bit_half_refuted.

(* FINDING (keras/quantizer/fake_quant_builder.py L164): TensorFlow rounds half up, so a model quantized in Keras differs
   from the numpy quantizer, and from PyTorch, on elements half-way between two grid values. *)
Theorem keras_half_refuted :
  ~ (exists y z, quantize_node_output Keras M_sym 3 (sym_params 4 true) [1#2] = Ok [y] /\
       symmetric_quantizer [1#2] 3 true (Some 4) = Ok [z] /\ y == z) /\
  ~ (exists y z, quantize_node_output Keras M_sym 3 (sym_params 4 true) [1#2] = Ok [y] /\
       quantize_node_output Torch M_sym 3 (sym_params 4 true) [1#2] = Ok [z] /\ y == z).
Proof. split; intros (y & z & A & B & C); vm_compute in A, B; injection A as <-; injection B as <-; revert C; unfold Qeq; cbn; discriminate. Qed.
Print Assumptions keras_half_refuted.

(* FINDING (keras/quantizer/fake_quant_builder.py L137-144): PyTorch first extends the range to contain zero, Keras does not,
   and TensorFlow then moves the range instead of extending it: with range [2, 5] every element above 3 is cut to 3. *)
Theorem keras_positive_range_refuted :
  exists y z, quantize_node_output Keras M_uniform 2 (uni_params 2 5) [5] = Ok [y] /\ y == 3 /\
    quantize_node_output Torch M_uniform 2 (uni_params 2 5) [5] = Ok [z] /\ z == 5.
Proof. do 2 eexists. split; [vm_compute; reflexivity|]. split; [reflexivity|]. split; [vm_compute; reflexivity|reflexivity]. Qed.
Print Assumptions keras_positive_range_refuted.

(* FINDING (keras/quantizer/fake_quant_builder.py L147-167): one bit, or more than sixteen, cannot be run in Keras. *)
Theorem keras_bit_widths_refuted : forall p t s xs, fp_threshold p = Some t -> fp_signed p = Some s ->
  quantize_node_output Keras M_sym 1 p xs = Err E_value /\ quantize_node_output Keras M_sym 17 p xs = Err E_value.
Proof. intros p t s xs Et Es. unfold quantize_node_output, fake_quant_fn, keras_symmetric. rewrite Et, Es. split; destruct (keras_symmetric_range _ _ _); reflexivity. Qed.
Print Assumptions keras_bit_widths_refuted.
