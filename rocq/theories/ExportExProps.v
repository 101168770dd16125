(* ExportExProps.v -- C87: an instance, and where the exported weights are not the toolkit's. *)
From Coq Require Import String Ascii.
From Verif Require Import Nd.
From Verif Require Import Base RoundQ QuantModel QuantSpec LutModel FakeQModel FakeQSpec FilterModel FilterProps ExportModel ExportSpec ExportProofs ExportProps.
From Coq Require Import Qround Qpower Qabs Lia Lqa.
Open Scope Q_scope.
Open Scope string_scope.

(* a kernel of two rows and two columns, the channels along the first axis, with thresholds 4 and 1; a bias *)
Definition kernel : qt := QT [2;2]%nat (fun idx => match idx with [0;0]%nat => 11#10 | [0;1]%nat => -9 | [1;0]%nat => 3#10 | _ => 9 end).
Definition thr : qt := QT [2;1]%nat (fun idx => match idx with [0;0]%nat => 4 | _ => 1 end).
Definition bias : qt := QT [2]%nat (fun _ => 1#3).
Definition kernel_cfg : acfg := ACfg true W_pot 3 true (Some 0%nat) (Some thr) None None None None.
Definition bias_cfg : acfg := ACfg false W_pot 8 false None None None None None None.
Definition dense (name : string) : enode :=
  ENode [(KN (name ++ "/kernel:0"), kernel); (KN (name ++ "/bias:0"), bias)]
        [(KN (name ++ "/kernel:0"), kernel_cfg); (KN (name ++ "/bias:0"), bias_cfg)].
Definition kernel_ready f : bits_taken f 3 -> ready f kernel_cfg kernel.
Proof.
  intro H. unfold ready. cbn. split; [exact H|]. exists thr. split; [reflexivity|]. split; [exists 0%nat; split; [reflexivity|]; split; [lia|reflexivity]|].
  split; [intros idx _; unfold thr; cbn; destruct idx as [|[|] [|[|] [|]]]; reflexivity|].
  intros _ idx _. unfold thr, power_of_two. cbn. destruct idx as [|[|] [|[|] [|]]]; try (exists 0%Z; reflexivity); exists 2%Z; reflexivity.
Defined.
Example dense_exportable : forall f, exportable f (dense "d").
Proof.
  intro f. split; [repeat constructor; cbn; intuition discriminate|]. split; [repeat constructor; cbn; intuition discriminate|].
  intros k w [E|[E|[]]]; injection E as <- <-.
  - exists kernel_cfg. split; [left; reflexivity|]. intros _. split; [apply kernel_ready; destruct f; cbn; lia|].
    intros _ s s' c' Es. injection Es as <-. intros [E|[E|[]]] O; injection E as <- _; [reflexivity|].
    exfalso. apply str_contains_spec in O. discriminate O.
  - exists bias_cfg. split; [right; left; reflexivity|]. discriminate.
Qed.
Definition entries (r : result (list (ekey * qt))) : list (list Q) := match r with Ok l => map (fun kw => map Qred (flatten_list (snd kw))) l | Err _ => [] end.
Example dense_exported :
  entries (exported_weights Torch (dense "d")) = [[1; -4; 1#4; 3#4]; [1#3; 1#3]] /\
  entries (exported_weights Keras (dense "d")) = [[1; -4; 1#4; 3#4]; [1#3; 1#3]] /\
  entries (toolkit_weights (dense "d")) = [[1; -4; 1#4; 3#4]; [1#3; 1#3]].
Proof. repeat split; vm_compute; reflexivity. Qed.

(* FINDING (core/keras/keras_implementation.py L605-612 with node_quantization_config.py L468-483): the exporter looks a
   weight up by the last part of its name, among all names that contain it.  The full name starts with the name of the
   layer, so a layer whose own name contains "kernel" cannot be exported, although its weights are quantized. *)
Theorem kernel_in_layer_name_refuted :
  exported_weights Keras (dense "kernel_1") = Err E_critical /\ is_ok (toolkit_weights (dense "kernel_1")) = true /\
  is_ok (exported_weights Torch (dense "kernel_1")) = true.
Proof. repeat split; vm_compute; reflexivity. Qed.
Print Assumptions kernel_in_layer_name_refuted.

Definition half_kernel : qt := QT [1]%nat (fun _ => 1#2).
Definition half_thr : qt := QT []%nat (fun _ => 4).
Definition half (n : Z) : enode :=
  ENode [(KN "w", half_kernel)] [(KN "w", ACfg true W_sym n false None (Some half_thr) None None None None)].
(* FINDING (exporter/model_wrapper/keras/builder/node_to_quantizer.py L52-59): an entry half-way between two grid values is
   rounded up by the exported Keras layer and to the even value by the toolkit, so the exported weights are not those on
   which bias correction and the mixed-precision search were based. *)
Theorem exported_half_refuted : entries (exported_weights Keras (half 3)) = [[1]] /\ entries (toolkit_weights (half 3)) = [[0]] /\
  entries (exported_weights Torch (half 3)) = [[0]].
Proof. repeat split; vm_compute; reflexivity. Qed.
Print Assumptions exported_half_refuted.

(* FINDING (the same lines): the toolkit quantizes weights to one bit, or to more than sixteen; TensorFlow's quantizer of
   the exported layer takes two to sixteen. *)
Theorem exported_one_bit_refuted : exported_weights Keras (half 1) = Err E_value /\ is_ok (toolkit_weights (half 1)) = true /\
  exported_weights Keras (half 17) = Err E_value /\ is_ok (toolkit_weights (half 17)) = true.
Proof. repeat split; vm_compute; reflexivity. Qed.
Print Assumptions exported_one_bit_refuted.

(* FINDING (exporter/model_wrapper/keras/builder/node_to_quantizer.py L100-105 with core/keras/quantizer/fake_quant_builder.py
   L137-144): for a range that does not contain zero the exported quantizer and the one used inside the toolkit differ. *)
Theorem exported_positive_range_refuted :
  let p := {| fp_threshold := None; fp_signed := None; fp_min := Some 2; fp_max := Some 5; fp_lut := None |} in
  exists y z, exported_activation Keras (A_of M_uniform) 2 p [5] = Ok [y] /\ y == 5 /\
    quantize_node_output Keras M_uniform 2 p [5] = Ok [z] /\ z == 3.
Proof. cbv zeta. do 2 eexists. split; [vm_compute; reflexivity|]. split; [reflexivity|]. split; [vm_compute; reflexivity|reflexivity]. Qed.
Print Assumptions exported_positive_range_refuted.
