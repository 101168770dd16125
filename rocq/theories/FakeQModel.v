(* FakeQModel.v -- activation quantizers that run inside the framework (mixed precision, shift negative correction).
   Sources (model_compression_toolkit/core/):
     pytorch/quantizer/fake_quant_builder.py L35-167, pytorch/quantizer/lut_fake_quant.py L21-115
     keras/quantizer/fake_quant_builder.py L39-167, keras/quantizer/lut_fake_quant.py L24-118
     common/quantization/node_quantization_config.py quantize_node_output L153-173
     pytorch/default_framework_info.py L87-91, keras/default_framework_info.py L109-113 (the mapping from methods)
   Simplifications: exact rationals for floats; a tensor is the list of its elements.  The two library functions are
   written down from their documented behaviour: torch.fake_quantize_per_tensor_affine (round half to even, add the
   zero point, clamp, subtract the zero point, scale; the zero point must lie in the range) and
   tf.quantization.fake_quant_with_min_max_vars (2 to 16 bits; the zero point is rounded half away from zero and the
   range shifted to it; clamp, then round half up). *)
From Verif Require Import Base RoundQ QuantModel LutModel.
From Coq Require Import Qround Qpower.
Open Scope Q_scope.

Inductive fw := Torch | Keras.
Inductive method := M_pot | M_sym | M_uniform | M_lut.
(* activation_quantization_params, a dictionary *)
Record aparams := { fp_threshold : option Q; fp_signed : option bool; fp_min : option Q; fp_max : option Q;
                    fp_lut : option (list Q) }.

Definition zclamp (k lo hi : Z) : Z := Z.min (Z.max k lo) hi.
(* pytorch fake_quant_builder.py q L146-167 *)
Definition torch_elem (scale : Q) (zp qmin qmax : Z) (x : Q) : Q :=
  inject_Z (zclamp (zp + round_half_even (x / scale)) qmin qmax - zp) * scale.
Definition torch_q (qmin qmax : Z) (scale : Q) (zp : Z) (xs : list Q) : result (list Q) :=
  if (qmin <=? zp)%Z && (zp <=? qmax)%Z then Ok (map (torch_elem scale zp qmin qmax) xs) else Err E_runtime.

(* half away from zero (std::round), the argument being non-negative where it is used *)
Definition round_half_up (q : Q) : Z := Qfloor (q + (1#2)).
(* keras fake_quant_builder.py q L147-167 *)
Definition tf_zero_point (lo scale : Q) (qmax : Z) : Z :=
  let z := - (lo / scale) in
  if Qlt_b z 0 then 0%Z else if Qlt_b (inject_Z qmax) z then qmax else round_half_up z.
Definition tf_elem (lo hi : Q) (n_bits : Z) (x : Q) : Q :=
  let qmax := (2 ^ n_bits - 1)%Z in
  let scale := (hi - lo) / inject_Z qmax in
  let zp := tf_zero_point lo scale qmax in
  let nmin := inject_Z (0 - zp) * scale in
  let nmax := inject_Z (qmax - zp) * scale in
  let quant_zero := Qfloor (- nmin / scale + (1#2)) in
  inject_Z (Qfloor ((clip x nmin nmax - nmin) / scale - inject_Z quant_zero + (1#2))) * scale.
Definition tf_q (lo hi : Q) (n_bits : Z) (xs : list Q) : result (list Q) :=
  if (2 <=? n_bits)%Z && (n_bits <=? 16)%Z then Ok (map (tf_elem lo hi n_bits) xs) else Err E_value.

Notation quantizer := (list Q -> result (list Q)).

(* pytorch L35-60 *)
Definition torch_symmetric_range (signed : bool) (n_bits : Z) (threshold : Q) : Z * Z * Q :=
  if signed then ((- 2 ^ (n_bits - 1))%Z, (2 ^ (n_bits - 1) - 1)%Z, threshold / Qpower 2 (n_bits - 1))
  else (0%Z, (2 ^ n_bits - 1)%Z, threshold / Qpower 2 n_bits).
(* keras L39-63 *)
Definition keras_symmetric_range (signed : bool) (n_bits : Z) (threshold : Q) : Q * Q :=
  let delta := if signed then threshold / Qpower 2 (n_bits - 1) else threshold / Qpower 2 n_bits in
  (if signed then - threshold else 0, threshold - delta).

(* pytorch L89-112; None: no quantizer *)
Definition torch_symmetric (n_bits : Z) (p : aparams) : result (option quantizer) :=
  match fp_threshold p, fp_signed p with
  | Some t, Some s =>
      let '(mn, mx, scale) := torch_symmetric_range s n_bits t in
      Ok (Some (torch_q mn mx scale 0))
  | _, _ => Ok None
  end.
(* pytorch L63-86 *)
Definition torch_pot (n_bits : Z) (p : aparams) : result (option quantizer) :=
  match fp_threshold p, fp_signed p with
  | Some t, Some s =>
      match threshold_is_power_of_two t with
      | None => Err E_value
      | Some false => Ok None
      | Some true => torch_symmetric n_bits p
      end
  | _, _ => Ok None
  end.
(* pytorch L115-143 *)
Definition torch_uniform (n_bits : Z) (p : aparams) : result (option quantizer) :=
  match fp_min p, fp_max p with
  | Some a, Some b =>
      let a := if Qlt_b 0 a then 0 else a in
      let b := if Qlt_b b 0 then 0 else b in
      let '(a, b) := fix_range_to_include_zero a b n_bits in
      let scale := (b - a) / (Qpower 2 n_bits - 1) in
      Ok (Some (torch_q 0 (2 ^ n_bits - 1) scale (- round_half_even (a / scale))))
  | _, _ => Ok None
  end.
(* keras L96-121 *)
Definition keras_symmetric (n_bits : Z) (p : aparams) : result (option quantizer) :=
  match fp_threshold p, fp_signed p with
  | Some t, Some s => let '(mn, mx) := keras_symmetric_range s n_bits t in Ok (Some (tf_q mn mx n_bits))
  | _, _ => Err E_critical
  end.
(* keras L66-93 *)
Definition keras_pot (n_bits : Z) (p : aparams) : result (option quantizer) :=
  match fp_threshold p, fp_signed p with
  | Some t, Some s =>
      match threshold_is_power_of_two t with
      | None => Err E_value
      | Some false => Err E_critical
      | Some true => keras_symmetric n_bits p
      end
  | _, _ => Err E_critical
  end.
(* keras L124-144 *)
Definition keras_uniform (n_bits : Z) (p : aparams) : result (option quantizer) :=
  match fp_min p, fp_max p with
  | Some a, Some b => Ok (Some (tf_q a b n_bits))
  | _, _ => Err E_critical
  end.

(* pytorch lut_fake_quant.py L65-88, one element (keras L67-91 is the same arithmetic) *)
Definition lut_elem (lut : list Q) (threshold : Q) (signed : bool) (x : Q) : result Q :=
  let v := int_quantization_with_threshold threshold LUT_VALUES_BITWIDTH signed x in
  let! i := kmeans_assign lut v in
  match nth_error lut i with
  | Some c => Ok (c / Qpower 2 (LUT_VALUES_BITWIDTH - b2z signed) * threshold)
  | None => Err E_index
  end.
(* L21-63; the bit-width is not used.  Missing parameters make the layer return None (E_type here), except that
   PyTorch refuses a missing table when building the layer (to_torch_tensor(None)) *)
Definition lut_fake_quant (f : fw) (p : aparams) : result (option quantizer) :=
  match f, fp_lut p with
  | Torch, None => Err E_critical
  | _, _ => Ok (Some (fun xs => match fp_lut p, fp_threshold p, fp_signed p with
                                | Some lut, Some t, Some s => mapM (lut_elem lut t s) xs
                                | _, _, _ => Err E_type end))
  end.

(* default_framework_info.py: activation_quantizer_mapping *)
Definition fake_quant_fn (f : fw) (m : method) (n_bits : Z) (p : aparams) : result (option quantizer) :=
  match f, m with
  | Torch, M_pot => torch_pot n_bits p
  | Torch, M_sym => torch_symmetric n_bits p
  | Torch, M_uniform => torch_uniform n_bits p
  | Keras, M_pot => keras_pot n_bits p
  | Keras, M_sym => keras_symmetric n_bits p
  | Keras, M_uniform => keras_uniform n_bits p
  | _, M_lut => lut_fake_quant f p
  end.
(* node_quantization_config.py L153-173 *)
Definition quantize_node_output (f : fw) (m : method) (n_bits : Z) (p : aparams) (xs : list Q) : result (list Q) :=
  let! q := fake_quant_fn f m n_bits p in
  match q with None => Err E_critical | Some q => q xs end.
