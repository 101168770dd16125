(* QuantModel.v -- fake-quantization arithmetic, function by function.
   Source: model_compression_toolkit/core/common/quantization/quantizers/quantizers_helpers.py
           model_compression_toolkit/core/common/quantization/quantizers/uniform_quantizers.py
   Simplifications: exact rationals for floats; a tensor is the list of its elements sharing one
   threshold (one channel, or the whole tensor when per_channel is False). *)
From Verif Require Import Base RoundQ.
From Coq Require Import Qround Qpower.
Open Scope Q_scope.

(* quantizers_helpers.py L25-41: np.power(2.0, np.ceil(np.log2(np.maximum(x, min_threshold)))) *)
Definition max_power_of_two (x min_threshold : Q) : Q :=
  Qpower 2 (clog2 (Qmax_ x min_threshold)).

Definition b2z (b : bool) : Z := if b then 1%Z else 0%Z.
Definition b2q (b : bool) : Q := if b then 1 else 0.

(* quantizers_helpers.py L44-60: threshold / (2 ** (n_bits - int(signed))) *)
Definition calculate_delta (threshold : Q) (n_bits : Z) (signed : bool) : Q :=
  threshold / Qpower 2 (n_bits - b2z signed).

(* quantizers_helpers.py L273-299; the boolean masks multiply as 0/1 exactly as in the code *)
Definition fix_range_to_include_zero (range_min range_max : Q) (n_bits : Z) : Q * Q :=
  let min_positive := Qlt_b 0 range_min in
  let max_negative := Qlt_b range_max 0 in
  let scale := (range_max - range_min) / (Qpower 2 n_bits - 1) in
  let min_range_adj := scale * inject_Z (round_half_even (range_min / scale)) in
  let max_range_adj := range_max - range_min + min_range_adj in
  let mid_range := negb min_positive && negb max_negative in
  (min_range_adj * b2q mid_range + b2q max_negative * range_min,
   max_range_adj * b2q mid_range + b2q min_positive * range_max).

(* quantizers_helpers.py L96-124, one element *)
Definition uniform_quantize_elem (range_min range_max : Q) (n_bits : Z) (x : Q) : Q :=
  let '(a, b) := fix_range_to_include_zero range_min range_max n_bits in
  let delta := (b - a) / (Qpower 2 n_bits - 1) in
  let clipped := clip x a b in
  delta * inject_Z (round_half_even ((clipped - a) / delta)) + a.

Definition uniform_quantize_tensor (xs : list Q) (range_min range_max : Q) (n_bits : Z) : list Q :=
  map (uniform_quantize_elem range_min range_max n_bits) xs.

(* quantizers_helpers.py L63-93, one element *)
Definition quantize_elem (threshold : Q) (n_bits : Z) (signed : bool) (x : Q) : Q :=
  let delta := calculate_delta threshold n_bits signed in
  let range_min := - threshold * b2q signed in
  let range_max := threshold - delta in
  uniform_quantize_elem range_min range_max n_bits x.

Definition quantize_tensor (xs : list Q) (threshold : Q) (n_bits : Z) (signed : bool) : list Q :=
  map (quantize_elem threshold n_bits signed) xs.

(* uniform_quantizers.py L24-29: np.log2(threshold) == int(np.log2(threshold)).
   A non-positive threshold has nan / -inf log2: int() raises on both, kept as the separate
   error below (ValueError / OverflowError), reported here as [None]. *)
Definition threshold_is_power_of_two (threshold : Q) : option bool :=
  if Qle_bool threshold 0 then None
  else Some (Qeq_bool (Qpower 2 (clog2 threshold)) threshold).

(* uniform_quantizers.py L32-67, threshold looked up in quantization_params *)
Definition power_of_two_quantizer (xs : list Q) (n_bits : Z) (signed : bool) (threshold : option Q)
  : result (list Q) :=
  match threshold with
  | None => Err E_critical
  | Some t =>
      match threshold_is_power_of_two t with
      | None => Err E_value
      | Some false => Err E_critical
      | Some true => if Qle_bool t 0 then Err E_critical else Ok (quantize_tensor xs t n_bits signed)
      end
  end.

(* uniform_quantizers.py L70-101 *)
Definition symmetric_quantizer (xs : list Q) (n_bits : Z) (signed : bool) (threshold : option Q)
  : result (list Q) :=
  match threshold with
  | None => Err E_critical
  | Some t => if Qle_bool t 0 then Err E_critical else Ok (quantize_tensor xs t n_bits signed)
  end.

(* uniform_quantizers.py L104-129 *)
Definition uniform_quantizer (xs : list Q) (n_bits : Z) (range_min range_max : option Q)
  : result (list Q) :=
  match range_min, range_max with
  | Some a, Some b => Ok (uniform_quantize_tensor xs a b n_bits)
  | _, _ => Err E_critical
  end.

(* min / max of a tensor (np.min, np.max); numpy raises ValueError on an empty tensor *)
Definition list_max (xs : list Q) : result Q :=
  match xs with [] => Err E_value | x :: r => Ok (fold_left Qmax_ r x) end.
Definition list_min (xs : list Q) : result Q :=
  match xs with [] => Err E_value | x :: r => Ok (fold_left Qmin_ r x) end.

(* quantizers_helpers.py L193-229 (per_channel False, or one channel of the reshaped tensor) *)
Definition get_tensor_max (xs : list Q) (n_bits : Z) (is_uniform : bool) : result Q :=
  if (n_bits <? 1)%Z then Err E_critical else
  let expansion := if is_uniform then 1
                   else if (n_bits =? 1)%Z then 0
                   else Qpower 2 (n_bits - 1) / (Qpower 2 (n_bits - 1) - 1) in
  let! mn := list_min xs in
  let! mx := list_max xs in
  Ok (Qmax_ (- mn) (mx * expansion)).
