(* LutModel.v -- look-up-table quantization.
   Sources: model_compression_toolkit/core/common/quantization/quantizers/quantizers_helpers.py L127-190,
            .../quantizers/lut_kmeans_quantizer.py L24-57,
            .../quantization_params_generation/lut_kmeans_params.py L34-101.
   Simplifications: exact rationals; the k-means fit itself (scikit-learn) is an arbitrary list of centres;
   one channel, i.e. one threshold shared by the listed elements. *)
From Verif Require Import Base RoundQ QuantModel SearchModel.
From Coq Require Import Qround Qpower Qabs.
Open Scope Q_scope.

(* core/constants.py *)
Definition EPS : Q := 1 # 100000000.
Definition LUT_VALUES_BITWIDTH : Z := 8.

(* quantizers_helpers.py L146-173 *)
Definition int_quantization_with_threshold (threshold : Q) (n_bits : Z) (signed : bool) (x : Q) : Q :=
  let a_max := if signed then Qpower 2 (n_bits - 1) - 1 else Qpower 2 n_bits - 1 in
  let a_min := if signed then - Qpower 2 (n_bits - 1) else 0 in
  clip (x / (threshold + EPS) * Qpower 2 (n_bits - b2z signed)) a_min a_max.

(* quantizers_helpers.py L127-143: index of the first centre at minimal distance *)
Definition kmeans_assign (lut : list Q) (x : Q) : result nat :=
  let! (i, _) := argmin (map (fun c => qabs (x - c)) lut) in Ok i.

(* quantizers_helpers.py L176-190 *)
Definition get_quantized (center scale : Q) (n_bits : Z) : Q :=
  inject_Z (round_half_even center) / Qpower 2 (n_bits - 1) * scale.

(* lut_kmeans_quantizer.py L49-57, one element *)
Definition lut_kmeans_quantizer_elem (lut : list Q) (threshold : Q) (x : Q) : result Q :=
  let t := int_quantization_with_threshold threshold LUT_VALUES_BITWIDTH true x in
  let! i := kmeans_assign lut t in
  match nth_error lut i with
  | Some c => Ok (get_quantized c threshold LUT_VALUES_BITWIDTH)
  | None => Err E_index
  end.

(* replace the i-th element *)
Fixpoint set_nth {A} (i : nat) (v : A) (l : list A) : list A :=
  match l, i with
  | [], _ => []
  | _ :: r, O => v :: r
  | x :: r, S j => x :: set_nth j v r
  end.

(* lut_kmeans_params.py L71-101: the LUT built from the k-means centres; n_data_points = number of distinct weights *)
Definition lut_kmeans_lut (n_bits : Z) (n_data_points : Z) (centres : list Q) : result (list Q) :=
  if (LUT_VALUES_BITWIDTH <=? n_bits)%Z then Err E_critical else
  let cc := map (fun c => inject_Z (round_half_even c)) centres in
  let cc := if (n_data_points <? 2 ^ n_bits)%Z && forallb (fun c => negb (Qeq_bool c 0)) cc then 0 :: cc else cc in
  let! (i, _) := argmin (map qabs cc) in
  Ok (set_nth i 0 cc).
