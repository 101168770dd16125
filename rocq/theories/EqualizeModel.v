(* EqualizeModel.v -- scale equalization of two linear layers.
   Sources: core/common/substitutions/scale_equalization.py L32-235,
     core/keras/graph_substitutions/substitutions/scale_equalization.py L27-56 and the PyTorch file L24-41 (which nodes are matched:
     a walk of the graph, GraphModel.walk_filter).
   Real numbers stand for floating point numbers; scipy's erf is a parameter. *)
From Verif Require Import LinNode BnModel.

(* L78-102: ones but for the channel axis *)
Definition axis_shape (n k : nat) : list (option nat) := map (fun j => if Nat.eqb j k then None else Some 1%nat) (seq 0 n).
Definition scale_reshaping (s : nd) (l : lin) (in_channels : bool) : result nd :=
  reshape s (axis_shape (length (shp (l_kernel l))) (if in_channels then in_axis (l_kind l) else out_axis (l_kind l))).
(* L105-141 *)
Definition update_linear_nodes (l1 l2 : lin) (s : nd) : result (lin * lin) :=
  let! s2 := scale_reshaping s l2 true in
  let! w2 := bop Rdiv (l_kernel l2) s2 in
  let! s1 := scale_reshaping s l1 false in
  let! w1 := bop Rmult (l_kernel l1) s1 in
  let! b1 := match l_bias l1 with Some b => let! r := bop Rmult b s in Ok (Some r) | None => Ok None end in
  Ok (set_weights l1 w1 b1 (l_use_bias l1), set_kernel l2 w2).

Section Moments.
Variable erf : R -> R.
(* L32-52 *)
Definition fixed_mean_after_relu (mu sd : R) : R :=
  let variance := sd * sd in
  1 / sqrt (2 * variance * PI) * (sqrt (PI / 2) * sd * mu * (erf (mu / (sqrt 2 * sd)) + 1) + variance * exp (- 1 * (mu * mu) / (2 * variance))).
(* L55-75 *)
Definition fixed_second_moment_after_relu (mu sd : R) : R :=
  let variance := sd * sd in
  1 / sqrt (2 * variance * PI) * (sqrt (PI / 2) * sd * (mu * mu + variance) * (erf (mu / (sqrt 2 * sd)) + 1) + mu * variance * exp (- 1 * (mu * mu) / (2 * variance))).
Definition fixed_variance (mu sd : R) : R := fixed_second_moment_after_relu mu sd - fixed_mean_after_relu mu sd * fixed_mean_after_relu mu sd.
(* L144-164: mean and standard deviation of each output channel; they have one shape *)
Definition calculate_scale_correction (mean std : nd) : nd :=
  Nd (shp mean) (fun i => Rmin (1 / sqrt (fixed_variance (at_ mean i) (Rabs (at_ std i)))) 1).
(* L213-235: prior_info of the first node, and whether the activation is quantized *)
Definition equalize (l1 l2 : lin) (prior : option (nd * nd)) (act_quantized : bool) : result (lin * lin) :=
  match prior with
  | Some (mean, std) => if act_quantized then update_linear_nodes l1 l2 (calculate_scale_correction mean std) else Ok (l1, l2)
  | None => Ok (l1, l2)
  end.
End Moments.
