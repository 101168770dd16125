(* DistModel.v -- the distances that score a quantized tensor against the float tensor.
   Sources: core/common/similarity_analyzer.py L29-262 (all of it except the calls of Logger),
     core/common/quantization/quantization_params_generation/error_functions.py L404-426 and L482-497 (the
     distances as error functions of the threshold search), core/common/quantization/quantizers/
     quantizers_helpers.py L254-270.
   Real numbers stand for floating point numbers.  A mean over no elements, nan in numpy, is E_zero_div.  The
   quotients of two arrays are the quotients of the real numbers: theorems say when a divisor is not zero.
   The exponent of compute_lp_norm is a natural number (annotated int in the source). *)
From Verif Require Export Nd.

(* elementwise operation of two arrays of the same shape *)
Definition zip (f : R -> R -> R) (a b : nd) : nd := Nd (shp a) (fun idx => f (at_ a idx) (at_ b idx)).
(* numpy's normalisation of an axis; AxisError is a ValueError *)
Definition norm_axis (n : nat) (a : Z) : result nat :=
  if Z.leb (- Z.of_nat n) a && Z.ltb a (Z.of_nat n) then Ok (Z.to_nat (if Z.ltb a 0 then a + Z.of_nat n else a)) else Err E_value.
(* np.moveaxis(a, ax, -1) *)
Definition moveaxis_last (ax : nat) (a : nd) : nd :=
  transpose (filter (fun k => negb (Nat.eqb k ax)) (seq 0 (length (shp a))) ++ [ax]) a.
Definition first_dim (a : nd) : result nat := match shp a with d :: _ => Ok d | [] => Err E_index end.
Definition last_dim (a : nd) : result nat := match rev (shp a) with d :: _ => Ok d | [] => Err E_index end.
(* a.mean(axis=-1); AxisError on an array without axes *)
Definition mean_last (a : nd) : result nd :=
  match rev (shp a) with
  | [] => Err E_value
  | n :: _ => if Nat.eqb n 0 then Err E_zero_div
              else Ok (Nd (removelast (shp a)) (fun idx => rsum n (fun k => at_ a (idx ++ [k])) / INR n))
  end.
(* a.sum(axis=-1); the arrays summed here have at least one axis *)
Definition sum_last (a : nd) : nd :=
  Nd (removelast (shp a)) (fun idx => rsum (last (shp a) 0%nat) (fun k => at_ a (idx ++ [k]))).
(* np.sum(a) *)
Definition sum_all (a : nd) : nd := scalar (rsum (prod (shp a)) (fun k => at_ a (unflat (shp a) k))).
(* np.all(a == 0) *)
Definition all_zero (a : nd) : bool :=
  forallb (fun k => if Req_EM_T (at_ a (unflat (shp a) k)) 0 then true else false) (seq 0 (prod (shp a))).

(* similarity_analyzer L29-39; the arguments are arrays *)
Definition validate (a b : nd) : result unit := if list_eq_dec Nat.eq_dec (shp a) (shp b) then Ok tt else Err E_assert.
(* L56-80 *)
Definition flatten_tensor (t : nd) (batch : bool) (axis : option Z) : result nd :=
  match axis, batch with
  | Some z, true =>
      let! ax := norm_axis (length (shp t)) z in
      let t := moveaxis_last ax t in
      let! d0 := first_dim t in
      let! dl := last_dim t in
      reshape t [Some d0; None; Some dl]
  | Some z, false =>
      let! ax := norm_axis (length (shp t)) z in
      let t := moveaxis_last ax t in
      let! dl := last_dim t in
      reshape t [None; Some dl]
  | None, true => let! d0 := first_dim t in reshape t [Some d0; None]
  | None, false => Ok (flatten t)
  end.
(* L123-124, L156-157, L229-230: the error divided by the mean of nrm(x) *)
Definition normalised (norm : bool) (eps : R) (nrm : R -> R) (x error : nd) : result nd :=
  if norm
  then let! m := mean_last (nmap nrm x) in Ok (zip Rdiv error (nmap (fun v => v + eps) m))
  else Ok error.
(* L87-126 *)
Definition compute_mse (x y : nd) (norm : bool) (eps : R) (batch : bool) (axis : option Z) (weights : option nd) : result nd :=
  let! _ := validate x y in
  let! fx := flatten_tensor x batch axis in
  let! fy := flatten_tensor y batch axis in
  let! error := match weights with
                | Some w => let! fw := flatten_tensor w batch axis in
                            if list_eq_dec Nat.eq_dec (shp fw) (shp fx)
                            then mean_last (nmap (fun v => v ^ 2) (zip Rmult fw (zip Rminus fx fy)))
                            else Err E_critical
                | None => mean_last (nmap (fun v => v ^ 2) (zip Rminus fx fy))
                end in
  normalised norm eps (fun v => v ^ 2) fx error.
(* L129-158 *)
Definition compute_mae (x y : nd) (norm : bool) (eps : R) (batch : bool) (axis : option Z) : result nd :=
  let! _ := validate x y in
  let! fx := flatten_tensor x batch axis in
  let! fy := flatten_tensor y batch axis in
  let! error := mean_last (nmap Rabs (zip Rminus fx fy)) in
  normalised norm eps Rabs fx error.
(* L200-231 *)
Definition compute_lp_norm (x y : nd) (p : nat) (norm : bool) (eps : R) (batch : bool) (axis : option Z) : result nd :=
  let! _ := validate x y in
  let! fx := flatten_tensor x batch axis in
  let! fy := flatten_tensor y batch axis in
  let! error := mean_last (nmap (fun v => Rabs v ^ p) (zip Rminus fx fy)) in
  normalised norm eps (fun v => Rabs v ^ p) fx error.
(* L42-53 with p = 2 *)
Definition tensor_norm (a : nd) : nd := nmap sqrt (sum_last (nmap (fun v => Rabs v ^ 2) a)).
(* L161-197 *)
Definition compute_cs (x y : nd) (eps : R) (batch : bool) (axis : option Z) : result nd :=
  let! _ := validate x y in
  if all_zero y && all_zero x then Ok (scalar 1) else
  let! fx := flatten_tensor x batch axis in
  let! fy := flatten_tensor y batch axis in
  let nx := tensor_norm fx in
  let ny := tensor_norm fy in
  let prods := zip Rmult fx fy in
  let dots := if batch then nsum [1%nat] prods else sum_all prods in
  let! cs := bop Rdiv dots (nmap (fun v => v + eps) (zip Rmult nx ny)) in
  Ok (nmap (fun c => Rmax ((1 - c) / 2) 0) cs).
(* constants.py L25 *)
Definition EPS : R := / 100000000.
(* L255-258 *)
Definition kl_term (p q : R) : R :=
  let q := if Req_EM_T q 0 then EPS else q in
  if Req_EM_T p 0 then 0 else p * ln (p / q).
(* L234-262; the logarithm of a negative quotient is nan in numpy and 0 here: the theorems exclude it *)
Definition compute_kl_divergence (x y : nd) (batch : bool) (axis : option Z) : result nd :=
  let! _ := validate x y in
  let! fx := flatten_tensor x batch axis in
  let! fy := flatten_tensor y batch axis in
  mean_last (sum_last (zip kl_term fx fy)).

(* quantizers_helpers L254-270 *)
Definition reshape_per_channel (t : nd) (channel_axis : nat) : result nd :=
  reshape (transpose (channel_axis :: filter (fun i => negb (Nat.eqb i channel_axis)) (seq 0 (length (shp t)))) t)
    [Some (nth channel_axis (shp t) 0%nat); None].
(* truth value of the axis as it arrives in the parameter norm: -1 is true, None is false *)
Definition truthy (axis : option Z) : bool := match axis with Some z => negb (Z.eqb z 0) | None => false end.
(* error_functions L404-426: the arguments are passed by position, so that axis becomes norm and norm becomes
   norm_eps (False is 0, True is 1) *)
Definition hmse_error (x y : nd) (axis : option Z) (norm : bool) (scores : nd) : result nd :=
  let! scores := match axis with Some _ => reshape_per_channel scores 0 | None => Ok scores end in
  compute_mse x y (truthy axis) (if norm then 1 else 0) false None (Some scores).
(* error_functions L482-497: the error functions of the threshold search of a tensor, by name *)
Inductive error_method := M_mse | M_mae | M_lp (p : nat) | M_hmse (scores : nd).
Definition norm_eps_default : R := / 100000000.
Definition tensor_error (m : error_method) (axis : option Z) (norm : bool) (x y : nd) : result nd :=
  match m with
  | M_mse => compute_mse x y norm norm_eps_default false axis None
  | M_mae => compute_mae x y norm norm_eps_default false axis
  | M_lp p => compute_lp_norm x y p norm norm_eps_default false axis
  | M_hmse s => hmse_error x y axis norm s
  end.
(* qparams_search L95-97: the number of halvings selected for channel c from the errors of the thresholds; an error
   that is one number is used for every channel (broadcasting of np.power(2, i) against the thresholds) *)
Fixpoint argmin_from (best : R) (at_best pos : nat) (l : list R) : nat :=
  match l with
  | [] => at_best
  | v :: r => if Rlt_dec v best then argmin_from v pos (S pos) r else argmin_from best at_best (S pos) r
  end.
Definition argmin (l : list R) : nat := match l with [] => 0%nat | v :: r => argmin_from v 0 1 r end.
Definition chosen_halvings (errors : list nd) (c : nat) : nat := argmin (map (fun e => bget e [c]) errors).
