(* MetricModel.v -- the mixed-precision metric as a function of the distances at the points.
   Source: model_compression_toolkit/core/common/mixed_precision/sensitivity_eval/metric_calculators.py
     _compute_points_distance L192-217, _compute_distance L219-257, _compute_mp_distance_measure L259-282,
     _compute_ipts_distance_measure L284-316.
   Simplifications: floats are reals (so a weight is zero only for a distance zero), and a division by a zero
   sigma raises instead of producing nan. *)
From Coq Require Import Reals.
From Verif Require Import Base Nd DistModel.
Local Open Scope list_scope.
Local Open Scope R_scope.

(* what a distance function returns for a batch: one number, or one per sample *)
Inductive pdist : Type := Single (r : R) | PerSample (l : list R).
Definition to_pdist (a : nd) : result pdist :=
  match shp a with
  | [] => Ok (Single (at_ a []))
  | [b] => Ok (PerSample (map (fun k => at_ a [k]) (seq 0 b)))
  | _ => Err E_value
  end.

(* a matrix: one row per point, one column per image *)
Definition matrix : Type := list (list R).

(* np.asarray(distance_v), and [:, None] when it has one dimension, L217 and L246-247.  Rows of different kinds
   or lengths make an inhomogeneous array: ValueError. *)
Fixpoint all_single (ds : list pdist) : option (list R) :=
  match ds with
  | [] => Some []
  | Single r :: rest => option_map (cons r) (all_single rest)
  | PerSample _ :: _ => None
  end.
Fixpoint all_rows (n : nat) (ds : list pdist) : option matrix :=
  match ds with
  | [] => Some []
  | PerSample l :: rest => if Nat.eqb (length l) n then option_map (cons l) (all_rows n rest) else None
  | Single _ :: _ => None
  end.
Definition as_matrix (ds : list pdist) : result matrix :=
  match all_single ds with
  | Some l => Ok (map (fun r => [r]) l)
  | None =>
      match ds with
      | PerSample l :: _ => match all_rows (length l) ds with Some m => Ok m | None => Err E_value end
      | _ => Err E_value
      end
  end.

(* np.concatenate(matrices, axis=1), L254-255 *)
Fixpoint beside (a b : matrix) : result matrix :=
  match a, b with
  | [], [] => Ok []
  | x :: a', y :: b' => let! r := beside a' b' in Ok ((x ++ y) :: r)
  | _, _ => Err E_value
  end.
Definition concat_columns (ms : list matrix) : result matrix :=
  match ms with [] => Err E_value | m :: r => foldM beside r m end.

(* _compute_distance for one kind of points: the distances of each batch, already computed *)
Definition distance_matrix (batches : list (list pdist)) : result matrix :=
  let! ms := mapM as_matrix batches in concat_columns ms.

Definition sum (l : list R) : R := fold_right Rplus 0 l.
(* ndarray.mean; the mean of no numbers is nan in numpy *)
Definition mean (l : list R) : result R :=
  match l with [] => Err E_zero_div | _ => Ok (sum l / INR (length l)) end.
Definition size (m : matrix) : nat := length (concat m).

(* np.average(values, weights=weights): ZeroDivisionError when the weights sum to zero *)
Definition dot (a b : list R) : R := sum (map (fun p => fst p * snd p) (combine a b)).
Definition average (values weights : list R) : result R :=
  if negb (Nat.eqb (length values) (length weights)) then Err E_type
  else if Req_EM_T (sum weights) 0 then Err E_zero_div
  else Ok (dot values weights / sum weights).

Inductive weighting : Set := AVG | LAST_LAYER | HESSIAN | EXP.

Definition exp_weight (sigma d : R) : R := 1 - exp (- d / sigma).
Definition any_weight (ws : list R) : bool := existsb (fun w => if Req_EM_T w 0 then false else true) ws.

(* _compute_ipts_distance_measure *)
Definition ipts_measure (method : weighting) (hessians : list R) (sigma : R) (m : matrix) : result R :=
  match method with
  | AVG => mean (concat m)
  | LAST_LAYER => match rev m with [] => Err E_index | row :: _ => mean row end
  | HESSIAN => let! ds := mapM mean m in average ds hessians
  | EXP => let! ds := mapM mean m in
           if Req_EM_T sigma 0 then Err E_zero_div else
           let ws := map (exp_weight sigma) ds in
           if any_weight ws then average ds ws else Ok 0
  end.

(* _compute_mp_distance_measure *)
Definition mp_measure (method : weighting) (hessians : list R) (sigma : R) (ipts outs : matrix) : result R :=
  if Nat.eqb (size ipts + size outs) 0 then Err E_assert
  else
    let! im := if Nat.eqb (size ipts) 0 then Ok 0 else ipts_measure method hessians sigma ipts in
    let! om := if Nat.eqb (size outs) 0 then Ok 0 else mean (concat outs) in
    Ok (im + om).

(* compute, L128-139, for the distances of every batch at the interest points and at the output points *)
Definition metric (method : weighting) (hessians : list R) (sigma : R) (batches : list (list pdist * list pdist)) : result R :=
  let! ipts := distance_matrix (map fst batches) in
  let! outs := distance_matrix (map snd batches) in
  mp_measure method hessians sigma ipts outs.
