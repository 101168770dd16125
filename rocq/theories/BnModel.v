(* BnModel.v -- folding batch normalization into a linear layer before or after it, reconstructing it and
   refusing it: the computation of the new weights.
   Sources: core/common/substitutions/batchnorm_folding.py L75-152 and L212-299,
     batchnorm_reconstruction.py L67-167, batchnorm_refusing.py L80-197,
     core/keras/graph_substitutions/substitutions/batchnorm_folding.py L30-150,
     core/pytorch/graph_substitutions/substitutions/batchnorm_folding.py L25-150.
   Real numbers stand for floating point numbers.  The editing of the graph is MergeModel.v. *)
From Verif Require Import LinNode.

(* BatchNormalization / BatchNorm2d *)
Record bn := Bn { b_gamma : option nd; b_beta : option nd; b_mean : nd; b_var : nd; b_eps : R }.

(* keras L59-80 update_kernel_for_bn_folding_fn *)
Definition keras_update_kernel (l : lin) (kernel scale : nd) : result nd :=
  let shape := match l_kind l with
               | K_dw => let n := length (shp kernel) in [Some 1%nat; Some 1%nat; Some (nth (n - 2) (shp kernel) 0%nat); Some (nth (n - 1) (shp kernel) 0%nat)]
               | K_convT => [Some 1%nat; Some 1%nat; None; Some 1%nat]
               | _ => [Some 1%nat; Some 1%nat; Some 1%nat; None]
               end in
  let! s := reshape scale shape in bop Rmult kernel s.
(* v[None, :, None, None], v[:, None, None, None]: the vector along axis k of four *)
Definition along (k : nat) (v : nd) : nd :=
  Nd (map (fun j => if Nat.eqb j k then nth 0 (shp v) 0%nat else 1%nat) (seq 0 4)) (fun idx => at_ v [nth k idx 0%nat]).
(* pytorch L56-81; IndexError when the scale is not a vector *)
Definition torch_update_kernel (l : lin) (kernel scale : nd) : result nd :=
  match shp scale with
  | [_] =>
      let s := match l_kind l with T_convT => along 1 scale | _ => along 0 scale end in
      if match l_kind l with T_convT => Nat.ltb 1 (l_groups l) | _ => false end then
        let! k := reshape kernel [Some (l_in l / l_groups l)%nat; Some (l_out l); None; Some 1%nat] in
        let! k := bop Rmult k s in
        reshape k (map Some (shp kernel))
      else bop Rmult kernel s
  | _ => Err E_index
  end.
Definition is_keras (k : lkind) : bool := match k with K_conv | K_dw | K_convT | K_dense => true | _ => false end.
Definition update_kernel (l : lin) : nd -> nd -> result nd :=
  if is_keras (l_kind l) then keras_update_kernel l else torch_update_kernel l.

Definition opt (o : option nd) (d : R) : nd := match o with Some a => a | None => scalar d end.
(* batchnorm_folding.py L105-140: the node conv_bn *)
Definition fold_bn (l : lin) (b : bn) : result lin :=
  let gamma := opt (b_gamma b) 1 in
  let beta := opt (b_beta b) 0 in
  let bias := opt (l_bias l) 0 in
  let! v := bop Rplus (b_var b) (scalar (b_eps b)) in
  let! ws := bop Rdiv gamma (nmap sqrt v) in
  let! d := bop Rminus bias (b_mean b) in
  let! d := bop Rmult d ws in
  let! bias := bop Rplus beta d in
  let! k := update_kernel l (l_kernel l) ws in
  Ok (set_weights l k (Some bias) true).

(* ---- folding forwards ---- *)
(* keras L83-110, pytorch L84-109; the new kernel and the new bias *)
Definition keras_update_weights (l : lin) (kernel bias scale factor : nd) : result (nd * nd) :=
  let at2 := [Some 1%nat; Some 1%nat; None; Some 1%nat] in
  let at3 := [Some 1%nat; Some 1%nat; Some 1%nat; None] in
  match l_kind l with
  | K_dw => let! f := reshape factor at2 in let! u := bop Rmult kernel f in
            let! s := reshape scale at2 in let! k := bop Rmult kernel s in
            let! b := bop Rplus bias (flatten u) in Ok (k, b)
  | K_convT => let! f := reshape factor at3 in let! u := bop Rmult kernel f in
            let! s := reshape scale at3 in let! k := bop Rmult kernel s in
            let! b := bop Rplus bias (flatten (nsum [3%nat] u)) in Ok (k, b)
  | _ => let! f := reshape factor at2 in let! u := bop Rmult kernel f in
            let! s := reshape scale at2 in let! k := bop Rmult kernel s in
            let! b := bop Rplus bias (flatten (nsum [2%nat] u)) in Ok (k, b)
  end.
Definition torch_update_weights (l : lin) (kernel bias scale factor : nd) : result (nd * nd) :=
  match shp scale, shp factor with
  | [_], [_] =>
      if match l_kind l with T_conv => Nat.ltb 1 (l_groups l) | _ => false end then
        let! u := bop Rmult kernel (along 0 factor) in
        let! k := bop Rmult kernel (along 0 scale) in
        let! b := bop Rplus bias (flatten u) in Ok (k, b)
      else match l_kind l with
           | T_convT =>
               let! u := bop Rmult kernel (along 0 factor) in
               let! k := bop Rmult kernel (along 0 scale) in
               let! b := bop Rplus bias (flatten (nsum [0%nat] u)) in Ok (k, b)
           | _ =>
               let! u := bop Rmult kernel (along 1 factor) in
               let! k := bop Rmult kernel (along 1 scale) in
               let! b := bop Rplus bias (flatten (nsum [1%nat] u)) in Ok (k, b)
           end
  | _, _ => Err E_index
  end.
(* keras L112-133, pytorch L111-133 *)
Definition kernel_hw (l : lin) : list nat := if is_keras (l_kind l) then firstn 2 (shp (l_kernel l)) else skipn 2 (shp (l_kernel l)).
Definition is_group_conv (l : lin) : bool :=
  match l_kind l with
  | K_conv => Nat.ltb 1 (l_groups l)
  | T_conv | T_convT => negb (Nat.eqb (l_groups l) (l_in l) || Nat.eqb (l_groups l) 1)
  | _ => false
  end.
(* the node before: batch normalization, or a convolution matched as a depthwise one *)
Inductive foldable := F_bn (b : bn) | F_dw (d : lin).
(* keras L136-151, pytorch L136-152 *)
Definition dw_valid (d : lin) : bool :=
  match l_kind d with
  | K_dw => forallb (Nat.eqb 1) (kernel_hw d)
  | T_conv => Nat.eqb (l_groups d) (l_in d) && forallb (Nat.eqb 1) (kernel_hw d)
  | _ => false
  end.
(* batchnorm_folding.py L236-282; None: the graph is left as it is *)
Definition forward_fold (f : foldable) (l : lin) : result (option lin) :=
  if is_group_conv l then Ok None else
  if negb (forallb (Nat.eqb 1) (kernel_hw l)) then Ok None else
  let pars := match f with
              | F_bn b => Some (b_gamma b, b_beta b, b_mean b, b_var b, b_eps b)
              | F_dw d => if dw_valid d then Some (Some (flatten (l_kernel d)), l_bias d, scalar 0, scalar 1, 0) else None
              end in
  match pars with
  | None => Ok None
  | Some (gamma, beta, mean, var, eps) =>
      let gamma := opt gamma 1 in
      let beta := opt beta 0 in
      let bias := opt (l_bias l) 0 in
      let! v := bop Rplus var (scalar eps) in
      let! ws := bop Rdiv gamma (nmap sqrt v) in
      let! m := bop Rmult mean ws in
      let! fac := bop Rminus beta m in
      let! kb := (if is_keras (l_kind l) then keras_update_weights l else torch_update_weights l) (l_kernel l) bias ws fac in
      Ok (Some (set_weights l (fst kb) (Some (snd kb)) true))
  end.

(* ---- reconstruction and refusing ---- *)
(* batchnorm_reconstruction.py L110-123; std and mean are the prior information of the node *)
Definition reconstruct (std mean : nd) (eps : R) : result bn :=
  let var := nmap (fun x => x * x) std in
  let! v := bop Rplus var (scalar eps) in
  Ok (Bn (Some (nmap sqrt v)) (Some mean) mean var eps).
(* batchnorm_refusing.py L114-142: a missing bias, gamma or beta raises TypeError *)
Definition refuse (l : lin) (b : bn) : result lin :=
  match l_bias l, b_gamma b, b_beta b with
  | Some bias, Some gamma, Some beta =>
      let! v := bop Rplus (b_var b) (scalar (b_eps b)) in
      let! ws := bop Rdiv gamma (nmap sqrt v) in
      let! d := bop Rminus bias (b_mean b) in
      let! d := bop Rmult d ws in
      let! bias := bop Rplus beta d in
      let! k := update_kernel l (l_kernel l) ws in
      Ok (set_weights l k (Some bias) true)
  | _, _, _ => Err E_type
  end.
(* L166-197: the thresholds of a symmetric quantizer, the ranges of a uniform one *)
Definition refuse_threshold (l : lin) (threshold ws : nd) : result nd := update_kernel l threshold ws.
