(* Int8Model.v -- C94: the pointwise convolution that stands for a dense layer in an INT8 TFLite model.
   Model of exporter/model_exporter/keras/int8_tflite_exporter.py (_get_pointwise_layer_to_replace_dense L77-149, _substitute_model
   L156-167).  The Keras layers Dense, Conv2D and Reshape and the weight quantizers of mct_quantizers are written from their
   documentation: a quantizer applies a scalar function to each weight that depends on the threshold of its channel.  Arithmetic is
   real.  The conversion by TFLiteConverter is not modelled, nor are initializers, regularizers and constraints. *)
From Coq Require Import List Arith Lia.
From Verif Require Import Nd.
From Verif Require Import Base.
Import ListNotations.
Open Scope R_scope.
Open Scope res_scope.

(* a weight quantizer: its parameters are a list of thresholds, or two lists of range limits (uniform) *)
Inductive qparams := Thresholds (l : list R) | Ranges (lo hi : list R).
Record wq := mk_wq { q_per_channel : bool; q_axis : nat; q_rank : nat; q_params : qparams }.
Section Int8.
  (* the scalar function of the quantizer class, with the parameters of a channel *)
  Variable quant : qparams -> nat -> R -> R.
  (* the value of an activation function at channel u of the vector of the n channels *)
  Variable act : nat -> (nat -> R) -> nat -> R.
  (* a quantizer on a tensor; the rank the quantizer was told has to be that of the tensor *)
  Definition quantize (q : wq) (w : nd) : result nd :=
    if q_per_channel q
    then if Nat.eqb (q_rank q) (length (shp w)) then Ok (Nd (shp w) (fun i => quant (q_params q) (nth (q_axis q) i 0%nat) (at_ w i))) else Err E_value
    else Ok (Nd (shp w) (fun i => quant (q_params q) 0 (at_ w i))).
  (* a wrapped Dense layer *)
  Record dense := mk_dense { d_kernel : nd; d_bias : option nd; d_units : nat; d_quant : option wq; d_dims : list (option nat) (* input_shape[1:-1] *) }.
  Definition bias_at (b : option nd) (u : nat) : R := match b with Some b => at_ b [u] | None => 0 end.
  (* Dense: the last axis of the input is multiplied by the kernel *)
  Definition dense_call (k : nd) (b : option nd) (x : nd) : result nd :=
    match rev (shp x), shp k with
    | c :: r, [c'; n] => if Nat.eqb c c' then
        Ok (Nd (rev r ++ [n]) (fun i => act n (fun u => rsum c (fun j => at_ x (removelast i ++ [j]) * at_ k [j; u]) + bias_at b u) (last i 0%nat))) else Err E_value
    | _, _ => Err E_value
    end.
  Definition dense_layer (d : dense) (x : nd) : result nd :=
    let! k := match d_quant d with Some q => quantize q (d_kernel d) | None => Ok (d_kernel d) end in dense_call k (d_bias d) x.
  (* Conv2D with channels last, kernel size and strides (1, 1), padding "valid" *)
  Definition conv_call (k : nd) (b : option nd) (x : nd) : result nd :=
    match shp x, shp k with
    | [B; H; W; c], [1%nat; 1%nat; c'; n] => if Nat.eqb c c' then
        Ok (Nd [B; H; W; n] (fun i => match i with
            | [b0; h; w; u] => act n (fun u => rsum c (fun j => at_ x [b0; h; w; j] * at_ k [0%nat; 0%nat; j; u]) + bias_at b u) u | _ => 0 end)) else Err E_value
    | _, _ => Err E_value
    end.
  (* Reshape keeps the first axis *)
  Definition reshape_layer (target : list nat) (x : nd) : result nd :=
    match shp x with b :: r => if Nat.eqb (prod target) (prod r) then Ok (reshape_to x (b :: target)) else Err E_value | [] => Err E_value end.
  Record pointwise := mk_pw { p_in : list nat; p_kernel : nd; p_bias : option nd; p_quant : wq; p_out : list nat }.
  Fixpoint known (l : list (option nat)) : result (list nat) :=
    match l with [] => Ok [] | Some n :: r => let! r' := known r in Ok (n :: r') | None :: _ => Err E_type end.
  (* L77-149 *)
  Definition to_pointwise (d : dense) : result pointwise :=
    match shp (d_kernel d) with
    | [c; _] =>
        let k := reshape_to (d_kernel d) [1%nat; 1%nat; c; d_units d] in
        match d_quant d with
        | None => Err E_key                                  (* weights_quantizers[KERNEL] *)
        | Some q =>
            match q_params q with
            | Ranges _ _ => Err E_key                        (* the configuration of a uniform quantizer has no THRESHOLD *)
            | Thresholds t =>
                let! dims := known (d_dims d) in             (* np.prod of a dimension that is None *)
                Ok (mk_pw [1%nat; prod dims; c] k (d_bias d) (mk_wq (q_per_channel q) 3 4 (Thresholds t)) (dims ++ [d_units d]))
            end
        end
    | _ => Err E_value
    end.
  Definition pointwise_layer (p : pointwise) (x : nd) : result nd :=
    let! x := reshape_layer (p_in p) x in
    let! k := quantize (p_quant p) (p_kernel p) in
    let! y := conv_call k (p_bias p) x in
    reshape_layer (p_out p) y.
End Int8.
