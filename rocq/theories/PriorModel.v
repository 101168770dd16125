(* PriorModel.v -- C101: output ranges known in advance.
   Model of the tables in core/{pytorch,keras}/default_framework_info.py with core/common/framework_info.py get_layer_min_max,
   of core/pytorch/pytorch_node_prior_info.py L38 and core/keras/keras_node_prior_info.py L43-59, of core/common/node_prior_info.py, and of
   what is made of the range in core/common/collectors/statistics_collector.py L104-122 (the collector with scaling and shifting is in
   CollectModel.v; this is it before those).  The operations are written from the documentation of PyTorch and TensorFlow, in real
   arithmetic; a tensor is a list of rows along the softmax axis.  GELU is its tanh form (approximate); the exact GELU is not part of
   this model, nor are means and standard deviations (batch normalization: C98). *)
From Coq Require Import Reals Lra List Bool.
From Verif Require Import Nd.
From Verif Require Import Base.
Import ListNotations.
Open Scope R_scope.
Open Scope res_scope.

Definition sigmoid (x : R) : R := / (1 + exp (- x)).
Definition tanh' (x : R) : R := (exp x - exp (- x)) / (exp x + exp (- x)).
Definition relu (x : R) : R := Rmax 0 x.
Definition relu6 (x : R) : R := Rmin 6 (Rmax 0 x).
Definition hardsigmoid (x : R) : R := relu6 (x + 3) / 6.
Definition silu (x : R) : R := x * sigmoid x.
Definition softplus (x : R) : R := ln (1 + exp x).
Definition elu (a x : R) : R := if Rlt_dec 0 x then x else a * (exp x - 1).
Definition selu (x : R) : R := (10507009873554805 / 10000000000000000) * elu (16732632423543772 / 10000000000000000) x.
(* tf.nn.gelu(approximate=True), torch gelu(approximate='tanh') *)
Definition gelu_tanh (x : R) : R := 1 / 2 * x * (1 + tanh' (7978845608028654 / 10000000000000000 * (x + 44715 / 1000000 * x ^ 3))).
(* keras.layers.ReLU *)
Definition krelu (mx : option R) (slope thr x : R) : R :=
  if match mx with Some m => if Rle_dec m x then true else false | None => false end
  then match mx with Some m => m | None => x end
  else if Rle_dec thr x then x else slope * (x - thr).
Definition sum (l : list R) : R := fold_right Rplus 0 l.
Definition softmax (row : list R) : list R := map (fun x => exp x / sum (map exp row)) row.

Inductive op := Softmax | Sigmoid | HardSigmoid | Tanh | Relu | Relu6 | KRelu (mx : option R) (slope thr : R) | Elu (a : R) | Selu | Silu | Softplus | GeluTanh | Linear.
Definition out (o : op) (row : list R) : list R :=
  match o with
  | Softmax => softmax row | Sigmoid => map sigmoid row | HardSigmoid => map hardsigmoid row | Tanh => map tanh' row
  | Relu => map relu row | Relu6 => map relu6 row | KRelu m s t => map (krelu m s t) row | Elu a => map (elu a) row
  | Selu => map selu row | Silu => map silu row | Softplus => map softplus row | GeluTanh => map gelu_tanh row | Linear => row
  end.

(* how the operation stands in the model: a module or one of the functions listed (PyTorch), a layer, a function of tf.nn, or
   an Activation layer with the name of a function (Keras) *)
Inductive form := Torch | KerasLayer | KerasFunction | KerasActivation.
Definition range := (option R * option R)%type.
Definition unknown : range := (None, None).

(* core/pytorch/default_framework_info.py L66-82 *)
Definition torch_table (o : op) : range :=
  match o with
  | Softmax => (Some 0, Some 1) | Sigmoid => (Some 0, Some 1) | HardSigmoid => (Some 0, Some 1)
  | Relu => (Some 0, None) | Relu6 => (Some 0, None)
  | GeluTanh => (Some (- (17 / 100)), None) | Selu => (Some (- (176 / 100)), None) | Silu => (Some (- (279 / 1000)), None)
  | _ => unknown
  end.
(* core/keras/default_framework_info.py L91-104 *)
Definition keras_layer_table (o : op) : range :=
  match o with Softmax => (Some 0, Some 1) | Elu _ => (Some (- (1)), None) | _ => unknown end.
Definition keras_function_table (o : op) : range :=
  match o with
  | Silu => (Some (- (279 / 1000)), None) | Sigmoid => (Some 0, Some 1) | Tanh => (Some (- (1)), Some 1)
  | Relu => (Some 0, None) | Relu6 => (Some 0, None) | GeluTanh => (Some (- (17 / 100)), None)
  | Elu _ => (Some (- (1)), None) | Selu => (Some (- (176 / 100)), None) | Softplus => (Some 0, None) | Softmax => (Some 0, Some 1)
  | _ => unknown
  end.
(* core/keras/default_framework_info.py L76-85 *)
Definition keras_activation_table (o : op) : range :=
  match o with
  | Softmax => (Some 0, Some 1) | Sigmoid => (Some 0, Some 1) | Linear => unknown | Tanh => (Some (- (1)), Some 1)
  | Silu => (Some (- (279 / 1000)), None) | Relu => (Some 0, None) | Selu => (Some (- (176 / 100)), None)
  | GeluTanh => (Some (- (17 / 100)), None) | _ => unknown
  end.
(* the test of L128, isinstance(layer, Activation): layer is the class of the node (base_node.py L99-106), and the class
   Activation is not an instance of Activation *)
Definition class_is_instance : bool := false.
(* Keras L54-57: ReLU layers apart; framework_info.py get_layer_min_max *)
Definition prior (f : form) (o : op) : range :=
  match f with
  | Torch => torch_table o
  | KerasLayer => match o with
                  | KRelu _ slope thr => (if Req_EM_T slope 0 then Some thr else None, None)
                  | _ => keras_layer_table o
                  end
  | KerasFunction => keras_function_table o
  | KerasActivation => if class_is_instance then keras_activation_table o else unknown
  end.

(* node_prior_info.py L44-66 *)
Definition shifted (p : range) (s : R) : range := (option_map (fun x => x + s) (fst p), option_map (fun x => x + s) (snd p)).
(* node_prior_info.py L68-74 *)
Definition bounded (p : range) : bool := match p with (Some _, Some _) => true | _ => false end.

(* statistics_collector.py L104-122: a known end of the range takes the place of the one seen; float(None) is a TypeError *)
Definition seen_end (f : R -> R -> R) (obs : list R) : result R :=
  match obs with [] => Err E_type | x :: r => Ok (fold_left f r x) end.
Definition reported (p : range) (obs : list R) : result (R * R) :=
  let! mn := match fst p with Some m => Ok m | None => seen_end Rmin obs end in
  let! mx := match snd p with Some m => Ok m | None => seen_end Rmax obs end in
  Ok (mn, mx).
