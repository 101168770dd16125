(** Hessian-approximation scores of weights and activations (C84).

    Sources (model_compression_toolkit/core):
    - common/hessian/hessian_scores_calculator.py (unfold_tensors_list);
    - pytorch/hessian/hessian_scores_calculator_pytorch.py,
      keras/hessian/hessian_scores_calculator_keras.py
      (concatenation of the outputs, random vectors);
    - pytorch/hessian/weights_hessian_scores_calculator_pytorch.py,
      keras/hessian/weights_hessian_scores_calculator_keras.py;
    - pytorch/hessian/activation_hessian_scores_calculator_pytorch.py,
      keras/hessian/activation_hessian_scores_calculator_keras.py.

    What is simplified.  A run of the network is represented by its
    derivatives: an element of an output is an abstract value [o], and a
    target tensor (a kernel, or an activation) comes with the derivative of
    [o] by each of its elements.  [autograd.grad] and [tape.gradient] return
    the derivative of the scalar they are given; that scalar is linear in the
    outputs, so the result is the same linear combination of the derivatives
    of the elements.  Arithmetic is over the reals.  Random vectors are
    arguments: one list of signs for each iteration, in the order of the
    elements of the concatenated output. *)

From Coq Require Import Reals List Bool Arith Lia.
From Verif Require Import Base.
Import ListNotations.
Local Open Scope R_scope.
Local Open Scope res_scope.

Definition vec := list R.

Definition sumR (l : vec) : R := fold_right Rplus 0 l.

Definition meanR (l : vec) : R := sumR l / INR (length l).

(** number of elements of a shape *)
Fixpoint prod (s : list nat) : nat :=
  match s with [] => 1%nat | d :: r => (d * prod r)%nat end.

(** [n] consecutive parts of [w] elements each *)
Fixpoint chunks {A} (n w : nat) (l : list A) : list (list A) :=
  match n with
  | O => []
  | S k => firstn w l :: chunks k w (skipn w l)
  end.

(** a tensor: shape and elements in row-major order *)
Record tens (O : Type) := Tens { t_shape : list nat; t_data : list O }.
Arguments Tens {O}.
Arguments t_shape {O}.
Arguments t_data {O}.

(** an entry of the list of a model's outputs: a tensor, or the list of the
    tensors of a node with several outputs *)
Inductive item (O : Type) := One (t : tens O) | Several (ts : list (tens O)).
Arguments One {O}.
Arguments Several {O}.

(** What a call of a built model returns: a model with one output returns the
    tensor itself (pytorch_model_builder.py L391-392, Keras functional
    models), otherwise the list of outputs. *)
Inductive outs (O : Type) := Bare (t : tens O) | Items (l : list (item O)).
Arguments Bare {O}.
Arguments Items {O}.

Section Model.
Context {O : Type}.

(** common/hessian/hessian_scores_calculator.py L75-94
    [unfold_tensors_list]: entries that are lists are spread.  Iterating over
    a tensor gives its parts along the first axis. *)
Definition unfold_tensors_list (o : outs O) : result (list (tens O)) :=
  match o with
  | Bare t =>
      match t_shape t with
      | [] => Err E_type
      | d :: r => Ok (map (Tens r) (chunks d (prod r) (t_data t)))
      end
  | Items l =>
      Ok (concat (map (fun i => match i with
                                | One t => [t]
                                | Several ts => ts
                                end) l))
  end.

(** hessian_scores_calculator_pytorch.py L53, hessian_scores_calculator_keras.py
    L72: [reshape(tensor, [tensor.shape[0], -1])], as a list of rows. *)
Definition as_rows (t : tens O) : result (list (list O)) :=
  match t_shape t with
  | [] => Err E_index
  | d :: r => if Nat.eqb d 0 then Err E_runtime
              else Ok (chunks d (prod r) (t_data t))
  end.

Definition beside (a b : list (list O)) : list (list O) :=
  map (fun p => fst p ++ snd p) (combine a b).

(** hessian_scores_calculator_pytorch.py L44-60 [concat_tensors],
    hessian_scores_calculator_keras.py L60-80 [_concat_tensors]. *)
Definition concat_tensors (o : outs O) : result (list (list O)) :=
  let! ts := unfold_tensors_list o in
  let! ms := mapM as_rows ts in
  match ms with
  | [] => Err E_runtime
  | m :: r =>
      if forallb (fun x => Nat.eqb (length x) (length m)) r
      then Ok (fold_left beside r m)
      else Err E_critical
  end.

(** A target of a request: shape, axis of the output channels, derivative of
    an output element by each element (row-major position), whether the
    output depends on it at all ([None] gradients otherwise). *)
Record target := Target {
  tg_shape : list nat;
  tg_axis : nat;
  tg_jac : O -> nat -> R;
  tg_conn : bool
}.

(** hessian_scores_calculator_pytorch.py L40-42, hessian_scores_calculator_keras.py
    L92-94: 0 becomes -1. *)
Definition sgn (b : bool) : R := if b then 1 else -1.

(** The gradient by a target of [scale * sum(v * output)], in row-major
    order.  [scale] is 1, except for weights in PyTorch, where the scalar is
    [mean(sum(v * output, dim=-1))]. *)
Definition gradient (scale : R) (os : list O) (tg : target) (v : list bool) : vec :=
  map (fun k => sumR (map (fun p => scale * (sgn (fst p) * tg_jac tg (snd p) k))
                          (combine v os)))
      (seq 0 (prod (tg_shape tg))).

Definition squares (l : vec) : vec := map (fun x => x * x) l.

(** coordinate along axis [ax] of the row-major position [k] *)
Definition coord (s : list nat) (ax k : nat) : nat :=
  Nat.modulo (Nat.div k (prod (skipn (S ax) s))) (nth ax s 1%nat).

Inductive gran := GTensor | GChannel | GElement.

(** weights_hessian_scores_calculator_pytorch.py L100-116: sum over the axes
    of [shape_channel_axis]; nothing is summed when it is empty. *)
Definition torch_weights_approx (g : gran) (tg : target) (grad : vec) : vec :=
  let a := squares grad in
  let s := tg_shape tg in
  match g with
  | GTensor => if Nat.eqb (length s) 0 then a else [sumR a]
  | GChannel =>
      if Nat.eqb (length s) 1 then a
      else map (fun c => sumR (map (fun k => if Nat.eqb (coord s (tg_axis tg) k) c
                                             then nth k a 0 else 0)
                                   (seq 0 (prod s))))
               (seq 0 (nth (tg_axis tg) s 1%nat))
  | GElement => a
  end.

(** weights_hessian_scores_calculator_keras.py L167-216 and L123: rows of the
    gradient (one for the tensor, one for each slice along the channel axis,
    one for each element), squared and summed. *)
Definition keras_weights_approx (g : gran) (tg : target) (grad : vec) : vec :=
  let s := tg_shape tg in
  let rows :=
    match g with
    | GTensor => [grad]
    | GElement => chunks (length grad) 1 grad
    | GChannel =>
        map (fun c => map (fun k => nth k grad 0)
                          (filter (fun k => Nat.eqb (coord s (tg_axis tg) k) c)
                                  (seq 0 (prod s))))
            (seq 0 (nth (tg_axis tg) s 1%nat))
    end in
  map (fun row => sumR (squares row)) rows.

(** (j * score + approx) / (j + 1); the initial score is a single zero, which
    is broadcast. *)
Definition broadcast (s : vec) (n : nat) : vec :=
  match s with [x] => repeat x n | _ => s end.

Definition update (j : nat) (s a : vec) : vec :=
  map (fun p => (INR j * fst p + snd p) / (INR j + 1))
      (combine (broadcast s (length a)) a).

(** constants.py: MIN_HESSIAN_ITER, HESSIAN_COMP_TOLERANCE *)
Definition MIN_HESSIAN_ITER : nat := 10.
Definition HESSIAN_COMP_TOLERANCE : R := / 1000.

Definition max_delta (prev new : vec) : R :=
  fold_right Rmax 0
    (map (fun p => Rabs (snd p - fst p) / (Rabs (snd p) + / 1000000))
         (combine prev new)).

Definition converged (prev new : vec) : bool :=
  if Rlt_dec (max_delta prev new) HESSIAN_COMP_TOLERANCE then true else false.

(** weights_hessian_scores_calculator_pytorch.py L87-133,
    weights_hessian_scores_calculator_keras.py L90-144: the iterations, with
    the early exit.  [approx v] is the new approximation of every target for
    the random vector [v]. *)
Fixpoint weights_loop (approx : list bool -> list vec) (draws : list (list bool))
         (j : nat) (sc : list vec) (prev : option vec) : list vec :=
  match draws with
  | [] => sc
  | v :: rest =>
      let sc' := map (fun p => update j (fst p) (snd p)) (combine sc (approx v)) in
      let stop := Nat.ltb MIN_HESSIAN_ITER j &&
                  match prev with
                  | Some p => converged p (map meanR sc')
                  | None => false
                  end in
      if stop then sc'
      else weights_loop approx rest (S j) sc' (Some (map meanR sc'))
  end.

Definition zeros {A} (l : list A) : list vec := map (fun _ => [0]) l.

(** weights_hessian_scores_calculator_pytorch.py L73-144 [compute].  A target
    on which the output does not depend makes [autograd.grad] raise (no
    [allow_unused], L109-111).  The batch axis of size one added at the end is
    left out. *)
Definition torch_weights_compute (g : gran) (o : outs O) (tgs : list target)
           (draws : list (list bool)) : result (list vec) :=
  let! m := concat_tensors o in
  if forallb tg_conn tgs then
    let scale := / INR (length m) in
    Ok (weights_loop
          (fun v => map (fun tg => torch_weights_approx g tg
                                     (gradient scale (concat m) tg v)) tgs)
          draws 0 (zeros tgs) None)
  else Err E_runtime.

(** weights_hessian_scores_calculator_keras.py L72-165 [compute]; a missing
    gradient makes [tf.reshape] or [tf.split] raise (L186, L191). *)
Definition keras_weights_compute (g : gran) (o : outs O) (tgs : list target)
           (draws : list (list bool)) : result (list vec) :=
  let! m := concat_tensors o in
  if forallb tg_conn tgs then
    Ok (weights_loop
          (fun v => map (fun tg => keras_weights_approx g tg
                                     (gradient 1 (concat m) tg v)) tgs)
          draws 0 (zeros tgs) None)
  else Err E_value.

(** activation_hessian_scores_calculator_pytorch.py L126-131.  The first axis
    is the batch.  [torch.sum] over an empty tuple of axes sums everything. *)
Definition torch_act_approx (g : gran) (tg : target) (grad : vec) : vec :=
  let a := squares grad in
  match tg_shape tg with
  | b :: c :: r =>
      match g, r with
      | GTensor, _ => map sumR (chunks b (prod (c :: r)) a)
      | GChannel, _ :: _ => map meanR (chunks (b * c) (prod r) a)
      | _, _ => a
      end
  | _ => match g with GTensor => [sumR a] | _ => a end
  end.

(** activation_hessian_scores_calculator_keras.py L121-129: the channels are
    on the last axis. *)
Definition keras_act_approx (g : gran) (tg : target) (grad : vec) : vec :=
  let a := squares grad in
  match tg_shape tg with
  | b :: r =>
      match g with
      | GTensor => map sumR (chunks b (prod r) a)
      | GElement => a
      | GChannel =>
          match r with
          | [] => a
          | _ =>
              let c := last r 1%nat in
              concat (map (fun part =>
                             map (fun i => sumR (map (fun row => nth i row 0)
                                                     (chunks (Nat.div (prod r) c) c part)))
                                 (seq 0 c))
                          (chunks b (prod r) a))
          end
      end
  | [] => a
  end.

(** activation_hessian_scores_calculator_pytorch.py L112-134: all iterations
    are carried out; a missing gradient leaves the score as it is. *)
Definition act_update (j : nat) (s : vec) (a : option vec) : vec :=
  match a with Some a => update j s a | None => s end.

Fixpoint torch_act_loop (approx : list bool -> list (option vec))
         (draws : list (list bool)) (j : nat) (sc : list vec) : list vec :=
  match draws with
  | [] => sc
  | v :: rest =>
      torch_act_loop approx rest (S j)
        (map (fun p => act_update j (fst p) (snd p)) (combine sc (approx v)))
  end.

Definition act_approx (f : gran -> target -> vec -> vec) (g : gran) (os : list O)
           (tgs : list target) (v : list bool) : list (option vec) :=
  map (fun tg => if tg_conn tg then Some (f g tg (gradient 1 os tg v)) else None) tgs.

(** activation_hessian_scores_calculator_pytorch.py L96-138 [compute] *)
Definition torch_act_compute (g : gran) (o : list (item O)) (tgs : list target)
           (draws : list (list bool)) : result (list vec) :=
  let! m := concat_tensors (Items o) in
  Ok (torch_act_loop (act_approx torch_act_approx g (concat m) tgs) draws 0 (zeros tgs)).

(** [tf.reduce_mean(tf.stack(scores), axis=1)]: the scores need one shape. *)
Definition stacked_means (sc : list vec) : result vec :=
  match sc with
  | [] => Err E_value
  | s :: r => if forallb (fun x => Nat.eqb (length x) (length s)) r
              then Ok (map meanR sc) else Err E_value
  end.

(** activation_hessian_scores_calculator_keras.py L106-152: the previous means
    are stored for PER_TENSOR only. *)
Fixpoint keras_act_loop (g : gran) (approx : list bool -> list (option vec))
         (draws : list (list bool)) (j : nat) (sc : list vec) (prev : option vec)
  : result (list vec) :=
  match draws with
  | [] => Ok sc
  | v :: rest =>
      let sc' := map (fun p => act_update j (fst p) (snd p)) (combine sc (approx v)) in
      let! stop := (if Nat.ltb MIN_HESSIAN_ITER j
                    then match prev with
                         | Some p => let! new := stacked_means sc' in Ok (converged p new)
                         | None => Ok false
                         end
                    else Ok false) in
      if stop then Ok sc' else
      let! prev' := (match g with
                     | GTensor => let! new := stacked_means sc' in Ok (Some new)
                     | _ => Ok prev
                     end) in
      keras_act_loop g approx rest (S j) sc' prev'
  end.

(** activation_hessian_scores_calculator_keras.py L56-161 [compute]; the axis
    added at the end (L159) is left out. *)
Definition keras_act_compute (g : gran) (o : list (item O)) (tgs : list target)
           (draws : list (list bool)) : result (list vec) :=
  let! m := concat_tensors (Items o) in
  keras_act_loop g (act_approx keras_act_approx g (concat m) tgs) draws 0 (zeros tgs) None.

End Model.
Arguments target : clear implicits.
Arguments Target {O}.

(** pytorch_model_builder.py [_build_input_tensors_list] (input nodes take
    [inputs[index]]) and [_run_operation] (a list returned by an operation is
    the list of its outputs), for an input node, whose operation returns its
    argument.  The arguments of a call are tensors or lists of tensors. *)
Inductive call_arg (X : Type) := AOne (x : X) | AList (l : list X).
Arguments AOne {X}.
Arguments AList {X}.

Definition input_node_outputs {X} (args : list (call_arg X)) (i : nat) : result (list X) :=
  match nth_error args i with
  | None => Err E_index
  | Some (AOne x) => Ok [x]
  | Some (AList l) => Ok l
  end.

(** weights_hessian_scores_calculator_pytorch.py L77: [model(self.input_images)] *)
Definition weights_call {X} (images : list X) : list (call_arg X) := [AList images].

(** activation_hessian_scores_calculator_pytorch.py L75: [model( *self.input_images)] *)
Definition act_call {X} (images : list X) : list (call_arg X) := map AOne images.
