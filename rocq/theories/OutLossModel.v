(* OutLossModel.v -- C99: the output losses of data generation and the search for the last linear layers.
   Model of data_generation/{pytorch,keras}/optimization_functions/output_loss_functions.py and of the parts of
   data_generation/{pytorch,keras}/model_info_exctractors.py that find the last linear layers.
   Arithmetic is real (no half precision).  A tensor is a list of images; an image is a list of values (reshaped), or a list
   of channels, each with its values over the positions.  Among equal extremes the first position is taken (PyTorch leaves
   it open).  Kernels are those of Linear layers and 1x1 convolutions, after the squeeze a matrix with a row for each
   output.  Batches are not empty.  Gradients are not modelled. *)
From Coq Require Import Reals Lra Lia List.
From Verif Require Import Nd.
From Verif Require Import Base.
Import ListNotations.
Open Scope R_scope.
Open Scope res_scope.

(* the default of eps *)
Definition eps : R := / 1000000.
Definition sum (l : list R) : R := fold_right Rplus 0 l.
Definition mean (l : list R) : R := sum l / INR (length l).

(* torch.max(output, 1), torch.min(output, 1), tf.reduce_max with tf.argmax, on one row: value and index; an empty row is refused *)
Fixpoint best (better : R -> R -> bool) (l : list R) (i : nat) (cur : R * nat) : R * nat :=
  match l with [] => cur | x :: r => best better r (S i) (if better x (fst cur) then (x, i) else cur) end.
Definition above (x c : R) : bool := if Rlt_dec c x then true else false.
Definition below (x c : R) : bool := if Rlt_dec x c then true else false.
Definition extreme (better : R -> R -> bool) (row : list R) : result (R * nat) :=
  match row with [] => Err E_index | x :: r => Ok (best better r 1 (x, 0%nat)) end.
Definition tmax := extreme above.
Definition tmin := extreme below.
Definition diff (row : list R) : result R := let! a := tmax row in let! b := tmin row in Ok (fst a - fst b).

(* an output: one row for each image *)
Definition output := list (list R).
(* pytorch L48-73, keras L108-131; outputs that are no list are wrapped in one (L65-66) *)
Definition negative_loss (outs : list output) : result R :=
  foldM (fun acc o => let! d := mapM diff o in Ok (acc + mean (map Ropp d))) outs 0.
(* pytorch L23-46 *)
Definition inverse_loss (outs : list output) : result R :=
  foldM (fun acc o => let! d := mapM diff o in Ok (acc + 1 / mean (map (fun x => x + eps) d))) outs 0.
(* addition of vectors with broadcasting of a single entry *)
Definition badd (a b : list R) : result (list R) :=
  if Nat.eqb (length a) (length b) then Ok (map (fun p => fst p + snd p) (combine a b))
  else match a, b with
       | [x], _ => Ok (map (fun y => x + y) b)
       | _, [y] => Ok (map (fun x => x + y) a)
       | _, _ => Err E_value
       end.
(* keras L85-106: no mean over the images, the loss is a vector *)
Definition inverse_loss_keras (outs : list output) : result (list R) :=
  foldM (fun acc o => let! d := mapM diff o in badd acc (map (fun x => 1 / (x + eps)) d)) outs [0].

Definition norm (v : list R) : R := sqrt (sum (map (fun x => x ^ 2) v)).
Definition matrix := list (list R).
(* an image with its channels over the positions; reshape and mean over the positions (pytorch L103-104, L112-113) *)
Definition avg_pos (im : list (list R)) : list R := map mean im.
(* pytorch L115-117 (share = 1/2), keras L74-78 (share = 1): the terms of one image *)
Definition reg_image (share : R) (W : matrix) (row : list R) (n : R) : result R :=
  let! a := tmax row in
  let! b := tmin row in
  match nth_error W (snd a), nth_error W (snd b) with
  | Some wa, Some wb => Ok (Rabs (Rabs (fst b) - share * n * norm wb) + Rabs (Rabs (fst a) - share * n * norm wa) + 1 / (fst a - fst b + eps))
  | _, _ => Err E_index
  end.
(* pytorch L108-118: one output *)
Definition reg_output (share : R) (W : matrix) (o : output) (ns : list R) : result R :=
  if Nat.eqb (length o) (length ns)
  then let! t := mapM (fun p => reg_image share W (fst p) (snd p)) (combine o ns) in Ok (mean t)
  else Err E_runtime.
(* a tensor of images with channels and positions, or a list or tuple of outputs with one row for each image *)
Inductive model_output := Single (o : list (list (list R))) | Many (l : list output).
(* pytorch L102-105 *)
Definition rows_of (m : model_output) : list output := match m with Single o => [map avg_pos o] | Many l => l end.
(* pytorch L76-119: zip of the weights, the outputs and the inputs of the last linear layers *)
Definition regularized_loss (Ws : list matrix) (m : model_output) (ins : list (list (list (list R)))) : result R :=
  foldM (fun acc p => let! t := reg_output (1 / 2) (fst p) (fst (snd p)) (map (fun im => norm (avg_pos im)) (snd (snd p))) in Ok (acc + t))
        (combine Ws (combine (rows_of m) ins)) 0.
(* keras L24-82: the output of the last linear layer, its kernel, the input of the last batch normalization; without a last
   linear layer refused (L45-47); a kernel with one output is squeezed to a scalar, which tf.gather does not take *)
Definition regularized_loss_keras (last : option (matrix * output)) (bn : list (list (list R))) : result R :=
  match last with
  | None => Err E_critical
  | Some (W, o) =>
      match W with
      | [_] => Err E_value
      | _ => let! t := reg_output 1 W o (map (fun im => norm (avg_pos im)) bn) in Ok (0 + t)
      end
  end.

(* ---- the last linear layers in PyTorch ---- *)
Open Scope nat_scope.
(* a node of the fx graph, nodes numbered in the order of the graph: its input nodes, and the module it calls if that is a
   Linear or Conv2d layer (modules are found by name, L166-168) *)
Record fx := Fx { f_in : list nat; f_lin : option nat }.
Definition node_at (g : list fx) (x : nat) : fx := nth x g (Fx [] None).
(* L161-176: the list grows while it is walked; one flag for the whole search *)
Fixpoint walk (fuel : nat) (g : list fx) (found : bool) (q : list nat) (acc : list nat) : result (list nat) :=
  match q with
  | [] => Ok acc
  | x :: q' =>
      match fuel with
      | O => Err E_fuel
      | S k =>
          match f_lin (node_at g x) with
          | Some m => walk k g true q' (acc ++ [m])
          | None => if found then walk k g found q' acc else walk k g found (q' ++ f_in (node_at g x)) acc
          end
      end
  end.
(* how many visits a node can cause *)
Fixpoint visits (k : nat) (g : list fx) (x : nat) : nat :=
  match k with O => 1 | S k' => S (list_sum (map (visits k' g) (f_in (node_at g x)))) end.
(* L162 node.all_input_nodes: without repetition; the result lists the layers whose weights are kept (L169) *)
Definition last_linear (g : list fx) (outs : list nat) : result (list nat) :=
  walk (list_sum (map (visits (length g) g) outs)) g false outs [].
(* L171: the hooks are kept in a dictionary by name *)
Fixpoint keep_first (seen l : list nat) : list nat :=
  match l with [] => [] | x :: r => if existsb (Nat.eqb x) seen then keep_first seen r else x :: keep_first (x :: seen) r end.
(* L190-206 with the loss: the loss for the layers found; weights and inputs of a layer by its number *)
Definition regularized_of (g : list fx) (outs : list nat) (weight : nat -> matrix) (input : nat -> list (list (list R))) (m : model_output) : result R :=
  let! ws := last_linear g outs in
  regularized_loss (map weight ws) m (map input (keep_first [] ws)).
(* L217-232, remove and clear of the hooks (which fail, clear being called on the names), are not modelled; nothing calls them *)

(* ---- the last linear layer in Keras ---- *)
(* model.layers in order: a batch normalization; a Dense or Conv2D layer and whether a batch normalization consumes its
   output; any other layer *)
Inductive klayer := KBn | KLin (into_bn : bool) | KOther.
(* keras L187-201 *)
Fixpoint last_index {A} (p : A -> bool) (l : list A) (i : nat) (cur : option nat) : option nat :=
  match l with [] => cur | x :: r => last_index p r (S i) (if p x then Some i else cur) end.
Definition free_linear (k : klayer) : bool := match k with KLin false => true | _ => false end.
Definition is_bn (k : klayer) : bool := match k with KBn => true | _ => false end.
Definition keras_last (ls : list klayer) : option nat := last_index free_linear ls 0 None.
Fixpoint bn_at (ls : list klayer) (i : nat) : list nat :=
  match ls with [] => [] | k :: r => if is_bn k then i :: bn_at r (S i) else bn_at r (S i) end.
(* what the intermediate model returns: the input of a layer, the output of a layer, the output of the model *)
Inductive tap := T_in (i : nat) | T_out (i : nat) | T_model.
(* L106-118 *)
Definition taps (ls : list klayer) : list tap :=
  map T_in (bn_at ls 0) ++
  (match keras_last ls with Some i => if Nat.eqb (S i) (length ls) then [] else [T_out i] | None => [] end) ++ [T_model].
Definition layer_list (ls : list klayer) : list nat :=
  bn_at ls 0 ++ (match keras_last ls with Some i => [i] | None => [] end).
(* L176-185: layers and intermediate outputs are matched by position: what is stored as the input of each batch
   normalization, what as the output of the last linear layer, what is returned as the output of the model *)
Definition run_taps (ls : list klayer) : list (nat * option tap) * option tap * option tap :=
  let both := combine (layer_list ls) (map (nth_error (taps ls)) (seq 0 (length (layer_list ls)))) in
  (filter (fun p => existsb (Nat.eqb (fst p)) (bn_at ls 0)) both,
   match keras_last ls with
   | Some i => match find (fun p => Nat.eqb (fst p) i) both with Some (_, t) => t | None => None end
   | None => None
   end,
   nth_error (taps ls) (length (taps ls) - 1)).
