(* RescaleSpec.v -- what the activation functions compute, and the softmax function. *)
From Verif Require Import LinNode LinSpec LinGraph EqualizeSpec RescaleModel.

Definition clamp (lo hi x : R) : R := Rmax lo (Rmin hi x).
(* Keras ReLU: the bound from max on, the identity from the threshold on, a line below it *)
Definition keras_relu (max : option R) (thr slope x : R) : R :=
  let below := if Rle_dec thr x then x else slope * (x - thr) in
  match max with Some m => if Rle_dec m x then m else below | None => below end.
Definition opt_or (o : option R) (d : R) : R := match o with Some v => v | None => d end.
(* the function that the node computes while d are the default arguments of hardtanh *)
Definition act_fun (d : defaults) (a : act) : R -> R :=
  match a with
  | A_relu m t g => keras_relu m t g
  | A_relu6 | A_f_relu6 => clamp 0 6
  | A_hardtanh lo hi => clamp lo hi
  | A_f_hardtanh lo hi _ => clamp (opt_or lo (fst d)) (opt_or hi (snd d))
  end.
(* the activations whose bound can be moved: a positive bound, and a ReLU that changes its slope at 0 *)
Definition movable (a : act) : Prop :=
  match a with
  | A_relu (Some m) t _ => 0 < m /\ t = 0
  | A_relu None _ _ | A_relu6 | A_f_relu6 => True
  | A_hardtanh lo hi => lo = 0 -> 0 < hi
  | A_f_hardtanh _ _ _ => False
  end.
(* the bound above which the activation is constant *)
Definition bound_of (d : defaults) (a : act) : option R :=
  match a with
  | A_relu m _ _ => m
  | A_relu6 | A_f_relu6 => Some 6
  | A_hardtanh _ hi => Some hi
  | A_f_hardtanh _ hi _ => Some (opt_or hi (snd d))
  end.
Definition power_of_two (m : R) : Prop := exists z : Z, m = powerRZ 2 z.
(* a node that applies f to each entry *)
Definition entry_op (C : nat) (f : R -> R) : list image -> image := channel_op C (fun hw => hw) (fun _ g p => f (g p)).
(* a model of two layers with the activation in between *)
Definition two_layers (l1 : lin) (f : R -> R) (l2 : lin) (hw hw' : Z * Z) (x : tensor) : tensor :=
  lin_val l2 hw' (fun c q => f (lin_val l1 hw x c q)).

(* softmax along the channels, the rows or the columns of a tensor of C channels and extent hw *)
Inductive sm_axis : Set := Ax_channel | Ax_row | Ax_column.
Definition line (C : nat) (hw : Z * Z) (a : sm_axis) (x : tensor) (c : nat) (p : Z * Z) : nat * (nat -> R) :=
  match a with
  | Ax_channel => (C, fun j => x j p)
  | Ax_row => (Z.to_nat (fst hw), fun j => x c (Z.of_nat j, snd p))
  | Ax_column => (Z.to_nat (snd hw), fun j => x c (fst p, Z.of_nat j))
  end.
Definition softmax (C : nat) (hw : Z * Z) (a : sm_axis) (x : tensor) : tensor := fun c p =>
  exp (x c p) / rsum (fst (line C hw a x c p)) (fun j => exp (snd (line C hw a x c p) j)).
Definition softmax_op (C : nat) (a : sm_axis) (args : list image) : image :=
  match args with [Some (hw, x)] => Some (hw, clip C hw (softmax C hw a x)) | _ => None end.
(* the largest absolute value of a range *)
Definition reach (r : R * R) : R := Rmax (Rabs (fst r)) (Rabs (snd r)).
Definition in_range (r : R * R) (x : R) : Prop := fst r <= x <= snd r.
