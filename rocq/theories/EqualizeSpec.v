(* EqualizeSpec.v -- layers and functions through which a scale of the channels can be moved. *)
From Verif Require Import LinNode LinSpec BnSpec LinGraph.

(* the kernel has every output channel along its output axis *)
Definition scales_outputs (l : lin) : Prop := match l_kind l with K_dw => l_out l = l_in l | T_convT => l_groups l = 1%nat | _ => True end.
(* the kernel has every input channel along its input axis *)
Definition scales_inputs (l : lin) : Prop := match l_kind l with K_conv | T_conv => l_groups l = 1%nat | _ => True end.
(* a function of one channel that commutes with positive factors: ReLU, leaky ReLU, zero padding, pooling *)
Definition homogeneous (G : (Z * Z -> R) -> Z * Z -> R) : Prop := forall a f p, 0 < a -> G (fun q => a * f q) p = a * G f p.
(* every channel multiplied by its factor *)
Definition scale_image (s : nat -> R) (v : image) : image := match v with Some (hw, x) => Some (hw, fun c p => s c * x c p) | None => None end.
(* a node that works channel by channel: size maps the extent *)
Definition channel_op (C : nat) (size : Z * Z -> Z * Z) (G : Z * Z -> (Z * Z -> R) -> Z * Z -> R) (args : list image) : image :=
  match args with [Some (hw, x)] => Some (size hw, clip C (size hw) (fun c => G hw (x c))) | _ => None end.
Definition relu (x : R) : R := Rmax 0 x.
Definition relu_op (C : nat) : list image -> image := channel_op C (fun hw => hw) (fun _ f p => relu (f p)).
(* top, bottom, left, right rows and columns of zeros *)
Definition zeros_op (C : nat) (t b l r : Z) : list image -> image :=
  channel_op C (fun hw => (fst hw + t + b, snd hw + l + r)%Z) (fun hw f p => if inside_hw hw (fst p - t, snd p - l)%Z then f (fst p - t, snd p - l)%Z else 0).
