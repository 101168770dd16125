(* LfhSpec.v -- the importance of a set of output channels of a layer. *)
From Verif Require Import Base SearchModel.
Open Scope Q_scope.

(* the indices of the p-th entry of an array of the given shape, in row-major order *)
Fixpoint unravel (shape : list nat) (p : nat) : list nat :=
  match shape with [] => [] | d :: r => ((p / fold_right Nat.mul 1 r) mod d :: unravel r p)%nat end.
(* the entry lies in one of the channels *)
Definition in_channels (shape : list nat) (axis : nat) (C : list nat) (p : nat) : bool :=
  existsb (Nat.eqb (nth axis (unravel shape p) 0%nat)) C.
(* sum of the squares of the weights in the channels C *)
Definition energy (shape : list nat) (data : list Q) (axis : nat) (C : list nat) : Q :=
  sumQ (map (fun p => nth p data 0 * nth p data 0) (filter (in_channels shape axis C) (seq 0 (fold_right Nat.mul 1%nat shape)))).
Definition total (f : nat -> Q) (C : list nat) : Q := sumQ (map f C).
(* (sum of the Hessian scores) * (sum of the squared weights) / (number of weights) *)
Definition importance (h : nat -> Q) (shape : list nat) (data : list Q) (axis dim : nat) (C : list nat) : Q :=
  total h C * energy shape data axis C / (inject_Z (Z.of_nat (length C)) * (inject_Z (Z.of_nat (fold_right Nat.mul 1%nat shape)) / inject_Z (Z.of_nat dim))).
Definition average (rows : list (list Q)) (c : nat) : Q := sumQ (map (fun r => nth c r 0) rows) / inject_Z (Z.of_nat (length rows)).
