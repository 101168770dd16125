(* OutLossSpec.v -- what the output losses of data generation are to measure. *)
From Coq Require Import Reals List.
Import ListNotations.
Open Scope R_scope.

(* the largest and the smallest value of a row and their places *)
Definition largest (row : list R) (i : nat) (v : R) : Prop := nth_error row i = Some v /\ forall x, In x row -> x <= v.
Definition smallest (row : list R) (i : nat) (v : R) : Prop := nth_error row i = Some v /\ forall x, In x row -> v <= x.
(* the spread of an image's output *)
Definition spread (row : list R) (s : R) : Prop := exists i j a b, largest row i a /\ smallest row j b /\ s = a - b.
Fixpoint total (l : list R) : R := match l with [] => 0 | x :: r => x + total r end.
Definition average (l : list R) : R := total l / INR (length l).
(* the spreads of the images of an output *)
Definition spreads (o : list (list R)) (ss : list R) : Prop := Forall2 spread o ss.
Definition mean_spread (o : list (list R)) (m : R) : Prop := exists ss, spreads o ss /\ m = average ss.
(* tensors that have at least one image, images with at least one value *)
Definition filled (o : list (list R)) : Prop := o <> [] /\ Forall (fun row => row <> []) o.

Fixpoint inner (a b : list R) : R := match a, b with x :: r, y :: s => x * y + inner r s | _, _ => 0 end.
Definition len (v : list R) : R := sqrt (inner v v).
(* an output of a linear layer without bias on the channels x: one inner product for each row of the kernel *)
Definition linear (W : list (list R)) (x : list R) : list R := map (fun w => inner w x) W.
(* the same at each of the P positions of an image, channels first *)
Definition column (im : list (list R)) (p : nat) : list R := map (fun ch => nth p ch 0) im.
Definition linear_positions (W : list (list R)) (P : nat) (im : list (list R)) : list (list R) :=
  map (fun w => map (fun p => inner w (column im p)) (seq 0 P)) W.
(* the value of the regularized loss for one image: reference lengths of the input and of the rows of the kernel *)
Definition reg_value (share n : R) (W : list (list R)) (row : list R) (e t : R) : Prop :=
  exists i j a b wa wb, largest row i a /\ smallest row j b /\ nth_error W i = Some wa /\ nth_error W j = Some wb /\
    t = Rabs (Rabs b - share * (n * len wb)) + Rabs (Rabs a - share * (n * len wa)) + / (a - b + e).

(* nodes met going back from the outputs without passing a linear layer *)
Inductive back (inputs : nat -> list nat) (lin : nat -> option nat) (outs : list nat) : nat -> Prop :=
| back_out x : In x outs -> back inputs lin outs x
| back_in x y : back inputs lin outs x -> lin x = None -> In y (inputs x) -> back inputs lin outs y.
(* a chain of layers with one input each back to a linear layer *)
Inductive chain (inputs : nat -> list nat) (lin : nat -> option nat) : nat -> nat -> Prop :=
| chain_end x m : lin x = Some m -> chain inputs lin x m
| chain_step x y m : lin x = None -> inputs x = [y] -> chain inputs lin y m -> chain inputs lin x m.
