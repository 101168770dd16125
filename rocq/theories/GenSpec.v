(* GenSpec.v -- C89: what the returned images are. *)
From Coq Require Import Reals Lra Lia List Permutation.
From Verif Require Import Nd.
From Verif Require Import Base GenModel.
Import ListNotations.
Open Scope R_scope.

(* each iteration visits each of the batches once *)
Definition full_iteration (n b : nat) (it : list update) : Prop := Permutation (map fst it) (seq 0 ((n + b - 1) / b)).
(* the values of image i after the steps: those last assigned to its place in its batch *)
Definition current (b : nat) (sample : nat -> list nat -> R) (steps : list update) (i : nat) : list nat -> R :=
  fold_left (fun v u => if Nat.eqb (fst u) (i / b) then snd u (i mod b)%nat else v) steps (sample i).
(* the pixel of a plane of h rows and w columns, black outside *)
Definition pixel (h w : Z) (f : nat -> nat -> R) (y x : Z) : R :=
  if ((0 <=? y) && (y <? h) && (0 <=? x) && (x <? w))%Z then f (Z.to_nat y) (Z.to_nat x) else 0.
(* the Gaussian mean over the square of radius m around a position *)
Definition around (m : nat) (g : Z -> Z -> R) : R :=
  rsum (2 * m + 1) (fun i => rsum (2 * m + 1) (fun j => g (Z.of_nat i - Z.of_nat m)%Z (Z.of_nat j - Z.of_nat m)%Z)).
Definition bell (sigma : R) (dy dx : Z) : R := exp (- (IZR dy ^ 2 + IZR dx ^ 2) / (2 * sigma ^ 2)).
Definition blurred (m : nat) (sigma : R) (h w : nat) (f : nat -> nat -> R) (y x : Z) : R :=
  around m (fun dy dx => bell sigma dy dx * pixel (Z.of_nat h) (Z.of_nat w) f (y + dy) (x + dx)) / around m (bell sigma).
(* the nearest number of the interval *)
Definition clipped (lo hi x y : R) : Prop := lo <= y <= hi /\ forall z, lo <= z <= hi -> Rabs (y - x) <= Rabs (z - x).
(* an offset that leaves margins differing by one at most *)
Definition centred (total part off : nat) : Prop := (off + part <= total /\ (2 * off <= total - part + 1 /\ total - part <= 2 * off + 1))%nat.
(* the height and width a size argument stands for *)
Inductive size_is : size_arg -> nat * nat -> Prop :=
  | size_int n : size_is (Z_int n) (n, n)
  | size_one n : size_is (Z_tuple [n]) (n, n)
  | size_two h w : size_is (Z_tuple [h; w]) (h, w).
