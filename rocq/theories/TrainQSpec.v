(* TrainQSpec.v -- what rounding training may do to a weight.
   A quantizer with step d, integer levels lo..hi and offset z has the grid { z + d k | lo <= k <= hi }. *)
From Coq Require Import Reals ZArith.
Open Scope R_scope.

(* q is a grid point *)
Definition on_grid (d z : R) (lo hi : Z) (q : R) : Prop :=
  exists k : Z, (lo <= k <= hi)%Z /\ q = z + d * IZR k.
(* x brought into the interval *)
Definition clamp (lo hi x : R) : R := if Rlt_dec x lo then lo else if Rlt_dec hi x then hi else x.
(* q is no further from x than any grid point is *)
Definition nearest (d z : R) (lo hi : Z) (x q : R) : Prop :=
  on_grid d z lo hi q /\ forall p, on_grid d z lo hi p -> Rabs (q - x) <= Rabs (p - x).
(* q is one of the two grid points around x: no grid point lies strictly between x and q *)
Definition neighbour (d z : R) (lo hi : Z) (x q : R) : Prop :=
  on_grid d z lo hi q /\ forall p, on_grid d z lo hi p -> ~ (x < p < q) /\ ~ (q < p < x).
(* the largest and the smallest integer level of n bits *)
Definition hi_level (n : nat) (signed : bool) : Z := (2 ^ Z.of_nat (if signed then n - 1 else n) - 1)%Z.
Definition lo_level (n : nat) (signed : bool) : Z := if signed then (- 2 ^ Z.of_nat (n - 1))%Z else 0%Z.
(* t is a power of two *)
Definition is_pot (t : R) : Prop := exists k : Z, t = powerRZ 2 k.
