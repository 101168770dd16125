(* FakeQSpec.v -- rounding to the nearest value of an integer grid. *)
From Coq Require Import QArith ZArith Qabs.
Open Scope Q_scope.

(* y is one of delta*kmin, ..., delta*kmax, and none of them is closer to x *)
Definition nearest (delta : Q) (kmin kmax : Z) (x y : Q) : Prop :=
  exists k, (kmin <= k <= kmax)%Z /\ y == inject_Z k * delta /\
    forall j, (kmin <= j <= kmax)%Z -> Qabs (y - x) <= Qabs (inject_Z j * delta - x).
(* x is not half-way between two multiples of delta *)
Definition tie_free (delta x : Q) : Prop := forall k, ~ x == (inject_Z k + (1#2)) * delta.
(* the step of an n-bit grid over [lo, hi], extended to contain zero *)
Definition range_step (lo hi : Q) (n : Z) : Q :=
  ((if Qle_bool 0 hi then hi else 0) - (if Qle_bool lo 0 then lo else 0)) / inject_Z (2 ^ n - 1).
