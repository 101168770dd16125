(* RoundQ.v -- exact rational rounding: numpy's np.round (round half to even) on Q, np.clip,
   and ceil(log2 x).  These are the numeric primitives of
   model_compression_toolkit/core/common/quantization/quantizers/quantizers_helpers.py.
   Simplification: floats are exact rationals. *)
From Coq Require Import QArith Qround Qpower ZArith Bool.
Open Scope Q_scope.

(* np.round: nearest integer, ties to even *)
Definition round_half_even (q : Q) : Z :=
  let f := Qfloor q in
  let r := q - inject_Z f in
  match Qcompare r (1#2) with
  | Lt => f
  | Gt => (f + 1)%Z
  | Eq => if Z.even f then f else (f + 1)%Z
  end.

Definition Qlt_b (a b : Q) : bool := negb (Qle_bool b a).

Definition Qmin_ (a b : Q) : Q := if Qle_bool a b then a else b.
Definition Qmax_ (a b : Q) : Q := if Qle_bool a b then b else a.

(* np.clip(x, a_min, a_max) = minimum(maximum(x, a_min), a_max) *)
Definition clip (x lo hi : Q) : Q := Qmin_ (Qmax_ x lo) hi.

(* ceil(log2 q) for q > 0, exactly: with e = log2 num - log2 den, 2^(e-1) < q < 2^(e+1). *)
Definition clog2 (q : Q) : Z :=
  let e := (Z.log2 (Qnum q) - Z.log2 (Zpos (Qden q)))%Z in
  if Qle_bool q (Qpower 2 e) then e else (e + 1)%Z.
