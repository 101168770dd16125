(* QuantSpec.v -- what n-bit quantization means, independently of the code. *)
From Coq Require Import QArith ZArith.
Open Scope Q_scope.

(* integer codes of an n-bit quantizer *)
Definition code_min (n : Z) (signed : bool) : Z := if signed then (- 2 ^ (n - 1))%Z else 0%Z.
Definition code_max (n : Z) (signed : bool) : Z := if signed then (2 ^ (n - 1) - 1)%Z else (2 ^ n - 1)%Z.
(* step of the grid for threshold t *)
Definition step (t : Q) (n : Z) (signed : bool) : Q :=
  t / inject_Z (2 ^ (if signed then n - 1 else n)).
Definition is_code (n : Z) (signed : bool) (k : Z) : Prop := (code_min n signed <= k <= code_max n signed)%Z.
(* value of code k *)
Definition value (t : Q) (n : Z) (signed : bool) (k : Z) : Q := inject_Z k * step t n signed.
