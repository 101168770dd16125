(* LutProps.v -- C06: look-up-table quantization *)
From Verif Require Import Base RoundQ QuantModel LutModel LutProofs.
From Coq Require Import Qpower Qabs Lqa.
Open Scope Q_scope.

(* each weight becomes (LUT entry)/128*threshold, for an entry at least distance from the scaled, clipped weight *)
Theorem lut_quantizer_nearest : forall lut t x y,
  lut_kmeans_quantizer_elem lut t x = Ok y ->
  exists c, In c lut /\ y = inject_Z (round_half_even c) / Qpower 2 7 * t /\
    let s := clip (x / (t + EPS) * Qpower 2 7) (-128#1) (127#1) in
    forall c', In c' lut -> Qabs (s - c) <= Qabs (s - c').
Proof. exact lut_quantizer_lem. Qed.
Print Assumptions lut_quantizer_nearest.

Theorem lut_quantizer_total : forall lut t x, lut <> [] -> exists y, lut_kmeans_quantizer_elem lut t x = Ok y.
Proof. exact lut_quantizer_total_lem. Qed.
Print Assumptions lut_quantizer_total.

Theorem lut_quantizer_keeps_zero : forall lut t y, 0 <= t -> (exists c, In c lut /\ c == 0) ->
  lut_kmeans_quantizer_elem lut t 0 = Ok y -> y == 0.
Proof. exact lut_zero_lem. Qed.
Print Assumptions lut_quantizer_keeps_zero.

(* the LUT for weights: fewer than 8 bits, contains zero, integers that are rounded centres (or the added zero) *)
Theorem lut_built_contains_zero : forall n p centres lut,
  lut_kmeans_lut n p centres = Ok lut ->
  (n < 8)%Z /\ In 0 lut /\
  (forall c, In c lut -> exists k, c = inject_Z k) /\
  (forall c, In c lut -> c = 0 \/ exists m, In m centres /\ c = inject_Z (round_half_even m)) /\
  (length lut <= S (length centres))%nat /\ ((2 ^ n <= p)%Z -> length lut = length centres).
Proof. exact lut_built_lem. Qed.
Print Assumptions lut_built_contains_zero.

Theorem lut_built_in_range : forall n p centres lut,
  lut_kmeans_lut n p centres = Ok lut -> (forall m, In m centres -> -128#1 <= m <= 127#1) ->
  forall c, In c lut -> exists k, c = inject_Z k /\ (-128 <= k <= 127)%Z.
Proof. exact lut_range_lem. Qed.
Print Assumptions lut_built_in_range.

(* the number of entries fits the bit-width when k-means is run with min(#distinct weights, 2^n) clusters *)
Theorem lut_built_size : forall n p centres lut,
  lut_kmeans_lut n p centres = Ok lut -> Z.of_nat (length centres) = Z.min p (2 ^ n) ->
  (Z.of_nat (length lut) <= 2 ^ n)%Z.
Proof. exact lut_size_lem. Qed.
Print Assumptions lut_built_size.

Example lut_ex : lut_kmeans_lut 2 9 [5#2; -7#2; 1#1; 30#1] = Ok [2; -4#1; 0; 30]
              /\ lut_kmeans_lut 2 3 [5#2; -7#2; 30#1] = Ok [0; 2; -4#1; 30]
              /\ lut_kmeans_lut 8 3 [5#2] = Err E_critical.
Proof. vm_compute. auto. Qed.
Example lut_quantizer_ex : match lut_kmeans_quantizer_elem [0; 64; -64#1] 2 (3#4) with Ok y => Qeq_bool y 1 | Err _ => false end = true.
Proof. vm_compute. reflexivity. Qed.
