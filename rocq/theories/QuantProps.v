(* QuantProps.v -- C01..C04: fake quantization. Specification vocabulary: QuantSpec.v *)
From Verif Require Import Base RoundQ QuantModel QuantSpec QuantLemmas.
From Coq Require Import Qpower Qabs Lqa.
Open Scope Q_scope.

(* C01: whatever the symmetric quantizer accepts, each output element is an n-bit code times the step *)
Theorem symmetric_quantizer_on_grid : forall xs n signed t ys,
  (1 <= n)%Z -> symmetric_quantizer xs n signed t = Ok ys ->
  exists t0, t = Some t0 /\ 0 < t0 /\
  Forall2 (fun x y => exists k, is_code n signed k /\ y == value t0 n signed k) xs ys.
Proof. exact quantizer_grid_lem. Qed.
Print Assumptions symmetric_quantizer_on_grid.

Theorem power_of_two_quantizer_on_grid : forall xs n signed t ys,
  (1 <= n)%Z -> power_of_two_quantizer xs n signed t = Ok ys ->
  exists t0 e, t = Some t0 /\ t0 == Qpower 2 e /\
  Forall2 (fun x y => exists k, is_code n signed k /\ y == value t0 n signed k) xs ys.
Proof. exact pot_quantizer_grid_lem. Qed.
Print Assumptions power_of_two_quantizer_on_grid.

(* the power-of-two quantizer accepts exactly the power-of-two thresholds *)
Theorem power_of_two_quantizer_accepts_iff : forall xs n signed t,
  (exists ys, power_of_two_quantizer xs n signed t = Ok ys) <-> (exists t0 e, t = Some t0 /\ t0 == Qpower 2 e).
Proof. exact pot_rejects_lem. Qed.
Print Assumptions power_of_two_quantizer_accepts_iff.

Example quantizer_on_grid_ex :
  match symmetric_quantizer [(-5)#1; 3#10; 7#1] 2 true (Some 2) with
  | Ok [a; b; c] => a == -2#1 /\ b == 0 /\ c == 1
  | _ => False
  end.
Proof. vm_compute. auto. Qed.
Example pot_accepts_ex : is_ok (power_of_two_quantizer [1#3] 4 false (Some (1#8))) = true
                      /\ is_ok (power_of_two_quantizer [1#3] 4 false (Some (3#8))) = false.
Proof. vm_compute. auto. Qed.

(* C01 (nearest): no other n-bit value is closer to the input *)
Theorem quantize_nearest : forall t n signed x k, 0 < t -> (1 <= n)%Z -> is_code n signed k ->
  Qabs (quantize_elem t n signed x - x) <= Qabs (value t n signed k - x).
Proof. intros. apply sym_nearest; assumption. Qed.
Print Assumptions quantize_nearest.

(* C02: half-step error inside, saturation outside *)
Theorem quantize_half_step : forall t n signed x, 0 < t -> (1 <= n)%Z ->
  value t n signed (code_min n signed) <= x <= value t n signed (code_max n signed) ->
  Qabs (quantize_elem t n signed x - x) <= (1#2) * step t n signed.
Proof. intros. apply sym_half; assumption. Qed.
Print Assumptions quantize_half_step.

Theorem quantize_saturates : forall t n signed x, 0 < t -> (1 <= n)%Z ->
  (value t n signed (code_max n signed) <= x -> quantize_elem t n signed x == value t n signed (code_max n signed)) /\
  (x <= value t n signed (code_min n signed) -> quantize_elem t n signed x == value t n signed (code_min n signed)).
Proof. intros; split; [apply sym_sat_hi|apply sym_sat_lo]; assumption. Qed.
Print Assumptions quantize_saturates.

(* the bounds of the range in closed form, so that the two theorems above read without the helpers *)
Theorem signed_range : forall t n, (1 <= n)%Z ->
  value t n true (code_min n true) == - t /\ value t n true (code_max n true) == t - t / inject_Z (2 ^ (n - 1)).
Proof. intros; split; [apply value_min_signed|apply value_max_signed]; assumption. Qed.
Print Assumptions signed_range.

Example quantize_ex : quantize_elem 1 3 true (3#10) == 1#4 /\ quantize_elem 1 3 true 7 == 3#4 /\
                      quantize_elem 1 3 true (-7#1) == -1#1 /\ quantize_elem 1 3 false 7 == 7#8.
Proof. vm_compute. auto. Qed.

(* C03: idempotent, monotone; symmetric and uniform *)
Theorem quantize_idempotent : forall t n signed x, 0 < t -> (1 <= n)%Z ->
  quantize_elem t n signed (quantize_elem t n signed x) == quantize_elem t n signed x.
Proof. intros. apply sym_idem; assumption. Qed.
Print Assumptions quantize_idempotent.

Theorem quantize_monotone : forall t n signed x y, 0 < t -> (1 <= n)%Z -> x <= y ->
  quantize_elem t n signed x <= quantize_elem t n signed y.
Proof. intros. apply sym_mono; assumption. Qed.
Print Assumptions quantize_monotone.

(* every representable value is a fixed point, so nothing is lost when already quantized data is re-quantized *)
Theorem quantize_fixes_grid : forall t n signed k, 0 < t -> (1 <= n)%Z -> is_code n signed k ->
  quantize_elem t n signed (value t n signed k) == value t n signed k.
Proof. intros. apply sym_fix; assumption. Qed.
Print Assumptions quantize_fixes_grid.

Theorem uniform_idempotent : forall lo hi n x, lo < hi -> (1 <= n)%Z ->
  uniform_quantize_elem lo hi n (uniform_quantize_elem lo hi n x) == uniform_quantize_elem lo hi n x.
Proof. intros. apply uni_idem; assumption. Qed.
Print Assumptions uniform_idempotent.

Theorem uniform_monotone : forall lo hi n x y, lo < hi -> (1 <= n)%Z -> x <= y ->
  uniform_quantize_elem lo hi n x <= uniform_quantize_elem lo hi n y.
Proof. intros. apply uni_mono; assumption. Qed.
Print Assumptions uniform_monotone.

(* C04: the adjusted range [a,b] holds zero on its grid; the quantizer rounds to its 2^n points *)
Theorem uniform_range_represents_zero : forall lo hi n, lo < hi -> (1 <= n)%Z ->
  exists a b k0,
    fix_range_to_include_zero lo hi n = (a, b) /\ a <= 0 <= b /\ a < b /\
    (0 <= k0 <= 2 ^ n - 1)%Z /\ a + inject_Z k0 * ((b - a) / inject_Z (2 ^ n - 1)) == 0 /\
    (forall x, exists j, (0 <= j <= 2 ^ n - 1)%Z /\
         uniform_quantize_elem lo hi n x == a + inject_Z j * ((b - a) / inject_Z (2 ^ n - 1))) /\
    (forall x j, (0 <= j <= 2 ^ n - 1)%Z ->
         Qabs (uniform_quantize_elem lo hi n x - x) <= Qabs (a + inject_Z j * ((b - a) / inject_Z (2 ^ n - 1)) - x)) /\
    (forall x, a <= x <= b -> Qabs (uniform_quantize_elem lo hi n x - x) <= (1#2) * ((b - a) / inject_Z (2 ^ n - 1))) /\
    (forall x, b <= x -> uniform_quantize_elem lo hi n x == b) /\
    (forall x, x <= a -> uniform_quantize_elem lo hi n x == a).
Proof. intros. apply uni_full; assumption. Qed.
Print Assumptions uniform_range_represents_zero.

Theorem uniform_zero_exact : forall lo hi n, lo < hi -> (1 <= n)%Z -> uniform_quantize_elem lo hi n 0 == 0.
Proof. intros. apply uni_zero; assumption. Qed.
Print Assumptions uniform_zero_exact.

(* the width of a range that straddles zero is kept, and its lower end moves by at most half a step *)
Theorem uniform_range_width : forall lo hi n, lo < hi -> (1 <= n)%Z -> lo <= 0 <= hi ->
  forall a b, fix_range_to_include_zero lo hi n = (a, b) ->
  b - a == hi - lo /\ Qabs (a - lo) <= (1#2) * ((hi - lo) / inject_Z (2 ^ n - 1)).
Proof. intros. apply uni_width; assumption. Qed.
Print Assumptions uniform_range_width.

(* a one-sided range is stretched to zero, its other end kept *)
Theorem uniform_range_one_sided : forall lo hi n, lo < hi -> (1 <= n)%Z ->
  forall a b, fix_range_to_include_zero lo hi n = (a, b) ->
  (0 < lo -> a == 0 /\ b == hi) /\ (hi < 0 -> a == lo /\ b == 0).
Proof. intros lo hi n H H0 a b E. exact (uni_one_sided lo hi n H a b E). Qed.
Print Assumptions uniform_range_one_sided.

Example uniform_ex : uniform_quantize_elem (-3#10) 1 2 0 == 0 /\
                     uniform_quantize_elem (1#2) 2 2 (1#10) == 0 /\ uniform_quantize_elem (-3#10) 1 2 (4#10) == 13#30.
Proof. vm_compute. auto. Qed.

(* the adjusted range may fail to cover the requested one: clipping by up to half a step at one end *)
Theorem uniform_range_not_covering_refuted : exists lo hi n a b,
  lo < 0 < hi /\ fix_range_to_include_zero lo hi n = (a, b) /\ (b < hi \/ lo < a).
Proof.
  exists (-4#10), (11#10), 2%Z. eexists. eexists. split; [split; reflexivity|]. split; [vm_compute; reflexivity|].
  vm_compute. auto.
Qed.
Print Assumptions uniform_range_not_covering_refuted.
