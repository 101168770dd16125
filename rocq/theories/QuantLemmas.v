(* QuantLemmas.v -- final forms of the quantizer facts (re-exported by QuantProps.v) *)
From Verif Require Import Base RoundQ RoundQFacts QuantModel QuantSpec QuantProofs.
From Coq Require Import Qround Qpower Lqa Setoid Morphisms Qabs.
Open Scope Q_scope.

Lemma delta_step t n s : (1 <= n)%Z -> calculate_delta t n s == step t n s.
Proof.
  intro H. unfold calculate_delta, step. destruct s; cbn [b2z].
  - rewrite pow2_Z by lia. reflexivity.
  - replace (n - 0)%Z with n by lia. rewrite pow2_Z by lia. reflexivity.
Qed.
Lemma delta_pos t n s : 0 < t -> 0 < calculate_delta t n s.
Proof. intro H. unfold calculate_delta. apply Qlt_shift_div_l; [apply pow2_pos|]. lra. Qed.
Lemma code_min_k0 n s : code_min n s = (- sym_k0 n s)%Z.
Proof. unfold code_min, sym_k0. destruct s; lia. Qed.
Lemma code_max_k0 n s : (1 <= n)%Z -> code_max n s = (steps n - sym_k0 n s)%Z.
Proof.
  intro H. unfold code_max, sym_k0, steps. destruct s; [|lia].
  assert (2 ^ n = 2 * 2 ^ (n - 1))%Z as E by (rewrite <- Z.pow_succ_r by lia; f_equal; lia). lia.
Qed.
Lemma is_code_k0 n s k : (1 <= n)%Z -> is_code n s k <-> (- sym_k0 n s <= k <= steps n - sym_k0 n s)%Z.
Proof. intro H. unfold is_code. rewrite code_min_k0, (code_max_k0 n s H). tauto. Qed.

Section Sym.
  Variables (t : Q) (n : Z) (s : bool).
  Hypothesis Ht : 0 < t.
  Hypothesis Hn : (1 <= n)%Z.

  Lemma sym_grid x : exists k, is_code n s k /\ quantize_elem t n s x == value t n s k.
  Proof.
    destruct (gq_grid (- inject_Z (sym_k0 n s) * calculate_delta t n s) (calculate_delta t n s) (steps n)
                (sym_k0 n s) (delta_pos t n s Ht) (steps_pos n Hn) (Qeq_refl _) x) as [k [Hk E]].
    exists k. split; [apply is_code_k0; assumption|].
    rewrite (quantize_is_grid t n s Ht Hn x), E. unfold value. rewrite (delta_step t n s Hn). reflexivity.
  Qed.
  Lemma sym_fix k : is_code n s k -> quantize_elem t n s (value t n s k) == value t n s k.
  Proof.
    intro Hk. rewrite (quantize_is_grid t n s Ht Hn). unfold value at 1. rewrite <- (delta_step t n s Hn).
    rewrite (gq_fix (- inject_Z (sym_k0 n s) * calculate_delta t n s) (calculate_delta t n s) (steps n)
                (sym_k0 n s) (delta_pos t n s Ht) (Qeq_refl _)).
    - unfold value. rewrite (delta_step t n s Hn). reflexivity.
    - apply is_code_k0; assumption.
  Qed.
  Lemma sym_nearest x k : is_code n s k -> Qabs (quantize_elem t n s x - x) <= Qabs (value t n s k - x).
  Proof.
    intro Hk. rewrite (quantize_is_grid t n s Ht Hn). unfold value. rewrite <- (delta_step t n s Hn).
    apply (gq_nearest (- inject_Z (sym_k0 n s) * calculate_delta t n s) (calculate_delta t n s) (steps n)
                (sym_k0 n s) (delta_pos t n s Ht) (steps_pos n Hn) (Qeq_refl _)).
    apply is_code_k0; assumption.
  Qed.
  Lemma sym_idem x : quantize_elem t n s (quantize_elem t n s x) == quantize_elem t n s x.
  Proof.
    rewrite !(quantize_is_grid t n s Ht Hn).
    apply (gq_idem _ _ (steps n) (sym_k0 n s) (delta_pos t n s Ht) (steps_pos n Hn) (Qeq_refl _)).
  Qed.
  Lemma sym_mono x y : x <= y -> quantize_elem t n s x <= quantize_elem t n s y.
  Proof.
    intro H. rewrite !(quantize_is_grid t n s Ht Hn). apply gq_mono; [apply delta_pos; exact Ht|exact H].
  Qed.
  Lemma sym_hi : - inject_Z (sym_k0 n s) * calculate_delta t n s + inject_Z (steps n) * calculate_delta t n s
                 == value t n s (code_max n s).
  Proof. unfold value. rewrite <- (delta_step t n s Hn), (code_max_k0 n s Hn), inject_Z_sub. ring. Qed.
  Lemma sym_lo : - inject_Z (sym_k0 n s) * calculate_delta t n s == value t n s (code_min n s).
  Proof. unfold value. rewrite <- (delta_step t n s Hn), code_min_k0, inject_Z_opp. ring. Qed.
  Lemma sym_half x : value t n s (code_min n s) <= x <= value t n s (code_max n s) ->
    Qabs (quantize_elem t n s x - x) <= (1#2) * step t n s.
  Proof.
    intro H. rewrite <- sym_lo, <- sym_hi in H.
    pose proof (gq_err _ _ (steps n) (delta_pos t n s Ht) x H) as E.
    rewrite (quantize_is_grid t n s Ht Hn x), <- (delta_step t n s Hn).
    apply Qabs_case; intro; lra.
  Qed.
  Lemma sym_sat_hi x : value t n s (code_max n s) <= x -> quantize_elem t n s x == value t n s (code_max n s).
  Proof.
    intro H. rewrite <- sym_hi in H. rewrite (quantize_is_grid t n s Ht Hn x), <- sym_hi.
    apply gq_above; [apply delta_pos; exact Ht | apply steps_pos; exact Hn | exact H].
  Qed.
  Lemma sym_sat_lo x : x <= value t n s (code_min n s) -> quantize_elem t n s x == value t n s (code_min n s).
  Proof.
    intro H. rewrite <- sym_lo in H. rewrite (quantize_is_grid t n s Ht Hn x), <- sym_lo.
    apply gq_below; [apply delta_pos; exact Ht | apply steps_pos; exact Hn | exact H].
  Qed.
End Sym.

(* C01 tensor level *)
Lemma quantizer_grid_lem : forall xs n s t ys,
  (1 <= n)%Z -> symmetric_quantizer xs n s t = Ok ys ->
  exists t0, t = Some t0 /\ 0 < t0 /\
  Forall2 (fun x y => exists k, is_code n s k /\ y == value t0 n s k) xs ys.
Proof.
  intros xs n s t ys Hn H. destruct t as [t0|]; cbn in H; [|discriminate].
  destruct (Qle_bool_spec t0 0) as [Hc|Hc]; [discriminate|]. inversion H; subst ys; clear H.
  exists t0. split; [reflexivity|]. split; [exact Hc|].
  unfold quantize_tensor. induction xs as [|x xs IH]; cbn; constructor; [|exact IH].
  apply sym_grid; assumption.
Qed.
Lemma pot_is_sym xs n s t ys :
  power_of_two_quantizer xs n s t = Ok ys ->
  symmetric_quantizer xs n s t = Ok ys /\ exists e, match t with Some t0 => t0 == Qpower 2 e | None => False end.
Proof.
  unfold power_of_two_quantizer, symmetric_quantizer, threshold_is_power_of_two.
  destruct t as [t0|]; [|discriminate].
  destruct (Qle_bool_spec t0 0) as [Hc|Hc]; [discriminate|].
  destruct (Qeq_bool (2 ^ clog2 t0) t0) eqn:E; [|discriminate].
  intro H. split; [exact H|]. exists (clog2 t0). apply Qeq_bool_iff in E. symmetry. exact E.
Qed.
Lemma pot_quantizer_grid_lem : forall xs n s t ys,
  (1 <= n)%Z -> power_of_two_quantizer xs n s t = Ok ys ->
  exists t0 e, t = Some t0 /\ t0 == Qpower 2 e /\
  Forall2 (fun x y => exists k, is_code n s k /\ y == value t0 n s k) xs ys.
Proof.
  intros xs n s t ys Hn H. apply pot_is_sym in H. destruct H as [H [e He]].
  destruct (quantizer_grid_lem _ _ _ _ _ Hn H) as [t0 [E [Hp F]]]. subst t. exists t0, e. auto.
Qed.
(* the power-of-two quantizer rejects exactly the missing, non-positive or non-power-of-two thresholds *)
Lemma pot_rejects_lem : forall xs n s t,
  (exists ys, power_of_two_quantizer xs n s t = Ok ys) <->
  (exists t0 e, t = Some t0 /\ t0 == Qpower 2 e).
Proof.
  intros xs n s t. split.
  - intros [ys H]. apply pot_is_sym in H. destruct H as [_ [e He]]. destruct t as [t0|]; [|tauto]. eauto.
  - intros [t0 [e [-> He]]]. pose proof (pow2_pos e) as P.
    unfold power_of_two_quantizer, threshold_is_power_of_two.
    destruct (Qle_bool_spec t0 0) as [Hc|Hc]; [lra|].
    assert (clog2 t0 = e) as ->.
    { apply clog2_unique; [exact Hc| lra |]. rewrite He. apply pow2_lt. lia. }
    assert (Qeq_bool (2 ^ e) t0 = true) as -> by (apply Qeq_bool_iff; symmetry; exact He).
    eauto.
Qed.

(* C04 uniform *)
Section Uni.
  Variables (lo hi : Q) (n : Z).
  Hypothesis Hlt : lo < hi.
  Hypothesis Hn : (1 <= n)%Z.
  Let ab := fix_range_to_include_zero lo hi n.

  Lemma uni_setup : exists a b k0, fix_range_to_include_zero lo hi n = (a, b) /\ a < b /\ a <= 0 <= b /\
      (0 <= k0 <= steps n)%Z /\ a == - inject_Z k0 * ((b - a) / (Qpower 2 n - 1)) /\
      0 < (b - a) / (Qpower 2 n - 1) /\ a + inject_Z (steps n) * ((b - a) / (Qpower 2 n - 1)) == b /\
      forall x, uniform_quantize_elem lo hi n x == gq a ((b - a) / (Qpower 2 n - 1)) (steps n) x.
  Proof.
    destruct (fix_range_to_include_zero lo hi n) as [a b] eqn:E.
    destruct (fix_range_spec lo hi n a b Hlt Hn E) as [A1 [A2 [[k0 [K1 K2]] _]]].
    exists a, b, k0. pose proof (pow2_minus_one_pos n Hn).
    assert (0 < (b - a) / (Qpower 2 n - 1)) by (apply Qlt_shift_div_l; lra).
    assert (a + inject_Z (steps n) * ((b - a) / (Qpower 2 n - 1)) == b)
      by (rewrite <- pow2m1_steps by exact Hn; field; lra).
    repeat split; try tauto; try lia. apply uniform_is_grid; assumption.
  Qed.
  Lemma uni_idem x : uniform_quantize_elem lo hi n (uniform_quantize_elem lo hi n x) == uniform_quantize_elem lo hi n x.
  Proof.
    destruct uni_setup as (a & b & k0 & E & A & Z0 & K & Ea & D & B & G). rewrite !G.
    apply (gq_idem _ _ _ k0); [exact D | apply steps_pos; exact Hn | exact Ea].
  Qed.
  Lemma uni_mono x y : x <= y -> uniform_quantize_elem lo hi n x <= uniform_quantize_elem lo hi n y.
  Proof.
    intro H. destruct uni_setup as (a & b & k0 & E & A & Z0 & K & Ea & D & B & G). rewrite !G.
    apply gq_mono; [exact D | exact H].
  Qed.
  Lemma uni_zero : uniform_quantize_elem lo hi n 0 == 0.
  Proof.
    destruct uni_setup as (a & b & k0 & E & A & Z0 & K & Ea & D & B & G). rewrite G.
    pose proof (gq_fix a ((b - a) / (Qpower 2 n - 1)) (steps n) k0 D Ea 0%Z ltac:(lia)) as F.
    change (inject_Z 0) with 0 in F.
    assert (0 * ((b - a) / (Qpower 2 n - 1)) == 0) as Z by ring. rewrite Z in F. exact F.
  Qed.
  (* range, half-step error inside the adjusted range, saturation outside, zero on the grid *)
  Lemma uni_full : exists a b k0,
      fix_range_to_include_zero lo hi n = (a, b) /\ a <= 0 <= b /\ a < b /\
      (0 <= k0 <= 2 ^ n - 1)%Z /\ a + inject_Z k0 * ((b - a) / inject_Z (2 ^ n - 1)) == 0 /\
      (forall x, exists j, (0 <= j <= 2 ^ n - 1)%Z /\
           uniform_quantize_elem lo hi n x == a + inject_Z j * ((b - a) / inject_Z (2 ^ n - 1))) /\
      (forall x j, (0 <= j <= 2 ^ n - 1)%Z ->
           Qabs (uniform_quantize_elem lo hi n x - x) <= Qabs (a + inject_Z j * ((b - a) / inject_Z (2 ^ n - 1)) - x)) /\
      (forall x, a <= x <= b -> Qabs (uniform_quantize_elem lo hi n x - x) <= (1#2) * ((b - a) / inject_Z (2 ^ n - 1))) /\
      (forall x, b <= x -> uniform_quantize_elem lo hi n x == b) /\
      (forall x, x <= a -> uniform_quantize_elem lo hi n x == a).
  Proof.
    destruct uni_setup as (a & b & k0 & E & A & Z0 & K & Ea & D & B & G).
    exists a, b, k0. fold (steps n).
    set (d := (b - a) / (Qpower 2 n - 1)) in *.
    assert ((b - a) / inject_Z (steps n) == d) as Ed by (unfold d; rewrite pow2m1_steps by exact Hn; reflexivity).
    split; [exact E|]. split; [exact Z0|]. split; [exact A|]. split; [exact K|].
    split; [rewrite Ed, Ea; ring|].
    repeat split.
    - intro x. destruct (gq_grid a d (steps n) k0 D (steps_pos n Hn) Ea x) as [k [Hk Eg]].
      exists (k + k0)%Z. split; [lia|]. rewrite G, Eg, Ed, Ea, inject_Z_plus. ring.
    - intros x j Hj. rewrite G, Ed.
      pose proof (gq_nearest a d (steps n) k0 D (steps_pos n Hn) Ea x (j - k0)%Z ltac:(lia)) as N.
      rewrite inject_Z_sub in N.
      assert ((inject_Z j - inject_Z k0) * d == a + inject_Z j * d) as Ej by (rewrite Ea; ring).
      rewrite Ej in N. exact N.
    - intros x Hx. rewrite G, Ed. rewrite <- B in Hx.
      pose proof (gq_err a d (steps n) D x Hx). apply Qabs_case; intro; lra.
    - intros x Hx. rewrite G. rewrite <- B in Hx |- *. apply gq_above; [exact D|apply steps_pos; exact Hn|exact Hx].
    - intros x Hx. rewrite G. apply gq_below; [exact D|apply steps_pos; exact Hn|exact Hx].
  Qed.
  Lemma uni_width : lo <= 0 <= hi -> forall a b, fix_range_to_include_zero lo hi n = (a, b) ->
     b - a == hi - lo /\ Qabs (a - lo) <= (1#2) * ((hi - lo) / inject_Z (2 ^ n - 1)).
  Proof.
    intros Hz a b E. destruct (fix_range_spec lo hi n a b Hlt Hn E) as [_ [_ [_ W]]].
    destruct (W Hz) as [W1 W2]. split; [exact W1|]. fold (steps n).
    rewrite W1 in W2. rewrite pow2m1_steps in W2 by exact Hn. apply Qabs_case; intro; lra.
  Qed.
  (* one-sided ranges are extended to zero and nothing else *)
  Lemma uni_one_sided : forall a b, fix_range_to_include_zero lo hi n = (a, b) ->
     (0 < lo -> a == 0 /\ b == hi) /\ (hi < 0 -> a == lo /\ b == 0).
  Proof.
    intros a b E. unfold fix_range_to_include_zero in E.
    destruct (Qlt_b_spec 0 lo) as [Hlo|Hlo]; destruct (Qlt_b_spec hi 0) as [Hhi|Hhi]; cbn [negb andb b2q] in E;
      inversion E; subst a b; clear E; split; intro; try lra; split; ring.
  Qed.
End Uni.

(* no-clipping maximum: the n-bit signed grid with this threshold covers the data *)
Lemma fold_max_ge l : forall x y, (y = x \/ In y l) -> y <= fold_left Qmax_ l x.
Proof.
  induction l as [|z l IH]; intros x y [H|H]; cbn.
  - subst; lra.
  - destruct H.
  - subst y. apply Qle_trans with (Qmax_ x z); [apply Qmax_ub_l|]. apply IH; left; reflexivity.
  - destruct H as [->|H].
    + apply Qle_trans with (Qmax_ x y); [apply Qmax_ub_r|]. apply IH; left; reflexivity.
    + apply IH; right; exact H.
Qed.
Lemma fold_max_in l : forall x, In (fold_left Qmax_ l x) (x :: l).
Proof.
  induction l as [|z l IH]; intro x; cbn [fold_left]; [left; reflexivity|].
  destruct (IH (Qmax_ x z)) as [H|H].
  - rewrite <- H. destruct (Qmax_case x z) as [-> | ->]; [left|right; left]; reflexivity.
  - right; right; exact H.
Qed.
Lemma fold_min_le l : forall x y, (y = x \/ In y l) -> fold_left Qmin_ l x <= y.
Proof.
  induction l as [|z l IH]; intros x y [H|H]; cbn.
  - subst; lra.
  - destruct H.
  - subst y. apply Qle_trans with (Qmin_ x z); [|apply Qmin_lb_l]. apply IH; left; reflexivity.
  - destruct H as [->|H].
    + apply Qle_trans with (Qmin_ x y); [|apply Qmin_lb_r]. apply IH; left; reflexivity.
    + apply IH; right; exact H.
Qed.
Lemma fold_min_in l : forall x, In (fold_left Qmin_ l x) (x :: l).
Proof.
  induction l as [|z l IH]; intro x; cbn [fold_left]; [left; reflexivity|].
  destruct (IH (Qmin_ x z)) as [H|H].
  - rewrite <- H. destruct (Qmin_case x z) as [-> | ->]; [left|right; left]; reflexivity.
  - right; right; exact H.
Qed.
Lemma list_max_ge xs m : list_max xs = Ok m -> forall x, In x xs -> x <= m.
Proof. destruct xs as [|z r]; cbn; [discriminate|]. intros E x H. inversion E. apply fold_max_ge. destruct H; auto. Qed.
Lemma list_max_in xs m : list_max xs = Ok m -> In m xs.
Proof. destruct xs as [|z r]; cbn [list_max]; [discriminate|]. intros E. inversion E. apply fold_max_in. Qed.
Lemma list_min_le xs m : list_min xs = Ok m -> forall x, In x xs -> m <= x.
Proof. destruct xs as [|z r]; cbn; [discriminate|]. intros E x H. inversion E. apply fold_min_le. destruct H; auto. Qed.
Lemma list_min_in xs m : list_min xs = Ok m -> In m xs.
Proof. destruct xs as [|z r]; cbn [list_min]; [discriminate|]. intros E. inversion E. apply fold_min_in. Qed.

Lemma value_min_signed t n : (1 <= n)%Z -> value t n true (code_min n true) == - t.
Proof.
  intro H. unfold value, step, code_min. rewrite inject_Z_opp. field.
  assert (0 < 2 ^ (n - 1))%Z as P by (apply Z.pow_pos_nonneg; lia). apply ZQ_lt in P.
  change (inject_Z 0) with 0 in P. lra.
Qed.
Lemma value_max_signed t n : (1 <= n)%Z -> value t n true (code_max n true) == t - t / inject_Z (2 ^ (n - 1)).
Proof.
  intro H. unfold value, step, code_max. rewrite inject_Z_sub. change (inject_Z 1) with 1. field.
  assert (0 < 2 ^ (n - 1))%Z as P by (apply Z.pow_pos_nonneg; lia). apply ZQ_lt in P.
  change (inject_Z 0) with 0 in P. lra.
Qed.

(* Weights: with a threshold at least get_tensor_max no value of the tensor is clipped, so the
   quantization error of every element is at most half a step (n >= 2). *)
Lemma no_clip_lem : forall xs n m t x,
  (2 <= n)%Z -> get_tensor_max xs n false = Ok m -> m <= t -> 0 < t -> In x xs ->
  Qabs (quantize_elem t n true x - x) <= (1#2) * step t n true.
Proof.
  intros xs n m t x Hn E Hm Ht Hx.
  apply sym_half; [exact Ht|lia|].
  rewrite value_min_signed, value_max_signed by lia.
  unfold get_tensor_max in E. destruct (Z.ltb_spec n 1); [lia|].
  destruct (Z.eqb_spec n 1) as [|_]; [lia|].
  destruct (list_min xs) as [mn|] eqn:Emn; [|discriminate].
  destruct (list_max xs) as [mx|] eqn:Emx; [|discriminate]. cbn [bind] in E. inversion E as [E']; clear E.
  pose proof (list_min_le _ _ Emn x Hx) as H1. pose proof (list_max_ge _ _ Emx x Hx) as H2.
  pose proof (Qmax_ub_l (- mn) (mx * (2 ^ (n - 1) / (2 ^ (n - 1) - 1)))) as M1.
  pose proof (Qmax_ub_r (- mn) (mx * (2 ^ (n - 1) / (2 ^ (n - 1) - 1)))) as M2.
  rewrite E' in M1, M2.
  assert (2 <= Qpower 2 (n - 1)) as P by (apply (pow2_le 1 (n - 1)); lia).
  rewrite <- pow2_Z by lia. set (p := Qpower 2 (n - 1)) in *.
  split; [lra|].
  assert (mx * p <= m * (p - 1)) as M3.
  { assert (mx * (p / (p - 1)) * (p - 1) == mx * p) as R by (field; lra). rewrite <- R. nra. }
  assert (t / p * p == t) as TP by (field; lra).
  assert (mx * p <= (t - t / p) * p) as M4 by nra.
  assert (mx <= t - t / p) by (apply Qmult_le_r with p; lra).
  lra.
Qed.
