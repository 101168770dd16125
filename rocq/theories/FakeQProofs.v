(* FakeQProofs.v -- proofs about FakeQModel.v *)
From Verif Require Import Base RoundQ RoundQFacts QuantModel QuantProofs QuantSpec QuantLemmas LutModel FakeQModel FakeQSpec.
From Coq Require Import Qround Qpower Setoid Qabs Lia Lqa.
Open Scope Q_scope.

Lemma nearest_int (u : Q) (r lo hi j : Z) : (lo <= hi)%Z -> - (1#2) <= inject_Z r - u <= 1#2 -> (lo <= j <= hi)%Z ->
  Qabs (inject_Z (zclamp r lo hi) - u) <= Qabs (inject_Z j - u).
Proof.
  intros H He Hj. unfold zclamp.
  assert (r < lo \/ hi < r \/ lo <= r <= hi)%Z as [C|[C|C]] by lia.
  - replace (Z.min (Z.max r lo) hi) with lo by lia.
    pose proof (ZQ_le (r + 1) lo ltac:(lia)) as H1. pose proof (ZQ_le lo j ltac:(lia)) as H2. rewrite inject_Z_plus in H1. change (inject_Z 1) with 1 in H1.
    apply Qabs_case; intro A; apply Qabs_case; intro B; lra.
  - replace (Z.min (Z.max r lo) hi) with hi by lia.
    pose proof (ZQ_le (hi + 1) r ltac:(lia)) as H1. pose proof (ZQ_le j hi ltac:(lia)) as H2. rewrite inject_Z_plus in H1. change (inject_Z 1) with 1 in H1.
    apply Qabs_case; intro A; apply Qabs_case; intro B; lra.
  - replace (Z.min (Z.max r lo) hi) with r by lia.
    assert (j = r \/ j + 1 <= r \/ r + 1 <= j)%Z as [->|[D|D]] by lia; [apply Qle_refl| |];
      apply ZQ_le in D; rewrite inject_Z_plus in D; change (inject_Z 1) with 1 in D; apply Qabs_case; intro A; apply Qabs_case; intro B; lra.
Qed.

Lemma qabs_scale d u v : 0 < d -> Qabs (u * d - v) == Qabs (u - v / d) * d.
Proof.
  intro H. assert (u * d - v == (u - v / d) * d) as E by (field; lra). rewrite E, Qabs_Qmult, (Qabs_pos d) by lra. reflexivity.
Qed.

Lemma nearest_clamp d lo hi x r y : 0 < d -> (lo <= hi)%Z -> - (1#2) <= inject_Z r - x / d <= 1#2 ->
  y == inject_Z (zclamp r lo hi) * d -> nearest d lo hi x y.
Proof.
  intros Hd H He Hy. exists (zclamp r lo hi). split; [unfold zclamp; lia|]. split; [exact Hy|]. intros j Hj.
  rewrite Hy, !qabs_scale by exact Hd. apply Qmult_le_compat_r; [|lra]. apply nearest_int; assumption.
Qed.

Lemma nearest_proper d d' lo hi x y y' : d == d' -> y == y' -> nearest d lo hi x y -> nearest d' lo hi x y'.
Proof.
  intros Ed Ey (k & Hk & E & H). exists k. split; [exact Hk|]. split; [rewrite <- Ed, <- Ey; exact E|].
  intros j Hj. rewrite <- Ey, <- Ed. apply H. exact Hj.
Qed.

Lemma nearest_unique d lo hi x y z : 0 < d -> tie_free d x -> nearest d lo hi x y -> nearest d lo hi x z -> y == z.
Proof.
  intros Hd Ht (k & Hk & Ey & Ny) (j & Hj & Ez & Nz).
  assert (Qabs (inject_Z k - x / d) == Qabs (inject_Z j - x / d)) as E.
  { pose proof (Ny j Hj) as A. pose proof (Nz k Hk) as B. rewrite Ey, !qabs_scale in A by exact Hd. rewrite Ez, !qabs_scale in B by exact Hd.
    apply Qmult_lt_0_le_reg_r in A; [|exact Hd]. apply Qmult_lt_0_le_reg_r in B; [|exact Hd]. lra. }
  assert (x == x / d * d) as Ex by (field; lra). set (u := x / d) in *.
  destruct (Z.eq_dec k j) as [->|Hne]; [rewrite Ey, Ez; reflexivity|]. exfalso.
  assert (inject_Z k + inject_Z j == 2 * u) as Es.
  { assert (~ inject_Z k == inject_Z j) as N by (intro Q; apply Hne; apply inject_Z_injective; exact Q).
    revert E. apply Qabs_case; intro A; apply Qabs_case; intro B; intro E; try lra; exfalso; apply N; lra. }
  destruct (Z.Even_or_Odd (k + j)) as [[m Hm]|[m Hm]].
  - assert (u == inject_Z m) as Eu by (rewrite <- inject_Z_plus, Hm, inject_Z_mult in Es; change (inject_Z 2) with 2 in Es; lra).
    pose proof (Ny m ltac:(lia)) as A. rewrite Ey, !qabs_scale in A by exact Hd. fold u in A. rewrite Eu in A.
    assert (inject_Z m - inject_Z m == 0) as Z0 by ring. rewrite Z0 in A. change (Qabs 0) with 0 in A.
    apply Qmult_lt_0_le_reg_r in A; [|exact Hd].
    assert (k = m)%Z; [|lia]. apply inject_Z_injective. pose proof (Qabs_nonneg (inject_Z k - inject_Z m)) as P.
    assert (Qabs (inject_Z k - inject_Z m) == 0) as Q0 by lra. revert Q0. apply Qabs_case; intros; lra.
  - apply (Ht m). rewrite Ex. assert (u == inject_Z m + (1#2)) as ->; [|reflexivity].
    rewrite <- inject_Z_plus, Hm, inject_Z_plus, inject_Z_mult in Es. change (inject_Z 2) with 2 in Es. change (inject_Z 1) with 1 in Es. lra.
Qed.

(* ---- the three ways of rounding ---- *)
Lemma zclamp_shift r z n : (zclamp (z + r) 0 n - z = zclamp r (- z) (n - z))%Z.
Proof. unfold zclamp. lia. Qed.
Lemma torch_nearest d zp n x : 0 < d -> (0 <= n)%Z -> nearest d (- zp) (n - zp) x (torch_elem d zp 0 n x).
Proof.
  intros Hd Hn. eapply (nearest_clamp d _ _ x (round_half_even (x / d))); [exact Hd|lia|apply round_error|].
  unfold torch_elem. rewrite zclamp_shift. reflexivity.
Qed.
Lemma torch_nearest0 d lo hi x : 0 < d -> (lo <= hi)%Z -> nearest d lo hi x (torch_elem d 0 lo hi x).
Proof.
  intros Hd Hn. eapply (nearest_clamp d _ _ x (round_half_even (x / d))); [exact Hd|lia|apply round_error|].
  unfold torch_elem. rewrite Z.add_0_l, Z.sub_0_r. reflexivity.
Qed.
Lemma gq_is_nearest a d N k0 x : 0 < d -> (1 <= N)%Z -> (0 <= k0 <= N)%Z -> a == - inject_Z k0 * d ->
  nearest d (- k0) (N - k0) x (gq a d N x).
Proof.
  intros Hd HN Hk Ha. destruct (gq_grid a d N k0 Hd HN Ha x) as (k & H1 & H2). exists k. split; [exact H1|]. split; [exact H2|].
  intros j Hj. apply (gq_nearest a d N k0 Hd HN Ha x j Hj).
Qed.

Lemma round_up_error u : - (1#2) <= inject_Z (Qfloor (u + (1#2))) - u <= 1#2.
Proof. pose proof (Qfloor_bounds (u + (1#2))). lra. Qed.
Lemma floor_Z_half z : Qfloor (inject_Z z + (1#2)) = z.
Proof. apply Qfloor_eq_iff; lra. Qed.
Global Instance floor_proper : Proper (Qeq ==> eq) Qfloor.
Proof. intros a b H. apply Qfloor_comp. exact H. Qed.

Lemma clip_div d lo hi x : 0 < d -> (lo <= hi)%Z ->
  Qfloor (clip x (inject_Z lo * d) (inject_Z hi * d) / d + (1#2)) = zclamp (Qfloor (x / d + (1#2))) lo hi.
Proof.
  intros Hd H. assert (x == x / d * d) as Ex by (field; lra). set (u := x / d) in *.
  assert (inject_Z lo * d <= inject_Z hi * d) as Hlh by (apply Qmult_le_compat_r; [apply ZQ_le; exact H|lra]).
  pose proof (Qfloor_bounds (u + (1#2))) as [F1 F2]. set (f := Qfloor (u + (1#2))) in *.
  destruct (Qlt_le_dec u (inject_Z lo)) as [C|C].
  - rewrite (clip_below x _ _ Hlh) by (rewrite Ex; apply Qmult_le_compat_r; lra).
    assert (inject_Z lo * d / d == inject_Z lo) as -> by (field; lra). rewrite floor_Z_half.
    assert (f < lo + 1)%Z by (apply QZ_lt; rewrite inject_Z_plus; change (inject_Z 1) with 1; lra). unfold zclamp. lia.
  - destruct (Qlt_le_dec (inject_Z hi) u) as [D|D].
    + rewrite (clip_above x _ _ Hlh) by (rewrite Ex; apply Qmult_le_compat_r; lra).
      assert (inject_Z hi * d / d == inject_Z hi) as -> by (field; lra). rewrite floor_Z_half.
      assert (hi < f + 1)%Z by (apply QZ_lt; rewrite inject_Z_plus; change (inject_Z 1) with 1; lra). unfold zclamp. lia.
    + rewrite clip_id by (rewrite Ex; apply Qmult_le_compat_r; lra). fold u. fold f.
      assert (lo < f + 1)%Z by (apply QZ_lt; rewrite inject_Z_plus; change (inject_Z 1) with 1; lra).
      assert (f < hi + 1)%Z by (apply QZ_lt; rewrite inject_Z_plus; change (inject_Z 1) with 1; lra). unfold zclamp. lia.
Qed.

(* TensorFlow's function on a range that contains zero *)
Definition tf_zp (lo scale : Q) : Z := round_half_up (- (lo / scale)).
Lemma tf_nearest lo hi n x : lo < hi -> lo <= 0 <= hi -> (1 <= n)%Z ->
  let d := (hi - lo) / inject_Z (2 ^ n - 1) in
  (0 <= tf_zp lo d <= 2 ^ n - 1)%Z /\ nearest d (- tf_zp lo d) (2 ^ n - 1 - tf_zp lo d) x (tf_elem lo hi n x).
Proof.
  intros Hlt H0 Hn d. pose proof (steps_pos n Hn) as HN. unfold steps in HN. set (N := (2 ^ n - 1)%Z) in *.
  assert (1 <= inject_Z N) as HNq by (apply (ZQ_le 1); exact HN).
  assert (0 < d) as Hd by (unfold d; apply Qlt_shift_div_l; lra).
  assert (inject_Z N * d == hi - lo) as HNd by (unfold d; field; lra).
  assert (0 <= - (lo / d)) as Z0. { assert (lo / d <= 0); [|lra]. apply Qle_shift_div_r; lra. }
  assert (- (lo / d) <= inject_Z N) as ZN. { assert (- inject_Z N <= lo / d); [|lra]. apply Qle_shift_div_l; lra. }
  assert (0 <= tf_zp lo d <= N)%Z as Hz.
  { unfold tf_zp, round_half_up. set (u := - (lo / d)) in *. pose proof (Qfloor_bounds (u + (1#2))) as [F1 F2]. split.
    - assert (0 < Qfloor (u + (1#2)) + 1)%Z; [|lia]. apply QZ_lt. rewrite inject_Z_plus. change (inject_Z 1) with 1. change (inject_Z 0) with 0. lra.
    - assert (Qfloor (u + (1#2)) < N + 1)%Z; [|lia]. apply QZ_lt. rewrite inject_Z_plus. change (inject_Z 1) with 1. lra. }
  split; [exact Hz|].
  assert (tf_zero_point lo d N = tf_zp lo d) as Ez.
  { unfold tf_zero_point. rewrite (proj2 (Qlt_b_false _ _) Z0), (proj2 (Qlt_b_false _ _) ZN). reflexivity. }
  set (z := tf_zp lo d) in *.
  apply (nearest_clamp d _ _ x (Qfloor (x / d + (1#2)))); [exact Hd|lia|apply round_up_error|].
  unfold tf_elem. fold N. fold d. rewrite Ez.
  assert (Qfloor (- (inject_Z (0 - z) * d) / d + (1#2)) = z) as ->.
  { assert (- (inject_Z (0 - z) * d) / d == inject_Z z) as ->; [|apply floor_Z_half].
    replace (0 - z)%Z with (- z)%Z by lia. rewrite inject_Z_opp. field. lra. }
  assert ((clip x (inject_Z (0 - z) * d) (inject_Z (N - z) * d) - inject_Z (0 - z) * d) / d - inject_Z z + (1#2) ==
          clip x (inject_Z (- z) * d) (inject_Z (N - z) * d) / d + (1#2)) as ->.
  { replace (0 - z)%Z with (- z)%Z by lia. rewrite inject_Z_opp. field. lra. }
  rewrite clip_div by (assumption || lia). reflexivity.
Qed.

(* ---- exact agreement of PyTorch and numpy when the zero point is even ---- *)
Lemma round_shift_even u m : round_half_even (u + inject_Z (2 * m)) = (round_half_even u + 2 * m)%Z.
Proof.
  pose proof (Qfloor_bounds u) as [F1 F2].
  assert (Qfloor (u + inject_Z (2 * m)) = Qfloor u + 2 * m)%Z as E by (apply Qfloor_eq_iff; rewrite inject_Z_plus; lra).
  unfold round_half_even. rewrite E.
  assert (u + inject_Z (2 * m) - inject_Z (Qfloor u + 2 * m) == u - inject_Z (Qfloor u)) as -> by (rewrite (inject_Z_plus (Qfloor u)); ring).
  assert (Z.even (Qfloor u + 2 * m) = Z.even (Qfloor u)) as -> by (rewrite Z.even_add, Z.even_mul; cbn; destruct (Z.even (Qfloor u)); reflexivity).
  destruct (_ ?= _); [destruct (Z.even _)| |]; lia.
Qed.
Lemma clip_round d lo hi x : 0 < d -> (lo <= hi)%Z ->
  round_half_even (clip x (inject_Z lo * d) (inject_Z hi * d) / d) = zclamp (round_half_even (x / d)) lo hi.
Proof.
  intros Hd H. assert (x == x / d * d) as Ex by (field; lra). set (u := x / d) in *.
  assert (inject_Z lo * d <= inject_Z hi * d) as Hlh by (apply Qmult_le_compat_r; [apply ZQ_le; exact H|lra]).
  destruct (Qlt_le_dec u (inject_Z lo)) as [C|C].
  - rewrite (clip_below x _ _ Hlh) by (rewrite Ex; apply Qmult_le_compat_r; lra).
    assert (inject_Z lo * d / d == inject_Z lo) as -> by (field; lra). rewrite round_Z.
    pose proof (round_le lo u ltac:(lra)). unfold zclamp. lia.
  - destruct (Qlt_le_dec (inject_Z hi) u) as [D|D].
    + rewrite (clip_above x _ _ Hlh) by (rewrite Ex; apply Qmult_le_compat_r; lra).
      assert (inject_Z hi * d / d == inject_Z hi) as -> by (field; lra). rewrite round_Z.
      pose proof (round_ge hi u ltac:(lra)). unfold zclamp. lia.
    + rewrite clip_id by (rewrite Ex; apply Qmult_le_compat_r; lra). fold u.
      pose proof (round_ge lo u C). pose proof (round_le hi u D). unfold zclamp. lia.
Qed.
Lemma gq_torch a d N m x : 0 < d -> (1 <= N)%Z -> a == - inject_Z (2 * m) * d ->
  gq a d N x == torch_elem d 0 (- (2 * m)) (N - 2 * m) x.
Proof.
  intros Hd HN Ha. unfold gq, torch_elem. rewrite Z.add_0_l, Z.sub_0_r.
  assert (a == inject_Z (- (2 * m)) * d) as Ea by (rewrite Ha, inject_Z_opp; ring).
  assert (a + inject_Z N * d == inject_Z (N - 2 * m) * d) as Eb by (rewrite Ha, inject_Z_sub; ring).
  assert ((clip x a (a + inject_Z N * d) - a) / d == clip x (inject_Z (- (2 * m)) * d) (inject_Z (N - 2 * m) * d) / d + inject_Z (2 * m)) as ->.
  { rewrite Eb. rewrite Ea at 1. rewrite Ha. field. lra. }
  rewrite round_shift_even, clip_round by (assumption || lia). rewrite inject_Z_plus, Ha. ring.
Qed.

(* ---- the configured quantizers ---- *)
Lemma pow_is_pot t k : 0 < t -> t == Qpower 2 k -> threshold_is_power_of_two t = Some true.
Proof.
  intros Ht E. unfold threshold_is_power_of_two. destruct (Qle_bool t 0) eqn:L; [apply Qle_bool_iff in L; lra|].
  rewrite (clog2_unique t k Ht) by (rewrite E; first [apply Qle_refl | apply pow2_lt; lia]). f_equal. apply Qeq_bool_iff. rewrite E. reflexivity.
Qed.
Lemma pot_is_pow t : threshold_is_power_of_two t = Some true -> exists k, t == Qpower 2 k.
Proof.
  unfold threshold_is_power_of_two. destruct (Qle_bool t 0); [discriminate|]. intro H. injection H as H. apply Qeq_bool_iff in H.
  exists (clog2 t). symmetry. exact H.
Qed.

Lemma torch_range_eq s n t : (1 <= n)%Z -> exists sc,
  torch_symmetric_range s n t = (code_min n s, code_max n s, sc) /\ sc == step t n s.
Proof.
  intro Hn. unfold torch_symmetric_range, code_min, code_max, step. destruct s; eexists; (split; [reflexivity|]); rewrite pow2_Z by lia; reflexivity.
Qed.
Lemma step_pos t n s : (1 <= n)%Z -> 0 < t -> 0 < step t n s.
Proof. intros Hn H. unfold step. apply Qlt_shift_div_l; [|lra]. change 0 with (inject_Z 0). apply ZQ_lt. destruct s; apply Z.pow_pos_nonneg; lia. Qed.
Lemma code_le n s : (1 <= n)%Z -> (code_min n s <= 0 <= code_max n s)%Z.
Proof. intro H. unfold code_min, code_max. destruct s; [pose proof (Z.pow_pos_nonneg 2 (n - 1)); lia|pose proof (Z.pow_pos_nonneg 2 n); lia]. Qed.
Lemma numpy_sym_nearest t n s x : 0 < t -> (1 <= n)%Z -> nearest (step t n s) (code_min n s) (code_max n s) x (quantize_elem t n s x).
Proof.
  intros Ht Hn. pose proof (quantize_is_grid t n s Ht Hn x) as E. pose proof (delta_pos t n s Ht) as Hd.
  rewrite code_min_k0, code_max_k0 by exact Hn.
  eapply nearest_proper; [apply delta_step; exact Hn|symmetry; exact E|].
  apply gq_is_nearest; [exact Hd|apply steps_pos; exact Hn|apply sym_k0_le; exact Hn|reflexivity].
Qed.

Definition lo0 (lo : Q) : Q := if Qlt_b 0 lo then 0 else lo.
Definition hi0 (hi : Q) : Q := if Qlt_b hi 0 then 0 else hi.
Lemma lo0_case lo : (0 < lo /\ lo0 lo = 0) \/ (lo <= 0 /\ lo0 lo = lo).
Proof. unfold lo0. destruct (Qlt_b_spec 0 lo); auto. Qed.
Lemma hi0_case hi : (hi < 0 /\ hi0 hi = 0) \/ (0 <= hi /\ hi0 hi = hi).
Proof. unfold hi0. destruct (Qlt_b_spec hi 0); auto. Qed.
Lemma range_step_eq lo hi n : (1 <= n)%Z -> range_step lo hi n == (hi0 hi - lo0 lo) / (Qpower 2 n - 1).
Proof.
  intro Hn. unfold range_step. rewrite pow2m1_steps by exact Hn. unfold steps, hi0, lo0, Qlt_b.
  destruct (Qle_bool 0 hi), (Qle_bool lo 0); reflexivity.
Qed.

(* moving the range to zero first does not change the adjusted range *)
Lemma fix_range_zero lo hi n : lo < hi -> (1 <= n)%Z ->
  fst (fix_range_to_include_zero (lo0 lo) (hi0 hi) n) == fst (fix_range_to_include_zero lo hi n) /\
  snd (fix_range_to_include_zero (lo0 lo) (hi0 hi) n) == snd (fix_range_to_include_zero lo hi n).
Proof.
  intros Hlt Hn. pose proof (inject_steps_pos n Hn) as HN. pose proof (pow2m1_steps n Hn) as EN.
  destruct (lo0_case lo) as [[H ->]|[H ->]]; destruct (hi0_case hi) as [[G ->]|[G ->]]; [lra| | |split; reflexivity].
  - unfold fix_range_to_include_zero. rewrite (proj2 (Qlt_b_iff 0 lo) H), (proj2 (Qlt_b_false hi 0) G).
    change (Qlt_b 0 0) with false. cbn [negb andb b2q fst snd].
    assert (0 / ((hi - 0) / (Qpower 2 n - 1)) == inject_Z 0) as E0. { change (inject_Z 0) with 0. unfold Qdiv at 1. ring. }
    rewrite (round_proper _ _ E0), round_Z. change (inject_Z 0) with 0. split; ring.
  - unfold fix_range_to_include_zero. rewrite (proj2 (Qlt_b_false 0 lo) H), (proj2 (Qlt_b_iff hi 0) G).
    change (Qlt_b 0 0) with false. cbn [negb andb b2q fst snd].
    set (N := Qpower 2 n - 1) in *. clearbody N.
    assert (lo / ((0 - lo) / N) == inject_Z (- steps n)) as E0. { rewrite inject_Z_opp, <- EN. field. split; lra. }
    rewrite (round_proper _ _ E0), round_Z.
    assert (inject_Z (- steps n) == - N) as E1 by (rewrite inject_Z_opp, <- EN; reflexivity). rewrite E1. split; field; lra.
Qed.

(* numpy and PyTorch round to the same grid *)
Lemma uniform_torch lo hi n : lo < hi -> (1 <= n)%Z ->
  let '(a, b) := fix_range_to_include_zero (lo0 lo) (hi0 hi) n in
  let scale := (b - a) / (Qpower 2 n - 1) in
  let zp := (- round_half_even (a / scale))%Z in
  scale == range_step lo hi n /\ 0 < scale /\ (0 <= zp <= 2 ^ n - 1)%Z /\
  forall x, nearest (range_step lo hi n) (- zp) (2 ^ n - 1 - zp) x (torch_elem scale zp 0 (2 ^ n - 1) x) /\
            nearest (range_step lo hi n) (- zp) (2 ^ n - 1 - zp) x (uniform_quantize_elem lo hi n x).
Proof.
  intros Hlt Hn. destruct (fix_range_to_include_zero (lo0 lo) (hi0 hi) n) as [a b] eqn:E. cbv zeta.
  pose proof (fix_range_zero lo hi n Hlt Hn) as [Fa Fb]. rewrite E in Fa, Fb. cbn [fst snd] in Fa, Fb.
  destruct (fix_range_to_include_zero lo hi n) as [a' b'] eqn:E'. cbn [fst snd] in Fa, Fb.
  pose proof (inject_steps_pos n Hn) as HN. pose proof (pow2m1_steps n Hn) as EN.
  assert (lo0 lo < hi0 hi) as Hlt0 by (destruct (lo0_case lo) as [[H ->]|[H ->]]; destruct (hi0_case hi) as [[G ->]|[G ->]]; lra).
  assert (lo0 lo <= 0 <= hi0 hi) as Hin by (destruct (lo0_case lo) as [[H ->]|[H ->]]; destruct (hi0_case hi) as [[G ->]|[G ->]]; lra).
  destruct (fix_range_spec _ _ n a b Hlt0 Hn E) as (Hab & _ & (k0 & Hk & Ha) & Hr). destruct (Hr Hin) as [Hw _].
  set (scale := (b - a) / (Qpower 2 n - 1)) in *.
  assert (scale == range_step lo hi n) as Es. { rewrite range_step_eq by exact Hn. unfold scale. rewrite Hw. reflexivity. }
  assert (0 < scale) as Hs by (unfold scale; apply Qlt_shift_div_l; lra).
  assert (- round_half_even (a / scale) = k0)%Z as ->.
  { assert (a / scale == inject_Z (- k0)) as Ek by (rewrite Ha, inject_Z_opp; field; lra). rewrite (round_proper _ _ Ek), round_Z. lia. }
  split; [exact Es|]. split; [exact Hs|]. split; [exact Hk|]. pose proof (steps_pos n Hn) as HN1. unfold steps in *. intro x. split.
  - eapply nearest_proper; [exact Es|reflexivity|]. apply torch_nearest; [exact Hs|lia].
  - pose proof (uniform_is_grid lo hi n a' b' Hlt Hn E' x) as G. unfold steps in G.
    assert ((b' - a') / (Qpower 2 n - 1) == scale) as Ed by (unfold scale; rewrite Fa, Fb; reflexivity).
    set (d' := (b' - a') / (Qpower 2 n - 1)) in *. clearbody d'.
    eapply nearest_proper; [transitivity scale; [exact Ed|exact Es]|symmetry; exact G|].
    apply gq_is_nearest; [lra|lia|exact Hk|]. rewrite <- Fa, Ha, Ed. reflexivity.
Qed.

Lemma round_up_even u : (forall k, ~ u == inject_Z k + (1#2)) -> round_half_up (- u) = (- round_half_even u)%Z.
Proof.
  intro H. unfold round_half_up. pose proof (Qfloor_bounds u) as [F1 F2]. destruct (round_cases u) as [[-> C]|[[-> C]|[C _]]].
  - apply Qfloor_eq_iff; rewrite inject_Z_opp; lra.
  - apply Qfloor_eq_iff; rewrite inject_Z_opp, inject_Z_plus; change (inject_Z 1) with 1; lra.
  - exfalso. apply (H (Qfloor u)). lra.
Qed.
