(* QuantProofs.v -- proofs about QuantModel.v *)
From Verif Require Import Base RoundQ RoundQFacts QuantModel.
From Coq Require Import Qround Qpower Lqa Setoid Morphisms Qabs.
Open Scope Q_scope.

(* number of steps of an n-bit grid *)
Definition steps (n : Z) : Z := (2 ^ n - 1)%Z.

Lemma steps_pos n : (1 <= n)%Z -> (1 <= steps n)%Z.
Proof. intro H. unfold steps. pose proof (Z.pow_le_mono_r 2 1 n ltac:(lia) H). lia. Qed.

Lemma pow2m1_steps n : (1 <= n)%Z -> Qpower 2 n - 1 == inject_Z (steps n).
Proof.
  intro H. rewrite pow2_Z by lia. unfold steps, Z.sub. rewrite inject_Z_plus. reflexivity.
Qed.

Lemma inject_steps_pos n : (1 <= n)%Z -> 1 <= inject_Z (steps n).
Proof. intro H. change 1 with (inject_Z 1). apply ZQ_le. apply steps_pos. exact H. Qed.

Lemma inject_Z_sub a b : inject_Z (a - b) == inject_Z a - inject_Z b.
Proof. unfold Z.sub. rewrite inject_Z_plus, inject_Z_opp. reflexivity. Qed.

(* what fix_range_to_include_zero guarantees *)
Lemma fix_range_spec lo hi n a b :
  lo < hi -> (1 <= n)%Z -> fix_range_to_include_zero lo hi n = (a, b) ->
  a < b /\ a <= 0 <= b /\
  (exists k0, (0 <= k0 <= steps n)%Z /\ a == - inject_Z k0 * ((b - a) / (Qpower 2 n - 1))) /\
  (lo <= 0 <= hi -> b - a == hi - lo /\
                    - ((1#2) * ((b - a) / (Qpower 2 n - 1))) <= a - lo <= (1#2) * ((b - a) / (Qpower 2 n - 1))).
Proof.
  intros Hlt Hn E. unfold fix_range_to_include_zero in E.
  pose proof (pow2_minus_one_pos n Hn) as HN.
  set (N := Qpower 2 n - 1) in *.
  set (scale := (hi - lo) / N) in *.
  assert (0 < scale) as Hs by (unfold scale; apply Qlt_shift_div_l; lra).
  assert (N * scale == hi - lo) as HNs by (unfold scale; field; lra).
  destruct (Qlt_b_spec 0 lo) as [Hlo|Hlo]; destruct (Qlt_b_spec hi 0) as [Hhi|Hhi]; cbn [negb andb b2q] in E.
  - exfalso; lra.
  - inversion E; subst a b; clear E.
    assert (scale * inject_Z (round_half_even (lo / scale)) * 0 + 0 * lo == 0) as A by ring.
    assert ((hi - lo + scale * inject_Z (round_half_even (lo / scale))) * 0 + 1 * hi == hi) as B by ring.
    rewrite A, B. split; [lra|]. split; [lra|]. split.
    + exists 0%Z. split; [pose proof (steps_pos n Hn); lia|].
      change (inject_Z 0) with 0. ring.
    + intros; exfalso; lra.
  - inversion E; subst a b; clear E.
    assert (scale * inject_Z (round_half_even (lo / scale)) * 0 + 1 * lo == lo) as A by ring.
    assert ((hi - lo + scale * inject_Z (round_half_even (lo / scale))) * 0 + 0 * hi == 0) as B by ring.
    rewrite A, B. split; [lra|]. split; [lra|]. split.
    + exists (steps n). split; [pose proof (steps_pos n Hn); lia|].
      rewrite <- pow2m1_steps by exact Hn. fold N. field. lra.
    + intros; exfalso; lra.
  - inversion E; subst a b; clear E.
    set (k := round_half_even (lo / scale)).
    assert (scale * inject_Z k * 1 + 0 * lo == scale * inject_Z k) as A by ring.
    assert ((hi - lo + scale * inject_Z k) * 1 + 0 * hi == hi - lo + scale * inject_Z k) as B by ring.
    rewrite A, B.
    assert ((hi - lo + scale * inject_Z k - scale * inject_Z k) / N == scale) as D
        by (unfold scale; field; lra).
    assert (k <= 0)%Z as Hk0.
    { apply round_le. change (inject_Z 0) with 0. apply Qle_shift_div_r; lra. }
    assert (- steps n <= k)%Z as HkN.
    { apply round_ge. rewrite inject_Z_opp, <- pow2m1_steps by exact Hn. fold N.
      apply Qle_shift_div_l; [exact Hs|]. lra. }
    assert (inject_Z k <= 0) as Hkq by (apply (ZQ_le k 0) in Hk0; exact Hk0).
    assert (- N <= inject_Z k) as HkNq
        by (apply ZQ_le in HkN; rewrite inject_Z_opp, <- pow2m1_steps in HkN by exact Hn; exact HkN).
    split; [nra|]. split; [nra|]. rewrite D. split.
    + exists (- k)%Z. split; [lia|]. rewrite A, B, D, inject_Z_opp. ring.
    + intros _. split; [ring|].
      pose proof (round_error (lo / scale)) as R. fold k in R.
      assert (lo == scale * (lo / scale)) as L by (field; lra).
      set (r := lo / scale) in *. rewrite L. nra.
Qed.

(* A grid quantizer: clip to [a,b], round to the grid a + j*delta.  All facts about
   uniform_quantize_elem follow from these. *)
Section Grid.
  Variables (a delta : Q) (N k0 : Z).
  Hypothesis Hd : 0 < delta.
  Hypothesis HN : (1 <= N)%Z.
  Hypothesis Hk0 : (0 <= k0 <= N)%Z.
  Hypothesis Ha : a == - inject_Z k0 * delta.
  Let b := a + inject_Z N * delta.
  Definition gq (x : Q) : Q := delta * inject_Z (round_half_even ((clip x a b - a) / delta)) + a.
  Definition gidx (x : Q) : Z := round_half_even ((clip x a b - a) / delta).

  Lemma HNq : 1 <= inject_Z N.
  Proof. apply (ZQ_le 1 N) in HN. exact HN. Qed.
  Lemma ab : a <= b.
  Proof. unfold b. pose proof HNq. nra. Qed.

  Lemma gidx_range x : (0 <= gidx x <= N)%Z.
  Proof.
    pose proof (clip_range x a b ab) as [C1 C2]. unfold gidx. split.
    - apply round_ge. apply Qle_shift_div_l; [exact Hd|]. change (inject_Z 0) with 0. lra.
    - apply round_le. apply Qle_shift_div_r; [exact Hd|]. unfold b in C2 at 2. lra.
  Qed.

  Lemma gq_grid x : exists k, (- k0 <= k <= N - k0)%Z /\ gq x == inject_Z k * delta.
  Proof.
    exists (gidx x - k0)%Z. pose proof (gidx_range x). split; [lia|].
    unfold gq. fold (gidx x). rewrite inject_Z_sub, Ha. ring.
  Qed.

  Lemma gq_range x : a <= gq x <= b.
  Proof.
    destruct (gidx_range x) as [H1 H2]. unfold gq. fold (gidx x).
    apply (ZQ_le 0) in H1. apply ZQ_le in H2. change (inject_Z 0) with 0 in H1. unfold b. nra.
  Qed.

  (* error against the clipped value *)
  Lemma gq_err_clip x : - ((1#2) * delta) <= gq x - clip x a b <= (1#2) * delta.
  Proof.
    unfold gq. set (c := clip x a b). pose proof (round_error ((c - a) / delta)) as R.
    set (r := (c - a) / delta) in *. assert (c == a + r * delta) as E by (unfold r; field; lra).
    rewrite E. nra.
  Qed.
  Lemma gq_err x : a <= x <= b -> - ((1#2) * delta) <= gq x - x <= (1#2) * delta.
  Proof.
    intros [H1 H2]. pose proof (gq_err_clip x) as E. rewrite (clip_id x a b H1 H2) in E. exact E.
  Qed.

  #[local] Instance gq_proper : Proper (Qeq ==> Qeq) gq.
  Proof. intros x y H. unfold gq. rewrite H. reflexivity. Qed.

  (* every grid point is a fixed point *)
  Lemma gq_fix k : (- k0 <= k <= N - k0)%Z -> gq (inject_Z k * delta) == inject_Z k * delta.
  Proof.
    intros [H1 H2].
    assert (inject_Z (- k0) <= inject_Z k) as Q1 by (apply ZQ_le; exact H1).
    assert (inject_Z k <= inject_Z (N - k0)) as Q2 by (apply ZQ_le; exact H2).
    rewrite inject_Z_opp in Q1. rewrite inject_Z_sub in Q2.
    assert (clip (inject_Z k * delta) a b == inject_Z k * delta) as C.
    { apply clip_id; unfold b; rewrite Ha; nra. }
    unfold gq. rewrite C.
    assert ((inject_Z k * delta - a) / delta == inject_Z (k + k0)) as E.
    { rewrite inject_Z_plus, Ha. field. lra. }
    rewrite E, round_Z, inject_Z_plus, Ha. ring.
  Qed.
  Lemma gq_idem x : gq (gq x) == gq x.
  Proof. destruct (gq_grid x) as [k [Hk E]]. rewrite E. apply gq_fix. exact Hk. Qed.

  Lemma gq_mono x y : x <= y -> gq x <= gq y.
  Proof.
    intro H. unfold gq.
    assert (round_half_even ((clip x a b - a) / delta) <= round_half_even ((clip y a b - a) / delta))%Z as R.
    { apply round_mono. pose proof (clip_mono x y a b H).
      apply Qle_shift_div_l; [exact Hd|]. rewrite Qmult_comm. rewrite Qmult_div_r by lra. lra. }
    apply ZQ_le in R. nra.
  Qed.

  Lemma gq_above x : b <= x -> gq x == b.
  Proof.
    intro H. unfold gq. rewrite (clip_above x a b ab H).
    assert ((b - a) / delta == inject_Z N) as E by (unfold b; field; lra).
    rewrite E, round_Z. unfold b. ring.
  Qed.
  Lemma gq_below x : x <= a -> gq x == a.
  Proof.
    intro H. unfold gq. rewrite (clip_below x a b ab H).
    assert ((a - a) / delta == inject_Z 0) as E by (change (inject_Z 0) with 0; field; lra).
    rewrite E, round_Z. change (inject_Z 0) with 0. ring.
  Qed.

  (* the output is a nearest grid point, for every input (inside or outside the range) *)
  Lemma gq_nearest x k : (- k0 <= k <= N - k0)%Z -> Qabs (gq x - x) <= Qabs (inject_Z k * delta - x).
  Proof.
    intros Hk.
    assert (a <= inject_Z k * delta <= b) as Hg.
    { destruct Hk as [H1 H2]. apply ZQ_le in H1. apply ZQ_le in H2.
      rewrite inject_Z_opp in H1. rewrite inject_Z_sub in H2. unfold b. rewrite Ha. nra. }
    destruct (Qlt_le_dec x a) as [Hx|Hx].
    { rewrite (gq_below x) by lra. apply Qabs_case; intro; apply Qabs_case; intro; lra. }
    destruct (Qlt_le_dec b x) as [Hx2|Hx2].
    { rewrite (gq_above x) by lra. apply Qabs_case; intro; apply Qabs_case; intro; lra. }
    destruct (gq_grid x) as [j [Hj E]].
    pose proof (gq_err x (conj Hx Hx2)) as Er. rewrite E in *.
    destruct (Z.lt_trichotomy j k) as [L|[L|L]].
    - assert (inject_Z j + 1 <= inject_Z k) as L'.
      { assert (j + 1 <= k)%Z as L2 by lia. apply ZQ_le in L2. rewrite inject_Z_plus in L2. exact L2. }
      apply Qabs_case; intro; apply Qabs_case; intro; nra.
    - subst j. apply Qle_refl.
    - assert (inject_Z k + 1 <= inject_Z j) as L'.
      { assert (k + 1 <= j)%Z as L2 by lia. apply ZQ_le in L2. rewrite inject_Z_plus in L2. exact L2. }
      apply Qabs_case; intro; apply Qabs_case; intro; nra.
  Qed.
End Grid.

#[global] Instance gq_ext : Proper (Qeq ==> Qeq ==> eq ==> Qeq ==> Qeq) gq.
Proof.
  intros a a' Ha d d' Hd N N' HN x x' Hx. subst N'. unfold gq.
  assert (round_half_even ((clip x a (a + inject_Z N * d) - a) / d) =
          round_half_even ((clip x' a' (a' + inject_Z N * d') - a') / d')) as ->.
  { apply round_proper. rewrite Ha, Hd, Hx. reflexivity. }
  rewrite Ha, Hd. reflexivity.
Qed.

(* uniform_quantize_elem is the grid quantizer of the adjusted range *)
Lemma uniform_is_grid lo hi n a b :
  lo < hi -> (1 <= n)%Z -> fix_range_to_include_zero lo hi n = (a, b) ->
  forall x, uniform_quantize_elem lo hi n x == gq a ((b - a) / (Qpower 2 n - 1)) (steps n) x.
Proof.
  intros Hlt Hn E x. unfold uniform_quantize_elem. rewrite E. unfold gq.
  assert (a + inject_Z (steps n) * ((b - a) / (Qpower 2 n - 1)) == b) as Eb.
  { rewrite <- pow2m1_steps by exact Hn. pose proof (pow2_minus_one_pos n Hn). field. lra. }
  rewrite Eb. reflexivity.
Qed.

(* the symmetric quantizer is the grid quantizer on [-t*s, t - delta] *)
Definition sym_k0 (n : Z) (signed : bool) : Z := if signed then (2 ^ (n - 1))%Z else 0%Z.

Lemma fix_range_sym t n s a b :
  0 < t -> (1 <= n)%Z ->
  fix_range_to_include_zero (- t * b2q s) (t - calculate_delta t n s) n = (a, b) ->
  a == - inject_Z (sym_k0 n s) * calculate_delta t n s /\
  (b - a) / (Qpower 2 n - 1) == calculate_delta t n s /\ 0 < calculate_delta t n s.
Proof.
  intros Ht Hn E.
  pose proof (pow2_minus_one_pos n Hn) as HN.
  assert (0 < calculate_delta t n s) as Hd.
  { unfold calculate_delta. apply Qlt_shift_div_l; [apply pow2_pos|]. lra. }
  assert (t == Qpower 2 (n - b2z s) * calculate_delta t n s) as Ht2.
  { unfold calculate_delta. field. pose proof (pow2_pos (n - b2z s)). lra. }
  set (d := calculate_delta t n s) in *.
  assert (2 * Qpower 2 (n - 1) == Qpower 2 n) as HP.
  { rewrite <- pow2_succ. replace (n - 1 + 1)%Z with n by lia. reflexivity. }
  assert (1 <= Qpower 2 (n - 1)) as HP1.
  { pose proof (pow2_le 0 (n - 1) ltac:(lia)) as A. exact A. }
  assert (- t * b2q s < t - d) as Hlt.
  { destruct s; cbn [b2q b2z] in *; rewrite Ht2.
    - nra.
    - replace (n - 0)%Z with n in * by lia. nra. }
  unfold fix_range_to_include_zero in E.
  assert (Qlt_b 0 (- t * b2q s) = false) as E1 by (apply Qlt_b_false; destruct s; cbn [b2q]; lra).
  assert (Qlt_b (t - d) 0 = false) as E2.
  { apply Qlt_b_false. rewrite Ht2. destruct s; cbn [b2z].
    - nra.
    - replace (n - 0)%Z with n by lia. nra. }
  rewrite E1, E2 in E. cbn [negb andb b2q] in E.
  assert ((t - d - - t * b2q s) / (Qpower 2 n - 1) == d) as Es.
  { rewrite Ht2. destruct s; cbn [b2q b2z].
    - assert (Qpower 2 (n - 1) == (1#2) * Qpower 2 n) as -> by (rewrite <- HP; ring). field. lra.
    - replace (n - 0)%Z with n by lia. field. lra. }
  assert (- t * b2q s / ((t - d - - t * b2q s) / (Qpower 2 n - 1)) == inject_Z (- sym_k0 n s)) as Er.
  { rewrite Es, Ht2. rewrite inject_Z_opp. destruct s; cbn [b2q b2z sym_k0].
    - rewrite <- pow2_Z by lia. field. lra.
    - change (inject_Z 0) with 0. field. lra. }
  set (F := fun q => inject_Z (round_half_even q)) in *.
  inversion E as [[EA EB]]; clear E EA EB.
  match goal with |- ?L == _ /\ _ =>
     assert (L == - inject_Z (sym_k0 n s) * d) as A end.
  { unfold F. rewrite Er, round_Z, inject_Z_opp. rewrite Es. ring. }
  split; [exact A|]. split; [|exact Hd].
  etransitivity; [|exact Es]. apply Qmult_comp; [|reflexivity]. ring.
Qed.

Lemma sym_k0_le n s : (1 <= n)%Z -> (0 <= sym_k0 n s <= steps n)%Z.
Proof.
  intro H. unfold sym_k0, steps. destruct s.
  - assert (2 ^ n = 2 * 2 ^ (n - 1))%Z as E by (rewrite <- Z.pow_succ_r by lia; f_equal; lia).
    assert (0 < 2 ^ (n - 1))%Z by (apply Z.pow_pos_nonneg; lia). lia.
  - pose proof (steps_pos n H). unfold steps in *. lia.
Qed.

Lemma quantize_is_grid t n s :
  0 < t -> (1 <= n)%Z ->
  forall x, quantize_elem t n s x ==
            gq (- inject_Z (sym_k0 n s) * calculate_delta t n s) (calculate_delta t n s) (steps n) x.
Proof.
  intros Ht Hn x. unfold quantize_elem.
  destruct (fix_range_to_include_zero (- t * b2q s) (t - calculate_delta t n s) n) as [a b] eqn:E.
  destruct (fix_range_sym t n s a b Ht Hn E) as [A [D Hd]].
  assert (- t * b2q s < t - calculate_delta t n s) as Hlt.
  { pose proof (pow2_le 0 (n - 1) ltac:(lia)) as HP1. change (Qpower 2 0) with 1 in HP1.
    assert (2 * Qpower 2 (n - 1) == Qpower 2 n) as HP.
    { rewrite <- pow2_succ. replace (n - 1 + 1)%Z with n by lia. reflexivity. }
    assert (t == Qpower 2 (n - b2z s) * calculate_delta t n s) as Ht2.
    { unfold calculate_delta. field. pose proof (pow2_pos (n - b2z s)). lra. }
    set (d := calculate_delta t n s) in *. destruct s; cbn [b2q b2z] in *; [nra|].
    replace (n - 0)%Z with n in * by lia. nra. }
  rewrite (uniform_is_grid _ _ n a b Hlt Hn E x). rewrite D, A. reflexivity.
Qed.
