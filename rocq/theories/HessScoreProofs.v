(** Proofs about the Hessian scores (C84). *)

From Coq Require Import Reals List Bool Arith Lia Lra Permutation.
From Verif Require Import Base HessScoreModel HessScoreSpec.
Import ListNotations.
Local Open Scope R_scope.

(** ** sums *)

Lemma sumR_app a b : sumR (a ++ b) = sumR a + sumR b.
Proof.
  induction a as [|x a IH]; [change (sumR b = 0 + sumR b); lra|].
  change (x + sumR (a ++ b) = x + sumR a + sumR b). rewrite IH. lra.
Qed.

Lemma sumR_cons x a : sumR (x :: a) = x + sumR a.
Proof. reflexivity. Qed.

Lemma sumR_map_ext {A} (f g : A -> R) l :
  (forall x, In x l -> f x = g x) -> sumR (map f l) = sumR (map g l).
Proof. intro H. f_equal. apply map_ext_in. exact H. Qed.

Lemma sumR_map_plus {A} (f g : A -> R) l :
  sumR (map (fun x => f x + g x) l) = sumR (map f l) + sumR (map g l).
Proof. induction l as [|x l IH]; cbn [map]; rewrite ?sumR_cons; [cbn; lra|]. rewrite IH. lra. Qed.

Lemma sumR_map_scal {A} (c : R) (f : A -> R) l :
  sumR (map (fun x => c * f x) l) = c * sumR (map f l).
Proof. induction l as [|x l IH]; cbn [map]; rewrite ?sumR_cons; [cbn; lra|]. rewrite IH. lra. Qed.

Lemma sumR_map_div {A} (c : R) (f : A -> R) l :
  sumR (map (fun x => f x / c) l) = sumR (map f l) / c.
Proof.
  induction l as [|x l IH]; cbn [map]; rewrite ?sumR_cons; [cbn; unfold Rdiv; lra|].
  rewrite IH. unfold Rdiv. lra.
Qed.

Lemma sumR_zero {A} (l : list A) : sumR (map (fun _ => 0) l) = 0.
Proof. induction l; cbn [map]; rewrite ?sumR_cons; [reflexivity|lra]. Qed.

Lemma sumR_const {A} (c : R) (l : list A) : sumR (map (fun _ => c) l) = INR (length l) * c.
Proof.
  induction l as [|x l IH]; cbn [map]; [cbn; lra|].
  rewrite sumR_cons, IH. change (length (x :: l)) with (S (length l)).
  rewrite S_INR. lra.
Qed.

Lemma sumR_swap {A B} (f : A -> B -> R) la lb :
  sumR (map (fun a => sumR (map (fun b => f a b) lb)) la) =
  sumR (map (fun b => sumR (map (fun a => f a b) la)) lb).
Proof.
  induction la as [|a la IH]; cbn [map].
  - cbn. now rewrite sumR_zero.
  - rewrite sumR_cons, IH, <- sumR_map_plus. reflexivity.
Qed.

Lemma sumR_concat l : sumR (concat l) = sumR (map sumR l).
Proof. induction l as [|x l IH]; cbn [concat map]; [reflexivity|]. now rewrite sumR_app, sumR_cons, IH. Qed.

Lemma sumR_flat_map {A} (f : A -> vec) l :
  sumR (flat_map f l) = sumR (map (fun x => sumR (f x)) l).
Proof. now rewrite flat_map_concat_map, sumR_concat, map_map. Qed.

Lemma sumR_perm a b : Permutation a b -> sumR a = sumR b.
Proof. induction 1; rewrite ?sumR_cons; try reflexivity; lra. Qed.

Lemma sumR_nonneg l : (forall x, In x l -> 0 <= x) -> 0 <= sumR l.
Proof.
  induction l as [|x l IH]; intro H; [cbn; lra|]. rewrite sumR_cons.
  pose proof (H x (or_introl eq_refl)). pose proof (IH (fun y i => H y (or_intror i))). lra.
Qed.

Lemma sumR_if_filter {A} (p : A -> bool) (f : A -> R) l :
  sumR (map (fun x => if p x then f x else 0) l) = sumR (map f (filter p l)).
Proof.
  induction l as [|x l IH]; [reflexivity|]. cbn [map filter]. rewrite sumR_cons, IH.
  destruct (p x); cbn [map]; rewrite ?sumR_cons; lra.
Qed.

(** ** averages over signs *)

Lemma all_signs_len n : length (all_signs n) = (2 ^ n)%nat.
Proof.
  induction n as [|n IH]; [reflexivity|]. cbn [all_signs].
  rewrite app_length, !map_length, IH. cbn. lia.
Qed.

Lemma all_signs_in n v : In v (all_signs n) -> length v = n.
Proof.
  revert v. induction n as [|n IH]; cbn [all_signs]; intros v H.
  - destruct H as [<- | []]. reflexivity.
  - apply in_app_or in H.
    destruct H as [H | H]; apply in_map_iff in H as (w & <- & Hw);
      cbn; f_equal; now apply IH.
Qed.

Definition lin {A} (x : A -> R) (v : list bool) (os : list A) : R :=
  sumR (map (fun p => (if fst p : bool then 1 else -1) * x (snd p)) (combine v os)).

Lemma signs_square {A} (x : A -> R) os :
  sumR (map (fun v => lin x v os ^ 2) (all_signs (length os))) =
  INR (2 ^ length os) * sumR (map (fun o => x o ^ 2) os).
Proof.
  induction os as [|o os IH].
  - cbn. lra.
  - change (length (o :: os)) with (S (length os)). cbn [all_signs].
    rewrite map_app, sumR_app, !map_map.
    rewrite (sumR_map_ext (fun v => lin x (true :: v) (o :: os) ^ 2)
               (fun v => (x o ^ 2 + lin x v os ^ 2) + 2 * x o * lin x v os)).
    2:{ intros v _. unfold lin. cbn [combine map]. rewrite sumR_cons. cbn [fst snd]. ring. }
    rewrite (sumR_map_ext (fun v => lin x (false :: v) (o :: os) ^ 2)
               (fun v => (x o ^ 2 + lin x v os ^ 2) + (- (2 * x o)) * lin x v os)).
    2:{ intros v _. unfold lin. cbn [combine map]. rewrite sumR_cons. cbn [fst snd]. ring. }
    rewrite !sumR_map_plus, !sumR_map_scal, !sumR_const, IH.
    rewrite all_signs_len. cbn [map]. rewrite sumR_cons.
    replace (INR (2 ^ S (length os))) with (2 * INR (2 ^ length os)).
    2:{ cbn [Nat.pow]. rewrite mult_INR. cbn [INR]. lra. }
    ring.
Qed.

Lemma pow2_pos n : 0 < INR (2 ^ n).
Proof. apply lt_0_INR. apply Nat.neq_0_lt_0. apply Nat.pow_nonzero. lia. Qed.

Lemma estimate_average {O} scale (os : list O) tg cell :
  average (estimate scale os tg cell) (all_signs (length os)) = true_score scale os tg cell.
Proof.
  unfold average, true_score. rewrite all_signs_len. unfold estimate.
  rewrite sumR_swap. pose proof (pow2_pos (length os)).
  rewrite (sumR_map_ext _ (fun k => INR (2 ^ length os) *
             sumR (map (fun o => (scale * tg_jac tg o k) ^ 2) os))).
  - rewrite sumR_map_scal. field. lra.
  - intros k _. exact (signs_square (fun o => scale * tg_jac tg o k) os).
Qed.

Lemma all_draws_in n m ds : In ds (all_draws n m) ->
  length ds = m /\ forall v, In v ds -> length v = n.
Proof.
  revert ds. induction m as [|m IH]; cbn [all_draws]; intros ds H.
  - destruct H as [<- | []]. split; [reflexivity|]. intros v [].
  - apply in_flat_map in H as (v & Hv & H). apply in_map_iff in H as (ds' & <- & H').
    destruct (IH _ H') as [L E]. split; [cbn; now f_equal|].
    intros w [<- | Hw]; [now apply all_signs_in|now apply E].
Qed.

Lemma all_draws_len n m : length (all_draws n m) = ((2 ^ n) ^ m)%nat.
Proof.
  induction m as [|m IH]; [reflexivity|]. cbn [all_draws Nat.pow].
  rewrite flat_map_concat_map.
  assert (G : forall l : list (list bool),
             length (concat (map (fun v => map (cons v) (all_draws n m)) l)) =
             (length l * length (all_draws n m))%nat).
  { induction l as [|v l IHl]; [reflexivity|]. cbn [map concat].
    rewrite app_length, map_length, IHl. cbn. lia. }
  rewrite G, all_signs_len, IH. reflexivity.
Qed.

Lemma draws_sum (F : list bool -> R) n m :
  sumR (map (fun ds => sumR (map F ds)) (all_draws n m)) =
  INR (length (all_draws n m)) * (INR m * average F (all_signs n)).
Proof.
  pose proof (pow2_pos n) as P2. unfold average. rewrite all_signs_len.
  induction m as [|m IH].
  - cbn. lra.
  - cbn [all_draws]. rewrite flat_map_concat_map.
    assert (G : forall l,
       sumR (map (fun ds => sumR (map F ds))
               (concat (map (fun v => map (cons v) (all_draws n m)) l))) =
       INR (length (all_draws n m)) * sumR (map F l) +
       INR (length l) * sumR (map (fun ds => sumR (map F ds)) (all_draws n m))).
    { induction l as [|v l IHl].
      - cbn. lra.
      - cbn [map concat]. rewrite map_app, sumR_app, IHl, map_map, sumR_cons.
        rewrite (sumR_map_ext (fun x => sumR (map F (v :: x)))
                   (fun x => F v + sumR (map F x))) by (intros; reflexivity).
        rewrite sumR_map_plus, sumR_const. rewrite (S_INR (length l)) || idtac.
        change (length (v :: l)) with (S (length l)). rewrite S_INR. ring. }
    rewrite G, IH. rewrite all_signs_len.
    assert (L : forall l : list (list bool),
             length (concat (map (fun v => map (cons v) (all_draws n m)) l)) =
             (length l * length (all_draws n m))%nat).
    { induction l as [|v l IHl]; [reflexivity|]. cbn [map concat].
      rewrite app_length, map_length, IHl. cbn. lia. }
    rewrite L, mult_INR, S_INR, all_signs_len. field. lra.
Qed.

Lemma draws_average (F : list bool -> R) n m : (0 < m)%nat ->
  average (fun ds => average F ds) (all_draws n m) = average F (all_signs n).
Proof.
  intro Hm. unfold average at 1.
  assert (Lp : 0 < INR (length (all_draws n m))).
  { rewrite all_draws_len. apply lt_0_INR. apply Nat.neq_0_lt_0.
    apply Nat.pow_nonzero. apply Nat.pow_nonzero. lia. }
  assert (0 < INR m) by now apply lt_0_INR.
  rewrite (sumR_map_ext _ (fun ds => sumR (map F ds) / INR m)).
  - rewrite sumR_map_div, draws_sum. field. lra.
  - intros ds Hds. destruct (all_draws_in _ _ _ Hds) as [L _]. unfold average. now rewrite L.
Qed.

(** ** parts and multi-indices *)

Lemma chunks_length {A} n w (l : list A) : length (chunks n w l) = n.
Proof. revert l. induction n as [|n IH]; intro l; cbn; [reflexivity|now rewrite IH]. Qed.

Lemma chunks_nth {A} n w (l : list A) b : (b < n)%nat ->
  nth b (chunks n w l) [] = firstn w (skipn (b * w) l).
Proof.
  revert l b. induction n as [|n IH]; intros l b H; [lia|].
  destruct b as [|b]; [reflexivity|]. cbn [chunks nth]. rewrite IH by lia.
  f_equal. rewrite Nat.add_comm with (n := w) || idtac.
  replace (S b * w)%nat with (w + b * w)%nat by lia.
  clear. revert l. induction w as [|w IH] using nat_ind; intro l.
  - reflexivity.
  - generalize (b * S w)%nat as m. intro m. clear IH.
    revert l. generalize (S w) as k. intro k.
    induction k as [|k IHk]; intro l; [reflexivity|].
    destruct l as [|x l]; [now rewrite !skipn_nil|]. cbn. apply IHk.
Qed.

Lemma chunks_concat {A} n w (l : list A) : length l = (n * w)%nat ->
  concat (chunks n w l) = l.
Proof.
  revert l. induction n as [|n IH]; intros l H; cbn.
  - destruct l; [reflexivity|discriminate].
  - rewrite IH; [apply firstn_skipn|]. rewrite skipn_length, H. cbn. lia.
Qed.

Lemma map_nth_all (l : vec) : map (fun k => nth k l 0) (seq 0 (length l)) = l.
Proof.
  induction l as [|x l IH]; [reflexivity|].
  cbn [length seq map]. rewrite <- seq_shift, map_map. cbn [nth]. now rewrite IH.
Qed.

Lemma chunks_fn (F : nat -> R) n w o :
  chunks n w (map F (seq o (n * w))) = map (fun b => map F (seq (o + b * w) w)) (seq 0 n).
Proof.
  revert o. induction n as [|n IH]; intro o; [reflexivity|].
  cbn [chunks seq map]. rewrite Nat.mul_0_l, Nat.add_0_r.
  replace (S n * w)%nat with (w + n * w)%nat by lia.
  rewrite seq_app, map_app.
  rewrite firstn_app, firstn_all2 by (rewrite map_length, seq_length; lia).
  rewrite map_length, seq_length, Nat.sub_diag, firstn_O, app_nil_r.
  f_equal. rewrite skipn_app, skipn_all2 by (rewrite map_length, seq_length; lia).
  rewrite map_length, seq_length, Nat.sub_diag. cbn [skipn app].
  rewrite IH, <- seq_shift, map_map. apply map_ext. intro b. do 2 f_equal. lia.
Qed.

Lemma indices_length s : length (indices s) = prod s.
Proof.
  induction s as [|d r IH]; [reflexivity|]. cbn [indices prod].
  rewrite flat_map_concat_map.
  assert (G : forall l : list nat, length (concat (map (fun i => map (cons i) (indices r)) l)) =
                        (length l * prod r)%nat).
  { induction l as [|i l IHl]; [reflexivity|]. cbn [map concat].
    rewrite app_length, map_length, IHl, IH. cbn. lia. }
  now rewrite G, seq_length.
Qed.

Lemma index_cons d r k : (k < d * prod r)%nat ->
  index (d :: r) k = (k / prod r)%nat :: index r (k mod prod r).
Proof.
  unfold index. cbn [indices]. rewrite flat_map_concat_map.
  assert (G : forall n o k', (k' < n * prod r)%nat ->
     nth k' (concat (map (fun i => map (cons i) (indices r)) (seq o n))) [] =
     (o + k' / prod r)%nat :: nth (k' mod prod r) (indices r) []).
  { induction n as [|n IH]; intros o k' H; [lia|].
    cbn [seq map concat].
    assert (P : prod r <> 0%nat) by nia.
    destruct (lt_dec k' (prod r)) as [Hk | Hk].
    - rewrite app_nth1 by (rewrite map_length, indices_length; lia).
      rewrite Nat.div_small, Nat.mod_small, Nat.add_0_r by lia.
      rewrite nth_indep with (d' := o :: []) by (rewrite map_length, indices_length; lia).
      now rewrite map_nth.
    - rewrite app_nth2 by (rewrite map_length, indices_length; lia).
      rewrite map_length, indices_length.
      rewrite IH by lia.
      replace k' with (k' - prod r + 1 * prod r)%nat at 3 4 by lia.
      rewrite Nat.div_add, Nat.mod_add by lia. f_equal. lia. }
  intro H. now rewrite G.
Qed.

Lemma index_coord s : forall ax k, (ax < length s)%nat -> (k < prod s)%nat ->
  nth ax (index s k) 0%nat = coord s ax k.
Proof.
  unfold coord.
  induction s as [|d r IH]; intros ax k Ha Hk; [cbn in Ha; lia|].
  cbn [prod] in Hk. rewrite index_cons by exact Hk.
  assert (P : prod r <> 0%nat) by nia.
  destruct ax as [|ax].
  - cbn [nth skipn]. rewrite Nat.mod_small; [reflexivity|].
    apply Nat.div_lt_upper_bound; lia.
  - cbn [nth]. change (skipn (S (S ax)) (d :: r)) with (skipn (S ax) r).
    cbn [length] in Ha.
    rewrite IH by (try apply Nat.mod_upper_bound; lia).
    (* prod r = lead * n * tail *)
    assert (F : exists lead, prod r = (lead * (nth ax r 1 * prod (skipn (S ax) r)))%nat).
    { clear - Ha. revert ax Ha. induction r as [|e r IHr]; intros ax Ha; [cbn in Ha; lia|].
      destruct ax as [|ax]; [exists 1%nat; cbn; lia|].
      destruct (IHr ax ltac:(cbn in Ha; lia)) as (m & E).
      exists (e * m)%nat. cbn [prod nth skipn] in *. rewrite E.
      cbn. lia. }
    destruct F as (m & E). set (n := nth ax r 1%nat) in *.
    set (t := prod (skipn (S ax) r)) in *.
    assert (n <> 0 /\ t <> 0 /\ m <> 0)%nat as (Hn & Ht & Hm) by nia.
    rewrite (Nat.div_mod k (prod r)) at 2 by exact P.
    replace (prod r * (k / prod r) + k mod prod r)%nat
      with (k mod prod r + (k / prod r * m * n) * t)%nat by (rewrite E; lia).
    rewrite Nat.div_add by exact Ht.
    rewrite Nat.mod_add by exact Hn. reflexivity.
Qed.

Lemma index_first d r k : (k < d * prod r)%nat -> nth 0 (index (d :: r) k) 0%nat = (k / prod r)%nat.
Proof. intro H. now rewrite index_cons by exact H. Qed.

Lemma index_last r : forall d k, (k < d * prod r)%nat ->
  last (index (d :: r) k) 0%nat = (k mod last (d :: r) 1)%nat.
Proof.
  induction r as [|e r IH]; intros d k H.
  - rewrite index_cons by exact H. cbn [prod] in *. rewrite Nat.div_1_r, Nat.mod_1_r.
    cbn. rewrite Nat.mod_small by lia. reflexivity.
  - rewrite index_cons by exact H. cbn [prod] in H.
    assert (P : prod (e :: r) <> 0%nat) by (cbn; nia).
    assert (Hm : (k mod prod (e :: r) < e * prod r)%nat) by (apply Nat.mod_upper_bound; exact P).
    specialize (IH e (k mod prod (e :: r)) Hm).
    change (last (d :: e :: r) 1%nat) with (last (e :: r) 1%nat).
    rewrite index_cons in * by exact Hm.
    change (last (k / prod (e :: r) :: k mod prod (e :: r) / prod r :: index r ((k mod prod (e :: r)) mod prod r)) 0)%nat
      with (last (k mod prod (e :: r) / prod r :: index r ((k mod prod (e :: r)) mod prod r)) 0)%nat.
    rewrite IH.
    assert (F : exists lead, prod (e :: r) = (lead * last (e :: r) 1)%nat).
    { clear. revert e. induction r as [|x r IHr]; intro e; [exists 1%nat; cbn; lia|].
      destruct (IHr x) as (m & E). exists (e * m)%nat.
      change (last (e :: x :: r) 1%nat) with (last (x :: r) 1%nat).
      change (prod (e :: x :: r)) with (e * prod (x :: r))%nat. rewrite E. lia. }
    destruct F as (m & E). set (n := last (e :: r) 1%nat) in *.
    assert (n <> 0)%nat by nia.
    rewrite (Nat.div_mod k (prod (e :: r))) at 2 by exact P.
    replace (prod (e :: r) * (k / prod (e :: r)) + k mod prod (e :: r))%nat
      with (k mod prod (e :: r) + (k / prod (e :: r) * m) * n)%nat by (rewrite E; lia).
    now rewrite Nat.mod_add.
Qed.

(** ** filters of positions *)

Lemma filter_all {A} (p : A -> bool) l : (forall x, In x l -> p x = true) -> filter p l = l.
Proof.
  induction l as [|x l IH]; intro H; [reflexivity|]. cbn.
  rewrite (H x) by now left. f_equal. apply IH. intros y Hy. apply H. now right.
Qed.

Lemma filter_none {A} (p : A -> bool) l : (forall x, In x l -> p x = false) -> filter p l = [].
Proof.
  induction l as [|x l IH]; intro H; [reflexivity|]. cbn.
  rewrite (H x) by now left. apply IH. intros y Hy. apply H. now right.
Qed.

Lemma filter_ext_in' {A} (p q : A -> bool) l :
  (forall x, In x l -> p x = q x) -> filter p l = filter q l.
Proof. exact (filter_ext_in p q l). Qed.

Lemma filter_div w n b : (b < n)%nat ->
  filter (fun k => Nat.eqb (k / w) b) (seq 0 (n * w)) = seq (b * w) w.
Proof.
  intro H. destruct (Nat.eq_dec w 0) as [-> | Hw].
  { now rewrite Nat.mul_0_r. }
  replace (n * w)%nat with (b * w + (w + (n - b - 1) * w))%nat by nia.
  rewrite !seq_app, !filter_app. cbn [Nat.add].
  rewrite (filter_none _ (seq 0 (b * w))), (filter_all _ (seq (b * w) w)), (filter_none _ (seq (b * w + w) _)).
  - now rewrite app_nil_r.
  - intros x Hx. apply in_seq in Hx. apply Nat.eqb_neq.
    assert (S b <= x / w)%nat by (apply Nat.div_le_lower_bound; nia). lia.
  - intros x Hx. apply in_seq in Hx. apply Nat.eqb_eq.
    symmetry. apply Nat.div_unique with (r := (x - b * w)%nat); nia.
  - intros x Hx. apply in_seq in Hx. apply Nat.eqb_neq.
    assert (x / w < b)%nat by (apply Nat.div_lt_upper_bound; nia). lia.
Qed.

Lemma filter_mod c C n o : (c < C)%nat ->
  filter (fun k => Nat.eqb (k mod C) c) (seq (o * C) (n * C)) =
  map (fun r => (o * C + r * C + c)%nat) (seq 0 n).
Proof.
  intro H. revert o. induction n as [|n IH]; intro o; [reflexivity|].
  replace (S n * C)%nat with (C + n * C)%nat by lia.
  rewrite seq_app, filter_app. cbn [seq map].
  replace (o * C + C)%nat with (S o * C)%nat by lia. rewrite IH.
  rewrite <- seq_shift, map_map.
  assert (E : filter (fun k => Nat.eqb (k mod C) c) (seq (o * C) C) = [(o * C + c)%nat]).
  { assert (D : seq (o * C) C = seq (o * C) (c + (1 + (C - c - 1)))) by (f_equal; lia).
    rewrite D, !seq_app, !filter_app. cbn [seq].
    rewrite (filter_none _ (seq (o * C) c)), (filter_none _ (seq (o * C + c + 1) _)).
    - cbn [filter]. rewrite (Nat.add_comm (o * C) c).
      rewrite Nat.mod_add, Nat.mod_small, Nat.eqb_refl by lia. reflexivity.
    - intros x Hx. apply in_seq in Hx. apply Nat.eqb_neq.
      replace x with ((x - o * C) + o * C)%nat by lia.
      rewrite Nat.mod_add, Nat.mod_small by lia. lia.
    - intros x Hx. apply in_seq in Hx. apply Nat.eqb_neq.
      replace x with ((x - o * C) + o * C)%nat by lia.
      rewrite Nat.mod_add, Nat.mod_small by lia. lia. }
  rewrite E. cbn [app]. f_equal; [lia|]. apply map_ext. intro r. lia.
Qed.

Lemma flat_map_seq {A} (f : nat -> A) B C :
  flat_map (fun b => map (fun c => f (b * C + c)%nat) (seq 0 C)) (seq 0 B) =
  map f (seq 0 (B * C)).
Proof.
  assert (G : forall o, flat_map (fun b => map (fun c => f (b * C + c)%nat) (seq 0 C)) (seq o B) =
                        map f (seq (o * C) (B * C))).
  { induction B as [|B IH]; intro o; [reflexivity|].
    cbn [seq flat_map]. rewrite IH. replace (S B * C)%nat with (C + B * C)%nat by lia.
    rewrite seq_app, map_app. f_equal.
    - clear. generalize (o * C)%nat as s. intro s.
      assert (forall t, map (fun c => f (s + c)%nat) (seq t C) = map f (seq (s + t) C)) as E.
      { induction C as [|C IH]; intro t; [reflexivity|]. cbn. f_equal.
        rewrite IH. do 2 f_equal. lia. }
      rewrite E. do 2 f_equal. lia.
    - do 2 f_equal. lia. }
  exact (G 0%nat).
Qed.

Lemma flat_map_ext_in' {A B} (f g : A -> list B) l :
  (forall x, In x l -> f x = g x) -> flat_map f l = flat_map g l.
Proof.
  intro H. rewrite !flat_map_concat_map. f_equal. now apply map_ext_in.
Qed.

(** the cells are the positions, each in exactly one cell *)
Lemma partition_filter {A} (key : A -> nat) n l :
  (forall x, In x l -> (key x < n)%nat) ->
  Permutation (concat (map (fun c => filter (fun x => Nat.eqb (key x) c) l) (seq 0 n))) l.
Proof.
  revert l. induction l as [|x l IH]; intro H.
  - cbn. induction (seq 0 n); cbn; auto.
  - specialize (IH (fun y Hy => H y (or_intror Hy))).
    pose proof (H x (or_introl eq_refl)) as Hx.
    replace n with (key x + (1 + (n - key x - 1)))%nat in * by lia.
    rewrite !seq_app, !map_app, !concat_app in *. cbn [Nat.add seq map concat] in *.
    rewrite !app_nil_r in *.
    rewrite (map_ext_in (fun c => filter (fun y => Nat.eqb (key y) c) (x :: l))
               (fun c => filter (fun y => Nat.eqb (key y) c) l) (seq 0 (key x))).
    2:{ intros c Hc. apply in_seq in Hc. cbn.
        replace (Nat.eqb (key x) c) with false; [reflexivity|].
        symmetry. apply Nat.eqb_neq. lia. }
    rewrite (map_ext_in (fun c => filter (fun y => Nat.eqb (key y) c) (x :: l))
               (fun c => filter (fun y => Nat.eqb (key y) c) l) (seq (key x + 1) _)).
    2:{ intros c Hc. apply in_seq in Hc. cbn.
        replace (Nat.eqb (key x) c) with false; [reflexivity|].
        symmetry. apply Nat.eqb_neq. lia. }
    cbn [filter]. rewrite Nat.eqb_refl.
    cbn [app]. apply Permutation_sym, Permutation_cons_app, Permutation_sym. exact IH.
Qed.
