(* SncShiftProps.v -- C59: the shift makes the observed minimum non-negative. *)
From Coq Require Import Qabs Qfield Lqa.
From Verif Require Import Base RoundQ QuantModel SearchModel SncShiftModel.
Open Scope Q_scope.

Definition levels (n : nat) : Q := inject_Z (Z.of_nat (2 ^ n)).
Lemma levels_pos n : 0 < levels n.
Proof. unfold levels. change 0 with (inject_Z 0). rewrite <- Zlt_Qlt. pose proof (Nat.pow_nonzero 2 n ltac:(lia)). lia. Qed.
Lemma q_points_length t n : length (q_points t n) = (2 ^ n)%nat.
Proof. unfold q_points, linspace. destruct (2 ^ n)%nat as [|[|m]]; [reflexivity|reflexivity|]. rewrite map_length, seq_length. reflexivity. Qed.
Lemma q_points_nth t n k : (k < 2 ^ n)%nat -> nth k (q_points t n) 0 == inject_Z (Z.of_nat k) * (t / levels n).
Proof.
  intro H. pose proof (levels_pos n) as LP. unfold levels in *. unfold q_points, linspace. destruct (2 ^ n)%nat as [|[|m]] eqn:E; [lia| |].
  - replace k with 0%nat by lia. cbn. ring.
  - rewrite (nth_indep _ 0 (0 + inject_Z (Z.of_nat 0) * ((t - t / inject_Z (Z.of_nat (S (S m))) - 0) / inject_Z (Z.of_nat (S m))))) by (rewrite map_length, seq_length; exact H).
    rewrite (map_nth (fun i => 0 + inject_Z (Z.of_nat i) * ((t - t / inject_Z (Z.of_nat (S (S m))) - 0) / inject_Z (Z.of_nat (S m))))). rewrite seq_nth by exact H. cbn [Nat.add].
    assert (M : inject_Z (Z.of_nat (S (S m))) == inject_Z (Z.of_nat (S m)) + 1) by (rewrite <- (inject_Z_plus _ 1); apply inject_Z_injective || idtac; replace (Z.of_nat (S (S m))) with (Z.of_nat (S m) + 1)%Z by lia; reflexivity).
    assert (P : 0 < inject_Z (Z.of_nat (S m))) by (change 0 with (inject_Z 0); rewrite <- Zlt_Qlt; lia). rewrite M in *. field. split; lra.
Qed.
Lemma argmin_inf_from_spec : forall l bi b i, let j := argmin_inf_from bi b i l in
  (j = bi /\ (forall k, (k < length l)%nat -> lt_inf (nth k l None) b = false)) \/ (exists k, (k < length l)%nat /\ j = (i + k)%nat /\ lt_inf (nth k l None) b = true /\ forall k', (k' < length l)%nat -> lt_inf (nth k' l None) (nth k l None) = false).
Proof.
  assert (TR : forall a b c, lt_inf b c = true -> lt_inf a c = false -> lt_inf a b = false).
  { intros [a|] [b|] [c|]; cbn; try discriminate; try reflexivity; unfold Qlt_b; intros; repeat match goal with H : negb _ = _ |- _ => apply (f_equal negb) in H; rewrite Bool.negb_involutive in H; cbn in H end; apply (f_equal negb) || idtac. apply Bool.negb_false_iff. apply Qle_bool_iff. assert (X : ~ (c <= b)) by (intro Q; apply Qle_bool_iff in Q; congruence). apply Qle_bool_iff in H0. lra. }
  induction l as [|x l IH]; intros bi b i; cbn [argmin_inf_from]; [left; split; [reflexivity|intros k H; cbn in H; lia]|].
  destruct (lt_inf x b) eqn:L; cbv zeta.
  - destruct (IH i x (S i)) as [[A B]|(k & A & B & C & D)]; right.
    + exists 0%nat. split; [cbn; lia|]. split; [rewrite A; lia|]. split; [exact L|]. intros [|k'] H; cbn [nth length] in *; [destruct x; [cbn; unfold Qlt_b; rewrite (proj2 (Qle_bool_iff q q)) by lra; reflexivity|reflexivity]|apply B; lia].
    + exists (S k). split; [cbn; lia|]. split; [rewrite B; lia|]. cbn [nth]. split.
      * clear -C L. destruct (nth k l None), x, b; cbn in *; try discriminate; try reflexivity. unfold Qlt_b in *. apply Bool.negb_true_iff in C, L. apply Bool.negb_true_iff. apply Bool.not_true_iff_false. intro Q. apply Qle_bool_iff in Q. assert (~ q0 <= q) by (intro Z; apply Qle_bool_iff in Z; congruence). assert (~ q1 <= q0) by (intro Z; apply Qle_bool_iff in Z; congruence). lra.
      * intros [|k'] H; cbn [nth length] in *; [|apply D; lia]. destruct (lt_inf x (nth k l None)) eqn:Z; [|reflexivity]. exfalso. clear -C Z. destruct (nth k l None), x; cbn in *; try discriminate. unfold Qlt_b in *. apply Bool.negb_true_iff in C, Z. assert (~ q0 <= q) by (intro Y; apply Qle_bool_iff in Y; congruence). assert (~ q <= q0) by (intro Y; apply Qle_bool_iff in Y; congruence). lra.
  - destruct (IH bi b (S i)) as [[A B]|(k & A & B & C & D)].
    + left. split; [exact A|]. intros [|k'] H; cbn [nth length] in *; [exact L|apply B; lia].
    + right. exists (S k). split; [cbn; lia|]. split; [rewrite B; lia|]. cbn [nth]. split; [exact C|]. intros [|k'] H; cbn [nth length] in *; [apply (TR x _ b); assumption|apply D; lia].
Qed.
Lemma argmin_inf_spec l : l <> [] -> (argmin_inf l < length l)%nat /\ forall k, (k < length l)%nat -> lt_inf (nth k l None) (nth (argmin_inf l) l None) = false.
Proof.
  destruct l as [|x l]; [congruence|]. intros _. cbn [argmin_inf]. assert (RX : lt_inf x x = false) by (destruct x as [q|]; [cbn; unfold Qlt_b; rewrite (proj2 (Qle_bool_iff q q)) by lra; reflexivity|reflexivity]).
  destruct (argmin_inf_from_spec l 0 x 1) as [[A B]|(k & A & B & C & D)].
  - rewrite A. split; [cbn; lia|]. intros [|k] H; cbn [nth length] in *; [exact RX|apply B; lia].
  - rewrite B. split; [cbn; lia|]. cbn [Nat.add nth]. intros [|k'] H; cbn [nth length] in *; [|apply D; lia].
    destruct (lt_inf x (nth k l None)) eqn:Z; [|reflexivity]. exfalso. clear -C Z. destruct (nth k l None), x; cbn in *; try discriminate. unfold Qlt_b in *. apply Bool.negb_true_iff in C, Z. assert (~ q0 <= q) by (intro Y; apply Qle_bool_iff in Y; congruence). assert (~ q <= q0) by (intro Y; apply Qle_bool_iff in Y; congruence). lra.
Qed.
(* the shift is the least quantization point that lifts the minimum to zero or above *)
Theorem shift_lifts_minimum mn t n : 0 < t -> mn < 0 -> - mn <= t - t / levels n ->
  let s := shift_value mn t n in (exists k, (k < 2 ^ n)%nat /\ s == inject_Z (Z.of_nat k) * (t / levels n)) /\
  0 <= mn + s /\ mn + s < t / levels n /\ forall q, In q (q_points t n) -> 0 <= mn + q -> s <= q.
Proof.
  intros T M R. pose proof (levels_pos n) as LP. set (u := t / levels n) in *. assert (U : 0 < u) by (apply Qlt_shift_div_l; lra). assert (TU : t == levels n * u) by (unfold u; field; lra).
  cbv zeta. unfold shift_value. set (qs := q_points t n). set (ds := deltas mn qs).
  assert (LQ : length qs = (2 ^ n)%nat) by apply q_points_length. assert (LD : length ds = (2 ^ n)%nat) by (unfold ds, deltas; rewrite map_length; exact LQ). pose proof (Nat.pow_nonzero 2 n ltac:(lia)) as NZ.
  assert (ND : forall k, (k < 2 ^ n)%nat -> nth k ds None = let d := nth k qs 0 + mn in if Qlt_b d 0 then None else Some d).
  { intros k H. unfold ds, deltas. rewrite (nth_indep _ None ((fun q => let d := q + mn in if Qlt_b d 0 then None else Some d) 0)) by (rewrite map_length, LQ; exact H). apply (map_nth (fun q => let d := q + mn in if Qlt_b d 0 then None else Some d)). }
  assert (QN : forall k, (k < 2 ^ n)%nat -> nth k qs 0 == inject_Z (Z.of_nat k) * u) by (intros k H; apply q_points_nth, H).
  assert (LT : forall a, Qlt_b a 0 = true <-> a < 0). { intro a. unfold Qlt_b. rewrite Bool.negb_true_iff. split; [intro Q; destruct (Qlt_le_dec a 0) as [Z|Z]; [exact Z|apply Qle_bool_iff in Z; congruence]|intro Q; apply Bool.not_true_iff_false; rewrite Qle_bool_iff; lra]. }
  destruct (argmin_inf_spec ds) as [I MIN]; [intro Q; rewrite Q in LD; cbn in LD; lia|]. rewrite LD in I, MIN. set (i := argmin_inf ds) in *.
  assert (LAST : 0 <= nth (2 ^ n - 1) qs 0 + mn). { rewrite QN by lia. assert (E : inject_Z (Z.of_nat (2 ^ n - 1)) == levels n - 1) by (unfold levels; replace (Z.of_nat (2 ^ n - 1)) with (Z.of_nat (2 ^ n) - 1)%Z by lia; unfold Z.sub; rewrite inject_Z_plus; reflexivity). rewrite E. nra. }
  assert (DI : Qlt_b (nth i qs 0 + mn) 0 = false). { destruct (Qlt_b (nth i qs 0 + mn) 0) eqn:E; [|reflexivity]. exfalso. specialize (MIN (2 ^ n - 1)%nat ltac:(lia)). rewrite !ND in MIN by lia. cbv zeta in MIN. rewrite E in MIN. destruct (Qlt_b (nth (2 ^ n - 1) qs 0 + mn) 0) eqn:E2; [apply LT in E2; lra|discriminate MIN]. }
  assert (D0 : 0 <= nth i qs 0 + mn) by (destruct (Qlt_le_dec (nth i qs 0 + mn) 0) as [Z|Z]; [apply LT in Z; congruence|exact Z]).
  assert (LEAST : forall k, (k < 2 ^ n)%nat -> 0 <= nth k qs 0 + mn -> nth i qs 0 <= nth k qs 0). { intros k H Z. specialize (MIN k H). rewrite !ND in MIN by lia. cbv zeta in MIN. rewrite DI in MIN. destruct (Qlt_b (nth k qs 0 + mn) 0) eqn:E2; [apply LT in E2; lra|]. cbn [lt_inf] in MIN. unfold Qlt_b in MIN. apply Bool.negb_false_iff, Qle_bool_iff in MIN. lra. }
  split; [exists i; split; [exact I|apply QN, I]|]. split; [lra|]. split.
  - destruct (Qlt_le_dec (mn + nth i qs 0) u) as [Z|Z]; [exact Z|]. exfalso. destruct i as [|i'] eqn:EI; [rewrite QN in Z by lia; change (inject_Z (Z.of_nat 0)) with 0 in Z; lra|]. assert (S1 : nth (S i') qs 0 == nth i' qs 0 + u). { rewrite !QN by lia. replace (Z.of_nat (S i')) with (Z.of_nat i' + 1)%Z by lia. rewrite inject_Z_plus. ring. } specialize (LEAST i' ltac:(lia)). lra.
  - intros q J Z. apply (In_nth _ _ 0) in J. destruct J as (k & Hk & <-). rewrite LQ in Hk. apply LEAST; [exact Hk|lra].
Qed.
Print Assumptions shift_lifts_minimum.
(* a node is corrected only if its minimum is negative, and a ratio below one minus a step is enough for the shift to lift it *)
Theorem corrected_nodes loss mn t ratio n th s : 0 < t -> snc_params loss false mn t ratio n = Some (th, s) -> ratio <= 1 - 1 / levels n ->
  th = t /\ mn < 0 /\ - mn <= ratio * t /\ 0 <= mn + s /\ mn + s < t / levels n.
Proof.
  intros T H R. unfold snc_params in H. destruct (corrected mn t ratio) eqn:C; [|discriminate]. injection H as <- <-. unfold corrected in C. apply andb_prop in C. destruct C as [C C3]. apply andb_prop in C. destruct C as [C1 _]. apply Qle_bool_iff in C3.
  assert (M : mn < 0) by (unfold Qlt_b in C1; apply Bool.negb_true_iff in C1; destruct (Qlt_le_dec mn 0) as [Z|Z]; [exact Z|apply Qle_bool_iff in Z; congruence]).
  assert (B : - mn <= ratio * t). { rewrite Qabs_neg in C3 by lra. assert (X : - mn == (- mn / t) * t) by (field; lra). rewrite X. apply Qmult_le_compat_r; [exact C3|lra]. }
  pose proof (levels_pos n) as LP. assert (K : ratio * t <= t - t / levels n). { assert (X : t - t / levels n == (1 - 1 / levels n) * t) by (field; lra). rewrite X. apply Qmult_le_compat_r; [exact R|lra]. }
  destruct (shift_lifts_minimum mn t n T M ltac:(lra)) as (_ & A & A2 & _). auto.
Qed.
Print Assumptions corrected_nodes.
(* the search returns the first candidate of least error *)
Theorem searched_params loss t n : exists th s, search_params loss t n = Some (th, s) /\ (th = t \/ th = 2 * t) /\ In s (q_points th n) /\
  forall th' s', th' = t \/ th' = 2 * t -> In s' (q_points th' n) -> loss th s <= loss th' s'.
Proof.
  unfold search_params. set (cands := flat_map _ _).
  assert (IC : forall c, In c cands <-> (fst c = t \/ fst c = 2 * t) /\ In (snd c) (q_points (fst c) n)).
  { intros [a b]. unfold cands. cbn [flat_map]. rewrite app_nil_r, in_app_iff, !in_map_iff. cbn [fst snd]. split; [intros [(q & E & I)|(q & E & I)]; injection E as <- <-; auto|intros [[-> | ->] I]; eauto]. }
  assert (NE : cands <> []). { intro Q. assert (J : In (t, nth 0 (q_points t n) 0) cands). { apply IC. cbn. split; [auto|]. apply nth_In. rewrite q_points_length. pose proof (Nat.pow_nonzero 2 n ltac:(lia)). lia. } rewrite Q in J. destruct J. }
  set (f := fun best c => _). assert (G : forall l b, (exists m c, fold_left f l (Some b) = Some (m, c) /\ (forall c', In c' l -> m <= loss (fst c') (snd c')) /\ m <= fst b /\ ((m, c) = b \/ In c l /\ m = loss (fst c) (snd c)))).
  { induction l as [|c l IH]; intros [m0 c0]; cbn [fold_left]; [exists m0, c0; split; [reflexivity|]; split; [intros c' []|]; split; [cbn; lra|auto]|]. unfold f at 2. cbv zeta. unfold Qlt_b. destruct (Qle_bool m0 (loss (fst c) (snd c))) eqn:E; cbn [negb].
    - destruct (IH (m0, c0)) as (m & d & A & B & C & D). exists m, d. split; [exact A|]. apply Qle_bool_iff in E. cbn [fst] in *. split; [intros c' [<-|J]; [lra|apply B, J]|]. split; [exact C|]. destruct D as [D|[D D']]; [auto|right; split; [right; exact D|exact D']].
    - assert (E' : loss (fst c) (snd c) <= m0) by (destruct (Qlt_le_dec (loss (fst c) (snd c)) m0); [lra|apply Qle_bool_iff in q; congruence]). destruct (IH (loss (fst c) (snd c), c)) as (m & d & A & B & C & D). exists m, d. split; [exact A|]. cbn [fst] in *. split; [intros c' [<-|J]; [exact C|apply B, J]|]. split; [lra|]. right. destruct D as [D|[D D']]; [injection D as -> ->; split; [left; reflexivity|reflexivity]|split; [right; exact D|exact D']]. }
  destruct cands as [|c0 l] eqn:EC; [congruence|]. cbn [fold_left]. change (f None c0) with (Some (loss (fst c0) (snd c0), c0)). destruct (G l (loss (fst c0) (snd c0), c0)) as (m & c & A & B & C & D). rewrite A. cbn [option_map snd]. destruct c as [th s]. exists th, s. split; [reflexivity|].
  assert (J : In (th, s) (c0 :: l) /\ m = loss th s) by (destruct D as [D|[D D']]; [injection D as -> <-; split; [left; reflexivity|reflexivity]|split; [right; exact D|exact D']]). destruct J as [J EM]. apply IC in J. cbn [fst snd] in J. destruct J as [J1 J2]. split; [exact J1|]. split; [exact J2|].
  intros th' s' H1 H2. assert (J : In (th', s') (c0 :: l)) by (apply IC; cbn; auto). rewrite <- EM. destruct J as [->|J]; [exact C|apply (B (th', s') J)].
Qed.
Print Assumptions searched_params.

(* ratio 1 and a minimum that no point lifts: the shift is zero, and the node counts as unsigned *)
Theorem unlifted_minimum_refuted : exists mn t ratio n th s, 0 < t /\ ratio <= 1 /\ snc_params (fun _ _ => 0) false mn t ratio n = Some (th, s) /\ s == 0 /\ mn + s < 0.
Proof. exists (- (1)), 1, 1, 1%nat, 1, (0 # 2). repeat split; vm_compute; congruence || reflexivity. Qed.
Print Assumptions unlifted_minimum_refuted.
(* the shifted maximum need not fit: values up to the threshold are clipped after the shift *)
Theorem shifted_maximum_clipped_refuted : exists mn t n mx, mn < 0 /\ - mn <= t - t / levels n /\ mx <= t /\ t < mx + shift_value mn t n.
Proof. exists (- (1 # 4)), 1, 2%nat, 1. repeat split; vm_compute; congruence || reflexivity. Qed.
Print Assumptions shifted_maximum_clipped_refuted.
(* with the search of parameters the minimum may stay negative *)
Theorem searched_minimum_refuted : exists loss mn t ratio n th s, ratio <= 1 - 1 / levels n /\ 0 < t /\ snc_params loss true mn t ratio n = Some (th, s) /\ mn + s < 0.
Proof. exists (fun th s => s), (- (1 # 4)), 1, (1 # 2), 1%nat, 1, (0 # 2). repeat split; vm_compute; congruence || reflexivity. Qed.
Print Assumptions searched_minimum_refuted.
Example shift_ex : shift_value (- (3 # 10)) 1 2 == 1 # 2 /\ snc_params (fun _ _ => 0) false (- (3 # 10)) 1 (1 # 2) 2 <> None.
Proof. split; vm_compute; congruence. Qed.
