(* SensProofs.v -- lemmas behind SensProps.v *)
From Coq Require Import String Qround Lqa Sorted.
From Verif Require Import Base RoundQ RoundQFacts SDict SensModel SensSpec.
Local Open Scope list_scope.
Local Open Scope Z_scope.

(* ---- images ---- *)
Lemma regular_tail {I} m (b : batch I) r : regular m (b :: r) -> regular m r.
Proof. intros [M H]. split; [exact M|]. intros b' Hb. apply H. right. exact Hb. Qed.

Lemma regular_head {I} m (b : batch I) r : regular m (b :: r) ->
  exists n, length b = m /\ batch_size b = Ok (Z.of_nat n) /\ (forall i, (i < m)%nat -> length (nth i b []) = n).
Proof.
  intros [M H]. destruct (H b (or_introl eq_refl)) as [L [n Hn]]. exists n. split; [exact L|]. split.
  - destruct b as [|x b']; [cbn in L; lia|]. cbn. rewrite (Hn x (or_introl eq_refl)). reflexivity.
  - intros i Hi. apply Hn, nth_In. lia.
Qed.

Lemma nth_cut {I} n (b : batch I) i : nth i (map (firstn n) b) [] = firstn n (nth i b []).
Proof. destruct (Nat.lt_ge_cases i (length b)) as [L|L].
  - rewrite (nth_indep _ [] (firstn n []) ) by (rewrite map_length; exact L). apply map_nth.
  - rewrite !nth_overflow; [rewrite firstn_nil; reflexivity|exact L|rewrite map_length; exact L]. Qed.

Lemma samples_cons {I} i (b : batch I) r : samples i (b :: r) = nth i b [] ++ samples i r.
Proof. reflexivity. Qed.

Lemma samples_same_length {I} m (gen : list (batch I)) i : regular m gen -> (i < m)%nat ->
  length (samples i gen) = length (samples 0 gen).
Proof.
  induction gen as [|b r IH]; intros R Hi; [reflexivity|]. rewrite !samples_cons, !app_length.
  destruct (regular_head _ _ _ R) as [n [_ [_ Hn]]]. rewrite (IH (regular_tail _ _ _ R) Hi).
  rewrite (Hn i Hi), (Hn 0%nat); [reflexivity|]. destruct R; lia.
Qed.

Lemma images_loop_spec {I} m num : forall (gen : list (batch I)) count, regular m gen ->
  exists bs pulled,
    images_loop num count gen = Ok (bs, Z.ltb (count + Z.of_nat (length (samples 0 gen))) num, pulled) /\
    (forall i, (i < m)%nat -> samples i bs = firstn (Z.to_nat (num - count)) (samples i gen)) /\
    (exists k, bs = firstn k gen \/ exists n b0, nth_error gen k = Some b0 /\ bs = firstn k gen ++ [map (firstn n) b0]) /\
    (pulled <= S (length bs))%nat.
Proof.
  induction gen as [|b r IH]; intros count R; cbn [images_loop].
  - exists [], 0%nat. cbn. rewrite Z.add_0_r. split; [reflexivity|]. split; [intros; rewrite firstn_nil; reflexivity|].
    split; [exists 0%nat; left; reflexivity|lia].
  - destruct (Z.leb_spec num count) as [C|C].
    + exists [], 1%nat. split; [|split; [|split]].
      * replace (Z.ltb _ num) with false by (symmetry; apply Z.ltb_ge; lia). reflexivity.
      * intros i Hi. replace (Z.to_nat (num - count)) with 0%nat by lia. reflexivity.
      * exists 0%nat. left. reflexivity.
      * cbn. lia.
    + destruct (regular_head _ _ _ R) as [n [L [Hs Hn]]]. rewrite Hs. cbn [bind].
      assert (M : (0 < m)%nat) by (destruct R; assumption).
      destruct (Z.ltb_spec (num - count) (Z.of_nat n)) as [T|T].
      * set (c := Z.to_nat (num - count)).
        assert (Hc : batch_size (map (firstn c) b) = Ok (num - count)).
        { destruct b as [|x b']; [cbn in L; lia|]. cbn. rewrite firstn_length.
          specialize (Hn 0%nat M). cbn in Hn. rewrite Hn. f_equal. subst c. lia. }
        rewrite Hc. cbn [bind]. rewrite Z.eqb_refl. cbn [bind].
        destruct (IH (count + (num - count)) (regular_tail _ _ _ R)) as [bs [pulled [E [HS [HK HP]]]]].
        rewrite E. cbn [bind].
        assert (B : bs = []).
        { replace (count + (num - count)) with num in E by lia. destruct r as [|b1 r']; cbn [images_loop] in E.
          - inversion E; reflexivity.
          - rewrite (proj2 (Z.leb_le num num)) in E by lia. inversion E; reflexivity. }
        subst bs. exists [map (firstn c) b], (S pulled). split; [|split; [|split]].
        -- do 2 f_equal. rewrite samples_cons, app_length, (Hn 0%nat M).
           replace (Z.ltb (count + (num - count) + _) num) with false by (symmetry; apply Z.ltb_ge; lia).
           replace (Z.ltb _ num) with false by (symmetry; apply Z.ltb_ge; lia). reflexivity.
        -- intros i Hi. rewrite !samples_cons. cbn [samples map concat]. rewrite app_nil_r, nth_cut.
           fold c. rewrite firstn_app. replace (c - length (nth i b []))%nat with 0%nat.
           ++ cbn [firstn]. rewrite app_nil_r. reflexivity.
           ++ rewrite (Hn i Hi). subst c. lia.
        -- exists 0%nat. right. exists c, b. split; reflexivity.
        -- cbn in *. lia.
      * destruct (IH (count + Z.of_nat n) (regular_tail _ _ _ R)) as [bs [pulled [E [HS [HK HP]]]]].
        cbn [bind]. rewrite E. cbn [bind]. exists (b :: bs), (S pulled). split; [|split; [|split]].
        -- do 2 f_equal. rewrite samples_cons, app_length, (Hn 0%nat M). do 2 f_equal. lia.
        -- intros i Hi. rewrite !samples_cons, (HS i Hi), firstn_app, (Hn i Hi). f_equal.
           ++ symmetry. apply firstn_all2. rewrite (Hn i Hi). lia.
           ++ f_equal. lia.
        -- destruct HK as [k [K|[n0 [b0 [K1 K2]]]]]; exists (S k).
           ++ left. cbn. congruence.
           ++ right. exists n0, b0. split; [exact K1|]. cbn. congruence.
        -- cbn. lia.
Qed.

Lemma images_loop_prefix {I} m num : forall (pre rest : list (batch I)) count bs warn pulled, regular m pre ->
  num <= count + Z.of_nat (length (samples 0 pre)) ->
  images_loop num count pre = Ok (bs, warn, pulled) ->
  exists pulled', images_loop num count (pre ++ rest) = Ok (bs, false, pulled').
Proof.
  induction pre as [|b r IH]; intros rest count bs warn pulled R T E.
  - cbn in *. inversion E; subst. destruct rest as [|b' r']; cbn.
    + exists 0%nat. rewrite (proj2 (Z.ltb_ge count num)) by lia. reflexivity.
    + exists 1%nat. rewrite (proj2 (Z.leb_le num count)) by lia. reflexivity.
  - cbn [images_loop app] in *. destruct (Z.leb num count); [inversion E; subst; eauto|].
    destruct (regular_head _ _ _ R) as [n [L [Hs Hn]]]. rewrite Hs in *. cbn [bind] in *.
    assert (M : (0 < m)%nat) by (destruct R; assumption).
    rewrite samples_cons, app_length, (Hn 0%nat M) in T.
    destruct (Z.ltb_spec (num - count) (Z.of_nat n)) as [C|C].
    + destruct (batch_size (map (firstn (Z.to_nat (num - count))) b)) as [s|e]; [|discriminate]. cbn [bind] in *.
      destruct (Z.eqb (num - count) s); [|discriminate]. cbn [bind] in *.
      destruct (images_loop num (count + (num - count)) r) as [[[bs0 w0] p0]|e] eqn:E0; [|discriminate].
      cbn [bind] in E. inversion E; subst.
      edestruct (IH rest) as [p' E1]; [exact (regular_tail _ _ _ R)| |exact E0|]; [lia|].
      rewrite E1. cbn [bind]. eauto.
    + cbn [bind] in *.
      destruct (images_loop num (count + Z.of_nat n) r) as [[[bs0 w0] p0]|e] eqn:E0; [|discriminate].
      cbn [bind] in E. inversion E; subst.
      edestruct (IH rest) as [p' E1]; [exact (regular_tail _ _ _ R)| |exact E0|]; [lia|].
      rewrite E1. cbn [bind]. eauto.
Qed.

(* ---- points ---- *)
Definition place (len num i : nat) : Q := (inject_Z (Z.of_nat i * (Z.of_nat len - 1)) / inject_Z (Z.of_nat num - 1))%Q.

Lemma spaced_map len num : (2 <= num)%nat -> spaced len num = map (fun i => round_half_even (place len num i)) (seq 0 num).
Proof. destruct num as [|[|k]]; [lia|lia|reflexivity]. Qed.

Lemma spaced_length len num : length (spaced len num) = num.
Proof. destruct num as [|[|k]]; [reflexivity|reflexivity|]. rewrite spaced_map by lia. rewrite map_length, seq_length. reflexivity. Qed.

Lemma place_full len i : (2 <= len)%nat -> (place len len i == inject_Z (Z.of_nat i))%Q.
Proof.
  intro L. unfold place. rewrite inject_Z_mult. field.
  unfold Qeq. cbn. lia.
Qed.

Lemma place_step len num i : (2 <= num)%nat -> (num < len)%nat -> (place len num i + 1 < place len num (S i))%Q.
Proof.
  intros N L. unfold place.
  assert (D : (0 < inject_Z (Z.of_nat num - 1))%Q) by (change 0%Q with (inject_Z 0); rewrite <- Zlt_Qlt; lia).
  apply Qlt_shift_div_l; [exact D|].
  setoid_replace ((inject_Z (Z.of_nat i * (Z.of_nat len - 1)) / inject_Z (Z.of_nat num - 1) + 1) * inject_Z (Z.of_nat num - 1))%Q
    with (inject_Z (Z.of_nat i * (Z.of_nat len - 1)) + inject_Z (Z.of_nat num - 1))%Q by (field; lra).
  rewrite <- inject_Z_plus, <- Zlt_Qlt. nia.
Qed.

Lemma place_round_step len num i : (2 <= num)%nat -> (num <= len)%nat ->
  round_half_even (place len num i) < round_half_even (place len num (S i)).
Proof.
  intros N L. destruct (Nat.eq_dec num len) as [->|NE].
  - assert (R : forall j, round_half_even (place len len j) = Z.of_nat j).
    { intro j. apply Z.le_antisymm.
      - apply round_le. rewrite place_full by exact N. apply Qle_refl.
      - apply round_ge. rewrite place_full by exact N. apply Qle_refl. }
    rewrite !R. lia.
  - pose proof (place_step len num i N ltac:(lia)) as S1.
    pose proof (round_error (place len num i)) as [_ E1]. pose proof (round_error (place len num (S i))) as [E2 _].
    rewrite Zlt_Qlt. lra.
Qed.

Lemma place_round_mono len num i j : (2 <= num)%nat -> (num <= len)%nat -> (i < j)%nat ->
  round_half_even (place len num i) < round_half_even (place len num j).
Proof.
  intros N L H. induction H as [|j H IH]; [apply place_round_step; assumption|].
  eapply Z.lt_trans; [exact IH|apply place_round_step; assumption].
Qed.

Lemma place_round_first len num : (2 <= num)%nat -> round_half_even (place len num 0) = 0.
Proof.
  intro N. apply Z.le_antisymm; [apply round_le|apply round_ge]; unfold place; cbn [Z.of_nat Z.mul];
    change (inject_Z 0) with 0%Q; setoid_replace (0 / inject_Z (Z.of_nat num - 1))%Q with 0%Q; try apply Qle_refl;
    field; unfold Qeq; cbn; lia.
Qed.

Lemma place_round_last len num : (2 <= num)%nat -> round_half_even (place len num (num - 1)) = Z.of_nat len - 1.
Proof.
  intro N. assert (P : (place len num (num - 1) == inject_Z (Z.of_nat len - 1))%Q).
  { unfold place. rewrite inject_Z_mult. replace (Z.of_nat (num - 1)) with (Z.of_nat num - 1) by lia. field.
    unfold Qeq. cbn. lia. }
  apply Z.le_antisymm; [apply round_le|apply round_ge]; rewrite P; apply Qle_refl.
Qed.

Lemma sorted_seq (f : nat -> Z) : (forall i j, (i < j)%nat -> f i < f j) -> forall n s, StronglySorted Z.lt (map f (seq s n)).
Proof.
  intros H. induction n as [|n IH]; intro s; cbn; constructor; [apply IH|].
  apply Forall_forall. intros x Hx. apply in_map_iff in Hx. destruct Hx as [j [<- Hj]]. apply in_seq in Hj. apply H. lia.
Qed.

Lemma spaced_sorted len num : (num <= len)%nat -> StronglySorted Z.lt (spaced len num).
Proof.
  intro L. destruct num as [|[|k]]; [constructor|repeat constructor|].
  rewrite spaced_map by lia. apply sorted_seq. intros i j H. apply place_round_mono; lia.
Qed.

Lemma spaced_range len num i : (num <= len)%nat -> In i (spaced len num) -> 0 <= i < Z.of_nat len.
Proof.
  intros L H. destruct num as [|[|k]]; [contradiction|cbn in H; destruct H as [<-|[]]; lia|].
  rewrite spaced_map in H by lia. apply in_map_iff in H. destruct H as [j [<- Hj]]. apply in_seq in Hj.
  set (num := S (S k)) in *. split.
  - destruct j as [|j]; [rewrite place_round_first by (subst num; lia); lia|].
    rewrite <- (place_round_first len num) by (subst num; lia).
    apply Z.lt_le_incl, place_round_mono; subst num; lia.
  - apply Z.le_lt_trans with (Z.of_nat len - 1); [|lia].
    destruct (Nat.eq_dec j (num - 1)) as [->|NE]; [rewrite place_round_last by (subst num; lia); lia|].
    rewrite <- (place_round_last len num) by (subst num; lia).
    apply Z.lt_le_incl, place_round_mono; subst num; lia.
Qed.

Lemma picks {N} (l : list N) : forall idxs, (forall i, In i idxs -> 0 <= i < Z.of_nat (length l)) ->
  exists l', mapM (pick l) idxs = Ok l' /\ Forall2 (fun i x => nth_error l (Z.to_nat i) = Some x) idxs l'.
Proof.
  induction idxs as [|i r IH]; intro H; cbn [mapM]; [exists []; split; [reflexivity|constructor]|].
  destruct (IH (fun j Hj => H j (or_intror Hj))) as [l' [E F]]. specialize (H i (or_introl eq_refl)).
  unfold pick at 1. rewrite (proj2 (Z.ltb_ge i 0)) by lia. rewrite (proj2 (Z.ltb_ge i 0)) by lia.
  destruct (nth_error l (Z.to_nat i)) as [x|] eqn:X.
  - cbn [bind]. rewrite E. cbn [bind]. exists (x :: l'). split; [reflexivity|]. constructor; assumption.
  - apply nth_error_None in X. lia.
Qed.

Lemma sorted_subseq {N} : forall (l : list N) o idxs l', StronglySorted Z.lt idxs -> (forall i, In i idxs -> o <= i) ->
  Forall2 (fun i x => nth_error l (Z.to_nat (i - o)) = Some x) idxs l' -> subseq l' l.
Proof.
  induction l as [|y l IH]; intros o idxs l' S B F.
  - inversion F as [|i x ri rx X FR]; subst; [constructor|]. destruct (Z.to_nat (i - o)); discriminate.
  - inversion F as [|i x ri rx X FR]; subst; [constructor|]. inversion S as [|? ? S1 S2]; subst.
    rewrite Forall_forall in S2.
    assert (STEP : forall js ys, (forall j, In j js -> o + 1 <= j) ->
      Forall2 (fun i x => nth_error (y :: l) (Z.to_nat (i - o)) = Some x) js ys ->
      Forall2 (fun i x => nth_error l (Z.to_nat (i - (o + 1))) = Some x) js ys).
    { intros js ys Bj Fj. induction Fj as [|j z js ys Hj _ IHj]; constructor.
      - specialize (Bj j (or_introl eq_refl)). replace (Z.to_nat (j - o)) with (Datatypes.S (Z.to_nat (j - (o + 1)))) in Hj by lia.
        exact Hj.
      - apply IHj. intros j' H'. apply Bj. right. exact H'. }
    destruct (Z.eq_dec i o) as [->|NE].
    + rewrite Z.sub_diag in X. cbn in X. inversion X; subst. apply ss_take.
      assert (B1 : forall j, In j ri -> o + 1 <= j) by (intros j Hj; specialize (S2 j Hj); lia).
      apply (IH (o + 1) ri); [exact S1|exact B1|apply STEP; assumption].
    + apply ss_skip.
      assert (B1 : forall j, In j (i :: ri) -> o + 1 <= j).
      { intros j [<-|Hj]; [specialize (B i (or_introl eq_refl)); lia|].
        specialize (S2 j Hj). specialize (B i (or_introl eq_refl)). lia. }
      apply (IH (o + 1) (i :: ri)); [exact S|exact B1|apply STEP; assumption].
Qed.

Lemma subseq_in {N} (l l0 : list N) x : subseq l l0 -> In x l -> In x l0.
Proof. induction 1; cbn; [tauto|intuition|intuition]. Qed.

Lemma subseq_trans {N} (b c : list N) : subseq b c -> forall a, subseq a b -> subseq a c.
Proof.
  induction 1 as [c|x b c H IH|x b c H IH]; intros a A.
  - inversion A; subst. constructor.
  - inversion A; subst; [constructor|constructor; auto|apply ss_skip; auto].
  - apply ss_skip. auto.
Qed.

Lemma subseq_filter {N} f (l : list N) : subseq (filter f l) l.
Proof. induction l as [|x r IH]; cbn; [constructor|]. destruct (f x); [apply ss_take|apply ss_skip]; exact IH. Qed.

Lemma subseq_refl {N} (l : list N) : subseq l l.
Proof. induction l; constructor; assumption. Qed.

Lemma trunc_floor q : (0 <= q)%Q -> trunc q = Qfloor q.
Proof. intro H. destruct q as [n d]. unfold trunc, Qfloor. cbn. apply Z.quot_div_nonneg; [unfold Qle in H; cbn in H; lia|lia]. Qed.

Lemma Forall2_nth {A B} (P : A -> B -> Prop) l l' : Forall2 P l l' -> forall i y, nth_error l' i = Some y ->
  exists x, nth_error l i = Some x /\ P x y.
Proof. induction 1 as [|x y l l' H F IH]; intros [|i] z E; cbn in *; try discriminate; [inversion E; subst; eauto|eauto]. Qed.

Lemma bound_spec {N} (l : list N) factor : (0 <= factor)%Q -> (factor < 1)%Q ->
  exists l', bound_interest_points l factor = Ok l' /\
    Z.of_nat (length l') = Qfloor (factor * inject_Z (Z.of_nat (length l))) /\
    subseq l' l /\
    (l' <> [] -> hd_error l' = hd_error l) /\
    ((2 <= length l')%nat ->
       forall i x, nth_error l' i = Some x ->
         nth_error l (Z.to_nat (round_half_even (place (length l) (length l') i))) = Some x).
Proof.
  intros H0 H1. unfold bound_interest_points. replace (Qlt_b factor 1) with true.
  2: { symmetry. unfold Qlt_b. apply Bool.negb_true_iff. destruct (Qle_bool 1 factor) eqn:Q; [|reflexivity].
       apply Qle_bool_iff in Q. lra. }
  set (len := length l) in *. set (q := (factor * inject_Z (Z.of_nat len))%Q).
  assert (L0 : (0 <= inject_Z (Z.of_nat len))%Q) by (change 0%Q with (inject_Z 0); rewrite <- Zle_Qle; lia).
  assert (Q0 : (0 <= q)%Q) by (apply Qmult_le_0_compat; assumption).
  assert (Q1 : (q <= inject_Z (Z.of_nat len))%Q) by (unfold q; nra).
  rewrite (trunc_floor q Q0).
  assert (F0 : 0 <= Qfloor q) by (change 0 with (Qfloor 0); apply Qfloor_resp_le; exact Q0).
  assert (F1 : Qfloor q <= Z.of_nat len) by (rewrite <- (Qfloor_Z (Z.of_nat len)); apply Qfloor_resp_le; exact Q1).
  rewrite (proj2 (Z.ltb_ge (Qfloor q) 0)) by exact F0.
  set (num := Z.to_nat (Qfloor q)). assert (NL : (num <= len)%nat) by (subst num; lia).
  destruct (picks l (spaced len num) (fun i => spaced_range len num i NL)) as [l' [E F]].
  assert (LEN : length l' = num) by (rewrite <- (spaced_length len num); clear - F; induction F; cbn; congruence).
  exists l'. split; [exact E|]. split; [rewrite LEN; subst num; lia|]. split; [|split].
  - apply (sorted_subseq l 0 (spaced len num)).
    + apply spaced_sorted; exact NL.
    + intros i Hi. apply (spaced_range len num i NL Hi).
    + clear - F. induction F as [|i x a b Hx _ IH]; constructor; [rewrite Z.sub_0_r; exact Hx|exact IH].
  - intro NE. destruct l' as [|x r]; [congruence|]. destruct (Forall2_nth _ _ _ F 0%nat x eq_refl) as [i [Hi Hx]].
    cbn. assert (i = 0).
    { destruct num as [|[|k]]; [cbn in Hi; discriminate|cbn in Hi; congruence|].
      rewrite spaced_map in Hi by lia. cbn [seq map nth_error] in Hi. rewrite place_round_first in Hi by lia. congruence. }
    subst i. cbn in Hx. destruct l; [discriminate|]. cbn in *. congruence.
  - intros H2 i x Hx. destruct (Forall2_nth _ _ _ F i x Hx) as [j [Hj HX]].
    rewrite LEN in *. rewrite spaced_map in Hj by exact H2. rewrite nth_error_map in Hj.
    destruct (nth_error (seq 0 num) i) as [k|] eqn:K; [|discriminate]. cbn in Hj. inversion Hj; subst j.
    assert (k = i).
    { assert (i < num)%nat. { rewrite <- LEN. apply nth_error_Some. congruence. }
      apply (nth_error_nth _ _ 0%nat) in K. rewrite seq_nth in K by assumption. lia. }
    subst k. exact HX.
Qed.
