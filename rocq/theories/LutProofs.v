From Verif Require Import Base RoundQ RoundQFacts QuantModel QuantProofs QuantLemmas SearchModel SearchProofs LutModel.
From Coq Require Import Qround Qpower Qabs Lqa.
Open Scope Q_scope.

Lemma qabs_Qabs x : qabs x == Qabs x.
Proof. unfold qabs. destruct (Qle_bool_spec 0 x); apply Qabs_case; intro; lra. Qed.

Lemma kmeans_assign_lem : forall lut x i, kmeans_assign lut x = Ok i ->
  exists c, nth_error lut i = Some c /\ forall c', In c' lut -> Qabs (x - c) <= Qabs (x - c').
Proof.
  intros lut x i H. unfold kmeans_assign in H. destruct (argmin _) as [[j v]|] eqn:E; [|discriminate].
  cbn [bind] in H. inversion H; subst j; clear H. apply argmin_spec in E. destruct E as [E1 E2].
  apply nth_error_map_inv in E1. destruct E1 as [c [E1 ->]]. exists c. split; [exact E1|].
  intros c' Hc. rewrite <- !qabs_Qabs. apply E2. apply in_map_iff. eauto.
Qed.

Lemma lut_quantizer_lem : forall lut t x y,
  lut_kmeans_quantizer_elem lut t x = Ok y ->
  exists c, In c lut /\ y = inject_Z (round_half_even c) / Qpower 2 7 * t /\
    let s := clip (x / (t + EPS) * Qpower 2 7) (-128#1) (127#1) in
    forall c', In c' lut -> Qabs (s - c) <= Qabs (s - c').
Proof.
  intros lut t x y H. unfold lut_kmeans_quantizer_elem in H.
  destruct (kmeans_assign _ _) as [i|] eqn:E; [|discriminate]. cbn [bind] in H.
  destruct (nth_error lut i) as [c|] eqn:En; [|discriminate]. inversion H; subst y; clear H.
  apply kmeans_assign_lem in E. destruct E as [c' [E1 E2]].
  assert (c' = c) by congruence. subst c'.
  exists c. split; [eapply nth_error_In; exact En|]. split; [reflexivity|]. cbv zeta. exact E2.
Qed.

Lemma lut_quantizer_total_lem : forall lut t x, lut <> [] -> exists y, lut_kmeans_quantizer_elem lut t x = Ok y.
Proof.
  intros lut t x H. unfold lut_kmeans_quantizer_elem, kmeans_assign.
  edestruct (argmin_nonempty (map (fun c => qabs (int_quantization_with_threshold t LUT_VALUES_BITWIDTH true x - c)) lut))
    as [i [v E]].
  { destruct lut; [tauto|discriminate]. }
  rewrite E. cbn [bind]. apply argmin_spec in E. destruct E as [E _]. apply nth_error_map_inv in E.
  destruct E as [c [-> _]]. eauto.
Qed.

(* zero weights stay zero when the LUT has a zero entry *)
Lemma round_zero c : c == 0 -> round_half_even c = 0%Z.
Proof. intro H. rewrite (round_proper c (inject_Z 0)); [apply round_Z|exact H]. Qed.
Lemma lut_zero_lem : forall lut t y, 0 <= t -> (exists c, In c lut /\ c == 0) ->
  lut_kmeans_quantizer_elem lut t 0 = Ok y -> y == 0.
Proof.
  intros lut t y Ht [z [Hz Ez]] H. apply lut_quantizer_lem in H. destruct H as [c [Hc [-> Hn]]]. cbv zeta in Hn.
  specialize (Hn z Hz).
  set (s := clip (0 / (t + EPS) * Qpower 2 7) (-128#1) (127#1)) in *.
  assert (s == 0) as Es.
  { unfold s. assert (0 / (t + EPS) * Qpower 2 7 == 0) as E.
    { field. unfold EPS. lra. }
    unfold clip, Qmin_, Qmax_. qcases; lra. }
  assert (Qabs (s - z) == 0) as E0 by (assert (s - z == 0) as -> by lra; reflexivity).
  rewrite E0 in Hn. assert (c == 0) as Ec.
  { destruct (Qlt_le_dec 0 (Qabs (s - c))) as [L|L]; [lra|].
    pose proof (Qabs_nonneg (s - c)) as N.
    assert (s - c == 0) as E1.
    { revert L. apply Qabs_case; intros; lra. }
    lra. }
  rewrite (round_zero c Ec). unfold inject_Z. field.
Qed.

Lemma set_nth_in {A} (v : A) l : forall i x, In x (set_nth i v l) -> x = v \/ In x l.
Proof.
  induction l as [|y l IH]; intros [|i] x H; cbn in *; auto.
  - destruct H; auto.
  - destruct H as [->|H]; [auto|]. destruct (IH _ _ H); auto.
Qed.
Lemma set_nth_has {A} (v : A) l : forall i x, nth_error l i = Some x -> In v (set_nth i v l).
Proof.
  induction l as [|y l IH]; intros [|i] x H; cbn in *; try discriminate; [left; reflexivity|].
  right. eapply IH; exact H.
Qed.
Lemma set_nth_length {A} (v : A) l : forall i, length (set_nth i v l) = length l.
Proof. induction l as [|y l IH]; intros [|i]; cbn; auto. Qed.

Lemma lut_built_lem : forall n p centres lut,
  lut_kmeans_lut n p centres = Ok lut ->
  (n < 8)%Z /\ In 0 lut /\
  (forall c, In c lut -> exists k, c = inject_Z k) /\
  (forall c, In c lut -> c = 0 \/ exists m, In m centres /\ c = inject_Z (round_half_even m)) /\
  (length lut <= S (length centres))%nat /\ ((2 ^ n <= p)%Z -> length lut = length centres).
Proof.
  intros n p centres lut H. unfold lut_kmeans_lut in H.
  destruct (Z.leb_spec LUT_VALUES_BITWIDTH n) as [L|L]; [discriminate|].
  split; [exact L|]. cbv zeta in H.
  set (cc0 := map _ centres) in H.
  set (cc := if _ && _ then 0 :: cc0 else cc0) in H.
  destruct (argmin (map qabs cc)) as [[i v]|] eqn:E; [|discriminate]. cbn [bind] in H. inversion H; subst lut; clear H.
  apply argmin_spec in E. destruct E as [E _]. apply nth_error_map_inv in E. destruct E as [c0 [E _]].
  assert (forall c, In c cc -> c = 0 \/ exists m, In m centres /\ c = inject_Z (round_half_even m)) as Hcc.
  { intros c Hc. assert (In c cc0 \/ c = 0) as [H|H].
    { unfold cc in Hc. destruct (_ && _); [|auto]. destruct Hc; auto. }
    - right. unfold cc0 in H. apply in_map_iff in H. destruct H as [m [<- Hm]]. eauto.
    - auto. }
  split; [eapply set_nth_has; exact E|]. split; [|split; [|split]].
  - intros c Hc. apply set_nth_in in Hc. destruct Hc as [->|Hc]; [exists 0%Z; reflexivity|].
    destruct (Hcc c Hc) as [->|[m [_ ->]]]; [exists 0%Z; reflexivity|eauto].
  - intros c Hc. apply set_nth_in in Hc. destruct Hc as [->|Hc]; [auto|auto].
  - rewrite set_nth_length. unfold cc, cc0. destruct (_ && _); cbn [length]; rewrite map_length; lia.
  - intro Hp. rewrite set_nth_length. unfold cc, cc0.
    destruct (Z.ltb_spec p (2 ^ n)) as [L2|L2]; [lia|]. cbn [andb]. apply map_length.
Qed.
(* with centres inside the integer range, so is the LUT *)
Lemma lut_range_lem : forall n p centres lut,
  lut_kmeans_lut n p centres = Ok lut -> (forall m, In m centres -> -128#1 <= m <= 127#1) ->
  forall c, In c lut -> exists k, c = inject_Z k /\ (-128 <= k <= 127)%Z.
Proof.
  intros n p centres lut H Hr c Hc. destruct (lut_built_lem _ _ _ _ H) as (_ & _ & _ & H4 & _).
  destruct (H4 c Hc) as [->|[m [Hm ->]]]; [exists 0%Z; split; [reflexivity|lia]|].
  exists (round_half_even m). split; [reflexivity|]. destruct (Hr m Hm).
  split; [apply round_ge | apply round_le]; assumption.
Qed.
Lemma lut_size_lem : forall n p centres lut,
  lut_kmeans_lut n p centres = Ok lut -> Z.of_nat (length centres) = Z.min p (2 ^ n) ->
  (Z.of_nat (length lut) <= 2 ^ n)%Z.
Proof.
  intros n p centres lut H Hl. destruct (lut_built_lem _ _ _ _ H) as (_ & _ & _ & _ & H5 & H6).
  destruct (Z_lt_le_dec p (2 ^ n)) as [L|L]; [lia|]. rewrite (H6 L). lia.
Qed.
