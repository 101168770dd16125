(* SensProps.v -- sensitivity evaluation: images, points and quantizers (properties C23, C53 and C60). *)
From Coq Require Import String Qround Lqa Qabs.
From Verif Require Import Base RoundQ RoundQFacts SDict SensModel SensSpec SensProofs SensQProofs.
Local Open Scope list_scope.
Local Open Scope Z_scope.

(* ==== C53: the images ==== *)

(* Exactly the requested number of images is used, in the order of the source; or all of them, with a
   warning, if the source has fewer.  (With [firstn], "all of them" is the case of a short list.) *)
Theorem images_are_first_requested :
  forall (I : Type) (m : nat) (num : Z) (gen : list (batch I)),
    regular m gen ->
    exists bs warn pulled,
      images_batches num gen = Ok (bs, warn, pulled) /\
      (forall i, (i < m)%nat -> samples i bs = firstn (Z.to_nat num) (samples i gen)) /\
      (warn = true <-> Z.of_nat (length (samples 0 gen)) < num).
Proof.
  intros I m num gen R. destruct (images_loop_spec m num gen 0 R) as [bs [pulled [E [S _]]]].
  exists bs, (Z.ltb (0 + Z.of_nat (length (samples 0 gen))) num), pulled. split; [exact E|]. split.
  - intros i Hi. rewrite (S i Hi), Z.sub_0_r. reflexivity.
  - apply Z.ltb_lt.
Qed.
Print Assumptions images_are_first_requested.

(* The count itself: as many images as requested, or as many as there are. *)
Theorem images_count :
  forall (I : Type) (m : nat) (num : Z) (gen : list (batch I)) bs warn pulled i,
    regular m gen -> (i < m)%nat -> images_batches num gen = Ok (bs, warn, pulled) ->
    Z.of_nat (length (samples i bs)) = Z.max 0 (Z.min num (Z.of_nat (length (samples i gen)))).
Proof.
  intros I m num gen bs warn pulled i R Hi E. destruct (images_are_first_requested I m num gen R) as [bs' [w' [p' [E' [S _]]]]].
  rewrite E in E'. inversion E'; subst. rewrite (S i Hi), firstn_length. lia.
Qed.
Print Assumptions images_count.

(* The batches are those of the source; only the last one may be cut. *)
Theorem images_batches_of_source :
  forall (I : Type) (m : nat) (num : Z) (gen : list (batch I)) bs warn pulled,
    regular m gen -> images_batches num gen = Ok (bs, warn, pulled) ->
    exists k, bs = firstn k gen \/ exists n b0, nth_error gen k = Some b0 /\ bs = firstn k gen ++ [map (firstn n) b0].
Proof.
  intros I m num gen bs warn pulled R E. destruct (images_loop_spec m num gen 0 R) as [bs' [p' [E' [_ [K _]]]]].
  unfold images_batches in E. rewrite E in E'. inversion E'; subst. exact K.
Qed.
Print Assumptions images_batches_of_source.

(* A source that has enough images in its first batches may go on in any way, or forever: the result does not
   change, there is no warning, and at most one batch is requested beyond those used. *)
Theorem images_need_no_more :
  forall (I : Type) (m : nat) (num : Z) (pre rest : list (batch I)),
    regular m pre -> regular m (pre ++ rest) -> num <= Z.of_nat (length (samples 0 pre)) ->
    exists bs p1 p2,
      images_batches num pre = Ok (bs, false, p1) /\ images_batches num (pre ++ rest) = Ok (bs, false, p2) /\
      (p1 <= S (length bs))%nat /\ (p2 <= S (length bs))%nat.
Proof.
  intros I m num pre rest R R' T. destruct (images_loop_spec m num pre 0 R) as [bs [p1 [E [_ [_ L1]]]]].
  destruct (images_loop_prefix m num pre rest 0 bs _ p1 R T E) as [p2 E2].
  destruct (images_loop_spec m num (pre ++ rest) 0 R') as [bs' [p2' [E2' [_ [_ L2]]]]].
  rewrite E2 in E2'. inversion E2'; subst.
  exists bs', p1, p2'. unfold images_batches. rewrite E. repeat split; auto.
  do 3 f_equal. apply Z.ltb_ge. lia.
Qed.
Print Assumptions images_need_no_more.

Definition ex_gen : list (batch nat) := [[[1;2;3];[11;12;13]]; [[4;5;6];[14;15;16]]; [[7];[17]]]%nat.
Example images_nontrivial : regular 2 ex_gen /\
  images_batches 5 ex_gen = Ok ([[[1;2;3];[11;12;13]]; [[4;5];[14;15]]]%nat, false, 3%nat) /\
  images_batches 9 ex_gen = Ok (ex_gen, true, 3%nat) /\ images_batches 7 ex_gen = Ok (ex_gen, false, 3%nat).
Proof.
  split; [|repeat split; reflexivity]. split; [lia|]. intros b H. cbn in H.
  destruct H as [<-|[<-|[<-|[]]]]; (split; [reflexivity|]); [exists 3%nat|exists 3%nat|exists 1%nat];
    intros x [<-|[<-|[]]]; reflexivity.
Qed.

(* ==== C60: the points ==== *)

(* With a factor in [0, 1) exactly floor(factor * number of eligible nodes) of them are kept, in topological
   order and without repetition, evenly spaced up to rounding; the first eligible node is always kept, and the
   last one too if at least two are kept. *)
Theorem points_evenly_spaced :
  forall (N : Type) (l : list N) (factor : Q),
    (0 <= factor)%Q -> (factor < 1)%Q ->
    exists l', bound_interest_points l factor = Ok l' /\
      Z.of_nat (length l') = Qfloor (factor * inject_Z (Z.of_nat (length l))) /\
      subseq l' l /\
      (l' <> [] -> hd_error l' = hd_error l) /\
      ((2 <= length l')%nat -> hd_error (rev l') = hd_error (rev l)) /\
      ((2 <= length l')%nat -> forall i x, nth_error l' i = Some x ->
         exists j, nth_error l j = Some x /\
           (Qabs (inject_Z (Z.of_nat j) - inject_Z (Z.of_nat i) * (inject_Z (Z.of_nat (length l) - 1) / inject_Z (Z.of_nat (length l') - 1)))
              <= 1#2)%Q).
Proof.
  intros N l factor H0 H1. destruct (bound_spec l factor H0 H1) as [l' [E [C [S [F P]]]]].
  exists l'. split; [exact E|]. split; [exact C|]. split; [exact S|]. split; [exact F|].
  assert (LE : (length l' <= length l)%nat) by (clear - S; induction S; cbn; lia).
  split.
  - intro L2.
    assert (NTH : forall l0 : list N, hd_error (rev l0) = nth_error l0 (length l0 - 1)).
    { intro l0. destruct l0 as [|y r]; [reflexivity|].
      destruct (exists_last (l := y :: r) ltac:(discriminate)) as [a [z Z]]. rewrite Z, rev_unit, app_length. cbn [hd_error length].
      rewrite nth_error_app2 by lia. replace (length a + 1 - 1 - length a)%nat with 0%nat by lia. reflexivity. }
    rewrite !NTH. destruct (nth_error l' (length l' - 1)) as [x|] eqn:X; [|apply nth_error_None in X; lia].
    rewrite <- (P L2 _ _ X). rewrite place_round_last by exact L2. f_equal. lia.
  - intros L2 i x Hx. exists (Z.to_nat (round_half_even (place (length l) (length l') i))). split; [apply P; assumption|].
    assert (IN : (i < length l')%nat) by (apply nth_error_Some; congruence).
    assert (R0 : 0 <= round_half_even (place (length l) (length l') i)).
    { destruct i as [|i]; [rewrite place_round_first by exact L2; lia|].
      rewrite <- (place_round_first (length l) (length l') L2). apply Z.lt_le_incl, place_round_mono; lia. }
    rewrite Z2Nat.id by exact R0.
    pose proof (round_error (place (length l) (length l') i)) as RE. apply Qabs_Qle_condition.
    assert (PL : (place (length l) (length l') i == inject_Z (Z.of_nat i) * (inject_Z (Z.of_nat (length l) - 1) / inject_Z (Z.of_nat (length l') - 1)))%Q).
    { unfold place. rewrite inject_Z_mult. field. unfold Qeq. cbn. lia. }
    rewrite <- PL. exact RE.
Qed.
Print Assumptions points_evenly_spaced.

(* Whatever the factor (not negative), the points are eligible nodes in topological order, none of them an output
   node; with factor 1 they are all of those. *)
Theorem points_are_eligible :
  forall (N : Type) (neqb : N -> N -> bool) (classifier : N -> bool) (factor : Q) (sorted outputs : list N),
    (forall x y, neqb x y = true <-> x = y) -> (0 <= factor)%Q ->
    exists pts, interest_points neqb classifier factor sorted outputs = Ok pts /\
      subseq pts sorted /\
      (forall n, In n pts -> classifier n = true /\ ~ In n outputs) /\
      ((1 <= factor)%Q -> forall n, In n sorted -> classifier n = true -> ~ In n outputs -> In n pts).
Proof.
  intros N neqb classifier factor sorted outputs EQ H0.
  assert (B : exists l', bound_interest_points (filter classifier sorted) factor = Ok l' /\ subseq l' (filter classifier sorted) /\
    ((1 <= factor)%Q -> l' = filter classifier sorted)).
  { destruct (Qlt_le_dec factor 1) as [L|L].
    - destruct (bound_spec (filter classifier sorted) factor H0 L) as [l' [E [_ [S _]]]]. exists l'. repeat split; auto.
      intro X. exfalso. lra.
    - exists (filter classifier sorted). split; [|split; [apply subseq_refl|reflexivity]].
      unfold bound_interest_points, Qlt_b. rewrite (proj2 (Qle_bool_iff 1 factor) L). reflexivity. }
  destruct B as [l' [E [S A]]]. unfold interest_points. rewrite E. cbn [bind].
  exists (filter (fun n => negb (existsb (neqb n) outputs)) l'). split; [reflexivity|].
  assert (OUT : forall n, existsb (neqb n) outputs = true <-> In n outputs).
  { intro n. rewrite existsb_exists. split; [intros [x [I X]]; apply EQ in X; congruence|intro I; exists n; split; [exact I|apply EQ; reflexivity]]. }
  split; [|split].
  - apply (subseq_trans _ _ (subseq_filter classifier sorted)). apply (subseq_trans _ _ S). apply subseq_filter.
  - intros n I. apply filter_In in I. destruct I as [I NO]. split.
    + pose proof (subseq_in _ _ _ S I) as J. apply filter_In in J. apply J.
    + intro O. apply OUT in O. rewrite O in NO. discriminate.
  - intros F n I C NO. apply filter_In. split; [rewrite (A F); apply filter_In; auto|].
    destruct (existsb (neqb n) outputs) eqn:X; [|reflexivity]. apply OUT in X. contradiction.
Qed.
Print Assumptions points_are_eligible.

(* The factor is a share of all eligible nodes, output nodes included, so fewer points may remain than the share
   of the nodes that can be points: with a half of two eligible nodes, of which the first is an output of the
   model, no point is left. *)
Theorem points_share_counts_outputs_refuted :
  ~ (forall (sorted outputs : list nat) (factor : Q) pts, (0 <= factor)%Q ->
       interest_points Nat.eqb (fun _ => true) factor sorted outputs = Ok pts ->
       Qfloor (factor * inject_Z (Z.of_nat (length (filter (fun n => negb (existsb (Nat.eqb n) outputs)) sorted)))) <= Z.of_nat (length pts)).
Proof.
  intro H. specialize (H [0;1;2]%nat [0]%nat (1#2)%Q [] ltac:(lra) eq_refl). cbn in H. lia.
Qed.
Print Assumptions points_share_counts_outputs_refuted.

Example points_nontrivial :
  bound_interest_points [0;1;2;3;4;5;6;7;8;9]%nat (1#2) = Ok [0;2;4;7;9]%nat /\
  interest_points Nat.eqb Nat.even (3#4) [0;1;2;3;4;5;6;7;8]%nat [8]%nat = Ok [0;4]%nat.
Proof. split; reflexivity. Qed.

(* ==== C23: the quantizers ==== *)

(* While the metric of a configuration is computed, the first activation and the first weights layer of every
   configured node have the requested candidate and every other quantizer is disabled; afterwards every
   quantizer is disabled again, whether the metric was computed or raised an exception. *)
Theorem evaluation_configures_and_restores :
  forall (V : Type) ord conf (metric : qstate -> result V) s a w,
    set_order ord -> proper conf -> applicable conf a w -> some_value a || some_value w = true -> disabled s ->
    exists s1 s2, compute_metric ord conf metric s a w = (s2, metric s1) /\ stands_for conf a w s1 /\ disabled s2.
Proof. intros. apply compute_metric_spec; assumption. Qed.
Print Assumptions evaluation_configures_and_restores.

(* A configuration is accepted exactly if every entry has a quantization layer that has the candidate, and some
   entry is not None. *)
Theorem evaluation_accepted_iff :
  forall (V : Type) ord conf (metric : qstate -> result V) s a w,
    set_order ord -> proper conf -> NoDup (skeys a) -> NoDup (skeys w) -> disabled s -> (forall s1, is_ok (metric s1) = true) ->
    (is_ok (snd (compute_metric ord conf metric s a w)) = true <->
     applicable conf a w /\ some_value a || some_value w = true).
Proof.
  intros V ord conf metric s a w O P NA NW D M. split.
  - intro H. unfold compute_metric in H. destruct (some_value a || some_value w) eqn:SV; cbn [negb] in H; [|discriminate].
    split; [|reflexivity]. destruct (apply_config ord conf s a w) as [s1 e] eqn:E.
    destruct (apply_config_spec ord conf s a w s1 e O P E) as [I _].
    destruct e as [e|]; [discriminate|]. destruct (proj1 I eq_refl) as [SA SW]. repeat split; assumption.
  - intros [AP SV]. destruct (compute_metric_spec ord conf metric s a w O P AP SV D) as [s1 [s2 [E _]]]. rewrite E. apply M.
Qed.
Print Assumptions evaluation_accepted_iff.

(* In any sequence of evaluations of acceptable or empty configurations, with a metric that may raise, every value
   is the one of its own configuration, whatever was evaluated before and in whatever order Python iterates over
   sets; and all quantizers are disabled at the end. *)
Theorem evaluations_independent :
  forall (V : Type) ord conf (metric : qstate -> result V) s reqs,
    set_order ord -> proper conf -> observes metric -> disabled s ->
    (forall a w, In (a, w) reqs -> applicable conf a w \/ some_value a || some_value w = false) ->
    disabled (fst (evaluations ord conf metric s reqs)) /\
    Forall2 (fun aw v => if some_value (fst aw) || some_value (snd aw)
                         then forall s1, stands_for conf (fst aw) (snd aw) s1 -> v = metric s1
                         else v = Err E_value) reqs (snd (evaluations ord conf metric s reqs)).
Proof. intros. apply evaluations_spec; assumption. Qed.
Print Assumptions evaluations_independent.

(* The model is built with every configurable quantizer disabled. *)
Theorem built_disabled :
  forall conf s, exists s', disable_all conf s = Ok s' /\ forall l, In l (concat (map snd conf)) -> s' (ql_id l) = None.
Proof. intros conf s. destruct (disable_all_spec conf s) as [s' [E [H _]]]. eauto. Qed.
Print Assumptions built_disabled.

Definition dedup (l : list string) : list string := nodup string_dec l.
Lemma dedup_order : set_order dedup.
Proof. intro l. split; [apply NoDup_nodup|]. intro x. apply nodup_In. Qed.

Open Scope string_scope.
Definition ex_conf : list (string * list qlayer) :=
  [("conv", [QL QWt 0 3; QL QAct 1 3]); ("add", [QL QAct 2 2])].
Definition ex_metric : qstate -> result Z := fun s => match s 1%nat with Some i => Ok (10 + i) | None => Err E_value end.

Example evaluation_nontrivial : proper ex_conf /\ observes ex_metric /\
  applicable ex_conf [("conv", Some 2)] [("conv", Some 1)] /\
  snd (evaluations dedup ex_conf ex_metric (fun _ => None)
         [([("conv", Some 2)], [("conv", Some 1)]); ([("add", Some 1)], []); ([("conv", Some 0)], [])])
  = [Ok 12; Err E_value; Ok 10].
Proof.
  split; [|split; [|split]].
  - split; cbn; repeat constructor; cbn; intuition discriminate.
  - intros s s' H. unfold ex_metric. rewrite H. reflexivity.
  - repeat split; try (repeat constructor; cbn; tauto).
    + intros n v G. cbn in G. destruct (String.eqb_spec n "conv") as [->|]; [|discriminate]. inversion G; subst.
      exists [QL QWt 0 3; QL QAct 1 3], (QL QAct 1 3). repeat split.
    + intros n v G. cbn in G. destruct (String.eqb_spec n "conv") as [->|]; [|discriminate]. inversion G; subst.
      exists [QL QWt 0 3; QL QAct 1 3], (QL QWt 0 3). repeat split. cbn. lia.
  - reflexivity.
Qed.

(* A configuration that is rejected while it is applied (here: no layer for the second name) leaves the layers that
   were already set configured, so a later evaluation of a valid configuration sees them. *)
Theorem rejected_configuration_stays_refuted :
  ~ (forall ord conf (metric : qstate -> result Z) a w a' w', set_order ord -> proper conf -> observes metric ->
       applicable conf a' w' -> some_value a' || some_value w' = true ->
       forall s1, stands_for conf a' w' s1 ->
       snd (evaluations ord conf metric (fun _ => None) [(a, w); (a', w')])
       = [snd (compute_metric ord conf metric (fun _ => None) a w); metric s1]).
Proof.
  intro H.
  assert (P : proper ex_conf) by (split; cbn; repeat constructor; cbn; intuition discriminate).
  assert (OB : observes ex_metric) by (intros s s' X; unfold ex_metric; rewrite X; reflexivity).
  assert (AP : applicable ex_conf [("add", Some 1)] []).
  { repeat split; try (repeat constructor; cbn; tauto).
    - intros n v G. cbn in G. destruct (String.eqb_spec n "add") as [->|]; [|discriminate]. inversion G; subst.
      exists [QL QAct 2 2], (QL QAct 2 2). repeat split.
    - intros n v G. discriminate. }
  destruct (compute_metric_spec dedup ex_conf ex_metric (fun _ => None) _ _ dedup_order P AP eq_refl (fun _ => eq_refl)) as [s1 [s2 [E [ST _]]]].
  specialize (H dedup ex_conf ex_metric [("conv", Some 2); ("conw", Some 0)] [] [("add", Some 1)] [] dedup_order P OB AP eq_refl s1 ST).
  pose proof (f_equal snd E) as M. cbn [snd] in M. rewrite <- M in H. vm_compute in H. discriminate.
Qed.
Print Assumptions rejected_configuration_stays_refuted.

(* A node with two activation quantizers (a layer called twice: both holders follow the same wrapper) has only the
   first one set; the second call is evaluated without quantization. *)
Theorem second_quantizer_ignored_refuted :
  ~ (forall ord conf a s s', set_order ord -> proper conf -> apply_config ord conf s a [] = (s', None) ->
       forall n ls l v, sget n conf = Some ls -> In l ls -> ql_kind l = QAct -> sget n a = Some v -> s' (ql_id l) = v).
Proof.
  intro H. set (conf := [("conv", [QL QWt 0 3; QL QAct 1 3; QL QAct 2 3])]).
  assert (P : proper conf) by (split; cbn; repeat constructor; cbn; intuition discriminate).
  specialize (H dedup conf [("conv", Some 1)] (fun _ => None) _ dedup_order P eq_refl "conv" _ (QL QAct 2 3) (Some 1) eq_refl).
  cbn in H. specialize (H ltac:(tauto) eq_refl eq_refl). discriminate.
Qed.
Print Assumptions second_quantizer_ignored_refuted.
