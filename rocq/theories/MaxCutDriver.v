(* MaxCutDriver.v -- the solver and the bisection driver on well-formed model graphs. *)
From Coq Require Import Permutation Lqa.
From Verif Require Import Base RoundQ RoundQFacts MaxCutModel MaxCutSpec MaxCutSearch MaxCutLoop MaxCutProofs.
Open Scope nat_scope.

Lemma sum_incl_le {A} (dec : forall x y : A, {x = y} + {x <> y}) (h : A -> nat) l : NoDup l -> forall l', incl l l' -> sum_nat (map h l) <= sum_nat (map h l').
Proof.
  induction 1 as [|x l Hx ND IH]; intros l' I; [cbn; lia|].
  assert (Hin : In x l') by (apply I; left; auto). apply in_split in Hin. destruct Hin as (a & c & ->).
  assert (sum_nat (map h l) <= sum_nat (map h (a ++ c))).
  { apply IH. intros y Hy. assert (In y (a ++ x :: c)) by (apply I; right; auto). apply in_app_iff in H. apply in_app_iff.
    destruct H as [|[<-|]]; auto. contradiction. }
  rewrite map_app, sum_nat_app in *. cbn [map sum_nat fold_right] in *. unfold sum_nat in *. lia.
Qed.
Lemma pair_eq_dec (x y : nat * nat) : {x = y} + {x <> y}.
Proof. decide equality; apply Nat.eq_dec. Qed.

Section Driver.
Variable g : mgraph.
Hypothesis W : wf_graph g.
Notation sched := (sched g (allops g)).
Notation complete := (complete g (allops g)).

Definition sound_result (res : list nat * nat * list (list (nat * nat))) : Prop :=
  let '(sigma, cost, cuts) := res in
  valid_order g sigma /\ cost = peak g sigma /\ cost = fold_right Nat.max 0 (map (mem g) cuts) /\
  (forall past o future, sigma = past ++ o :: future -> exists c, In c cuts /\ Permutation c (live g past o future)) /\
  (forall c, In c cuts -> c = [] \/ exists past o future, sigma = past ++ o :: future /\ incl c (live g past o future)).

Lemma sched_single : Forall sched [[SrcA]].
Proof. repeat constructor. Qed.
Lemma real_ops_full sigma : real_ops (rev (fullR sigma)) = sigma.
Proof.
  unfold fullR. cbn [rev]. unfold real_ops. rewrite !flat_map_app. fold (real_ops (rev (ordR sigma))). rewrite real_ops_ordR. cbn. rewrite !app_nil_r. reflexivity.
Qed.
Lemma real_tens_app a c : real_tens (a ++ c) = real_tens a ++ real_tens c.
Proof. unfold real_tens. apply flat_map_app. Qed.
Lemma real_tens_filter f a : incl (real_tens (filter f a)) (real_tens a).
Proof. intros [n i] H. rewrite real_tens_in in *. apply filter_In in H. tauto. Qed.

Lemma elems_sub o r : real_tens (op_children (astar_graph g) o) = [] -> incl (real_tens (elemsR g (o :: r))) (real_tens (elemsR g r)).
Proof. intros E. cbn [elemsR]. rewrite real_tens_app, E, app_nil_r. apply real_tens_filter. Qed.
Lemma result_sound r : complete r -> sound_result (result_of g r).
Proof.
  intros C. destruct (complete_fullR g W r C) as (sigma & ->). pose proof (complete_valid g W sigma C) as V.
  unfold result_of. rewrite real_ops_full. cbn [sound_result].
  destruct (facts_ex g W) as (rank & M & F).
  split; [auto|]. split; [apply cost_full; auto|]. split; [symmetry; apply routeR_max|]. split.
  - intros past o future E. exists (real_tens (elemsR g (Op o :: ordR past))). split; [|eapply live_elems; eauto].
    apply in_map_iff. exists (cutR g (Op o :: ordR past)). split; [reflexivity|].
    assert (X : exists s, fullR sigma = s ++ Op o :: ordR past).
    { exists (TgtA2 :: TgtA :: rev (map Op future)). unfold fullR. cbn [app]. do 2 f_equal. rewrite E, <- ordR_snoc.
      unfold ordR. rewrite app_assoc. f_equal. rewrite <- rev_app_distr, <- map_app, <- app_assoc. reflexivity. }
    destruct X as (s & ->). destruct (routeR_app g s (Op o :: ordR past)) as (l & ->). apply in_app_iff. right. left. reflexivity.
  - intros c Hc.
    assert (LastLive : incl (real_tens (elemsR g (ordR sigma))) [] \/ exists past o future, sigma = past ++ o :: future /\ incl (real_tens (elemsR g (ordR sigma))) (live g past o future)).
    { destruct sigma as [|x0 s0] using rev_ind.
      - left. unfold ordR. cbn [map rev app elemsR filter]. rewrite (gf_outsrc _ _ _ _ F). cbn. apply incl_refl.
      - right. exists s0, x0, []. split; auto. rewrite ordR_snoc. intros t Ht. eapply Permutation_in; [|exact Ht]. eapply live_elems; eauto. }
    apply in_map_iff in Hc. destruct Hc as (k & <- & Hk). apply routeR_in in Hk. destruct Hk as (s & o & r' & E & ->). cbn [cutR c_elems].
    unfold fullR in E. destruct s as [|x s]; cbn [app] in E; [|destruct s as [|y s]; cbn [app] in E].
    + assert (o = TgtA2) as -> by congruence. assert (r' = TgtA :: ordR sigma) as -> by congruence.
      assert (I : incl (real_tens (elemsR g (TgtA2 :: TgtA :: ordR sigma))) (real_tens (elemsR g (ordR sigma)))).
      { eapply incl_tran; [apply elems_sub|apply elems_sub]; rewrite ?(gf_outA _ _ _ _ F), ?(gf_outA2 _ _ _ _ F); reflexivity. }
      destruct LastLive as [L|(p & o & f & E' & L)]; [left|right].
      * destruct (real_tens (elemsR g (TgtA2 :: TgtA :: ordR sigma))) as [|t l]; auto. exfalso. eapply (L t). apply I. left; auto.
      * exists p, o, f. split; auto. eapply incl_tran; eauto.
    + assert (o = TgtA) as -> by congruence. assert (r' = ordR sigma) as -> by congruence.
      assert (I : incl (real_tens (elemsR g (TgtA :: ordR sigma))) (real_tens (elemsR g (ordR sigma)))).
      { apply elems_sub. rewrite (gf_outA _ _ _ _ F). reflexivity. }
      destruct LastLive as [L|(p & o & f & E' & L)]; [left|right].
      * destruct (real_tens (elemsR g (TgtA :: ordR sigma))) as [|t l]; auto. exfalso. eapply (L t). apply I. left; auto.
      * exists p, o, f. split; auto. eapply incl_tran; eauto.
    + assert (E' : ordR sigma = s ++ o :: r') by congruence. clear E.
      assert (X : o = SrcA /\ r' = [] \/ exists past n future, sigma = past ++ n :: future /\ o = Op n /\ r' = ordR past).
      { clear - E'. revert s o r' E'. induction sigma as [|x sg IH] using rev_ind; intros s o r' E.
        - unfold ordR in E. cbn in E. destruct s as [|? s]; [inversion E; auto|]. cbn in E. inversion E. destruct s; discriminate.
        - rewrite ordR_snoc in E. destruct s as [|y s].
          + cbn in E. inversion E; subst. right. exists sg, x, []. auto.
          + cbn in E. inversion E; subst. destruct (IH _ _ _ H1) as [H|(p & n & f & -> & -> & ->)]; auto.
            right. exists p, n, (f ++ [x]). rewrite <- app_assoc. auto. }
      destruct X as [[-> ->]|(p & n & f & Es & -> & ->)].
      * left. cbn [elemsR filter app]. rewrite (gf_outsrc _ _ _ _ F). reflexivity.
      * right. exists p, n, f. split; auto. intros t Ht. eapply Permutation_in; [|exact Ht]. eapply live_elems; eauto.
Qed.

Lemma solve_sound_opt pick est limit res : solve g pick est limit = Some res ->
  sound_result res /\ forall tau, valid_order g tau -> (natq (snd (fst res)) <= Qmax_ est (natq (peak g tau)))%Q.
Proof.
  intros H. destruct (facts_ex g W) as (rank & M & F). unfold solve in H. rewrite (src_entry g (allops g) rank M F) in H.
  destruct (loop_sound g (allops g) rank M F (kids_nodup g W) pick est limit [[SrcA]] res sched_single H) as (r & C & -> & O).
  split; [apply result_sound; auto|]. intros tau V. cbn [result_of snd fst].
  specialize (O (good_init g (allops g) est) (fullR tau) (valid_complete g W tau V)). rewrite (cost_full g W tau V) in O. exact O.
Qed.
Lemma solve_total_lem pick est limit : (length (g_ops g) + 5) ^ (length (g_ops g) + 3) < limit -> exists res, solve g pick est limit = Some res.
Proof.
  intros H. destruct (facts_ex g W) as (rank & M & F). unfold solve. rewrite (src_entry g (allops g) rank M F).
  apply (loop_total g (allops g) rank M F (kids_nodup g W) pick est limit [[SrcA]] sched_single); [discriminate|].
  cbn [weight length]. unfold K. rewrite allops_length.
  replace (length (g_ops g) + 3 + 2) with (length (g_ops g) + 5) by lia. replace (length (g_ops g) + 3 + 1 - 1) with (length (g_ops g) + 3) by lia. lia.
Qed.
Lemma cost_total r : sched r -> costR g r <= total_memory g.
Proof.
  intros S. destruct (facts_ex g W) as (rank & M & F). induction r as [|o r IH]; [inversion S|]. cbn [costR]. apply Nat.max_lub.
  - destruct r as [|p r]; [cbn; lia|]. apply IH. eapply sched_tail; eauto. discriminate.
  - unfold memR. rewrite mem_real_tens. unfold mem, total_memory. apply (sum_incl_le pair_eq_dec).
    + apply real_tens_nodup. eapply elems_nodup; eauto.
    + intros [n i] H. apply real_tens_in in H. rewrite (elems_cons g (allops g)) in H by auto.
      apply tensors_in. destruct H as [H|(p & _ & H & _)]; apply op_children_in, ab_in in H;
      destruct H as [(n' & i' & _ & E & H)|[[_ E]|[[_ E]|[_ E]]]]; try discriminate; inversion E; subst; auto.
Qed.
Lemma solve_dive pick est limit : (natq (total_memory g) <= est)%Q -> length (g_ops g) + 3 <= limit -> exists res, solve g pick est limit = Some res.
Proof.
  intros He H. destruct (facts_ex g W) as (rank & M & F). unfold solve. rewrite (src_entry g (allops g) rank M F).
  apply (loop_dive g (allops g) rank M F (kids_nodup g W) pick est limit) with (rs := [[SrcA]]) (r0 := [SrcA]).
  - intros r S. eapply Qle_trans; [|exact He]. apply natq_le, cost_total; auto.
  - apply sched_single.
  - left; auto.
  - cbn [length]. rewrite allops_length. lia.
Qed.
Lemma solve_limit pick est limit : limit <= length (g_ops g) + 2 -> solve g pick est limit = None.
Proof.
  intros H. destruct (facts_ex g W) as (rank & M & F). unfold solve. rewrite (src_entry g (allops g) rank M F).
  apply (loop_limit g (allops g) rank M F (kids_nodup g W) pick est limit 1) with (rs := [[SrcA]]).
  - rewrite allops_length. lia.
  - apply sched_single.
  - repeat constructor.
Qed.
Lemma order_exists : exists sigma, valid_order g sigma.
Proof.
  destruct (solve_total_lem (fun _ => 0) 0%Q (1 + (length (g_ops g) + 5) ^ (length (g_ops g) + 3))) as ([[s c] k] & E); [lia|].
  apply solve_sound_opt in E. destruct E as [[V _] _]. eauto.
Qed.

(* the single-operation bound *)
Lemma step_le_peak sigma past o future : sigma = past ++ o :: future -> mem g (live g past o future) <= peak g sigma.
Proof.
  unfold peak. assert (H : forall pre past, mem g (live g (pre ++ past) o future) <= peak_from g pre (past ++ o :: future)).
  { intros pre past0. revert pre. induction past0 as [|x p IH]; intros pre; cbn [app peak_from].
    - rewrite app_nil_r. lia.
    - specialize (IH (pre ++ [x])). rewrite <- app_assoc in IH. cbn [app] in IH. lia. }
  intros ->. apply (H [] past).
Qed.
Lemma lbound_valid sigma : valid_order g sigma -> lbound_single_op g <= peak g sigma.
Proof.
  intros V. unfold lbound_single_op. destruct (g_ops g) as [|n0 l0] eqn:Eo; [destruct (W_ne g W); auto|]. rewrite <- Eo. clear n0 l0 Eo.
  assert (B : forall l, (forall x, In x l -> x <= peak g sigma) -> fold_right Nat.max 0 l <= peak g sigma).
  { induction l as [|x l IH]; cbn; intros H; [lia|]. apply Nat.max_lub; auto. }
  apply B. intros x Hx. apply in_map_iff in Hx. destruct Hx as (n & <- & Hn).
  destruct V as [P V]. assert (Hs : In n sigma) by (eapply Permutation_in; [symmetry; eauto|auto]).
  assert (ND : NoDup sigma) by (eapply Permutation_NoDup; [symmetry; eauto|apply W_nodup; auto]).
  apply in_split in Hs. destruct Hs as (past & future & E).
  eapply Nat.le_trans; [|eapply step_le_peak; eauto].
  rewrite <- sum_nat_app, <- map_app, mem_real_tens. apply (sum_incl_le pair_eq_dec).
  - apply real_tens_nodup. apply NoDup_app'.
    + apply op_children_nodup. cbn [memory_graph b_ab]. apply map_inj_nodup; [|apply tensors_nodup; auto]. intros [? ?] [? ?] E'; cbn in E'; congruence.
    + apply op_parents_nodup. cbn [memory_graph b_ba]. apply NoDup_nodup.
    + intros t A C. apply op_children_in in A. cbn [memory_graph b_ab] in A. apply in_map_iff in A. destruct A as ([m i] & Em & _). cbn in Em. inversion Em; subst m t.
      apply op_parents_in, (ba0_in g W) in C. destruct C as (n' & i' & d & E1 & E2 & C). inversion E1; inversion E2; subst n' i' d.
      destruct W as (_ & _ & _ & _ & rk & Hr). apply Hr in C. lia.
  - intros [m i] H. apply real_tens_in, in_app_iff in H. unfold live. apply in_app_iff. destruct H as [H|H].
    + right. apply op_children_in in H. cbn [memory_graph b_ab] in H. apply in_map_iff in H. destruct H as ([m' i'] & Em & H). cbn in Em. inversion Em; subst.
      apply tensors_in in H. apply outputs_in. tauto.
    + left. apply op_parents_in, (ba0_in g W) in H. destruct H as (n' & i' & d & E1 & E2 & H). inversion E1; inversion E2; subst n' i' d.
      apply filter_In. split.
      * apply flat_outputs_in. split; [|apply W_edge in H; tauto]. subst sigma. eapply before_past; [exact ND|]. eapply V; eauto.
      * apply needed_iff. right. exists n. cbn. auto.
Qed.

(* ---- the driver ---- *)
Variable pick : nat -> list entry -> nat.
Variable tmo : nat -> bool.
Variable limit : nat.
Variable eps : Q.
Notation drv := (driver g pick tmo limit eps).

Definition ok_last (s : solution) : Prop := match s with None => True | Some r => sound_result r end.
Lemma driver_sound n : forall it l u last s, ok_last last -> drv n it l u last = Ok s -> ok_last s.
Proof.
  induction n as [|n IH]; intros it l u last s Hl H; cbn [driver] in H; [inversion H; subst; auto|].
  destruct (negb (Nat.eqb it 0) && tmo it).
  - destruct last; inversion H; subst; auto.
  - destruct (solve g (pick it) ((u + l) / 2) limit) as [r|] eqn:E; [|eapply IH; eauto].
    apply solve_sound_opt in E. destruct E as [E _].
    destruct (Qle_bool _ _); [inversion H; subst; auto|]. eapply IH; [|exact H]. auto.
Qed.
Lemma driver_some n : forall it l u r, exists r', drv n it l u (Some r) = Ok (Some r').
Proof.
  induction n as [|n IH]; intros it l u r; cbn [driver]; [eauto|].
  destruct (negb (Nat.eqb it 0) && tmo it); [eauto|].
  destruct (solve g (pick it) ((u + l) / 2) limit) as [r1|]; auto. destruct (Qle_bool _ _); eauto.
Qed.
Lemma first_estimate : (((natq (2 * total_memory g) - natq (lbound_single_op g)) + natq (lbound_single_op g)) / 2 == natq (total_memory g))%Q.
Proof.
  unfold natq. rewrite Nat2Z.inj_mul, inject_Z_mult. change (inject_Z (Z.of_nat 2)) with 2%Q. field.
Qed.
Lemma max_cut_returns n : 1 <= n -> length (g_ops g) + 3 <= limit -> exists r, max_cut g pick tmo n limit eps = Ok (Some r).
Proof.
  intros Hn Hl. destruct n as [|n]; [lia|]. unfold max_cut. cbn [driver Nat.eqb negb andb].
  destruct (solve_dive (pick 0) ((natq (2 * total_memory g) - natq (lbound_single_op g) + natq (lbound_single_op g)) / 2) limit) as (r & E); auto.
  { rewrite first_estimate. apply Qle_refl. }
  rewrite E. destruct (Qle_bool _ _); eauto. apply driver_some.
Qed.
Lemma max_cut_large n : limit <= length (g_ops g) + 2 -> (forall it, tmo it = false) -> max_cut g pick tmo n limit eps = Ok None.
Proof.
  intros Hl Ht. unfold max_cut. assert (H : forall it l u, drv n it l u None = Ok None); [|apply H].
  induction n as [|n IH]; intros it l u; cbn [driver]; auto. rewrite Ht, andb_false_r. rewrite solve_limit by auto. apply IH.
Qed.

Lemma driver_opt tau n : valid_order g tau -> (0 <= eps)%Q -> (forall it, tmo it = false) ->
  (forall it est, exists r, solve g (pick it) est limit = Some r) ->
  forall it l u last r, (0 <= l)%Q -> (l <= natq (peak g tau))%Q ->
  (forall r0, last = Some r0 -> natq (snd (fst r0)) <= u \/ natq (snd (fst r0)) <= natq (peak g tau))%Q ->
  drv n it l u last = Ok (Some r) ->
  (natq (snd (fst r)) <= (1 + eps) * natq (peak g tau) \/ natq (snd (fst r)) - l <= (u - l) / inject_Z (2 ^ Z.of_nat n))%Q.
Proof.
  intros V He Ht Hs. induction n as [|n IH]; intros it l u last r Hl Hlp HI H; cbn [driver] in H.
  - inversion H; subst. change (inject_Z (2 ^ Z.of_nat 0)) with 1%Q.
    assert (X : (0 <= natq (peak g tau))%Q) by lra.
    destruct (HI r eq_refl) as [A|A].
    + right. assert (((u - l) / 1 == u - l)%Q) as -> by field. lra.
    + left. assert ((0 <= eps * natq (peak g tau))%Q) by (apply Qmult_le_0_compat; auto). lra.
  - rewrite Ht, andb_false_r in H. destruct (Hs it ((u + l) / 2)%Q) as (r1 & E). rewrite E in H.
    apply solve_sound_opt in E. destruct E as [_ O]. specialize (O tau V).
    set (c := natq (snd (fst r1))) in *. set (P := natq (peak g tau)) in *. set (e := ((u + l) / 2)%Q) in *.
    assert (Ee : (e - l == (u - l) / 2)%Q) by (unfold e; field).
    assert (D : (c <= e \/ c <= P)%Q) by (destruct (Qmax_case e P) as [X|X]; rewrite X in O; auto).
    destruct (Qle_bool (Qmin_ e c) (l * (1 + eps))) eqn:Q.
    + inversion H; subst r. apply Qle_bool_iff in Q. left. fold c.
      assert (HP : ((1 + eps) * P == P + eps * P)%Q) by ring.
      assert ((0 <= eps * P)%Q) by (apply Qmult_le_0_compat; auto; lra).
      destruct (Qlt_le_dec e c) as [L|L].
      * destruct D as [D|D]; lra.
      * assert ((c <= Qmin_ e c)%Q) by (destruct (Qmin_case e c) as [X|X]; rewrite X; lra).
        assert ((l * (1 + eps) <= P * (1 + eps))%Q) by (apply Qmult_le_compat_r; lra). lra.
    + apply IH in H; auto.
      * destruct H as [H|H]; auto. right. eapply Qle_trans; [exact H|].
        assert (Hm : (Qmin_ e c <= e)%Q) by apply Qmin_lb_l.
        rewrite Nat2Z.inj_succ, Z.pow_succ_r, inject_Z_mult by lia.
        assert (Hp : (0 < inject_Z (2 ^ Z.of_nat n))%Q). { change 0%Q with (inject_Z 0). rewrite <- Zlt_Qlt. apply Z.pow_pos_nonneg; lia. }
        set (q := inject_Z (2 ^ Z.of_nat n)) in *.
        assert (((u - l) / (inject_Z 2 * q) == ((u - l) / 2) / q)%Q) as ->.
        { change (inject_Z 2) with 2%Q. field. intros X. rewrite X in Hp. apply (Qlt_irrefl 0). exact Hp. }
        unfold Qdiv at 1 2. apply Qmult_le_compat_r; [lra|]. apply Qlt_le_weak, Qinv_lt_0_compat; auto.
      * intros r0 Hr0. inversion Hr0; subst. fold c. destruct D as [D|D]; auto.
        left. destruct (Qmin_case e c) as [X|X]; rewrite X; lra.
Qed.
End Driver.
