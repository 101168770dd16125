(* SchedProofs.v -- C88: the schedule lowers the rate exactly when the losses have stalled. *)
From Verif Require Import Base SchedModel SchedSpec.
From Coq Require Import Lia Lqa Qpower.
Open Scope Q_scope.

Lemma Qlt_neg x y : negb (Qle_bool x y) = true <-> y < x.
Proof. rewrite Bool.negb_true_iff. destruct (Qle_bool x y) eqn:E; [apply Qle_bool_iff in E|]; split; try congruence; try lra.
  intros _. destruct (Qlt_le_dec y x) as [H|H]; [exact H|]. apply Qle_bool_iff in H. congruence. Qed.
Lemma is_better_spec a x b : is_better a x b = true <-> improves a x b.
Proof.
  unfold is_better, improves. destruct b as [b|]; [|tauto]. destruct (s_mode a), (s_tmode a); rewrite Qlt_neg; try tauto.
  rewrite (Qplus_comm 1). tauto.
Qed.
Lemma improves_dec a x b : {improves a x b} + {~ improves a x b}.
Proof. destruct (is_better a x b) eqn:E; [left; apply is_better_spec; exact E|right; rewrite <- is_better_spec; congruence]. Qed.

Lemma best_of_snoc a l x c : best_of a (l ++ [x]) c -> exists b, best_of a l b /\ ((improves a x b /\ c = Some x) \/ (~ improves a x b /\ c = b)).
Proof.
  intro H. remember (l ++ [x]) as m eqn:E. destruct H as [|l' b y B I|l' b y B I].
  - destruct l; discriminate.
  - apply app_inj_tail in E. destruct E as [-> ->]. eauto.
  - apply app_inj_tail in E. destruct E as [-> ->]. eauto.
Qed.
Lemma best_of_nil a c : best_of a [] c -> c = None.
Proof. intro H. remember [] as m eqn:E. destruct H as [|l' b y B I|l' b y B I]; [reflexivity|destruct l'; discriminate|destruct l'; discriminate]. Qed.
Lemma best_of_det a l : forall b c, best_of a l b -> best_of a l c -> b = c.
Proof.
  induction l as [|x l IH] using rev_ind; intros b c H K; [apply best_of_nil in H; apply best_of_nil in K; congruence|].
  apply best_of_snoc in H. apply best_of_snoc in K. destruct H as (b0 & B & H), K as (c0 & C & K). pose proof (IH _ _ B C). subst c0.
  destruct H as [[? ->]|[? ->]], K as [[? ->]|[? ->]]; tauto || reflexivity.
Qed.
Lemma best_of_ex a l : exists b, best_of a l b.
Proof.
  induction l as [|x l [b B]] using rev_ind; [exists None; constructor|]. destruct (improves_dec a x b); [exists (Some x); econstructor; eauto|exists b; constructor; auto].
Qed.
Lemma best_of_app a pre l b : best_of a pre b -> Forall (fun x => ~ improves a x b) l -> best_of a (pre ++ l) b.
Proof.
  intros B. induction l as [|x l IH] using rev_ind; intro F; [rewrite app_nil_r; exact B|].
  apply Forall_app in F. destruct F as [F1 F2]. inversion F2; subst. rewrite app_assoc. apply best_old; auto.
Qed.

(* the state between two reductions: l are the losses since the last one *)
Record inv a w l (s : sstate) : Prop := {
  inv_best : best_of a l (st_best s);
  inv_cool : st_cool s = (w - length l)%nat;
  inv_small : (st_bad s <= s_patience a)%nat;
  inv_run : exists pre suf, l = pre ++ suf /\ length suf = st_bad s /\ (w <= length pre \/ suf = [])%nat /\ best_of a pre (st_best s) /\ Forall (fun x => ~ improves a x (st_best s)) suf;
  inv_max : forall pre suf b, l = pre ++ suf -> (w <= length pre)%nat -> best_of a pre b -> Forall (fun x => ~ improves a x b) suf -> (length suf <= st_bad s)%nat
}.
Lemma inv_start a w rates : inv a w [] (SState None 0 w rates).
Proof.
  constructor; cbn; [constructor|lia|lia| |].
  - exists [], []. repeat split; auto; constructor.
  - intros pre suf b E _ _ _. destruct pre, suf; try discriminate. cbn. lia.
Qed.

Section Step.
  Variables (a : sargs) (fl : list Q) (w : nat) (l : list Q) (s : sstate) (x : Q).
  Hypothesis I : inv a w l s.
  Definition bad' : nat := if Nat.ltb 0 (st_cool s) then 0%nat else if is_better a x (st_best s) then 0%nat else S (st_bad s).
  Definition best' : option Q := if is_better a x (st_best s) then Some x else st_best s.
  Lemma snoc_split (pre suf : list Q) : l ++ [x] = pre ++ suf -> (suf = [] /\ pre = l ++ [x]) \/ exists suf0, suf = suf0 ++ [x] /\ l = pre ++ suf0.
  Proof.
    destruct suf as [|y suf0 _] using rev_ind; [rewrite app_nil_r; left; auto|]. rewrite app_assoc. intro E.
    apply app_inj_tail in E. destruct E as [-> ->]. right. eauto.
  Qed.
  Lemma step_best : best_of a (l ++ [x]) best'.
  Proof.
    unfold best'. destruct (is_better a x (st_best s)) eqn:E.
    - apply best_new with (st_best s); [apply (inv_best _ _ _ _ I)|apply is_better_spec; exact E].
    - apply best_old; [apply (inv_best _ _ _ _ I)|rewrite <- is_better_spec; congruence].
  Qed.
  Lemma step_run : exists pre suf, l ++ [x] = pre ++ suf /\ length suf = bad' /\ (w <= length pre \/ suf = [])%nat /\ best_of a pre best' /\ Forall (fun y => ~ improves a y best') suf.
  Proof.
    pose proof step_best as SB. unfold bad'. destruct (Nat.ltb_spec 0 (st_cool s)) as [C|C].
    { exists (l ++ [x]), []. rewrite app_nil_r. repeat split; auto. }
    unfold best' in *. destruct (is_better a x (st_best s)) eqn:E.
    { exists (l ++ [x]), []. rewrite app_nil_r. repeat split; auto. }
    destruct (inv_run _ _ _ _ I) as (pre & suf & El & Es & W & B & F). exists pre, (suf ++ [x]). rewrite El, app_assoc.
    rewrite app_length. cbn. repeat split; try tauto; try lia.
    - left. destruct W as [W|W]; [exact W|]. subst suf. rewrite app_nil_r in El. subst pre. pose proof (inv_cool _ _ _ _ I). lia.
    - apply Forall_app. split; [exact F|]. constructor; [|constructor]. rewrite <- is_better_spec. congruence.
  Qed.
  Lemma step_max pre suf b : l ++ [x] = pre ++ suf -> (w <= length pre)%nat -> best_of a pre b -> Forall (fun y => ~ improves a y b) suf -> (length suf <= bad')%nat.
  Proof.
    intros E W B F. destruct (snoc_split pre suf E) as [[-> _]|(suf0 & -> & El)]; [cbn; lia|].
    apply Forall_app in F. destruct F as [F1 F2]. pose proof (Forall_inv F2) as N. cbn beta in N.
    assert (best_of a l b) as BL by (rewrite El; apply best_of_app; assumption).
    pose proof (best_of_det _ _ _ _ BL (inv_best _ _ _ _ I)). subst b.
    unfold bad'. rewrite app_length. cbn [length]. destruct (Nat.ltb_spec 0 (st_cool s)) as [C|C].
    - pose proof (inv_cool _ _ _ _ I). rewrite El, app_length in H. lia.
    - destruct (is_better a x (st_best s)) eqn:G; [apply is_better_spec in G; tauto|].
      pose proof (inv_max _ _ _ _ I pre suf0 (st_best s) El W B F1). lia.
  Qed.
  Lemma step_stalled : Nat.ltb (s_patience a) bad' = true <-> stalled a w (l ++ [x]).
  Proof.
    rewrite Nat.ltb_lt. split.
    - intro P. destruct step_run as (pre & suf & E & Ls & W & B & F). exists pre, suf, best'.
      assert (length suf = S (s_patience a)) as L by (pose proof (inv_small _ _ _ _ I); unfold bad' in *; destruct (Nat.ltb 0 (st_cool s)), (is_better a x (st_best s)); lia).
      repeat split; auto. destruct W as [W|W]; [exact W|]. subst suf. discriminate.
    - intros (pre & suf & b & E & L & W & B & F). pose proof (step_max pre suf b E W B F). lia.
  Qed.
  Lemma step_eq : sched_step a fl s x = if Nat.ltb (s_patience a) bad' then SState None 0 (s_cooldown a) (reduce_lr a fl (st_rates s))
     else SState best' bad' (w - length (l ++ [x])) (st_rates s).
  Proof.
    unfold sched_step, bad', best'. rewrite app_length. cbn [length]. rewrite (inv_cool _ _ _ _ I).
    destruct (Nat.ltb_spec 0 (w - length l)) as [C|C]; [|destruct (is_better a x (st_best s))];
      (destruct (Nat.ltb (s_patience a) _); [reflexivity|f_equal; lia]).
  Qed.
  Lemma step_inv : ~ stalled a w (l ++ [x]) -> inv a w (l ++ [x]) (sched_step a fl s x) /\ st_rates (sched_step a fl s x) = st_rates s.
  Proof.
    intro N. rewrite step_eq. destruct (Nat.ltb (s_patience a) bad') eqn:P; [apply step_stalled in P; tauto|].
    split; [|reflexivity]. apply Nat.ltb_ge in P. constructor; cbn; [apply step_best|reflexivity|exact P|apply step_run|].
    intros; eapply step_max; eauto.
  Qed.
  Lemma step_reduce : stalled a w (l ++ [x]) -> sched_step a fl s x = SState None 0 (s_cooldown a) (reduce_lr a fl (st_rates s)).
  Proof. intro S. apply step_stalled in S. rewrite step_eq, S. reflexivity. Qed.
End Step.

Lemma run_quiet a fl w l : forall s done, inv a w done s -> (forall p q, l = p ++ q -> p <> [] -> ~ stalled a w (done ++ p)) ->
  inv a w (done ++ l) (fold_left (sched_step a fl) l s) /\ st_rates (fold_left (sched_step a fl) l s) = st_rates s.
Proof.
  induction l as [|x l IH]; intros s done I N; cbn; [rewrite app_nil_r; auto|].
  assert (~ stalled a w (done ++ [x])) as Nx by (apply N with l; [reflexivity|discriminate]).
  destruct (step_inv a fl w done s x I Nx) as [I1 R1].
  destruct (IH (sched_step a fl s x) (done ++ [x]) I1) as [I2 R2].
  { intros p q E Np. rewrite <- app_assoc. apply N with q; [cbn; f_equal; exact E|discriminate]. }
  rewrite <- app_assoc in I2. split; [exact I2|congruence].
Qed.
Lemma stalled_nonempty a w l : stalled a w l -> l <> [].
Proof. intros (p & q & b & -> & L & _). destruct q; [discriminate|]. destruct p; discriminate. Qed.
Lemma run_segment a fl w seg rates : just_stalled a w seg ->
  fold_left (sched_step a fl) seg (SState None 0 w rates) = SState None 0 (s_cooldown a) (reduce_lr a fl rates).
Proof.
  intros [S N]. destruct seg as [|x l _] using rev_ind; [exfalso; exact (stalled_nonempty _ _ _ S eq_refl)|].
  rewrite fold_left_app. cbn [fold_left].
  destruct (run_quiet a fl w l (SState None 0 w rates) [] (inv_start a w rates)) as [I R].
  { intros p q -> Np. cbn. apply N with (q ++ [x]); [rewrite app_assoc; reflexivity|destruct q; discriminate]. }
  cbn [app] in I. rewrite (step_reduce a fl w l _ x I S), R. reflexivity.
Qed.
Lemma iter_S {A} (f : A -> A) k x : Nat.iter (S k) f x = f (Nat.iter k f x).
Proof. reflexivity. Qed.
Lemma iter_succ_r {A} (f : A -> A) k x : Nat.iter (S k) f x = Nat.iter k f (f x).
Proof. induction k as [|k IH]; [reflexivity|]. change (f (Nat.iter (S k) f x) = f (Nat.iter k f (f x))). f_equal. exact IH. Qed.
Lemma run_cut a fl w l k : cut a w l k -> forall rates,
  st_rates (fold_left (sched_step a fl) l (SState None 0 w rates)) = Nat.iter k (reduce_lr a fl) rates.
Proof.
  intro C. induction C as [w l N|w seg l k J C IH]; intro rates.
  - destruct (run_quiet a fl w l (SState None 0 w rates) [] (inv_start a w rates)) as [_ R]; [|exact R].
    intros p q E _. cbn. apply N with q. exact E.
  - rewrite fold_left_app, (run_segment a fl w seg rates J), IH. symmetry. apply iter_succ_r.
Qed.
(* such a cut always exists *)
Lemma cut_exists_aux a (fl : list Q) l : forall w done s, inv a w done s -> (forall p q, done = p ++ q -> ~ stalled a w p) -> exists k, cut a w (done ++ l) k.
Proof.
  induction l as [|x l IH]; intros w done s I N.
  - rewrite app_nil_r. exists 0%nat. constructor. exact N.
  - destruct (Nat.ltb (s_patience a) (bad' a s x)) eqn:P.
    + pose proof (proj1 (step_stalled a w done s x I) P) as S.
      destruct (IH (s_cooldown a) [] (SState None 0 (s_cooldown a) []) (inv_start a _ [])) as [k C].
      { intros p q E. destruct p; [|discriminate]. intro S0. exact (stalled_nonempty _ _ _ S0 eq_refl). }
      exists (Datatypes.S k). replace (done ++ x :: l) with ((done ++ [x]) ++ l) by (rewrite <- app_assoc; reflexivity).
      apply cut_more; [|exact C]. split; [exact S|]. intros p q E Nq. destruct q as [|y q0 _] using rev_ind; [congruence|].
      rewrite app_assoc in E. apply app_inj_tail in E. destruct E as [E _]. apply N with q0. exact E.
    + assert (~ stalled a w (done ++ [x])) as Nx by (rewrite <- (step_stalled a w done s x I); congruence).
      destruct (step_inv a fl w done s x I Nx) as [I1 _].
      destruct (IH w (done ++ [x]) _ I1) as [k C].
      { intros p q E. destruct q as [|y q0 _] using rev_ind; [rewrite app_nil_r in E; subst p; exact Nx|].
        rewrite app_assoc in E. apply app_inj_tail in E. destruct E as [E _]. apply N with q0. exact E. }
      exists k. rewrite <- app_assoc in C. exact C.
Qed.
Lemma cut_exists a l w : exists k, cut a w l k.
Proof.
  destruct (cut_exists_aux a [] l w [] _ (inv_start a w [])) as [k C]; [|exists k; exact C].
  intros p q E S. destruct p; [exact (stalled_nonempty _ _ _ S eq_refl)|discriminate].
Qed.
Lemma cut_length a w l k : cut a w l k -> (k * S (s_patience a) + (k - 1) * s_cooldown a <= length l)%nat /\ (0 < k -> w + k * S (s_patience a) + (k - 1) * s_cooldown a <= length l)%nat.
Proof.
  induction 1 as [w l N|w seg l k [S _] C [IH1 IH2]]; [cbn; lia|].
  destruct S as (p & q & b & -> & L & W & _). rewrite !app_length. destruct k as [|k]; [cbn; lia|]. specialize (IH2 ltac:(lia)). cbn [Nat.sub] in *. rewrite Nat.sub_0_r in *. nia.
Qed.

Definition iter_lower a f k r := Nat.iter k (lower a f) r.
Lemma reduce_nth a : forall fl rates i, length fl = length rates -> nth i (reduce_lr a fl rates) 0 = if Nat.ltb i (length rates) then lower a (nth i fl 0) (nth i rates 0) else 0.
Proof.
  induction fl as [|f fl IH]; intros [|r rates] i L; cbn in *; try discriminate; [destruct i; reflexivity|].
  injection L as L. destruct i; cbn; [reflexivity|]. rewrite (IH rates i L). reflexivity.
Qed.
Lemma reduce_length a : forall fl rates, length (reduce_lr a fl rates) = length rates.
Proof. induction fl; intros [|r rates]; cbn; auto. Qed.
Lemma iter_reduce_length a fl k rates : length (Nat.iter k (reduce_lr a fl) rates) = length rates.
Proof. induction k; [reflexivity|]. rewrite iter_S, reduce_length. exact IHk. Qed.
Lemma iter_reduce_nth a fl rates i k : length fl = length rates -> (i < length rates)%nat ->
  nth i (Nat.iter k (reduce_lr a fl) rates) 0 = iter_lower a (nth i fl 0) k (nth i rates 0).
Proof.
  intros L Hi. induction k; [reflexivity|]. unfold iter_lower in *. rewrite !iter_S. rewrite reduce_nth by (rewrite iter_reduce_length; exact L).
  rewrite iter_reduce_length. replace (Nat.ltb i (length rates)) with true by (symmetry; apply Nat.ltb_lt; exact Hi).
  rewrite <- IHk. reflexivity.
Qed.
Lemma floors_spec a n fl : floors a n = Ok fl -> length fl = n.
Proof. unfold floors. destruct (s_floor a) as [q|l]; [intro E; injection E as <-; apply repeat_length|]. destruct (Nat.eqb_spec (length l) n); congruence. Qed.

Lemma lower_le a f r : 0 <= s_eps a -> lower a f r <= r.
Proof.
  intro E. unfold lower. set (new := if Qle_bool (r * s_factor a) f then f else r * s_factor a).
  destruct (Qle_bool (r - new) (s_eps a)) eqn:B; [lra|].
  assert (s_eps a < r - new) by (destruct (Qlt_le_dec (s_eps a) (r - new)) as [H|H]; [exact H|apply Qle_bool_iff in H; congruence]). lra.
Qed.
Lemma lower_ge a f r c : c <= f -> c <= r -> c <= lower a f r.
Proof.
  intros Hf Hr. unfold lower. destruct (Qle_bool (r * s_factor a) f) eqn:B; [|assert (f < r * s_factor a) by (destruct (Qlt_le_dec f (r * s_factor a)) as [H|H]; [exact H|apply Qle_bool_iff in H; congruence])];
  destruct (Qle_bool _ (s_eps a)); lra.
Qed.
Lemma iter_lower_le a f r k : 0 <= s_eps a -> iter_lower a f (S k) r <= iter_lower a f k r.
Proof. intro E. cbn. apply lower_le. exact E. Qed.
Lemma iter_lower_ge a f r k c : c <= f -> c <= r -> c <= iter_lower a f k r.
Proof. intros Hf Hr. induction k; cbn; [exact Hr|]. apply lower_ge; auto. Qed.
Lemma lower_scale a f r : f <= r * s_factor a -> s_eps a < r - r * s_factor a -> lower a f r == r * s_factor a.
Proof.
  intros H1 H2. unfold lower. destruct (Qle_bool (r * s_factor a) f) eqn:B.
  - apply Qle_bool_iff in B. assert (f == r * s_factor a) as E by lra. destruct (Qle_bool (r - f) (s_eps a)) eqn:C; [apply Qle_bool_iff in C; lra|exact E].
  - destruct (Qle_bool (r - r * s_factor a) (s_eps a)) eqn:C; [apply Qle_bool_iff in C; lra|reflexivity].
Qed.
Lemma lower_comp a f r r' : r == r' -> lower a f r == lower a f r'.
Proof.
  intro E. unfold lower. assert (Qle_bool (r * s_factor a) f = Qle_bool (r' * s_factor a) f) as B by (apply Bool.eq_true_iff_eq; rewrite !Qle_bool_iff; rewrite E; tauto).
  rewrite B. destruct (Qle_bool (r' * s_factor a) f).
  - assert (Qle_bool (r - f) (s_eps a) = Qle_bool (r' - f) (s_eps a)) as C by (apply Bool.eq_true_iff_eq; rewrite !Qle_bool_iff; rewrite E; tauto). rewrite C. destruct (Qle_bool (r' - f) (s_eps a)); [exact E|reflexivity].
  - assert (Qle_bool (r - r * s_factor a) (s_eps a) = Qle_bool (r' - r' * s_factor a) (s_eps a)) as C by (apply Bool.eq_true_iff_eq; rewrite !Qle_bool_iff; rewrite E; tauto). rewrite C. destruct (Qle_bool (r' - r' * s_factor a) (s_eps a)); [exact E|rewrite E; reflexivity].
Qed.
Lemma qpow_pos q k : 0 < q -> 0 < qpow q k.
Proof. intro H. induction k; cbn; [lra|]. apply Qmult_lt_0_compat; assumption. Qed.
Lemma iter_lower_scale a f r k : 0 < s_factor a -> s_factor a < 1 -> 0 < r -> f <= r * qpow (s_factor a) k ->
  (k = 0%nat \/ s_eps a < r * qpow (s_factor a) (pred k) * (1 - s_factor a)) -> iter_lower a f k r == r * qpow (s_factor a) k.
Proof.
  intros F0 F1 R. induction k as [|k IH]; intros Hf He; [cbn; ring|].
  destruct He as [He|He]; [discriminate|]. cbn [pred] in He. pose proof (qpow_pos (s_factor a) k F0) as P.
  assert (r * qpow (s_factor a) (S k) <= r * qpow (s_factor a) k) as M.
  { cbn [qpow]. assert (s_factor a * qpow (s_factor a) k <= 1 * qpow (s_factor a) k) by (apply Qmult_le_compat_r; lra). rewrite !(Qmult_comm r). apply Qmult_le_compat_r; lra. }
  assert (iter_lower a f k r == r * qpow (s_factor a) k) as E.
  { apply IH; [lra|]. destruct k as [|k]; [left; reflexivity|right]. cbn [pred]. pose proof (qpow_pos (s_factor a) k F0) as P'.
    assert (r * qpow (s_factor a) (S k) * (1 - s_factor a) <= r * qpow (s_factor a) k * (1 - s_factor a)); [|lra].
    apply Qmult_le_compat_r; [|lra]. cbn [qpow]. assert (s_factor a * qpow (s_factor a) k <= 1 * qpow (s_factor a) k) by (apply Qmult_le_compat_r; lra). rewrite !(Qmult_comm r). apply Qmult_le_compat_r; lra. }
  change (iter_lower a f (S k) r) with (lower a f (iter_lower a f k r)). rewrite (lower_comp a f _ _ E).
  cbn [qpow] in *. rewrite lower_scale; [ring| |].
  - setoid_replace (r * qpow (s_factor a) k * s_factor a) with (r * (s_factor a * qpow (s_factor a) k)) by ring. exact Hf.
  - setoid_replace (r * qpow (s_factor a) k - r * qpow (s_factor a) k * s_factor a) with (r * qpow (s_factor a) k * (1 - s_factor a)) by ring. exact He.
Qed.
