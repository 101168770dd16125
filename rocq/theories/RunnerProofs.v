(* RunnerProofs.v -- lemmas about calls and sequences of calls. *)
From Verif Require Import Base RunnerModel RunnerSpec.
Local Open Scope list_scope.

Lemma finite_some (v : option Q) : finite v = true <-> v <> None.
Proof. destruct v; cbn; split; congruence. Qed.
Lemma in_restricted u r : In r (restricted_targets u) <-> bounds u r.
Proof.
  unfold restricted_targets, bounds. rewrite in_map_iff. split.
  - intros [[r' v] [E H]]. cbn in E. subst r'. apply filter_In in H. destruct H as [H F]. cbn [snd] in F. apply finite_some in F.
    cbn in H. destruct H as [H|[H|[H|[H|[]]]]]; injection H as <- <-; exact F.
  - intro F. apply finite_some in F. destruct r; (eexists (_, _); split; [reflexivity|apply filter_In; split; [|exact F]]; cbn; auto).
Qed.
Lemma restricted_nodup u : NoDup (restricted_targets u).
Proof.
  destruct u as [[x|] [y|] [z|] [w|]]; cbn; repeat (constructor; [cbn; intuition discriminate|]); constructor.
Qed.
Lemma any_restricted u : is_any_restricted u = true <-> asks (Some u).
Proof.
  unfold is_any_restricted. split.
  - destruct (restricted_targets u) as [|r rs] eqn:E; [discriminate|]. intros _. exists u. split; [reflexivity|].
    assert (B : bounds u r) by (apply in_restricted; rewrite E; left; reflexivity). unfold bounds in B; destruct r; tauto.
  - intros [u' [E H]]. injection E as <-. assert (B : exists r, In r (restricted_targets u)).
    { destruct H as [H|[H|[H|H]]]; [exists R_weights|exists R_activation|exists R_total|exists R_bops]; apply in_restricted; exact H. }
    destruct B as [r B]. destruct (restricted_targets u); [destruct B|reflexivity].
Qed.
Lemma any_restricted_false u : is_any_restricted u = false <-> ~ asks (Some u).
Proof. rewrite <- any_restricted. destruct (is_any_restricted u); split; congruence. Qed.
Lemma no_asks_none : ~ asks None.
Proof. intros [u [E _]]. discriminate. Qed.
Lemma restricted_nil u : ~ asks (Some u) -> restricted_targets u = [].
Proof. intro N. apply any_restricted_false in N. unfold is_any_restricted in N. destruct (restricted_targets u); [reflexivity|discriminate]. Qed.

Section P.
Context {G U : Type}.
Notation jobT := (job G U). Notation callT := (call G U).

Lemma final_none (j : jobT) t g : ~ asks t -> final_ru _ _ j t g = Ok None.
Proof. unfold final_ru. destruct t as [u|]; intro N; [rewrite (restricted_nil _ N)|]; reflexivity. Qed.
Lemma decide_keeps h a t : ~ asks t -> decide h a t = (h, Ok tt).
Proof. destruct t as [u|]; cbn [decide]; intro N; [|reflexivity]. apply any_restricted_false in N. rewrite N. reflexivity. Qed.
Lemma decide_asks h a u m : asks (Some u) -> cc_mp (h a) = Some m -> decide h a (Some u) = (set_enabled h a, Ok tt).
Proof. intros A E. cbn [decide]. apply any_restricted in A. rewrite A, E. reflexivity. Qed.
Lemma set_enabled_same h a m : cc_mp (h a) = Some m -> set_enabled h a a = CoreConfig (Some (MpCfg true (mp_overwrite m))) (cc_bypass (h a)).
Proof. intro E. unfold set_enabled. rewrite Nat.eqb_refl, E. reflexivity. Qed.
Lemma set_enabled_other h a b : b <> a -> set_enabled h a b = h b.
Proof. intro N. unfold set_enabled. destruct (Nat.eqb_spec b a); [contradiction|reflexivity]. Qed.
Lemma set_enabled_bypass h a b : cc_bypass (set_enabled h a b) = cc_bypass (h b).
Proof. unfold set_enabled. destruct (Nat.eqb_spec b a); [subst|reflexivity]. destruct (cc_mp (h a)); reflexivity. Qed.
Lemma set_enabled_overwrite h a b : option_map mp_overwrite (cc_mp (set_enabled h a b)) = option_map mp_overwrite (cc_mp (h b)).
Proof. unfold set_enabled. destruct (Nat.eqb_spec b a); [subst|reflexivity]. destruct (cc_mp (h a)) eqn:E; cbn; rewrite ?E; reflexivity. Qed.
Lemma set_enabled_enabled h a b : cc_enabled (set_enabled h a b) = true <-> cc_enabled (h b) = true \/ (b = a /\ cc_mp (h a) <> None).
Proof.
  unfold set_enabled, cc_enabled. destruct (Nat.eqb_spec b a) as [->|N]; [|split; [tauto|intros [H|[H _]]; [exact H|contradiction]]].
  destruct (cc_mp (h a)) as [m|] eqn:E; cbn; rewrite ?E; split.
  - intros _. right. split; [reflexivity|discriminate].
  - reflexivity.
  - discriminate.
  - intros [H|[_ H]]; [exact H|congruence].
Qed.

(* ---- the part of core_runner after the decision ---- *)
Lemma rest_single c t (j : jobT) o : cc_enabled c = false -> ~ asks t -> (rest _ _ c t j = Ok o <-> single_precision j o).
Proof.
  intros F N. unfold rest, choose, single_precision. rewrite F. split.
  - destruct (j_prepare _ _ j false) as [g|]; cbn [bind fst snd]; [|discriminate].
    destruct (j_set _ _ j false g []) as [g2|] eqn:E2; cbn [bind]; [|discriminate].
    destruct (j_finish _ _ j g2) as [g3|] eqn:E3; cbn [bind]; [|discriminate].
    rewrite (final_none _ _ _ N). cbn [bind]. intro H. injection H as <-. exists g, g2. cbn. auto.
  - intros [g [g2 [E1 [E2 [E3 [E4 E5]]]]]]. rewrite E1. cbn [bind fst snd]. rewrite E2. cbn [bind]. rewrite E3. cbn [bind].
    rewrite (final_none _ _ _ N). cbn [bind]. destruct o; cbn in *; subst; reflexivity.
Qed.
Definition as_set (j : jobT) : Prop := forall g ts ts', (forall r, In r ts <-> In r ts') -> j_measure _ _ j g ts = j_measure _ _ j g ts'.
Lemma final_some (j : jobT) u g : asks (Some u) ->
  final_ru _ _ j (Some u) g = let! v := j_measure _ _ j g (restricted_targets u) in Ok (Some v).
Proof.
  intro A. apply any_restricted in A. unfold is_any_restricted in A. unfold final_ru. destruct (restricted_targets u); [discriminate|reflexivity].
Qed.
Lemma rest_mixed m b u (j : jobT) o : asks (Some u) -> mp_enabled m = true ->
  rest _ _ (CoreConfig (Some m) b) (Some u) j = Ok o -> mixed_precision j (mp_overwrite m) u o.
Proof.
  intros A F. unfold rest, choose, cc_enabled. cbn [cc_mp]. rewrite F.
  destruct (j_prepare _ _ j true) as [g|] eqn:E1; cbn [bind]; [|discriminate].
  pose proof A as A2. apply any_restricted in A2. rewrite A2.
  intro H. unfold mixed_precision.
  assert (K : exists g1 l, (match mp_overwrite m with Some l0 => g1 = g /\ l = l0 | None => j_filter _ _ j g u = Ok g1 /\ j_search _ _ j g1 u = Ok l end) /\
    (let! g2 := j_set _ _ j true g1 l in let! g3 := j_finish _ _ j g2 in let! v := final_ru _ _ j (Some u) g3 in Ok (Outcome g3 l v)) = Ok o).
  { destruct (mp_overwrite m) as [l|].
    - exists g, l. split; [auto|]. exact H.
    - destruct (j_filter _ _ j g u) as [g1|] eqn:Ef; cbn [bind] in H; [|discriminate].
      destruct (j_search _ _ j g1 u) as [l|] eqn:Es; cbn [bind fst snd] in H; [|discriminate]. exists g1, l. rewrite Es. auto. }
  destruct K as [g1 [l [K1 K2]]].
  destruct (j_set _ _ j true g1 l) as [g2|] eqn:E2; cbn [bind] in K2; [|discriminate].
  destruct (j_finish _ _ j g2) as [g3|] eqn:E3; cbn [bind] in K2; [|discriminate].
  rewrite (final_some _ _ _ A) in K2. destruct (j_measure _ _ j g3 (restricted_targets u)) as [v|] eqn:Em; cbn [bind] in K2; [|discriminate].
  injection K2 as <-. exists g, g1, g2, (restricted_targets u), v. cbn [o_config o_graph o_ru].
  split; [exact E1|]. split; [destruct (mp_overwrite m); exact K1|]. split; [exact E2|]. split; [exact E3|].
  split; [apply in_restricted|]. split; [apply restricted_nodup|]. auto.
Qed.
Lemma rest_mixed_back m b u (j : jobT) o : as_set j -> asks (Some u) -> mp_enabled m = true ->
  mixed_precision j (mp_overwrite m) u o -> rest _ _ (CoreConfig (Some m) b) (Some u) j = Ok o.
Proof.
  intros S A F [g [g1 [g2 [ts [v [E1 [K [E2 [E3 [T [_ [Em Er]]]]]]]]]]]]. unfold rest, choose, cc_enabled. cbn [cc_mp]. rewrite F, E1. cbn [bind].
  pose proof A as A2. apply any_restricted in A2. rewrite A2.
  assert (Fin : final_ru _ _ j (Some u) (o_graph _ _ o) = Ok (Some v)).
  { rewrite (final_some _ _ _ A), (S _ _ ts). { rewrite Em. reflexivity. } intro r. rewrite in_restricted. symmetry. apply T. }
  destruct (mp_overwrite m) as [l|]; destruct K as [K1 K2].
  - subst g1 l. cbn [bind fst snd]. rewrite E2. cbn [bind]. rewrite E3. cbn [bind]. rewrite Fin. cbn [bind]. destruct o; cbn in *; subst; reflexivity.
  - rewrite K1. cbn [bind]. rewrite K2. cbn [bind fst snd]. rewrite E2. cbn [bind]. rewrite E3. cbn [bind]. rewrite Fin. cbn [bind].
    destruct o; cbn in *; subst; reflexivity.
Qed.

(* ---- one call ---- *)
Section D.
Variable dflt : facade -> nat.
Notation addr := (address G U dflt).

Lemma batch_ok (j : jobT) x : j_batch _ _ j = Ok x -> j_batch _ _ j = Ok tt.
Proof. destruct x. auto. Qed.
Lemma run_call_fst h (k : callT) b :
  (cc_bypass (fst (run_call _ _ dflt h k) b) = cc_bypass (h b)) /\
  (option_map mp_overwrite (cc_mp (fst (run_call _ _ dflt h k) b)) = option_map mp_overwrite (cc_mp (h b))) /\
  (cc_enabled (fst (run_call _ _ dflt h k) b) = true <-> cc_enabled (h b) = true \/ switches dflt h b k).
Proof.
  assert (Same : ~ switches dflt h b k -> (cc_enabled (h b) = true <-> cc_enabled (h b) = true \/ switches dflt h b k)) by tauto.
  unfold run_call, bypassed. destruct (has_bypass (k_facade _ _ k) && cc_bypass (h (addr k))) eqn:B.
  { split; [reflexivity|]. split; [reflexivity|]. apply Same. intros [E [H _]]. subst b. apply andb_true_iff in B. destruct B, H; congruence. }
  unfold core_runner. destruct (j_batch _ _ (k_job _ _ k)) as [x|] eqn:Ej.
  2:{ cbn. split; [reflexivity|]. split; [reflexivity|]. apply Same. intros [_ [_ [H _]]]. congruence. }
  apply batch_ok in Ej.
  destruct (k_target _ _ k) as [u|] eqn:Et.
  2:{ cbn [decide]. destruct (rest _ _ _ _ _); cbn; (split; [reflexivity|]); (split; [reflexivity|]); apply Same; intros [_ [_ [_ [H _]]]]; rewrite Et in H; exact (no_asks_none H). }
  cbn [decide]. destruct (is_any_restricted u) eqn:R.
  2:{ apply any_restricted_false in R. destruct (rest _ _ _ _ _); cbn; (split; [reflexivity|]); (split; [reflexivity|]); apply Same; intros [_ [_ [_ [H _]]]]; rewrite Et in H; exact (R H). }
  apply any_restricted in R. destruct (cc_mp (h (addr k))) as [m|] eqn:Em.
  2:{ cbn. split; [reflexivity|]. split; [reflexivity|]. apply Same. intros [E [_ [_ [_ H]]]]. subst b. congruence. }
  assert (X : forall (r : result (outcome G U)), fst (match (set_enabled h (addr k), r) with (h1, Ok o) => (h1, Returned o) | (h1, Err e) => (h1, Raised e) end) = set_enabled h (addr k)).
  { intros [o|e]; reflexivity. }
  cbv beta iota. rewrite X. split; [apply set_enabled_bypass|]. split; [apply set_enabled_overwrite|]. rewrite set_enabled_enabled. split.
  - intros [H|[-> H]]; [left; exact H|]. right. split; [reflexivity|]. split.
    { apply andb_false_iff in B. exact B. } split; [exact Ej|]. split; [rewrite Et; exact R|exact H].
  - intros [H|[E [_ [_ [_ H]]]]]; [left; exact H|]. right. subst b. split; [reflexivity|exact H].
Qed.
(* the effect of a call on a configuration is determined by the fields below *)
Definition like (h1 h2 : heap) (a : nat) : Prop :=
  cc_bypass (h1 a) = cc_bypass (h2 a) /\ option_map mp_overwrite (cc_mp (h1 a)) = option_map mp_overwrite (cc_mp (h2 a)).
Lemma like_mp h1 h2 a : like h1 h2 a -> (cc_mp (h1 a) <> None <-> cc_mp (h2 a) <> None).
Proof. intros [_ E]. destruct (cc_mp (h1 a)), (cc_mp (h2 a)); cbn in E; split; congruence. Qed.
Lemma like_switches h1 h2 a k : like h1 h2 a -> (switches dflt h1 a k <-> switches dflt h2 a (k : callT)).
Proof. intro L. pose proof (like_mp _ _ _ L) as M. destruct L as [L _]. unfold switches. rewrite L. tauto. Qed.
Lemma like_trans h1 h2 h3 a : like h1 h2 a -> like h2 h3 a -> like h1 h3 a.
Proof. intros [A B] [C D]. split; etransitivity; eassumption. Qed.

Lemma session_fst h (ks : list callT) a :
  like (fst (session _ _ dflt h ks)) h a /\
  (cc_enabled (fst (session _ _ dflt h ks) a) = true <-> cc_enabled (h a) = true \/ exists k, In k ks /\ switches dflt h a k).
Proof.
  revert h. induction ks as [|k r IH]; intro h; cbn [session].
  - cbn. split; [split; reflexivity|]. split; [auto|]. intros [H|[k [[] _]]]. exact H.
  - pose proof (run_call_fst h k a) as [R1 [R2 R3]]. destruct (run_call _ _ dflt h k) as [h1 x]. cbn [fst] in *.
    specialize (IH h1). destruct (session _ _ dflt h1 r) as [h2 xs]. cbn [fst] in *. destruct IH as [I1 I2].
    assert (L : like h1 h a) by (split; assumption). split; [exact (like_trans _ _ _ _ I1 L)|]. rewrite I2, R3. split.
    + intros [[H|H]|[k' [Hk H]]]; [left; exact H|right; exists k; split; [left; reflexivity|exact H]|].
      right. exists k'. split; [right; exact Hk|]. apply (like_switches _ _ _ _ L). exact H.
    + intros [H|[k' [[->|Hk] H]]]; [tauto|tauto|]. right. exists k'. split; [exact Hk|]. apply (like_switches _ _ _ _ L). exact H.
Qed.
Lemma session_app h (ks : list callT) k :
  snd (session _ _ dflt h (ks ++ [k])) = snd (session _ _ dflt h ks) ++ [snd (run_call _ _ dflt (fst (session _ _ dflt h ks)) k)].
Proof.
  revert h. induction ks as [|k0 r IH]; intro h; cbn [session app].
  - cbn [fst snd app]. destruct (run_call _ _ dflt h k) as [h1 x]. reflexivity.
  - destruct (run_call _ _ dflt h k0) as [h1 x]. specialize (IH h1). destruct (session _ _ dflt h1 (r ++ [k])) as [h2 xs].
    destruct (session _ _ dflt h1 r) as [h3 ys]. cbn [fst snd] in *. rewrite IH. reflexivity.
Qed.
(* equal configurations give equal answers *)
Lemma run_call_same h1 h2 (k : callT) : h1 (addr k) = h2 (addr k) -> snd (run_call _ _ dflt h1 k) = snd (run_call _ _ dflt h2 k).
Proof.
  intro E. unfold run_call, bypassed. rewrite E. destruct (_ && _); [reflexivity|]. unfold core_runner.
  destruct (j_batch _ _ (k_job _ _ k)) as [x0|e0]; [|reflexivity]. unfold decide. rewrite E.
  destruct (k_target _ _ k) as [u|].
  - destruct (is_any_restricted u).
    + destruct (cc_mp (h2 (addr k))) as [m|] eqn:Em; [|reflexivity].
      rewrite (set_enabled_same h1 _ m) by (rewrite E; exact Em). rewrite (set_enabled_same h2 _ m) by exact Em. rewrite E.
      destruct (rest _ _ _ _ _); reflexivity.
    + rewrite E. destruct (rest _ _ _ _ _); reflexivity.
  - rewrite E. destruct (rest _ _ _ _ _); reflexivity.
Qed.
Lemma run_call_asks h1 h2 (k : callT) : like h1 h2 (addr k) -> asks (k_target _ _ k) ->
  snd (run_call _ _ dflt h1 k) = snd (run_call _ _ dflt h2 k).
Proof.
  intros [L1 L2] A. unfold run_call, bypassed. rewrite L1. destruct (_ && _); [reflexivity|]. unfold core_runner.
  destruct (j_batch _ _ (k_job _ _ k)) as [x0|e0]; [|reflexivity]. destruct (k_target _ _ k) as [u|]; [|destruct (no_asks_none A)].
  cbn [decide]. pose proof A as A2. apply any_restricted in A2. rewrite A2.
  destruct (cc_mp (h1 (addr k))) as [m1|] eqn:E1, (cc_mp (h2 (addr k))) as [m2|] eqn:E2; cbn in L2; try discriminate; [|reflexivity].
  injection L2 as L2. rewrite (set_enabled_same h1 _ m1 E1), (set_enabled_same h2 _ m2 E2), L1, L2. destruct (rest _ _ _ _ _); reflexivity.
Qed.
Lemma like_enabled h1 h2 a : like h1 h2 a -> cc_enabled (h1 a) = cc_enabled (h2 a) -> h1 a = h2 a.
Proof.
  intros [A B] C. unfold cc_enabled in C. destruct (h1 a) as [m1 b1], (h2 a) as [m2 b2]. cbn in *. subst b2. f_equal.
  destruct m1 as [[e1 o1]|], m2 as [[e2 o2]|]; cbn in *; congruence.
Qed.
End D.
End P.
