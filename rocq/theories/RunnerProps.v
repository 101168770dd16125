(* RunnerProps.v -- C104: precision of a quantization call, and calls that share a configuration. *)
From Verif Require Import Base RunnerModel RunnerSpec RunnerProofs.
Local Open Scope list_scope.

(* A call whose target bounds nothing, with a configuration in which mixed precision was not switched on before, returns exactly
   what single precision gives, and leaves every configuration as it was. *)
Theorem own_single_precision {G U} (h : heap) a t (j : job G U) :
  cc_enabled (h a) = false -> ~ asks t ->
  fst (core_runner _ _ h a t j) = h /\
  forall o, snd (core_runner _ _ h a t j) = Ok o <-> j_batch _ _ j = Ok tt /\ single_precision j o.
Proof.
  intros F N. unfold core_runner. destruct (j_batch _ _ j) as [x|e] eqn:B.
  - rewrite (decide_keeps _ _ _ N). cbn [fst snd]. split; [reflexivity|]. intro o. rewrite (rest_single _ _ _ _ F N). destruct x. tauto.
  - cbn [fst snd]. split; [reflexivity|]. intro o. split; [discriminate|intros [H _]; discriminate].
Qed.
Print Assumptions own_single_precision.

(* A call whose target bounds something is made in mixed precision for that target, whatever the configuration went through
   before: what it returns is the choice given in the configuration, or else the one found for the target, together with the
   measure of exactly the bounded quantities on the returned graph.  (The measure gets a set of quantities.) *)
Theorem own_mixed_precision {G U} (h : heap) a u m (j : job G U) :
  asks (Some u) -> cc_mp (h a) = Some m -> as_set j ->
  forall o, snd (core_runner _ _ h a (Some u) j) = Ok o <-> j_batch _ _ j = Ok tt /\ mixed_precision j (mp_overwrite m) u o.
Proof.
  intros A E S o. unfold core_runner. destruct (j_batch _ _ j) as [x|e] eqn:B; cbn [snd].
  2:{ split; [discriminate|intros [H _]; discriminate]. }
  rewrite (decide_asks _ _ _ _ A E), (set_enabled_same _ _ _ E). cbn [snd]. destruct x. split.
  - intro H. split; [reflexivity|]. apply (rest_mixed _ _ _ _ _ A) in H; [exact H|reflexivity].
  - intros [_ H]. apply rest_mixed_back; [exact S|exact A|reflexivity|exact H].
Qed.
Print Assumptions own_mixed_precision.

(* Mixed precision is on in a configuration after a session exactly if it was on before or some call of the session that used
   the configuration, and got as far as looking at its target, bounded something.  Nothing else in a configuration changes. *)
Theorem switched_on_by_history {G U} dflt (h : heap) (ks : list (call G U)) a :
  let h1 := fst (session _ _ dflt h ks) in
  (cc_enabled (h1 a) = true <-> cc_enabled (h a) = true \/ exists k, In k ks /\ switches dflt h a k) /\
  cc_bypass (h1 a) = cc_bypass (h a) /\ option_map mp_overwrite (cc_mp (h1 a)) = option_map mp_overwrite (cc_mp (h a)).
Proof. cbn zeta. destruct (session_fst dflt h ks a) as [[L1 L2] E]. auto. Qed.
Print Assumptions switched_on_by_history.

(* The answer to a call does not depend on the calls before it if its own target bounds something, or if none of them switched
   mixed precision on in its configuration. *)
Theorem answer_without_history {G U} dflt (h : heap) (ks : list (call G U)) k :
  asks (k_target _ _ k) \/ (forall k', In k' ks -> ~ switches dflt h (address _ _ dflt k) k') ->
  snd (session _ _ dflt h (ks ++ [k])) = snd (session _ _ dflt h ks) ++ [snd (run_call _ _ dflt h k)].
Proof.
  intro H. rewrite session_app. f_equal. f_equal. destruct (session_fst dflt h ks (address _ _ dflt k)) as [L E]. destruct H as [A|N].
  - apply run_call_asks; assumption.
  - apply run_call_same. apply like_enabled; [exact L|].
    destruct (cc_enabled (h (address _ _ dflt k))) eqn:C; [apply E; left; reflexivity|].
    apply not_true_is_false. intro X. apply E in X. destruct X as [X|[k' [I X]]]; [discriminate|exact (N _ I X)].
Qed.
Print Assumptions answer_without_history.

(* FINDING (core/runner.py L93; quantization_facade.py of ptq, gptq and qat, default core_config=CoreConfig()): a call with a
   target switches mixed precision on in the configuration object of the caller and nothing switches it off, and the functions
   share one default object between all calls.  After one call with a target, every later call with the same object and no
   target raises, whatever the model; so does every later call whose target bounds nothing, unless the configuration gives the
   choice. *)
Theorem later_call_refuted {G U} dflt (h : heap) (ks : list (call G U)) k :
  (exists k', In k' ks /\ switches dflt h (address _ _ dflt k) k') ->
  has_bypass (k_facade _ _ k) = false \/ cc_bypass (h (address _ _ dflt k)) = false ->
  k_target _ _ k = None \/ (~ asks (k_target _ _ k) /\ option_map mp_overwrite (cc_mp (h (address _ _ dflt k))) = Some None) ->
  exists e, last (snd (session _ _ dflt h (ks ++ [k]))) Unchanged = Raised e.
Proof.
  intros W B T. rewrite session_app, last_last. destruct (session_fst dflt h ks (address _ _ dflt k)) as [[L1 L2] E].
  set (h1 := fst (session _ _ dflt h ks)) in *. assert (C : cc_enabled (h1 (address _ _ dflt k)) = true) by (apply E; right; exact W).
  unfold run_call, bypassed. rewrite L1. replace (_ && _) with false by (symmetry; apply andb_false_iff; exact B).
  assert (N : ~ asks (k_target _ _ k)) by (destruct T as [->|[N _]]; [exact no_asks_none|exact N]).
  unfold core_runner. destruct (j_batch _ _ (k_job _ _ k)) as [x|e]; [|exists e; reflexivity].
  rewrite (decide_keeps _ _ _ N). unfold rest, choose. rewrite C.
  destruct (j_prepare _ _ (k_job _ _ k) true) as [g|e]; cbn [bind]; [|exists e; reflexivity].
  destruct T as [T|[_ T]].
  - rewrite T. destruct (match cc_mp _ with Some m => mp_overwrite m | None => None end); cbn [bind]; exists E_attr; reflexivity.
  - rewrite <- L2 in T. destruct (cc_mp (h1 (address _ _ dflt k))) as [m|]; cbn [option_map] in T; [|discriminate]. injection T as T. rewrite T.
    destruct (k_target _ _ k) as [u|]; cbn [bind]; [|exists E_attr; reflexivity].
    destruct (j_filter _ _ (k_job _ _ k) g u) as [g1|e]; cbn [bind]; [|exists e; reflexivity].
    apply any_restricted_false in N. rewrite N. cbn [bind]. exists E_assert. reflexivity.
Qed.
Print Assumptions later_call_refuted.

(* a model in which every stage succeeds: the graph is the list of bits of its layers *)
Definition demo : job (list nat) Q :=
  Job (Ok tt) (fun mp : bool => Ok (if mp then [8; 8]%nat else [8%nat])) (fun g _ => Ok g) (fun _ _ => Ok [1; 0]%nat)
      (fun _ g l => Ok (g ++ l)) (fun g => Ok g) (fun g _ => Ok (Z.of_nat (fold_right plus 0%nat g) # 1)).
Definition fresh : heap := fun _ => CoreConfig (Some (MpCfg false None)) false.
Definition weights_at (q : Q) : option target := Some (Target (Some q) None None None).
Definition one_default : facade -> nat := fun f => match f with F_ptq_pytorch => 0%nat | _ => 1%nat end.
Lemma demo_as_set : as_set demo.
Proof. intros g ts ts' _. reflexivity. Qed.
Lemma asks_weights q : asks (weights_at q).
Proof. eexists. split; [reflexivity|]. left. discriminate. Qed.

(* FINDING (the same default object): with no configuration passed, the second of two calls raises, though alone it returns. *)
Theorem default_configuration_refuted :
  let with_target := Call F_ptq_pytorch None (weights_at 5) demo in
  let without := Call F_ptq_pytorch None None demo in
  snd (session _ _ one_default fresh [without]) = [Returned (Outcome [8%nat] [] None)] /\
  snd (session _ _ one_default fresh [with_target; without]) = [Returned (Outcome [8; 8; 1; 0]%nat [1; 0]%nat (Some 17)); Raised E_attr].
Proof. split; reflexivity. Qed.
Print Assumptions default_configuration_refuted.

(* FINDING (core/runner.py L93, L128-131): with a choice given in the configuration, a later call whose target bounds nothing is
   quantized with that choice in mixed precision, though alone it is quantized in single precision. *)
Theorem given_choice_history_refuted :
  let h : heap := fun _ => CoreConfig (Some (MpCfg false (Some [1; 1]%nat))) false in
  let with_target := Call F_gptq_keras (Some 7%nat) (weights_at 5) demo in
  let unbounded := Call F_gptq_keras (Some 7%nat) (Some (Target None None None None)) demo in
  snd (session _ _ one_default h [unbounded]) = [Returned (Outcome [8%nat] [] None)] /\
  last (snd (session _ _ one_default h [with_target; unbounded])) Unchanged = Returned (Outcome [8; 8; 1; 1]%nat [1; 1]%nat None).
Proof. split; reflexivity. Qed.
Print Assumptions given_choice_history_refuted.

(* FINDING (core/runner.py L128-131, L192-219): a choice given in the configuration is not compared with the target; the call
   returns and reports a use of memory above the bound. *)
Theorem given_choice_target_refuted :
  let h : heap := fun _ => CoreConfig (Some (MpCfg false (Some [1; 1]%nat))) false in
  snd (core_runner _ _ h 0 (weights_at 5) demo) = Ok (Outcome [8; 8; 1; 1]%nat [1; 1]%nat (Some 18)) /\ 5 < 18.
Proof. split; reflexivity. Qed.
Print Assumptions given_choice_target_refuted.

(* FINDING (core_config.py L31-32): the documentation says that with mixed_precision_config=None a default configuration is used;
   a call with a target raises instead. *)
Theorem no_configuration_refuted {G U} (h : heap) a t (j : job G U) :
  cc_mp (h a) = None -> asks t -> j_batch _ _ j = Ok tt -> core_runner _ _ h a t j = (h, Err E_critical).
Proof.
  intros E A B. unfold core_runner. rewrite B. destruct t as [u|]; [|destruct (no_asks_none A)]. apply any_restricted in A.
  cbn [decide]. rewrite A, E. reflexivity.
Qed.
Print Assumptions no_configuration_refuted.

(* The bypass returns the model as it is, and only for post-training and gradient-based quantization. *)
Theorem bypass_unchanged {G U} dflt (h : heap) (k : call G U) :
  cc_bypass (h (address _ _ dflt k)) = true -> has_bypass (k_facade _ _ k) = true -> run_call _ _ dflt h k = (h, Unchanged).
Proof. intros B F. unfold run_call, bypassed. rewrite B, F. reflexivity. Qed.
Print Assumptions bypass_unchanged.

(* FINDING (qat/pytorch|keras/quantization_facade.py): the functions for quantization-aware training ignore the bypass. *)
Theorem qat_bypass_refuted {G U} dflt (h : heap) (k : call G U) :
  has_bypass (k_facade _ _ k) = false -> snd (run_call _ _ dflt h k) <> Unchanged.
Proof.
  intro F. unfold run_call, bypassed. rewrite F. cbn [andb]. destruct (core_runner _ _ _ _ _ _) as [h1 [o|e]]; discriminate.
Qed.
Print Assumptions qat_bypass_refuted.

(* which functions look at the bypass, and which object a call uses *)
Theorem call_configuration {G U} dflt (k : call G U) :
  (has_bypass (k_facade _ _ k) = false <-> k_facade _ _ k = F_qat_pytorch \/ k_facade _ _ k = F_qat_keras) /\
  (forall a, k_config _ _ k = Some a -> address _ _ dflt k = a) /\ (k_config _ _ k = None -> address _ _ dflt k = dflt (k_facade _ _ k)).
Proof.
  split; [|unfold address; split; [intros a ->|intros ->]; reflexivity]. destruct (k_facade _ _ k); cbn; split; try discriminate; try (intros [H|H]; discriminate); auto.
Qed.
Print Assumptions call_configuration.

(* the hypotheses are met *)
Example demo_single : ~ asks None /\ cc_enabled (fresh 0%nat) = false /\ single_precision demo (Outcome [8%nat] [] None).
Proof. split; [exact no_asks_none|]. split; [reflexivity|]. exists [8%nat], [8%nat]. cbn. auto. Qed.
Example demo_mixed : snd (core_runner _ _ fresh 0%nat (weights_at 5) demo) = Ok (Outcome [8; 8; 1; 0]%nat [1; 0]%nat (Some 17)).
Proof. reflexivity. Qed.
Example demo_switches : switches one_default fresh 0%nat (Call F_ptq_pytorch None (weights_at 5) demo).
Proof. split; [reflexivity|]. split; [right; reflexivity|]. split; [reflexivity|]. split; [apply asks_weights|discriminate]. Qed.
Example demo_later : exists e, last (snd (session _ _ one_default fresh ([Call F_ptq_pytorch None (weights_at 5) demo] ++ [Call F_ptq_pytorch (Some 0%nat) None demo]))) Unchanged = Raised e.
Proof.
  apply later_call_refuted; [|right; reflexivity|left; reflexivity]. exists (Call F_ptq_pytorch None (weights_at 5) demo). split; [left; reflexivity|exact demo_switches].
Qed.
