(* SerProps.v -- C106: training quantizers of Keras saved and loaded, and the weights of layers whose training is finished. *)
From Coq Require Import Ascii String.
From Verif Require Import Base SDict SerModel SerSpec SerProofs.
Local Open Scope list_scope.
Local Open Scope string_scope.

Lemma construct_ok k c args q : construct k c args = Ok q -> q_class q = k /\ q_config q = c /\
  Bool.eqb (k_weights k) (is_weights c) = true /\ existsb (m_eqb (c_method c)) (k_methods k) = true.
Proof.
  unfold construct. destruct (forallb _ args); [|discriminate]. cbn [negb].
  destruct (Bool.eqb _ _); [|discriminate]. cbn [negb]. destruct (existsb _ _); [|discriminate]. cbn [negb].
  intro H. inversion H; subst. repeat split; reflexivity.
Qed.
Lemma construct_default k c : Bool.eqb (k_weights k) (is_weights c) = true -> existsb (m_eqb (c_method c)) (k_methods k) = true ->
  construct k c [] = Ok (Quantizer k c (k_options k)).
Proof.
  intros A B. unfold construct. cbn [forallb negb]. rewrite A, B. cbn [negb]. do 2 f_equal.
  transitivity (map (fun kv : string * value => kv) (k_options k)); [|apply map_id]. apply map_ext. intros [a b]. reflexivity.
Qed.

(* C106: a quantizer whose parameters are numbers and arrays (for an output: numbers and booleans) and that has no list of
   candidates can be saved, and is loaded as a quantizer of the same class with the same method, number of bits, axis and
   numbers.  The options given when it was made are not among what is saved: the loaded quantizer has the defaults of its class *)
Theorem saved_and_loaded packed k c args q : construct k c args = Ok q -> savable c -> candidates c = [] ->
  exists d q', write packed (get_config q) = Ok d /\ from_config k d = Ok q' /\ q_class q' = k /\
    same_config c (q_config q') /\ q_options q' = k_options k.
Proof.
  intros H S C. destruct (construct_ok _ _ _ _ H) as [_ [Ec [A B]]]. unfold get_config, from_config. rewrite Ec. destruct c as [w|a].
  - destruct (saved_weights packed w S C) as [d [p' [E [D [N _]]]]]. exists d. rewrite D. cbn [bind]. eexists. split; [exact E|].
    split; [apply construct_default; [exact A|exact B]|]. split; [reflexivity|]. cbn. split; [|reflexivity]. auto 9.
  - destruct (saved_activation packed a S C) as [d [E D]]. exists d. rewrite D. cbn [bind]. eexists. split; [exact E|].
    split; [apply construct_default; [exact A|exact B]|]. split; [reflexivity|]. cbn. auto 9.
Qed.
Print Assumptions saved_and_loaded.

(* C106: a loaded quantizer that is saved and loaded again does not change any more *)
Theorem loaded_again p1 p2 k c args q d q' : construct k c args = Ok q -> savable c -> candidates c = [] ->
  write p1 (get_config q) = Ok d -> from_config k d = Ok q' ->
  exists d', write p2 (get_config q') = Ok d' /\ from_config k d' = Ok q'.
Proof.
  intros H S C W F. destruct (construct_ok _ _ _ _ H) as [_ [Ec [A B]]]. unfold get_config, from_config in *. rewrite Ec in W. destruct c as [w|a].
  - destruct (saved_weights p1 w S C) as [d1 [p' [E [D [N [Nn [Ar _]]]]]]]. rewrite E in W. inversion W; subst d1. rewrite D in F. cbn [bind] in F.
    rewrite construct_default in F by assumption. inversion F; subst q'. cbn [q_config].
    destruct (saved_weights p2 (WConfig (w_method w) (w_bits w) p' (w_enable w) (w_axis w) (w_channel w) (w_min w) None) Nn eq_refl) as [d2 [p2' [E2 [D2 [_ [_ [_ I2]]]]]]].
    exists d2. split; [exact E2|]. rewrite D2. cbn [bind w_method w_bits w_enable w_axis w_channel w_min]. rewrite (I2 Ar). cbn [w_params].
    apply construct_default; assumption.
  - destruct (saved_activation p1 a S C) as [d1 [E D]]. rewrite E in W. inversion W; subst d1. rewrite D in F. cbn [bind] in F.
    rewrite construct_default in F by assumption. inversion F; subst q'. cbn [q_config bare].
    destruct (saved_activation p2 (AConfig (a_method a) (a_bits a) (a_params a) (a_enable a) (a_min a) None) S eq_refl) as [d2 [E2 D2]].
    exists d2. split; [exact E2|]. rewrite D2. cbn [bind bare a_method a_bits a_params a_enable a_min]. apply construct_default; assumption.
Qed.
Print Assumptions loaded_again.

(* C106: a class accepts a configuration of its own kind (weights or output) with one of its methods, and no other *)
Theorem class_accepts k c : (exists q, construct k c [] = Ok q) <-> k_weights k = is_weights c /\ In (c_method c) (k_methods k).
Proof.
  split.
  - intros [q H]. destruct (construct_ok _ _ _ _ H) as [_ [_ [A B]]]. apply Bool.eqb_prop in A. split; [exact A|].
    apply existsb_exists in B. destruct B as [m [I E]]. apply Z.eqb_eq in E. replace (c_method c) with m; [exact I|].
    destruct m, (c_method c); cbn in E; congruence.
  - intros [A B]. eexists. apply construct_default; [rewrite A; apply Bool.eqb_reflx|]. apply existsb_exists. exists (c_method c). split; [exact B|apply Z.eqb_refl].
Qed.
Print Assumptions class_accepts.

(* FINDING (trainable_infrastructure/keras/base_keras_quantizer.py L42, L57): the keyword arguments of a quantizer
   (freeze_quant_params, or what QATConfig passes as weight_quantizer_params_override and activation_quantizer_params_override)
   are not saved: a quantizer made with frozen parameters is loaded as one whose parameters are not frozen. *)
Theorem saved_options_refuted packed : exists k c q d q', construct k c [("freeze_quant_params", V_bool true)] = Ok q /\
  sget "freeze_quant_params" (q_options q) = Some (V_bool true) /\ write packed (get_config q) = Ok d /\ from_config k d = Ok q' /\
  sget "freeze_quant_params" (q_options q') = Some (V_bool false).
Proof.
  pose (k := QClass "STE" false [M_pot; M_sym] [("freeze_quant_params", V_bool false)]).
  pose (c := CA (AConfig M_sym 8 [("threshold", V_num 4)] true 1 None)).
  exists k, c. do 3 eexists. split; [reflexivity|]. split; [reflexivity|]. split; [reflexivity|]. split; reflexivity.
Qed.
Print Assumptions saved_options_refuted.

Lemma write_fails packed (f : string * field) d : In f d -> write_field packed (snd f) = Err E_type -> write packed d = Err E_type.
Proof.
  intros I E. induction d as [|g d IH]; [destruct I|]. unfold write in *. cbn [mapM].
  destruct I as [->|I]; [rewrite E; reflexivity|]. specialize (IH I).
  destruct (write_field packed (snd g)) as [x|e] eqn:Eg; cbn [bind]; [rewrite IH; reflexivity|].
  f_equal. unfold write_field in Eg. destruct (snd g) as [m|z|p|b|q|[[|y l]|]]; try discriminate; try (inversion Eg; reflexivity).
  destruct (mapM _ p) as [p'|e'] eqn:Em; [discriminate|]. cbn [bind] in Eg. inversion Eg; subst e'. clear -Em.
  revert Em. induction p as [|[k v] p IH]; [discriminate|]. cbn [mapM fst snd].
  destruct v; cbn [write_value bind]; try (destruct (mapM _ p) as [p1|e1] eqn:E1; [discriminate|]; cbn [bind]; intro H; inversion H; subst; apply IH; reflexivity).
  intro H; inversion H; reflexivity.
Qed.

(* FINDING (trainable_infrastructure/keras/config_serialization.py L54, L75-87; qat/keras/quantizer/quantization_builder.py L73-91):
   the list of candidates of a quantizer is handed over as objects that a file cannot hold, so that a model being trained after a
   mixed-precision search (whose quantizers have candidates) cannot be saved.  A layer copied through its configuration, without
   a file, loses the list. *)
Theorem saved_candidates_refuted k c args q : construct k c args = Ok q -> candidates c <> [] ->
  (forall packed, write packed (get_config q) = Err E_type) /\
  exists q', from_config k (get_config q) = Ok q' /\ candidates (q_config q') = [].
Proof.
  intros H C. destruct (construct_ok _ _ _ _ H) as [_ [Ec [A B]]]. unfold get_config, from_config. rewrite Ec. split.
  - intro packed. destruct c as [w|a].
    + destruct w as [m b p e x ch t [[|y l]|]]; try (exfalso; apply C; reflexivity).
      apply (write_fails packed ("weights_bits_candidates", F_cands (Some (y :: l)))); [|reflexivity]. cbn. tauto.
    + destruct a as [m b p e t [[|y l]|]]; try (exfalso; apply C; reflexivity).
      apply (write_fails packed ("activation_bits_candidates", F_cands (Some (y :: l)))); [|reflexivity]. cbn. tauto.
  - destruct c as [w|a].
    + destruct w as [m b p e x ch t cs].
      assert (deserialization (serialization (CW (WConfig m b p e x ch t cs))) =
              Ok (CW (WConfig m b (map (fun kv => (fst kv, unpack (snd kv))) p) e x ch t None))) as E.
      { cbn -[method_of m_value]. rewrite method_of_value. reflexivity. }
      rewrite E. cbn [bind]. eexists. split; [apply construct_default; assumption|reflexivity].
    + destruct a as [m b p e t cs].
      assert (deserialization (serialization (CA (AConfig m b p e t cs))) = Ok (CA (AConfig m b p e t None))) as E.
      { cbn -[method_of m_value]. rewrite method_of_value. reflexivity. }
      rewrite E. cbn [bind]. eexists. split; [apply construct_default; assumption|reflexivity].
Qed.
Print Assumptions saved_candidates_refuted.

(* FINDING (trainable_infrastructure/keras/config_serialization.py L74, L85): arrays of a file that keeps them as dictionaries are
   unpacked for weights only; an array among the parameters of an output is loaded as that dictionary, not as numbers. *)
Theorem activation_array_refuted k a s x name : In (name, V_nd s x) (a_params a) -> Forall (fun kv => numeric (snd kv)) (a_params a) ->
  candidates (CA a) = [] -> k_weights k = false -> In (a_method a) (k_methods k) ->
  exists d q' a', write true (serialization (CA a)) = Ok d /\ from_config k d = Ok q' /\ q_config q' = CA a' /\
    In (name, V_packed s x) (a_params a') /\ numbers (V_packed s x) = None.
Proof.
  intros I N C K M. destruct (write_params true _ N) as [p' [E _]].
  assert (In (name, V_packed s x) p') as J.
  { clear -I E. revert p' E. induction (a_params a) as [|[n v] p IH]; [destruct I|]. cbn [mapM fst snd]. intros p' E.
    destruct (write_value true v) as [u|] eqn:Eu; [|discriminate]. cbn [bind] in E. destruct (mapM _ p) as [r|] eqn:Er; [|discriminate]. cbn [bind] in E.
    inversion E; subst. destruct I as [I|I]; [inversion I; subst; cbn in Eu; inversion Eu; left; reflexivity|right; apply (IH I); reflexivity]. }
  destruct a as [m b p e t cs]. cbn [a_params a_method] in *.
  assert (exists d, write true (serialization (CA (AConfig m b p e t cs))) = Ok d /\ deserialization d = Ok (CA (AConfig m b p' e t None))) as [d [W D]].
  { eexists. split.
    - unfold write, serialization, attributes. cbn -[write_value]. rewrite E. cbn -[write_value].
      cbn in C. destruct cs as [[|y l]|]; [|discriminate C|]; cbn; reflexivity.
    - cbn -[method_of m_value]. rewrite method_of_value. reflexivity. }
  exists d. destruct (proj2 (class_accepts k (CA (AConfig m b p' e t None)))) as [q' Q]; [split; [exact K|exact M]|].
  exists q', (AConfig m b p' e t None). split; [exact W|]. unfold from_config. rewrite D. cbn [bind]. split; [exact Q|].
  destruct (construct_ok _ _ _ _ Q) as [_ [Ec _]]. split; [exact Ec|]. split; [exact J|reflexivity].
Qed.
Print Assumptions activation_array_refuted.

(* FINDING (trainable_infrastructure/keras/load_model.py L45-52): the classes are put into a dictionary under their names before
   the names are compared, so that the refusal of classes with the same name never happens: the last one is used for every
   quantizer of that name, and get_all_subclasses, a set, does not say which one is last. *)
Theorem same_names_refuted {C} (classes : list (string * C)) (wrapper : C) name v :
  name <> "KerasTrainableQuantizationWrapper" -> last_named name classes v ->
  exists d, load_objects classes wrapper None = Ok d /\ sget name d = Some v.
Proof.
  intros N L. eexists. split; [apply load_ok|]. cbv beta iota zeta. rewrite sget_sset.
  destruct (String.eqb name _) eqn:E; [apply String.eqb_eq in E; contradiction|]. apply fold_get_last. exact L.
Qed.
Print Assumptions same_names_refuted.
Example same_names_case : exists d d', load_objects [("Q", 1%nat); ("Q", 2%nat)] 0%nat None = Ok d /\ sget "Q" d = Some 2%nat /\
  load_objects [("Q", 2%nat); ("Q", 1%nat)] 0%nat None = Ok d' /\ sget "Q" d' = Some 1%nat.
Proof. do 2 eexists. split; [reflexivity|]. split; [reflexivity|]. split; reflexivity. Qed.

(* C106: an object given by the caller is used for its name, and the classes of the library for all other names *)
Theorem given_objects_first {C} (classes : list (string * C)) (wrapper : C) custom d : load_objects classes wrapper (Some custom) = Ok d ->
  (forall name v, last_named name custom v -> sget name d = Some v) /\
  (forall name d0, ~ In name (map fst custom) -> load_objects classes wrapper None = Ok d0 -> sget name d = sget name d0).
Proof.
  intro H. rewrite load_ok in H. inversion H; subst d. split.
  - intros name v L. apply fold_get_last. exact L.
  - intros name d0 N H0. rewrite load_ok in H0. inversion H0; subst d0. apply fold_get_other. exact N.
Qed.
Print Assumptions given_objects_first.

Section Finished.
Context {T QZ I : Type}.
Variable convert : QZ -> option (result I).

Lemma finalize_split quantizers own (vars : list (string * T)) qs ws : finalize convert quantizers own vars = Ok (qs, ws) ->
  foldM (fun d kv => match convert (snd kv) with None => Ok d | Some r => let! i := r in Ok (sset (fst kv) i d) end) quantizers [] = Ok qs /\
  all_some (fill T (map weight_name own) (repeat None (length (map weight_name own))) vars) = Some ws.
Proof.
  unfold finalize. destruct (foldM _ quantizers []) as [q0|]; [|discriminate]. cbn [bind]. intro H. unfold fill.
  destruct (all_some _) as [w0|]; [|discriminate]. inversion H; subst. split; reflexivity.
Qed.
Lemma slot (keys : list string) i k : nth_error keys i = Some k ->
  nth_error (repeat (@None T) (length keys)) i = Some None.
Proof.
  intro K. assert (i < length keys)%nat as L by (apply nth_error_Some; congruence). clear K. revert i L.
  induction (length keys) as [|n IH]; intros i L; [lia|]. destruct i; [reflexivity|]. cbn. apply IH. lia.
Qed.

(* C106: a layer whose training is finished has as many weights as before, all of different names, and each is the last variable
   of the trained layer with that name *)
Theorem finished_weights quantizers own (vars : list (string * T)) qs ws : finalize convert quantizers own vars = Ok (qs, ws) ->
  NoDup (map weight_name own) /\ Forall2 (fun n w => last_named (weight_name n) (map (fun v => (weight_name (fst v), snd v)) vars) w) own ws.
Proof.
  intro H. destruct (finalize_split _ _ _ _ _ H) as [_ A]. set (keys := map weight_name own) in *.
  pose proof (all_some_spec _ (fill T keys (repeat None (length keys)) vars)) as S. rewrite A in S.
  assert (length (repeat (@None T) (length keys)) = length keys) as L by apply repeat_length.
  assert (forall i k, nth_error keys i = Some k -> index k keys = Some i /\ exists w, nth_error ws i = Some w /\ last_named k (named T vars) w) as F.
  { intros i k K. destruct (fill_get T keys vars _ i k L K) as [F1 F2].
    assert (nth_error (fill T keys (repeat None (length keys)) vars) i = Some None -> False) as NN.
    { rewrite S, nth_error_map. destruct (nth_error ws i); discriminate. }
    assert (index k keys = Some i) as X.
    { destruct (index k keys) as [j|] eqn:J; [destruct (Nat.eq_dec j i) as [->|D]; [reflexivity|]|]; exfalso; apply NN; rewrite F2 by (left; congruence); eapply slot; eauto. }
    split; [exact X|]. destruct (in_dec string_dec k (map fst (named T vars))) as [In_|Nin].
    - destruct (last_exists T _ _ In_) as [v Lv]. exists v. split; [|exact Lv]. specialize (F1 X v Lv). rewrite S, nth_error_map in F1.
      destruct (nth_error ws i); [cbn in F1; congruence|discriminate].
    - exfalso. apply NN. rewrite F2 by (right; exact Nin). eapply slot; eauto. }
  split; [apply first_positions; intros i k K; apply (F i k K)|].
  assert (length ws = length own) as LW.
  { apply (f_equal (@length _)) in S. rewrite fill_length, map_length, repeat_length in S. unfold keys in S. rewrite map_length in S. congruence. }
  assert (forall i n w, nth_error own i = Some n -> nth_error ws i = Some w -> last_named (weight_name n) (named T vars) w) as P.
  { intros i n w Ni Wi. destruct (F i (weight_name n)) as [_ [w' [Wi' Lw]]]; [unfold keys; rewrite nth_error_map, Ni; reflexivity|]. congruence. }
  unfold named in P. clear -P LW. revert ws LW P. induction own as [|n own IH]; intros [|w ws] LW P; try discriminate; constructor.
  - apply (P 0%nat); reflexivity.
  - apply IH; [cbn in LW; congruence|]. intros i. apply (P (S i)).
Qed.

Lemma conversions_done quantizers : forall d d',
  foldM (fun d kv => match convert (snd kv) with None => Ok d | Some r => let! i := r in Ok (sset (fst kv) i d) end) quantizers d = Ok d' ->
  Forall (fun kv => forall e, convert (snd kv) <> Some (Err e)) quantizers.
Proof.
  induction quantizers as [|[n q] quantizers IH]; intros d d' H; [constructor|]. cbn [foldM fst snd] in H.
  destruct (convert q) as [[i|e]|] eqn:C; cbn [bind] in H; [|discriminate|]; (constructor; [cbn [snd]; rewrite C; discriminate|eapply IH; exact H]).
Qed.
(* C106: the layer is finished exactly if no conversion of a quantizer raises, its weights have different names, and every one of
   them is among the variables of the trained layer *)
Theorem finished_when quantizers own (vars : list (string * T)) :
  (exists r, finalize convert quantizers own vars = Ok r) <->
  Forall (fun kv => forall e, convert (snd kv) <> Some (Err e)) quantizers /\
  NoDup (map weight_name own) /\ incl (map weight_name own) (map (fun v => weight_name (fst v)) vars).
Proof.
  split.
  - intros [[qs ws] H]. split; [destruct (finalize_split _ _ _ _ _ H) as [A _]; eapply conversions_done; exact A|]. destruct (finished_weights _ _ _ _ _ H) as [N F]. split; [exact N|]. intros k K.
    apply in_map_iff in K. destruct K as [n [<- In_]]. clear -F In_.
    induction F as [|n0 w own ws L F IH]; [destruct In_|]. destruct In_ as [->|In_]; [|apply IH; exact In_].
    apply last_in in L. rewrite map_map in L. exact L.
  - intros [Q [N J]]. unfold finalize.
    assert (forall d, exists d', foldM (fun d kv => match convert (snd kv) with None => Ok d | Some r => let! i := r in Ok (sset (fst kv) i d) end) quantizers d = Ok d') as E.
    { clear -Q. induction Q as [|[n q] quantizers Hq Q IH]; intro d; [exists d; reflexivity|]. cbn [foldM fst snd]. cbn [snd] in Hq.
      destruct (convert q) as [[i|e]|]; cbn [bind]; [apply IH|exfalso; eapply Hq; reflexivity|apply IH]. }
    destruct (E []) as [qs Eq]. rewrite Eq. cbn [bind]. set (keys := map weight_name own) in *.
    fold (fill T keys (repeat None (length keys)) vars). pose proof (all_some_spec _ (fill T keys (repeat None (length keys)) vars)) as S.
    destruct (all_some _) as [ws|]; [eexists; reflexivity|]. exfalso. apply In_nth_error in S. destruct S as [i Si].
    assert (i < length keys)%nat as Li.
    { assert (i < length (fill T keys (repeat None (length keys)) vars))%nat by (apply nth_error_Some; congruence). rewrite fill_length, repeat_length in H. exact H. }
    destruct (nth_error keys i) as [k|] eqn:K; [|apply nth_error_None in K; lia].
    destruct (fill_get T keys vars (repeat None (length keys)) i k (repeat_length _ _) K) as [F1 _].
    assert (In k (map fst (named T vars))) as Ik by (unfold named; rewrite map_map; apply J; eapply nth_error_In; exact K).
    destruct (last_exists T _ _ Ik) as [v Lv]. rewrite (F1 (index_nodup _ _ _ N K) v Lv) in Si. discriminate.
Qed.

Lemma converted quantizers : forall d qs, NoDup (skeys quantizers) -> (forall n, In n (skeys quantizers) -> ~ In n (skeys d)) ->
  foldM (fun d kv => match convert (snd kv) with None => Ok d | Some r => let! i := r in Ok (sset (fst kv) i d) end) quantizers d = Ok qs ->
  forall n i, sget n qs = Some i <-> sget n d = Some i \/ exists q, sget n quantizers = Some q /\ convert q = Some (Ok i).
Proof.
  induction quantizers as [|[m q] quantizers IH]; intros d qs N D H n i.
  - cbn in H. inversion H; subst. split; [auto|]. intros [X|[q [X _]]]; [exact X|discriminate].
  - cbn [foldM fst snd] in H. inversion N as [|? ? N1 N2]; subst.
    assert (~ In m (skeys d)) as Dm by (apply D; left; reflexivity).
    destruct (convert q) as [[x|e]|] eqn:C; cbn [bind] in H; [|discriminate|].
    + rewrite (IH (sset m x d) qs N2) with (n := n) (i := i); [|intros k K J|exact H].
      * rewrite sget_sset. cbn [sget]. destruct (String.eqb n m) eqn:E.
        -- apply String.eqb_eq in E. subst. apply sget_none in Dm. rewrite Dm.
           assert (sget m quantizers = None) as Z by (apply sget_none; exact N1). rewrite Z. split.
           ++ intros [X|[q' [X _]]]; [right; exists q; split; congruence|discriminate].
           ++ intros [X|[q' [X Y]]]; [discriminate|left; inversion X; subst; congruence].
        -- reflexivity.
      * apply sget_key in J. destruct J as [v J]. rewrite sget_sset in J. destruct (String.eqb k m) eqn:E.
        -- apply String.eqb_eq in E. subst. exact (N1 K).
        -- apply (D k); [right; exact K|]. apply sget_key. eauto.
    + rewrite (IH d qs N2) with (n := n) (i := i); [|intros k K; apply D; right; exact K|exact H].
      cbn [sget]. destruct (String.eqb n m) eqn:E; [|reflexivity]. apply String.eqb_eq in E. subst. apply sget_none in Dm. rewrite Dm.
      assert (sget m quantizers = None) as Z by (apply sget_none; exact N1). rewrite Z. split.
      * intros [X|[q' [X _]]]; discriminate.
      * intros [X|[q' [X Y]]]; [discriminate|inversion X; subst; congruence].
Qed.

(* C106: the finished layer has the converted quantizer of every weight whose quantizer can be converted, and no other *)
Theorem finished_quantizers quantizers own (vars : list (string * T)) qs ws : NoDup (map fst quantizers) ->
  finalize convert quantizers own vars = Ok (qs, ws) ->
  forall n i, sget n qs = Some i <-> exists q, sget n quantizers = Some q /\ convert q = Some (Ok i).
Proof.
  intros N H n i. destruct (finalize_split _ _ _ _ _ H) as [A _]. rewrite (converted quantizers [] qs N) with (n := n) (i := i); [|intros k _ []|exact A].
  cbn [sget]. split; [intros [X|X]; [discriminate|exact X]|auto].
Qed.
End Finished.
Print Assumptions finished_weights.
Print Assumptions finished_when.
Print Assumptions finished_quantizers.

(* FINDING (trainable_infrastructure/keras/quantize_wrapper.py L87-94): weights are told apart by the last part of their names, so
   that a layer with two weights of the same last part (kernels of two inner layers) can never be finished. *)
Theorem shared_weight_name_refuted {T QZ I} (convert : QZ -> option (result I)) quantizers own (vars : list (string * T)) :
  ~ NoDup (map weight_name own) -> forall r, finalize convert quantizers own vars <> Ok r.
Proof. intros N [qs ws] H. destruct (finished_weights _ _ _ _ _ _ H) as [X _]. contradiction. Qed.
Print Assumptions shared_weight_name_refuted.

(* the name of a weight is the part after the last slash, without the number after the colon *)
Lemma before_colon_lacks s d : ~ In ":"%char (list_ascii_of_string s) -> before_colon s = s /\ before_colon (s ++ String ":" d) = s.
Proof.
  induction s as [|c s IH]; cbn [list_ascii_of_string before_colon String.append]; intro N; [split; reflexivity|].
  destruct (Ascii.eqb_spec c ":"%char) as [->|_]; [exfalso; apply N; left; reflexivity|].
  destruct IH as [A B]; [intro J; apply N; right; exact J|]. rewrite A, B. split; reflexivity.
Qed.
Lemma append_assoc_str (a b c : string) : ((a ++ b) ++ c = a ++ (b ++ c))%string.
Proof. induction a as [|x a IH]; cbn; [reflexivity|rewrite IH; reflexivity]. Qed.
Lemma last_part_lacks n : ~ In "/"%char (list_ascii_of_string n) -> forall acc, last_part acc n = (acc ++ n)%string.
Proof.
  induction n as [|c n IH]; cbn [list_ascii_of_string last_part]; intros N acc; [induction acc as [|x acc IHa]; cbn; [reflexivity|rewrite <- IHa; reflexivity]|].
  destruct (Ascii.eqb_spec c "/"%char) as [->|_]; [exfalso; apply N; left; reflexivity|].
  rewrite IH; [rewrite append_assoc_str; reflexivity|]. intro J. apply N. right. exact J.
Qed.
Lemma last_part_slash p n : forall acc, last_part acc (p ++ String "/" n) = last_part "" n.
Proof. induction p as [|c p IH]; intro acc; cbn [String.append last_part]; [reflexivity|]. destruct (Ascii.eqb c "/"%char); apply IH. Qed.
Theorem weight_names p n d : ~ In ":"%char (list_ascii_of_string p) -> ~ In ":"%char (list_ascii_of_string n) -> ~ In "/"%char (list_ascii_of_string n) ->
  weight_name n = n /\ weight_name (n ++ String ":" d) = n /\ weight_name (p ++ String "/" n) = n /\ weight_name ((p ++ String "/" n) ++ String ":" d) = n.
Proof.
  intros Np Nn Sn. assert (NP : ~ In ":"%char (list_ascii_of_string (p ++ String "/" n))).
  { clear Sn. induction p as [|c p IH]; cbn [String.append list_ascii_of_string In] in *; [intros [Q|Q]; [discriminate Q|exact (Nn Q)]|].
    intros [Q|Q]; [apply Np; left; exact Q|]. apply IH; [intro J; apply Np; right; exact J|exact Q]. }
  destruct (before_colon_lacks n d Nn) as [A B]. destruct (before_colon_lacks _ d NP) as [C D]. unfold weight_name. rewrite A, B, C, D.
  rewrite !last_part_slash, !(last_part_lacks n Sn). repeat split; reflexivity.
Qed.
Print Assumptions weight_names.
Example weight_name_case : weight_name "block/conv/kernel:0" = "kernel" /\ weight_name "bias" = "bias".
Proof. split; reflexivity. Qed.
Example finished_case : finalize (fun q : nat => Some (Ok (q + 10)%nat)) [("kernel", 1%nat)] ["c/kernel:0"; "c/bias:0"]
  [("w/bias:0", 7%nat); ("w/kernel:0", 8%nat); ("w/kernelmin:0", 9%nat)] = Ok ([("kernel", 11%nat)], [8%nat; 7%nat]).
Proof. reflexivity. Qed.
Example shared_case : finalize (fun q : nat => Some (Ok q)) [] ["m/query/kernel:0"; "m/key/kernel:0"]
  [("m/query/kernel:0", 7%nat); ("m/key/kernel:0", 8%nat)] = Err E_critical.
Proof. reflexivity. Qed.
(* a quantizer of weights with a threshold per channel meets the hypotheses of saved_and_loaded *)
Example savable_case : savable (CW (WConfig M_pot 4 [("threshold", V_nd [2%nat] [1; 2])] true 3 true 1 None)) /\
  exists q, construct (QClass "LSQ" true [M_pot; M_sym] []) (CW (WConfig M_pot 4 [("threshold", V_nd [2%nat] [1; 2])] true 3 true 1 None)) [] = Ok q.
Proof. split; [|eexists; reflexivity]. repeat constructor. exists [2%nat], [1; 2]. split; reflexivity. Qed.
