(* FilterProps.v -- C45: filters are boolean formulas; equality of layer filters. *)
From Coq Require Import String Ascii NArith Nnat.
From Verif Require Import Base SDict FilterModel FilterSpec.
Local Open Scope list_scope.

(* ---- values ---- *)
Lemma qlist_eqb_spec a : forall b, qlist_eqb a b = true <-> Forall2 Qeq a b.
Proof.
  induction a as [|x a IH]; intros [|y b]; cbn; split; intro H; try discriminate; try constructor; try solve [inversion H]; try reflexivity.
  - apply andb_true_iff in H. apply Qeq_bool_iff, H.
  - apply andb_true_iff in H. apply IH, H.
  - inversion H; subst. apply andb_true_iff. split; [apply Qeq_bool_iff|apply IH]; assumption.
Qed.

Lemma val_eqb_spec a b : val_eqb a b = true <-> same_val a b.
Proof.
  destruct a, b; cbn; split; intro H; try discriminate; try (inversion H; fail).
  - constructor. apply Qeq_bool_iff, H.
  - inversion H; subst. apply Qeq_bool_iff. assumption.
  - apply String.eqb_eq in H. subst. constructor.
  - inversion H; subst. apply String.eqb_refl.
  - constructor.
  - reflexivity.
  - constructor. apply qlist_eqb_spec, H.
  - inversion H; subst. apply qlist_eqb_spec. assumption.
Qed.

Lemma same_val_refl a : same_val a a.
Proof. destruct a; constructor; try reflexivity. induction l; constructor; [reflexivity|assumption]. Qed.
Lemma same_val_sym a b : same_val a b -> same_val b a.
Proof.
  destruct 1 as [| | |l m F]; constructor; try (symmetry; assumption).
  induction F; constructor; [symmetry; assumption|assumption].
Qed.
Lemma same_val_trans a b c : same_val a b -> same_val b c -> same_val a c.
Proof.
  destruct 1 as [x y E| | |l m F]; intro K; inversion K as [? z E'| | |? n G]; subst; constructor.
  - etransitivity; eassumption.
  - clear K. revert n G. induction F; intros n G; inversion G; subst; constructor; [etransitivity; eassumption|auto].
Qed.

Lemma qlist_lt_spec s a : forall b, qlist_lt s a b = true <-> tuple_less a b \/ (s = false /\ Forall2 Qeq a b).
Proof.
  induction a as [|x a IH]; intros [|y b]; cbn.
  - destruct s; cbn; split; intro H; try discriminate; auto; [destruct H as [H|[H _]]; [inversion H|discriminate]].
  - split; intro; [left; constructor|reflexivity].
  - split; intro H; [discriminate|]. destruct H as [H|[_ H]]; inversion H.
  - destruct (Qeq_bool x y) eqn:E.
    + apply Qeq_bool_iff in E. rewrite IH. split.
      * intros [H|[H1 H2]]; [left; apply TL_tail; assumption|right; split; [assumption|constructor; assumption]].
      * intros [H|[H1 H2]].
        -- inversion H as [|? ? ? ? L|]; subst; [|left; assumption]. exfalso. rewrite E in L. exact (Qlt_irrefl _ L).
        -- inversion H2; subst. right. split; [reflexivity|assumption].
    + assert (~ (x == y)%Q) as N by (intro K; apply Qeq_bool_iff in K; congruence).
      rewrite Qle_bool_iff. split.
      * intro H. left. apply TL_head. apply Qle_lteq in H. destruct H; [assumption|contradiction].
      * intros [H|[_ H]]; [|inversion H; subst; contradiction].
        inversion H as [|? ? ? ? L|]; subst; [apply Qlt_le_weak; assumption|contradiction].
Qed.

Lemma ascii_compare a b : Ascii.compare a b = Nat.compare (nat_of_ascii a) (nat_of_ascii b).
Proof. unfold Ascii.compare, nat_of_ascii. apply N2Nat.inj_compare. Qed.

Lemma str_compare_spec s : forall t,
  match String.compare s t with Lt => str_less s t | Eq => s = t | Gt => str_less t s end.
Proof.
  induction s as [|c s IH]; intros [|d t]; cbn; try constructor.
  rewrite ascii_compare. destruct (Nat.compare_spec (nat_of_ascii c) (nat_of_ascii d)) as [E|L|L].
  - assert (c = d) as -> by (rewrite <- (ascii_nat_embedding c), <- (ascii_nat_embedding d), E; reflexivity).
    specialize (IH t). destruct (String.compare s t); [congruence|constructor; assumption|constructor; assumption].
  - apply SL_head. assumption.
  - apply SL_head. assumption.
Qed.

Lemma str_less_asym s t : str_less s t -> str_less t s -> False.
Proof. induction 1; intro H'; inversion H'; subst; try lia; auto. Qed.
Lemma str_less_irrefl s : ~ str_less s s.
Proof. intro H. exact (str_less_asym _ _ H H). Qed.

Lemma str_lt_spec b s t : str_lt b s t = true <-> str_less s t \/ (b = false /\ s = t).
Proof.
  unfold str_lt, String.ltb, String.leb. pose proof (str_compare_spec s t) as H.
  destruct b; destruct (String.compare s t) eqn:E; split; intro K; try discriminate; auto.
  - destruct K as [K|[K _]]; [subst; exfalso; exact (str_less_irrefl _ K)|discriminate].
  - destruct K as [K|[K _]]; [exfalso; exact (str_less_asym _ _ K H)|discriminate].
  - destruct K as [K|[_ ->]]; exfalso; [exact (str_less_asym _ _ K H)|exact (str_less_irrefl _ H)].
Qed.

Lemma val_lt_spec s a b r : val_lt s a b = Ok r -> (r = true <-> val_less a b \/ (s = false /\ comparable a b /\ same_val a b)).
Proof.
  destruct a as [x|x| |x], b as [y|y| |y]; cbn; intro H; try discriminate; injection H as <-.
  - destruct s.
    + unfold Qlt_bool. rewrite negb_true_iff. split.
      * intro E. left. constructor. apply Qnot_le_lt. intro L. apply Qle_bool_iff in L. congruence.
      * intros [H|[H _]]; [|discriminate]. inversion H as [? ? L| |]; subst. destruct (Qle_bool y x) eqn:E; [|reflexivity].
        apply Qle_bool_iff in E. exfalso. exact (Qlt_not_le _ _ L E).
    + rewrite Qle_bool_iff, Qle_lteq. split.
      * intros [L|E]; [left; constructor; assumption|right; repeat split; constructor; assumption].
      * intros [H|[_ [_ H]]]; inversion H; subst; auto.
  - rewrite str_lt_spec. split.
    + intros [L|[-> ->]]; [left; constructor; assumption|right; repeat split; constructor].
    + intros [H|[-> [_ H]]]; inversion H; subst; auto.
  - rewrite qlist_lt_spec. split.
    + intros [L|[-> E]]; [left; constructor; assumption|right; repeat split; constructor; assumption].
    + intros [H|[-> [_ H]]]; inversion H; subst; auto.
Qed.

Lemma prefix_spec t : forall s, prefix t s = true <-> exists post, s = String.append t post.
Proof.
  induction t as [|c t IH]; intro s; cbn; [destruct s; split; [intros _; eexists; reflexivity|reflexivity|intros _; eexists; reflexivity|reflexivity]|].
  destruct s as [|d s]; [split; [discriminate|intros [p E]; discriminate]|].
  cbn [prefix]. destruct (ascii_dec c d) as [->|N].
  - rewrite IH. split; intros [p E]; exists p; congruence.
  - split; [discriminate|]. intros [p E]. inversion E. congruence.
Qed.

Lemma str_contains_spec s t : str_contains s t = true <-> exists pre post, s = String.append pre (String.append t post).
Proof.
  unfold str_contains. induction s as [|c s IH].
  - cbn. destruct t; split; try discriminate.
    + intros _. exists EmptyString, EmptyString. reflexivity.
    + reflexivity.
    + intros [[|? ?] [post E]]; discriminate.
  - replace (index 0 t (String c s)) with
      (if prefix t (String c s) then Some 0%nat else match index 0 t s with Some n => Some (S n) | None => None end)
      by (destruct t; reflexivity).
    pose proof (prefix_spec t (String c s)) as P. destruct (prefix t (String c s)).
    + destruct P as [P _]. specialize (P eq_refl). destruct P as [p P]. split; [|reflexivity].
      intros _. exists EmptyString, p. exact P.
    + assert (~ exists post, String c s = String.append t post) as NP by (intro K; apply P in K; discriminate).
      destruct (index 0 t s).
      * split; [|reflexivity]. intros _. destruct IH as [IH _]. destruct (IH eq_refl) as [pre [post ->]].
        exists (String c pre), post. reflexivity.
      * split; [discriminate|]. intros [[|d pre] [post E]]; cbn in E.
        -- exfalso. apply NP. exists post. exact E.
        -- apply IH. inversion E; subst. exists pre, post. reflexivity.
Qed.

Lemma val_contains_spec a b r : val_contains a b = Ok r -> (r = true <-> has_member a b).
Proof.
  destruct a as [x|x| |x], b as [y|y| |y]; cbn; intro H; try discriminate; injection H as <-.
  - apply str_contains_spec.
  - rewrite existsb_exists. split; intros [z [I E]]; exists z; split; auto; apply Qeq_bool_iff; assumption.
  - split; [discriminate|tauto].
  - split; [discriminate|tauto].
  - split; [discriminate|tauto].
Qed.

Lemma apply_op_spec o x v r : apply_op o x v = Ok r -> (r = true <-> op_holds o x v).
Proof.
  destruct o; cbn [apply_op op_holds]; intro H.
  - rewrite (val_lt_spec _ _ _ _ H). intuition congruence.
  - rewrite (val_lt_spec _ _ _ _ H). intuition congruence.
  - rewrite (val_lt_spec _ _ _ _ H). intuition congruence.
  - rewrite (val_lt_spec _ _ _ _ H). intuition congruence.
  - injection H as <-. rewrite negb_true_iff, <- val_eqb_spec. destruct (val_eqb x v); intuition congruence.
  - injection H as <-. apply val_eqb_spec.
  - apply (val_contains_spec _ _ _ H).
Qed.

Lemma apply_op_defined o x v : op_defined o x v <-> exists r, apply_op o x v = Ok r.
Proof.
  destruct o, x, v; cbn; split; intro H; eauto; try tauto; destruct H; discriminate.
Qed.

(* ---- formulas ---- *)
Lemma filt_ind' (P : filt -> Prop) :
  (forall a o v, P (F_attr a o v)) ->
  (forall i l, Forall P l -> P (F_or i l)) ->
  (forall i l, Forall P l -> P (F_and i l)) -> forall f, P f.
Proof.
  intros H1 H2 H3. fix IH 1. intros [a o v|i l|i l]; [apply H1| |].
  - apply H2. induction l; constructor; [apply IH|assumption].
  - apply H3. induction l; constructor; [apply IH|assumption].
Qed.

(* C45: whenever evaluating a filter returns, it returns the truth value of the formula, for any nesting *)
Theorem filter_is_boolean_formula cfg f b :
  fmatch f cfg = Ok b -> (b = true <-> holds cfg f).
Proof.
  revert b. induction f as [a o v|i l IH|i l IH] using filt_ind'; intros b H.
  - cbn in *. destruct (sget a cfg) as [x|].
    + rewrite (apply_op_spec _ _ _ _ H). split; [eauto|]. intros [y [E K]]. inversion E; subst. exact K.
    + injection H as <-. split; [discriminate|]. intros [y [E _]]. discriminate.
  - cbn in *. induction l as [|g r IHl].
    + injection H as <-. split; [discriminate|tauto].
    + inversion IH as [|? ? Hg Hr]; subst. cbn in H. destruct (fmatch g cfg) as [c|] eqn:E; [|discriminate]. cbn in H.
      specialize (Hg _ eq_refl). destruct c.
      * injection H as <-. split; [left; tauto|reflexivity].
      * rewrite (IHl Hr H). split; [auto|]. intros [K|K]; [apply Hg in K; discriminate|exact K].
  - cbn in *. induction l as [|g r IHl].
    + injection H as <-. split; auto.
    + inversion IH as [|? ? Hg Hr]; subst. cbn in H. destruct (fmatch g cfg) as [c|] eqn:E; [|discriminate]. cbn in H.
      specialize (Hg _ eq_refl). destruct c.
      * rewrite (IHl Hr H). tauto.
      * injection H as <-. split; [discriminate|]. intros [K _]. apply Hg in K. discriminate.
Qed.
Print Assumptions filter_is_boolean_formula.

(* C45: and it returns whenever every comparison in it is between comparable values *)
Theorem filter_total cfg f : defined cfg f -> exists b, fmatch f cfg = Ok b.
Proof.
  induction f as [a o v|i l IH|i l IH] using filt_ind'; intro D.
  - cbn in *. destruct (sget a cfg) as [x|]; [|eauto]. apply apply_op_defined. auto.
  - cbn in *. induction l as [|g r IHl]; [eauto|]. inversion IH as [|? ? Hg Hr]; subst. destruct D as [D1 D2].
    destruct (Hg D1) as [b ->]. cbn. destruct b; [eauto|]. auto.
  - cbn in *. induction l as [|g r IHl]; [eauto|]. inversion IH as [|? ? Hg Hr]; subst. destruct D as [D1 D2].
    destruct (Hg D1) as [b ->]. cbn. destruct b; [|eauto]. auto.
Qed.
Print Assumptions filter_total.

Lemma conds_match_spec cfg l : forall b, conds_match l cfg = Ok b -> (b = true <-> forall c, In c l -> holds cfg c).
Proof.
  induction l as [|c l IH]; cbn; intros b H.
  - injection H as <-. split; [intros _ c []|reflexivity].
  - destruct (fmatch c cfg) as [x|] eqn:E; [|discriminate]. cbn in H.
    pose proof (filter_is_boolean_formula _ _ _ E) as Hx. destruct x.
    + rewrite (IH _ H). split; [|auto]. intros K d [<-|I]; [apply Hx; reflexivity|auto].
    + injection H as <-. split; [discriminate|]. intro K. apply Hx, K. left. reflexivity.
Qed.

Lemma is_match_type_spec n l s : is_match_type n l s = true <-> of_type n l s.
Proof.
  unfold is_match_type, of_type. rewrite orb_true_iff, Nat.eqb_eq. destruct (fn_func n) as [f|].
  - rewrite String.eqb_eq. split; intros [E|E]; [right|left|right|left]; congruence.
  - split; intros [E|E]; try discriminate; auto.
Qed.

(* the attributes a filter sees: call arguments of a functional node first, then framework attributes *)
Theorem filter_sees_call_arguments n k : NoDup (skeys (fn_call n)) ->
  sget k (layer_config n) = match sget k (fn_call n) with Some v => Some v | None => sget k (fn_attrs n) end.
Proof.
  unfold layer_config. generalize (fn_attrs n). induction (fn_call n) as [|[k' v] l IH]; intros d ND; [reflexivity|].
  cbn in ND. inversion ND as [|? ? N1 N2]; subst. cbn [fold_left fst snd]. rewrite (IH _ N2), sget_sset. cbn [sget].
  destruct (String.eqb_spec k k') as [->|N]; [|reflexivity]. apply sget_none in N1. rewrite N1. reflexivity.
Qed.
Print Assumptions filter_sees_call_arguments.
Example filter_sees_call_ex : cfg_get "p" (layer_config (FNode 0 None [("p"%string, V_str "a")] [("p"%string, V_str "b")])) = V_str "b".
Proof. reflexivity. Qed.

(* C45: a layer filter matches a node iff the node is of its layer type, has the keyword values and satisfies
   all the conditions *)
Theorem layer_filter_selects n f b : lf_match n f = Ok b -> (b = true <-> selects f n).
Proof.
  unfold lf_match, selects. destruct (is_match_type n (lf_layer f) (lf_name f)) eqn:E; cbn [negb].
  2: { intro H. injection H as <-. split; [discriminate|]. intros [K _]. apply is_match_type_spec in K. congruence. }
  apply is_match_type_spec in E.
  destruct (existsb _ (lf_kwargs f)) eqn:X.
  - intro H. injection H as <-. split; [discriminate|]. intros [_ [K _]].
    apply existsb_exists in X. destruct X as [[k v] [I X]]. cbn in X. apply negb_true_iff in X.
    apply K in I. apply val_eqb_spec in I. congruence.
  - intro H. rewrite (conds_match_spec _ _ _ H). split; [|tauto].
    intro K. split; [exact E|]. split; [|exact K]. intros k v I.
    apply val_eqb_spec. destruct (val_eqb _ _) eqn:V; [reflexivity|].
    exfalso. enough (false = true) by discriminate. rewrite <- X. apply existsb_exists. exists (k, v). split; [exact I|].
    cbn. rewrite V. reflexivity.
Qed.
Print Assumptions layer_filter_selects.

(* ---- equality ---- *)
Lemma qlist_eqb_proper a b c : Forall2 Qeq b c -> qlist_eqb a b = qlist_eqb a c.
Proof.
  intro F. apply eq_true_iff_eq. rewrite !qlist_eqb_spec. revert a.
  induction F as [|x y b c E F IH]; intro a; [tauto|]. split; intro H; inversion H; subst; constructor.
  - etransitivity; eassumption.
  - apply IH. assumption.
  - etransitivity; [eassumption|symmetry; assumption].
  - apply IH. assumption.
Qed.

Lemma qlist_lt_proper_r s a : forall b c, Forall2 Qeq b c -> qlist_lt s a b = qlist_lt s a c.
Proof.
  induction a as [|x a IH]; intros b c F; destruct F as [|y z b c E F]; cbn; try reflexivity.
  assert (Qeq_bool x y = Qeq_bool x z) as -> by (apply eq_true_iff_eq; rewrite !Qeq_bool_iff, E; reflexivity).
  destruct (Qeq_bool x z); [apply IH; assumption|]. apply eq_true_iff_eq. rewrite !Qle_bool_iff, E. reflexivity.
Qed.
Lemma qlist_lt_proper_l s : forall b c a, Forall2 Qeq b c -> qlist_lt s b a = qlist_lt s c a.
Proof.
  intros b c a F. revert a. induction F as [|y z b c E F IH]; intros [|x a]; cbn; try reflexivity.
  assert (Qeq_bool y x = Qeq_bool z x) as -> by (apply eq_true_iff_eq; rewrite !Qeq_bool_iff, E; reflexivity).
  destruct (Qeq_bool z x); [apply IH|]. apply eq_true_iff_eq. rewrite !Qle_bool_iff, E. reflexivity.
Qed.

Lemma val_lt_proper s x v w : same_val v w -> val_lt s x v = val_lt s x w /\ val_lt s v x = val_lt s w x.
Proof.
  destruct 1 as [y z E| | |l m F]; try (split; reflexivity); destruct x; cbn; try (split; reflexivity).
  - assert (Qle_bool q y = Qle_bool q z) as E1 by (apply eq_true_iff_eq; rewrite !Qle_bool_iff, E; reflexivity).
    assert (Qle_bool y q = Qle_bool z q) as E2 by (apply eq_true_iff_eq; rewrite !Qle_bool_iff, E; reflexivity).
    unfold Qlt_bool. rewrite E1, E2. split; reflexivity.
  - split; f_equal; [apply qlist_lt_proper_r|apply qlist_lt_proper_l]; assumption.
Qed.

Lemma val_eqb_proper x v w : same_val v w -> val_eqb x v = val_eqb x w.
Proof.
  intro H. apply eq_true_iff_eq. rewrite !val_eqb_spec. split; intro K; eapply same_val_trans; try eassumption.
  apply same_val_sym. assumption.
Qed.

Lemma apply_op_proper o x v w : same_val v w -> apply_op o x v = apply_op o x w.
Proof.
  intro H. destruct o; cbn [apply_op]; try apply val_lt_proper; try assumption.
  - rewrite (val_eqb_proper _ _ _ H). reflexivity.
  - rewrite (val_eqb_proper _ _ _ H). reflexivity.
  - destruct H as [y z E| | |l m F]; destruct x; cbn; try reflexivity. f_equal. induction l as [|y' l IH]; cbn; [reflexivity|].
    rewrite IH. f_equal. apply eq_true_iff_eq. rewrite !Qeq_bool_iff, E. reflexivity.
Qed.

(* one object has one content: Or/And filters with the same identity are the same filter *)
Definition coherent (a b : list filt) : Prop :=
  forall f g, In f a -> In g b ->
  match f, g with
  | F_or i l, F_or j m => i = j -> l = m
  | F_and i l, F_and j m => i = j -> l = m
  | _, _ => True
  end.

Lemma filt_eqb_match f g : coherent [f] [g] -> filt_eqb f g = true -> forall cfg, fmatch f cfg = fmatch g cfg.
Proof.
  intros C E cfg. specialize (C f g (or_introl eq_refl) (or_introl eq_refl)).
  destruct f as [a o v|i l|i l], g as [b p w|j m|j m]; cbn in E; try discriminate.
  - rewrite !andb_true_iff in E. destruct E as [[E1 E2] E3]. apply String.eqb_eq in E1. subst b.
    assert (o = p) as <- by (destruct o, p; try discriminate; reflexivity).
    apply val_eqb_spec in E2. cbn. destruct (sget a cfg); [|reflexivity]. apply apply_op_proper. assumption.
  - apply Nat.eqb_eq in E. rewrite (C E). subst. reflexivity.
  - apply Nat.eqb_eq in E. rewrite (C E). subst. reflexivity.
Qed.

(* C45: equal filters of the same layer, with as many conditions and keywords, match exactly the same nodes *)
Theorem equal_layer_filters_match_alike a b :
  coherent (lf_conds a) (lf_conds b) ->
  NoDup (skeys (lf_kwargs a)) -> NoDup (skeys (lf_kwargs b)) ->
  lf_layer a = lf_layer b -> lf_name a = lf_name b ->
  length (lf_conds a) = length (lf_conds b) ->
  length (lf_kwargs a) = length (lf_kwargs b) ->
  lf_eqb a b = true -> forall n, lf_match n a = lf_match n b.
Proof.
  intros C Na Nb El En Ec Ek E n. unfold lf_eqb in E. apply andb_true_iff in E. destruct E as [Ez Ekw].
  unfold lf_match. rewrite El, En. destruct (negb _); [reflexivity|].
  assert (forall k, match sget k (lf_kwargs a), sget k (lf_kwargs b) with
                    | Some x, Some y => val_eqb y x = true | None, None => True | _, _ => False end) as D.
  { apply (sdict_eqb_spec (fun x y => val_eqb y x)); [assumption|assumption|].
    unfold sdict_eqb. rewrite Ek, Nat.eqb_refl. cbn. exact Ekw. }
  assert (existsb (fun kv => negb (val_eqb (cfg_get (fst kv) (layer_config n)) (snd kv))) (lf_kwargs a) =
          existsb (fun kv => negb (val_eqb (cfg_get (fst kv) (layer_config n)) (snd kv))) (lf_kwargs b)) as ->.
  { apply eq_true_iff_eq. rewrite !existsb_exists. split; intros [[k v] [I X]]; cbn in X.
    - specialize (D k). rewrite (in_sget _ _ _ Na I) in D. destruct (sget k (lf_kwargs b)) as [w|] eqn:G; [|tauto].
      exists (k, w). split; [apply sget_in; assumption|]. cbn. apply val_eqb_spec in D. rewrite (val_eqb_proper _ _ _ D). exact X.
    - specialize (D k). rewrite (in_sget _ _ _ Nb I) in D. destruct (sget k (lf_kwargs a)) as [w|] eqn:G; [|tauto].
      exists (k, w). split; [apply sget_in; assumption|]. cbn. apply val_eqb_spec in D. rewrite <- (val_eqb_proper _ _ _ D). exact X. }
  destruct (existsb _ _); [reflexivity|].
  clear - C Ec Ez. revert C Ec Ez. generalize (lf_conds a) (lf_conds b). intro l.
  induction l as [|f l IH]; intros [|g m] C Ec Ez; try discriminate; [reflexivity|]. cbn in *.
  apply andb_true_iff in Ez. destruct Ez as [E1 E2].
  rewrite (filt_eqb_match f g); [|intros f' g' [<-|[]] [<-|[]]; apply C; left; reflexivity|assumption].
  destruct (fmatch g (layer_config n)) as [x|]; [cbn|reflexivity]. destruct x; [|reflexivity].
  apply IH; [intros f' g' I J; apply C; right; assumption|lia|assumption].
Qed.
Print Assumptions equal_layer_filters_match_alike.

(* every layer filter equals itself *)
Theorem layer_filter_eq_refl a : NoDup (skeys (lf_kwargs a)) -> lf_eqb a a = true.
Proof.
  intro N. unfold lf_eqb. apply andb_true_iff. split.
  - induction (lf_conds a) as [|[x o v|i l|i l] r IH]; cbn; [reflexivity| | |]; rewrite IH, andb_true_r.
    + rewrite String.eqb_refl. replace (val_eqb v v) with true by (symmetry; apply val_eqb_spec, same_val_refl). destruct o; reflexivity.
    + apply Nat.eqb_refl.
    + apply Nat.eqb_refl.
  - apply forallb_forall. intros [k v] I. cbn. rewrite (in_sget _ _ _ N I). apply val_eqb_spec, same_val_refl.
Qed.
Print Assumptions layer_filter_eq_refl.

(* findings *)
Definition k_only : lfilter := LFilter 0 "L" [] [("a"%string, V_num 1)].
Definition k_more : lfilter := LFilter 0 "L" [] [("a"%string, V_num 1); ("b"%string, V_num 2)].

(* C45 refuted: equality is not symmetric *)
Theorem layer_filter_eq_symmetric_refuted : exists a b, lf_eqb a b = true /\ lf_eqb b a = false.
Proof. exists k_only, k_more. vm_compute. auto. Qed.
Print Assumptions layer_filter_eq_symmetric_refuted.

(* C45 refuted: equal filters with the same rendered name (so the same hash) select different layers when
   two layer types share their __name__ *)
Theorem layer_filter_eq_same_layers_refuted : exists a b n,
  lf_name a = lf_name b /\ lf_conds a = lf_conds b /\ lf_kwargs a = lf_kwargs b /\
  lf_eqb a b = true /\ lf_match n a = Ok true /\ lf_match n b = Ok false.
Proof.
  exists (LFilter 0 "add" [] []), (LFilter 1 "add" [] []), (FNode 0 None [] []). vm_compute. repeat split.
Qed.
Print Assumptions layer_filter_eq_same_layers_refuted.

(* C45 refuted: equal filters have different rendered names (hash inputs): more conditions are ignored *)
Theorem layer_filter_eq_hash_refuted : exists a b, lf_eqb a b = true /\ lf_eqb b a = true /\
  lf_name a = lf_name b /\ lf_kwargs a = lf_kwargs b /\ length (lf_conds a) <> length (lf_conds b).
Proof.
  exists (LFilter 0 "L" [] []), (LFilter 0 "L" [F_attr "a" O_eq (V_num 1)] []). vm_compute. repeat split. discriminate.
Qed.
Print Assumptions layer_filter_eq_hash_refuted.

(* C45: two attribute filters combine with | and & to their disjunction and conjunction *)
Theorem filter_operators cfg i a b :
  is_attr a = true -> is_attr b = true ->
  exists f g, f_or i a b = Ok f /\ f_and i a b = Ok g /\
  (holds cfg f <-> holds cfg a \/ holds cfg b) /\ (holds cfg g <-> holds cfg a /\ holds cfg b).
Proof.
  intros Ha Hb. exists (F_or i [a; b]), (F_and i [a; b]). unfold f_or, f_and. rewrite Ha, Hb. cbn. tauto.
Qed.
Print Assumptions filter_operators.

(* C45 refuted: the operators do not nest: a combination can be combined no further *)
Theorem filter_operators_chain_refuted i j a b c f :
  f_or i a b = Ok f ->
  f_or j f c = Err E_type /\ f_and j f c = Err E_type /\ (is_attr c = true -> f_or j c f = Err E_critical).
Proof.
  unfold f_or, f_and. destruct (is_attr a); [|discriminate]. destruct (is_attr b); [|discriminate].
  intro H. injection H as <-. cbn. repeat split. intros ->. reflexivity.
Qed.
Print Assumptions filter_operators_chain_refuted.

(* the hypotheses are met by a filter with nesting evaluated on a layer with several attributes *)
Example filter_ex :
  let cfg := [("groups"%string, V_num 2); ("kernel"%string, V_tuple [3; 3]); ("pad"%string, V_str "same")] in
  let f := F_or 0 [F_and 1 [F_attr "groups" O_gt (V_num 1); F_attr "kernel" O_in (V_num 5)];
                   F_attr "pad" O_in (V_str "am")] in
  defined cfg f /\ fmatch f cfg = Ok true.
Proof. split; [|reflexivity]. cbn. repeat split; intros x H; inversion H; subst; exact I. Qed.

Example filter_error_ex : fmatch (F_attr "a" O_gt (V_num 1)) [("a"%string, V_str "x")] = Err E_type.
Proof. reflexivity. Qed.
