(* CalcProps.v -- C71: every candidate of every node gets parameters computed for its own configuration *)
From Coq Require Import String Lia.
From Verif Require Import Base SDict FilterModel FilterProps SearchModel SearchProofs CalcModel CalcSpec.
Local Open Scope list_scope.
Local Open Scope nat_scope.

Section Proofs.
  Context {T P X C R : Type}.
  Notation wattr := (wattr P X). Notation cand := (cand P X C R). Notation cnode := (cnode T P X C R).
  Variable wfn : option T -> Q -> werr -> X -> option Z -> result (P * option Z).
  Variable afn : cnode -> C -> result R.

  Lemma contains_iff s t : str_contains s t = true <-> substring t s.
  Proof. unfold substring. apply str_contains_spec. Qed.
  Lemma contains_self s : str_contains s s = true.
  Proof. apply contains_iff. exists EmptyString, EmptyString. cbn. induction s as [|x s IH]; cbn; [reflexivity|]. f_equal. exact IH. Qed.

  Lemma zget_in k (v : wattr) d : zget k d = Some v -> In (k, v) d.
  Proof. induction d as [|[k' v'] d IH]; cbn; [discriminate|]. destruct (Z.eqb_spec k k') as [->|N]; intro H; [left; congruence|right; auto]. Qed.
  Lemma in_zget k (v : wattr) d : NoDup (map fst d) -> In (k, v) d -> zget k d = Some v.
  Proof.
    induction d as [|[k' v'] d IH]; cbn; [tauto|]. intros N [E|I].
    - injection E as -> ->. rewrite Z.eqb_refl. reflexivity.
    - inversion N as [|? ? N1 N2]; subst. destruct (Z.eqb_spec k k') as [->|_]; [|auto]. exfalso. apply N1. apply in_map_iff. exists (k', v). auto.
  Qed.
  Lemma zset_keys k (v : wattr) d : In k (map fst d) -> map fst (zset k v d) = map fst d.
  Proof. induction d as [|[k' v'] d IH]; cbn; [tauto|]. intro H. destruct (Z.eqb_spec k k') as [->|N]; cbn; [reflexivity|]. f_equal. apply IH. destruct H; [congruence|assumption]. Qed.
  Lemma sset_keys k (v : wattr) d : In k (map fst d) -> map fst (sset k v d) = map fst d.
  Proof. induction d as [|[k' v'] d IH]; cbn; [tauto|]. intro H. destruct (String.eqb_spec k k') as [->|N]; cbn; [reflexivity|]. f_equal. apply IH. destruct H; [congruence|assumption]. Qed.
  Lemma zget_zset k k' (v : wattr) d : zget k (zset k' v d) = if Z.eqb k k' then Some v else zget k d.
  Proof.
    induction d as [|[k0 v0] d IH]; cbn; [reflexivity|]. destruct (Z.eqb_spec k' k0) as [->|N]; cbn.
    - destruct (Z.eqb_spec k k0); reflexivity.
    - rewrite IH. destruct (Z.eqb_spec k k0) as [->|N1]; [|reflexivity]. destruct (Z.eqb_spec k0 k'); congruence.
  Qed.

  (* exact lookup *)
  Definition look (c : cand) (a : akey) : option wattr :=
    match a with KN s => sget s (cd_named c) | KP i => zget i (cd_pos c) end.
  Definition wf (c : cand) : Prop := NoDup (map fst (cd_named c)) /\ NoDup (map fst (cd_pos c)).
  Lemma look_has c a cfg : wf c -> (look c a = Some cfg <-> has c a cfg).
  Proof.
    intros [W1 W2]. destruct a as [s|i]; cbn; split; intro H.
    - apply sget_in. exact H.
    - apply in_sget; [exact W1|exact H].
    - apply zget_in. exact H.
    - apply in_zget; [exact W2|exact H].
  Qed.
  Lemma key_exact c a cfg : wf c -> has c a cfg -> attr_key c a = Ok a /\ key_get c a = Ok cfg.
  Proof.
    intros W H. apply (look_has c a cfg W) in H. destruct a as [s|i]; cbn in *.
    - unfold key_get. rewrite H. split; [|reflexivity].
      assert (In (s, cfg) (filter (fun kv => str_contains (fst kv) s) (cd_named c))) as I.
      { apply filter_In. split; [apply sget_in; exact H|]. apply contains_self. }
      destruct (filter _ (cd_named c)) as [|[k v] [|q l]]; [destruct I| |reflexivity].
      destruct I as [E|[]]. injection E as -> ->. reflexivity.
    - unfold key_get. rewrite H. split; reflexivity.
  Qed.
  Lemma akey_dec (a b : akey) : {a = b} + {a <> b}.
  Proof. decide equality; [apply string_dec|apply Z.eq_dec]. Qed.
  Lemma look_set c k v a : look (key_set c k v) a = if akey_dec a k then Some v else look c a.
  Proof.
    destruct (akey_dec a k) as [->|N]; destruct k as [s|i]; cbn; try (rewrite sget_sset, String.eqb_refl; reflexivity); try (rewrite zget_zset, Z.eqb_refl; reflexivity);
      destruct a as [s'|i']; cbn; try reflexivity.
    - rewrite sget_sset. destruct (String.eqb_spec s' s); congruence.
    - rewrite zget_zset. destruct (Z.eqb_spec i' i); congruence.
  Qed.
  Lemma wf_set c k v cfg : wf c -> has c k cfg -> wf (key_set c k v).
  Proof.
    intros [W1 W2] H. destruct k as [s|i]; cbn in H; split; cbn; auto.
    - rewrite sset_keys; [exact W1|]. apply in_map_iff. exists (s, cfg). auto.
    - rewrite zset_keys; [exact W2|]. apply in_map_iff. exists (i, cfg). auto.
  Qed.
  Lemma set_rest (c : cand) k v : cd_min_th (key_set c k v) = cd_min_th c /\ cd_act (key_set c k v) = cd_act c /\ cd_act_params (key_set c k v) = cd_act_params c.
  Proof. destruct k; cbn; auto. Qed.

  Lemma weight_names_in a : forall (ws : list (akey * T)) l, weight_names a ws = Ok l -> NoDup (map fst ws) ->
    (forall s x t y, a = KN s -> In (KN s, x) ws -> In (KN t, y) ws -> substring s t -> s = t) ->
    forall t, In (a, t) ws -> l = [t].
  Proof.
    assert (forall ws l, weight_names a ws = Ok l -> (forall k t, In (k, t) ws -> k <> a) ->
       (forall s t y, a = KN s -> In (KN t, y) ws -> ~ substring s t) -> l = @nil T) as Z0.
    { induction ws as [|[k x] ws IH]; intros l H N U; cbn in H; [injection H as <-; reflexivity|].
      assert (forall r, weight_names a ws = Ok r -> r = []) as IH'.
      { intros r Er. apply (IH r Er); [intros k' t' I'; apply (N k' t'); right; exact I'|intros s t y E I; apply (U s t y E); right; exact I]. }
      destruct k as [k|i], a as [s|j]; cbn [bind] in H; try discriminate;
        destruct (weight_names _ ws) as [r|]; try discriminate; cbn [bind] in H; injection H as <-; rewrite (IH' r eq_refl).
      - destruct (str_contains k s) eqn:E; [|reflexivity]. exfalso. apply (U s k x eq_refl (or_introl eq_refl)). apply contains_iff. exact E.
      - reflexivity.
      - destruct (Z.eqb_spec j i) as [->|]; [|reflexivity]. exfalso. apply (N (KP i) x (or_introl eq_refl)). reflexivity. }
    induction ws as [|[k x] ws IH]; intros l H N U t I; [destruct I|]. cbn [map fst] in N. inversion N as [|? ? N1 N2]; subst. cbn [weight_names] in H.
    destruct I as [E|I].
    - injection E as -> ->. assert (forall r, weight_names a ws = Ok r -> r = []) as Er.
      { intros r Er. apply (Z0 ws r Er).
        - intros k t' I' ->. apply N1. apply in_map_iff. exists (a, t'). auto.
        - intros s t' y -> I' Hs. assert (s = t') as <- by (apply (U s t t' y eq_refl (or_introl eq_refl) (or_intror I') Hs)).
          apply N1. apply in_map_iff. exists (KN s, y). auto. }
      destruct a as [s|i]; cbn [bind] in H.
      + rewrite contains_self in H. destruct (weight_names _ ws) as [r|]; [|discriminate]. cbn [bind] in H. rewrite (Er r eq_refl) in H. congruence.
      + rewrite Z.eqb_refl in H. destruct (weight_names _ ws) as [r|]; [|discriminate]. cbn [bind] in H. rewrite (Er r eq_refl) in H. congruence.
    - assert (forall r, weight_names a ws = Ok r -> r = [t]) as Er.
      { intros r Er. apply (IH r Er N2); [|exact I]. intros s x' t' y E I1 I2 Hs. apply (U s x' t' y E); [right|right|]; assumption. }
      destruct k as [k|i], a as [s|j]; cbn [bind] in H; try discriminate; destruct (weight_names _ ws) as [r|]; try discriminate; cbn [bind] in H; injection H as <-; rewrite (Er r eq_refl).
      + destruct (str_contains k s) eqn:E; [|reflexivity]. exfalso. apply contains_iff in E.
        assert (s = k) as <- by (apply (U s t k x eq_refl (or_intror I) (or_introl eq_refl) E)). apply N1. apply in_map_iff. exists (KN s, t). auto.
      + reflexivity.
      + destruct (Z.eqb_spec j i) as [->|]; [|reflexivity]. exfalso. apply N1. apply in_map_iff. exists (KP i, t). auto.
  Qed.
  Lemma weight_exact (n : cnode) a t w : unambiguous n -> In (a, t) (kn_weights n) -> weight_by_key a (kn_weights n) = Ok w -> w = Some t.
  Proof.
    intros [N U] I H. unfold weight_by_key in H. destruct (weight_names a (kn_weights n)) as [l|] eqn:E; [|discriminate]. cbn [bind] in H. injection H as <-.
    rewrite (weight_names_in a _ l E N) with (t := t); [reflexivity| |exact I]. intros s x t' y _ I1 I2. apply (U s t' x y I1 I2).
  Qed.

  Lemma enabled_iff (n : cnode) a b : Forall wf (kn_cands n) -> (forall c, In c (kn_cands n) -> exists cfg, has c a cfg) ->
    attr_enabled n a = Ok b -> (b = true <-> quantized n a).
  Proof.
    intros W Hh H. unfold attr_enabled in H. destruct (mapM _ (kn_cands n)) as [cfgs|] eqn:E; [|discriminate]. cbn [bind] in H. injection H as <-.
    apply mapM_Forall2 in E. unfold quantized. rewrite Forall_forall in W.
    assert (Forall2 (fun c cfg => has c a cfg) (kn_cands n) cfgs) as F.
    { revert cfgs E W Hh. generalize (kn_cands n) as cs. induction cs as [|c cs IH]; intros cfgs E W Hh; inversion E; subst; constructor.
      - destruct (Hh c (or_introl eq_refl)) as [cfg Hc]. destruct (key_exact c a cfg (W c (or_introl eq_refl)) Hc) as [K1 K2].
        unfold attr_config in H1. rewrite K1 in H1. cbn [bind] in H1. rewrite K2 in H1. injection H1 as <-. exact Hc.
      - apply IH; auto; intros; [apply W|apply Hh]; right; assumption. }
    clear E Hh. split.
    - intros Hb c cfg Ic Hc. induction F as [|c0 cfg0 cs cfgs H0 F IH]; [destruct Ic|]. cbn in Hb. apply andb_true_iff in Hb. destruct Hb as [Hb1 Hb2].
      destruct Ic as [->|Ic]; [|apply IH; auto; intros; apply W; right; assumption].
      apply (look_has c a _ (W c (or_introl eq_refl))) in H0. apply (look_has c a _ (W c (or_introl eq_refl))) in Hc. congruence.
    - intro Hq. induction F as [|c0 cfg0 cs cfgs H0 F IH]; [reflexivity|]. cbn. rewrite (Hq c0 cfg0 (or_introl eq_refl) H0). cbn.
      apply IH; [intros; apply W; right; assumption|]. intros c cfg Ic. apply Hq. right. exact Ic.
  Qed.

  Lemma err_lem (n : cnode) a e0 e : effective_err n a e0 = Ok e -> err_used n a e0 e.
  Proof.
    unfold effective_err, err_used. destruct e0; try (intro H; injection H as <-; split; [reflexivity|split; discriminate]).
    intro H. split; [congruence|]. destruct (kn_kernel n) as [k|] eqn:Ek.
    - destruct a as [s|i]; [|discriminate]. injection H as <-. split; intros _ Hk.
      + destruct Hk as (k' & s' & E1 & E2 & E3). rewrite Ek in E1. injection E1 as <-. injection E2 as <-. apply contains_iff in E3. rewrite E3. reflexivity.
      + destruct (str_contains s k) eqn:E; [|reflexivity]. exfalso. apply Hk. exists k, s. split; [exact Ek|]. split; [reflexivity|]. apply contains_iff. exact E.
    - injection H as <-. split; intros _ Hk; [|reflexivity]. destruct Hk as (k' & s' & E1 & _). congruence.
  Qed.

  (* one attribute *)
  Lemma attr_lem (n : cnode) c0 c a t c' : unambiguous n -> Forall wf (kn_cands n) -> (forall d, In d (kn_cands n) -> exists cfg, has d a cfg) -> wf c ->
    (exists cfg, has c a cfg) -> cd_min_th c = cd_min_th c0 -> In (a, t) (kn_weights n) -> calc_attr wfn n c a = Ok c' ->
    wf c' /\ cd_min_th c' = cd_min_th c /\ cd_act c' = cd_act c /\ cd_act_params c' = cd_act_params c /\
    (forall b, b <> a -> look c' b = look c b) /\
    exists cfg cfg', look c a = Some cfg /\ look c' a = Some cfg' /\ (quantized n a -> computed wfn n c0 a t cfg cfg') /\ (~ quantized n a -> cfg' = cfg).
  Proof.
    intros U W Hh Wc [cfg Hc] Em It H. unfold calc_attr in H.
    destruct (attr_enabled n a) as [en|] eqn:E1; [|discriminate]. cbn [bind] in H. pose proof (enabled_iff n a en W Hh E1) as Q.
    pose proof (proj2 (look_has c a cfg Wc) Hc) as Lc. destruct en; cbn [negb] in H.
    2:{ injection H as <-. split; [exact Wc|]. repeat (split; [auto|]). exists cfg, cfg. split; [exact Lc|]. split; [exact Lc|]. split; [|auto].
        intro Hq. apply Q in Hq. discriminate. }
    destruct (key_exact c a cfg Wc Hc) as [K1 K2]. rewrite K1 in H. cbn [bind] in H. rewrite K2 in H. cbn [bind] in H.
    destruct (effective_err n a (wa_err cfg)) as [e|] eqn:E2; [|discriminate]. cbn [bind] in H.
    destruct (weight_by_key a (kn_weights n)) as [w|] eqn:E3; [|discriminate]. cbn [bind] in H. rewrite (weight_exact n a t w U It E3) in H.
    destruct (wfn _ _ _ _ _) as [[p ax]|] eqn:E4; [|discriminate]. cbn [bind] in H.
    destruct (wa_axis cfg) as [[i j]|] eqn:E5; [|discriminate]. destruct ax as [o|]; [|discriminate]. injection H as <-.
    destruct (set_rest c a {| wa_enabled := wa_enabled cfg; wa_err := wa_err cfg; wa_axis := Some (o, j); wa_rest := wa_rest cfg; wa_params := Some p |}) as (R1 & R2 & R3).
    split; [eapply wf_set; eauto|]. split; [exact R1|]. split; [exact R2|]. split; [exact R3|].
    split; [intros b Hb; rewrite look_set; destruct (akey_dec b a); [contradiction|reflexivity]|].
    exists cfg. eexists. split; [exact Lc|]. split; [rewrite look_set; destruct (akey_dec a a); [reflexivity|contradiction]|].
    split; [|intro Hn; exfalso; apply Hn; apply Q; reflexivity]. intros _. exists e, p, i, o, j. split; [exact E5|]. split; [apply err_lem; exact E2|].
    split; [rewrite <- Em; exact E4|reflexivity].
  Qed.

  Lemma attrs_lem (n : cnode) c0 : unambiguous n -> Forall wf (kn_cands n) -> (forall d a t, In d (kn_cands n) -> In (a, t) (kn_weights n) -> exists cfg, has d a cfg) ->
    forall ws c c', incl ws (kn_weights n) -> NoDup (map fst ws) -> wf c -> (forall a t, In (a, t) ws -> exists cfg, has c a cfg) ->
    cd_min_th c = cd_min_th c0 -> foldM (calc_attr wfn n) (map fst ws) c = Ok c' ->
    wf c' /\ cd_min_th c' = cd_min_th c /\ cd_act c' = cd_act c /\ cd_act_params c' = cd_act_params c /\
    (forall b, ~ In b (map fst ws) -> look c' b = look c b) /\
    forall a t, In (a, t) ws -> exists cfg cfg', look c a = Some cfg /\ look c' a = Some cfg' /\ (quantized n a -> computed wfn n c0 a t cfg cfg') /\ (~ quantized n a -> cfg' = cfg).
  Proof.
    intros U W Hh. induction ws as [|[a t] ws IH]; intros c c' Hi N Wc Hc Em H; cbn [map fst foldM] in H.
    - injection H as <-. split; [exact Wc|]. repeat (split; [auto|]). intros a t [].
    - destruct (calc_attr wfn n c a) as [c1|] eqn:E; [|discriminate]. cbn [bind] in H. cbn [map fst] in N. inversion N as [|? ? N1 N2]; subst.
      assert (In (a, t) (kn_weights n)) as It by (apply Hi; left; reflexivity).
      destruct (attr_lem n c0 c a t c1 U W) as (A1 & A2 & A3 & A4 & A5 & cfg & cfg' & A6 & A7 & A8 & A9); auto.
      { intros d Id. apply (Hh d a t Id It). }
      { apply (Hc a t). left. reflexivity. }
      assert (forall b u, In (b, u) ws -> b <> a) as Hne by (intros b u Iu ->; apply N1; apply in_map_iff; exists (a, u); auto).
      destruct (IH c1 c') as (B1 & B2 & B3 & B4 & B5 & B6); auto.
      { intros x Hx. apply Hi. right. exact Hx. }
      { intros b u Iu. destruct (Hc b u (or_intror Iu)) as [g Hg]. exists g. apply (look_has c1 b g A1). rewrite A5 by (eapply Hne; eassumption). apply look_has; assumption. }
      { congruence. }
      split; [exact B1|]. split; [congruence|]. split; [congruence|]. split; [congruence|]. split.
      + intros b Hb. cbn [map fst In] in Hb. rewrite B5 by tauto. apply A5. intro; apply Hb; left; congruence.
      + intros b u [E'|Iu].
        * injection E' as <- <-. exists cfg, cfg'. split; [exact A6|]. split; [rewrite B5 by exact N1; exact A7|]. auto.
        * destruct (B6 b u Iu) as (g & g' & G1 & G2 & G3 & G4). exists g, g'. split; [rewrite <- A5 by (eapply Hne; eassumption); exact G1|]. auto.
  Qed.

  (* C71.  After the search every candidate has, for each weights attribute that is quantized, parameters computed
     from that attribute's tensor under that candidate's own configuration, and for the activation (if quantized)
     parameters computed under its own activation configuration; nothing else has changed. *)
Theorem each_candidate_own_parameters : forall n n', unambiguous n -> Forall (well_configured n) (kn_cands n) ->
    calc_node wfn afn n = Ok n' ->
    kn_weights n' = kn_weights n /\ kn_kernel n' = kn_kernel n /\ kn_act n' = kn_act n /\
    Forall2 (fun c c' =>
      cd_min_th c' = cd_min_th c /\ cd_act c' = cd_act c /\
      (kn_act n = false -> cd_act_params c' = cd_act_params c) /\
      (kn_act n = true -> exists r, afn n (cd_act c) = Ok r /\ cd_act_params c' = Some r) /\
      (forall a t cfg, In (a, t) (kn_weights n) -> has c a cfg ->
         exists cfg', has c' a cfg' /\ (quantized n a -> computed wfn n c a t cfg cfg') /\ (~ quantized n a -> cfg' = cfg)) /\
      (forall a, ~ In a (map fst (kn_weights n)) -> forall cfg, has c' a cfg <-> has c a cfg)) (kn_cands n) (kn_cands n').
  Proof.
    intros n n' U W H. unfold calc_node in H. destruct (mapM _ (kn_cands n)) as [cs|] eqn:E; [|discriminate]. cbn [bind] in H. injection H as <-. cbn.
    repeat (split; [reflexivity|]). apply mapM_Forall2 in E. rewrite Forall_forall in W.
    assert (Forall wf (kn_cands n)) as Wf by (apply Forall_forall; intros c Ic; destruct (W c Ic) as (A & B & _); split; assumption).
    assert (forall d a t, In d (kn_cands n) -> In (a, t) (kn_weights n) -> exists cfg, has d a cfg) as Hh by (intros d a t Id It; destruct (W d Id) as (_ & _ & Hd); eapply Hd; eassumption).
    rewrite Forall_forall in Wf.
    assert (forall c c', In c (kn_cands n) -> calc_cand wfn afn n c = Ok c' ->
       cd_min_th c' = cd_min_th c /\ cd_act c' = cd_act c /\
      (kn_act n = false -> cd_act_params c' = cd_act_params c) /\
      (kn_act n = true -> exists r, afn n (cd_act c) = Ok r /\ cd_act_params c' = Some r) /\
      (forall a t cfg, In (a, t) (kn_weights n) -> has c a cfg ->
         exists cfg', has c' a cfg' /\ (quantized n a -> computed wfn n c a t cfg cfg') /\ (~ quantized n a -> cfg' = cfg)) /\
      (forall a, ~ In a (map fst (kn_weights n)) -> forall cfg, has c' a cfg <-> has c a cfg)) as G.
    { intros c c' Ic Hc. unfold calc_cand in Hc. destruct (foldM _ _ c) as [c1|] eqn:E1; [|discriminate]. cbn [bind] in Hc.
      assert (Forall wf (kn_cands n)) as Wf' by (apply Forall_forall; exact Wf).
      destruct (attrs_lem n c U Wf' Hh (kn_weights n) c c1) as (B1 & B2 & B3 & B4 & B5 & B6); auto; [apply incl_refl|apply (proj1 U)|intros a t It; apply (Hh c a t Ic It)|].
      assert (wf c) as Wc by (apply Wf; exact Ic).
      assert (forall c2 : cand, cd_named c2 = cd_named c1 -> cd_pos c2 = cd_pos c1 ->
         (forall a t cfg, In (a, t) (kn_weights n) -> has c a cfg ->
         exists cfg', has c2 a cfg' /\ (quantized n a -> computed wfn n c a t cfg cfg') /\ (~ quantized n a -> cfg' = cfg)) /\
      (forall a, ~ In a (map fst (kn_weights n)) -> forall cfg, has c2 a cfg <-> has c a cfg)) as G2.
      { intros c2 H1 H2. assert (forall a g, has c2 a g <-> has c1 a g) as Eh by (intros [s|i] g; cbn; rewrite ?H1, ?H2; tauto).
        split.
        - intros a t cfg It Hcfg. destruct (B6 a t It) as (g & g' & G1 & G3 & G4 & G5). apply (look_has c a cfg Wc) in Hcfg.
          assert (g = cfg) by congruence. subst g. exists g'. split; [apply Eh; apply look_has; assumption|]. auto.
        - intros a Na cfg. rewrite Eh, <- !look_has by assumption. rewrite B5 by exact Na. tauto. }
      destruct (kn_act n).
      - destruct (afn n (cd_act c1)) as [r|] eqn:Ea; [|discriminate]. cbn [bind] in Hc. injection Hc as <-. cbn [cd_min_th cd_act cd_act_params].
        split; [exact B2|]. split; [exact B3|]. split; [discriminate|]. split; [intros _; exists r; rewrite <- B3; auto|]. apply G2; reflexivity.
      - injection Hc as <-. split; [exact B2|]. split; [exact B3|]. split; [intros _; exact B4|]. split; [discriminate|]. apply G2; reflexivity. }
    clear - E G. revert cs E G. generalize (kn_cands n) at 1 2 3 as l. intros l cs E G. 
    induction E; constructor; [apply G; [left; reflexivity|assumption]|]. apply IHE. intros c c' Ic. apply G. right. exact Ic.
  Qed.

  (* A weight for which some candidate has no configuration at all stops the search. *)
Theorem unconfigured_weight_refused : forall (n : cnode) c a t, In c (kn_cands n) -> In (a, t) (kn_weights n) ->
    unconfigured c a -> is_ok (calc_node wfn afn n) = false.
  Proof.
    intros n c a t Ic It Hu.
    assert (attr_config c a = Err E_critical) as Ec.
    { unfold attr_config, attr_key. destruct a as [s|i]; cbn in Hu.
      - replace (filter (fun kv => str_contains (fst kv) s) (cd_named c)) with (@nil (string * wattr)); [reflexivity|].
        symmetry. clear -Hu. induction (cd_named c) as [|[k cfg] l IH]; [reflexivity|]. cbn.
        destruct (str_contains k s) eqn:E; [|apply IH; intros k' g I; apply (Hu k' g); right; exact I].
        exfalso. apply (Hu k cfg); [left; reflexivity|]. apply contains_iff. exact E.
      - replace (zget i (cd_pos c)) with (@None wattr); [reflexivity|]. symmetry. clear -Hu. induction (cd_pos c) as [|[k cfg] l IH]; [reflexivity|]. cbn.
        destruct (Z.eqb_spec i k) as [->|]; [exfalso; apply (Hu cfg); left; reflexivity|]. apply IH. intros g I. apply (Hu g). right. exact I. }
    assert (is_ok (attr_enabled n a) = false) as Ee.
    { unfold attr_enabled. destruct (mapM _ (kn_cands n)) as [l|] eqn:E; [|reflexivity]. exfalso. apply mapM_Forall2 in E.
      clear -E Ic Ec. induction E; [destruct Ic|]. destruct Ic as [->|Ic]; [congruence|auto]. }
    unfold calc_node. destruct (mapM _ (kn_cands n)) as [l|] eqn:E; [|reflexivity]. exfalso. apply mapM_Forall2 in E.
    assert (exists c', calc_cand wfn afn n c = Ok c') as [c' Hc] by (clear -E Ic; induction E; [destruct Ic|]; destruct Ic as [->|Ic]; eauto).
    unfold calc_cand in Hc. destruct (foldM _ _ c) as [c1|] eqn:Ef; [|discriminate]. clear Hc E.
    assert (In a (map fst (kn_weights n))) as Ia by (apply in_map_iff; exists (a, t); auto).
    revert Ef Ia. generalize (map fst (kn_weights n)) as l0. clear -Ee. intro l0. revert c c1. induction l0 as [|b l0 IH]; intros c c1 Ef Ia; [destruct Ia|].
    cbn [foldM] in Ef. destruct (calc_attr wfn n c b) as [c2|] eqn:E2; [|discriminate]. cbn [bind] in Ef.
    destruct Ia as [->|Ia]; [|eapply IH; eassumption]. unfold calc_attr in E2. destruct (attr_enabled n a); [discriminate|]. discriminate.
  Qed.

  (* Only the nodes asked for are touched; the order of the graph is kept. *)
Theorem only_requested_nodes : forall nodes g g', nodes <> [] -> calc_graph wfn afn nodes g = Ok g' ->
    length g' = length g /\ forall i n, nth_error g i = Some n ->
      exists n', nth_error g' i = Some n' /\ (In i nodes -> calc_node wfn afn n = Ok n') /\ (~ In i nodes -> n' = n).
  Proof.
    intros nodes g g' Hn H. unfold calc_graph in H. replace (match nodes with [] => seq 0 (length g) | _ :: _ => nodes end) with nodes in H by (destruct nodes; [contradiction|reflexivity]).
    apply mapM_Forall2 in H. 
    assert (forall k, Forall2 (fun x y => (if existsb (Nat.eqb (fst x)) nodes then calc_node wfn afn (snd x) else Ok (snd x)) = Ok y) (combine (seq k (length g)) g) g' ->
      length g' = length g /\ forall i n, nth_error g i = Some n -> exists n', nth_error g' i = Some n' /\ (In (k + i) nodes -> calc_node wfn afn n = Ok n') /\ (~ In (k + i) nodes -> n' = n)) as G.
    { clear H. revert g'. induction g as [|n g IH]; intros g' k F; inversion F; subst; [split; [reflexivity|intros [|i] m; discriminate]|].
      cbn [fst snd] in H1. destruct (IH _ (S k) H3) as [L I]. split; [cbn; lia|]. intros [|i] m Hm; cbn [nth_error] in *.
      - injection Hm as <-. eexists. split; [reflexivity|]. rewrite Nat.add_0_r. destruct (existsb (Nat.eqb k) nodes) eqn:Ex.
        + apply existsb_exists in Ex. destruct Ex as (x & Ix & Ex). apply Nat.eqb_eq in Ex. subst x. tauto.
        + split; [|intros _; congruence]. intro Hk. exfalso. assert (existsb (Nat.eqb k) nodes = true); [|congruence]. apply existsb_exists. exists k. rewrite Nat.eqb_refl. auto.
      - destruct (I i m Hm) as (n' & A & B & D). exists n'. rewrite <- Nat.add_succ_comm. auto. }
    apply (G 0). exact H.
  Qed.

  (* Hessian scores are requested for exactly the nodes with a quantized kernel all of whose candidates ask for HMSE. *)
Theorem hessian_requested_for : forall (n : cnode) b k t, unambiguous n -> Forall (well_configured n) (kn_cands n) ->
    kn_kernel n = Some k -> In (KN k, t) (kn_weights n) -> hmse_node n = Ok b ->
    (b = true <-> quantized n (KN k) /\ forall c cfg, In c (kn_cands n) -> has c (KN k) cfg -> wa_err cfg = WE_hmse).
  Proof.
    intros n b k t U W Hk It H. rewrite Forall_forall in W.
    assert (forall c, In c (kn_cands n) -> wf c) as Wf by (intros c Ic; destruct (W c Ic) as (A & B & _); split; assumption).
    assert (forall c, In c (kn_cands n) -> exists cfg, has c (KN k) cfg) as Hh by (intros d Id; destruct (W d Id) as (_ & _ & Hd); eapply Hd; eassumption).
    unfold hmse_node in H. rewrite Hk in H. destruct (attr_enabled n (KN k)) as [en|] eqn:E1; [|discriminate]. cbn [bind] in H.
    assert (Forall wf (kn_cands n)) as Wf' by (apply Forall_forall; exact Wf). pose proof (enabled_iff n (KN k) en Wf' Hh E1) as Q.
    destruct en; cbn [negb] in H; [|injection H as <-; split; [discriminate|intros [Hq _]; apply Q in Hq; discriminate]].
    destruct (mapM _ (kn_cands n)) as [cfgs|] eqn:E; [|discriminate]. cbn [bind] in H. injection H as <-. apply mapM_Forall2 in E.
    assert (Forall2 (fun c cfg => forall cfg2, has c (KN k) cfg2 <-> cfg2 = cfg) (kn_cands n) cfgs) as F.
    { clear - E Wf Hh. revert cfgs E Wf Hh. generalize (kn_cands n) as cs. induction cs as [|c cs IH]; intros cfgs E W Hh; inversion E; subst; constructor.
      - destruct (Hh c (or_introl eq_refl)) as [cfg Hc]. assert (wf c) as Wc by (apply W; left; reflexivity). destruct (key_exact c (KN k) cfg Wc Hc) as [K1 K2].
        unfold attr_config in H1. rewrite K1 in H1. cbn [bind] in H1. rewrite K2 in H1. injection H1 as <-. intro g. rewrite <- look_has by exact Wc.
        apply (look_has c (KN k) cfg Wc) in Hc. split; congruence.
      - apply IH; auto; intros; [apply W|apply Hh]; right; assumption. }
    split.
    - intro Hb. split; [apply Q; reflexivity|]. intros c cfg Ic Hc. clear - F Hb Ic Hc. induction F as [|c0 g0 cs cfgs H0 F IH]; [destruct Ic|].
      cbn in Hb. apply andb_true_iff in Hb. destruct Hb as [Hb1 Hb2]. destruct Ic as [->|Ic]; [|auto]. apply H0 in Hc. subst cfg. destruct (wa_err g0); congruence.
    - intros [_ Ha]. clear - F Ha. induction F as [|c0 g0 cs cfgs H0 F IH]; [reflexivity|]. cbn.
      rewrite (Ha c0 g0 (or_introl eq_refl) (proj2 (H0 g0) eq_refl)). cbn. apply IH. intros c cfg Ic. apply Ha. right. exact Ic.
  Qed.
End Proofs.
Print Assumptions each_candidate_own_parameters.
Print Assumptions unconfigured_weight_refused.
Print Assumptions only_requested_nodes.
Print Assumptions hessian_requested_for.
