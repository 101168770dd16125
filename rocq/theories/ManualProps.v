(* ManualProps.v -- C21: manually requested bit-widths. *)
From Coq Require Import String Ascii.
From Verif Require Import Base SDict MPModel MPProofs HessianModel HessianProofs FilterModel FilterProps PlatModel SearchProofs LookupModel CandModel CandSpec CandProps ManualModel ManualSpec.
Local Open Scope list_scope.

(* ---- activation requests ---- *)
Lemma set_all_get (b : Z) ns : forall d id,
  dict_get id (fold_left (fun d n => dict_set (mn_id n) b d) ns d) =
  if existsb (fun n => Nat.eqb id (mn_id n)) ns then Some b else dict_get id d.
Proof.
  induction ns as [|n ns IH]; intros d id; cbn [fold_left existsb]; [reflexivity|]. rewrite IH, dict_get_set.
  destruct (Nat.eqb id (mn_id n)); cbn [orb]; [destruct (existsb _ ns); reflexivity|reflexivity].
Qed.
Lemma exists_id g p n : NoDup (map mn_id g) -> In n g -> existsb (fun m => Nat.eqb (mn_id n) (mn_id m)) (filter p g) = p n.
Proof.
  intros N I. destruct (p n) eqn:E.
  - apply existsb_exists. exists n. split; [apply filter_In; auto|apply Nat.eqb_refl].
  - apply not_true_is_false. intro H. apply existsb_exists in H. destruct H as [m [J K]]. apply filter_In in J. destruct J as [J F].
    apply Nat.eqb_eq in K. assert (m = n); [|congruence]. clear - N I J K. induction g as [|x g IH]; [destruct I|]. cbn in N. inversion N as [|? ? N1 N2]; subst.
    destruct I as [->|I], J as [->|J]; auto; exfalso; apply N1; [rewrite K|rewrite <- K]; apply in_map; assumption.
Qed.

Lemma act_get g reqs : NoDup (map mn_id g) -> forall d d',
  foldM (fun d r => match filter (ar_filter r) g with [] => Err E_critical
                    | ns => Ok (fold_left (fun d n => dict_set (mn_id n) (ar_bits r) d) ns d) end) reqs d = Ok d' ->
  (forall r, In r reqs -> exists n, In n g /\ ar_filter r n = true) /\
  forall n, In n g -> dict_get (mn_id n) d' =
    match option_map ar_bits (last_match (fun r => ar_filter r n) reqs) with Some b => Some b | None => dict_get (mn_id n) d end.
Proof.
  intro N. induction reqs as [|r reqs IH]; intros d d' H; cbn [foldM] in H; [inversion H; split; [intros r []|reflexivity]|].
  destruct (filter (ar_filter r) g) as [|m ms] eqn:F; [discriminate|]. cbn [bind] in H. rewrite <- F in H. destruct (IH _ _ H) as [A B]. split.
  - intros r' [<-|I]; [|auto]. exists m. apply filter_In. rewrite F. left; reflexivity.
  - intros n I. rewrite (B n I), set_all_get, (exists_id g _ n N I). cbn [last_match].
    destruct (last_match _ reqs); cbn [option_map]; [reflexivity|]. destruct (ar_filter r n); reflexivity.
Qed.
Lemma act_total g reqs : (forall r, In r reqs -> exists n, In n g /\ ar_filter r n = true) -> forall d, exists d',
  foldM (fun d r => match filter (ar_filter r) g with [] => Err E_critical
                    | ns => Ok (fold_left (fun d n => dict_set (mn_id n) (ar_bits r) d) ns d) end) reqs d = Ok d'.
Proof.
  induction reqs as [|r reqs IH]; intros H d; cbn [foldM]; [eauto|].
  destruct (filter (ar_filter r) g) as [|m ms] eqn:F.
  - exfalso. destruct (H r (or_introl eq_refl)) as [n [I E]]. assert (In n (filter (ar_filter r) g)) as J by (apply filter_In; auto). rewrite F in J. destruct J.
  - cbn [bind]. apply IH. intros r' I. apply H. right; exact I.
Qed.

(* ---- weights requests ---- *)
Definition wlook (d : list (nat * list (string * Z))) id a : option Z := match dict_get id d with Some m => sget a m | None => None end.
Definition wgood (d : list (nat * list (string * Z))) := forall id m, dict_get id d = Some m -> NoDup (skeys m) /\ m <> [].
Lemma sset_nonempty {V} k (v : V) d : sset k v d <> [].
Proof. destruct d as [|[a b] d]; cbn; [discriminate|]. destruct (String.eqb k a); discriminate. Qed.

Lemma step_spec r d n d' : weights_step r d n = Ok d' -> wgood d ->
  exists a m, wr_attr r = W_name a /\ d' = dict_set (mn_id n) m d /\ NoDup (skeys m) /\ m <> [] /\
    forall k, sget k m = if String.eqb k a then Some (wr_bits r) else wlook d (mn_id n) k.
Proof.
  unfold weights_step. intros H G. destruct (mn_attrs n) as [|x xs]; [discriminate|].
  destruct (requested_attrs (wr_attr r) (x :: xs)) as [[|h hs]|]; cbn [bind] in H; try discriminate.
  destruct (wr_attr r) as [i|a]; [discriminate|].
  destruct (dict_get (mn_id n) d) as [m|] eqn:E; cbn [bind] in H.
  - destruct (scan_keys a (skeys m)); cbn [bind] in H; [|discriminate]. inversion H; subst d'. exists a, (sset a (wr_bits r) m).
    destruct (G _ _ E) as [Nm _]. split; [reflexivity|]. split; [reflexivity|]. split; [apply sset_nodup, Nm|]. split; [apply sset_nonempty|].
    intro k. rewrite sget_sset. unfold wlook. rewrite E. reflexivity.
  - inversion H; subst d'. exists a, (sset a (wr_bits r) []). split; [reflexivity|]. split; [reflexivity|].
    split; [apply sset_nodup; constructor|]. split; [apply sset_nonempty|]. intro k. rewrite sget_sset. unfold wlook. rewrite E. reflexivity.
Qed.
Lemma steps_spec r ns : forall d d', foldM (weights_step r) ns d = Ok d' -> wgood d -> ns <> [] ->
  wgood d' /\ exists a, wr_attr r = W_name a /\
  (forall id, dict_get id d' = None <-> dict_get id d = None /\ ~ In id (map mn_id ns)) /\
  (forall id k, wlook d' id k = if existsb (fun n => Nat.eqb id (mn_id n)) ns && String.eqb k a then Some (wr_bits r) else wlook d id k).
Proof.
  assert (Q : forall d n d', weights_step r d n = Ok d' -> wgood d -> wgood d' /\ exists a, wr_attr r = W_name a /\
    (forall id, dict_get id d' = None <-> dict_get id d = None /\ id <> mn_id n) /\
    (forall id k, wlook d' id k = if Nat.eqb id (mn_id n) && String.eqb k a then Some (wr_bits r) else wlook d id k)).
  { intros d n d' H G. destruct (step_spec r d n d' H G) as [a [m [Ea [-> [Nm [Ne L]]]]]]. split.
    - intros id m' E. rewrite dict_get_set in E. destruct (Nat.eqb id (mn_id n)); [inversion E; subst; auto|eauto].
    - exists a. split; [exact Ea|]. split.
      + intro id. rewrite dict_get_set. destruct (Nat.eqb_spec id (mn_id n)) as [->|Hn]; [split; [discriminate|intros [_ X]; congruence]|tauto].
      + intros id k. unfold wlook at 1. rewrite dict_get_set. destruct (Nat.eqb_spec id (mn_id n)) as [->|Hn]; cbn [andb]; [apply L|reflexivity]. }
  induction ns as [|n ns IH]; intros d d' H G Ne; [congruence|]. cbn [foldM] in H.
  destruct (weights_step r d n) as [d1|] eqn:E; cbn [bind] in H; [|discriminate]. destruct (Q _ _ _ E G) as [G1 [a [Ea [D1 L1]]]].
  destruct ns as [|n2 ns].
  - cbn [foldM] in H. inversion H; subst d'. split; [exact G1|]. exists a. split; [exact Ea|]. split.
    + intro id. rewrite D1. cbn [map In]. intuition congruence.
    + intros id k. rewrite L1. cbn [existsb]. rewrite orb_false_r. reflexivity.
  - destruct (IH _ _ H G1 ltac:(discriminate)) as [G' [a' [Ea' [D2 L2]]]]. assert (a' = a) by congruence. subst a'. split; [exact G'|].
    exists a. split; [exact Ea|]. split.
    + intro id. rewrite D2, D1. cbn [map In]. intuition congruence.
    + intros id k. rewrite L2, L1. remember (n2 :: ns) as q. cbn [existsb]. destruct (Nat.eqb id (mn_id n)), (existsb _ q), (String.eqb k a); reflexivity.
Qed.

Lemma foldM_cons {A S0} (f : S0 -> A -> result S0) x l s : foldM f (x :: l) s = bind (f s x) (fun s' => foldM f l s').
Proof. reflexivity. Qed.
Lemma weights_get g reqs : NoDup (map mn_id g) -> forall d d',
  foldM (fun d r => match filter (wr_filter r) g with [] => Err E_critical | ns => foldM (weights_step r) ns d end) reqs d = Ok d' -> wgood d ->
  wgood d' /\ (forall r, In r reqs -> exists n, In n g /\ wr_filter r n = true) /\
  forall n, In n g ->
    (dict_get (mn_id n) d' = None <-> dict_get (mn_id n) d = None /\ forall r, In r reqs -> wr_filter r n = false) /\
    forall a, wlook d' (mn_id n) a =
      match option_map wr_bits (last_match (fun r => wr_filter r n && is_name a (wr_attr r)) reqs) with
      | Some b => Some b | None => wlook d (mn_id n) a end.
Proof.
  intro N. induction reqs as [|r reqs IH]; intros d d' H G.
  - cbn [foldM] in H. inversion H; subst. split; [exact G|]. split; [intros r []|]. intros n I. split; [split; [intro E; split; [exact E|intros r []]|tauto]|reflexivity].
  - rewrite foldM_cons in H. destruct (filter (wr_filter r) g) as [|m ms] eqn:F; [discriminate|].
    assert (exists ns, ns = filter (wr_filter r) g /\ foldM (weights_step r) (m :: ms) d = foldM (weights_step r) ns d /\ ns <> []) as [ns [Ens [Ef Nn]]].
    { exists (m :: ms). split; [congruence|]. split; [reflexivity|discriminate]. }
    rewrite Ef in H. destruct (foldM (weights_step r) ns d) as [d1|] eqn:E1; cbn [bind] in H; [|discriminate].
    destruct (steps_spec r ns d d1 E1 G Nn) as [G1 [a [Ea [D1 L1]]]]. destruct (IH _ _ H G1) as [G' [A B]]. split; [exact G'|]. split.
    + intros r' [<-|I]; [|auto]. exists m. apply filter_In. rewrite F. left; reflexivity.
    + intros n I. destruct (B n I) as [B1 B2]. pose proof (exists_id g (wr_filter r) n N I) as Ex. rewrite <- Ens in Ex. split.
      * rewrite B1, D1. assert (In (mn_id n) (map mn_id ns) <-> wr_filter r n = true) as Q.
        { rewrite <- Ex, existsb_exists, in_map_iff. split; intros [x [P1 P2]]; exists x; [split; [exact P2|apply Nat.eqb_eq; congruence]|apply Nat.eqb_eq in P2; auto]. }
        split.
        -- intros [[P1 P2] P3]. split; [exact P1|]. intros r' [<-|J]; [|auto]. destruct (wr_filter r n); [tauto|reflexivity].
        -- intros [P1 P2]. split; [split; [exact P1|]|intros r' J; apply P2; right; exact J]. rewrite Q, (P2 r (or_introl eq_refl)). discriminate.
      * intro k. rewrite B2, L1, Ex. cbn [last_match]. destruct (last_match _ reqs); cbn [option_map]; [reflexivity|].
        rewrite Ea. cbn [is_name]. destruct (wr_filter r n && String.eqb k a); reflexivity.
Qed.

(* ---- bit-widths of attributes ---- *)
Lemma attr_key_exact c a : In a (skeys (cd_named c)) -> NoDup (skeys (cd_named c)) -> attr_key c a = Ok a.
Proof.
  intros I N. apply sget_key in I. destruct I as [w E]. pose proof (sget_in _ _ _ E) as J.
  assert (In (a, w) (filter (fun kv => str_contains (fst kv) a) (cd_named c))) as K by (apply filter_In; split; [exact J|apply contains_refl]).
  unfold attr_key. destruct (filter _ (cd_named c)) as [|x [|y l]]; [destruct K| |rewrite E; reflexivity].
  destruct K as [->|[]]. reflexivity.
Qed.
Lemma get_attr_exact c a w : NoDup (skeys (cd_named c)) -> sget a (cd_named c) = Some w -> get_attr_config c a = Ok w.
Proof.
  intros N E. assert (In a (skeys (cd_named c))) as I by (apply sget_key; eauto). pose proof (attr_key_spec c a) as S0.
  rewrite (attr_key_exact c a I N) in S0. destruct S0 as [_ [w' [E' G]]]. rewrite (G N). congruence.
Qed.
Lemma attr_bits_spec c a b : wf_cand c -> (attr_bits c a = Ok b <-> has_bits c a b).
Proof.
  intro W. unfold attr_bits, has_bits. destruct (String.eqb a pos_attr).
  - destruct (cd_pos c) as [|[i w] r]; [split; [discriminate|intros [X _]; congruence]|].
    destruct (existsb _ ((i, w) :: r)) eqn:E.
    + split; [discriminate|]. intros [_ A]. exfalso. apply existsb_exists in E. destruct E as [[j v] [I E]]. cbn in E. destruct (A j v I) as [A1 _]. rewrite A1 in E. discriminate.
    + assert (forall j v, In (j, v) ((i, w) :: r) -> wc_enable v = true) as En.
      { intros j v I. destruct (wc_enable v) eqn:Q; [reflexivity|]. exfalso. enough (existsb (fun kv : nat * wcfg => negb (wc_enable (snd kv))) ((i, w) :: r) = true) by congruence.
        apply existsb_exists. exists (j, v). split; [exact I|]. cbn. rewrite Q. reflexivity. }
      destruct (forallb _ r) eqn:F.
      * rewrite forallb_forall in F. split.
        -- intro H. inversion H; subst b. split; [discriminate|]. intros j v I. split; [eauto|]. destruct I as [I|I]; [congruence|]. apply F in I. apply Z.eqb_eq in I. exact I.
        -- intros [_ A]. destruct (A i w (or_introl eq_refl)) as [_ <-]. reflexivity.
      * split; [discriminate|]. intros [_ A]. exfalso. enough (forallb (fun kv : nat * wcfg => Z.eqb (wc_bits (snd kv)) (wc_bits w)) r = true) by congruence.
        apply forallb_forall. intros [j v] I. cbn. apply Z.eqb_eq. destruct (A j v (or_intror I)) as [_ ->], (A i w (or_introl eq_refl)) as [_ ->]. reflexivity.
  - destruct (existsb (String.eqb a) (skeys (cd_named c))) eqn:E; cbn [negb].
    + apply existsb_exists in E. destruct E as [x [I E]]. apply String.eqb_eq in E. subst x. apply sget_key in I. destruct I as [w S0]. rewrite S0.
      rewrite (get_attr_exact c a w W S0). cbn [bind]. destruct (wc_enable w) eqn:En.
      * split; [intro H; inversion H; eauto|]. intros [v [X [_ Y]]]. congruence.
      * split; [discriminate|]. intros [v [X [Y _]]]. congruence.
    + split; [discriminate|]. intros [w [S0 _]]. exfalso. enough (existsb (String.eqb a) (skeys (cd_named c)) = true) by congruence.
      apply existsb_exists. exists a. split; [apply sget_key; eauto|apply String.eqb_refl].
Qed.
Lemma attrs_match_spec c m : wf_cand c -> (okb (attrs_match c m) = true <-> forall a b, In (a, b) m -> has_bits c a b).
Proof.
  intro W. induction m as [|[a b] m IH]; cbn [attrs_match]; [split; [intros _ a b []|reflexivity]|].
  destruct (attr_bits c a) as [x|] eqn:E; cbn [bind].
  - destruct (Z.eqb_spec x b) as [->|Ne].
    + rewrite IH. split; [|intros H k v I; apply H; right; exact I]. intros H k v [I|I]; [|auto]. inversion I; subst. apply attr_bits_spec; auto.
    + split; [discriminate|]. intro H. exfalso. apply Ne. specialize (H a b (or_introl eq_refl)). apply (attr_bits_spec c a b W) in H. congruence.
  - split; [discriminate|]. intro H. exfalso. specialize (H a b (or_introl eq_refl)). apply (attr_bits_spec c a b W) in H. congruence.
Qed.
Lemma attrs_match_total c m : wf_cand c -> (forall a b, In (a, b) m -> exists v, has_bits c a v) -> exists r, attrs_match c m = Ok r.
Proof.
  intros W. induction m as [|[a b] m IH]; intro H; cbn [attrs_match]; [eauto|]. destruct (H a b (or_introl eq_refl)) as [v V].
  apply (attr_bits_spec c a v W) in V. rewrite V. cbn [bind]. destruct (Z.eqb v b); [|eauto]. apply IH. intros k x I. apply (H k x). right; exact I.
Qed.

(* ---- base configuration ---- *)
Definition mlook (m : list (string * Z)) a := sget a m.
Lemma set_base_spec c a b : NoDup (skeys (cd_named c)) -> (a <> pos_attr -> In a (skeys (cd_named c))) ->
  exists c', set_base_bits c a b = Ok c' /\
    cd_bits c' = cd_bits c /\ cd_method c' = cd_method c /\ cd_mode c' = cd_mode c /\ cd_signed c' = cd_signed c /\ cd_simd c' = cd_simd c /\
    cd_pos c' = map (fun kv => (fst kv, rebit (if String.eqb pos_attr a then Some b else None) (snd kv))) (cd_pos c) /\
    skeys (cd_named c') = skeys (cd_named c) /\
    forall k, sget k (cd_named c') = option_map (rebit (if String.eqb k pos_attr then None else if String.eqb k a then Some b else None)) (sget k (cd_named c)).
Proof.
  intros N I. assert (forall (l : list (nat * wcfg)), l = map (fun kv => (fst kv, rebit None (snd kv))) l) as Mp.
  { intro l. induction l as [|[x y] l IH]; cbn; [reflexivity|]. f_equal. exact IH. }
  assert (forall o : option wcfg, o = option_map (rebit None) o) as Mo by (intros [o|]; reflexivity).
  unfold set_base_bits. destruct (String.eqb_spec a pos_attr) as [->|Ne].
  - eexists. split; [reflexivity|]. cbn [cd_bits cd_method cd_mode cd_signed cd_simd cd_pos cd_named]. rewrite String.eqb_refl.
    split; [reflexivity|]. split; [reflexivity|]. split; [reflexivity|]. split; [reflexivity|]. split; [reflexivity|]. split; [reflexivity|]. split; [reflexivity|].
    intro k. destruct (String.eqb k pos_attr); apply Mo.
  - specialize (I Ne). rewrite (attr_key_exact c a I N). cbn [bind]. apply sget_key in I. destruct I as [w E]. rewrite E.
    eexists. split; [reflexivity|]. cbn [cd_bits cd_method cd_mode cd_signed cd_simd cd_pos cd_named].
    split; [reflexivity|]. split; [reflexivity|]. split; [reflexivity|]. split; [reflexivity|]. split; [reflexivity|].
    split; [destruct (String.eqb_spec pos_attr a); [congruence|apply Mp]|]. split; [exact (sset_keys_in _ _ _ _ E)|].
    intro k. rewrite sget_sset. destruct (String.eqb_spec k a) as [->|Nk].
    + rewrite E. destruct (String.eqb_spec a pos_attr); [congruence|reflexivity].
    + destruct (String.eqb k pos_attr); apply Mo.
Qed.

Lemma rebit_rebit o o' w : rebit o' (rebit o w) = rebit (match o' with Some b => Some b | None => o end) w.
Proof. destruct o, o'; reflexivity. Qed.

Lemma set_bases_spec m : forall c, NoDup (skeys m) -> NoDup (skeys (cd_named c)) -> (forall a, In a (skeys m) -> a <> pos_attr -> In a (skeys (cd_named c))) ->
  exists c', foldM (fun c ab => set_base_bits c (fst ab) (snd ab)) m c = Ok c' /\
    cd_bits c' = cd_bits c /\ cd_method c' = cd_method c /\ cd_mode c' = cd_mode c /\ cd_signed c' = cd_signed c /\ cd_simd c' = cd_simd c /\
    cd_pos c' = map (fun kv => (fst kv, rebit (sget pos_attr m) (snd kv))) (cd_pos c) /\
    skeys (cd_named c') = skeys (cd_named c) /\
    forall k, sget k (cd_named c') = option_map (rebit (if String.eqb k pos_attr then None else sget k m)) (sget k (cd_named c)).
Proof.
  induction m as [|[a b] m IH]; intros c Nm N H.
  - exists c. cbn [foldM sget]. split; [reflexivity|]. do 5 (split; [reflexivity|]). split.
    + induction (cd_pos c) as [|[x y] l IH]; cbn; [reflexivity|]. f_equal. exact IH.
    + split; [reflexivity|]. intro k. destruct (String.eqb k pos_attr), (sget k (cd_named c)); reflexivity.
  - cbn [skeys map fst] in Nm. inversion Nm as [|? ? N1 N2]; subst.
    destruct (set_base_spec c a b N) as [c1 [E [A1 [A2 [A3 [A4 [A5 [A6 [A7 A8]]]]]]]]]; [intro X; apply (H a); [left; reflexivity|exact X]|].
    rewrite foldM_cons. cbn [fst snd]. rewrite E. cbn [bind].
    destruct (IH c1 N2) as [c' [E' [B1 [B2 [B3 [B4 [B5 [B6 [B7 B8]]]]]]]]]; [rewrite A7; exact N|intros k I J; rewrite A7; apply H; [right; exact I|exact J]|].
    exists c'. split; [exact E'|]. split; [congruence|]. split; [congruence|]. split; [congruence|]. split; [congruence|]. split; [congruence|].
    assert (forall k, k = a -> sget k m = None) as Nn by (intros k ->; apply sget_none; exact N1).
    split; [|split; [congruence|]].
    + rewrite B6, A6, map_map. apply map_ext. intros [x y]. cbn [fst snd sget]. rewrite rebit_rebit. f_equal. f_equal.
      destruct (String.eqb_spec pos_attr a) as [Q|Q]; [rewrite (Nn _ Q); reflexivity|destruct (sget pos_attr m); reflexivity].
    + intro k. rewrite B8, A8. cbn [sget]. destruct (sget k (cd_named c)) as [w|]; [|reflexivity]. cbn [option_map]. f_equal. rewrite rebit_rebit.
      destruct (String.eqb k pos_attr); [reflexivity|]. f_equal. destruct (String.eqb_spec k a) as [Q|Q]; [rewrite (Nn _ Q); reflexivity|destruct (sget k m); reflexivity].
Qed.

(* ---- one node ---- *)
Lemma filter_filter {A} (p q : A -> bool) l : filter p (filter q l) = filter (fun x => q x && p x) l.
Proof. induction l as [|x l IH]; cbn; [reflexivity|]. destruct (q x); cbn; [destruct (p x); [f_equal|]; exact IH|exact IH]. Qed.
Lemma apply_act_spec b nc nc' : apply_activation b nc = Ok nc' ->
  nc_cands nc' = filter (fun x => Z.eqb (cd_bits x) b) (nc_cands nc) /\ nc_cands nc' <> [] /\ nc_base nc' = set_bits b (nc_base nc) /\ cd_mode (nc_base nc) = M_quant.
Proof.
  unfold apply_activation, node_mode. destruct (existsb _ (nc_cands nc)); [discriminate|]. cbn [bind].
  destruct (cd_mode (nc_base nc)) eqn:M; cbn [amode_eqb negb]; try discriminate.
  destruct (filter _ (nc_cands nc)) as [|x l] eqn:F; [discriminate|]. intro H. inversion H; subst nc'. cbn [nc_cands nc_base]. split; [reflexivity|]. split; [discriminate|]. split; reflexivity.
Qed.
Definition names_agree (nc : nodecfg) := wf_cand (nc_base nc) /\ forall x, In x (nc_cands nc) -> skeys (cd_named x) = skeys (cd_named (nc_base nc)).
Lemma names_wf nc x : names_agree nc -> In x (nc_cands nc) -> wf_cand x.
Proof. intros [A B] I. unfold wf_cand. rewrite (B x I). exact A. Qed.
Lemma apply_weights_spec m nc nc' : apply_weights m nc = Ok nc' -> names_agree nc -> NoDup (skeys m) ->
  nc_cands nc' = filter (fun x => okb (attrs_match x m)) (nc_cands nc) /\ nc_cands nc' <> [] /\
  exists c', nc_base nc' = c' /\ foldM (fun c ab => set_base_bits c (fst ab) (snd ab)) m (nc_base nc) = Ok c' /\
    (forall a, In a (skeys m) -> a <> pos_attr -> In a (skeys (cd_named (nc_base nc)))).
Proof.
  unfold apply_weights. intros H W N. destruct (filterM _ (nc_cands nc)) as [cs|] eqn:F; cbn [bind] in H; [|discriminate].
  pose proof (filterM_pure _ _ _ F) as P. destruct cs as [|x l]; [discriminate|].
  destruct (foldM _ m (nc_base nc)) as [c'|] eqn:E; cbn [bind] in H; [|discriminate]. inversion H; subst nc'. cbn [nc_cands nc_base].
  split; [exact P|]. split; [discriminate|]. exists c'. split; [reflexivity|]. split; [reflexivity|]. intros a I Ne.
  assert (In x (filter (fun x => okb (attrs_match x m)) (nc_cands nc))) as J by (rewrite <- P; left; reflexivity).
  apply filter_In in J. destruct J as [J Q]. rewrite (attrs_match_spec x m (names_wf _ _ W J)) in Q.
  apply sget_key in I. destruct I as [v I]. apply sget_in in I. specialize (Q a v I). unfold has_bits in Q. destruct (String.eqb_spec a pos_attr); [congruence|].
  destruct Q as [w [Q _]]. destruct W as [_ W]. rewrite <- (W x J). apply sget_key. eauto.
Qed.

Lemma last_match_none {R} (p : R -> bool) l : last_match p l = None <-> forall r, In r l -> p r = false.
Proof.
  induction l as [|r l IH]; cbn [last_match]; [split; [intros _ r []|reflexivity]|]. destruct (last_match p l).
  - split; [discriminate|]. intro H. exfalso. enough (@Some R r0 = None) by discriminate. apply IH. intros x I. apply H. right; exact I.
  - destruct (p r) eqn:E; [split; [discriminate|intro H; rewrite (H r (or_introl eq_refl)) in E; discriminate]|].
    split; [|reflexivity]. intros _ x [<-|I]; [exact E|apply (proj1 IH eq_refl x I)].
Qed.
Lemma last_match_in {R} (p : R -> bool) l r : last_match p l = Some r -> In r l /\ p r = true.
Proof.
  induction l as [|x l IH]; cbn [last_match]; [discriminate|]. destruct (last_match p l) as [y|].
  - intro H. inversion H; subst. destruct (IH eq_refl). split; [right|]; assumption.
  - destruct (p x) eqn:E; [|discriminate]. intro H. inversion H; subst. split; [left; reflexivity|exact E].
Qed.

Definition node_as_asked (c : bwconfig) (n n' : mnode) : Prop :=
  mn_id n' = mn_id n /\ mn_attrs n' = mn_attrs n /\
  (exists p, nc_cands (mn_cfg n') = filter p (nc_cands (mn_cfg n)) /\
             forall x, In x (nc_cands (mn_cfg n)) -> (p x = true <-> asked c n x)) /\
  (concerned c n -> nc_cands (mn_cfg n') <> []) /\
  base_as_asked c n (nc_base (mn_cfg n)) (nc_base (mn_cfg n')) /\
  (~ concerned c n -> n' = n).

Lemma node_step c n a w n1 n' : wf_mnode n ->
  dict_get (mn_id n) a = wants_act c n ->
  wgood w ->
  (forall k, wlook w (mn_id n) k = wants_weight c n k) ->
  (dict_get (mn_id n) w = None <-> forall r, In r (bw_weights c) -> wr_filter r n = false) ->
  apply_entry apply_activation a n = Ok n1 -> apply_entry apply_weights w n1 = Ok n' -> node_as_asked c n n'.
Proof.
  intros W Ea G Lw Dw H1 H2.
  assert (S1 : mn_id n1 = mn_id n /\ mn_attrs n1 = mn_attrs n /\ names_agree (mn_cfg n1) /\
    nc_cands (mn_cfg n1) = filter (fun x => match wants_act c n with Some b => Z.eqb (cd_bits x) b | None => true end) (nc_cands (mn_cfg n)) /\
    (wants_act c n <> None -> nc_cands (mn_cfg n1) <> []) /\ (wants_act c n = None -> n1 = n) /\
    nc_base (mn_cfg n1) = match wants_act c n with Some b => set_bits b (nc_base (mn_cfg n)) | None => nc_base (mn_cfg n) end).
  { unfold apply_entry in H1. rewrite Ea in H1. destruct (wants_act c n) as [b|].
    - destruct (apply_activation b (mn_cfg n)) as [nc|] eqn:E; [|discriminate]. cbn [bind] in H1. inversion H1; subst n1. cbn [mn_id mn_attrs mn_cfg].
      destruct (apply_act_spec _ _ _ E) as [P1 [P2 [P3 _]]]. split; [reflexivity|]. split; [reflexivity|]. split.
      + destruct W as [W1 W2]. unfold names_agree. rewrite P1, P3. split; [exact W1|]. intros x I. apply filter_In in I. apply W2, I.
      + split; [exact P1|]. split; [auto|]. split; [discriminate|exact P3].
    - inversion H1; subst n1. split; [reflexivity|]. split; [reflexivity|]. split; [exact W|]. split; [|split; [congruence|split; reflexivity]].
      symmetry. clear. induction (nc_cands (mn_cfg n)) as [|x l IH]; cbn; [reflexivity|]. f_equal. exact IH. }
  destruct S1 as [I1 [A1 [W1 [C1 [N1 [U1 B1]]]]]].
  assert (Cn : concerned c n <-> wants_act c n <> None \/ dict_get (mn_id n) w <> None).
  { rewrite Dw. unfold concerned, wants_act. split.
    - intros [[r [I E]]|[r [I E]]].
      + left. destruct (last_match _ (bw_act c)) eqn:L; [discriminate|]. pose proof (proj1 (last_match_none _ _) L r I). cbn in *. congruence.
      + right. intro H. rewrite (H r I) in E. discriminate.
    - intros [H|H].
      + left. destruct (last_match _ (bw_act c)) as [r|] eqn:L; [|exfalso; apply H; reflexivity]. apply last_match_in in L. exists r. exact L.
      + right. destruct (existsb (fun r => wr_filter r n) (bw_weights c)) eqn:X; [apply existsb_exists in X; exact X|].
        exfalso. apply H. intros r I. destruct (wr_filter r n) eqn:Y; [|reflexivity].
        enough (existsb (fun r => wr_filter r n) (bw_weights c) = true) by congruence. apply existsb_exists. eauto. }
  unfold apply_entry in H2. rewrite I1 in H2. destruct (dict_get (mn_id n) w) as [m|] eqn:Ew.
  - destruct (apply_weights m (mn_cfg n1)) as [nc|] eqn:E; [|discriminate]. cbn [bind] in H2. inversion H2; subst n'. clear H2.
    destruct (G _ _ Ew) as [Nm _]. destruct (apply_weights_spec _ _ _ E W1 Nm) as [P1 [P2 [c' [P3 [P4 P5]]]]].
    assert (Lm : forall k, sget k m = wants_weight c n k) by (intro k; rewrite <- Lw; unfold wlook; rewrite Ew; reflexivity).
    unfold node_as_asked. cbn [mn_id mn_attrs mn_cfg]. split; [reflexivity|]. split; [exact A1|]. split.
    + eexists. split; [rewrite P1, C1, filter_filter; reflexivity|]. intros x Ix. cbn beta. rewrite andb_true_iff.
      assert (wf_cand x) as Wx by (unfold wf_cand; rewrite (proj2 W x Ix); exact (proj1 W)).
      rewrite (attrs_match_spec x m Wx). unfold asked. split.
      * intros [Q1 Q2]. split; [intros b Eb; rewrite Eb in Q1; apply Z.eqb_eq, Q1|]. intros k b Eb. apply Q2. apply sget_in. rewrite Lm. exact Eb.
      * intros [Q1 Q2]. split; [destruct (wants_act c n); [apply Z.eqb_eq; auto|reflexivity]|]. intros k b I. apply Q2. rewrite <- Lm. apply in_sget; assumption.
    + split; [intros _; exact P2|]. split; [|intro X; exfalso; apply X, Cn; right; discriminate].
      destruct (set_bases_spec m (nc_base (mn_cfg n1)) Nm (proj1 W1) P5) as [c'' [F [Q1 [Q2 [Q3 [Q4 [Q5 [Q6 [Q7 Q8]]]]]]]]].
      assert (c'' = c') by congruence. subst c''. rewrite P3. rewrite B1 in Q1, Q2, Q3, Q4, Q5, Q6, Q7, Q8. rewrite Lm in Q6. unfold base_as_asked.
      destruct (wants_act c n); cbn [set_bits cd_bits cd_method cd_mode cd_signed cd_simd cd_pos cd_named] in *;
        (split; [exact Q1|]; split; [exact Q2|]; split; [exact Q3|]; split; [exact Q4|]; split; [exact Q5|]; split; [exact Q6|]; split; [exact Q7|]; intro k; rewrite <- Lm; apply Q8).
  - inversion H2; subst n'. assert (Lm : forall k, wants_weight c n k = None) by (intro k; rewrite <- Lw; unfold wlook; rewrite Ew; reflexivity).
    unfold node_as_asked. split; [exact I1|]. split; [exact A1|]. split.
    + eexists. split; [exact C1|]. intros x Ix. cbn beta. unfold asked. split.
      * intro Q. split; [intros b Eb; rewrite Eb in Q; apply Z.eqb_eq, Q|]. intros k b Eb. rewrite Lm in Eb. discriminate.
      * intros [Q1 _]. destruct (wants_act c n); [apply Z.eqb_eq; auto|reflexivity].
    + split; [intro X; apply Cn in X; destruct X as [X|X]; [auto|congruence]|]. split.
      * unfold base_as_asked. rewrite B1, Lm. destruct (wants_act c n); cbn [set_bits cd_bits cd_method cd_mode cd_signed cd_simd cd_pos cd_named];
          (do 5 (split; [reflexivity|]); split; [|split; [reflexivity|]]).
        1,3: clear; induction (cd_pos (nc_base (mn_cfg n))) as [|[x y] l IH]; cbn; [reflexivity|f_equal; exact IH].
        all: intro k; rewrite Lm; destruct (String.eqb k pos_attr), (sget k (cd_named (nc_base (mn_cfg n)))); reflexivity.
      * intro X. apply U1. destruct (wants_act c n); [exfalso; apply X, Cn; left; discriminate|reflexivity].
Qed.

(* ---- C21: what a successful run does ---- *)
(* every node keeps exactly the candidates with the bit-widths of the last requests for it, in order; its base configuration
   gets those bit-widths; nodes that no request concerns are untouched; every request concerned some node *)
Theorem manual_bit_widths : forall c g g', NoDup (map mn_id g) -> (forall n, In n g -> wf_mnode n) -> set_manual c g = Ok g' ->
  Forall2 (fun n n' =>
    mn_id n' = mn_id n /\ mn_attrs n' = mn_attrs n /\
    (exists p, nc_cands (mn_cfg n') = filter p (nc_cands (mn_cfg n)) /\
               forall x, In x (nc_cands (mn_cfg n)) -> (p x = true <-> asked c n x)) /\
    (concerned c n -> nc_cands (mn_cfg n') <> []) /\
    base_as_asked c n (nc_base (mn_cfg n)) (nc_base (mn_cfg n')) /\
    (~ concerned c n -> n' = n)) g g' /\
  (forall r, In r (bw_act c) -> exists n, In n g /\ ar_filter r n = true) /\
  (forall r, In r (bw_weights c) -> exists n, In n g /\ wr_filter r n = true).
Proof.
  intros c g g' N W H. unfold set_manual in H.
  destruct (act_mapping c g) as [a|] eqn:Ea; cbn [bind] in H; [|discriminate].
  destruct (weights_mapping c g) as [w|] eqn:Ew; cbn [bind] in H; [|discriminate].
  destruct (mapM _ g) as [g1|] eqn:E1; cbn [bind] in H; [|discriminate].
  destruct (act_get g (bw_act c) N _ _ Ea) as [A1 A2].
  destruct (weights_get g (bw_weights c) N _ _ Ew) as [G [B1 B2]]; [intros id m X; discriminate|].
  split; [|split; assumption]. change (Forall2 (node_as_asked c) g g').
  apply mapM_Forall2 in E1. apply mapM_Forall2 in H.
  assert (forall n, In n g -> dict_get (mn_id n) a = wants_act c n) as A3.
  { intros n I. rewrite (A2 n I). fold (wants_act c n). destruct (wants_act c n); reflexivity. }
  assert (forall n, In n g -> (dict_get (mn_id n) w = None <-> (forall r, In r (bw_weights c) -> wr_filter r n = false)) /\ forall k, wlook w (mn_id n) k = wants_weight c n k) as B3.
  { intros n I. destruct (B2 n I) as [B4 B5]. split; [rewrite B4; cbn; tauto|]. intro k. rewrite B5. fold (wants_weight c n k). destruct (wants_weight c n k); reflexivity. }
  clear A1 A2 B1 B2 Ea Ew N. revert g' H. induction E1 as [|n n1 l l1 R F IH]; intros g' H; inversion H as [|? n' ? l' R' F']; subst; [constructor|]. constructor.
  - destruct (B3 n (or_introl eq_refl)) as [B4 B5].
    apply (node_step c n a w n1 n'); [apply W; left; reflexivity|apply A3; left; reflexivity|exact G|exact B5|exact B4|exact R|exact R'].
  - apply IH; [intros x I; apply W; right; exact I|intros x I; apply A3; right; exact I|intros x I; apply B3; right; exact I|exact F'].
Qed.
Print Assumptions manual_bit_widths.

(* a request that no node matches, or that leaves a node it concerns without a candidate, raises *)
Theorem manual_unsatisfiable_raises : forall c g, NoDup (map mn_id g) -> (forall n, In n g -> wf_mnode n) ->
  (exists r, In r (bw_act c) /\ forall n, In n g -> ar_filter r n = false) \/
  (exists r, In r (bw_weights c) /\ forall n, In n g -> wr_filter r n = false) \/
  (exists n, In n g /\ concerned c n /\ forall x, In x (nc_cands (mn_cfg n)) -> ~ asked c n x) ->
  exists e, set_manual c g = Err e.
Proof.
  intros c g N W H. destruct (set_manual c g) as [g'|e] eqn:E; [exfalso|eauto].
  destruct (manual_bit_widths c g g' N W E) as [F [A B]]. destruct H as [[r [I Q]]|[[r [I Q]]|[n [I [Cn Q]]]]].
  - destruct (A r I) as [n [J K]]. rewrite (Q n J) in K. discriminate.
  - destruct (B r I) as [n [J K]]. rewrite (Q n J) in K. discriminate.
  - clear A B E W N. induction F as [|x x' l l' [_ [_ [[p [P1 P2]] [P3 _]]]] F IH]; [destruct I|]. destruct I as [->|I]; [|auto].
    specialize (P3 Cn). rewrite P1 in P3. destruct (filter p (nc_cands (mn_cfg n))) as [|y ys] eqn:Fy; [congruence|].
    assert (In y (filter p (nc_cands (mn_cfg n)))) as J by (rewrite Fy; left; reflexivity). apply filter_In in J. destruct J as [J K]. apply (Q y J), (P2 y J), K.
Qed.
Print Assumptions manual_unsatisfiable_raises.

(* ---- when requests are honoured ---- *)
Definition long (s : string) : Prop := exists a b r, s = String a (String b r).
Lemma scan_long a keys : long a -> (forall k, In k keys -> long k) -> scan_keys a keys = Ok tt.
Proof.
  intros [x [y [r ->]]]. induction keys as [|k keys IH]; intro H; cbn [scan_keys]; [reflexivity|].
  destruct (H k (or_introl eq_refl)) as [p [q [s ->]]]. destruct (String.eqb_spec (String q EmptyString) (String x (String y r))) as [E|_]; [inversion E|].
  apply IH. intros k' I. apply H. right; exact I.
Qed.
Lemma requested_total a l : exists hs, requested_attrs (W_name a) l = Ok hs /\
  (In (W_name a) l \/ (a = pos_attr /\ exists i, In (W_pos i) l) -> hs <> []).
Proof.
  induction l as [|x l [hs [E H]]]; cbn [requested_attrs]; [exists []; split; [reflexivity|]; intros [[]|[_ [i []]]]|].
  destruct x as [i|s]; cbn [bind]; rewrite E; cbn [bind]; eexists; (split; [reflexivity|]); intro Q.
  - destruct (str_contains a pos_attr) eqn:C; [discriminate|]. apply H. destruct Q as [[Q|Q]|[-> _]]; [discriminate|auto|]. rewrite contains_refl in C. discriminate.
  - destruct (str_contains s a) eqn:C; [discriminate|]. apply H. destruct Q as [[Q|Q]|[-> [i [Q|Q]]]]; [inversion Q; subst; rewrite contains_refl in C; discriminate|auto|discriminate|eauto].
Qed.
Definition has_attr (n : mnode) (a : string) : Prop := In (W_name a) (mn_attrs n) \/ (a = pos_attr /\ exists i, In (W_pos i) (mn_attrs n)).
Definition keys_long (d : list (nat * list (string * Z))) := forall id m, dict_get id d = Some m -> forall k, In k (skeys m) -> long k.
Lemma step_total r d n a : wr_attr r = W_name a -> long a -> has_attr n a -> keys_long d -> exists d', weights_step r d n = Ok d' /\ keys_long d'.
Proof.
  intros Er La Ha K. unfold weights_step. destruct (requested_total a (mn_attrs n)) as [hs [Eh Nh]]. specialize (Nh Ha). rewrite Er.
  destruct (mn_attrs n) as [|x xs] eqn:Ex; [exfalso; unfold has_attr in Ha; rewrite Ex in Ha; destruct Ha as [[]|[_ [i []]]]|].
  rewrite Eh. cbn [bind]. destruct hs as [|h hs]; [congruence|].
  assert (Q : forall m : list (string * Z), (forall k, In k (skeys m) -> long k) -> keys_long (dict_set (mn_id n) (sset a (wr_bits r) m) d)).
  { intros m Hm id m' E k I. rewrite dict_get_set in E. destruct (Nat.eqb id (mn_id n)); [|eapply K; eassumption].
    inversion E; subst m'. apply sset_keys in I. destruct I as [->|I]; auto. }
  destruct (dict_get (mn_id n) d) as [m|] eqn:E; cbn [bind].
  - rewrite (scan_long a (skeys m) La (K _ _ E)). cbn [bind]. eexists. split; [reflexivity|]. apply Q, (K _ _ E).
  - eexists. split; [reflexivity|]. apply Q. intros k [].
Qed.
Lemma steps_total r a ns : wr_attr r = W_name a -> long a -> (forall n, In n ns -> has_attr n a) -> forall d, keys_long d ->
  exists d', foldM (weights_step r) ns d = Ok d' /\ keys_long d'.
Proof.
  intros Er La. induction ns as [|n ns IH]; intros H d K; [exists d; split; [reflexivity|exact K]|].
  destruct (step_total r d n a Er La (H n (or_introl eq_refl)) K) as [d1 [E K1]]. rewrite foldM_cons, E. cbn [bind]. apply IH; [intros x I; apply H; right; exact I|exact K1].
Qed.
Lemma weights_total g reqs : (forall r, In r reqs -> (exists n, In n g /\ wr_filter r n = true) /\
    exists a, wr_attr r = W_name a /\ long a /\ forall n, In n g -> wr_filter r n = true -> has_attr n a) ->
  forall d, keys_long d -> exists d',
  foldM (fun d r => match filter (wr_filter r) g with [] => Err E_critical | ns => foldM (weights_step r) ns d end) reqs d = Ok d' /\ keys_long d'.
Proof.
  induction reqs as [|r reqs IH]; intros H d K; [exists d; split; [reflexivity|exact K]|].
  destruct (H r (or_introl eq_refl)) as [[n [I E]] [a [Er [La Ha]]]]. rewrite foldM_cons.
  assert (exists d1, (match filter (wr_filter r) g with [] => Err E_critical | ns => foldM (weights_step r) ns d end) = Ok d1 /\ keys_long d1) as [d1 [E1 K1]].
  { assert (In n (filter (wr_filter r) g)) as J by (apply filter_In; auto).
    destruct (steps_total r a (filter (wr_filter r) g) Er La) with (d := d) as [d1 [E1 K1]]; [intros x X; apply filter_In in X; apply Ha; tauto|exact K|].
    exists d1. split; [|exact K1]. destruct (filter (wr_filter r) g); [destruct J|exact E1]. }
  rewrite E1. cbn [bind]. apply IH; [intros r' X; apply H; right; exact X|exact K1].
Qed.

(* requests naming attributes of at least two characters, exactly as the node calls them, are honoured whenever every request
   matches a node, the matched nodes have quantized activations / attributes, and some candidate is as asked *)
Theorem manual_succeeds : forall c g, NoDup (map mn_id g) -> (forall n, In n g -> wf_mnode n) ->
  (forall r, In r (bw_act c) -> exists n, In n g /\ ar_filter r n = true) ->
  (forall r, In r (bw_weights c) -> (exists n, In n g /\ wr_filter r n = true) /\
     exists a, wr_attr r = W_name a /\ (2 <= String.length a)%nat /\
       forall n, In n g -> wr_filter r n = true ->
         (In (W_name a) (mn_attrs n) \/ (a = pos_attr /\ exists i, In (W_pos i) (mn_attrs n))) /\
         forall x, In x (nc_cands (mn_cfg n)) -> exists b, has_bits x a b) ->
  (forall n, In n g -> wants_act c n <> None -> forall x, x = nc_base (mn_cfg n) \/ In x (nc_cands (mn_cfg n)) -> cd_mode x = M_quant) ->
  (forall n, In n g -> concerned c n -> exists x, In x (nc_cands (mn_cfg n)) /\ asked c n x) ->
  exists g', set_manual c g = Ok g'.
Proof.
  intros c g N W H1 H2 H3 H4. unfold set_manual.
  destruct (act_total g (bw_act c) H1 []) as [a Ea]. change (act_mapping c g = Ok a) in Ea. rewrite Ea. cbn [bind].
  destruct (weights_total g (bw_weights c)) with (d := @nil (nat * list (string * Z))) as [w [Ew _]].
  { intros r I. destruct (H2 r I) as [Q1 [s [Q2 [Q3 Q4]]]]. split; [exact Q1|]. exists s. split; [exact Q2|]. split.
    - destruct s as [|x [|y s]]; cbn in Q3; [lia|lia|]. exists x, y, s. reflexivity.
    - intros n J K. exact (proj1 (Q4 n J K)). }
  { intros id m X. discriminate. }
  change (weights_mapping c g = Ok w) in Ew. rewrite Ew. cbn [bind].
  destruct (act_get g (bw_act c) N _ _ Ea) as [_ A2].
  destruct (weights_get g (bw_weights c) N _ _ Ew) as [G [_ B2]]; [intros id m X; discriminate|].
  assert (S1 : forall n, In n g -> exists n1, apply_entry apply_activation a n = Ok n1 /\ exists n', apply_entry apply_weights w n1 = Ok n').
  { intros n I. destruct (B2 n I) as [B4 B5]. pose proof (A2 n I) as A3. fold (wants_act c n) in A3.
    assert (dict_get (mn_id n) a = wants_act c n) as A4 by (rewrite A3; destruct (wants_act c n); reflexivity). clear A3.
    assert (forall k, wlook w (mn_id n) k = wants_weight c n k) as B6.
    { intro k. rewrite B5. fold (wants_weight c n k). destruct (wants_weight c n k); reflexivity. }
    assert (Cn : forall x, In x (nc_cands (mn_cfg n)) -> wf_cand x).
    { intros x Ix. unfold wf_cand. rewrite (proj2 (W n I) x Ix). exact (proj1 (W n I)). }
    assert (exists n1, apply_entry apply_activation a n = Ok n1 /\ mn_id n1 = mn_id n /\
      (forall x, In x (nc_cands (mn_cfg n)) -> asked c n x -> In x (nc_cands (mn_cfg n1))) /\
      (forall x, In x (nc_cands (mn_cfg n1)) -> In x (nc_cands (mn_cfg n))) /\
      skeys (cd_named (nc_base (mn_cfg n1))) = skeys (cd_named (nc_base (mn_cfg n)))) as [n1 [E1 [I1 [C1 [C2 C3]]]]].
    { unfold apply_entry. rewrite A4. destruct (wants_act c n) as [b|] eqn:Wa; [|exists n; split; [reflexivity|]; split; [reflexivity|]; split; [auto|]; split; [auto|reflexivity]].
      assert (concerned c n) as Cc.
      { left. unfold wants_act in Wa. destruct (last_match _ (bw_act c)) as [r|] eqn:L; [|discriminate]. apply last_match_in in L. exists r. exact L. }
      destruct (H4 n I Cc) as [x [Ix [Ax _]]]. pose proof (H3 n I) as M. rewrite Wa in M. specialize (M ltac:(discriminate)).
      unfold apply_activation, node_mode. rewrite (M _ (or_introl eq_refl)).
      assert (existsb (fun x => negb (amode_eqb (cd_mode x) M_quant)) (nc_cands (mn_cfg n)) = false) as ->.
      { apply not_true_is_false. intro X. apply existsb_exists in X. destruct X as [z [Z1 Z2]]. rewrite (M z (or_intror Z1)) in Z2. discriminate. }
      cbn [bind amode_eqb negb].
      assert (In x (filter (fun x => Z.eqb (cd_bits x) b) (nc_cands (mn_cfg n)))) as J by (apply filter_In; split; [exact Ix|apply Z.eqb_eq; auto]).
      destruct (filter _ (nc_cands (mn_cfg n))) as [|y ys] eqn:F; [destruct J|]. cbn [bind]. eexists. split; [reflexivity|]. cbn [mn_id mn_cfg nc_cands nc_base]. split; [reflexivity|].
      rewrite <- F. split; [|split; [intros z Iz; apply filter_In in Iz; apply Iz|reflexivity]].
      intros z Iz [Az _]. apply filter_In. split; [exact Iz|]. apply Z.eqb_eq. auto. }
    exists n1. split; [exact E1|]. unfold apply_entry. rewrite I1. destruct (dict_get (mn_id n) w) as [m|] eqn:Dm; [|eauto].
    destruct (G _ _ Dm) as [Nm _].
    assert (Lm : forall k, sget k m = wants_weight c n k) by (intro k; rewrite <- B6; unfold wlook; rewrite Dm; reflexivity).
    assert (concerned c n) as Cc.
    { right. destruct (existsb (fun r => wr_filter r n) (bw_weights c)) eqn:X; [apply existsb_exists in X; exact X|]. exfalso.
      enough (@Some (list (string * Z)) m = None) by discriminate. apply B4. split; [reflexivity|]. intros r J. destruct (wr_filter r n) eqn:Y; [|reflexivity].
      enough (existsb (fun r => wr_filter r n) (bw_weights c) = true) by congruence. apply existsb_exists. eauto. }
    destruct (H4 n I Cc) as [x [Ix Ax]].
    assert (Rq : forall k b, In (k, b) m -> forall y, In y (nc_cands (mn_cfg n)) -> exists v, has_bits y k v).
    { intros k b J y Iy. apply (in_sget _ _ _ Nm) in J. rewrite Lm in J. unfold wants_weight in J. destruct (last_match _ (bw_weights c)) as [r|] eqn:L; [|discriminate].
      apply last_match_in in L. destruct L as [L1 L2]. apply andb_true_iff in L2. destruct L2 as [L2 L3]. destruct (H2 r L1) as [_ [s [S1 [_ S2]]]].
      rewrite S1 in L3. cbn [is_name] in L3. apply String.eqb_eq in L3. subst s. exact (proj2 (S2 n I L2) y Iy). }
    unfold apply_weights.
    destruct (filterM_total (fun y => attrs_match y m) (nc_cands (mn_cfg n1))) as [cs F].
    { intros y Iy. apply attrs_match_total; [apply Cn, C2, Iy|]. intros k b J. apply (Rq k b J), C2, Iy. }
    rewrite F. cbn [bind]. pose proof (filterM_pure _ _ _ F) as P.
    assert (In x cs) as Jx.
    { rewrite P. apply filter_In. split; [apply C1; assumption|]. apply attrs_match_spec; [apply Cn, Ix|]. intros k b J. apply (proj2 Ax). rewrite <- Lm. apply in_sget; assumption. }
    destruct cs as [|y ys]; [destruct Jx|].
    destruct (set_bases_spec m (nc_base (mn_cfg n1)) Nm) as [c' [E' _]].
    - rewrite C3. exact (proj1 (W n I)).
    - intros k J Nk. rewrite C3, <- (proj2 (W n I) x Ix). apply sget_key in J. destruct J as [v J]. apply sget_in in J. destruct (Rq k v J x Ix) as [u U].
      unfold has_bits in U. destruct (String.eqb_spec k pos_attr); [congruence|]. destruct U as [z [U _]]. apply sget_key. eauto.
    - rewrite E'. cbn [bind]. eauto. }
  destruct (mapM_total (apply_entry apply_activation a) g) as [g1 [E1 _]]; [intros n I; destruct (S1 n I) as [n1 [Q _]]; eauto|].
  rewrite E1. cbn [bind]. destruct (mapM_total (apply_entry apply_weights w) g1) as [g' [E2 _]]; [|eauto].
  intros n1 I1. apply mapM_Forall2 in E1. clear - E1 S1 I1. induction E1 as [|n x l l1 R F IH]; [destruct I1|].
  destruct I1 as [->|I1]; [|apply IH; [intros y J; apply S1; right; exact J|exact I1]].
  destruct (S1 n (or_introl eq_refl)) as [n2 [Q1 Q2]]. assert (n2 = n1) by congruence. subst n2. exact Q2.
Qed.
Print Assumptions manual_succeeds.

(* ---- registering requests ---- *)
(* one bit-width for all filters, or one for each: each filter gets its own request, after the earlier ones *)
Theorem activation_requests_recorded : forall fs bits c,
  request_activation (Some fs) bits c =
  match bits with
  | One b | Many [b] => Ok (BW (bw_act c ++ map (fun f => AReq f b) (to_list fs)) (bw_weights c))
  | Many [] => Ok c
  | Many bs => if Nat.eqb (length bs) (length (to_list fs))
               then Ok (BW (bw_act c ++ map (fun p => AReq (fst p) (snd p)) (combine (to_list fs) bs)) (bw_weights c)) else Err E_critical
  end.
Proof.
  intros fs bits [ca cw]. unfold request_activation, expand. generalize (to_list fs) as l. intro l. cbn [bw_act bw_weights].
  assert (A : forall b, (let! x := (if Nat.ltb 1 (length [b]) && negb (Nat.eqb (length [b]) (length l)) then Err E_critical
      else if Nat.ltb 1 (length l) then Ok (map (fun _ => b) l) else Ok [b]) in
      Ok (BW (ca ++ map (fun p => AReq (snd p) (fst p)) (combine x l)) cw)) = Ok (BW (ca ++ map (fun f => AReq f b) l) cw)).
  { intro b. cbn [length Nat.ltb Nat.leb andb]. destruct l as [|f [|f2 l]]; cbn [length Nat.ltb Nat.leb bind combine map fst snd]; [reflexivity|reflexivity|].
    do 5 f_equal. induction l as [|f3 l IH]; cbn; [reflexivity|]. f_equal. exact IH. }
  assert (B : forall bs : list Z, map (fun p => AReq (snd p) (fst p)) (combine bs l) = map (fun p => AReq (fst p) (snd p)) (combine l bs)).
  { clear A. induction l as [|f l IH]; intros [|b bs]; cbn; try reflexivity. f_equal. apply IH. }
  destruct bits as [b|[|b [|b2 bs]]]; cbn [to_list]; [apply A| |apply A|].
  - cbn. rewrite app_nil_r. reflexivity.
  - remember (b :: b2 :: bs) as q. assert (Nat.ltb 1 (length q) = true) as -> by (subst q; reflexivity). cbn [andb].
    destruct (Nat.eqb (length q) (length l)); cbn [negb]; [|reflexivity]. subst q. cbn [bind]. rewrite B. reflexivity.
Qed.
Print Assumptions activation_requests_recorded.

(* the same for weights: filters, bit-widths and attributes are matched up by position *)
Theorem weights_requests_recorded : forall fs bs ats c, length bs = length (to_list fs) -> length ats = length (to_list fs) ->
  request_weights (Some fs) (Many bs) (Many ats) c =
    Ok (BW (bw_act c) (bw_weights c ++ map (fun p => WReq (fst p) (fst (snd p)) (snd (snd p))) (combine (to_list fs) (combine bs ats)))) /\
  forall b a, request_weights (Some fs) (One b) (One a) c = Ok (BW (bw_act c) (bw_weights c ++ map (fun f => WReq f b a) (to_list fs))).
Proof.
  intros fs bs ats c. unfold request_weights. generalize (to_list fs) as l. intros l Lb La.
  assert (A : forall V (vs : list V), length vs = length l -> expand l (Many vs) = Ok vs).
  { intros V vs L. unfold expand. cbn [to_list]. rewrite L, Nat.eqb_refl, andb_false_r. destruct vs as [|v [|v2 vs]]; try reflexivity. rewrite <- L. reflexivity. }
  split.
  - rewrite (A _ bs Lb), (A _ ats La). cbn [bind]. do 3 f_equal. revert bs ats Lb La. clear. induction l as [|f l IH]; intros [|b bs] [|a ats] Lb La; cbn in *; try discriminate; [reflexivity|].
    f_equal. apply IH; lia.
  - intros b a. unfold expand. cbn [to_list length Nat.ltb Nat.leb andb]. destruct l as [|f [|f2 l]]; cbn [length Nat.ltb Nat.leb bind combine map fst snd]; [reflexivity|reflexivity|].
    do 5 f_equal. clear. induction l as [|f3 l IH]; cbn; [reflexivity|]. f_equal. exact IH.
Qed.
Print Assumptions weights_requests_recorded.

(* ---- cases ---- *)
Definition w8 := WCfg 0 8 true true.
Definition w4 := WCfg 0 4 true true.
Definition mk (ab : Z) (w : wcfg) (s : string) := Cand 0 ab M_quant 0 None [] [(s, w)].
Definition node1 (i : nat) (s : string) := MNode i [W_name s] (NodeCfg (mk 8 w8 s) [mk 8 w8 s; mk 8 w4 s; mk 4 w8 s; mk 4 w4 s]).
Definition on (i : nat) : matcher := fun n => Nat.eqb (mn_id n) i.
Definition any : matcher := fun _ => true.

(* all activations 4 bits, then node 1 back to 8, its weights to 4 and then 8 *)
Example manual_case :
  let c := BW [AReq any 4; AReq (on 1) 8] [WReq (on 1) 4 (W_name "weight"); WReq (on 1) 8 (W_name "weight")] in
  wants_act c (node1 0 "weight") = Some 4%Z /\ wants_act c (node1 1 "weight") = Some 8%Z /\
  set_manual c [node1 0 "weight"; node1 1 "weight"] =
  Ok [MNode 0 [W_name "weight"] (NodeCfg (mk 4 w8 "weight") [mk 4 w8 "weight"; mk 4 w4 "weight"]);
      MNode 1 [W_name "weight"] (NodeCfg (mk 8 w8 "weight") [mk 8 w8 "weight"])].
Proof. split; [reflexivity|]. split; reflexivity. Qed.

(* a second request for the same node raises when the attribute of the first one is a single letter, although either request
   alone is honoured and the node has candidates for both *)
Theorem manual_second_request_refuted : exists n r1 r2,
  wf_mnode n /\ (exists g', set_manual (BW [] [r1]) [n] = Ok g') /\ (exists g', set_manual (BW [] [r2]) [n] = Ok g') /\
  (exists x, In x (nc_cands (mn_cfg n)) /\ asked (BW [] [r1; r2]) n x) /\
  set_manual (BW [] [r1; r2]) [n] = Err E_index.
Proof.
  exists (node1 0 "w"), (WReq any 8 (W_name "w")), (WReq any 4 (W_name "w")).
  split; [split; [repeat constructor; cbn; tauto|cbn; intros x [<-|[<-|[<-|[<-|[]]]]]; reflexivity]|].
  split; [eexists; vm_compute; reflexivity|]. split; [eexists; vm_compute; reflexivity|]. split; [|reflexivity].
  exists (mk 8 w4 "w"). split; [cbn; auto|]. split; [intros b X; discriminate|]. intros a b X. unfold wants_weight in X. cbn in X.
  destruct (String.eqb_spec a "w") as [->|Ne]; cbn in X; [inversion X; subst b|discriminate]. unfold has_bits. cbn. exists w4. auto.
Qed.
Print Assumptions manual_second_request_refuted.

(* part of an attribute's name is enough for the request to be accepted, but applying it raises *)
Theorem manual_partial_name_refuted : exists n r,
  weights_mapping (BW [] [r]) [n] = Ok [(0%nat, [("kernel"%string, 4%Z)])] /\ set_manual (BW [] [r]) [n] = Err E_value /\
  In (W_name "conv/kernel") (mn_attrs n) /\ wr_attr r = W_name "kernel" /\ wr_bits r = 4%Z /\
  exists x, In x (nc_cands (mn_cfg n)) /\ has_bits x "conv/kernel" 4.
Proof.
  exists (node1 0 "conv/kernel"), (WReq any 4 (W_name "kernel")). split; [reflexivity|]. split; [reflexivity|]. split; [cbn; auto|]. split; [reflexivity|]. split; [reflexivity|].
  exists (mk 8 w4 "conv/kernel"). split; [cbn; auto|]. unfold has_bits. cbn. exists w4. auto.
Qed.
Print Assumptions manual_partial_name_refuted.
