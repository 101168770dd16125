(* PrepProofs.v -- lemmas about the preparation of a graph. *)
From Coq Require Import String.
From Verif Require Import Base SDict MPModel MPProofs HessianModel HessianProofs FilterModel FilterProps PlatModel SearchProofs
  LookupModel LookupSpec LookupProps CandModel CandSpec CandProps ManualModel ManualSpec ManualProps PrepModel PrepSpec.
Local Open Scope list_scope.

(* ---- filtering a single candidate ---- *)
Lemma uniq_one {A} (e : A -> A -> bool) x : uniq e [] [x] = [x].
Proof. reflexivity. Qed.
Lemma dups_one k x r : bit_method_dups k [x] = Ok r -> r = [x].
Proof.
  unfold bit_method_dups. cbn [mapM]. destruct (bm_key_of k x); cbn [bind]; [|discriminate]. intro H. inversion H. reflexivity.
Qed.
Lemma attr_key_config c k key w : wf_cand c -> attr_key c k = Ok key -> get_attr_config c k = Ok w -> sget key (cd_named c) = Some w.
Proof.
  intros W. unfold attr_key, get_attr_config. destruct (filter _ (cd_named c)) as [|x [|y l]] eqn:F; [discriminate| |].
  - intros H1 H2. inversion H1; inversion H2; subst. destruct x as [a v]. apply in_sget; [exact W|].
    assert (In (a, v) (filter (fun kv => str_contains (fst kv) k) (cd_named c))) as I by (rewrite F; left; reflexivity).
    apply filter_In in I. exact (proj1 I).
  - destruct (sget k (cd_named c)) eqn:E; [|discriminate]. intros H1 H2. inversion H1; inversion H2; subst. exact E.
Qed.
Definition kept_weights (c d : cand) : Prop :=
  cd_pos d = cd_pos c /\ forall a w, sget a (cd_named c) = Some w -> exists w', sget a (cd_named d) = Some w' /\ wc_enable w' = wc_enable w /\
    (wc_enable w = true -> w' = w).
Lemma kept_refl c d : cd_pos d = cd_pos c -> cd_named d = cd_named c -> kept_weights c d.
Proof. intros E1 E2. split; [exact E1|]. intros a w H. exists w. rewrite E2. auto. Qed.
Lemma float_kernel_kept k c d : wf_cand c -> (forall kn, k = Some kn -> exists w, get_attr_config c kn = Ok w /\ wc_enable w = false) ->
  float_kernel k c = Ok d -> cd_mode d = cd_mode c /\ cd_bits d = cd_bits c /\ cd_method d = cd_method c /\ kept_weights c d.
Proof.
  intros W K. unfold float_kernel. destruct k as [kn|]; [|intro H; inversion H; subst; split; [|split; [|split]]; auto; apply kept_refl; reflexivity].
  destruct (K kn eq_refl) as [w0 [G E]]. unfold set_attr_bits. destruct (attr_key c kn) as [key|] eqn:A; [|discriminate]. cbn [bind].
  rewrite (attr_key_config _ _ _ _ W A G). intro H. inversion H; subst d. cbn [cd_mode cd_bits cd_method]. split; [reflexivity|]. split; [reflexivity|]. split; [reflexivity|].
  split; [reflexivity|]. cbn [cd_named]. intros a w Ha. rewrite sget_sset. destruct (String.eqb_spec a key) as [->|Ne].
  - rewrite (attr_key_config _ _ _ _ W A G) in Ha. inversion Ha; subst w. eexists. split; [reflexivity|]. cbn [wc_enable]. split; [reflexivity|]. congruence.
  - exists w. auto.
Qed.
Lemma filter_single k c r : wf_cand c -> filter_node k [c] = Ok r -> exists d, r = [d] /\ cd_mode d = cd_mode c /\ kept_weights c d /\
  (cd_mode c = M_no -> cd_bits d = 32%Z) /\ (cd_mode c <> M_no -> cd_bits d = cd_bits c /\ cd_method d = cd_method c).
Proof.
  intros W H. unfold filter_node in H.
  destruct (match k with None => Ok false | Some k0 => weights_enabled k0 [c] end) as [ken|] eqn:Ek; [|discriminate]. cbn [bind] in H.
  cbn [single_mode forallb bind] in H.
  assert (ken = false -> forall kn, k = Some kn -> exists w, get_attr_config c kn = Ok w /\ wc_enable w = false) as K.
  { intros -> kn ->. unfold weights_enabled, attr_cands in Ek. cbn [mapM] in Ek. destruct (get_attr_config c kn) as [w|]; [|discriminate]. cbn [bind forallb] in Ek.
    exists w. split; [reflexivity|]. destruct (wc_enable w); [discriminate|reflexivity]. }
  assert (forall kn, float_act c = kn -> wf_cand kn) as W2 by (intros kn <-; exact W).
  destruct (amode_eqb (cd_mode c) M_no) eqn:M.
  - apply amode_eqb_eq in M. rewrite M in *. destruct ken; cbn [negb andb] in H.
    + rewrite uniq_one in H. cbn [map] in H. apply dups_one in H. exists (float_act c). split; [exact H|]. split; [exact M|]. split; [apply kept_refl; reflexivity|].
      split; [reflexivity|congruence].
    + destruct (float_kernel k (float_act c)) as [d|] eqn:F; cbn [bind] in H; [|discriminate]. inversion H; subst r. exists d. split; [reflexivity|].
      destruct (float_kernel_kept k (float_act c) d (W2 _ eq_refl) (K eq_refl) F) as [F1 [F2 [F3 F4]]]. split; [rewrite F1; exact M|]. split; [exact F4|].
      split; [intros _; exact F2|congruence].
  - assert (cd_mode c <> M_no) as NM by (intro X; rewrite X in M; discriminate). rewrite andb_false_r in H.
    destruct (amode_eqb (cd_mode c) M_fln_no || amode_eqb (cd_mode c) M_fln_quant).
    { rewrite uniq_one in H. apply dups_one in H. exists c. split; [exact H|]. split; [reflexivity|]. split; [apply kept_refl; reflexivity|]. split; [congruence|auto]. }
    destruct ken; cbn [negb] in H.
    + inversion H. exists c. split; [reflexivity|]. split; [reflexivity|]. split; [apply kept_refl; reflexivity|]. split; [congruence|auto].
    + rewrite uniq_one in H. cbn [mapM] in H. destruct (float_kernel k c) as [d|] eqn:F; cbn [bind] in H; [|discriminate]. apply dups_one in H. exists d. split; [exact H|].
      destruct (float_kernel_kept k c d W (K eq_refl) F) as [F1 [F2 [F3 F4]]]. split; [exact F1|]. split; [exact F4|]. split; [congruence|auto].
Qed.

(* ---- the shape of loaded configurations ---- *)
Lemma sset_same_keys {V} k (v v' : V) : forall d d' : list (string * V), skeys d = skeys d' -> skeys (sset k v d) = skeys (sset k v' d').
Proof.
  induction d as [|[a x] d IH]; intros [|[b y] d'] E; cbn in E; try discriminate; [reflexivity|]. inversion E; subst.
  cbn [sset]. destruct (String.eqb k b); cbn; [f_equal; assumption|]. f_equal. apply IH. assumption.
Qed.
Lemma new_weights_keys attrs : forall o o' p s p' s', new_weights o attrs = Ok (p, s) -> new_weights o' attrs = Ok (p', s') -> NoDup (skeys s) /\ skeys s = skeys s'.
Proof.
  intros o o'. unfold new_weights.
  enough (forall d d' p s p' s', NoDup (skeys (snd d)) -> skeys (snd d) = skeys (snd d') ->
    foldM (fun (d : list (nat * wcfg) * list (string * wcfg)) w => let! a := attr_cfg_for o w in
                    Ok (match w with W_pos i => (dict_set i (wcfg_of a) (fst d), snd d) | W_name s => (fst d, sset s (wcfg_of a) (snd d)) end)) attrs d = Ok (p, s) ->
    foldM (fun (d : list (nat * wcfg) * list (string * wcfg)) w => let! a := attr_cfg_for o' w in
                    Ok (match w with W_pos i => (dict_set i (wcfg_of a) (fst d), snd d) | W_name s => (fst d, sset s (wcfg_of a) (snd d)) end)) attrs d' = Ok (p', s') ->
    NoDup (skeys s) /\ skeys s = skeys s') as K.
  { intros p s p' s' H H'. apply (K ([], []) ([], []) p s p' s'); [constructor|reflexivity|exact H|exact H']. }
  induction attrs as [|w l IH]; intros d d' p s p' s' N E H H'; cbn [foldM] in H, H'.
  - inversion H; inversion H'; subst. cbn in *. auto.
  - destruct (attr_cfg_for o w) as [a|]; cbn [bind] in H; [|discriminate]. destruct (attr_cfg_for o' w) as [a'|]; cbn [bind] in H'; [|discriminate].
    eapply IH; [| |exact H|exact H']; destruct w; cbn [snd]; auto; [apply sset_nodup, N|apply sset_same_keys, E].
Qed.

Definition from_option (attrs : list wname) (o : opcfg) (x : cand) : Prop := exists d m, new_cand attrs o = Ok d /\ x = set_mode m d.
Lemma from_option_self attrs o d : new_cand attrs o = Ok d -> from_option attrs o d.
Proof. intro H. exists d, (cd_mode d). split; [exact H|]. destruct d; reflexivity. Qed.
Lemma from_option_mode attrs o x m : from_option attrs o x -> from_option attrs o (set_mode m x).
Proof. intros [d [m0 [H ->]]]. exists d, m. split; [exact H|]. destruct d; reflexivity. Qed.
Definition shaped (f : fqc) (n : gnode) (c : nodecfg) : Prop :=
  (exists o, an_option f n o /\ from_option (gn_attrs n) o (nc_base c)) /\
  (forall x, In x (nc_cands c) -> exists o, from_option (gn_attrs n) o x).
Lemma shaped_modes f n m c : shaped f n c -> shaped f n (set_modes m c).
Proof.
  intros [[o [A B]] C]. split; [exists o; split; [exact A|apply from_option_mode, B]|].
  intros x I. cbn in I. apply in_map_iff in I. destruct I as [y [<- I]]. destruct (C y I) as [o' H]. exists o'. apply from_option_mode, H.
Qed.
Lemma set_node_shaped fuel f g st n st' : set_node fuel f g st n = Ok st' -> exists c, st' = dict_set (gn_id n) c st /\ shaped f n c.
Proof.
  unfold set_node. destruct (fetch f (gn_f n)) as [q|] eqn:Eq; [|discriminate]. cbn [bind].
  destruct (filter_by_graph fuel f g (gn_id n) q) as [[base opts]|] eqn:Ef; [|discriminate]. cbn [bind].
  destruct (mapM (new_cand (gn_attrs n)) opts) as [cands|] eqn:Ec; [|discriminate]. cbn [bind].
  destruct (new_cand (gn_attrs n) base) as [sp|] eqn:Es; [|discriminate]. cbn [bind].
  destruct (new_nodecfg sp cands) as [nc|] eqn:En; [|discriminate]. cbn [bind].
  destruct (sort_candidates (gn_kernel n) (nc_cands nc)) as [sorted|] eqn:So; [|discriminate]. cbn [bind].
  set (nc1 := NodeCfg (nc_base nc) sorted). set (nc2 := if gn_act n then nc1 else set_modes M_no nc1).
  destruct (disable_preserving g st (gn_id n) nc2) as [nc3|] eqn:Ed; [|discriminate]. cbn [bind].
  intro H. inversion H; subst st'. clear H. exists nc3. split; [reflexivity|].
  assert (nc = NodeCfg sp cands) as ->.
  { unfold new_nodecfg in En. destruct (negb _); [discriminate|]. destruct (existsb _ cands); [discriminate|]. destruct (existsb _ cands); [discriminate|]. inversion En. reflexivity. }
  cbn [nc_base nc_cands] in nc1, So. pose proof (sort_candidates_perm _ _ _ So) as P.
  assert (shaped f n nc1) as S1.
  { split.
    - exists base. split; [|apply from_option_self, Es]. exists q. split; [exact Eq|].
      destruct (restricted_options _ _ _ _ _ _ _ Ef) as [_ [R [_ [[B _]|[B _]]]]]; [left; exact B|right]. apply R in B. exact (proj1 B).
    - intros x I. cbn in I. apply (Permutation.Permutation_in _ P) in I. apply mapM_Forall2 in Ec. clear - Ec I.
      induction Ec as [|o y l l' H F IH]; [destruct I|]. destruct I as [<-|I]; [exists o; apply from_option_self, H|apply IH, I]. }
  assert (shaped f n nc2) as S2 by (unfold nc2; destruct (gn_act n); [exact S1|apply shaped_modes, S1]).
  unfold disable_preserving in Ed. destruct (node_mode nc2); cbn [bind] in Ed; [|discriminate]. destruct (negb _); [inversion Ed; subst; exact S2|].
  destruct (lprev g (gn_id n)) as [|p [|? ?]]; [inversion Ed; apply shaped_modes, S2| |inversion Ed; apply shaped_modes, S2].
  destruct (dict_get p st); [|discriminate]. destruct (node_mode n0); cbn [bind] in Ed; [|discriminate]. inversion Ed. destruct (amode_eqb _ M_no); [apply shaped_modes, S2|exact S2].
Qed.
Lemma load_shaped fuel f g st : NoDup (map gn_id (lg_nodes g)) -> load_graph fuel f g = Ok st ->
  forall n, In n (lg_nodes g) -> forall c, dict_get (gn_id n) st = Some c -> shaped f n c.
Proof.
  intros N H. unfold load_graph in H. destruct (mapM _ _); [|discriminate]. cbn [bind] in H.
  enough (forall l d, NoDup (map gn_id l) -> foldM (set_node fuel f g) l d = Ok st ->
    (forall k, ~ In k (map gn_id l) -> dict_get k st = dict_get k d) /\ forall n, In n l -> forall c, dict_get (gn_id n) st = Some c -> shaped f n c) as K.
  { apply (K (lg_nodes g) [] N H). }
  clear N H. intro l1. induction l1 as [|x l1 IH]; intros d N H; cbn [foldM] in H.
  - inversion H; subst. split; [reflexivity|intros n []].
  - destruct (set_node fuel f g d x) as [d1|] eqn:E; cbn [bind] in H; [|discriminate]. cbn in N. inversion N as [|? ? N1 N2]; subst.
    destruct (IH d1 N2 H) as [K1 K2]. destruct (set_node_shaped _ _ _ _ _ _ E) as [c0 [-> S0]]. split.
    + intros k Nk. rewrite K1 by (intro X; apply Nk; right; exact X). rewrite dict_get_set. destruct (Nat.eqb_spec k (gn_id x)) as [->|]; [|reflexivity].
      exfalso. apply Nk. left. reflexivity.
    + intros n [<-|I] c G; [|exact (K2 n I c G)]. rewrite (K1 (gn_id x) N1), dict_get_set, Nat.eqb_refl in G. inversion G; subst. exact S0.
Qed.

(* ---- fused operations ---- *)
Lemma uniq_subset {A} (e : A -> A -> bool) l x : In x (uniq e [] l) -> In x l.
Proof. intro I. eapply sublist_in; [apply uniq_sub|exact I]. Qed.
Lemma override_node_spec o c c' : override_node o c = Ok c' ->
  inner_output_of o (nc_base c') /\ cd_pos (nc_base c') = cd_pos (nc_base c) /\ cd_named (nc_base c') = cd_named (nc_base c) /\
  (forall x, In x (nc_cands c') -> exists y, In y (nc_cands c) /\ cd_named x = cd_named y) /\ cd_mode (nc_base c') <> M_quant /\ cd_mode (nc_base c') <> M_no.
Proof.
  assert (forall c', c' = NodeCfg (set_mode M_fln_no (nc_base c)) (uniq weights_eqb [] (map (set_mode M_fln_no) (nc_cands c))) ->
    cd_mode (nc_base c') = M_fln_no /\ cd_pos (nc_base c') = cd_pos (nc_base c) /\ cd_named (nc_base c') = cd_named (nc_base c) /\
    (forall x, In x (nc_cands c') -> exists y, In y (nc_cands c) /\ cd_named x = cd_named y) /\ cd_mode (nc_base c') <> M_quant /\ cd_mode (nc_base c') <> M_no) as K.
  { intros ? ->. cbn [nc_base nc_cands]. split; [reflexivity|]. split; [reflexivity|]. split; [reflexivity|]. split; [|split; discriminate].
    intros x I. apply uniq_subset, in_map_iff in I. destruct I as [y [<- I]]. exists y. auto. }
  unfold override_node, inner_output_of. destruct o as [q|].
  - destruct (oc_enable q).
    + destruct (oc_preserve q); [discriminate|]. intro H. inversion H; subst c'. cbn [nc_base nc_cands]. split; [split; [|split]; reflexivity|].
      split; [reflexivity|]. split; [reflexivity|]. split; [|split; discriminate].
      intros x I. apply in_map_iff in I. destruct I as [[k x'] [<- I]]. apply uniq_subset, in_map_iff in I. destruct I as [y [E I]]. inversion E. exists y. auto.
    + intro H. inversion H as [E]. destruct (K c' (eq_sym E)) as [K1 K2]. rewrite E. auto.
  - intro H. inversion H as [E]. destruct (K c' (eq_sym E)) as [K1 K2]. rewrite E. auto.
Qed.
Lemma from_option_named attrs o x : from_option attrs o x -> exists p s, new_weights o attrs = Ok (p, s) /\ cd_pos x = p /\ cd_named x = s.
Proof. intros [d [m [H ->]]]. apply new_cand_spec in H. destruct H as [[_ [_ [_ [_ H]]]] _]. eauto. Qed.
Lemma override_wf f fused st n m : (forall c, dict_get (gn_id n) st = Some c -> shaped f n c) -> override fused st n = Ok m -> wf_mnode m.
Proof.
  intros Sh. unfold override. destruct (dict_get (gn_id n) st) as [c|]; [|discriminate]. destruct (Sh c eq_refl) as [[o [_ B]] C].
  destruct (from_option_named _ _ _ B) as [pb [sb [Wb [_ Nb]]]].
  assert (wf_cand (nc_base c)) as W1 by (unfold wf_cand; rewrite Nb; apply (new_weights_keys _ _ _ _ _ _ _ Wb Wb)).
  assert (forall x, In x (nc_cands c) -> skeys (cd_named x) = skeys (cd_named (nc_base c))) as W2.
  { intros x I. destruct (C x I) as [o' B']. destruct (from_option_named _ _ _ B') as [px [sx [Wx [_ Nx]]]]. rewrite Nx, Nb. apply (new_weights_keys _ _ _ _ _ _ _ Wx Wb). }
  destruct (fused (gn_id n)) as [fo|].
  - destruct (override_node fo c) as [c'|] eqn:E; cbn [bind]; [|discriminate]. intro H. inversion H; subst m. destruct (override_node_spec _ _ _ E) as [_ [_ [O2 [O3 _]]]].
    unfold wf_mnode, wf_cand. cbn [mn_cfg]. rewrite O2. split; [exact W1|]. intros x I. destruct (O3 x I) as [y [J ->]]. apply W2, J.
  - cbn [bind]. intro H. inversion H; subst m. split; [exact W1|exact W2].
Qed.

(* ---- requests ---- *)
Lemma last_match_ext {R} (p p' : R -> bool) l : (forall r, In r l -> p r = p' r) -> last_match p l = last_match p' l.
Proof.
  induction l as [|r l IH]; intro E; [reflexivity|]. cbn [last_match]. rewrite (IH (fun x I => E x (or_intror I))), (E r (or_introl eq_refl)). reflexivity.
Qed.
Lemma request_same bw m m' : by_identity bw -> mn_id m = mn_id m' -> mn_attrs m = mn_attrs m' ->
  act_request bw m = act_request bw m' /\ forall a, weight_request bw m a = weight_request bw m' a.
Proof.
  intros B E1 E2. destruct bw as [c|]; [|split; reflexivity]. destruct (B c eq_refl m m' E1 E2) as [B1 B2]. unfold act_request, weight_request, wants_act, wants_weight. split.
  - f_equal. apply last_match_ext. exact B1.
  - intro a. f_equal. apply last_match_ext. intros r I. rewrite (B2 r I). reflexivity.
Qed.
(* requests for the output of a node are only met when the node quantizes its output *)
Lemma manual_mode c g g' : NoDup (map mn_id g) -> set_manual c g = Ok g' ->
  forall m, In m g -> wants_act c m <> None -> cd_mode (nc_base (mn_cfg m)) = M_quant.
Proof.
  intros N H m I Wa. unfold set_manual in H. destruct (act_mapping c g) as [a|] eqn:Ea; cbn [bind] in H; [|discriminate].
  destruct (weights_mapping c g) as [w|]; cbn [bind] in H; [|discriminate]. destruct (mapM _ g) as [g1|] eqn:E1; cbn [bind] in H; [|discriminate].
  destruct (act_get g (bw_act c) N _ _ Ea) as [_ A2]. specialize (A2 m I). fold (wants_act c m) in A2.
  apply mapM_Forall2 in E1. clear - E1 I Wa A2. induction E1 as [|x y l l' E F IH]; [destruct I|]. destruct I as [->|I]; [|apply IH, I].
  unfold apply_entry in E. destruct (wants_act c m) as [b|]; [|congruence]. rewrite A2 in E. destruct (apply_activation b (mn_cfg m)) as [nc|] eqn:P; [|discriminate].
  apply apply_act_spec in P. apply P.
Qed.

(* ---- putting the steps together ---- *)
Lemma chain (h : mnode -> mnode) (P : gnode -> mnode -> Prop) (Q : mnode -> mnode -> Prop) : forall l a, Forall2 P l a -> forall b, Forall2 Q a b -> forall r,
  mapM filter_one (combine l (map h b)) = Ok r -> Forall2 (fun n x => exists m m2, P n m /\ In m a /\ Q m m2 /\ filter_one (n, h m2) = Ok x) l r.
Proof.
  intros l a F. induction F as [|n m l a Pn F IH]; intros b G r H.
  - inversion G; subst. cbn in H. inversion H. constructor.
  - inversion G as [|? m2 ? b' Q1 G']; subst. cbn [map combine mapM] in H. destruct (filter_one (n, h m2)) as [x|] eqn:E; cbn [bind] in H; [|discriminate].
    destruct (mapM filter_one (combine l (map h b'))) as [r'|] eqn:R; cbn [bind] in H; [|discriminate]. inversion H; subst r. constructor.
    + exists m, m2. split; [exact Pn|]. split; [left; reflexivity|]. auto.
    + specialize (IH b' G' r' R). revert IH. clear. intro IH. induction IH as [|? ? ? ? (k1 & k2 & K1 & K2 & K3) F' IH']; constructor; [|exact IH'].
      exists k1, k2. split; [exact K1|]. split; [right; exact K2|exact K3].
Qed.
Lemma override_ids fused st l ms : mapM (override fused st) l = Ok ms -> map mn_id ms = map gn_id l.
Proof.
  intro H. apply mapM_Forall2 in H. induction H as [|n m l ms E F IH]; [reflexivity|]. cbn [map]. f_equal; [|exact IH].
  unfold override in E. destruct (dict_get _ st); [|discriminate]. destruct (fused (gn_id n)) as [fo|]; [destruct (override_node fo n0)|]; cbn [bind] in E; try discriminate; inversion E; reflexivity.
Qed.
(* what manual requests, if any, did to a node *)
Definition manual_effect (bw : option bwconfig) (m m2 : mnode) : Prop :=
  match bw with Some c => node_as_asked c m m2 | None => m2 = m end.
Lemma prepare_steps hm gq mixed fuel f g fused bw r : NoDup (map gn_id (lg_nodes g)) -> prepare hm gq mixed fuel f g fused bw = Ok r ->
  exists st, load_graph fuel f g = Ok st /\
  Forall2 (fun n x => exists m m2, override fused st n = Ok m /\ manual_effect bw m m2 /\ wf_mnode m /\
     (act_request bw m <> None -> cd_mode (nc_base (mn_cfg m)) = M_quant) /\
     filter_one (n, if mixed then m2 else single m2) = Ok x) (lg_nodes g) r.
Proof.
  intros N H. unfold prepare in H. destruct (hm && negb gq); [discriminate|]. destruct (load_graph fuel f g) as [st|] eqn:L; cbn [bind] in H; [|discriminate].
  exists st. split; [reflexivity|]. destruct (mapM (override fused st) (lg_nodes g)) as [ms|] eqn:O; cbn [bind] in H; [|discriminate].
  pose proof (override_ids _ _ _ _ O) as I. pose proof (load_shaped fuel f g st N L) as Sh.
  assert (forall m, In m ms -> wf_mnode m) as W.
  { apply mapM_Forall2 in O. clear - O Sh. revert Sh. generalize (lg_nodes g) O. clear O. intros l F. induction F as [|n m l ms E F IH]; intros Sh x J; [destruct J|].
    destruct J as [<-|J]; [|apply IH; [intros n' J'; apply Sh; right; exact J'|exact J]]. eapply override_wf; [|exact E]. apply Sh. left. reflexivity. }
  assert (NoDup (map mn_id ms)) as N2 by (rewrite I; exact N).
  apply mapM_Forall2 in O.
  assert (forall ms2, Forall2 (manual_effect bw) ms ms2 -> mapM filter_one (combine (lg_nodes g) (map (fun m => if mixed then m else single m) ms2)) = Ok r ->
     (forall m, In m ms -> act_request bw m <> None -> cd_mode (nc_base (mn_cfg m)) = M_quant) ->
     Forall2 (fun n x => exists m m2, override fused st n = Ok m /\ manual_effect bw m m2 /\ wf_mnode m /\
       (act_request bw m <> None -> cd_mode (nc_base (mn_cfg m)) = M_quant) /\ filter_one (n, if mixed then m2 else single m2) = Ok x) (lg_nodes g) r) as K.
  { intros ms2 M R MM. pose proof (chain _ _ _ _ _ O _ M _ R) as C. revert C. clear - W MM. intro C. induction C as [|n x l l' (m & m2 & C1 & C2 & C3 & C4) F IH]; constructor; [|exact IH].
    exists m, m2. split; [exact C1|]. split; [exact C3|]. split; [apply W, C2|]. split; [apply MM, C2|exact C4]. }
  assert (forall ms2, (if mixed then ms2 else map single ms2) = map (fun m => if mixed then m else single m) ms2) as EM.
  { intro ms2. destruct mixed; [symmetry; apply map_id|reflexivity]. }
  destruct bw as [c|].
  - destruct (set_manual c ms) as [ms2|] eqn:M; cbn [bind] in H; [|discriminate]. rewrite EM in H. apply (K ms2).
    + apply (manual_bit_widths c ms ms2 N2 W M).
    + exact H.
    + intros m J. exact (manual_mode c ms ms2 N2 M m J).
  - cbn [bind] in H. rewrite EM in H. apply (K ms).
    + clear. induction ms; constructor; [reflexivity|assumption].
    + exact H.
    + intros m _ X. exfalso. apply X. reflexivity.
Qed.
