(* CandProps.v -- C20: candidate filtering. *)
From Coq Require Import String.
From Verif Require Import Base SDict MPModel MPProofs HessianModel HessianProofs FilterModel FilterProps PlatModel SearchProofs LookupModel CandModel CandSpec.
Local Open Scope list_scope.

(* ---- keeping first occurrences ---- *)
Lemma uniq_sub {A} (eqb : A -> A -> bool) l : forall seen, sublist (uniq eqb seen l) l.
Proof.
  induction l as [|x l IH]; intro seen; cbn; [constructor|]. destruct (existsb (eqb x) seen); [apply sub_drop|apply sub_keep]; apply IH.
Qed.
Lemma uniq_complete {A} (eqb : A -> A -> bool) l : forall seen x, In x l ->
  In x (uniq eqb seen l) \/ exists y, In y (seen ++ uniq eqb seen l) /\ eqb x y = true.
Proof.
  induction l as [|z l IH]; intros seen x I; [destruct I|]. cbn. destruct (existsb (eqb z) seen) eqn:E.
  - destruct I as [->|I]; [|apply IH, I]. apply existsb_exists in E. destruct E as [y [J E]]. right. exists y. split; [apply in_app_iff; auto|exact E].
  - destruct I as [->|I]; [left; left; reflexivity|]. destruct (IH (seen ++ [z]) x I) as [H|[y [H E']]]; [left; right; exact H|].
    right. exists y. split; [|exact E']. rewrite <- app_assoc in H. exact H.
Qed.
Lemma uniq_nonempty {A} (eqb : A -> A -> bool) x l : uniq eqb [] (x :: l) <> [].
Proof. cbn. discriminate. Qed.
Lemma uniq_distinct {A} (eqb : A -> A -> bool) l : forall seen,
  (forall y z, In y seen -> In z (uniq eqb seen l) -> eqb z y = false) /\
  (forall i j a b, (i < j)%nat -> nth_error (uniq eqb seen l) i = Some a -> nth_error (uniq eqb seen l) j = Some b -> eqb b a = false).
Proof.
  induction l as [|x l IH]; intro seen; cbn.
  - split; [intros y z _ []|]. intros [|i] [|j] a b L H; discriminate.
  - destruct (existsb (eqb x) seen) eqn:E; [apply IH|]. destruct (IH (seen ++ [x])) as [A1 A2]. split.
    + intros y z I [<-|J]; [|apply A1; [apply in_app_iff; auto|exact J]].
      destruct (eqb x y) eqn:E2; [|reflexivity]. exfalso. enough (existsb (eqb x) seen = true) by congruence. apply existsb_exists. eauto.
    + intros [|i] [|j] a b L H K; cbn in *; try lia.
      * inversion H; subst. apply nth_error_In in K. apply A1; [apply in_app_iff; cbn; auto|exact K].
      * eapply (A2 i j); [lia|eassumption|eassumption].
Qed.
Lemma sublist_in {A} (s l : list A) x : sublist s l -> In x s -> In x l.
Proof. induction 1 as [|y s l H IH|y s l H IH]; cbn; [auto| |]; [intros [E|I]; auto|auto]. Qed.
Lemma sublist_refl {A} (l : list A) : sublist l l.
Proof. induction l; constructor; assumption. Qed.
Lemma filter_sublist {A} (p : A -> bool) l : sublist (filter p l) l.
Proof. induction l as [|c r IH]; cbn; [constructor|destruct (p c); constructor; exact IH]. Qed.
Lemma sublist_trans {A} (b c : list A) : sublist b c -> forall a, sublist a b -> sublist a c.
Proof.
  induction 1 as [|x b c H IH|x b c H IH]; intros a K; [exact K| |apply sub_drop, IH, K].
  inversion K; subst; [apply sub_keep|apply sub_drop]; apply IH; assumption.
Qed.
Lemma sublist_map {A B} (f : A -> B) s l : sublist s l -> sublist (map f s) (map f l).
Proof. induction 1; cbn; constructor; assumption. Qed.
Lemma sublist_Forall2 {A B} (R : A -> B -> Prop) s' l' : sublist s' l' -> forall l, Forall2 R l l' -> exists s, sublist s l /\ Forall2 R s s'.
Proof.
  induction 1 as [|x s l' H IH|x s l' H IH]; intros l F; inversion F as [|y ? l0 ? Ry F0]; subst.
  - exists []. split; constructor.
  - destruct (IH _ F0) as [s0 [S0 F1]]. exists (y :: s0). split; [apply sub_keep, S0|constructor; assumption].
  - destruct (IH _ F0) as [s0 [S0 F1]]. exists s0. split; [apply sub_drop, S0|exact F1].
Qed.

(* ---- modes ---- *)
Lemma amode_eqb_eq a b : amode_eqb a b = true <-> a = b.
Proof. destruct a, b; cbn; split; congruence. Qed.
Lemma single_mode_spec cs m : single_mode cs = Ok m <-> all_mode m cs.
Proof.
  destruct cs as [|c r]; cbn; [split; [discriminate|intros [N _]; congruence]|].
  destruct (forallb (fun d => amode_eqb (cd_mode d) (cd_mode c)) r) eqn:E.
  - rewrite forallb_forall in E. split.
    + intro H. inversion H; subst. split; [discriminate|]. intros d [<-|I]; [reflexivity|]. apply amode_eqb_eq, E, I.
    + intros [_ H]. rewrite (H c); [reflexivity|left; reflexivity].
  - split; [discriminate|]. intros [_ H]. exfalso. enough (forallb (fun d => amode_eqb (cd_mode d) (cd_mode c)) r = true) by congruence.
    apply forallb_forall. intros d I. apply amode_eqb_eq. rewrite (H d), (H c); cbn; auto.
Qed.
Lemma weights_enabled_spec k cs b : weights_enabled k cs = Ok b -> (b = true <-> kernel_quantized (Some k) cs).
Proof.
  unfold weights_enabled, attr_cands. destruct (mapM _ cs) as [l|] eqn:E; [|discriminate]. cbn [bind]. intro H. inversion H; subst b. clear H.
  apply mapM_Forall2 in E. unfold kernel_quantized. cbn [kernel_is]. rewrite forallb_forall. split.
  - intro A. split; [discriminate|]. intros c w I G. apply A. clear A. induction E as [|x y l l' Hx F IH]; [destruct I|].
    destruct I as [->|I]; [left; congruence|right; auto].
  - intros [_ A] w I. induction E as [|x y l l' Hx F IH]; [destruct I|].
    destruct I as [<-|I]; [apply (A x); [left; reflexivity|exact Hx]|apply IH; [|exact I]]. intros c w' J. apply A. right. exact J.
Qed.

(* ---- looking up the kernel ---- *)
Lemma sprefix_refl s : String.prefix s s = true.
Proof. induction s as [|a s IH]; cbn; [reflexivity|]. destruct (Ascii.ascii_dec a a); [exact IH|congruence]. Qed.
Lemma contains_refl s : str_contains s s = true.
Proof.
  unfold str_contains. destruct s as [|a s]; cbn [index]; [reflexivity|]. rewrite sprefix_refl. reflexivity.
Qed.
Lemma attr_key_spec c k : match attr_key c k with
  | Ok s => str_contains s k = true /\ exists w, sget s (cd_named c) = Some w /\ (wf_cand c -> get_attr_config c k = Ok w)
  | Err e => get_attr_config c k = Err e end.
Proof.
  unfold attr_key, get_attr_config. destruct (filter _ (cd_named c)) as [|[s w] [|kv l]] eqn:E; [reflexivity| |].
  - assert (In (s, w) (filter (fun kv => str_contains (fst kv) k) (cd_named c))) as I by (rewrite E; left; reflexivity).
    apply filter_In in I. destruct I as [I C]. cbn in *. split; [exact C|].
    destruct (proj1 (sget_key s (cd_named c))) as [w' G]; [apply in_map_iff; exists (s, w); auto|].
    exists w'. split; [exact G|]. intro N. rewrite (in_sget _ _ _ N I) in G. congruence.
  - destruct (sget k (cd_named c)) as [w'|] eqn:G; [|reflexivity]. split; [apply contains_refl|]. exists w'. auto.
Qed.
Lemma skeys_filter {V} (p : string -> bool) (d : list (string * V)) : skeys (filter (fun kv => p (fst kv)) d) = filter p (skeys d).
Proof. unfold skeys. induction d as [|[k v] d IH]; cbn; [reflexivity|]. destruct (p k); cbn; rewrite IH; reflexivity. Qed.
(* the lookup only looks at the names *)
Lemma attr_key_names c d k : skeys (cd_named c) = skeys (cd_named d) -> attr_key c k = attr_key d k.
Proof.
  intro E. unfold attr_key. pose proof (skeys_filter (fun s => str_contains s k) (cd_named c)) as A.
  pose proof (skeys_filter (fun s => str_contains s k) (cd_named d)) as B. cbn beta in A, B. rewrite E, <- B in A. clear B.
  destruct (filter _ (cd_named c)) as [|x [|x2 l]], (filter _ (cd_named d)) as [|y [|y2 l']]; try discriminate; [reflexivity|inversion A; congruence|].
  destruct (sget k (cd_named c)) eqn:G1, (sget k (cd_named d)) eqn:G2; try reflexivity.
  - apply sget_none in G2. exfalso. apply G2. rewrite <- E. apply sget_key. eauto.
  - apply sget_none in G1. exfalso. apply G1. rewrite E. apply sget_key. eauto.
Qed.
Lemma get_attr_total c k : (exists w, get_attr_config c k = Ok w) <-> exists s, attr_key c k = Ok s.
Proof.
  unfold get_attr_config, attr_key. destruct (filter _ (cd_named c)) as [|x [|y l]]; [split; intros [? ?]; discriminate|split; eauto|].
  destruct (sget k (cd_named c)); [split; eauto|split; intros [? ?]; discriminate].
Qed.
Lemma sset_keys_in {V} k (v w : V) d : sget k d = Some w -> skeys (sset k v d) = skeys d.
Proof.
  unfold skeys. induction d as [|[k' v'] d IH]; cbn; [discriminate|]. destruct (String.eqb_spec k k') as [->|N]; cbn; [reflexivity|]. intro H. rewrite IH; [reflexivity|exact H].
Qed.
Ltac sp := match goal with |- _ /\ _ => split; [sp|sp] | |- _ => idtac end.
Lemma same_but_refl a k kernel c : same_but a k kernel c c.
Proof. unfold same_but. sp; auto. intros s w H. exists w. auto. Qed.
Lemma same_but_float_act k kernel c : same_but false k kernel c (float_act c).
Proof. unfold same_but. sp; auto; [discriminate|]. intros s w H. exists w. auto. Qed.
Lemma float_kernel_spec kernel c d : float_kernel kernel c = Ok d -> same_but true false kernel c d.
Proof.
  destruct kernel as [k|]; cbn; [|intro H; inversion H; apply same_but_refl]. unfold set_attr_bits.
  pose proof (attr_key_spec c k) as A. destruct (attr_key c k) as [s|]; [|discriminate]. cbn [bind].
  destruct A as [C [w [G _]]]. rewrite G. intro H. inversion H; subst. clear H. unfold same_but. sp; cbn; auto; try congruence.
  - eapply sset_keys_in, G.
  - intros s' w' G'. rewrite sget_sset. destruct (String.eqb_spec s' s) as [->|N]; [|exists w'; auto].
    rewrite G in G'. inversion G'; subst w'. eexists. split; [reflexivity|]. cbn. repeat split. right. exists k. auto.
Qed.
Lemma same_but_trans a k kernel x y z : same_but a k kernel x y -> same_but a k kernel y z -> same_but a k kernel x z.
Proof.
  intros (A1 & A2 & A3 & A4 & A5 & A6 & A7 & A8) (B1 & B2 & B3 & B4 & B5 & B6 & B7 & B8).
  unfold same_but. sp; try congruence.
  - intro E. destruct (A6 E), (B6 E). split; congruence.
  - intro E. rewrite (B7 E). apply A7, E.
  - intros s w G. destruct (A8 s w G) as [w1 [G1 [E1 [P1 D1]]]]. destruct (B8 s w1 G1) as [w2 [G2 [E2 [P2 D2]]]].
    exists w2. split; [exact G2|]. split; [congruence|]. split; [congruence|]. destruct D2 as [->|D2]; [exact D1|right; exact D2].
Qed.
Lemma same_but_weaken a k a' k' kernel x y : same_but a k kernel x y -> (a' = true -> a = true) -> (k' = true -> k = true) -> same_but a' k' kernel x y.
Proof. intros (A1 & A2 & A3 & A4 & A5 & A6 & A7 & A8) Ha Hk. unfold same_but. sp; auto. Qed.

(* ---- duplicates by bit-widths and methods ---- *)
Lemma opt_eqb_spec {V} (eqb : V -> V -> bool) : (forall x y, eqb x y = true <-> x = y) -> forall a b, opt_eqb eqb a b = true <-> a = b.
Proof. intros H [x|] [y|]; cbn; try (split; congruence). rewrite H. split; congruence. Qed.
Lemma bm_key_eqb_spec a b : bm_key_eqb a b = true <-> a = b.
Proof.
  destruct a as [[x y] [z t]], b as [[x' y'] [z' t']]. unfold bm_key_eqb. cbn.
  rewrite !andb_true_iff, (opt_eqb_spec Z.eqb Z.eqb_eq), (opt_eqb_spec Nat.eqb Nat.eqb_eq), Z.eqb_eq, Nat.eqb_eq.
  split; [intros [[[-> ->] ->] ->]; reflexivity|]. intro E. inversion E. auto.
Qed.
Lemma dups_spec kernel cs r : bit_method_dups kernel cs = Ok r ->
  sublist r cs /\ (cs <> [] -> r <> []) /\ pairwise_not (same_config kernel) r /\
  forall c, In c cs -> exists d, In d r /\ bm_key_of kernel c = bm_key_of kernel d /\ exists key, bm_key_of kernel c = Ok key.
Proof.
  unfold bit_method_dups. destruct (mapM _ cs) as [ks|] eqn:E; [|discriminate]. cbn [bind]. intro H. inversion H; subst r. clear H.
  apply mapM_Forall2 in E.
  assert (map snd ks = cs /\ forall x, In x ks -> bm_key_of kernel (snd x) = Ok (fst x)) as [M K].
  { clear - E. induction E as [|x y l l' Hx F [IH1 IH2]]; [split; [reflexivity|intros x []]|].
    destruct (bm_key_of kernel x) as [k|] eqn:G; [|discriminate]. cbn [bind] in Hx. inversion Hx; subst y. cbn. split; [rewrite IH1; reflexivity|].
    intros z [<-|I]; [exact G|apply IH2, I]. }
  set (eqb := fun a b : bm_key * cand => bm_key_eqb (fst a) (fst b)). subst cs.
  assert (forall x, In x (uniq eqb [] ks) -> In x ks) as SI by (intros x; apply sublist_in, uniq_sub).
  split; [apply sublist_map, uniq_sub|]. split.
  { destruct ks; [cbn; congruence|]. intros _. cbn. discriminate. }
  split.
  - assert (forall i j a b, (i < j)%nat -> nth_error (map snd (uniq eqb [] ks)) i = Some a -> nth_error (map snd (uniq eqb [] ks)) j = Some b ->
       ~ same_config kernel a b /\ ~ same_config kernel b a) as D.
    { intros i j a b L Ha Hb. rewrite nth_error_map in Ha, Hb.
      destruct (nth_error (uniq eqb [] ks) i) as [[ka a']|] eqn:Na; [|discriminate]. destruct (nth_error (uniq eqb [] ks) j) as [[kb b']|] eqn:Nb; [|discriminate].
      cbn in Ha, Hb. inversion Ha; inversion Hb; subst a' b'. clear Ha Hb.
      pose proof (proj2 (uniq_distinct eqb ks []) i j _ _ L Na Nb) as X. unfold eqb in X. cbn in X.
      pose proof (K _ (SI _ (nth_error_In _ _ Na))) as Ka. pose proof (K _ (SI _ (nth_error_In _ _ Nb))) as Kb. cbn in Ka, Kb.
      assert (ka <> kb) as Y by (intros ->; assert (bm_key_eqb kb kb = true) by (apply bm_key_eqb_spec; reflexivity); congruence).
      unfold bm_key_of in Ka, Kb. unfold same_config, kernel_is. destruct kernel as [k|].
      - destruct (get_attr_config a k) as [wa|] eqn:Ga; [|discriminate]. destruct (get_attr_config b k) as [wb|] eqn:Gb; [|discriminate].
        cbn [bind] in Ka, Kb. split; intros (B & M & W); [destruct (W wa wb eq_refl eq_refl) as [W1 W2]|destruct (W wb wa eq_refl eq_refl) as [W1 W2]]; congruence.
      - split; intros (B & M & _); congruence. }
    intros i j a b Ha Hb S. destruct (Nat.lt_trichotomy i j) as [L|[L|L]]; [|exact L|].
    + destruct (D i j a b L Ha Hb). contradiction.
    + destruct (D j i b a L Hb Ha). contradiction.
  - intros c I. apply in_map_iff in I. destruct I as [[k c'] [Ec I]]. cbn in Ec. subst c'. pose proof (K _ I) as Kc. cbn in Kc.
    destruct (uniq_complete eqb ks [] _ I) as [J|[[k' d] [J X]]].
    + exists c. split; [apply in_map_iff; exists (k, c); auto|]. split; [reflexivity|eauto].
    + cbn in J. exists d. split; [apply in_map_iff; exists (k', d); auto|]. unfold eqb in X. cbn in X. apply bm_key_eqb_spec in X. subst k'.
      pose proof (K _ (SI _ J)) as Kd. cbn in Kd. split; [congruence|eauto].
Qed.
Lemma dups_total kernel cs : (forall k, kernel = Some k -> forall c, In c cs -> exists w, get_attr_config c k = Ok w) -> exists r, bit_method_dups kernel cs = Ok r.
Proof.
  intro H. unfold bit_method_dups. destruct (mapM_total (fun c => let! k := bm_key_of kernel c in Ok (k, c)) cs) as [l [E _]].
  - intros c I. unfold bm_key_of. destruct kernel as [k|]; [destruct (H k eq_refl c I) as [w ->]|]; cbn; eauto.
  - rewrite E. cbn. eauto.
Qed.

(* equal weights configurations have equal kernels *)
Lemma wcfg_eqb_spec a b : wcfg_eqb a b = true <-> a = b.
Proof.
  unfold wcfg_eqb. rewrite !andb_true_iff, Nat.eqb_eq, Z.eqb_eq, !Bool.eqb_true_iff. destruct a, b; cbn. split; [intros [[[-> ->] ->] ->]; reflexivity|].
  intro E. inversion E. auto.
Qed.
Lemma weights_eqb_kernel a b k w : wf_cand a -> wf_cand b -> weights_eqb a b = true -> get_attr_config a k = Ok w -> get_attr_config b k = Ok w.
Proof.
  intros Na Nb H. unfold weights_eqb in H. rewrite !andb_true_iff in H. destruct H as [_ H]. unfold sdict_eqb in H.
  rewrite andb_true_iff, forallb_forall in H. destruct H as [L H]. apply Nat.eqb_eq in L.
  assert (forall s v, In (s, v) (cd_named a) -> In (s, v) (cd_named b)) as IN.
  { intros s v I. specialize (H _ I). cbn in H. destruct (sget s (cd_named b)) as [v'|] eqn:G; [|discriminate].
    apply wcfg_eqb_spec in H. subst v'. apply sget_in, G. }
  assert (incl (skeys (cd_named b)) (skeys (cd_named a))) as INC.
  { apply NoDup_length_incl; [exact Na|unfold skeys; rewrite !map_length; lia|]. intros s I. unfold skeys in *. apply in_map_iff in I. destruct I as [[s' v] [<- I]].
    apply in_map_iff. exists (s', v). split; [reflexivity|apply IN, I]. }
  assert (forall s v, In (s, v) (cd_named b) -> In (s, v) (cd_named a)) as NI.
  { intros s v I. assert (In s (skeys (cd_named a))) as J by (apply INC, in_map_iff; exists (s, v); auto).
    apply sget_key in J. destruct J as [v' G]. apply sget_in in G. pose proof (IN _ _ G) as J2.
    pose proof (in_sget _ _ _ Nb I). pose proof (in_sget _ _ _ Nb J2). replace v with v' by congruence. exact G. }
  assert (forall s, sget s (cd_named a) = sget s (cd_named b)) as SG.
  { intro s. destruct (sget s (cd_named a)) as [v|] eqn:G.
    - symmetry. apply in_sget; [exact Nb|]. apply IN, sget_in, G.
    - symmetry. apply sget_none. apply sget_none in G. intro J. apply G, INC, J. }
  unfold get_attr_config.
  set (fa := filter (fun kv => str_contains (fst kv) k) (cd_named a)). set (fb := filter (fun kv => str_contains (fst kv) k) (cd_named b)).
  assert (forall x, In x fa <-> In x fb) as FF.
  { intros [s v]. unfold fa, fb. rewrite !filter_In. split; intros [I J]; split; auto. }
  assert (NoDup fa /\ NoDup fb) as [DA DB].
  { split; apply NoDup_filter; [apply (NoDup_map_inv fst), Na|apply (NoDup_map_inv fst), Nb]. }
  assert (length fa = length fb) as LL.
  { apply Nat.le_antisymm; apply NoDup_incl_length; try assumption; intros x I; apply FF, I. }
  destruct fa as [|x [|x2 la]] eqn:Fa, fb as [|y [|y2 lb]] eqn:Fb; cbn in LL; try lia; [auto| |].
  - assert (In x [y]) as [->|[]] by (apply FF; left; reflexivity). auto.
  - rewrite <- SG. auto.
Qed.

Lemma act_eqb_spec a b : act_eqb a b = true <-> cd_method a = cd_method b /\ cd_bits a = cd_bits b /\ cd_mode a = cd_mode b.
Proof. unfold act_eqb. rewrite !andb_true_iff, Nat.eqb_eq, Z.eqb_eq, amode_eqb_eq. tauto. Qed.

(* ---- C20 ---- *)
Lemma filter_node_mode kernel cs r : filter_node kernel cs = Ok r -> exists m ken, all_mode m cs /\ (ken = true <-> kernel_quantized kernel cs) /\
  (match kernel with None => ken = false | Some k => exists l, attr_cands k cs = Ok l end) /\
  ((ken = false /\ m = M_no /\ exists c cs' d, cs = c :: cs' /\ float_kernel kernel (float_act c) = Ok d /\ r = [d]) \/
   (ken = true /\ m = M_no /\ bit_method_dups kernel (map float_act (uniq weights_eqb [] cs)) = Ok r) \/
   ((m = M_fln_no \/ m = M_fln_quant) /\ bit_method_dups kernel (uniq weights_eqb [] cs) = Ok r) \/
   (ken = false /\ (m = M_quant \/ m = M_preserve) /\ exists l, mapM (float_kernel kernel) (uniq act_eqb [] cs) = Ok l /\ bit_method_dups kernel l = Ok r) \/
   (ken = true /\ (m = M_quant \/ m = M_preserve) /\ r = cs)).
Proof.
  unfold filter_node. intro H.
  assert (exists ken, (match kernel with None => Ok false | Some k => weights_enabled k cs end) = Ok ken) as [ken Ek].
  { destruct (match kernel with None => Ok false | Some k => weights_enabled k cs end); [eauto|discriminate]. }
  rewrite Ek in H. cbn [bind] in H. destruct (single_mode cs) as [m|] eqn:Em; [|discriminate]. cbn [bind] in H.
  exists m, ken. split; [apply single_mode_spec, Em|]. split.
  { destruct kernel as [k|]; [apply weights_enabled_spec, Ek|]. inversion Ek; subst. split; [discriminate|]. intros [N _]. congruence. }
  split. { destruct kernel as [k|]; [|congruence]. unfold weights_enabled in Ek. destruct (attr_cands k cs); [eauto|discriminate]. }
  destruct ken; destruct m; cbn [negb andb orb amode_eqb] in H; auto 8.
  - right. right. right. right. inversion H. auto.
  - right. right. right. right. inversion H. auto.
  - right. right. right. left. destruct (mapM _ _) as [l|] eqn:El; [|discriminate]. cbn [bind] in H. eauto 8.
  - right. right. right. left. destruct (mapM _ _) as [l|] eqn:El; [|discriminate]. cbn [bind] in H. eauto 8.
  - left. destruct cs as [|c cs']; [discriminate|]. destruct (float_kernel kernel (float_act c)) as [d|] eqn:Ed; [|discriminate]. cbn [bind] in H.
    inversion H. split; [reflexivity|]. split; [reflexivity|]. exists c, cs', d. auto.
Qed.

Lemma Forall2_map_r {A B} (R : A -> B -> Prop) (f : A -> B) l : (forall x, R x (f x)) -> Forall2 R l (map f l).
Proof. intro H. induction l; cbn; constructor; auto. Qed.
Lemma Forall2_same {A} (R : A -> A -> Prop) l : (forall x, R x x) -> Forall2 R l l.
Proof. intro H. induction l; constructor; auto. Qed.

(* the remaining candidates are some of the original ones, in order, up to the bit-widths of parts that are not quantized *)
Theorem filtering_keeps_candidates kernel cs r : filter_node kernel cs = Ok r ->
  r <> [] /\ exists m s, all_mode m cs /\ sublist s cs /\
  forall a k, (a = true -> m <> M_no) -> (k = true -> kernel_quantized kernel cs) -> Forall2 (same_but a k kernel) s r.
Proof.
  intro H. destruct (filter_node_mode _ _ _ H) as (m & ken & AM & KQ & _ & C). assert (cs <> []) as NE by apply AM.
  destruct C as [(K & -> & c & cs' & d & -> & Fd & ->)|[(K & -> & D)|[(M & D)|[(K & M & l & El & D)|(K & M & ->)]]]].
  - split; [discriminate|]. exists M_no, [c]. split; [exact AM|]. split; [apply sub_keep; clear; induction cs'; constructor; assumption|].
    intros a k Ha Hk. constructor; [|constructor]. apply float_kernel_spec in Fd.
    apply (same_but_weaken false false); [|intro X; destruct (Ha X eq_refl)|intro X; apply Hk, KQ in X; congruence].
    eapply same_but_trans; [apply same_but_float_act|]. eapply same_but_weaken; [exact Fd|reflexivity|auto].
  - destruct (dups_spec _ _ _ D) as (S & N & _). split; [apply N; destruct cs; [congruence|cbn; discriminate]|].
    destruct (sublist_Forall2 (same_but false true kernel) r _ S (uniq weights_eqb [] cs)) as [s [S1 F]].
    { apply Forall2_map_r. intro x. apply same_but_float_act. }
    exists M_no, s. split; [exact AM|]. split; [eapply sublist_trans; [apply uniq_sub|exact S1]|].
    intros a k Ha Hk. eapply Forall2_impl; [|exact F]. intros x y Hxy. eapply same_but_weaken; [exact Hxy|intro X; destruct (Ha X eq_refl)|auto].
  - destruct (dups_spec _ _ _ D) as (S & N & _). split; [apply N; destruct cs; [congruence|cbn; discriminate]|].
    exists m, r. split; [exact AM|]. split; [eapply sublist_trans; [apply uniq_sub|exact S]|]. intros a k _ _. apply Forall2_same. intro x. apply same_but_refl.
  - destruct (dups_spec _ _ _ D) as (S & N & _). apply mapM_Forall2 in El. split.
    { apply N. intros ->. inversion El as [X|]. destruct cs; [congruence|cbn in X; discriminate]. }
    destruct (sublist_Forall2 (same_but true false kernel) r l S (uniq act_eqb [] cs)) as [s [S1 F]].
    { eapply Forall2_impl; [|exact El]. intros x y. apply float_kernel_spec. }
    exists m, s. split; [exact AM|]. split; [eapply sublist_trans; [apply uniq_sub|exact S1]|].
    intros a k Ha Hk. eapply Forall2_impl; [|exact F]. intros x y Hxy. eapply same_but_weaken; [exact Hxy|auto|intro X; apply Hk, KQ in X; congruence].
  - split; [exact NE|]. exists m, cs. split; [exact AM|]. split; [apply sublist_refl|]. intros a k _ _. apply Forall2_same. intro x. apply same_but_refl.
Qed.
Print Assumptions filtering_keeps_candidates.

(* no two of the remaining candidates agree on the bit-widths and methods, unless both parts are quantized *)
Theorem filtering_removes_duplicates kernel cs r : filter_node kernel cs = Ok r ->
  ~ (kernel_quantized kernel cs /\ (all_mode M_quant cs \/ all_mode M_preserve cs)) -> pairwise_not (same_config kernel) r.
Proof.
  intros H NB. destruct (filter_node_mode _ _ _ H) as (m & ken & AM & KQ & _ & C).
  destruct C as [(K & -> & c & cs' & d & -> & Fd & ->)|[(K & -> & D)|[(M & D)|[(K & M & l & El & D)|(K & M & ->)]]]].
  - intros [|i] [|j] a b A B _; [reflexivity| | |]; exfalso; cbn in A, B; [destruct j; discriminate|destruct i; discriminate|destruct i; discriminate].
  - eapply dups_spec, D.
  - eapply dups_spec, D.
  - eapply dups_spec, D.
  - exfalso. apply NB. split; [apply KQ, K|]. destruct M as [->| ->]; auto.
Qed.
Print Assumptions filtering_removes_duplicates.

(* every kernel bit-width is still available when the kernel is quantized *)
Theorem filtering_keeps_kernel_bits kernel cs r : Forall wf_cand cs -> filter_node kernel cs = Ok r -> kernel_quantized kernel cs ->
  forall c w, In c cs -> kernel_is kernel c w ->
  exists d w', In d r /\ kernel_is kernel d w' /\ wc_bits w' = wc_bits w /\ wc_method w' = wc_method w.
Proof.
  intros W H KE c w I Kc. rewrite Forall_forall in W. destruct kernel as [k|]; [|destruct Kc]. cbn [kernel_is] in *.
  destruct (filter_node_mode _ _ _ H) as (m & ken & AM & KQ & _ & C). assert (ken = true) as -> by (apply KQ, KE).
  assert (exists y, In y (uniq weights_eqb [] cs) /\ get_attr_config y k = Ok w) as [y [Iy Ky]].
  { destruct (uniq_complete weights_eqb cs [] c I) as [J|[y [J E]]]; [eauto|]. cbn in J. exists y. split; [exact J|].
    eapply weights_eqb_kernel; [| |exact E|exact Kc]; apply W; [exact I|]. eapply sublist_in; [apply uniq_sub|exact J]. }
  assert (forall y l r, In y l -> get_attr_config y k = Ok w -> bit_method_dups (Some k) l = Ok r ->
     exists d w', In d r /\ get_attr_config d k = Ok w' /\ wc_bits w' = wc_bits w /\ wc_method w' = wc_method w) as DD.
  { intros y' l r' Iy' Ky' D. destruct (dups_spec _ _ _ D) as (_ & _ & _ & Cm). destruct (Cm y' Iy') as (d & Id & E & key & Ek).
    unfold bm_key_of in E, Ek. rewrite Ky' in E. cbn [bind] in E. destruct (get_attr_config d k) as [wd|] eqn:Gd; [|discriminate]. cbn [bind] in E.
    exists d, wd. inversion E. auto. }
  destruct C as [(K & _)|[(K & -> & D)|[(M & D)|[(K & M & l & El & D)|(K & M & ->)]]]]; try discriminate.
  - eapply (DD (float_act y)); [apply in_map, Iy|exact Ky|exact D].
  - eapply DD; eassumption.
  - exists c, w. auto.
Qed.
Print Assumptions filtering_keeps_kernel_bits.

(* every activation bit-width is still available when the activation is quantized by the node (or preserved) *)
Theorem filtering_keeps_activation_bits kernel cs r : filter_node kernel cs = Ok r -> all_mode M_quant cs \/ all_mode M_preserve cs ->
  forall c, In c cs -> exists d, In d r /\ cd_bits d = cd_bits c /\ cd_method d = cd_method c /\ cd_mode d = cd_mode c.
Proof.
  intros H A c I. destruct (filter_node_mode _ _ _ H) as (m & ken & AM & _ & _ & C).
  assert (m = M_quant \/ m = M_preserve) as Hm.
  { destruct AM as [_ AM]. rewrite <- (AM c I). destruct A as [[_ A]|[_ A]]; rewrite (A c I); auto. }
  destruct C as [(K & -> & _)|[(K & -> & D)|[(M & D)|[(K & M & l & El & D)|(K & M & ->)]]]];
    try (destruct Hm; discriminate); [destruct M as [->| ->]; destruct Hm; discriminate| |exists c; auto].
  assert (exists y, In y (uniq act_eqb [] cs) /\ cd_bits y = cd_bits c /\ cd_method y = cd_method c /\ cd_mode y = cd_mode c) as (y & Iy & Y1 & Y2 & Y3).
  { destruct (uniq_complete act_eqb cs [] c I) as [J|[y [J E]]]; [eauto|]. cbn in J. apply act_eqb_spec in E. exists y. intuition congruence. }
  apply mapM_Forall2 in El.
  assert (exists z, In z l /\ float_kernel kernel y = Ok z) as (z & Iz & Fz).
  { clear - El Iy. induction El as [|a b la lb Hab F IH]; [destruct Iy|]. destruct Iy as [->|Iy]; [exists b; cbn; auto|]. destruct (IH Iy) as (z & ? & ?). exists z. cbn. auto. }
  destruct (float_kernel_spec _ _ _ Fz) as (Z1 & _ & _ & _ & _ & Z2 & _). destruct (Z2 eq_refl) as [Z3 Z4].
  destruct (dups_spec _ _ _ D) as (S & _ & _ & Cm). destruct (Cm z Iz) as (d & Id & E & key & Ek).
  exists d. split; [exact Id|].
  assert (cd_bits d = cd_bits z /\ cd_method d = cd_method z) as [D1 D2].
  { unfold bm_key_of in E, Ek. destruct kernel as [k|]; [destruct (get_attr_config z k); [|discriminate]; destruct (get_attr_config d k); [|discriminate]; cbn [bind] in E|];
      inversion E; auto. }
  split; [congruence|]. split; [congruence|].
  assert (forall z, In z l -> cd_mode z = m) as ML.
  { intros z' I'. clear - El I' AM. assert (forall y, In y (uniq act_eqb [] cs) -> cd_mode y = m) as U.
    { intros y J. apply AM. eapply sublist_in; [apply uniq_sub|exact J]. }
    induction El as [|a b la lb Hab F IH]; [destruct I'|]. destruct I' as [->|I'].
    - apply float_kernel_spec in Hab. destruct Hab as (-> & _). apply U. left. reflexivity.
    - apply IH; [exact I'|]. intros y J. apply U. right. exact J. }
  rewrite (ML d), <- (ML z), Z1, Y3; [reflexivity|exact Iz|]. eapply sublist_in; [exact S|exact Id].
Qed.
Print Assumptions filtering_keeps_activation_bits.

(* parts that are not quantized: the remaining candidates carry the floating-point bit-width there *)
Lemma float_kernel_is_float k c d w : wf_cand c -> float_kernel (Some k) c = Ok d -> get_attr_config d k = Ok w -> wc_bits w = 32%Z /\ wc_method w = POWER_OF_TWO.
Proof.
  intros W H G. assert (skeys (cd_named d) = skeys (cd_named c)) as SK by apply (float_kernel_spec _ _ _ H).
  pose proof (attr_key_names d c k SK) as AK. cbn in H. unfold set_attr_bits in H.
  destruct (attr_key c k) as [s|]; [|discriminate]. cbn [bind] in H.
  pose proof (attr_key_spec d k) as D. rewrite AK in D. destruct D as [_ [w' [G' D]]]. rewrite D in G by (unfold wf_cand; rewrite SK; exact W). inversion G; subst w'.
  destruct (sget s (cd_named c)) as [w0|]; [|discriminate]. inversion H; subst d. cbn in G'. rewrite sget_sset, String.eqb_refl in G'. inversion G'; subst w. split; reflexivity.
Qed.
Theorem unquantized_parts_are_float kernel cs r : Forall wf_cand cs -> filter_node kernel cs = Ok r -> forall d, In d r ->
  (all_mode M_no cs -> cd_bits d = 32%Z /\ cd_method d = POWER_OF_TWO) /\
  (~ kernel_quantized kernel cs -> all_mode M_no cs \/ all_mode M_quant cs \/ all_mode M_preserve cs ->
     forall w, kernel_is kernel d w -> wc_bits w = 32%Z /\ wc_method w = POWER_OF_TWO).
Proof.
  intros W H d I. rewrite Forall_forall in W. destruct (filter_node_mode _ _ _ H) as (m & ken & AM & KQ & _ & C).
  assert (MM : forall m', all_mode m' cs -> m' = m).
  { intros m' [NE A]. destruct cs as [|c0 cs0]; [congruence|]. destruct AM as [_ B]. rewrite <- (A c0), <- (B c0) by (left; reflexivity). reflexivity. }
  assert (FA : m = M_no -> forall l, (forall x, In x l -> cd_bits x = 32%Z /\ cd_method x = POWER_OF_TWO) -> bit_method_dups kernel l = Ok r -> cd_bits d = 32%Z /\ cd_method d = POWER_OF_TWO).
  { intros _ l Hl D. apply Hl. eapply sublist_in; [apply (dups_spec _ _ _ D)|exact I]. }
  destruct C as [(K & -> & c & cs' & e & -> & Fd & ->)|[(K & -> & D)|[(M & D)|[(K & M & l & El & D)|(K & M & ->)]]]].
  - destruct I as [<-|[]]. destruct (float_kernel_spec _ _ _ Fd) as (_ & _ & _ & _ & _ & A & _). destruct (A eq_refl) as [A1 A2].
    split; [intros _; split; [exact A1|exact A2]|]. intros _ _ w Kw. destruct kernel as [k|]; [|destruct Kw].
    refine (float_kernel_is_float k (float_act c) e w _ Fd Kw). exact (W c (or_introl eq_refl)).
  - split; [|intro N; destruct N; apply KQ, K]. intros _. refine (FA eq_refl _ _ D).
    intros x Hx. apply in_map_iff in Hx. destruct Hx as [y [<- _]]. split; reflexivity.
  - split; [intro A; apply MM in A; subst; destruct M; discriminate|]. intros _ [A|[A|A]]; apply MM in A; subst; destruct M; discriminate.
  - split; [intro A; apply MM in A; subst; destruct M; discriminate|]. intros _ _ w Kw. destruct kernel as [k|]; [|destruct Kw].
    assert (In d l) as Il by (eapply sublist_in; [apply (dups_spec _ _ _ D)|exact I]).
    apply mapM_Forall2 in El. assert (exists y, In y (uniq act_eqb [] cs) /\ float_kernel (Some k) y = Ok d) as (y & Iy & Fy).
    { clear - El Il. induction El as [|a b la lb Hab F IH]; [destruct Il|]. destruct Il as [->|Il]; [exists a; cbn; auto|]. destruct (IH Il) as (y & ? & ?). exists y. cbn. auto. }
    eapply float_kernel_is_float; [|exact Fy|exact Kw]. apply W. eapply sublist_in; [apply uniq_sub|exact Iy].
  - split; [intro A; apply MM in A; subst; destruct M; discriminate|]. intro N. destruct N. apply KQ, K.
Qed.
Print Assumptions unquantized_parts_are_float.

(* filtering succeeds for every list of candidates with one activation mode in which the kernel is found *)
Theorem filtering_succeeds kernel cs m : all_mode m cs ->
  (forall k, kernel = Some k -> forall c, In c cs -> exists w, get_attr_config c k = Ok w) -> exists r, filter_node kernel cs = Ok r.
Proof.
  intros AM KT. unfold filter_node.
  assert (exists ken, (match kernel with None => Ok false | Some k => weights_enabled k cs end) = Ok ken) as [ken ->].
  { destruct kernel as [k|]; [|eauto]. unfold weights_enabled, attr_cands. destruct (mapM_total (fun c => get_attr_config c k) cs) as [l [-> _]]; [exact (KT k eq_refl)|cbn; eauto]. }
  cbn [bind]. rewrite (proj2 (single_mode_spec cs m) AM). cbn [bind].
  assert (forall c, In c cs -> forall k, kernel = Some k -> exists s, attr_key c k = Ok s) as AK.
  { intros c I k E. apply get_attr_total. eapply KT; eassumption. }
  assert (forall c d, In c cs -> skeys (cd_named d) = skeys (cd_named c) -> forall k, kernel = Some k -> exists w, get_attr_config d k = Ok w) as DT.
  { intros c d I E k Ek. apply get_attr_total. rewrite (attr_key_names d c k E). apply AK; assumption. }
  assert (forall c d, In c cs -> cd_named d = cd_named c -> exists e, float_kernel kernel d = Ok e) as FT.
  { intros c d I E. destruct kernel as [k|]; cbn; [|eauto]. unfold set_attr_bits. destruct (AK c I k eq_refl) as [s Es].
    rewrite (attr_key_names d c k) by congruence. rewrite Es. cbn [bind]. pose proof (attr_key_spec c k) as X. rewrite Es in X. destruct X as (_ & w & G & _).
    rewrite E, G. eauto. }
  assert (forall l, (forall d, In d l -> exists c, In c cs /\ skeys (cd_named d) = skeys (cd_named c)) -> exists r, bit_method_dups kernel l = Ok r) as DU.
  { intros l Hl. apply dups_total. intros k Ek d I. destruct (Hl d I) as (c & Ic & E). eapply DT; eassumption. }
  assert (forall (eqb : cand -> cand -> bool) d, In d (uniq eqb [] cs) -> In d cs) as UI by (intros eqb d; apply sublist_in, uniq_sub).
  destruct (negb ken && amode_eqb m M_no).
  { destruct cs as [|c cs']; [destruct AM; congruence|]. destruct (FT c (float_act c)) as [e ->]; [left; reflexivity|reflexivity|]. cbn. eauto. }
  destruct (amode_eqb m M_no).
  { apply DU. intros d I. apply in_map_iff in I. destruct I as (c & <- & I). exists c. split; [eapply UI, I|reflexivity]. }
  destruct (amode_eqb m M_fln_no || amode_eqb m M_fln_quant).
  { apply DU. intros d I. exists d. split; [eapply UI, I|reflexivity]. }
  destruct (negb ken); [|eauto].
  destruct (mapM_total (float_kernel kernel) (uniq act_eqb [] cs)) as [l [El _]]; [intros c I; eapply FT; [eapply UI, I|reflexivity]|].
  rewrite El. cbn [bind]. apply DU. apply mapM_Forall2 in El. intros d I.
  assert (forall a, In a (uniq act_eqb [] cs) -> In a cs) as UA by (intro a; apply UI).
  clear - El I UA. induction El as [|a b la lb Hab F IH]; [destruct I|]. destruct I as [->|I].
  - apply float_kernel_spec in Hab. destruct Hab as (_ & _ & _ & _ & E & _). exists a. split; [apply UA; left; reflexivity|exact E].
  - apply IH; [exact I|]. intros x J. apply UA. right. exact J.
Qed.
Print Assumptions filtering_succeeds.

(* ---- unique candidates ---- *)
(* one candidate per activation configuration / per configuration of a weight, the first one, in order *)
Theorem unique_activation_exact cs : sublist (unique_activation cs) cs /\
  pairwise_not (fun a b => cd_bits a = cd_bits b /\ cd_method a = cd_method b /\ cd_mode a = cd_mode b) (unique_activation cs) /\
  forall c, In c cs -> exists d, In d (unique_activation cs) /\ cd_bits d = cd_bits c /\ cd_method d = cd_method c /\ cd_mode d = cd_mode c.
Proof.
  unfold unique_activation. split; [apply uniq_sub|]. split.
  - assert (forall i j a b, (i < j)%nat -> nth_error (uniq act_eqb [] cs) i = Some a -> nth_error (uniq act_eqb [] cs) j = Some b ->
       ~ (cd_bits a = cd_bits b /\ cd_method a = cd_method b /\ cd_mode a = cd_mode b)) as D.
    { intros i j a b L Ha Hb (E1 & E2 & E3). pose proof (proj2 (uniq_distinct act_eqb cs []) i j a b L Ha Hb) as X.
      assert (act_eqb b a = true) by (apply act_eqb_spec; auto). congruence. }
    intros i j a b Ha Hb (E1 & E2 & E3). destruct (Nat.lt_trichotomy i j) as [L|[L|L]]; [|exact L|]; exfalso.
    + apply (D i j a b L Ha Hb). auto.
    + apply (D j i b a L Hb Ha). auto.
  - intros c I. destruct (uniq_complete act_eqb cs [] c I) as [J|[y [J E]]]; [exists c; auto|]. cbn in J. apply act_eqb_spec in E.
    exists y. intuition congruence.
Qed.
Print Assumptions unique_activation_exact.
Theorem unique_weights_exact k cs r : unique_weights (Some k) cs = Ok r -> sublist r cs /\
  pairwise_not (fun a b => get_attr_config a k = get_attr_config b k) r /\
  forall c, In c cs -> exists d, In d r /\ get_attr_config d k = get_attr_config c k.
Proof.
  unfold unique_weights. destruct (mapM _ cs) as [ks|] eqn:E; [|discriminate]. cbn [bind]. intro H. inversion H; subst r. clear H.
  apply mapM_Forall2 in E.
  assert (map snd ks = cs /\ forall x, In x ks -> get_attr_config (snd x) k = Ok (fst x)) as [M K].
  { clear - E. induction E as [|x y l l' Hx F [IH1 IH2]]; [split; [reflexivity|intros x []]|].
    destruct (get_attr_config x k) as [w|] eqn:G; [|discriminate]. cbn [bind] in Hx. inversion Hx; subst y. cbn. split; [rewrite IH1; reflexivity|].
    intros z [<-|I]; [exact G|apply IH2, I]. }
  set (eqb := fun a b : wcfg * cand => wcfg_eqb (fst a) (fst b)). subst cs.
  assert (forall x, In x (uniq eqb [] ks) -> In x ks) as SI by (intros x; apply sublist_in, uniq_sub).
  split; [apply sublist_map, uniq_sub|]. split.
  - assert (forall i j a b, (i < j)%nat -> nth_error (map snd (uniq eqb [] ks)) i = Some a -> nth_error (map snd (uniq eqb [] ks)) j = Some b ->
       get_attr_config a k <> get_attr_config b k) as D.
    { intros i j a b L Ha Hb. rewrite nth_error_map in Ha, Hb.
      destruct (nth_error (uniq eqb [] ks) i) as [[ka a']|] eqn:Na; [|discriminate]. destruct (nth_error (uniq eqb [] ks) j) as [[kb b']|] eqn:Nb; [|discriminate].
      cbn in Ha, Hb. inversion Ha; inversion Hb; subst a' b'. clear Ha Hb.
      pose proof (proj2 (uniq_distinct eqb ks []) i j _ _ L Na Nb) as X. unfold eqb in X. cbn in X.
      pose proof (K _ (SI _ (nth_error_In _ _ Na))) as Ka. pose proof (K _ (SI _ (nth_error_In _ _ Nb))) as Kb. cbn in Ka, Kb.
      rewrite Ka, Kb. intro Y. inversion Y; subst kb. assert (wcfg_eqb ka ka = true) by (apply wcfg_eqb_spec; reflexivity). congruence. }
    intros i j a b Ha Hb S. destruct (Nat.lt_trichotomy i j) as [L|[L|L]]; [|exact L|]; exfalso.
    + apply (D i j a b L Ha Hb). auto.
    + apply (D j i b a L Hb Ha). auto.
  - intros c I. apply in_map_iff in I. destruct I as [[w c'] [Ec I]]. cbn in Ec. subst c'. pose proof (K _ I) as Kc. cbn in Kc.
    destruct (uniq_complete eqb ks [] _ I) as [J|[[w' d] [J X]]].
    + exists c. split; [apply in_map_iff; exists (w, c); auto|reflexivity].
    + cbn in J. exists d. split; [apply in_map_iff; exists (w', d); auto|]. unfold eqb in X. cbn in X. apply wcfg_eqb_spec in X. subst w'.
      pose proof (K _ (SI _ J)) as Kd. cbn in Kd. congruence.
Qed.
Print Assumptions unique_weights_exact.
(* removing duplicates keeps the first of each group of equal candidates *)
Theorem remove_duplicates_exact cs : sublist (remove_duplicates cs) cs /\
  (forall i j a b, (i < j)%nat -> nth_error (remove_duplicates cs) i = Some a -> nth_error (remove_duplicates cs) j = Some b -> cand_eqb b a = false) /\
  forall c, In c cs -> In c (remove_duplicates cs) \/ exists d, In d (remove_duplicates cs) /\ cand_eqb c d = true.
Proof.
  split; [apply uniq_sub|]. split; [apply (proj2 (uniq_distinct cand_eqb cs []))|]. apply (uniq_complete cand_eqb cs []).
Qed.
Print Assumptions remove_duplicates_exact.

(* ---- restricting candidates to the base bit-width of the part that no target restricts ---- *)
Definition activation_varies (cs : list cand) : Prop :=
  all_mode M_quant cs /\ exists a b, In a cs /\ In b cs /\ (cd_bits a <> cd_bits b \/ cd_method a <> cd_method b).
Definition kernel_varies (n : cnode) : Prop :=
  cn_reuse n = false /\ cn_kernel n <> Some EmptyString /\ kernel_quantized (cn_kernel n) (cn_cands n) /\
  exists a b wa wb, In a (cn_cands n) /\ In b (cn_cands n) /\ kernel_is (cn_kernel n) a wa /\ kernel_is (cn_kernel n) b wb /\ wa <> wb.

Lemma configurable_act_spec cs b : configurable_act cs = Ok b -> (b = true <-> activation_varies cs).
Proof.
  unfold configurable_act. destruct (single_mode cs) as [m|] eqn:E; [|discriminate]. cbn [bind]. intro H. inversion H; subst b. clear H.
  apply single_mode_spec in E. rewrite andb_true_iff, amode_eqb_eq, negb_true_iff. unfold activation_varies. split.
  - intros [-> X]. split; [exact E|]. destruct cs as [|c r]; [discriminate|].
    destruct (forallb_forall (fun d => act_eqb d c) (c :: r)) as [_ F]. 
    assert (exists d, In d (c :: r) /\ act_eqb d c = false) as (d & I & Xd).
    { clear F. revert X. generalize (c :: r). intro l. induction l as [|y l IH]; cbn; [discriminate|]. destruct (act_eqb y c) eqn:Y; cbn; [|eauto].
      intro X. destruct (IH X) as (d & ? & ?). eauto. }
    exists d, c. split; [exact I|]. split; [left; reflexivity|].
    destruct (Z.eq_dec (cd_bits d) (cd_bits c)) as [Eb|]; [|auto]. destruct (Nat.eq_dec (cd_method d) (cd_method c)) as [Em|]; [|auto].
    assert (act_eqb d c = true); [|congruence]. apply act_eqb_spec. repeat split; auto. destruct E as [_ E]. rewrite (E d I), (E c); [reflexivity|left; reflexivity].
  - intros [A (a & b & Ia & Ib & D)]. split; [destruct E as [_ E], A as [_ A]; rewrite <- (E a Ia); apply A, Ia|].
    destruct cs as [|c r]; [destruct Ia|]. destruct (forallb (fun d => act_eqb d c) (c :: r)) eqn:F; [|reflexivity]. exfalso.
    rewrite forallb_forall in F. pose proof (F a Ia) as Fa. pose proof (F b Ib) as Fb. apply act_eqb_spec in Fa, Fb. intuition congruence.
Qed.
Lemma configurable_node_spec n b : weights_configurable_node n = Ok b -> (b = true <-> kernel_varies n).
Proof.
  unfold weights_configurable_node, kernel_varies. destruct (cn_kernel n) as [k|].
  2:{ intro H. inversion H; subst. split; [discriminate|]. intros (_ & _ & [X _] & _). congruence. }
  destruct k as [|ch k]; [intro H; inversion H; subst; split; [discriminate|intros (_ & X & _); congruence]|].
  set (kn := String ch k). unfold configurable_weight. destruct (weights_enabled kn (cn_cands n)) as [e|] eqn:E; [|discriminate]. cbn [bind].
  pose proof (weights_enabled_spec _ _ _ E) as EN. destruct e.
  - destruct (attr_cands kn (cn_cands n)) as [l|] eqn:A; [|discriminate]. cbn [bind]. intro H. inversion H; subst b. clear H.
    unfold attr_cands in A. apply mapM_Forall2 in A.
    rewrite andb_true_iff, !negb_true_iff. cbn [kernel_is].
    assert ((match l with [] => true | w :: r => forallb (fun x => wcfg_eqb x w) r end) = false <-> exists x y, In x l /\ In y l /\ x <> y) as L.
    { destruct l as [|w r]; [split; [discriminate|intros (x & y & [] & _)]|]. split.
      - intro X. assert (exists d, In d r /\ wcfg_eqb d w = false) as (d & I & Xd).
        { revert X. clear. induction r as [|y l IH]; cbn; [discriminate|]. destruct (wcfg_eqb y w) eqn:Y; cbn; [|eauto]. intro X. destruct (IH X) as (d & ? & ?). eauto. }
        exists d, w. split; [right; exact I|]. split; [left; reflexivity|]. intros ->. assert (wcfg_eqb w w = true) by (apply wcfg_eqb_spec; reflexivity). congruence.
      - intros (x & y & Ix & Iy & N). destruct (forallb (fun x => wcfg_eqb x w) r) eqn:F; [|reflexivity]. exfalso. rewrite forallb_forall in F. apply N.
        assert (forall z, In z (w :: r) -> z = w) as Q by (intros z [->|I]; [reflexivity|apply wcfg_eqb_spec, F, I]). rewrite (Q x Ix), (Q y Iy). reflexivity. }
    rewrite L. clear L. assert (forall x, In x l <-> exists c, In c (cn_cands n) /\ get_attr_config c kn = Ok x) as IL.
    { intro x. clear - A. induction A as [|a b la lb Hab F IH]; [split; [intros []|intros (c & [] & _)]|]. cbn. rewrite IH. split.
      - intros [->|(c & I & G)]; [exists a; auto|exists c; auto].
      - intros (c & [->|I] & G); [left; congruence|right; eauto]. }
    split.
    + intros [(x & y & Ix & Iy & N) R]. split; [exact R|]. split; [discriminate|]. split; [apply EN; reflexivity|].
      apply IL in Ix, Iy. destruct Ix as (a & Ia & Ga), Iy as (b & Ib & Gb). exists a, b, x, y. auto.
    + intros (R & _ & _ & a & b & wa & wb & Ia & Ib & Ga & Gb & N). split; [|exact R]. exists wa, wb. split; [apply IL; eauto|]. split; [apply IL; eauto|exact N].
  - cbn [bind]. intro H. inversion H; subst. cbn. split; [discriminate|]. intros (_ & _ & Q & _). apply EN in Q. discriminate.
Qed.

(* with a weights target only, a node whose activation could vary keeps exactly the candidates with the activation bit-width of
   its base configuration; every other node, and every node under any other combination of targets, is unchanged *)
Theorem weights_only_filter t g g' : mp_filter t g = Ok g' -> r_weights t = true -> r_activation t = false -> r_total t = false -> r_bops t = false ->
  Forall2 (fun n n' => cn_id n' = cn_id n /\ cn_kernel n' = cn_kernel n /\ cn_reuse n' = cn_reuse n /\ nc_base (cn_cfg n') = nc_base (cn_cfg n) /\
    (~ activation_varies (cn_cands n) -> n' = n) /\
    (activation_varies (cn_cands n) -> sublist (cn_cands n') (cn_cands n) /\
       forall c, In c (cn_cands n') <-> In c (cn_cands n) /\ cd_bits c = cd_bits (nc_base (cn_cfg n)))) g g'.
Proof.
  unfold mp_filter. intros H W A T B. rewrite W, A, T, B in H. cbn in H. apply mapM_Forall2 in H. eapply Forall2_impl; [|exact H]. clear.
  intros n n' H. unfold keep_base_activation in H. destruct (configurable_act (cn_cands n)) as [b|] eqn:E; [|discriminate]. cbn [bind] in H.
  pose proof (configurable_act_spec _ _ E) as C. destruct b; inversion H; subst n'.
  - destruct (proj1 C eq_refl) as [[_ AM] _]. cbn. sp; auto; [intro N; destruct N; apply C; reflexivity|]. intros _. unfold cn_cands at 1 3. cbn.
    split; [apply filter_sublist|].
    intro c. rewrite filter_In, andb_true_iff, Z.eqb_eq, amode_eqb_eq. split; [tauto|]. intros [I Eb]. repeat split; auto.
  - sp; auto. intro N. apply C in N. discriminate.
Qed.
Print Assumptions weights_only_filter.
Theorem activation_only_filter t g g' : mp_filter t g = Ok g' -> r_weights t = false -> r_activation t = true -> r_total t = false -> r_bops t = false ->
  Forall2 (fun n n' => cn_id n' = cn_id n /\ cn_kernel n' = cn_kernel n /\ cn_reuse n' = cn_reuse n /\ nc_base (cn_cfg n') = nc_base (cn_cfg n) /\
    (~ kernel_varies n -> n' = n) /\
    (kernel_varies n -> sublist (cn_cands n') (cn_cands n) /\ exists b, kernel_is (cn_kernel n) (nc_base (cn_cfg n)) b /\
       forall c, In c (cn_cands n') <-> In c (cn_cands n) /\ exists w, kernel_is (cn_kernel n) c w /\ wc_bits w = wc_bits b)) g g'.
Proof.
  unfold mp_filter. intros H W A T B. rewrite W, A, T, B in H. cbn in H. apply mapM_Forall2 in H. eapply Forall2_impl; [|exact H]. clear.
  intros n n' H. unfold keep_base_weights in H. destruct (weights_configurable_node n) as [v|] eqn:E; [|discriminate]. cbn [bind] in H.
  pose proof (configurable_node_spec _ _ E) as C. destruct v; [|inversion H; subst n'; sp; auto; intro N; apply C in N; discriminate].
  destruct (cn_kernel n) as [k|] eqn:Ek; [|discriminate]. destruct (get_attr_config (nc_base (cn_cfg n)) k) as [b|] eqn:Gb; [|discriminate]. cbn [bind] in H.
  destruct (filterM _ (cn_cands n)) as [cs|] eqn:F; [|discriminate]. cbn [bind] in H. inversion H; subst n'. clear H.
  destruct (proj1 C eq_refl) as (_ & _ & [_ KQ] & _). rewrite Ek in KQ.
  unfold with_cands. cbn [cn_id cn_kernel cn_reuse cn_cfg nc_base]. sp; auto; [intro N; destruct N; apply C; reflexivity|]. intros _. unfold cn_cands at 1 3. cbn [cn_cfg nc_cands].
  pose proof (filterM_pure _ _ _ F) as P. split; [rewrite P; apply filter_sublist|].
  exists b. split; [exact Gb|]. intro c. rewrite P, filter_In. cbn [kernel_is]. split.
  - intros [I O]. split; [exact I|]. destruct (get_attr_config c k) as [w|] eqn:G; [|discriminate]. cbn [bind okb] in O. exists w. split; [reflexivity|].
    destruct (wc_enable w && (wc_bits w =? wc_bits b)%Z) eqn:X; [|discriminate]. apply andb_true_iff in X. destruct X as [_ X]. apply Z.eqb_eq, X.
  - intros [I (w & G & Ew)]. split; [exact I|]. rewrite G. cbn [bind okb]. rewrite (KQ c w I G), (proj2 (Z.eqb_eq _ _) Ew). reflexivity.
Qed.
Print Assumptions activation_only_filter.
Theorem no_filter_otherwise t g : (r_total t = true \/ r_bops t = true \/ r_weights t = r_activation t) -> mp_filter t g = Ok g.
Proof.
  unfold mp_filter. intros [->|[->| ->]]; [reflexivity|rewrite orb_true_r; reflexivity|]. destruct (r_total t || r_bops t); [reflexivity|].
  destruct (r_activation t); reflexivity.
Qed.
Print Assumptions no_filter_otherwise.
(* no node is left without candidates, as long as its base bit-widths are those of some candidate *)
Theorem restricted_filter_nonempty t g g' : mp_filter t g = Ok g' ->
  (forall n, In n g -> (exists c, In c (cn_cands n) /\ cd_bits c = cd_bits (nc_base (cn_cfg n))) /\
     forall b, kernel_is (cn_kernel n) (nc_base (cn_cfg n)) b -> exists c w, In c (cn_cands n) /\ kernel_is (cn_kernel n) c w /\ wc_bits w = wc_bits b) ->
  forall n', In n' g' -> cn_cands n' <> [].
Proof.
  intros H P n' I'. assert (forall n, In n g -> cn_cands n <> []) as NE.
  { intros n I X. destruct (P n I) as [(c & J & _) _]. rewrite X in J. destruct J. }
  assert (forall (R : cnode -> cnode -> Prop) , Forall2 R g g' -> exists n, In n g /\ R n n') as FI.
  { intros R F. clear - F I'. induction F as [|a b la lb Hab F IH]; [destruct I'|]. destruct I' as [->|I']; [exists a; cbn; auto|]. destruct (IH I') as (n & ? & ?). exists n. cbn. auto. }
  destruct (r_total t) eqn:T; [rewrite no_filter_otherwise in H by auto; inversion H; subst; auto|].
  destruct (r_bops t) eqn:B; [rewrite no_filter_otherwise in H by auto; inversion H; subst; auto|].
  destruct (r_weights t) eqn:W, (r_activation t) eqn:A; try (rewrite no_filter_otherwise in H by (rewrite W, A; auto); inversion H; subst; auto).
  - destruct (FI _ (weights_only_filter _ _ _ H W A T B)) as (n & I & _ & _ & _ & _ & U & V).
    unfold mp_filter in H. rewrite W, A, T, B in H. cbn in H.
    assert (exists b, configurable_act (cn_cands n) = Ok b) as [b E].
    { apply mapM_Forall2 in H. clear - H I. induction H as [|a b la lb Hab F IH]; [destruct I|]. destruct I as [->|I]; [|auto].
      unfold keep_base_activation in Hab. destruct (configurable_act (cn_cands n)); [eauto|discriminate]. }
    pose proof (configurable_act_spec _ _ E) as C. destruct b.
    + destruct (V (proj1 C eq_refl)) as [_ V']. destruct (P n I) as [(c & J & Ec) _]. intro X. assert (In c (cn_cands n')) as Q by (apply V'; auto). rewrite X in Q. destruct Q.
    + rewrite U; [apply NE, I|]. intro Q. apply C in Q. discriminate.
  - destruct (FI _ (activation_only_filter _ _ _ H W A T B)) as (n & I & _ & _ & _ & _ & U & V).
    unfold mp_filter in H. rewrite W, A, T, B in H. cbn in H.
    assert (exists b, weights_configurable_node n = Ok b) as [b E].
    { apply mapM_Forall2 in H. clear - H I. induction H as [|a b la lb Hab F IH]; [destruct I|]. destruct I as [->|I]; [|auto].
      unfold keep_base_weights in Hab. destruct (weights_configurable_node n); [eauto|discriminate]. }
    pose proof (configurable_node_spec _ _ E) as C. destruct b.
    + destruct (V (proj1 C eq_refl)) as [_ (b & Kb & V')]. destruct (P n I) as [_ Q]. destruct (Q b Kb) as (c & w & J & Kc & Ec).
      intro X. assert (In c (cn_cands n')) as Y by (apply V'; eauto). rewrite X in Y. destruct Y.
    + rewrite U; [apply NE, I|]. intro Q. apply C in Q. discriminate.
Qed.
Print Assumptions restricted_filter_nonempty.

(* ---- concrete cases and findings ---- *)
Definition xw (b : Z) : wcfg := WCfg 0 b true true.
Definition xc (m : amode) (a w : Z) : cand := Cand 0 a m 0 None [] [("kernel"%string, xw w)].
Definition xcp (m : amode) (a w : Z) : cand := Cand 0 a m 0 None [(0%nat, xw w)] [].
Definition xk : option string := Some "kernel"%string.

Example x_no_activation : filter_node xk [xc M_no 8 8; xc M_no 4 8; xc M_no 8 4] = Ok [xc M_no 32 8; xc M_no 32 4].
Proof. vm_compute. reflexivity. Qed.
Example x_unquantized : Forall wf_cand [xc M_no 8 8; xc M_no 4 8] /\ all_mode M_no [xc M_no 8 8; xc M_no 4 8].
Proof. split; [repeat constructor; intros []|]. split; [discriminate|]. intros c [<-|[<-|[]]]; reflexivity. Qed.
Example x_no_kernel : filter_node None [xcp M_quant 8 8; xcp M_quant 8 8; xcp M_quant 4 8] = Ok [xcp M_quant 8 8; xcp M_quant 4 8].
Proof. vm_compute. reflexivity. Qed.
Definition xnd (cs : list cand) : cnode := CNode 0 xk false (NodeCfg (xc M_quant 8 8) cs).
Definition xw_only : restricted := Restricted true false false false.
Example x_weights_only : mp_filter xw_only [xnd [xc M_quant 8 8; xc M_quant 4 8; xc M_quant 8 4; xc M_quant 4 4]] =
  Ok [xnd [xc M_quant 8 8; xc M_quant 8 4]].
Proof. vm_compute. reflexivity. Qed.

(* finding: duplicates are not removed from a node with quantized kernel and activation *)
Theorem duplicates_remain_refuted : exists kernel cs r, filter_node kernel cs = Ok r /\ ~ pairwise_not (same_config kernel) r.
Proof.
  exists xk, [xc M_quant 8 8; xc M_quant 8 8], [xc M_quant 8 8; xc M_quant 8 8]. split; [vm_compute; reflexivity|].
  intro P. enough (0 = 1)%nat by discriminate. apply (P 0%nat 1%nat (xc M_quant 8 8) (xc M_quant 8 8)); [reflexivity|reflexivity|].
  repeat split; intros; cbn in *; congruence.
Qed.
Print Assumptions duplicates_remain_refuted.
(* finding: the bit-widths of weights other than the kernel are dropped although they are quantized *)
Theorem positional_bits_dropped_refuted : exists kernel cs r c, filter_node kernel cs = Ok r /\ In c cs /\
  (forall i w, dict_get i (cd_pos c) = Some w -> wc_enable w = true) /\
  ~ exists d i w w', In d r /\ dict_get i (cd_pos c) = Some w /\ dict_get i (cd_pos d) = Some w' /\ wc_bits w' = wc_bits w.
Proof.
  exists None, [xcp M_quant 8 8; xcp M_quant 8 16], [xcp M_quant 8 8], (xcp M_quant 8 16).
  split; [vm_compute; reflexivity|]. split; [right; left; reflexivity|]. split.
  - intros [|i] w H; cbn in H; [inversion H; reflexivity|discriminate].
  - intros (d & [|i] & w & w' & [<-|[]] & H1 & H2 & E); cbn in H1, H2; [|discriminate]. inversion H1; inversion H2; subst. discriminate.
Qed.
Print Assumptions positional_bits_dropped_refuted.
(* finding: with a weights-only target, a kernel bit-width that only occurs together with another activation bit-width is lost *)
Theorem weights_only_loses_kernel_bits_refuted : exists g g' n n' c w, mp_filter xw_only g = Ok g' /\ g = [n] /\ g' = [n'] /\
  (exists d, In d (cn_cands n) /\ d = nc_base (cn_cfg n)) /\ In c (cn_cands n) /\ kernel_is (cn_kernel n) c w /\
  ~ exists d w', In d (cn_cands n') /\ kernel_is (cn_kernel n') d w' /\ wc_bits w' = wc_bits w.
Proof.
  eexists [xnd [xc M_quant 8 8; xc M_quant 4 4]], [xnd [xc M_quant 8 8]], _, _, (xc M_quant 4 4), (xw 4).
  split; [vm_compute; reflexivity|]. split; [reflexivity|]. split; [reflexivity|]. split; [eexists; split; [left; reflexivity|reflexivity]|].
  split; [right; left; reflexivity|]. split; [reflexivity|].
  intros (d & w' & [<-|[]] & K & E). vm_compute in K. inversion K; subst. discriminate.
Qed.
Print Assumptions weights_only_loses_kernel_bits_refuted.
