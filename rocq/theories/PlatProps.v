(* PlatProps.v -- C46 (editing options), C47 (schema upgrade), C48 (fusing containment). *)
From Coq Require Import String.
From Verif Require Import Base SDict PlatModel PlatSpec PlatProofs SearchProofs.
Local Open Scope list_scope.

(* ---- C46: construction and editing ---- *)

(* options that were constructed successfully are well formed *)
Theorem constructed_options_well_formed base cfgs q :
  Forall wf_cfg cfgs -> (forall b, base = Some b -> wf_cfg b) ->
  new_qco base cfgs = Ok q -> well_formed q /\ qo_cfgs q = cfgs /\ (forall b, base = Some b -> qo_base q = b).
Proof.
  intros W Wb H. unfold new_qco in H. destruct cfgs as [|c r]; [discriminate|].
  assert (exists b, (match base with Some b => Ok b | None => match r with [] => Ok c | _ => Err E_critical end end) = Ok b
          /\ (forall b', base = Some b' -> b = b') /\ wf_cfg b) as [b [E [Hb Wfb]]].
  { destruct base as [b|]; [exists b; repeat split; [congruence|auto]|]. destruct r; [|discriminate].
    exists c. repeat split; [discriminate|]. inversion W; assumption. }
  rewrite E in H. cbn [bind] in H. destruct (existsb (opcfg_eqb b) (c :: r)) eqn:X; [|discriminate].
  injection H as <-. cbn. repeat split; try assumption.
  apply existsb_exists in X. destruct X as [d [I D]]. exists d. split; [exact I|].
  rewrite Forall_forall in W. apply opcfg_eqb_spec; auto.
Qed.
Print Assumptions constructed_options_well_formed.



Lemma map_Forall2 {A B} (f : A -> B) l : Forall2 (fun x y => y = f x) l (map f l).
Proof. induction l; cbn; constructor; auto. Qed.

(* C46: cloning with an edit keeps the options well formed and their number, and edits each one *)
Theorem edit_keeps_options_well_formed attr_to_edit e q :
  (forall m, oe_attrs e = Some m -> NoDup (skeys m)) ->
  well_formed q ->
  let q' := qco_clone attr_to_edit e q in
  well_formed q' /\ length (qo_cfgs q') = length (qo_cfgs q) /\
  Forall2 (fun c c' => c' = op_clone attr_to_edit e c) (qo_base q :: qo_cfgs q) (qo_base q' :: qo_cfgs q').
Proof.
  intros N [[c [I Sc]] [Wb Wc]]. cbn.
  assert (forall x, wf_cfg x -> wf_cfg (op_clone attr_to_edit e x)) as K.
  { intros x Wx. unfold wf_cfg. rewrite op_clone_keys. destruct (oe_attrs e) eqn:E; cbn; [apply N; reflexivity|exact Wx]. }
  split; [|split].
  - split; [|split].
    + exists (op_clone attr_to_edit e c). split; [apply in_map, I|apply op_clone_same, Sc].
    + apply K, Wb.
    + apply Forall_map. eapply Forall_impl; [|exact Wc]. exact K.
  - apply map_length.
  - constructor; [reflexivity|apply map_Forall2].
Qed.
Print Assumptions edit_keeps_options_well_formed.

(* C46: an edit changes a field exactly when it names it, and a weight attribute exactly when it names it *)
Theorem edit_touches_only_named attr_to_edit e c :
  let c' := op_clone attr_to_edit e c in
  (oe_default e = None -> oc_default c' = oc_default c) /\ (forall v, oe_default e = Some v -> oc_default c' = v) /\
  (oe_method e = None -> oc_method c' = oc_method c) /\ (forall v, oe_method e = Some v -> oc_method c' = v) /\
  (oe_bits e = None -> oc_bits c' = oc_bits c) /\ (forall v, oe_bits e = Some v -> oc_bits c' = v) /\
  (oe_inputs e = None -> oc_inputs c' = oc_inputs c) /\ (forall v, oe_inputs e = Some v -> oc_inputs c' = v) /\
  (oe_enable e = None -> oc_enable c' = oc_enable c) /\ (forall v, oe_enable e = Some v -> oc_enable c' = v) /\
  (oe_preserve e = None -> oc_preserve c' = oc_preserve c) /\ (forall v, oe_preserve e = Some v -> oc_preserve c' = v) /\
  (oe_signed e = None -> oc_signed c' = oc_signed c) /\ (forall v, oe_signed e = Some v -> oc_signed c' = v) /\
  (oe_scale e = None -> oc_scale c' = oc_scale c) /\ (forall v, oe_scale e = Some v -> oc_scale c' = v) /\
  (oe_zero e = None -> oc_zero c' = oc_zero c) /\ (forall v, oe_zero e = Some v -> oc_zero c' = v) /\
  (oe_simd e = None -> oc_simd c' = oc_simd c) /\ (forall v, oe_simd e = Some v -> oc_simd c' = v) /\
  (oe_attrs e = None -> skeys (oc_attrs c') = skeys (oc_attrs c) /\
     (forall k, sget k attr_to_edit = None -> sget k (oc_attrs c') = sget k (oc_attrs c)) /\
     (forall k ae a, sget k attr_to_edit = Some ae -> sget k (oc_attrs c) = Some a ->
        sget k (oc_attrs c') = Some (attr_clone ae a))).
Proof.
  cbn zeta. repeat match goal with |- _ /\ _ => split end; try (intros H; cbn; rewrite H; reflexivity); try (intros v H; cbn; rewrite H; reflexivity).
  intro E. repeat split.
  - rewrite op_clone_keys, E. reflexivity.
  - intros k H. rewrite op_clone_get, E. cbn. unfold attr_step. rewrite H. destruct (sget k (oc_attrs c)); reflexivity.
  - intros k ae a H Ha. rewrite op_clone_get, E. cbn. unfold attr_step. rewrite H, Ha. reflexivity.
Qed.
Print Assumptions edit_touches_only_named.

Theorem attribute_edit_touches_only_named e a :
  let a' := attr_clone e a in
  (ae_method e = None -> ac_method a' = ac_method a) /\ (forall v, ae_method e = Some v -> ac_method a' = v) /\
  (ae_bits e = None -> ac_bits a' = ac_bits a) /\ (forall v, ae_bits e = Some v -> ac_bits a' = v) /\
  (ae_per_channel e = None -> ac_per_channel a' = ac_per_channel a) /\ (forall v, ae_per_channel e = Some v -> ac_per_channel a' = v) /\
  (ae_enable e = None -> ac_enable a' = ac_enable a) /\ (forall v, ae_enable e = Some v -> ac_enable a' = v) /\
  (ae_lut e = None -> ac_lut a' = ac_lut a) /\ (forall v, ae_lut e = Some v -> ac_lut a' = v).
Proof.
  cbn zeta. repeat match goal with |- _ /\ _ => split end; try (intros H; cbn; rewrite H; reflexivity); intros v H; cbn; rewrite H; reflexivity.
Qed.
Print Assumptions attribute_edit_touches_only_named.

Lemma mapM_all {A B} (f : A -> result B) (g : A -> B) l : (forall x, In x l -> f x = Ok (g x)) -> mapM f l = Ok (map g l).
Proof.
  induction l as [|x l IH]; intro H; cbn; [reflexivity|]. rewrite H by (left; reflexivity). cbn. rewrite IH by auto with datatypes. reflexivity.
Qed.

Lemma edited_mapping_all e c : wf_cfg c ->
  edited_mapping None e c = Ok (map (fun kv => (fst kv, attr_clone e (snd kv))) (oc_attrs c)).
Proof.
  intro W. unfold edited_mapping.
  assert (mapM (fun a => match sget a (oc_attrs c) with Some cfg => Ok (a, attr_clone e cfg) | None => Err E_critical end) (skeys (oc_attrs c))
          = Ok (map (fun kv => (fst kv, attr_clone e (snd kv))) (oc_attrs c))) as ->.
  { assert (forall l, incl l (oc_attrs c) ->
      mapM (fun a => match sget a (oc_attrs c) with Some cfg => Ok (a, attr_clone e cfg) | None => Err E_critical end) (skeys l)
          = Ok (map (fun kv => (fst kv, attr_clone e (snd kv))) l)) as K.
    { induction l as [|[k v] l IH]; intro I; cbn; [reflexivity|].
      rewrite (in_sget k v) by (try assumption; apply I; left; reflexivity). cbn.
      unfold skeys in IH. rewrite IH by (intros x Hx; apply I; right; exact Hx). reflexivity. }
    apply K, incl_refl. }
  cbn [bind]. rewrite sset_id_fold; [reflexivity|]. rewrite skeys_map. exact W.
Qed.

(* the loop shared by the two weight-attribute edits, for any per-configuration change [h] *)
Fixpoint base_loop (h : opcfg -> opcfg) (base nb : opcfg) (l : list opcfg) : opcfg * list opcfg :=
  match l with
  | [] => (nb, [])
  | c :: r => let '(b, us) := base_loop h base (if opcfg_eqb c base then h c else nb) r in (b, h c :: us)
  end.
Lemma base_loop_cfgs h base l : forall nb, snd (base_loop h base nb l) = map h l.
Proof.
  induction l as [|c r IH]; intro nb; cbn; [reflexivity|]. specialize (IH (if opcfg_eqb c base then h c else nb)).
  destruct (base_loop h base (if opcfg_eqb c base then h c else nb) r). cbn in *. congruence.
Qed.
Lemma base_loop_base h base l : forall nb,
  (fst (base_loop h base nb l) = nb /\ forall c, In c l -> opcfg_eqb c base = false) \/
  (exists c, In c l /\ opcfg_eqb c base = true /\ fst (base_loop h base nb l) = h c).
Proof.
  induction l as [|c r IH]; intro nb; cbn; [left; split; [reflexivity|tauto]|].
  specialize (IH (if opcfg_eqb c base then h c else nb)).
  destruct (base_loop h base (if opcfg_eqb c base then h c else nb) r) as [b us]. cbn in *.
  destruct IH as [[E F]|[d [I [E F]]]]; [|right; exists d; auto].
  destruct (opcfg_eqb c base) eqn:X; [right; exists c; auto|]. left. split; [exact E|]. intros d [<-|I]; auto.
Qed.
Lemma base_loop_wf h q : (forall c, wf_cfg c -> wf_cfg (h c)) -> well_formed q ->
  let r := base_loop h (qo_base q) (qo_base q) (qo_cfgs q) in
  well_formed (Qco (fst r) (snd r)) /\ snd r = map h (qo_cfgs q) /\
  exists c, In c (qo_cfgs q) /\ same_cfg c (qo_base q) /\ fst r = h c.
Proof.
  intros Hh [[c [I Sc]] [Wb Wc]]. cbn zeta. rewrite base_loop_cfgs.
  assert (exists d, In d (qo_cfgs q) /\ same_cfg d (qo_base q) /\ fst (base_loop h (qo_base q) (qo_base q) (qo_cfgs q)) = h d) as [d [J [Sd E]]].
  { pose proof Wc as Wc'. rewrite Forall_forall in Wc'.
    destruct (base_loop_base h (qo_base q) (qo_cfgs q) (qo_base q)) as [[_ F]|[d [J [X E]]]].
    - exfalso. specialize (F c I). apply same_cfg_sym in Sc. apply (opcfg_eqb_spec c _ (Wc' _ I) Wb) in Sc. congruence.
    - exists d. repeat split; try assumption. apply (opcfg_eqb_spec d _ (Wc' _ J) Wb) in X. apply X. all: apply (opcfg_eqb_spec d _ (Wc' _ J) Wb) in X; unfold same_cfg in X; tauto. }
  split; [|split; [reflexivity|exists d; auto]].
  split; [|split]; cbn.
  - exists (h d). split; [apply in_map, J|]. rewrite E. apply same_cfg_refl.
  - rewrite E. apply Hh. rewrite Forall_forall in Wc. auto.
  - apply Forall_map. eapply Forall_impl; [|exact Wc]. exact Hh.
Qed.

(* C46: editing all weight attributes: the options stay well formed, and every attribute of every option (and of the
   base) is edited while everything else is unchanged *)
Theorem weight_edit_all e q : well_formed q ->
  exists q', qco_edit_weights None e q = Ok q' /\ well_formed q' /\
  Forall2 (fun c c' => same_but_attrs c c' /\ (forall k, sget k (oc_attrs c') = option_map (attr_clone e) (sget k (oc_attrs c))))
          (qo_base q :: qo_cfgs q) (qo_base q' :: qo_cfgs q').
Proof.
  intro W. set (h := fun c => with_attrs (map (fun kv => (fst kv, attr_clone e (snd kv))) (oc_attrs c)) c).
  assert (forall l base nb, Forall wf_cfg l -> weight_edit_loop None e base nb l = Ok (base_loop h base nb l)) as L.
  { induction l as [|c r IH]; intros base nb F; cbn [weight_edit_loop base_loop]; [reflexivity|].
    inversion F as [|? ? Wc Wr]; subst. rewrite (edited_mapping_all _ _ Wc). cbn [bind]. rewrite op_clone_set.
    change (with_attrs (map (fun kv => (fst kv, attr_clone e (snd kv))) (oc_attrs c)) c) with (h c).
    rewrite IH by assumption. cbn [bind]. destruct (base_loop _ _ _ _). reflexivity. }
  unfold qco_edit_weights. rewrite L by apply W. cbn [bind].
  assert (forall c, wf_cfg c -> wf_cfg (h c)) as Hh by (intros c Hc; unfold wf_cfg, h, with_attrs; cbn [oc_attrs]; rewrite skeys_map; exact Hc).
  destruct (base_loop_wf h q Hh W) as [W' [E [d [I [Sd Eb]]]]].
  destruct (base_loop h (qo_base q) (qo_base q) (qo_cfgs q)) as [b us] eqn:X. cbn in W', E, Eb.
  eexists. split; [reflexivity|]. split; [exact W'|]. cbn.
  assert (forall c, same_but_attrs c (h c) /\ (forall k, sget k (oc_attrs (h c)) = option_map (attr_clone e) (sget k (oc_attrs c)))) as P.
  { intro c. split; [repeat split|]. intro k. unfold h. cbn. apply sget_map. }
  constructor.
  - rewrite Eb. destruct (P d) as [P1 P2]. unfold same_cfg in Sd. decompose [and] Sd. split.
    + unfold same_but_attrs in *. intuition congruence.
    + intro k. rewrite P2. congruence.
  - subst us. clear - P. induction (qo_cfgs q); cbn; constructor; auto.
Qed.
Print Assumptions weight_edit_all.

Lemma edited_mapping_named e names c m :
  edited_mapping (Some names) e c = Ok m ->
  forall k, sget k m = if in_dec string_dec k names then option_map (attr_clone e) (sget k (oc_attrs c)) else None.
Proof.
  unfold edited_mapping. destruct (mapM _ names) as [ps|] eqn:E; [|discriminate]. cbn [bind]. intro H. injection H as <-.
  intro k. rewrite sset_fold_get. cbn [sget]. apply mapM_Forall2 in E.
  assert (Forall2 (fun a p => exists cfg, sget a (oc_attrs c) = Some cfg /\ p = (a, attr_clone e cfg)) names ps) as F.
  { eapply Forall2_impl; [|exact E]. cbn. intros a p K. destruct (sget a (oc_attrs c)); [|discriminate]. inversion K. eauto. }
  clear E. assert (forall p, In p (rev ps) -> exists cfg, sget (fst p) (oc_attrs c) = Some cfg /\ snd p = attr_clone e cfg /\ In (fst p) names) as R.
  { intros p I. apply in_rev in I. clear k. induction F as [|a p' ns ps' [cfg [G ->]] F IH]; [destruct I|].
    destruct I as [<-|I]; [exists cfg; cbn; auto|]. destruct (IH I) as [cfg' [? [? ?]]]. exists cfg'. repeat split; try assumption. right. assumption. }
  destruct (in_dec string_dec k names) as [J|J].
  - assert (exists v, sget k (rev ps) = Some v) as [v G].
    { apply sget_key. unfold skeys. rewrite map_rev, <- in_rev. clear R. induction F as [|a p ns ps' [cfg [G ->]] F IH]; [destruct J|].
      destruct J as [<-|J]; [left; reflexivity|right; auto]. }
    rewrite G. apply sget_in in G. destruct (R _ G) as [cfg [G1 [G2 _]]]. cbn in G1, G2. rewrite G1, G2. reflexivity.
  - destruct (sget k (rev ps)) as [v|] eqn:G; [|reflexivity]. apply sget_in in G. destruct (R _ G) as [_ [_ [_ K]]]. contradiction.
Qed.

(* C46: naming attributes: the options stay well formed, and every option (and the base) then has exactly the named
   attributes, edited, and everything but the attributes unchanged; naming an attribute that some option lacks raises *)
Theorem weight_edit_named e names q : well_formed q ->
  match qco_edit_weights (Some names) e q with
  | Ok q' => well_formed q' /\
      Forall2 (fun c c' => same_but_attrs c c' /\
                 (forall k, In k names -> exists a, sget k (oc_attrs c) = Some a /\ sget k (oc_attrs c') = Some (attr_clone e a)) /\
                 (forall k, ~ In k names -> sget k (oc_attrs c') = None))
              (qo_base q :: qo_cfgs q) (qo_base q' :: qo_cfgs q')
  | Err _ => exists c k, In c (qo_cfgs q) /\ In k names /\ sget k (oc_attrs c) = None
  end.
Proof.
  intro W. set (mm := fun c => match edited_mapping (Some names) e c with Ok m => m | Err _ => [] end).
  set (h := fun c => with_attrs (mm c) c).
  assert (forall l base nb, match weight_edit_loop (Some names) e base nb l with
     | Ok r => r = base_loop h base nb l /\ forall c, In c l -> exists m, edited_mapping (Some names) e c = Ok m
     | Err _ => exists c, In c l /\ exists x, edited_mapping (Some names) e c = Err x end) as L.
  { induction l as [|c r IH]; intros base nb; cbn [weight_edit_loop base_loop]; [split; [reflexivity|intros c []]|].
    destruct (edited_mapping (Some names) e c) as [m|x] eqn:Em; cbn [bind]; [|exists c; split; [left; reflexivity|eauto]].
    assert (op_clone [] (edit_attrs m) c = h c) as -> by (rewrite op_clone_set; unfold h, mm; rewrite Em; reflexivity).
    specialize (IH base (if opcfg_eqb c base then h c else nb)). destruct (weight_edit_loop _ _ _ _ r) as [[b us]|x]; cbn [bind].
    - destruct IH as [<- IH]. split; [reflexivity|]. intros d [<-|I]; eauto.
    - destruct IH as [d [I X]]. exists d. split; [right; exact I|exact X]. }
  unfold qco_edit_weights. specialize (L (qo_cfgs q) (qo_base q) (qo_base q)).
  destruct (weight_edit_loop _ _ _ _ _) as [[b us]|x]; cbn [bind].
  2: { destruct L as [c [I [y Y]]]. exists c. unfold edited_mapping in Y.
       destruct (mapM _ names) as [ps|] eqn:E in Y; [discriminate|]. clear - E I.
       assert (exists k, In k names /\ sget k (oc_attrs c) = None) as [k [? ?]]; [|exists k; auto].
       revert e0 E. induction names as [|k ns IH]; intros e0 E; cbn in E; [discriminate|].
       destruct (sget k (oc_attrs c)) eqn:G; [|exists k; split; [left; reflexivity|exact G]]. cbn in E.
       destruct (mapM _ ns) eqn:E' in E; [discriminate|]. destruct (IH _ E') as [k' [? ?]]. exists k'. split; [right|]; assumption. }
  destruct L as [L1 L2].
  assert (forall c, wf_cfg c -> wf_cfg (h c)) as Hh.
  { intros c _. unfold wf_cfg, h, mm, with_attrs. cbn [oc_attrs]. unfold edited_mapping.
    destruct (mapM _ names); cbn [bind]; [apply sset_fold_nodup|]; constructor. }
  destruct (base_loop_wf h q Hh W) as [W' [E [d [I [Sd Eb]]]]]. rewrite <- L1 in *. cbn in W', E, Eb.
  split; [exact W'|]. cbn.
  assert (forall c, In c (qo_cfgs q) -> same_but_attrs c (h c) /\
                 (forall k, In k names -> exists a, sget k (oc_attrs c) = Some a /\ sget k (oc_attrs (h c)) = Some (attr_clone e a)) /\
                 (forall k, ~ In k names -> sget k (oc_attrs (h c)) = None)) as P.
  { intros c J. destruct (L2 c J) as [m M]. pose proof (edited_mapping_named _ _ _ _ M) as G.
    split; [repeat split|]. unfold h, mm. rewrite M. cbn [with_attrs oc_attrs]. split; intros k K; specialize (G k).
    - destruct (in_dec string_dec k names); [|contradiction]. rewrite G.
      assert (exists a, sget k (oc_attrs c) = Some a) as [a Ea]; [|exists a; rewrite Ea; auto].
      clear - M K. unfold edited_mapping in M. destruct (mapM _ names) as [ps|] eqn:E in M; [|discriminate]. clear M.
      revert ps E. induction names as [|k' ns IH]; intros ps E; [destruct K|]. cbn in E.
      destruct (sget k' (oc_attrs c)) eqn:G; [|discriminate]. cbn in E. destruct (mapM _ ns) eqn:E' in E; [|discriminate].
      destruct K as [->|K]; eauto.
    - destruct (in_dec string_dec k names); [contradiction|]. exact G. }
  constructor.
  - rewrite Eb. destruct (P d I) as [P1 [P2 P3]]. unfold same_cfg in Sd. decompose [and] Sd. split; [|split; [|exact P3]].
    + unfold same_but_attrs in *. intuition congruence.
    + intros k K. destruct (P2 k K) as [a [A1 A2]]. exists a. split; [congruence|exact A2].
  - subst us. clear - P. induction (qo_cfgs q); cbn; constructor; auto with datatypes.
Qed.
Print Assumptions weight_edit_named.

(* C46 refuted: editing one named attribute removes the others *)
Definition ac (b : Z) : attrcfg := AttrCfg 0 b true true None.
Definition oc2 : opcfg := OpCfg (ac 8) [("kernel"%string, ac 8); ("bias"%string, ac 16)] 0 8 (I_tuple [8%Z]) true false 0 None None None.
Definition bits4 : attr_edit := AttrEdit None (Some 4%Z) None None None.
Theorem weight_edit_drops_others_refuted : exists q q',
  well_formed q /\ qco_edit_weights (Some ["kernel"%string]) bits4 q = Ok q' /\
  sget "bias" (oc_attrs (qo_base q)) = Some (ac 16) /\ sget "bias" (oc_attrs (qo_base q')) = None.
Proof.
  exists (Qco oc2 [oc2]). eexists. split; [|split; [vm_compute; reflexivity|split; reflexivity]].
  assert (wf_cfg oc2) as W by (unfold wf_cfg; cbn; repeat constructor; cbn; intuition discriminate).
  split; [exists oc2; split; [left; reflexivity|apply same_cfg_refl]|split; [exact W|constructor; [exact W|constructor]]].
Qed.
Print Assumptions weight_edit_drops_others_refuted.

(* C46 refuted: an edit is not validated: the supported input bits, an int in a constructor, stay an int in an edit and
   make the maximum unusable *)
Theorem edit_input_bits_refuted : exists c e,
  max_input_bits (new_opcfg (oc_default c) (oc_attrs c) (oc_method c) (oc_bits c) (I_int 8) (oc_enable c) (oc_preserve c)
     (oc_signed c) (oc_scale c) (oc_zero c) (oc_simd c)) = Ok 8%Z /\
  oe_inputs e = Some (I_int 8) /\ max_input_bits (op_clone [] e c) = Err E_type.
Proof. exists oc2, (OpEdit None None None None (Some (I_int 8)) None None None None None None). vm_compute. auto. Qed.
Print Assumptions edit_input_bits_refuted.

(* C46: renaming the attributes: well-formedness is kept, and when no two attributes get the same name each one keeps
   its configuration under the new name *)
Definition new_name (m : option (list (string * string))) (k : string) : string :=
  match m with None => k | Some d => match sget k d with Some k' => k' | None => k end end.

Lemma renamed_wf m c : wf_cfg c -> NoDup (skeys (renamed m c)).
Proof.
  intro W. destruct m as [d|]; cbn; [|exact W].
  assert (forall l acc, NoDup (skeys acc) -> NoDup (skeys (fold_left (fun acc kv => sset (match sget (fst kv) d with Some k => k | None => fst kv end) (snd kv) acc) l acc : list (string * attrcfg)))) as K.
  { induction l as [|[k v] l IH]; intros acc N; cbn; [exact N|]. apply IH, sset_nodup, N. }
  apply K. constructor.
Qed.

Lemma renamed_get m c : wf_cfg c -> NoDup (map (new_name m) (skeys (oc_attrs c))) ->
  forall k a, sget k (oc_attrs c) = Some a -> sget (new_name m k) (renamed m c) = Some a.
Proof.
  intros W N k a G. destruct m as [d|]; cbn [renamed]; [|exact G].
  set (nn := new_name (Some d)) in *.
  assert (forall l acc, fold_left (fun acc kv => sset (match sget (fst kv) d with Some k => k | None => fst kv end) (snd kv) acc) l acc =
          fold_left (fun acc kv => sset (fst kv) (snd kv) acc) (map (fun kv : string * attrcfg => (nn (fst kv), snd kv)) l) acc) as K.
  { induction l as [|[k' v'] l IH]; intro acc; cbn; [reflexivity|]. apply IH. }
  rewrite K.
  assert (NoDup (skeys (map (fun kv : string * attrcfg => (nn (fst kv), snd kv)) (oc_attrs c)))) as N'.
  { unfold skeys in *. rewrite map_map in *. exact N. }
  rewrite sset_id_fold by exact N'. apply in_sget; [exact N'|]. apply in_map_iff. exists (k, a). split; [reflexivity|].
  apply sget_in, G.
Qed.

Theorem renaming_keeps_configurations m q : well_formed q ->
  (forall c, In c (qo_cfgs q) -> NoDup (map (new_name m) (skeys (oc_attrs c)))) ->
  let q' := qco_map_keys m q in
  well_formed q' /\
  Forall2 (fun c c' => same_but_attrs c c' /\
             (forall k a, sget k (oc_attrs c) = Some a -> sget (new_name m k) (oc_attrs c') = Some a))
          (qo_base q :: qo_cfgs q) (qo_base q' :: qo_cfgs q').
Proof.
  intros W N. set (h := fun c => with_attrs (renamed m c) c).
  assert (forall l base nb, map_keys_loop m base nb l = base_loop h base nb l) as L.
  { induction l as [|c r IH]; intros base nb; cbn [map_keys_loop base_loop]; [reflexivity|]. rewrite op_clone_set.
    change (with_attrs (renamed m c) c) with (h c). rewrite IH. reflexivity. }
  assert (forall c, wf_cfg c -> wf_cfg (h c)) as Hh by (intros c Hc; apply renamed_wf, Hc).
  unfold qco_map_keys. rewrite L. destruct (base_loop_wf h q Hh W) as [W' [E [d [I [Sd Eb]]]]].
  destruct (base_loop h (qo_base q) (qo_base q) (qo_cfgs q)) as [b us]. cbn in W', E, Eb. cbn.
  split; [exact W'|].
  assert (forall c, In c (qo_cfgs q) -> same_but_attrs c (h c) /\
     (forall k a, sget k (oc_attrs c) = Some a -> sget (new_name m k) (oc_attrs (h c)) = Some a)) as P.
  { intros c J. split; [repeat split|]. intros k a G. unfold h. cbn. apply renamed_get; auto.
    destruct W as [_ [_ F]]. rewrite Forall_forall in F. auto. }
  constructor.
  - rewrite Eb. destruct (P d I) as [P1 P2]. unfold same_cfg in Sd. decompose [and] Sd. split.
    + unfold same_but_attrs in *. intuition congruence.
    + intros k a G. apply P2. congruence.
  - subst us. clear - P. induction (qo_cfgs q); cbn; constructor; auto with datatypes.
Qed.
Print Assumptions renaming_keeps_configurations.

(* C46 refuted: renaming two attributes to the same name loses one of them silently *)
Theorem renaming_collision_refuted : exists q m, well_formed q /\
  skeys (oc_attrs (qo_base q)) = ["kernel"%string; "bias"%string] /\ skeys (oc_attrs (qo_base (qco_map_keys m q))) = ["w"%string].
Proof.
  exists (Qco oc2 [oc2]), (Some [("kernel"%string, "w"%string); ("bias"%string, "w"%string)]).
  assert (wf_cfg oc2) as W by (unfold wf_cfg; cbn; repeat constructor; cbn; intuition discriminate).
  split; [|split; vm_compute; reflexivity].
  split; [exists oc2; split; [left; reflexivity|apply same_cfg_refl]|split; [exact W|constructor; [exact W|constructor]]].
Qed.
Print Assumptions renaming_collision_refuted.

(* ---- C48: containment of fusing patterns ---- *)
Theorem fusing_contains_is_contiguous self other :
  wf_fusing self -> wf_fusing other ->
  (fusing_contains self other = true <-> contiguous (fu_groups self) (fu_groups other)).
Proof.
  intros Ws Wo. unfold fusing_contains, contiguous. rewrite existsb_exists. split.
  - intros [i [I H]]. apply in_seq in I. apply covers_from_spec in H; [| |exact Wo].
    + destruct H as [mid [post [E F]]]. exists (firstn i (fu_groups self)), mid, post. rewrite <- E, firstn_skipn. auto.
    + unfold wf_fusing in Ws. rewrite <- (firstn_skipn i (fu_groups self)) in Ws. apply Forall_app in Ws. apply Ws.
  - intros [pre [mid [post [E F]]]]. exists (length pre). split.
    + apply in_seq. apply (Forall2_length accepts) in F. rewrite E, !app_length. lia.
    + apply covers_from_spec; [|exact Wo|].
      * unfold wf_fusing in Ws. rewrite <- (firstn_skipn (length pre) (fu_groups self)) in Ws. apply Forall_app in Ws. apply Ws.
      * exists mid, post. split; [|exact F]. rewrite E, skipn_app, skipn_all, Nat.sub_diag. reflexivity.
Qed.
Print Assumptions fusing_contains_is_contiguous.

Lemma accepts_trans a b c : accepts a b -> accepts b c -> accepts a c.
Proof.
  intros H K. inversion H as [a' b' Hab|n l s t I E]; subst.
  - inversion K as [b' c' Kbc|n l s t I E]; subst.
    + apply A_same. eapply same_group_trans; eassumption.
    + inversion Hab as [|n' l' k' F]; subst.
      assert (exists t', In t' l' /\ same_opset t' t) as [t' [I' E']].
      { clear - F I. induction F as [|x y l1 l2 Hxy F IH]; [destruct I|]. destruct I as [<-|I]; [exists x; split; [left; reflexivity|assumption]|].
        destruct (IH I) as [t' [? ?]]. exists t'. split; [right; assumption|assumption]. }
      apply (A_member n l' s t' I'). eapply same_opset_trans; [exact E|]. apply same_opset_sym. exact E'.
  - inversion K as [b' c' Kbc|]; subst. inversion Kbc as [s' u E'|]; subst.
    apply (A_member n l u t I). eapply same_opset_trans; [apply same_opset_sym; exact E'|exact E].
Qed.

Lemma Forall2_split {A B} (R : A -> B -> Prop) l m1 m2 : Forall2 R l (m1 ++ m2) ->
  exists l1 l2, l = l1 ++ l2 /\ Forall2 R l1 m1 /\ Forall2 R l2 m2.
Proof. intro F. apply Forall2_app_inv_r in F. destruct F as [l1 [l2 [F1 [F2 E]]]]. eauto. Qed.

(* C48: containment is reflexive, transitive and antisymmetric (up to the accepts relation) *)
Theorem fusing_contains_refl f : wf_fusing f -> fusing_contains f f = true.
Proof.
  intro W. apply fusing_contains_is_contiguous; try assumption. exists [], (fu_groups f), []. split; [rewrite app_nil_r; reflexivity|].
  apply Forall2_refl. intro a. apply A_same, same_group_refl.
Qed.
Print Assumptions fusing_contains_refl.

Theorem fusing_contains_trans f g h : wf_fusing f -> wf_fusing g -> wf_fusing h ->
  fusing_contains f g = true -> fusing_contains g h = true -> fusing_contains f h = true.
Proof.
  intros Wf Wg Wh. rewrite !fusing_contains_is_contiguous by assumption.
  intros [p1 [m1 [q1 [E1 F1]]]] [p2 [m2 [q2 [E2 F2]]]]. rewrite E2 in F1.
  apply Forall2_split in F1. destruct F1 as [a [b [-> [Fa Fb]]]]. apply Forall2_split in Fb. destruct Fb as [c [d [-> [Fc Fd]]]].
  exists (p1 ++ a), c, (d ++ q1). split; [rewrite E1, <- !app_assoc; reflexivity|].
  eapply (Forall2_trans _ accepts_trans); eassumption.
Qed.
Print Assumptions fusing_contains_trans.

Theorem fusing_contains_antisym f g : wf_fusing f -> wf_fusing g ->
  fusing_contains f g = true -> fusing_contains g f = true -> Forall2 same_group (fu_groups f) (fu_groups g).
Proof.
  intros Wf Wg. rewrite !fusing_contains_is_contiguous by assumption.
  intros [p1 [m1 [q1 [E1 F1]]]] [p2 [m2 [q2 [E2 F2]]]].
  pose proof (Forall2_length _ _ _ F1) as L1. pose proof (Forall2_length _ _ _ F2) as L2.
  pose proof (f_equal (@length _) E1) as K1. pose proof (f_equal (@length _) E2) as K2. rewrite !app_length in K1, K2.
  assert (p1 = []) as -> by (apply length_zero_iff_nil; lia). assert (q1 = []) as -> by (apply length_zero_iff_nil; lia).
  assert (p2 = []) as -> by (apply length_zero_iff_nil; lia). assert (q2 = []) as -> by (apply length_zero_iff_nil; lia).
  cbn in E1, E2. rewrite app_nil_r in E1, E2. subst m1 m2.
  clear - F1 F2. revert F2. induction F1 as [|a b l m H F IH]; intro F2; constructor.
  - inversion F2 as [|? ? ? ? H' ?]; subst. destruct H as [a b H|n k s t I E]; [exact H|].
    inversion H' as [x y K|]; subst. inversion K.
  - apply IH. inversion F2; assumption.
Qed.
Print Assumptions fusing_contains_antisym.

(* ---- C47: upgrading ---- *)
Definition valid_tpc1 (t : tpc1) : Prop :=
  length (qo_cfgs (t1_default t)) = 1%nat /\ (forall l, t1_opsets t = Some l -> NoDup (map os_name l)) /\
  (forall l, t1_fusing t = Some l -> Forall (fun p => (2 <= length (fst p))%nat) l).

Lemma names_unique_spec l : (forall l', l = Some l' -> NoDup (map os_name l')) -> names_unique l = true.
Proof.
  destruct l as [l|]; intro H; cbn; [|reflexivity]. rewrite nodup_fixed_point by (apply H; reflexivity).
  rewrite map_length. apply Nat.eqb_refl.
Qed.

(* C47: a valid v1 description with (possibly empty) fusing patterns is upgraded, keeping the default options, operator
   sets, fusing patterns, versions, platform type and metadata flag; the result is a fixed point of loading *)
Theorem upgrade_preserves t : valid_tpc1 t -> forall l, t1_fusing t = Some l ->
  exists t', load_tpc (T_v1 t) = Ok t' /\ load_tpc (T_v2 t') = Ok t' /\
  t2_default t' = t1_default t /\ t2_opsets t' = t1_opsets t /\
  option_map (map (fun f => (fu_groups f, fu_name f))) (t2_fusing t') = Some l /\
  t2_minor t' = t1_minor t /\ t2_patch t' = t1_patch t /\ t2_platform t' = t1_platform t /\ t2_metadata t' = t1_metadata t /\
  (forall f, In f (or_old (t2_fusing t') []) -> exists c, fu_cfg f = Some c /\ oc_enable c = false /\ oc_bits c = oc_bits (qo_base (t1_default t))).
Proof.
  intros [V1 [V2 V3]] l E. cbn [load_tpc to_current]. unfold v1_to_v2. rewrite E.
  set (c := new_opcfg _ _ _ _ _ _ _ _ _ _ _).
  rewrite (mapM_all _ (fun p => Fusing (fst p) (Some c) (snd p))).
  2: { intros p I. specialize (V3 _ E). rewrite Forall_forall in V3. specialize (V3 _ I). unfold new_fusing.
       destruct (Nat.ltb_spec (length (fst p)) 2); [lia|reflexivity]. }
  cbn [bind]. unfold new_tpc2. rewrite V1, (names_unique_spec _ V2). cbn.
  eexists. split; [reflexivity|]. cbn. repeat split.
  - f_equal. rewrite map_map. cbn. clear. induction l as [|[a b] l IH]; cbn; congruence.
  - intros f I. apply in_map_iff in I. destruct I as [p [<- _]]. cbn. exists c. repeat split.
Qed.
Print Assumptions upgrade_preserves.

Definition t1_ex (f : option (list (list opgroup * string))) : tpc1 :=
  Tpc1 (Qco oc2 [oc2]) None f (Some 1%Z) None None true (Some "my_platform"%string) true.

(* C47 refuted: the name and the padding mode of the platform are lost *)
Theorem upgrade_loses_name_and_padding_refuted : exists t t', valid_tpc1 t /\ load_tpc (T_v1 t) = Ok t' /\
  t1_simd_padding t = true /\ t2_simd_padding t' = false /\ t2_name t' <> t1_name t.
Proof.
  exists (t1_ex (Some [])). eexists. split; [|split; [vm_compute; reflexivity|]].
  - split; [reflexivity|]. split; cbn; intros l H; inversion H. constructor.
  - cbn. repeat split. discriminate.
Qed.
Print Assumptions upgrade_loses_name_and_padding_refuted.

(* C47 refuted: a valid description without fusing patterns cannot be loaded *)
Theorem upgrade_without_fusing_refuted : exists t, valid_tpc1 t /\ load_tpc (T_v1 t) = Err E_type.
Proof.
  exists (t1_ex None). split; [|reflexivity]. split; [reflexivity|]. split; cbn; intros l H; inversion H.
Qed.
Print Assumptions upgrade_without_fusing_refuted.

(* loading always terminates *)
Theorem loading_terminates t : load_tpc t <> Err E_fuel.
Proof.
  destruct t as [t|t|]; cbn; try discriminate. unfold v1_to_v2.
  assert (forall l c e, mapM (fun p => new_fusing (fst p) c (snd p)) l = Err e -> e = E_critical) as K.
  { induction l as [|p l IH]; intros c e H; cbn in H; [discriminate|]. unfold new_fusing in H at 1.
    destruct (Nat.ltb _ _); cbn in H; [congruence|]. destruct (mapM _ l) eqn:E; cbn in H; [discriminate|]. apply (IH c). congruence. }
  destruct (t1_fusing t) as [l|]; [|discriminate]. destruct (mapM _ l) eqn:E; cbn [bind].
  - unfold new_tpc2. destruct (negb _); [discriminate|]. destruct (negb _); discriminate.
  - apply K in E. congruence.
Qed.
Print Assumptions loading_terminates.

(* the hypotheses are met *)
Example platform_ex : well_formed (Qco oc2 [with_attrs [("bias"%string, ac 16); ("kernel"%string, ac 8)] oc2]) /\
  new_qco (Some oc2) [with_attrs [("bias"%string, ac 16); ("kernel"%string, ac 8)] oc2] <> Err E_critical.
Proof.
  assert (wf_cfg oc2) as W by (unfold wf_cfg; cbn; repeat constructor; cbn; intuition discriminate).
  split; [|vm_compute; discriminate].
  split; [|split; [exact W|constructor; [|constructor]; unfold wf_cfg; cbn; repeat constructor; cbn; intuition discriminate]].
  eexists. split; [left; reflexivity|]. repeat split. intro k. cbn.
  destruct (String.eqb_spec k "kernel") as [Ek|Ek]; destruct (String.eqb_spec k "bias") as [Eb|Eb]; try reflexivity. congruence.
Qed.
Example fusing_ex :
  let conv := OpSet "Conv" None in let fc := OpSet "FC" None in let relu := OpSet "ReLU" None in
  fusing_contains (Fusing [G_set relu; G_group "lin" [conv; fc]; G_set relu] None "a")
                  (Fusing [G_set fc; G_set relu] None "b") = true /\
  fusing_contains (Fusing [G_set conv; G_set relu] None "a") (Fusing [G_group "lin" [conv; fc]; G_set relu] None "b") = false.
Proof. vm_compute. auto. Qed.
