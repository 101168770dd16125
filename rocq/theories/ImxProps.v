(* ImxProps.v -- C109: the default platform description. *)
From Coq Require Import String.
From Verif Require Import Base SDict FilterModel PlatModel PlatSpec PlatProofs PlatProps HessianModel HessianProofs MPModel MPProofs SearchProofs LookupModel LookupSpec LookupProps TabModel TabSpec TabProofs TabProps ImxModel.
Local Open Scope list_scope.

(* ---- specification ---- *)
(* operations that only move or select values; operations with a kernel *)
Definition moving : list string :=
  ["ArgMax"; "Cast"; "CombinedNonMaxSuppression"; "Dropout"; "Equal"; "FakeQuant"; "Flatten"; "Gather"; "GetItem"; "MaxPool"; "Pad"; "Permute";
   "Reshape"; "SSDPostProcess"; "Size"; "SplitChunk"; "Squeeze"; "Stack"; "TopK"; "Transpose"; "Unsqueeze"; "Unstack"; "ZeroPadding2D"]%string.
Definition linear : list string := ["Conv"; "ConvTranspose"; "DepthwiseConv2D"; "FullyConnected"]%string.
(* the options an operator set gets from a description *)
Definition options (t : tpc2) (s : string) (q : qco) : Prop := exists o, options_of_opset t s = Ok o /\ q = or_old o (t2_default t).
(* the activations fused to an operation *)
Definition fused (a b : string) : Prop :=
  (In a ["Conv"; "ConvTranspose"; "DepthwiseConv2D"] /\ In b ["ReLU"; "ReLU6"; "LeakyReLU"; "HardTanh"; "Swish"; "HardSwish"; "PReLU"; "Sigmoid"; "Tanh"])%string \/
  (a = "FullyConnected" /\ In b ["ReLU"; "ReLU6"; "LeakyReLU"; "HardTanh"; "Swish"; "HardSwish"; "Sigmoid"])%string \/
  (In a ["Add"; "Sub"; "Mul"; "Div"] /\ In b ["ReLU"; "ReLU6"; "LeakyReLU"; "HardTanh"])%string.
Definition member (s : string) (g : opgroup) : Prop := match g with G_set x => os_name x = s | G_group _ l => In s (map os_name l) end.

(* ---- proofs ---- *)
Lemma default_options d : new_qco None [d] = if opcfg_eqb d d then Ok (Qco d [d]) else Err E_critical.
Proof. cbn. rewrite orb_false_r. reflexivity. Qed.
Lemma default_ok d : wf_cfg d -> new_qco None [d] = Ok (Qco d [d]).
Proof. intro W. rewrite default_options. rewrite (proj2 (opcfg_eqb_spec d d W W)); [reflexivity|]. repeat split. Qed.
Definition silenced (c : opcfg) : opcfg :=
  OpCfg (oc_default c) (map (fun kv => (fst kv, AttrCfg (ac_method (snd kv)) (ac_bits (snd kv)) (ac_per_channel (snd kv)) false (ac_lut (snd kv)))) (oc_attrs c))
        (oc_method c) (oc_bits c) (oc_inputs c) false (oc_preserve c) (oc_signed c) (oc_scale c) (oc_zero c) (oc_simd c).
Lemma silenced_ok d : wf_cfg d -> qco_edit_weights None disable_weights (qco_clone [] disable_activation (Qco d [d])) = Ok (Qco (silenced d) [silenced d]).
Proof.
  intro W. unfold qco_clone, qco_edit_weights. cbn [qo_base qo_cfgs map weight_edit_loop].
  set (d' := op_clone [] disable_activation d).
  assert (A : oc_attrs d' = oc_attrs d). { unfold d', op_clone. cbn. rewrite (map_ext _ (fun x => x)); [apply map_id|intros [k v]; reflexivity]. }
  assert (W' : wf_cfg d') by (unfold wf_cfg; rewrite A; exact W).
  rewrite (edited_mapping_all _ _ W'). cbn [bind]. rewrite (proj2 (opcfg_eqb_spec d' d' W' W') (same_cfg_refl d')).
  rewrite op_clone_set, A. reflexivity.
Qed.
Section Generated.
Variables (d base : opcfg) (mp : list opcfg) (name : string).
Hypothesis W : wf_cfg d.
Hypothesis WB : wf_cfg base.
Hypothesis WM : Forall wf_cfg mp.
Lemma mixed_ok : (exists c, In c mp /\ same_cfg base c) -> new_qco (Some base) mp = Ok (Qco base mp).
Proof.
  intros (c & I & S). rewrite Forall_forall in WM. assert (existsb (opcfg_eqb base) mp = true) as E.
  { apply existsb_exists. exists c. split; [exact I|]. apply opcfg_eqb_spec; auto. }
  unfold new_qco. destruct mp; [destruct I|]. cbn [bind]. rewrite E. reflexivity.
Qed.
Lemma mixed_inv q : new_qco (Some base) mp = Ok q -> q = Qco base mp /\ exists c, In c mp /\ same_cfg base c.
Proof.
  unfold new_qco. destruct mp as [|x l] eqn:M; [discriminate|]. cbn [bind]. destruct (existsb (opcfg_eqb base) (x :: l)) eqn:E; [|discriminate].
  intro H. inversion H. split; [reflexivity|]. apply existsb_exists in E. destruct E as (c & I & E). exists c. split; [exact I|]. rewrite Forall_forall in WM. apply opcfg_eqb_spec in E; auto.
Qed.
Lemma generated_inv t : generate_tpc d base mp name = Ok t -> new_qco (Some base) mp = Ok (Qco base mp) /\
  t2_default t = Qco d [d] /\ t2_opsets t = Some (map (fun s => OpSet s (Some (Qco (silenced d) [silenced d]))) no_quantization_names ++
    map (fun s => OpSet s (Some (Qco base mp))) linear ++ map plain ["ReLU"; "ReLU6"; "LeakyReLU"; "Add"; "Sub"; "Mul"; "Div"; "PReLU"; "Swish"; "HardSwish"; "Sigmoid"; "Tanh"; "HardTanh"]%string) /\
  exists n1 n2 n3 g1 g2 g3 g4 g5,
    let m := Some (Qco base mp) in
    t2_fusing t = Some [
      Fusing [G_group g1 [OpSet "Conv" m; OpSet "ConvTranspose" m; OpSet "DepthwiseConv2D" m]; G_group g2 (map plain ["ReLU"; "ReLU6"; "LeakyReLU"; "HardTanh"; "Swish"; "HardSwish"; "PReLU"; "Sigmoid"; "Tanh"]%string)] None n1;
      Fusing [G_set (OpSet "FullyConnected" m); G_group g3 (map plain ["ReLU"; "ReLU6"; "LeakyReLU"; "HardTanh"; "Swish"; "HardSwish"; "Sigmoid"]%string)] None n2;
      Fusing [G_group g4 (map plain ["Add"; "Sub"; "Mul"; "Div"]%string); G_group g5 (map plain ["ReLU"; "ReLU6"; "LeakyReLU"; "HardTanh"]%string)] None n3].
Proof.
  unfold generate_tpc. rewrite (default_ok d W). cbn [bind]. destruct (new_qco (Some base) mp) as [q|] eqn:M; [|discriminate]. destruct (mixed_inv q M) as [-> _].
  cbn [bind]. rewrite (silenced_ok d W). cbn [bind]. intro H. split; [reflexivity|].
  unfold fuse, new_fusing in H. cbn [length Nat.ltb Nat.leb bind] in H. unfold new_tpc2 in H. cbn [qo_cfgs length Nat.eqb negb] in H.
  match type of H with (if negb ?b then _ else _) = _ => destruct b; [|discriminate] end. cbn [negb] in H. inversion H; subst t. clear H.
  cbn [t2_default t2_opsets t2_fusing]. split; [reflexivity|]. split; [reflexivity|]. do 8 eexists. reflexivity.
Qed.
End Generated.

(* the description is built for every default configuration exactly if the base configuration is one of the options *)
Theorem platform_generated d base mp name : wf_cfg d -> wf_cfg base -> Forall wf_cfg mp ->
  ((exists t, generate_tpc d base mp name = Ok t) <-> exists c, In c mp /\ same_cfg base c).
Proof.
  intros W WB WM. split.
  - intros [t H]. destruct (generated_inv d base mp name W WB WM t H) as [M _]. apply (mixed_inv base mp WB WM) in M. apply M.
  - intro S. unfold generate_tpc. rewrite (default_ok d W). cbn [bind]. rewrite (mixed_ok base mp WB WM S). cbn [bind]. rewrite (silenced_ok d W). cbn [bind].
    unfold fuse, new_fusing. cbn [length Nat.ltb Nat.leb bind]. unfold new_tpc2. cbn [qo_cfgs length Nat.eqb negb].
    match goal with |- exists _, (if negb ?b then _ else _) = _ => assert (b = true) as -> by (cbn; reflexivity) end. eexists. reflexivity.
Qed.
Print Assumptions platform_generated.
(* options: none of the moving operations is quantized, linear ones get the list, the others the default *)
Theorem platform_options d base mp name t s q : wf_cfg d -> wf_cfg base -> Forall wf_cfg mp -> generate_tpc d base mp name = Ok t -> options t s q ->
  (In s moving -> exists c, q = Qco c [c] /\ oc_enable c = false /\ (forall k a, sget k (oc_attrs c) = Some a -> ac_enable a = false) /\
     skeys (oc_attrs c) = skeys (oc_attrs d) /\ oc_bits c = oc_bits d /\ oc_method c = oc_method d /\ oc_inputs c = oc_inputs d /\ oc_preserve c = oc_preserve d) /\
  (In s linear -> q = Qco base mp) /\
  (~ In s moving -> ~ In s linear -> q = Qco d [d]).
Proof.
  intros W WB WM H (o & E & ->). destruct (generated_inv d base mp name W WB WM t H) as (_ & D & O & _). rewrite D. unfold options_of_opset in E. rewrite O, D in E.
  assert (F : find (fun x => String.eqb s (os_name x)) (map (fun s => OpSet s (Some (Qco (silenced d) [silenced d]))) no_quantization_names ++
    map (fun s => OpSet s (Some (Qco base mp))) linear ++ map plain ["ReLU"; "ReLU6"; "LeakyReLU"; "Add"; "Sub"; "Mul"; "Div"; "PReLU"; "Swish"; "HardSwish"; "Sigmoid"; "Tanh"; "HardTanh"]%string) =
    if existsb (String.eqb s) no_quantization_names then Some (OpSet s (Some (Qco (silenced d) [silenced d]))) else
    if existsb (String.eqb s) linear then Some (OpSet s (Some (Qco base mp))) else
    if existsb (String.eqb s) ["ReLU"; "ReLU6"; "LeakyReLU"; "Add"; "Sub"; "Mul"; "Div"; "PReLU"; "Swish"; "HardSwish"; "Sigmoid"; "Tanh"; "HardTanh"]%string then Some (plain s) else None).
  { assert (G : forall (f : string -> opset) l r, (forall x, os_name (f x) = x) -> find (fun x => String.eqb s (os_name x)) (map f l ++ r) = if existsb (String.eqb s) l then Some (f s) else find (fun x => String.eqb s (os_name x)) r).
    { intros f l r N. induction l as [|x l IH]; cbn [map app find existsb]; [reflexivity|]. rewrite N. destruct (String.eqb_spec s x) as [->|Hx]; [reflexivity|exact IH]. }
    rewrite G by reflexivity. rewrite G by reflexivity. rewrite <- (app_nil_r (map plain _)). rewrite G by reflexivity. reflexivity. }
  rewrite F in E. clear F. assert (E' : forall x y : option qco, Ok x = Ok y -> x = y) by (intros x y Q; congruence). apply E' in E. clear E'. rename E into E'.
  assert (X : forall l, existsb (String.eqb s) l = true <-> In s l).
  { intro l. rewrite existsb_exists. split; [intros (x & I & Q); apply String.eqb_eq in Q; subst; exact I|intro I; exists s; split; [exact I|apply String.eqb_refl]]. }
  assert (M : In s moving <-> In s no_quantization_names) by (unfold moving, no_quantization_names; cbn [In]; tauto).
  assert (DJ : In s linear -> ~ In s no_quantization_names).
  { unfold linear, no_quantization_names. cbn [In]. intros L N. repeat (destruct L as [L|L]; [subst s; repeat (destruct N as [N|N]; [discriminate|]); exact N|]). exact L. }
  destruct (existsb (String.eqb s) no_quantization_names) eqn:E1.
  - apply X in E1. subst o. cbn [or_old os_qco]. split; [|split; [intro L; exfalso; exact (DJ L E1)|intro N; exfalso; apply N, M, E1]].
    intros _. exists (silenced d). split; [reflexivity|]. split; [reflexivity|]. split; [|split; [cbn; unfold skeys; rewrite map_map; reflexivity|repeat split]].
    intros k a G. apply sget_in in G. cbn in G. apply in_map_iff in G. destruct G as (kv & Q & _). inversion Q. reflexivity.
  - assert (N1 : ~ In s no_quantization_names) by (rewrite <- X; congruence). split; [intro I; exfalso; apply N1, M, I|].
    destruct (existsb (String.eqb s) linear) eqn:E2.
    + apply X in E2. subst o. split; [intros _; reflexivity|intros _ N; contradiction].
    + assert (N2 : ~ In s linear) by (rewrite <- X; congruence). split; [intro; contradiction|]. intros _ _.
      match type of E' with match (if ?b then _ else _) with _ => _ end = _ => destruct b end; subst o; reflexivity.
Qed.
Print Assumptions platform_options.
(* fusing: exactly these pairs of operator sets, and no configuration of its own for the fused operation *)
Theorem platform_fusing d base mp name t : wf_cfg d -> wf_cfg base -> Forall wf_cfg mp -> generate_tpc d base mp name = Ok t ->
  exists l, t2_fusing t = Some l /\ (forall p, In p l -> fu_cfg p = None /\ length (fu_groups p) = 2%nat) /\
  forall a b, (exists p, In p l /\ Forall2 member [a; b] (fu_groups p)) <-> fused a b.
Proof.
  intros W WB WM H. destruct (generated_inv d base mp name W WB WM t H) as (_ & _ & _ & n1 & n2 & n3 & g1 & g2 & g3 & g4 & g5 & E). cbv zeta in E. eexists. split; [exact E|]. split.
  - intros p [<-|[<-|[<-|[]]]]; split; reflexivity.
  - intros a b. split.
    + intros (p & I & F). unfold fused. destruct I as [<-|[<-|[<-|[]]]]; cbn [fu_groups] in F; inversion F as [|? ? ? ? F1 F2]; subst; inversion F2 as [|? ? ? ? F3 F4]; subst; cbn [member map os_name plain] in F1, F3; auto.
    + intros [[A B]|[[A B]|[A B]]].
      * eexists. split; [left; reflexivity|]. constructor; [exact A|]. constructor; [exact B|constructor].
      * eexists. split; [right; left; reflexivity|]. constructor; [exact (eq_sym A)|]. constructor; [exact B|constructor].
      * eexists. split; [right; right; left; reflexivity|]. constructor; [exact A|]. constructor; [exact B|constructor].
Qed.
Print Assumptions platform_fusing.
(* the description can be attached to both frameworks *)
Theorem platform_attaches d base mp name t fw : wf_cfg d -> wf_cfg base -> Forall wf_cfg mp -> generate_tpc d base mp name = Ok t -> exists a, attach [] (builtin fw) t = Ok a.
Proof.
  intros W WB WM H. destruct (generated_inv d base mp name W WB WM t H) as (_ & _ & O & _).
  assert (N : map os_name (or_old (t2_opsets t) []) = no_quantization_names ++ linear ++ ["ReLU"; "ReLU6"; "LeakyReLU"; "Add"; "Sub"; "Mul"; "Div"; "PReLU"; "Swish"; "HardSwish"; "Sigmoid"; "Tanh"; "HardTanh"]%string) by (rewrite O; reflexivity).
  apply standard_platform_attaches.
  - rewrite N. apply distinctb_nodup. reflexivity.
  - intros s I. apply (in_map os_name) in I. rewrite N in I. revert I.
    assert (forallb (fun s => existsb (String.eqb s) standard_names) (no_quantization_names ++ linear ++ ["ReLU"; "ReLU6"; "LeakyReLU"; "Add"; "Sub"; "Mul"; "Div"; "PReLU"; "Swish"; "HardSwish"; "Sigmoid"; "Tanh"; "HardTanh"]%string) = true) as B by reflexivity.
    intro I. rewrite forallb_forall in B. specialize (B _ I). apply existsb_exists in B. destruct B as (x & J & E). apply String.eqb_eq in E. rewrite E. exact J.
Qed.
Print Assumptions platform_attaches.

(* ---- what nodes get ---- *)
Lemma fetched f n q : fetch f n = Ok q -> (exists flt, In (flt, q) (q_filters f)) \/ (exists k, In (k, q) (q_layers f)) \/ q = q_default f.
Proof.
  unfold fetch, fetch_opt. destruct (filterM _ (q_filters f)) as [fm|] eqn:E; [|discriminate]. cbn [bind].
  destruct (conflicting (map snd fm)); [discriminate|]. destruct (conflicting _); [discriminate|]. cbn [bind]. intro H. inversion H as [H1]. clear H.
  destruct fm as [|p fm]; cbn [map].
  - match goal with |- context[map snd ?ll] => destruct ll as [|p l] eqn:L end; cbn [map or_old]; [auto|]. right. left.
    assert (In p (q_layers f)) as I by (eapply proj1, filter_In; rewrite L; left; reflexivity). destruct p as [k q']. exists k. exact I.
  - left. cbn [or_old]. assert (In p (q_filters f)) as I by (pose proof (filterM_pure _ _ _ E) as FP; eapply proj1, filter_In; rewrite <- FP; left; reflexivity). destruct p as [flt q']. exists flt. exact I.
Qed.
(* nothing but attribute names changes when the names of a framework are put in *)
Lemma renamed_values m c k a : In (k, a) (renamed m c) -> exists k', In (k', a) (oc_attrs c).
Proof.
  unfold renamed. destruct m as [dm|]; [|intro I; exists k; exact I].
  assert (G : forall l acc, In (k, a) (fold_left (fun acc kv => sset (match sget (fst kv) dm with Some k => k | None => fst kv end) (snd kv) acc) l acc) -> In (k, a) acc \/ exists k', In (k', a) l).
  { induction l as [|x l IH]; intros acc I; [left; exact I|]. cbn [fold_left] in I. apply IH in I. destruct I as [I|[k' I]]; [|right; exists k'; right; exact I].
    assert (S : forall k0 v d, In (k, a) (sset k0 v d) -> In (k, a) d \/ a = v).
    { intros k0 v. induction d as [|[k1 v1] d IHd]; cbn; [intros [Q|[]]; right; congruence|]. destruct (String.eqb k0 k1); cbn; intros [Q|Q]; auto; [right; congruence|]. destruct (IHd Q); auto. }
    apply S in I. destruct I as [I| ->]; [left; exact I|]. right. exists (fst x). left. destruct x; reflexivity. }
  intro I. apply G in I. destruct I as [[]|I]. exact I.
Qed.
Lemma mapped_cfgs m q c : In c (qo_base (qco_map_keys m q) :: qo_cfgs (qco_map_keys m q)) ->
  exists c0, In c0 (qo_base q :: qo_cfgs q) /\ same_but_attrs c0 c /\ forall k a, In (k, a) (oc_attrs c) -> exists k', In (k', a) (oc_attrs c0).
Proof.
  assert (G : forall l base nb, let r := map_keys_loop m base nb l in (fst r = nb \/ exists x, In x l /\ fst r = with_attrs (renamed m x) x) /\ snd r = map (fun x => with_attrs (renamed m x) x) l).
  { induction l as [|x l IH]; intros base nb; cbn [map_keys_loop]; [split; [left|]; reflexivity|]. rewrite op_clone_set. specialize (IH base (if opcfg_eqb x base then with_attrs (renamed m x) x else nb)).
    destruct (map_keys_loop m base _ l) as [b us]. cbn in *. destruct IH as [A ->]. split; [|reflexivity]. destruct A as [->|(y & I & ->)]; [|right; exists y; auto]. destruct (opcfg_eqb x base); [right; exists x; auto|left; reflexivity]. }
  unfold qco_map_keys. specialize (G (qo_cfgs q) (qo_base q) (qo_base q)). destruct (map_keys_loop m (qo_base q) (qo_base q) (qo_cfgs q)) as [b us]. cbn in *. destruct G as [A ->].
  assert (K : forall x, same_but_attrs x (with_attrs (renamed m x) x) /\ forall k a, In (k, a) (oc_attrs (with_attrs (renamed m x) x)) -> exists k', In (k', a) (oc_attrs x)).
  { intro x. split; [repeat split|]. intros k a. apply renamed_values. }
  intros [<-|I].
  - destruct A as [->|(x & I & ->)]; [exists (qo_base q); split; [left; reflexivity|split; [repeat split|intros k a J; exists k; exact J]]|]. exists x. split; [right; exact I|apply K].
  - apply in_map_iff in I. destruct I as (x & <- & I). exists x. split; [right; exact I|apply K].
Qed.
(* a property of configurations that does not depend on attribute names passes from the three inputs to every node *)
Lemma every_node (P : opcfg -> Prop) d base mp name t fw a n q : wf_cfg d -> wf_cfg base -> Forall wf_cfg mp ->
  (forall c c', same_but_attrs c c' -> (forall k x, In (k, x) (oc_attrs c') -> exists k', In (k', x) (oc_attrs c)) -> P c -> P c') ->
  P d -> P (silenced d) -> P base -> Forall P mp ->
  generate_tpc d base mp name = Ok t -> attach [] (builtin fw) t = Ok a -> fetch a n = Ok q -> forall c, In c (qo_base q :: qo_cfgs q) -> P c.
Proof.
  intros W WB WM HP Pd Ps Pb Pm H A F c I. destruct (generated_inv d base mp name W WB WM t H) as (_ & D & O & _).
  assert (ND : NoDup (map os_name (or_old (t2_opsets t) []))) by (rewrite O; cbn [or_old]; apply distinctb_nodup; reflexivity).
  destruct (attached_tables [] (builtin fw) t a ND A) as (TF & TL & TD).
  assert (PQ : forall s, In s (or_old (t2_opsets t) []) -> forall c, In c (qo_base (or_old (os_qco s) (t2_default t)) :: qo_cfgs (or_old (os_qco s) (t2_default t))) -> P c).
  { intros s Is c0 Ic. rewrite O in Is. rewrite D in Ic. cbn [or_old] in Is. rewrite Forall_forall in Pm. apply in_app_or in Is. destruct Is as [Is|Is]; [|apply in_app_or in Is; destruct Is as [Is|Is]]; apply in_map_iff in Is; destruct Is as (x & <- & _); cbn in Ic.
    - destruct Ic as [<-|[<-|[]]]; exact Ps.
    - destruct Ic as [<-|Ic]; auto.
    - destruct Ic as [<-|[<-|[]]]; exact Pd. }
  assert (PE : forall k, entry [] (builtin fw) t k q -> P c).
  { intros k (s & o & Is & _ & _ & ->). apply mapped_cfgs in I. destruct I as (c0 & I0 & S & V). exact (HP c0 c S V (PQ s Is c0 I0)). }
  destruct (fetched a n q F) as [[flt J]|[[[id nm] J]| ->]].
  - apply TF in J. destruct J as [i J]. exact (PE _ J).
  - apply TL in J. exact (PE _ J).
  - rewrite TD, D in I. cbn in I. destruct I as [<-|[<-|[]]]; exact Pd.
Qed.

(* The default platform: whatever the framework and the node, its options quantize activations with 8 bits and powers of two or not at all,
   and a weight is quantized only symmetrically per channel with 8, 4 or 2 bits. *)
Theorem default_platform_nodes t fw a n q c : get_tpc = Ok t -> attach [] (builtin fw) t = Ok a -> fetch a n = Ok q -> In c (qo_base q :: qo_cfgs q) ->
  oc_bits c = 8%Z /\ oc_method c = pot /\ oc_inputs c = I_tuple [8%Z] /\ oc_preserve c = false /\ ac_enable (oc_default c) = false /\
  forall k x, In (k, x) (oc_attrs c) -> ac_enable x = true -> ac_method x = symmetric /\ ac_per_channel x = true /\ In (ac_bits x) [8; 4; 2]%Z.
Proof.
  intros H A F. revert c.
  refine (every_node _ eight_bits_default linear_eight_bits mixed_precision_cfg_list "imx500_tpc" t fw a n q _ _ _ _ _ _ _ _ H A F); clear H A F.
  - constructor.
  - unfold wf_cfg. cbn. repeat constructor; cbn; intuition discriminate.
  - repeat constructor; cbn; intuition discriminate.
  - intros c c' (E1 & E2 & E3 & E4 & E5 & E6 & _) V (P1 & P2 & P3 & P4 & P5 & P6). rewrite <- E1, <- E2, <- E3, <- E4, <- E6. repeat split; try assumption; destruct (V _ _ H) as [k' J]; destruct (P6 k' x J H0) as (Q1 & Q2 & Q3); assumption.
  - repeat split; intros; destruct H.
  - repeat split; intros; destruct H.
  - repeat split; cbn in H; destruct H as [Q|[Q|[]]]; inversion Q; subst x; cbn in *; auto; discriminate.
  - repeat constructor; cbn in *; repeat match goal with Q : _ \/ _ |- _ => destruct Q as [Q|Q] | Q : False |- _ => destruct Q | Q : (_, _) = (_, _) |- _ => inversion Q; subst; clear Q end; cbn in *; auto; discriminate.
Qed.
Print Assumptions default_platform_nodes.
(* the default platform exists, its linear operations can be searched over exactly three kernel widths, and biases are left alone *)
Theorem default_platform : exists t, get_tpc = Ok t /\ forall s q, In s linear -> options t s q ->
  map (fun c => option_map ac_bits (sget "kernel_attr" (oc_attrs c))) (qo_cfgs q) = [Some 8; Some 4; Some 2]%Z /\
  option_map ac_bits (sget "kernel_attr" (oc_attrs (qo_base q))) = Some 8%Z /\
  (forall c, In c (qo_base q :: qo_cfgs q) -> oc_enable c = true /\ option_map ac_enable (sget "kernel_attr" (oc_attrs c)) = Some true /\ option_map ac_enable (sget "bias_attr" (oc_attrs c)) = Some false).
Proof.
  assert (W1 : wf_cfg eight_bits_default) by constructor. assert (W2 : wf_cfg linear_eight_bits) by (unfold wf_cfg; cbn; repeat constructor; cbn; intuition discriminate).
  assert (W3 : Forall wf_cfg mixed_precision_cfg_list) by (repeat constructor; cbn; intuition discriminate).
  destruct (proj2 (platform_generated _ _ _ "imx500_tpc" W1 W2 W3)) as [t H]; [exists linear_eight_bits; split; [left; reflexivity|apply same_cfg_refl]|].
  exists t. split; [exact H|]. intros s q L O. destruct (platform_options _ _ _ _ t s q W1 W2 W3 H O) as (_ & E & _). rewrite (E L). split; [reflexivity|]. split; [reflexivity|].
  intros c I. cbn [qo_base qo_cfgs In mixed_precision_cfg_list] in I. destruct I as [<-|[<-|[<-|[<-|[]]]]]; repeat split.
Qed.
Print Assumptions default_platform.
(* the choice of a platform by its name *)
Theorem platform_chosen tf qn fw name v t : get_target_platform_capabilities tf qn fw name v = Ok t ->
  (fw = "tensorflow" \/ fw = "pytorch")%string /\
  ((name = "default"%string \/ (name = "imx500"%string /\ (v = None \/ v = Some "v1"%string))) /\ get_tpc = Ok t \/
   (name = "tflite"%string /\ tf = Ok t \/ name = "qnnpack"%string /\ qn = Ok t) /\ (v = None \/ v = Some "v1"%string)).
Proof.
  unfold get_target_platform_capabilities.
  destruct (String.eqb_spec fw "tensorflow") as [F|F]; [|destruct (String.eqb_spec fw "pytorch") as [F'|F']; [|discriminate]]; cbn [orb negb].
  all: (destruct (String.eqb_spec name "default"); [intro H; split; [auto|left; auto]|]);
    (assert (V : forall r : result tpc2, (if match v with Some v0 => negb (String.eqb v0 "v1") | None => false end then Err E_assert else r) = Ok t -> (v = None \/ v = Some "v1"%string) /\ r = Ok t);
      [intro r; destruct v as [v0|]; [destruct (String.eqb_spec v0 "v1") as [->|]; cbn; [auto|discriminate]|auto]|]);
    intro H; apply V in H; destruct H as [HV H]; (split; [auto|]);
    (destruct (String.eqb_spec name "imx500"); [left; auto|]); (destruct (String.eqb_spec name "tflite"); [right; auto|]); (destruct (String.eqb_spec name "qnnpack"); [right; auto|discriminate]).
Qed.
Print Assumptions platform_chosen.
