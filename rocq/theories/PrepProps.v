(* PrepProps.v -- C103: what the preparation of a graph leaves in the configurations of its nodes. *)
From Coq Require Import String.
From Verif Require Import Base SDict MPModel MPProofs HessianModel HessianProofs FilterModel FilterProps PlatModel SearchProofs
  LookupModel LookupSpec LookupProps CandModel CandSpec CandProps ManualModel ManualSpec ManualProps PrepModel PrepSpec PrepProofs.
Local Open Scope list_scope.

Lemma rebit_enable o w : wc_enable (rebit o w) = wc_enable w.
Proof. destruct o; reflexivity. Qed.
Lemma rebit_none w : rebit None w = w.
Proof. reflexivity. Qed.

(* the configuration of a node after manual requests, in terms of the one before *)
Lemma effect_base bw m m2 : manual_effect bw m m2 ->
  mn_id m2 = mn_id m /\ mn_attrs m2 = mn_attrs m /\
  cd_bits (nc_base (mn_cfg m2)) = or_else (act_request bw m) (cd_bits (nc_base (mn_cfg m))) /\
  cd_method (nc_base (mn_cfg m2)) = cd_method (nc_base (mn_cfg m)) /\ cd_mode (nc_base (mn_cfg m2)) = cd_mode (nc_base (mn_cfg m)) /\
  cd_pos (nc_base (mn_cfg m2)) = map (fun kv => (fst kv, rebit (weight_request bw m pos_attr) (snd kv))) (cd_pos (nc_base (mn_cfg m))) /\
  skeys (cd_named (nc_base (mn_cfg m2))) = skeys (cd_named (nc_base (mn_cfg m))) /\
  (forall a, a <> pos_attr -> sget a (cd_named (nc_base (mn_cfg m2))) = option_map (rebit (weight_request bw m a)) (sget a (cd_named (nc_base (mn_cfg m))))).
Proof.
  destruct bw as [c|]; cbn [manual_effect].
  - intros [E1 [E2 [_ [_ [[B1 [B2 [B3 [_ [_ [B6 [B7 B8]]]]]]] _]]]]]. split; [exact E1|]. split; [exact E2|]. split; [exact B1|]. split; [exact B2|].
    split; [exact B3|]. split; [exact B6|]. split; [exact B7|]. intros a Na. rewrite B8. destruct (String.eqb_spec a pos_attr); [congruence|reflexivity].
  - intros ->. split; [reflexivity|]. split; [reflexivity|]. split; [reflexivity|]. split; [reflexivity|]. split; [reflexivity|]. split.
    + symmetry. clear. induction (cd_pos (nc_base (mn_cfg m))) as [|[i w] l IH]; cbn; [reflexivity|f_equal; exact IH].
    + split; [reflexivity|]. intros a _. destruct (sget a _); reflexivity.
Qed.
Lemma filter_one_single n m2 x : wf_cand (nc_base (mn_cfg m2)) -> filter_one (n, single m2) = Ok x ->
  mn_id x = mn_id m2 /\ mn_attrs x = mn_attrs m2 /\ exists d, nc_cands (mn_cfg x) = [d] /\ cd_mode d = cd_mode (nc_base (mn_cfg m2)) /\
  kept_weights (nc_base (mn_cfg m2)) d /\ (cd_mode d = M_no -> cd_bits d = 32%Z) /\
  (cd_mode d <> M_no -> cd_bits d = cd_bits (nc_base (mn_cfg m2)) /\ cd_method d = cd_method (nc_base (mn_cfg m2))).
Proof.
  intros W H. unfold filter_one in H. cbn [fst snd single mn_cfg nc_cands mn_id mn_attrs nc_base] in H.
  destruct (filter_node (gn_kernel n) [nc_base (mn_cfg m2)]) as [cs|] eqn:E; cbn [bind] in H; [|discriminate]. inversion H; subst x. cbn [mn_id mn_attrs mn_cfg nc_cands].
  split; [reflexivity|]. split; [reflexivity|]. destruct (filter_single _ _ _ W E) as [d [-> [D1 [D2 [D3 D4]]]]]. exists d. split; [reflexivity|]. rewrite D1. auto.
Qed.
Lemma override_cases fused st n m c : dict_get (gn_id n) st = Some c -> override fused st n = Ok m ->
  mn_id m = gn_id n /\ mn_attrs m = gn_attrs n /\
  ((fused (gn_id n) = None /\ mn_cfg m = c) \/ exists fo, fused (gn_id n) = Some fo /\ override_node fo c = Ok (mn_cfg m)).
Proof.
  intros G. unfold override. rewrite G. destruct (fused (gn_id n)) as [fo|].
  - destruct (override_node fo c) as [c'|] eqn:E; cbn [bind]; [|discriminate]. intro H. inversion H. cbn. split; [reflexivity|]. split; [reflexivity|]. right. exists fo. auto.
  - cbn [bind]. intro H. inversion H. cbn. auto.
Qed.

(* C103: prepared for single precision, every node has exactly one candidate.  Its output is quantized with the method of
   an option of the platform and the bit-width of that option, or of the last request for the node; its attributes likewise.
   Inside a fused operation the output follows the configuration of the operation. *)
Theorem single_precision_config : forall hm gq fuel f g fused bw r, NoDup (map gn_id (lg_nodes g)) -> by_identity bw ->
  prepare hm gq false fuel f g fused bw = Ok r ->
  Forall2 (fun n x => mn_id x = gn_id n /\ mn_attrs x = gn_attrs n /\ exists d o, nc_cands (mn_cfg x) = [d] /\ an_option f n o /\
    forall m, stands n m ->
      (match fused (gn_id n) with Some fo => inner_output_of fo d | None => output_of bw m o d end) /\ attrs_of bw m o d) (lg_nodes g) r.
Proof.
  intros hm gq fuel f g fused bw r N BI H. destruct (prepare_steps _ _ _ _ _ _ _ _ _ N H) as [st [L F]].
  pose proof (load_shaped fuel f g st N L) as Sh. pose proof (load_all fuel f g st N L) as La.
  assert (forall n, In n (lg_nodes g) -> In n (lg_nodes g)) as Sub by auto. revert F Sub. generalize (lg_nodes g) at 1 2 4. intros l F. clear H.
  induction F as [|n x l r (m & m2 & O & E & W & Mq & Fi) F IH]; intro Sub; constructor; [|apply IH; intros k K; apply Sub; right; exact K].
  specialize (Sub n (or_introl eq_refl)). destruct (La n Sub) as [c [G [_ Mo]]]. destruct (Sh n Sub c G) as [[o [Ao Bo]] _].
  destruct (override_cases _ _ _ _ _ G O) as [I1 [I2 Oc]].
  destruct (effect_base _ _ _ E) as [J1 [J2 [Eb [Em [Emo [Ep [Ek En]]]]]]].
  assert (wf_cand (nc_base (mn_cfg m2))) as W2 by (unfold wf_cand; rewrite Ek; exact (proj1 W)).
  destruct (filter_one_single _ _ _ W2 Fi) as [K1 [K2 [d [D0 [D1 [[D2 D3] [D4 D5]]]]]]].
  split; [congruence|]. split; [congruence|]. exists d, o. split; [exact D0|]. split; [exact Ao|]. intros m' [S1 S2].
  destruct (request_same bw m m' BI) as [R1 R2]; [congruence|congruence|]. rewrite R1 in Mq, Eb. rewrite (R2 pos_attr) in Ep.
  destruct Bo as [d0 [m0 [Nc Bo]]]. apply new_cand_spec in Nc. destruct Nc as [[C1 [C2 [C3 [C4 C5]]]] _].
  assert (cd_pos (nc_base (mn_cfg m)) = cd_pos d0 /\ cd_named (nc_base (mn_cfg m)) = cd_named d0) as [Pb Nb].
  { destruct Oc as [[_ ->]|[fo [_ Oc]]]; [rewrite Bo; split; reflexivity|]. destruct (override_node_spec _ _ _ Oc) as [_ [-> [-> _]]]. rewrite Bo. split; reflexivity. }
  split.
  - destruct Oc as [[-> Mc]|[fo [-> Oc]]].
    + destruct Mo as [mo [U [_ V]]]. specialize (U (nc_base c) (or_introl eq_refl)). rewrite Mc in *. rewrite Bo in *. cbn [set_mode cd_mode cd_bits cd_method] in *.
      unfold output_of. rewrite D1, Emo, U. destruct V as [->|[->|[-> _]]].
      * right. right. destruct D5 as [D5 D6]; [rewrite D1, Emo, U; discriminate|]. rewrite D5, D6, Eb, Em, C1, C2. auto.
      * left. split; [reflexivity|]. apply D4. rewrite D1, Emo, U. reflexivity.
      * right. left. destruct D5 as [D5 D6]; [rewrite D1, Emo, U; discriminate|]. rewrite D5, D6, Eb, Em, C1, C2. split; [reflexivity|]. split; [|reflexivity].
        destruct (act_request bw m') as [b|]; [|reflexivity]. specialize (Mq ltac:(discriminate)). congruence.
    + destruct (override_node_spec _ _ _ Oc) as [Q1 [_ [_ [_ [Q2 Q3]]]]]. destruct D5 as [D5 D6]; [rewrite D1, Emo; exact Q3|].
      assert (act_request bw m' = None) as Ra by (destruct (act_request bw m'); [exfalso; apply Q2, Mq; discriminate|reflexivity]).
      rewrite Ra in Eb. unfold inner_output_of in *. destruct fo as [q|]; [destruct (oc_enable q)|]; rewrite D1, Emo; [|exact Q1|exact Q1].
      rewrite D5, D6, Eb, Em. exact Q1.
  - unfold attrs_of. rewrite S2. exists (cd_pos d0), (cd_named d0). split; [exact C5|]. split; [rewrite D2, Ep, Pb; reflexivity|].
    intros a w Na Ga. specialize (En a Na). rewrite Nb, Ga in En. cbn [option_map] in En. rewrite (R2 a) in En.
    destruct (D3 a _ En) as [w' [G1 [G2 G3]]]. exists w'. rewrite rebit_enable in G2, G3. auto.
Qed.
Print Assumptions single_precision_config.

(* C103: the bit-width at the output of a node outside fused operations, requested or not, is one that the platform offers for
   the node and that all the consumers of the output accept *)
Theorem single_precision_accepted : forall hm gq fuel f g fused bw r, NoDup (map gn_id (lg_nodes g)) ->
  prepare hm gq false fuel f g fused bw = Ok r ->
  Forall2 (fun n x => forall d, In d (nc_cands (mn_cfg x)) -> fused (gn_id n) = None -> cd_mode d <> M_no ->
    accepted f g n (cd_bits d) /\ exists q o, fetch f (gn_f n) = Ok q /\ In o (qo_cfgs q) /\ oc_bits o = cd_bits d) (lg_nodes g) r.
Proof.
  intros hm gq fuel f g fused bw r N H. destruct (prepare_steps _ _ _ _ _ _ _ _ _ N H) as [st [L F]].
  pose proof (load_all fuel f g st N L) as La.
  assert (forall n, In n (lg_nodes g) -> In n (lg_nodes g)) as Sub by auto. revert F Sub. generalize (lg_nodes g) at 1 2 4. intros l F. clear H.
  induction F as [|n x l r (m & m2 & O & E & W & Mq & Fi) F IH]; intro Sub; constructor; [|apply IH; intros k K; apply Sub; right; exact K].
  specialize (Sub n (or_introl eq_refl)). destruct (La n Sub) as [c [G [[q [Eq [L1 [_ [d0 [I0 [B0 _]]]]]]] _]]].
  intros d Id Fu Nm. destruct (override_cases _ _ _ _ _ G O) as [I1 [I2 [[_ Mc]|[fo [X _]]]]]; [|congruence].
  destruct (effect_base _ _ _ E) as [J1 [J2 [Eb [Em [Emo [Ep [Ek En]]]]]]].
  assert (wf_cand (nc_base (mn_cfg m2))) as W2 by (unfold wf_cand; rewrite Ek; exact (proj1 W)).
  destruct (filter_one_single _ _ _ W2 Fi) as [K1 [K2 [d' [D0 [D1 [_ [D4 D5]]]]]]]. rewrite D0 in Id. destruct Id as [<-|[]].
  destruct (D5 Nm) as [D6 _]. rewrite D6, Eb.
  assert (exists y, In y (nc_cands c) /\ cd_bits y = or_else (act_request bw m) (cd_bits (nc_base (mn_cfg m)))) as [y [Iy Ey]].
  { destruct bw as [cw|]; cbn [act_request or_else]; [|exists d0; split; [exact I0|rewrite Mc; symmetry; exact B0]].
    destruct (wants_act cw m) as [b|] eqn:Wa; cbn [or_else]; [|exists d0; split; [exact I0|rewrite Mc; symmetry; exact B0]].
    cbn [manual_effect] in E. destruct E as [_ [_ [[p [Ef Ha]] [Ne _]]]].
    assert (concerned cw m) as Cn.
    { left. unfold wants_act in Wa. destruct (last_match _ (bw_act cw)) as [rq|] eqn:Lm; [|discriminate]. apply last_match_in in Lm. exists rq. exact Lm. }
    specialize (Ne Cn). destruct (nc_cands (mn_cfg m2)) as [|y ys] eqn:Ey; [congruence|]. assert (In y (filter p (nc_cands (mn_cfg m)))) as Iy by (rewrite <- Ef; left; reflexivity).
    apply filter_In in Iy. destruct Iy as [Iy Py]. apply Ha in Py; [|exact Iy]. rewrite Mc in Iy. exists y. split; [exact Iy|]. apply (proj1 Py). exact Wa. }
  rewrite <- Ey. destruct (L1 y Iy) as [o [[Io To] [_ [Bo _]]]]. rewrite Bo. split; [exact To|]. exists q, o. auto.
Qed.
Print Assumptions single_precision_accepted.

(* C103: a request for the output of a node is met only where the node quantizes its own output: inside a fused operation, and
   for unquantized or preserving nodes, preparation raises.  (In both precisions.) *)
Theorem request_needs_quantized_output : forall hm gq mixed fuel f g fused c r, NoDup (map gn_id (lg_nodes g)) -> by_identity (Some c) ->
  prepare hm gq mixed fuel f g fused (Some c) = Ok r ->
  forall n m, In n (lg_nodes g) -> stands n m -> wants_act c m <> None ->
  fused (gn_id n) = None /\ exists st, load_graph fuel f g = Ok st /\ has_mode st (gn_id n) M_quant.
Proof.
  intros hm gq mixed fuel f g fused c r N BI H n m' I [S1 S2] Wa. destruct (prepare_steps _ _ _ _ _ _ _ _ _ N H) as [st [L F]].
  destruct (load_all fuel f g st N L n I) as [cf [G [_ [mo [U _]]]]].
  assert (exists m, override fused st n = Ok m /\ (act_request (Some c) m <> None -> cd_mode (nc_base (mn_cfg m)) = M_quant)) as [m [O Mq]].
  { clear - F I. induction F as [|n0 x l r (m & m2 & O & E & W & Mq & Fi) F IH]; [destruct I|]. destruct I as [->|I]; [exists m; auto|apply IH, I]. }
  destruct (override_cases _ _ _ _ _ G O) as [I1 [I2 Oc]].
  destruct (request_same (Some c) m m' BI) as [R1 _]; [congruence|congruence|]. rewrite R1 in Mq. specialize (Mq Wa).
  destruct Oc as [[Fu Mc]|[fo [_ Oc]]]; [|exfalso; destruct (override_node_spec _ _ _ Oc) as [_ [_ [_ [_ [Q _]]]]]; exact (Q Mq)].
  split; [exact Fu|]. exists st. split; [exact L|]. exists cf. split; [exact G|]. rewrite Mc in Mq.
  rewrite (U (nc_base cf) (or_introl eq_refl)) in Mq. rewrite <- Mq. exact U.
Qed.
Print Assumptions request_needs_quantized_output.

(* C103: the HMSE error method is refused unless gradient-based training follows; otherwise the error method does not change
   which configurations the nodes get *)
Theorem hmse_needs_training : forall hm gq mixed fuel f g fused bw,
  (hm = true /\ gq = false -> prepare hm gq mixed fuel f g fused bw = Err E_value) /\
  (~ (hm = true /\ gq = false) -> forall hm' gq', ~ (hm' = true /\ gq' = false) ->
     prepare hm gq mixed fuel f g fused bw = prepare hm' gq' mixed fuel f g fused bw).
Proof.
  intros hm gq mixed fuel f g fused bw. split; [intros [-> ->]; reflexivity|]. intros A hm' gq' B. unfold prepare.
  replace (hm && negb gq) with false by (destruct hm, gq; try reflexivity; exfalso; auto).
  replace (hm' && negb gq') with false by (destruct hm', gq'; try reflexivity; exfalso; auto). reflexivity.
Qed.
Print Assumptions hmse_needs_training.

(* ---- examples ---- *)
Definition yop (m : nat) (b : Z) : opcfg := OpCfg (xat 8) [] m b (I_tuple [16%Z]) true false 0 None None None.
Definition yq : qco := Qco (yop 0 8) [yop 0 8; yop 1 4].
Definition yg : lgraph := LGraph [xn 0 7]%nat [].
Definition yf : fqc := Fqc [] [] yq.
Definition y4 : bwconfig := BW [AReq (fun m => Nat.eqb (mn_id m) 0) 4] [].

Lemma by_id_y4 : by_identity (Some y4).
Proof.
  intros c E m m' E1 E2. inversion E; subst c. split; [|intros r []]. intros r [<-|[]]. cbn. rewrite E1. reflexivity.
Qed.

(* FINDING (set_node_quantization_config.py L151, graph_prep_runner.py L174): a manual request only overwrites the bit-width of
   the base configuration, and in single precision the base configuration is all that is kept.  When the options of the platform
   differ in more than their bit-widths, the node ends up with a combination (here 4 bits with the quantization method of the
   8-bit option) that is not an option of the platform; in mixed precision the same request selects the 4-bit option. *)
Theorem requested_option_refuted : exists f g c n d e r r', In n (lg_nodes g) /\ by_identity (Some c) /\
  prepare false false false 9 f g (fun _ => None) (Some c) = Ok r /\ map (fun x => nc_cands (mn_cfg x)) r = [[d]] /\ cd_mode d = M_quant /\
  (forall q o, fetch f (gn_f n) = Ok q -> In o (qo_cfgs q) -> ~ (oc_bits o = cd_bits d /\ oc_method o = cd_method d)) /\
  prepare false false true 9 f g (fun _ => None) (Some c) = Ok r' /\ map (fun x => nc_cands (mn_cfg x)) r' = [[e]] /\
  (exists q o, fetch f (gn_f n) = Ok q /\ In o (qo_cfgs q) /\ oc_bits o = cd_bits e /\ oc_method o = cd_method e).
Proof.
  exists yf, yg, y4, (xn 0 7), (Cand 0 4 M_quant 0 None [] []), (Cand 1 4 M_quant 0 None [] []).
  eexists. eexists. split; [left; reflexivity|]. split; [exact by_id_y4|]. split; [reflexivity|]. split; [reflexivity|]. split; [reflexivity|]. split.
  - intros q o Eq I [B M]. inversion Eq; subst q. destruct I as [<-|[<-|[]]]; cbn in B, M; discriminate.
  - split; [reflexivity|]. split; [reflexivity|]. exists yq, (yop 1 4). split; [reflexivity|]. split; [right; left; reflexivity|]. split; reflexivity.
Qed.
Print Assumptions requested_option_refuted.

(* a chain of three nodes: the first is inside a fused operation with its own 4-bit configuration, the second preserves, the third is the default *)
Example prepared_chain : exists r, prepare false false false 9 xfq xg (fun n => if Nat.eqb n 0 then Some (Some (xop 4 [8%Z] true false)) else None) None = Ok r /\
  map (fun x => map (fun d => (cd_bits d, cd_mode d)) (nc_cands (mn_cfg x))) r = [[(4%Z, M_fln_quant)]; [(8%Z, M_preserve)]; [(8%Z, M_quant)]].
Proof. eexists. split; reflexivity. Qed.
Example request_on_inner : prepare false false false 9 yf yg (fun _ => Some None) (Some y4) = Err E_value.
Proof. reflexivity. Qed.
