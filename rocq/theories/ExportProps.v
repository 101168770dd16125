(* ExportProps.v -- C87: the exported model computes with the weights and activations the configuration stands for. *)
From Coq Require Import String Ascii.
From Verif Require Import Nd.
From Verif Require Import Base RoundQ RoundQFacts QuantModel QuantProofs QuantSpec QuantLemmas LutModel LutProofs FakeQModel FakeQSpec FakeQProofs FakeQProps FilterModel FilterProps ExportModel ExportSpec ExportProofs ExportNodeProofs.
From Coq Require Import Qround Qpower Qabs Lia Lqa.
Open Scope Q_scope.

(* ---- names ---- *)
Lemma ekey_eqb_spec a b : reflect (a = b) (ekey_eqb a b).
Proof.
  destruct a as [i|s], b as [j|t]; cbn; try (constructor; congruence).
  - destruct (Nat.eqb_spec i j); constructor; congruence.
  - destruct (String.eqb_spec s t); constructor; congruence.
Qed.
Lemma ekey_refl a : ekey_eqb a a = true.
Proof. destruct (ekey_eqb_spec a a); congruence. Qed.
Lemma in_kget {V} k (v : V) d : NoDup (map fst d) -> In (k, v) d -> kget k d = Some v.
Proof.
  induction d as [|[k' v'] r IH]; cbn; [tauto|]. intros N [E|I].
  - injection E as -> ->. rewrite ekey_refl. reflexivity.
  - inversion N as [|? ? N1 N2]; subst. destruct (ekey_eqb_spec k k') as [->|_]; [|auto]. exfalso. apply N1. apply in_map_iff. exists (k', v). auto.
Qed.
Lemma kget_kset {V} k k' (v : V) d : kget k (kset k' v d) = if ekey_eqb k k' then Some v else kget k d.
Proof.
  induction d as [|[k0 v0] r IH]; cbn; [reflexivity|]. destruct (ekey_eqb_spec k' k0) as [->|N]; cbn.
  - destruct (ekey_eqb_spec k k0); reflexivity.
  - rewrite IH. destruct (ekey_eqb_spec k k0) as [->|N1]; [|reflexivity]. destruct (ekey_eqb_spec k0 k'); congruence.
Qed.
Lemma key_unique {V} (d : list (ekey * V)) k v v' : NoDup (map fst d) -> In (k, v) d -> In (k, v') d -> v = v'.
Proof. intros N H H'. pose proof (in_kget k v d N H). pose proof (in_kget k v' d N H'). congruence. Qed.

Lemma append_assoc a b c : String.append (String.append a b) c = String.append a (String.append b c).
Proof. induction a; cbn; [reflexivity|]. f_equal. exact IHa. Qed.
Lemma append_nil a : String.append a EmptyString = a.
Proof. induction a; cbn; [reflexivity|]. f_equal. exact IHa. Qed.
Lemma upto_prefix c s : exists post, s = String.append (upto c s) post.
Proof.
  induction s as [|a r [p E]]; [exists EmptyString; reflexivity|]. cbn [upto]. destruct (Ascii.eqb a c); [exists (String a r); reflexivity|].
  exists p. cbn. f_equal. exact E.
Qed.
Lemma after_suffix c s : exists pre, s = String.append pre (after_last c s).
Proof.
  induction s as [|a r [p E]]; [exists EmptyString; reflexivity|]. cbn [after_last]. destruct (has_char c r); [exists (String a p); cbn; f_equal; exact E|].
  destruct (Ascii.eqb a c); [exists (String a EmptyString); reflexivity|exists EmptyString; reflexivity].
Qed.
Lemma weight_name_occurs s : occurs (weight_name s) s.
Proof.
  destruct (upto_prefix ":"%char s) as [post E]. destruct (after_suffix "/"%char (upto ":"%char s)) as [pre E']. exists pre, post. unfold weight_name.
  rewrite <- append_assoc, <- E'. exact E.
Qed.
Lemma contains_occurs t s : str_contains t s = true <-> occurs s t.
Proof. unfold occurs. apply str_contains_spec. Qed.
Lemma occurs_refl s : occurs s s.
Proof. exists EmptyString, EmptyString. rewrite append_nil. reflexivity. Qed.

Section Attr.
  Variable d : list (ekey * acfg).
  Hypothesis ND : NoDup (map fst d).
  Lemma named_in s k c : In (k, c) (named_with s d) <-> exists t, k = KN t /\ In (KN t, c) d /\ occurs s t.
  Proof.
    unfold named_with. rewrite filter_In. cbn [fst]. split.
    - intros [I H]. destruct k as [i|t]; [discriminate|]. exists t. rewrite <- contains_occurs. auto.
    - intros (t & -> & I & O). split; [exact I|]. apply contains_occurs. exact O.
  Qed.
  Lemma get_attr_exact k c : In (k, c) d -> get_attr_config d k = Ok c.
  Proof.
    intro I. unfold get_attr_config. pose proof (in_kget k c d ND I) as K. destruct k as [i|s]; [rewrite K; reflexivity|].
    assert (In (KN s, c) (named_with s d)) as J by (apply named_in; exists s; auto using occurs_refl).
    destruct (named_with s d) as [|[k' c'] [|y l]] eqn:E; [destruct J| |rewrite K; reflexivity].
    destruct J as [J|[]]. injection J as _ ->. reflexivity.
  Qed.
  Lemma get_attr_short s c : In (KN s, c) d -> (forall s' c', In (KN s', c') d -> occurs (weight_name s) s' -> s' = s) ->
    get_attr_config d (KN (weight_name s)) = Ok c.
  Proof.
    intros I U. unfold get_attr_config.
    assert (In (KN s, c) (named_with (weight_name s) d)) as J by (apply named_in; exists s; auto using weight_name_occurs).
    assert (forall x, In x (named_with (weight_name s) d) -> x = (KN s, c)) as A.
    { intros [k' c'] H. apply named_in in H. destruct H as (t & -> & H & O). pose proof (U t c' H O) as Et. subst t. f_equal. exact (key_unique d _ _ _ ND H I). }
    assert (NoDup (map fst (named_with (weight_name s) d))) as N.
    { clear - ND. unfold named_with. induction d as [|[k v] r IH]; [constructor|]. inversion ND as [|? ? N1 N2]; subst. cbn [filter]. destruct (match fst (k, v) with KN t => str_contains t (weight_name s) | KP _ => false end); [|auto].
      cbn [map]. constructor; [|auto]. intro H. apply N1. apply in_map_iff in H. destruct H as (x & E & H). apply filter_In in H. apply in_map_iff. exists x. tauto. }
    destruct (named_with (weight_name s) d) as [|x [|y l]]; [destruct J| |].
    - rewrite (A x (or_introl eq_refl)). reflexivity.
    - exfalso. rewrite (A x (or_introl eq_refl)), (A y (or_intror (or_introl eq_refl))) in N. inversion N as [|? ? N1 _]. apply N1. left. reflexivity.
  Qed.
End Attr.

Lemma mapM_forall2 {A B} (g : A -> result B) (P : A -> B -> Prop) l : (forall x, In x l -> exists y, g x = Ok y /\ P x y) -> exists ys, mapM g l = Ok ys /\ Forall2 P l ys.
Proof.
  induction l as [|x l IH]; intro H; [exists []; split; [reflexivity|constructor]|]. destruct (H x (or_introl eq_refl)) as (y & E & Py).
  destruct IH as (ys & Es & F); [intros; apply H; right; assumption|]. exists (y :: ys). cbn [mapM]. rewrite E. cbn [bind]. rewrite Es. split; [reflexivity|constructor; assumption].
Qed.
Lemma fold_quantizers f n l d0 : (forall k, In k l -> exists c, get_attr_config (en_cfgs n) k = Ok c /\ (ac_enable c = true -> exists q, weights_quantizer f n k = Ok q)) ->
  exists d, foldM (fun d k => let! b := is_weights_quantization_enabled n k in
                              if b then let! q := weights_quantizer f n k in Ok (kset k q d) else Ok d) l d0 = Ok d /\
    forall k, (forall c, get_attr_config (en_cfgs n) k = Ok c -> ac_enable c = true -> In k l -> forall q, weights_quantizer f n k = Ok q -> kget k d = Some q) /\
              ((forall c, In k l -> get_attr_config (en_cfgs n) k = Ok c -> ac_enable c = false) -> kget k d = kget k d0).
Proof.
  revert d0. induction l as [|k0 l IH]; intros d0 H.
  { exists d0. split; [reflexivity|]. intro k. split; [intros; contradiction|reflexivity]. }
  cbn [foldM]. destruct (H k0 (or_introl eq_refl)) as (c0 & E0 & Q0). unfold is_weights_quantization_enabled at 1. rewrite E0. cbn [bind].
  assert (forall k, In k l -> exists c, get_attr_config (en_cfgs n) k = Ok c /\ (ac_enable c = true -> exists q, weights_quantizer f n k = Ok q)) as H' by (intros; apply H; right; assumption).
  destruct (ac_enable c0) eqn:En.
  - destruct (Q0 eq_refl) as (q0 & Eq0). rewrite Eq0. cbn [bind]. destruct (IH (kset k0 q0 d0) H') as (d & Ed & Hd). exists d. split; [exact Ed|]. intro k. destruct (Hd k) as [D1 D2]. split.
    + intros c Ec Hen Hin q Hq. destruct (in_dec (fun a b => match ekey_eqb_spec a b with ReflectT _ p => left p | ReflectF _ p => right p end) k l) as [I|NI]; [eapply D1; eassumption|].
      destruct Hin as [<-|I]; [|contradiction]. rewrite D2 by (intros; contradiction). rewrite kget_kset, ekey_refl. congruence.
    + intro Hdis. rewrite D2 by (intros c I Ec; apply (Hdis c); [right; exact I|exact Ec]). rewrite kget_kset. destruct (ekey_eqb_spec k k0) as [->|_]; [|reflexivity].
      rewrite (Hdis c0 (or_introl eq_refl) E0) in En. discriminate.
  - destruct (IH d0 H') as (d & Ed & Hd). exists d. split; [exact Ed|]. intro k. destruct (Hd k) as [D1 D2]. split.
    + intros c Ec Hen [<-|I] q Hq; [congruence|]. eapply D1; eassumption.
    + intro Hdis. apply D2. intros c I Ec. apply (Hdis c); [right; exact I|exact Ec].
Qed.

(* C87.  The exported layer computes with quantized weights that are the toolkit's own quantization of the weights: weights
   whose quantization is on are rounded to the nearest value of the grid of their channel, as the configuration says, and
   agree with the weights the toolkit quantizes wherever no entry lies half-way between two grid values; the other weights
   are the float weights. *)
Theorem exported_weights_match : forall f n, exportable f n ->
  exists es ts, exported_weights f n = Ok es /\ toolkit_weights n = Ok ts /\
    length es = length (en_weights n) /\ length ts = length (en_weights n) /\
    forall i k w, nth_error (en_weights n) i = Some (k, w) ->
      exists c e t, In (k, c) (en_cfgs n) /\ nth_error es i = Some (k, e) /\ nth_error ts i = Some (k, t) /\
        (ac_enable c = true -> same_quantization f c w e t) /\
        (ac_enable c = false -> e = w /\ t = w).
Proof.
  intros f n (NW & NC & H).
  set (P := fun (kw : ekey * qt) (r : (ekey * qt) * (ekey * qt)) => exists c e t, In (fst kw, c) (en_cfgs n) /\ r = ((fst kw, e), (fst kw, t)) /\
        (ac_enable c = true -> same_quantization f c (snd kw) e t) /\ (ac_enable c = false -> e = snd kw /\ t = snd kw)).
  assert (forall k w c, In (k, w) (en_weights n) -> In (k, c) (en_cfgs n) -> ac_enable c = true ->
     get_attr_config (en_cfgs n) (exported_name f k) = Ok c /\ ready f c w) as En.
  { intros k w c Hw Hc He. destruct (H k w Hw) as (c' & Hc' & R). rewrite (key_unique _ _ _ _ NC Hc' Hc) in *. destruct (R He) as [Rd U]. split; [|exact Rd].
    destruct f; cbn [exported_name]; [apply get_attr_exact; assumption|]. destruct k as [i|s]; [apply get_attr_exact; assumption|].
    apply get_attr_short; [exact NC|exact Hc|]. intros s' c'' I O. eapply (U eq_refl); [reflexivity|exact I|exact O]. }
  assert (exists names, attribute_names f n = Ok names /\
     (forall k, In k names -> exists k0 w c, k = exported_name f k0 /\ In (k0, w) (en_weights n) /\ In (k0, c) (en_cfgs n) /\ (f = Keras -> ac_enable c = true)) /\
     (forall k w c, In (k, w) (en_weights n) -> In (k, c) (en_cfgs n) -> ac_enable c = true -> In (exported_name f k) names)) as (names & En1 & En2 & En3).
  { destruct f; unfold attribute_names.
    - eexists. split; [reflexivity|]. split.
      + intros k Hk. apply in_map_iff in Hk. destruct Hk as ([k0 w] & <- & I). destruct (H k0 w I) as (c & Hc & _). exists k0, w, c. split; [reflexivity|]. split; [exact I|]. split; [exact Hc|discriminate].
      + intros k w c I _ _. cbn. apply in_map_iff. exists (k, w). auto.
    - destruct (mapM_forall2 (fun kw : ekey * qt => let! b := is_weights_quantization_enabled n (fst kw) in Ok (if b then [exported_name Keras (fst kw)] else []))
        (fun kw r => exists c, In (fst kw, c) (en_cfgs n) /\ r = if ac_enable c then [exported_name Keras (fst kw)] else []) (en_weights n)) as (l & El & F).
      { intros [k w] I. destruct (H k w I) as (c & Hc & _). cbn [fst]. unfold is_weights_quantization_enabled. rewrite (get_attr_exact _ NC k c Hc). cbn [bind]. eexists. split; [reflexivity|]. exists c. auto. }
      rewrite El. cbn [bind]. eexists. split; [reflexivity|]. clear El. split.
      + intros k Hk. apply in_concat in Hk. destruct Hk as (r & Hr & Hk).
        assert (exists kw, In kw (en_weights n) /\ exists c, In (fst kw, c) (en_cfgs n) /\ r = if ac_enable c then [exported_name Keras (fst kw)] else []) as ([k0 w] & I & c & Hc & ->).
        { clear - F Hr. induction F; [destruct Hr|]. destruct Hr as [<-|Hr]; [eexists; split; [left; reflexivity|assumption]|]. destruct (IHF Hr) as (kw & I & X). exists kw. split; [right; exact I|exact X]. }
        cbn [fst] in *. destruct (ac_enable c) eqn:E; [|destruct Hk]. destruct Hk as [<-|[]]. exists k0, w, c. auto.
      + intros k w c I Hc He. apply in_concat.
        assert (exists r, In r l /\ exists c, In (k, c) (en_cfgs n) /\ r = if ac_enable c then [exported_name Keras k] else []) as (r & Hr & c' & Hc' & ->).
        { clear - F I. induction F; [destruct I|]. destruct I as [->|I]; [eexists; split; [left; reflexivity|assumption]|]. destruct (IHF I) as (r & J & X). exists r. split; [right; exact J|exact X]. }
        rewrite (key_unique _ _ _ _ NC Hc' Hc), He in Hr. eexists. split; [exact Hr|left; reflexivity]. }
  (* every name has its configuration, and enabled ones their quantizer *)
  assert (forall k w c, In (k, w) (en_weights n) -> In (k, c) (en_cfgs n) -> ac_enable c = true ->
     exists q e t, weights_quantizer f n (exported_name f k) = Ok q /\ wq_call f q w = Ok e /\ toolkit_quantize c w = Ok t /\ same_quantization f c w e t) as Q.
  { intros k w c Hw Hc He. destruct (En k w c Hw Hc He) as [G R]. destruct (export_one f c w R) as (q0 & q & e & t & A1 & A2 & A3 & A4 & A5).
    exists q, e, t. split; [|auto]. unfold weights_quantizer. rewrite G. cbn [bind]. rewrite A1. cbn [bind]. exact A2. }
  destruct (fold_quantizers f n names []) as (d & Ed & Hd).
  { intros k Hk. destruct (En2 k Hk) as (k0 & w & c & -> & Hw & Hc & HK).
    assert (get_attr_config (en_cfgs n) (exported_name f k0) = Ok c) as G.
    { destruct f; [cbn; apply get_attr_exact; assumption|]. apply (En k0 w c Hw Hc). auto. }
    exists c. split; [exact G|]. intro He. destruct (Q k0 w c Hw Hc He) as (q & _ & _ & Eq & _). exists q. exact Eq. }
  destruct (mapM_forall2 (fun kw : ekey * qt => let! e := (match kget (exported_name f (fst kw)) d with
                  | Some q => let! w := wq_call f q (snd kw) in Ok (fst kw, w) | None => Ok kw end) in
                let! t := (let! b := is_weights_quantization_enabled n (fst kw) in
                  if b then let! c := get_attr_config (en_cfgs n) (fst kw) in let! q := toolkit_quantize c (snd kw) in Ok (fst kw, q) else Ok kw) in
                Ok (e, t)) P (en_weights n)) as (rs & Er & F).
  { intros [k w] Hw. cbn [fst snd]. destruct (H k w Hw) as (c & Hc & _). destruct (Hd (exported_name f k)) as [D1 D2].
    unfold is_weights_quantization_enabled. rewrite (get_attr_exact _ NC k c Hc). cbn [bind]. destruct (ac_enable c) eqn:He.
    - destruct (Q k w c Hw Hc He) as (q & e & t & A1 & A2 & A3 & A4). destruct (En k w c Hw Hc He) as [G _].
      rewrite (D1 c G He (En3 k w c Hw Hc He) q A1), A2, A3. cbn [bind]. eexists. split; [reflexivity|]. exists c, e, t. cbn [fst snd]. split; [exact Hc|]. split; [reflexivity|]. split; [intros _; exact A4|congruence].
    - rewrite D2.
      + cbn [kget bind]. eexists. split; [reflexivity|]. exists c, w, w. cbn [fst snd]. split; [exact Hc|]. split; [reflexivity|]. split; [congruence|auto].
      + intros c' I Gc. destruct (En2 _ I) as (k0 & w0 & c0 & Ek & Hw0 & Hc0 & HK). destruct f; cbn [exported_name] in *.
        * subst k0. rewrite (get_attr_exact _ NC k c Hc) in Gc. congruence.
        * exfalso. specialize (HK eq_refl).
          assert (k0 = k) as ->; [|rewrite (key_unique _ _ _ _ NC Hc0 Hc) in HK; congruence].
          destruct k as [i|s], k0 as [i0|s0]; try discriminate; [congruence|]. injection Ek as Ek. f_equal. symmetry.
          destruct (H (KN s0) w0 Hw0) as (c1 & Hc1 & R1). rewrite (key_unique _ _ _ _ NC Hc1 Hc0) in R1. destruct (R1 HK) as [_ U].
          eapply (U eq_refl); [reflexivity|exact Hc|]. rewrite <- Ek. apply weight_name_occurs. }
  assert (forall ws rs, mapM (fun kw : ekey * qt => let! e := (match kget (exported_name f (fst kw)) d with
                  | Some q => let! w := wq_call f q (snd kw) in Ok (fst kw, w) | None => Ok kw end) in
                let! t := (let! b := is_weights_quantization_enabled n (fst kw) in
                  if b then let! c := get_attr_config (en_cfgs n) (fst kw) in let! q := toolkit_quantize c (snd kw) in Ok (fst kw, q) else Ok kw) in
                Ok (e, t)) ws = Ok rs ->
     mapM (fun kw => match kget (exported_name f (fst kw)) d with Some q => let! w := wq_call f q (snd kw) in Ok (fst kw, w) | None => Ok kw end) ws = Ok (map fst rs) /\
     mapM (fun kw => let! b := is_weights_quantization_enabled n (fst kw) in
                  if b then let! c := get_attr_config (en_cfgs n) (fst kw) in let! q := toolkit_quantize c (snd kw) in Ok (fst kw, q) else Ok kw) ws = Ok (map snd rs)) as Sp.
  { induction ws as [|kw ws IH]; intros rs0 E; cbn [mapM] in *; [injection E as <-; split; reflexivity|].
    destruct (match kget (exported_name f (fst kw)) d with Some q => _ | None => _ end) as [e|]; [|discriminate]. cbn [bind] in *.
    destruct (bind (is_weights_quantization_enabled n (fst kw)) _) as [t|]; [|discriminate]. cbn [bind] in *.
    destruct (mapM _ ws) as [rs1|] eqn:E1 in E; [|discriminate]. cbn [bind] in E. injection E as <-. destruct (IH _ E1) as [-> ->]. split; reflexivity. }
  destruct (Sp _ _ Er) as [E1 E2]. exists (map fst rs), (map snd rs).
  split; [unfold exported_weights, weight_quantizers; rewrite En1; cbn [bind]; rewrite Ed; cbn [bind]; exact E1|]. split; [exact E2|].
  assert (length rs = length (en_weights n)) as L by (clear - F; induction F; cbn; congruence). split; [rewrite map_length; auto|]. split; [rewrite map_length; auto|].
  intros i k w Hi. clear - F Hi. revert i Hi. induction F as [|kw r ws rs P0 F IH]; intros [|i] Hi; cbn in Hi; try discriminate.
  - injection Hi as ->. destruct P0 as (c & e & t & A & -> & B & C). exists c, e, t. cbn [fst snd] in *. split; [exact A|]. split; [reflexivity|]. split; [reflexivity|]. split; assumption.
  - destruct (IH i Hi) as (c & e & t & X). exists c, e, t. exact X.
Qed.
Print Assumptions exported_weights_match.

(* C87.  The exported activation quantizer of a symmetric or power-of-two method is the quantizer the toolkit runs in the
   framework; it rounds every element to the nearest value of the n-bit grid of the threshold, and agrees with the
   quantizer that chose the threshold except half-way between two grid values. *)
Theorem exported_activation_symmetric : forall f m n p t s xs,
  m = M_sym \/ (m = M_pot /\ power_of_two t) ->
  fp_threshold p = Some t -> fp_signed p = Some s -> 0 < t -> bits_taken f n ->
  exists ys zs, exported_activation f (A_of m) n p xs = Ok ys /\ quantize_node_output f m n p xs = Ok ys /\
    symmetric_quantizer xs n s (Some t) = Ok zs /\
    Forall2 (nearest (step t n s) (code_min n s) (code_max n s)) xs ys /\
    (forall i x y z, nth_error xs i = Some x -> nth_error ys i = Some y -> nth_error zs i = Some z ->
       tie_free (step t n s) x \/ (f = Torch /\ (s = true -> 2 <= n)%Z) -> y == z).
Proof.
  intros f m n p t s xs Hm Et Es Ht Hb. pose proof (bits_supported f n Hb) as Hs.
  assert (m = M_sym \/ (m = M_pot /\ exists k, t == Qpower 2 k)) as Hm' by exact Hm.
  destruct (framework_symmetric_quantizers f m n p t s xs Hm' Et Es Ht Hs) as (ys & zs & E1 & E2 & N1 & _ & A). exists ys, zs.
  split; [|split; [exact E1|split; [exact E2|split; [exact N1|exact A]]]].
  assert (quantize_node_output f m n p xs = quantize_node_output f M_sym n p xs) as Em.
  { destruct Hm as [->|[-> [k Ek]]]; [reflexivity|]. pose proof (pow_is_pot t k Ht Ek) as P.
    unfold quantize_node_output, fake_quant_fn. destruct f; unfold torch_pot, keras_pot; rewrite Et, Es, P; reflexivity. }
  rewrite Em in E1. unfold exported_activation.
  assert (activation_kwargs f (A_of m) n p = Ok (AQ_symmetric (match m with M_pot => true | _ => false end) n [t] (Some s))) as ->.
  { unfold activation_kwargs. destruct Hm as [->|[-> _]]; rewrite Et, Es; destruct f; reflexivity. }
  cbn [bind aq_call].
  assert ((if match m with M_pot => true | _ => false end then is_pot t else negb (Qle_bool t 0)) = true) as ->.
  { destruct Hm as [->|[-> Hp]]; [apply pos_b; exact Ht|apply pot_b; assumption]. }
  cbn [guard bind]. unfold quantize_node_output, fake_quant_fn in E1. destruct f.
  - unfold torch_symmetric in E1. rewrite Et, Es in E1. destruct (torch_symmetric_range s n t) as [[mn mx] sc]. exact E1.
  - unfold keras_symmetric in E1. rewrite Et, Es in E1. destruct (keras_symmetric_range s n t) as [mn mx]. exact E1.
Qed.
Print Assumptions exported_activation_symmetric.

(* C87.  The exported uniform activation quantizer rounds to the nearest value of the grid over the range extended to
   contain zero, whatever the range is, in both frameworks. *)
Theorem exported_activation_uniform : forall f n p lo hi xs,
  fp_min p = Some lo -> fp_max p = Some hi -> lo < hi -> bits_taken f n ->
  exists ys zs kmin, exported_activation f (A_of M_uniform) n p xs = Ok ys /\ uniform_quantizer xs n (Some lo) (Some hi) = Ok zs /\
    (kmin <= 0 <= kmin + (2 ^ n - 1))%Z /\
    Forall2 (nearest (range_step lo hi n) kmin (kmin + (2 ^ n - 1))) xs ys /\
    Forall2 (nearest (range_step lo hi n) kmin (kmin + (2 ^ n - 1))) xs zs /\
    (forall i x y z, nth_error xs i = Some x -> nth_error ys i = Some y -> nth_error zs i = Some z ->
       tie_free (range_step lo hi n) x -> y == z).
Proof.
  intros f n p lo hi xs Ea Eb Hlt Hb. destruct (uni_elem_ok f lo hi n Hlt Hb) as (zp & Hz & Hok & U).
  exists (map (uni_elem f lo hi n) xs), (map (uniform_quantize_elem lo hi n) xs), (- zp)%Z.
  replace (- zp + (2 ^ n - 1))%Z with (2 ^ n - 1 - zp)%Z by lia.
  split; [|split; [reflexivity|split; [lia|split; [apply forall2_map; intro; apply U|split; [apply forall2_map; intro; apply U|]]]]].
  - unfold exported_activation, activation_kwargs. rewrite Ea, Eb. cbn [need bind aq_call]. unfold torch_uniform_ok in Hok. unfold uni_elem, torch_uniform_elem, keras_uniform_elem.
    destruct (fix_range_to_include_zero lo hi n) as [a b]. destruct f.
    + unfold torch_q. rewrite Hok. reflexivity.
    + unfold tf_q. cbn in Hb. rewrite (proj2 (Z.leb_le _ _) (proj1 Hb)), (proj2 (Z.leb_le _ _) (proj2 Hb)). reflexivity.
  - intros i x y z Hx Hy Hzz T. rewrite nth_error_map, Hx in Hy, Hzz. cbn in Hy, Hzz. injection Hy as <-. injection Hzz as <-. apply U. exact T.
Qed.
Print Assumptions exported_activation_uniform.

(* C87.  The exported table quantizer of activations is the one the toolkit runs in the framework, for tables of at most 2^n
   whole numbers of the eight bits; the symmetric table method has no exported activation quantizer. *)
Theorem exported_activation_lut : forall f n p lut t s xs,
  fp_lut p = Some lut -> fp_threshold p = Some t -> fp_signed p = Some s -> 0 < t -> power_of_two t ->
  (1 <= n <= 8)%Z -> (1 <= Z.of_nat (length lut) <= 2 ^ n)%Z ->
  (forall v, In v lut -> exists k, v == inject_Z k /\ (if s then -128 <= k <= 127 else 0 <= k <= 255)%Z) ->
  exists ys, exported_activation f (A_of M_lut) n p xs = Ok ys /\ quantize_node_output f M_lut n p xs = Ok ys /\
    Forall2 (fun x y => exists c, In c lut /\ y == c * t / inject_Z (2 ^ (if s then 7 else 8)) /\
      let v := clip (x / (t + EPS) * inject_Z (2 ^ (if s then 7 else 8))) (if s then -128#1 else 0) (if s then 127#1 else 255#1) in
      forall c', In c' lut -> Qabs (v - c) <= Qabs (v - c')) xs ys /\
    exported_activation f A_lut_sym n p xs = Err E_critical.
Proof.
  intros f n p lut t s xs El Et Es Ht Hp Hn Hl Hv. assert (lut <> []) as Hne by (intros ->; cbn in Hl; lia).
  destruct (framework_lut_quantizer f n p lut t s xs El Et Es Hne) as (ys & E & F & _). exists ys.
  split; [|split; [exact E|split; [exact F|reflexivity]]].
  assert (quantize_node_output f M_lut n p xs = mapM (lut_elem lut t s) xs) as Eq.
  { unfold quantize_node_output, fake_quant_fn, lut_fake_quant. destruct f; rewrite El, Et, Es; reflexivity. }
  rewrite Eq in E. unfold exported_activation.
  assert (activation_kwargs f (A_of M_lut) n p = Ok (AQ_lut n lut [t] (Some s))) as -> by (unfold activation_kwargs; rewrite El, Et, Es; destruct f; reflexivity).
  cbn [bind aq_call]. rewrite (pot_b t Ht Hp).
  assert (lut_ok n s lut = true) as ->; [|exact E].
  unfold lut_ok. rewrite (proj2 (Z.leb_le _ _) (proj2 Hl)). change LUT_VALUES_BITWIDTH with 8%Z. rewrite (proj2 (Z.leb_le _ _) (proj2 Hn)).
  destruct (Nat.eqb_spec (length lut) 0) as [Z0|_]; [lia|]. cbn [negb andb]. apply forallb_forall. intros v Hi. destruct (Hv v Hi) as (k & Ek & Hk).
  assert (is_whole v = true) as ->.
  { unfold is_whole. apply Qeq_bool_iff. rewrite Ek at 1. rewrite (Qfloor_comp _ _ Ek). rewrite Qfloor_Z. reflexivity. }
  cbn [andb]. apply andb_true_intro. destruct s; split; apply Qle_bool_iff; rewrite Ek;
    [change (-128#1) with (inject_Z (-128))|change (127#1) with (inject_Z 127)|change 0 with (inject_Z 0)|change (255#1) with (inject_Z 255)]; rewrite <- Zle_Qle; lia.
Qed.
Print Assumptions exported_activation_lut.

(* C87.  A holder of an activation quantizer is made exactly for nodes with one output whose activation is quantized. *)
Theorem exported_activation_holder : forall enabled outs q a,
  activation_holder enabled outs q = Ok a <-> enabled = true /\ q = Ok a /\ (outs = None \/ outs = Some 1%nat).
Proof.
  intros en outs q a. unfold activation_holder. split.
  - destruct en; [|discriminate]. destruct q as [b|]; [|discriminate]. cbn [bind]. destruct outs as [[|[|k]]|]; cbn [repeat]; try discriminate; intro E; injection E as ->; auto.
  - intros (-> & -> & [->| ->]); reflexivity.
Qed.
Print Assumptions exported_activation_holder.

(* a weight whose name occurs in no name of the configuration: neither the toolkit nor the export goes on *)
Theorem weight_without_config_refused : forall f n s w, In (KN s, w) (en_weights n) -> (forall t c, In (KN t, c) (en_cfgs n) -> ~ occurs s t) ->
  is_ok (toolkit_weights n) = false /\ is_ok (exported_weights f n) = false.
Proof.
  intros f n s w I H.
  assert (G : is_weights_quantization_enabled n (KN s) = Err E_critical).
  { unfold is_weights_quantization_enabled, get_attr_config. replace (named_with s (en_cfgs n)) with (@nil (ekey * acfg)); [reflexivity|].
    unfold named_with. clear I. induction (en_cfgs n) as [|[k c] d IH]; [reflexivity|]. cbn [filter fst].
    assert (Hd : [] = filter (fun kc : ekey * acfg => match fst kc with KN t => str_contains t s | KP _ => false end) d) by (apply IH; intros t c' J; exact (H t c' (or_intror J))).
    destruct k as [i|t]; [exact Hd|]. destruct (str_contains t s) eqn:E; [|exact Hd]. exfalso. exact (H t c (or_introl eq_refl) (proj1 (contains_occurs t s) E)). }
  assert (M : forall B (g : ekey * qt -> result B) l, In (KN s, w) l -> is_ok (g (KN s, w)) = false -> is_ok (mapM g l) = false).
  { intros B g l. induction l as [|x l IH]; intros J Hg; [destruct J|]. cbn. destruct J as [->|J].
    - destruct (g (KN s, w)); [discriminate Hg|reflexivity].
    - destruct (g x); [|reflexivity]. cbn. specialize (IH J Hg). destruct (mapM g l); [discriminate IH|reflexivity]. }
  split; [apply M; [exact I|]; cbn [fst]; rewrite G; reflexivity|].
  unfold exported_weights. assert (Q : is_ok (weight_quantizers f n) = false); [|destruct (weight_quantizers f n); [discriminate Q|reflexivity]].
  assert (A : forall f0, is_ok (foldM (fun d k => let! b := is_weights_quantization_enabled n k in if b then let! q := weights_quantizer f0 n k in Ok (kset k q d) else Ok d) (map fst (en_weights n)) []) = false).
  { intros f0. assert (J : In (KN s) (map fst (en_weights n))) by (change (KN s) with (fst (KN s, w)); now apply in_map).
    revert J. generalize (@nil (ekey * wq)). induction (map fst (en_weights n)) as [|k l IH]; intros d J; [destruct J|]. cbn [foldM]. destruct J as [->|J]; [rewrite G; reflexivity|].
    destruct (is_weights_quantization_enabled n k) as [b|]; [|reflexivity]. cbn [bind]. destruct b; cbn [bind]; [|apply IH; exact J].
    destruct (weights_quantizer f0 n k); [|reflexivity]. cbn [bind]. apply IH. exact J. }
  assert (B : is_ok (attribute_names Keras n) = false).
  { unfold attribute_names. match goal with |- context [mapM ?g ?l] => pose proof (M _ g l I) as K; cbn [fst] in K; rewrite G in K; specialize (K eq_refl); destruct (mapM g l) end; [discriminate K|reflexivity]. }
  unfold weight_quantizers. destruct f; first [exact (A Torch) | destruct (attribute_names Keras n); [discriminate B|reflexivity]].
Qed.
Print Assumptions weight_without_config_refused.
