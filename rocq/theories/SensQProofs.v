(* SensQProofs.v -- lemmas behind the quantizer part of SensProps.v *)
From Coq Require Import String.
From Verif Require Import Base SDict SensModel SensSpec.
Local Open Scope list_scope.
Local Open Scope Z_scope.

Lemma sget_sdel {V} k k' (d : list (string * V)) : sget k (sdel k' d) = if String.eqb k k' then None else sget k d.
Proof.
  unfold sdel. induction d as [|[k0 v0] r IH]; cbn; [destruct (String.eqb k k'); reflexivity|].
  destruct (String.eqb_spec k' k0) as [->|N]; cbn.
  - rewrite IH. destruct (String.eqb_spec k k0) as [->|N1]; reflexivity.
  - rewrite IH. destruct (String.eqb_spec k k0) as [->|N1]; [|reflexivity].
    destruct (String.eqb_spec k0 k') as [->|]; [congruence|reflexivity].
Qed.

Lemma sget_all_none k (c : cfg) : sget k (all_none c) = match sget k c with Some _ => Some None | None => None end.
Proof. unfold all_none. rewrite (sget_map (fun _ => None)). destruct (sget k c); reflexivity. Qed.

Lemma skeys_all_none (c : cfg) : skeys (all_none c) = skeys c.
Proof. apply (skeys_map (fun _ : option Z => None)). Qed.

Lemma sget_empty {V} (c : list (string * V)) : (forall k, sget k c = None) -> c = [].
Proof. destruct c as [|[k v] r]; [reflexivity|]. intro H. specialize (H k). cbn in H. rewrite String.eqb_refl in H. discriminate. Qed.

Lemma qkind_eqb_spec a b : reflect (a = b) (qkind_eqb a b).
Proof. destruct a, b; constructor; congruence. Qed.

(* setting a layer *)
Lemma set_layer_ok s l v : valid_index l v -> set_layer s l v = Ok (qset s (ql_id l) v).
Proof.
  unfold set_layer, valid_index. destruct v as [i|]; [|destruct (ql_kind l); reflexivity].
  destruct (ql_kind l); intro H.
  - rewrite (proj2 (Z.ltb_lt _ _) H). reflexivity.
  - destruct (Z.eqb_spec i 0) as [Z0|NZ]; cbn; [reflexivity|].
    rewrite (proj2 (Z.leb_gt _ _)) by lia. reflexivity.
Qed.

Lemma set_layer_inv s l v s' : set_layer s l v = Ok s' -> valid_index l v /\ s' = qset s (ql_id l) v.
Proof.
  unfold set_layer, valid_index. destruct v as [i|]; destruct (ql_kind l); intro H; try (inversion H; auto; fail).
  - destruct (Z.ltb_spec i (ql_cands l)); [inversion H; auto|discriminate].
  - destruct (Z.eqb_spec i 0) as [Z0|NZ]; cbn in H; [inversion H; auto|].
    destruct (Z.leb_spec (ql_cands l) i); [discriminate|inversion H; auto].
Qed.

(* what the configuration of one node asks of its layers *)
Definition nasks (n : string) (ls : list qlayer) (a w : cfg) (l : qlayer) (v : option Z) : Prop :=
  first_of QAct ls = Some l /\ sget n a = Some v \/ first_of QWt ls = Some l /\ sget n w = Some v.

Lemma first_of_in q ls l : first_of q ls = Some l -> In l ls /\ ql_kind l = q.
Proof.
  intro H. apply find_some in H. destruct H as [I K]. split; [exact I|].
  destruct (qkind_eqb_spec (ql_kind l) q); [assumption|discriminate].
Qed.

Definition rest_of (q : qkind) (n : string) (ls : list qlayer) (c : cfg) (m : string) : option (option Z) :=
  if String.eqb m n then match first_of q ls with Some _ => None | None => sget m c end else sget m c.

(* the layers of a node are configured if the first layers accept their candidates *)
Lemma configure_spec n : forall ls s a w s' a' w' e, NoDup (map ql_id ls) ->
  configure_layers n ls s a w = (s', a', w', e) ->
  (e = None <-> forall l v, nasks n ls a w l v -> valid_index l v) /\
  (e = None ->
    (forall m, sget m a' = rest_of QAct n ls a m) /\ (forall m, sget m w' = rest_of QWt n ls w m) /\
    (forall l v, nasks n ls a w l v -> s' (ql_id l) = v) /\
    (forall k, (forall l v, nasks n ls a w l v -> ql_id l <> k) -> s' k = s k)).
Proof.
  induction ls as [|l r IH]; intros s a w s' a' w' e ND E.
  - cbn in E. inversion E; subst. split; [split; [|reflexivity]; intros _ l v [[X _]|[X _]]; discriminate|].
    intros _. unfold rest_of. cbn. repeat split.
    + intro m. destruct (String.eqb m n); reflexivity.
    + intro m. destruct (String.eqb m n); reflexivity.
    + intros l v [[X _]|[X _]]; discriminate.
  - inversion ND as [|? ? ND1 ND2]; subst. cbn [configure_layers] in E.
    assert (FR : forall q l0, first_of q r = Some l0 -> ql_id l0 <> ql_id l).
    { intros q l0 F X. apply ND1. rewrite <- X. apply in_map. apply (first_of_in q _ _ F). }
    destruct (ql_kind l) eqn:KL.
    + (* activation layer *)
      assert (FA : first_of QAct (l :: r) = Some l) by (unfold first_of; cbn; rewrite KL; reflexivity).
      assert (FW : first_of QWt (l :: r) = first_of QWt r) by (unfold first_of; cbn; rewrite KL; reflexivity).
      destruct (sget n a) as [v|] eqn:GA.
      * destruct (set_layer s l v) as [s1|e1] eqn:SL.
        -- apply set_layer_inv in SL. destruct SL as [VI ->].
           destruct (IH _ _ _ _ _ _ _ ND2 E) as [IH1 IH2]. clear IH.
           assert (NA : forall l0 v0, nasks n r (sdel n a) w l0 v0 <-> first_of QWt r = Some l0 /\ sget n w = Some v0).
           { intros l0 v0. unfold nasks. rewrite sget_sdel, String.eqb_refl. split; [intros [[_ X]|X]; [discriminate|exact X]|auto]. }
           split.
           ++ rewrite IH1. split; intros H l0 v0.
              ** intros [[A1 A2]|[A1 A2]]; [rewrite FA in A1; congruence|]. apply H, NA. rewrite <- FW. auto.
              ** intro A. apply H. apply NA in A. right. rewrite FW. exact A.
           ++ intro N. destruct (IH2 N) as [R1 [R2 [R3 R4]]]. repeat split.
              ** intro m. rewrite R1. unfold rest_of. rewrite FA, sget_sdel.
                 destruct (String.eqb m n); [destruct (first_of QAct r); reflexivity|reflexivity].
              ** intro m. rewrite R2. unfold rest_of. rewrite FW. reflexivity.
              ** intros l0 v0 [[A1 A2]|[A1 A2]].
                 --- rewrite FA in A1. inversion A1; subst l0. rewrite A2 in GA. inversion GA; subst v0.
                     rewrite R4. { unfold qset. rewrite Nat.eqb_refl. reflexivity. }
                     intros l1 v1 A. apply NA in A. apply (FR QWt). apply A.
                 --- rewrite FW in A1. apply R3, NA. auto.
              ** intros k Hk. rewrite R4.
                 --- unfold qset. destruct (Nat.eqb_spec k (ql_id l)) as [X|X]; [|reflexivity].
                     exfalso. apply (Hk l v); [left; auto|auto].
                 --- intros l0 v0 A. apply NA in A. apply (Hk l0 v0). right. rewrite FW. exact A.
        -- inversion E; subst. split; [|discriminate]. split; [discriminate|]. intro H.
           rewrite set_layer_ok in SL; [discriminate|]. apply (H l v). left. auto.
      * destruct (IH _ _ _ _ _ _ _ ND2 E) as [IH1 IH2]. clear IH.
        assert (NA : forall l0 v0, nasks n (l :: r) a w l0 v0 <-> nasks n r a w l0 v0).
        { intros l0 v0. unfold nasks. rewrite FW, GA. split; (intros [[_ X]|X]; [discriminate|auto]). }
        split.
        -- rewrite IH1. split; intros H l0 v0 A; apply H; apply NA; exact A.
        -- intro N. destruct (IH2 N) as [R1 [R2 [R3 R4]]]. repeat split.
           ++ intro m. rewrite R1. unfold rest_of. rewrite FA. destruct (String.eqb_spec m n) as [->|]; [|reflexivity].
              rewrite GA. destruct (first_of QAct r); reflexivity.
           ++ intro m. rewrite R2. unfold rest_of. rewrite FW. reflexivity.
           ++ intros l0 v0 A. apply R3, NA. exact A.
           ++ intros k Hk. apply R4. intros l0 v0 A. apply (Hk l0 v0). apply NA. exact A.
    + (* weights layer *)
      assert (FA : first_of QWt (l :: r) = Some l) by (unfold first_of; cbn; rewrite KL; reflexivity).
      assert (FW : first_of QAct (l :: r) = first_of QAct r) by (unfold first_of; cbn; rewrite KL; reflexivity).
      assert (E' : match sget n w with
        | Some v => match set_layer s l v with Ok s' => configure_layers n r s' a (sdel n w) | Err e => (s, a, w, Some e) end
        | None => configure_layers n r s a w end = (s', a', w', e)) by (destruct (sget n a); exact E).
      clear E. rename E' into E.
      destruct (sget n w) as [v|] eqn:GA.
      * destruct (set_layer s l v) as [s1|e1] eqn:SL.
        -- apply set_layer_inv in SL. destruct SL as [VI ->].
           destruct (IH _ _ _ _ _ _ _ ND2 E) as [IH1 IH2]. clear IH.
           assert (NA : forall l0 v0, nasks n r a (sdel n w) l0 v0 <-> first_of QAct r = Some l0 /\ sget n a = Some v0).
           { intros l0 v0. unfold nasks. rewrite sget_sdel, String.eqb_refl. split; [intros [X|[_ X]]; [exact X|discriminate]|auto]. }
           split.
           ++ rewrite IH1. split; intros H l0 v0.
              ** intros [[A1 A2]|[A1 A2]]; [|rewrite FA in A1; congruence]. apply H, NA. rewrite <- FW. auto.
              ** intro A. apply H. apply NA in A. left. rewrite FW. exact A.
           ++ intro N. destruct (IH2 N) as [R1 [R2 [R3 R4]]]. repeat split.
              ** intro m. rewrite R1. unfold rest_of. rewrite FW. reflexivity.
              ** intro m. rewrite R2. unfold rest_of. rewrite FA, sget_sdel.
                 destruct (String.eqb m n); [destruct (first_of QWt r); reflexivity|reflexivity].
              ** intros l0 v0 [[A1 A2]|[A1 A2]].
                 --- rewrite FW in A1. apply R3, NA. auto.
                 --- rewrite FA in A1. inversion A1; subst l0. rewrite A2 in GA. inversion GA; subst v0.
                     rewrite R4. { unfold qset. rewrite Nat.eqb_refl. reflexivity. }
                     intros l1 v1 A. apply NA in A. apply (FR QAct). apply A.
              ** intros k Hk. rewrite R4.
                 --- unfold qset. destruct (Nat.eqb_spec k (ql_id l)) as [X|X]; [|reflexivity].
                     exfalso. apply (Hk l v); [right; auto|auto].
                 --- intros l0 v0 A. apply NA in A. apply (Hk l0 v0). left. rewrite FW. exact A.
        -- inversion E; subst. split; [|discriminate]. split; [discriminate|]. intro H.
           rewrite set_layer_ok in SL; [discriminate|]. apply (H l v). right. auto.
      * destruct (IH _ _ _ _ _ _ _ ND2 E) as [IH1 IH2]. clear IH.
        assert (NA : forall l0 v0, nasks n (l :: r) a w l0 v0 <-> nasks n r a w l0 v0).
        { intros l0 v0. unfold nasks. rewrite FW, GA. split; (intros [X|[_ X]]; [auto|discriminate]). }
        split.
        -- rewrite IH1. split; intros H l0 v0 A; apply H; apply NA; exact A.
        -- intro N. destruct (IH2 N) as [R1 [R2 [R3 R4]]]. repeat split.
           ++ intro m. rewrite R1. unfold rest_of. rewrite FW. reflexivity.
           ++ intro m. rewrite R2. unfold rest_of. rewrite FA. destruct (String.eqb_spec m n) as [->|]; [|reflexivity].
              rewrite GA. destruct (first_of QWt r); reflexivity.
           ++ intros l0 v0 A. apply R3, NA. exact A.
           ++ intros k Hk. apply R4. intros l0 v0 A. apply (Hk l0 v0). apply NA. exact A.
Qed.

(* layers of different names are different *)
Lemma proper_node conf n ls : NoDup (map ql_id (concat (map snd conf))) -> sget n conf = Some ls -> NoDup (map ql_id ls).
Proof.
  induction conf as [|[m ks] r IH]; cbn; [discriminate|]. rewrite map_app. intros ND H.
  destruct (String.eqb n m).
  - inversion H; subst. clear - ND. induction (map ql_id ls) as [|x t IH]; [constructor|].
    cbn in ND. inversion ND; subst. constructor; [intro X; apply H1; apply in_or_app; left; exact X|auto].
  - apply IH; [|exact H]. clear - ND. induction (map ql_id ks) as [|x t IH]; [exact ND|]. cbn in ND. inversion ND; auto.
Qed.

Lemma sget_layer_in conf n (ls : list qlayer) l : sget n conf = Some ls -> In l ls -> In (ql_id l) (map ql_id (concat (map snd conf))).
Proof.
  intros H I. apply in_map, in_concat. exists ls. split; [|exact I].
  apply in_map_iff. exists (n, ls). split; [reflexivity|apply sget_in; exact H].
Qed.

Lemma proper_apart conf n1 n2 (ls1 ls2 : list qlayer) l1 l2 : NoDup (map ql_id (concat (map snd conf))) ->
  sget n1 conf = Some ls1 -> sget n2 conf = Some ls2 -> In l1 ls1 -> In l2 ls2 -> ql_id l1 = ql_id l2 -> n1 = n2.
Proof.
  induction conf as [|[m ks] r IH]; cbn; [discriminate|]. rewrite map_app. intros ND H1 H2 I1 I2 X.
  assert (D : forall x, In x (map ql_id ks) -> ~ In x (map ql_id (concat (map snd r)))).
  { clear - ND. induction (map ql_id ks) as [|y t IH]; cbn; [tauto|]. cbn in ND. inversion ND; subst.
    intros x [<-|I] J; [apply H1; apply in_or_app; right; exact J|]. exact (IH H2 x I J). }
  assert (ND2 : NoDup (map ql_id (concat (map snd r)))).
  { clear - ND. induction (map ql_id ks) as [|x t IH]; [exact ND|]. cbn in ND. inversion ND; auto. }
  destruct (String.eqb_spec n1 m) as [->|N1]; destruct (String.eqb_spec n2 m) as [->|N2].
  - reflexivity.
  - exfalso. inversion H1; subst. apply (D (ql_id l1)); [apply in_map; exact I1|]. rewrite X. eapply sget_layer_in; eassumption.
  - exfalso. inversion H2; subst. apply (D (ql_id l2)); [apply in_map; exact I2|]. rewrite <- X. eapply sget_layer_in; eassumption.
  - apply IH; assumption.
Qed.

(* all names *)
Lemma apply_names_spec conf : proper conf -> forall names s a w s' e, NoDup names ->
  (forall n, sget n a <> None \/ sget n w <> None -> In n names) ->
  apply_names conf names s a w = (s', e) ->
  (e = None -> serves conf QAct a /\ serves conf QWt w /\
     (forall k v, asks conf a w k v -> s' k = v) /\
     (forall k, (forall v, ~ asks conf a w k v) -> s' k = s k)) /\
  (serves conf QAct a -> serves conf QWt w -> (forall n, In n names -> sget n a <> None \/ sget n w <> None) -> e = None).
Proof.
  intros [PK PI]. induction names as [|n r IH]; intros s a w s' e ND COV E; cbn [apply_names] in E.
  - assert (A0 : forall k, sget k a = None).
    { intro k. destruct (sget k a) eqn:X; [|reflexivity]. exfalso. apply (COV k). left. congruence. }
    assert (W0 : forall k, sget k w = None).
    { intro k. destruct (sget k w) eqn:X; [|reflexivity]. exfalso. apply (COV k). right. congruence. }
    rewrite (sget_empty a A0), (sget_empty w W0) in E. inversion E; subst. split; [|reflexivity]. intros _.
    split; [|split; [|split]].
    + intros k v X. rewrite A0 in X. discriminate.
    + intros k v X. rewrite W0 in X. discriminate.
    + intros k v [n [ls [l [_ [_ [[_ X]|[_ X]]]]]]]; [rewrite A0 in X|rewrite W0 in X]; discriminate.
    + reflexivity.
  - inversion ND as [|? ? N1 N2]; subst.
    destruct (sget n conf) as [ls|] eqn:C.
    2: { inversion E; subst. split; [discriminate|]. intros SA SW HN.
         destruct (HN n (or_introl eq_refl)) as [X|X].
         - destruct (sget n a) as [v|] eqn:G; [|congruence]. destruct (SA n v G) as [ls [l [Y _]]]. congruence.
         - destruct (sget n w) as [v|] eqn:G; [|congruence]. destruct (SW n v G) as [ls [l [Y _]]]. congruence. }
    pose proof (proper_node conf n ls PI C) as NDL.
    destruct (configure_layers n ls s a w) as [[[s1 a1] w1] e1] eqn:CL.
    destruct (configure_spec n ls s a w s1 a1 w1 e1 NDL CL) as [V1 V2].
    destruct e1 as [e1|].
    { inversion E; subst. split; [discriminate|]. intros SA SW HN. exfalso.
      assert (Some e1 = None) as Y; [|discriminate]. apply V1. intros l v [[F G]|[F G]].
      - destruct (SA n v G) as [ls' [l' [Y1 [Y2 Y3]]]]. rewrite C in Y1. inversion Y1; subst. congruence.
      - destruct (SW n v G) as [ls' [l' [Y1 [Y2 Y3]]]]. rewrite C in Y1. inversion Y1; subst. congruence. }
    pose proof (proj1 V1 eq_refl) as VALID. destruct (V2 eq_refl) as [RA [RW [RS RK]]]. clear V1 V2.
    split.
    + intros ->. 
      (* the rest has to cover what is left, otherwise the leftover check fails *)
      assert (LEFT : forall m, sget m a1 <> None \/ sget m w1 <> None -> In m r \/ m = n).
      { intros m [X|X].
        - destruct (String.eqb_spec m n) as [->|NE]; [auto|]. left. destruct (COV m) as [<-|I]; [|congruence|exact I].
          left. rewrite RA in X. unfold rest_of in X. destruct (String.eqb m n); [|exact X]. destruct (first_of QAct ls); [congruence|exact X].
        - destruct (String.eqb_spec m n) as [->|NE]; [auto|]. left. destruct (COV m) as [<-|I]; [|congruence|exact I].
          right. rewrite RW in X. unfold rest_of in X. destruct (String.eqb m n); [|exact X]. destruct (first_of QWt ls); [congruence|exact X]. }
      assert (GONE : sget n a1 = None /\ sget n w1 = None).
      { clear - E N1. revert s1 a1 w1 E. induction r as [|m r IHr]; intros s1 a1 w1 E; cbn in E.
        - destruct a1, w1; inversion E; auto.
        - destruct (sget m conf) as [ks|]; [|inversion E].
          destruct (configure_layers m ks s1 a1 w1) as [[[s2 a2] w2] e2] eqn:CL. destruct e2; [inversion E|].
          assert (N1' : ~ In n r) by (intro; apply N1; right; assumption).
          assert (NM : n <> m) by (intro; apply N1; left; congruence).
          destruct (IHr N1' s2 a2 w2 E) as [G1 G2].
          assert (KEEP : forall ks s a w s' a' w' e, configure_layers m ks s a w = (s', a', w', e) ->
            sget n a' = sget n a /\ sget n w' = sget n w).
          { clear - NM. induction ks as [|l ks IHk]; intros s a w s' a' w' e X; cbn [configure_layers] in X; [inversion X; auto|].
            assert (D : forall d : cfg, sget n (sdel m d) = sget n d).
            { intro d. rewrite sget_sdel. destruct (String.eqb_spec n m); [congruence|reflexivity]. }
            destruct (ql_kind l), (sget m a) as [va|], (sget m w) as [vw|]; try (apply IHk in X; exact X);
              match type of X with context [set_layer s l ?v] => destruct (set_layer s l v) end;
              try (inversion X; auto; fail); apply IHk in X; rewrite ?D in X; exact X. }
          destruct (KEEP _ _ _ _ _ _ _ _ CL) as [K1 K2]. rewrite <- K1, <- K2. auto. }
      destruct GONE as [GA GW].
      destruct (IH s1 a1 w1 s' None N2) as [I1 _]; [|exact E|].
      { intros m X. destruct (LEFT m X) as [I| ->]; [exact I|]. destruct X; congruence. }
      destruct (I1 eq_refl) as [SA [SW [AS KS]]].
      assert (FA : forall v, sget n a = Some v -> exists l, first_of QAct ls = Some l).
      { intros v G. rewrite RA in GA. unfold rest_of in GA. rewrite String.eqb_refl in GA.
        destruct (first_of QAct ls) as [l|]; [eauto|congruence]. }
      assert (FW : forall v, sget n w = Some v -> exists l, first_of QWt ls = Some l).
      { intros v G. rewrite RW in GW. unfold rest_of in GW. rewrite String.eqb_refl in GW.
        destruct (first_of QWt ls) as [l|]; [eauto|congruence]. }
      assert (OA : forall m, m <> n -> sget m a1 = sget m a).
      { intros m NE. rewrite RA. unfold rest_of. destruct (String.eqb_spec m n); [congruence|reflexivity]. }
      assert (OW : forall m, m <> n -> sget m w1 = sget m w).
      { intros m NE. rewrite RW. unfold rest_of. destruct (String.eqb_spec m n); [congruence|reflexivity]. }
      assert (MOVE : forall k v, asks conf a1 w1 k v -> asks conf a w k v).
      { intros k v [m [ks [l [C1 [KID [[F G]|[F G]]]]]]]; exists m, ks, l.
        - assert (m <> n) by (intros ->; congruence). rewrite <- (OA m) by assumption. repeat split; auto.
        - assert (m <> n) by (intros ->; congruence). rewrite <- (OW m) by assumption. repeat split; auto. }
      split; [|split; [|split]].
      * intros m v G. destruct (string_dec m n) as [->|NE].
        -- destruct (FA v G) as [l F]. exists ls, l. repeat split; auto. apply VALID. left. auto.
        -- apply SA. rewrite OA; assumption.
      * intros m v G. destruct (string_dec m n) as [->|NE].
        -- destruct (FW v G) as [l F]. exists ls, l. repeat split; auto. apply VALID. right. auto.
        -- apply SW. rewrite OW; assumption.
      * intros k v [m [ks [l [C1 [KID K]]]]]. destruct (string_dec m n) as [->|NE].
        -- rewrite C in C1. inversion C1; subst ks. rewrite (KS k).
           ++ subst k. apply RS. exact K.
           ++ intros v' [m' [ks' [l' [C' [KID' K']]]]].
              assert (m' = n).
              { apply (proper_apart conf m' n ks' ls l' l PI C' C); [destruct K' as [[F _]|[F _]]; apply (first_of_in _ _ _ F)|
                  destruct K as [[F _]|[F _]]; apply (first_of_in _ _ _ F)|congruence]. }
              subst m'. destruct K' as [[_ G]|[_ G]]; congruence.
        -- apply AS. exists m, ks, l. repeat split; auto. rewrite OA, OW by assumption. exact K.
      * intros k NA. rewrite (KS k).
        -- apply RK. intros l v K KID. apply (NA v). exists n, ls, l. repeat split; auto.
        -- intros v A. apply (NA v). apply MOVE. exact A.
    + intros SA SW HN.
      assert (EA : forall v, sget n a = Some v -> sget n a1 = None).
      { intros v G. rewrite RA. unfold rest_of. rewrite String.eqb_refl. destruct (SA n v G) as [ls' [l' [Y1 [Y2 _]]]].
        rewrite C in Y1. inversion Y1; subst. rewrite Y2. reflexivity. }
      assert (EW : forall v, sget n w = Some v -> sget n w1 = None).
      { intros v G. rewrite RW. unfold rest_of. rewrite String.eqb_refl. destruct (SW n v G) as [ls' [l' [Y1 [Y2 _]]]].
        rewrite C in Y1. inversion Y1; subst. rewrite Y2. reflexivity. }
      assert (SUBA : forall m v, sget m a1 = Some v -> m <> n /\ sget m a = Some v).
      { intros m v G. destruct (string_dec m n) as [->|NE].
        - exfalso. destruct (sget n a) as [u|] eqn:X; [rewrite (EA u eq_refl) in G; discriminate|].
          rewrite RA in G. unfold rest_of in G. rewrite String.eqb_refl, X in G. destruct (first_of QAct ls); discriminate.
        - split; [exact NE|]. rewrite RA in G. unfold rest_of in G. destruct (String.eqb_spec m n); [congruence|exact G]. }
      assert (SUBW : forall m v, sget m w1 = Some v -> m <> n /\ sget m w = Some v).
      { intros m v G. destruct (string_dec m n) as [->|NE].
        - exfalso. destruct (sget n w) as [u|] eqn:X; [rewrite (EW u eq_refl) in G; discriminate|].
          rewrite RW in G. unfold rest_of in G. rewrite String.eqb_refl, X in G. destruct (first_of QWt ls); discriminate.
        - split; [exact NE|]. rewrite RW in G. unfold rest_of in G. destruct (String.eqb_spec m n); [congruence|exact G]. }
      destruct (IH s1 a1 w1 s' e N2) as [_ I2]; [|exact E|].
      { intros m [X|X].
        - destruct (sget m a1) as [v|] eqn:G; [|congruence]. destruct (SUBA m v G) as [NE G'].
          destruct (COV m) as [<-|I]; [left; congruence|congruence|exact I].
        - destruct (sget m w1) as [v|] eqn:G; [|congruence]. destruct (SUBW m v G) as [NE G'].
          destruct (COV m) as [<-|I]; [right; congruence|congruence|exact I]. }
      apply I2.
      * intros m v G. apply SA. apply (SUBA m v G).
      * intros m v G. apply SW. apply (SUBW m v G).
      * intros m I. assert (m <> n) by (intros ->; contradiction).
        rewrite RA, RW. unfold rest_of. destruct (String.eqb_spec m n); [congruence|]. apply HN. right. exact I.
Qed.

Lemma apply_config_spec ord conf s a w s' e : set_order ord -> proper conf ->
  apply_config ord conf s a w = (s', e) ->
  (e = None <-> serves conf QAct a /\ serves conf QWt w) /\
  (e = None -> (forall k v, asks conf a w k v -> s' k = v) /\ (forall k, (forall v, ~ asks conf a w k v) -> s' k = s k)).
Proof.
  intros O P E. destruct (O (skeys a ++ skeys w)) as [ND IN].
  assert (KEYS : forall n, In n (ord (skeys a ++ skeys w)) <-> (sget n a <> None \/ sget n w <> None)).
  { intro n. rewrite IN, in_app_iff, !sget_key. split.
    - intros [[v X]|[v X]]; [left|right]; congruence.
    - intros [X|X]; [left; destruct (sget n a)|right; destruct (sget n w)]; eauto; congruence. }
  destruct (apply_names_spec conf P _ s a w s' e ND (fun n H => proj2 (KEYS n) H) E) as [H1 H2].
  split; [split|].
  - intro N. destruct (H1 N) as [A [B _]]. auto.
  - intros [A B]. apply H2; auto. intros n I. apply KEYS. exact I.
  - intro N. destruct (H1 N) as [_ [_ X]]. exact X.
Qed.

Lemma asks_all_none conf a w k v : asks conf (all_none a) (all_none w) k v <-> v = None /\ exists u, asks conf a w k u.
Proof.
  split.
  - intros [n [ls [l [C [K [[F G]|[F G]]]]]]]; rewrite sget_all_none in G.
    + destruct (sget n a) as [u|] eqn:X; [|discriminate]. split; [congruence|]. exists u, n, ls, l. repeat split; auto.
    + destruct (sget n w) as [u|] eqn:X; [|discriminate]. split; [congruence|]. exists u, n, ls, l. repeat split; auto.
  - intros [-> [u [n [ls [l [C [K [[F G]|[F G]]]]]]]]]; exists n, ls, l; repeat split; auto; rewrite !sget_all_none, G; auto.
Qed.

Lemma serves_all_none conf q c : serves conf q c -> serves conf q (all_none c).
Proof.
  intros S n v G. rewrite sget_all_none in G. destruct (sget n c) as [u|] eqn:X; [|discriminate].
  destruct (S n u X) as [ls [l [A [B _]]]]. exists ls, l. inversion G. repeat split; auto.
Qed.

(* a layer is asked to be set or not *)
Lemma list_decide {A} (P : A -> Prop) (l : list A) : (forall x, P x \/ ~ P x) -> (exists x, In x l /\ P x) \/ (forall x, In x l -> ~ P x).
Proof.
  intro D. induction l as [|x r [[y [I H]]|N]]; [right; intros x []|left; exists y; split; [right|]; assumption|].
  destruct (D x) as [H|H]; [left; exists x; split; [left; reflexivity|exact H]|].
  right. intros y [<-|I]; [exact H|apply N; exact I].
Qed.

Lemma asks_or_not conf a w k : NoDup (skeys conf) -> (exists v, asks conf a w k v) \/ (forall v, ~ asks conf a w k v).
Proof.
  intro ND.
  destruct (list_decide (fun nls : string * list qlayer => exists l v, ql_id l = k /\ nasks (fst nls) (snd nls) a w l v) conf) as [[[n ls] [I [l [v [K H]]]]]|N].
  - intros [n ls]. cbn [fst snd].
    assert (D : forall q c, (exists l v, ql_id l = k /\ first_of q ls = Some l /\ sget n c = Some v) \/
                            ~ (exists l (v : option Z), ql_id l = k /\ first_of q ls = Some l /\ sget n c = Some v)).
    { intros q c. destruct (first_of q ls) as [l|] eqn:F; [|right; intros [l [v [_ [X _]]]]; discriminate].
      destruct (Nat.eq_dec (ql_id l) k) as [K|K]; [|right; intros [l' [v [K' [X _]]]]; congruence].
      destruct (sget n c) as [v|] eqn:G; [left; exists l, v; auto|right; intros [l' [v [_ [_ X]]]]; discriminate]. }
    destruct (D QAct a) as [[l [v [K [F G]]]]|NA]; [left; exists l, v; split; [exact K|left; auto]|].
    destruct (D QWt w) as [[l [v [K [F G]]]]|NW]; [left; exists l, v; split; [exact K|right; auto]|].
    right. intros [l [v [K [[F G]|[F G]]]]]; [apply NA|apply NW]; exists l, v; auto.
  - left. exists v, n, ls, l. split; [apply in_sget; assumption|auto].
  - right. intros v [n [ls [l [C [K H]]]]]. apply (N (n, ls) (sget_in _ _ _ C)). exists l, v. auto.
Qed.

Lemma stands_for_unique conf a w s s' : NoDup (skeys conf) -> stands_for conf a w s -> stands_for conf a w s' -> forall k, s k = s' k.
Proof.
  intros ND [A N] [A' N'] k. destruct (asks_or_not conf a w k ND) as [[v H]|H].
  - rewrite (A k v H), (A' k v H). reflexivity.
  - rewrite (N k H), (N' k H). reflexivity.
Qed.

(* one evaluation *)
Lemma compute_metric_spec {V} ord conf (metric : qstate -> result V) s a w : set_order ord -> proper conf ->
  applicable conf a w -> some_value a || some_value w = true -> disabled s ->
  exists s1 s2, compute_metric ord conf metric s a w = (s2, metric s1) /\ stands_for conf a w s1 /\ disabled s2.
Proof.
  intros O P [NA [NW [SA SW]]] SV D. unfold compute_metric. rewrite SV. cbn [negb].
  destruct (apply_config ord conf s a w) as [s1 e] eqn:E1.
  destruct (apply_config_spec ord conf s a w s1 e O P E1) as [I1 H1].
  assert (X : e = None) by (apply I1; auto). subst e. destruct (H1 eq_refl) as [A1 K1].
  destruct (apply_config ord conf s1 (all_none a) (all_none w)) as [s2 e] eqn:E2.
  destruct (apply_config_spec ord conf s1 _ _ s2 e O P E2) as [I2 H2].
  assert (X : e = None) by (apply I2; split; apply serves_all_none; assumption). subst e. destruct (H2 eq_refl) as [A2 K2].
  exists s1, s2. split; [reflexivity|]. split.
  - split; [exact A1|]. intros k N. rewrite K1 by exact N. apply D.
  - intro k. destruct (asks_or_not conf a w k (proj1 P)) as [[v H]|H].
    + apply A2. apply asks_all_none. split; [reflexivity|eauto].
    + rewrite K2; [rewrite K1 by exact H; apply D|]. intros v X. apply asks_all_none in X. destruct X as [_ [u X]]. exact (H u X).
Qed.

Lemma evaluations_spec {V} ord conf (metric : qstate -> result V) : set_order ord -> proper conf -> observes metric ->
  forall reqs s, disabled s ->
  (forall a w, In (a, w) reqs -> applicable conf a w \/ some_value a || some_value w = false) ->
  disabled (fst (evaluations ord conf metric s reqs)) /\
  Forall2 (fun aw v => if some_value (fst aw) || some_value (snd aw)
                       then forall s1, stands_for conf (fst aw) (snd aw) s1 -> v = metric s1
                       else v = Err E_value) reqs (snd (evaluations ord conf metric s reqs)).
Proof.
  intros O P OB. induction reqs as [|[a w] r IH]; intros s D H; [split; [exact D|constructor]|].
  cbn [evaluations].
  destruct (some_value a || some_value w) eqn:SV.
  - destruct (H a w (or_introl eq_refl)) as [AP|]; [|congruence].
    destruct (compute_metric_spec ord conf metric s a w O P AP SV D) as [s1 [s2 [E [ST D2]]]]. rewrite E.
    destruct (evaluations ord conf metric s2 r) as [s3 vs] eqn:ER.
    destruct (IH s2 D2 (fun a w I => H a w (or_intror I))) as [I1 I2]. rewrite ER in I1, I2. cbn [fst snd] in *.
    split; [exact I1|]. constructor; [|exact I2]. cbn [fst snd]. rewrite SV. intros s1' ST'. apply OB.
    exact (stands_for_unique conf a w s1 s1' (proj1 P) ST ST').
  - assert (E : compute_metric ord conf metric s a w = (s, Err E_value)) by (unfold compute_metric; rewrite SV; reflexivity).
    rewrite E. destruct (evaluations ord conf metric s r) as [s3 vs] eqn:ER.
    destruct (IH s D (fun a w I => H a w (or_intror I))) as [I1 I2]. rewrite ER in I1, I2. cbn [fst snd] in *.
    split; [exact I1|]. constructor; [|exact I2]. cbn [fst snd]. rewrite SV. reflexivity.
Qed.

Lemma disable_all_spec conf : forall s, exists s', disable_all conf s = Ok s' /\
  (forall l, In l (concat (map snd conf)) -> s' (ql_id l) = None) /\ (forall k, s k = None -> s' k = None).
Proof.
  unfold disable_all. induction (concat (map snd conf)) as [|l r IH]; intro s; cbn [foldM].
  - exists s. repeat split; auto. intros l [].
  - rewrite set_layer_ok by exact Logic.I. cbn [bind]. destruct (IH (qset s (ql_id l) None)) as [s' [E [H K]]].
    exists s'. split; [exact E|]. split.
    + intros l' [<-|I]; [|apply H; exact I]. apply K. unfold qset. rewrite Nat.eqb_refl. reflexivity.
    + intros k X. apply K. unfold qset. destruct (Nat.eqb k (ql_id l)); [reflexivity|exact X].
Qed.
