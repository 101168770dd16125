(* ExportNodeProofs.v -- one weight, the names of the weights, and the weights of a node. *)
From Coq Require Import String Ascii.
From Verif Require Import Nd.
From Verif Require Import Base RoundQ RoundQFacts QuantModel QuantProofs QuantSpec QuantLemmas LutModel LutProofs FakeQModel FakeQSpec FakeQProofs FakeQProps FilterModel FilterProps ExportModel ExportSpec ExportProofs.
From Coq Require Import Qround Qpower Qabs Lia Lqa.
Open Scope Q_scope.

Lemma forallb_flatten t g : (forall idx, inb (q_shape t) idx -> g (q_at t idx) = true) -> forallb g (flatten_list t) = true.
Proof. intro H. apply forallb_forall. intros v Hv. destruct (flatten_in t v Hv) as (idx & Hi & ->). apply H. exact Hi. Qed.
Lemma pos_b v : 0 < v -> negb (Qle_bool v 0) = true.
Proof. intro H. destruct (Qle_bool v 0) eqn:E; [apply Qle_bool_iff in E; lra|reflexivity]. Qed.
Lemma pot_b v : 0 < v -> power_of_two v -> is_pot v = true.
Proof. intros H [k E]. unfold is_pot. rewrite (pow_is_pot v k H E). reflexivity. Qed.
Lemma pot_ok_true pc t : every t (fun v => 0 < v) -> every t power_of_two -> (pc = true \/ prod (q_shape t) = 1%nat) -> pot_ok pc t = Ok true.
Proof.
  intros H1 H2 H3. unfold pot_ok.
  assert (forall l, (forall v, In v l -> 0 < v /\ power_of_two v) -> mapM (fun v => need (threshold_is_power_of_two v) E_value) l = Ok (repeat true (length l))) as M.
  { induction l as [|v l IH]; intro H; [reflexivity|]. cbn [mapM length repeat]. destruct (H v (or_introl eq_refl)) as [P [k E]]. rewrite (pow_is_pot v k P E). cbn [need bind].
    rewrite IH by (intros; apply H; right; assumption). reflexivity. }
  rewrite M by (intros v Hv; destruct (flatten_in t v Hv) as (idx & Hi & ->); auto). cbn [bind]. rewrite repeat_length, flatten_length.
  assert (forallb (fun b : bool => b) (repeat true (prod (q_shape t))) = true) as F by (apply forallb_forall; intros b Hb; apply repeat_spec in Hb; exact Hb). rewrite F.
  destruct H3 as [H3|H3]; rewrite H3; [reflexivity|]. rewrite Bool.orb_true_r. reflexivity.
Qed.

Lemma combine_map_same {A B C} (g : A -> B) (h : A -> C) l : combine (map g l) (map h l) = map (fun k => (g k, h k)) l.
Proof. induction l; cbn; congruence. Qed.

Section One.
  Variables (f : fw) (c : acfg) (w : qt).
  Notation pc := (ac_per_channel c).
  Lemma gw_one p q : goes_with c w p -> wq_per_channel q = pc -> one_each q (flatten_list p) = true.
  Proof. intros G E. unfold one_each. rewrite E, (gw_channels c w p G). destruct pc; reflexivity. Qed.
  Lemma gw_has_axis p q : goes_with c w p -> wq_per_channel q = pc -> wq_axis q = ac_axis c -> has_axis q = true.
  Proof. intros G E1 E2. unfold has_axis. rewrite E1, E2. destruct pc eqn:E; [|reflexivity]. destruct (gw_axis c w p G E) as (a & -> & _). reflexivity. Qed.
  Lemma gw_chan_ok p q : goes_with c w p -> wq_per_channel q = pc -> wq_axis q = ac_axis c -> chan_ok q (flatten_list p) (q_shape w) = true.
  Proof.
    intros G E1 E2. unfold chan_ok. rewrite E1, E2, (gw_channels c w p G). destruct pc eqn:E; [|reflexivity].
    destruct (gw_axis c w p G E) as (a & -> & L & _). rewrite Nat.eqb_refl, (proj2 (Nat.ltb_lt _ _) L). reflexivity.
  Qed.
  Lemma gw_single p : goes_with c w p -> (pc || Nat.eqb (prod (q_shape p)) 1) = true.
  Proof. intro G. rewrite <- flatten_length, (gw_channels c w p G). destruct pc; reflexivity. Qed.
  Lemma gw_keras p q : goes_with c w p -> wq_per_channel q = pc -> wq_axis q = ac_axis c -> wq_rank q = Some (length (q_shape p)) ->
    wq_per_channel q = true -> exists a, wq_axis q = Some a /\ (a < length (q_shape w))%nat /\ wq_rank q = Some (length (q_shape w)) /\ nth a (q_shape w) 0%nat = length (flatten_list p).
  Proof.
    intros G E1 E2 E3 E. rewrite E1 in E. destruct (gw_axis c w p G E) as (a & Ea & L & El). exists a. rewrite E2, E3, El.
    split; [exact Ea|]. split; [exact L|]. split; [reflexivity|]. rewrite (gw_channels c w p G), E, Ea. reflexivity.
  Qed.
  Lemma gw_pick_k p q idx : goes_with c w p -> inb (q_shape w) idx -> wq_per_channel q = pc -> wq_axis q = ac_axis c ->
    nth (match wq_per_channel q, wq_axis q with true, Some a => nth a idx 0%nat | _, _ => 0%nat end) (flatten_list p) 0 = param_at c p idx.
  Proof. intros G H E1 E2. rewrite <- (gw_pick c w p G idx q H E1 E2). unfold pick. destruct (wq_per_channel q), (wq_axis q); reflexivity. Qed.

  Lemma export_one : ready f c w -> exists q0 q e t, weights_kwargs f c = Ok q0 /\ wq_init q0 = Ok q /\ wq_call f q w = Ok e /\
    toolkit_quantize c w = Ok t /\ same_quantization f c w e t.
  Proof.
    intro R. unfold ready in R.
    assert ((ac_method c = W_pot \/ ac_method c = W_sym) \/ ac_method c = W_uniform \/ (ac_method c = W_lut_pot \/ ac_method c = W_lut_sym)) as Hm
      by (destruct (ac_method c); tauto).
    destruct Hm as [Hm|[Hm|Hm]].
    - assert (bits_taken f (ac_bits c) /\ exists t, ac_threshold c = Some t /\ goes_with c w t /\ every t (fun v => 0 < v) /\ (ac_method c = W_pot -> every t power_of_two)) as (Hb & t & Et & G & Hp & Hpot)
        by (destruct Hm as [E|E]; rewrite E in R |- *; exact R).
      clear R.
      set (q0 := WQ (ac_method c) (ac_bits c) (flatten_list t) [] [] [] pc (ac_axis c) (match f with Torch => None | Keras => Some (length (q_shape t)) end)).
      assert (weights_kwargs f c = Ok q0) as K by (unfold weights_kwargs, q0; destruct Hm as [E|E]; rewrite E, Et; reflexivity).
      assert (wq_init q0 = Ok q0) as I.
      { unfold wq_init. rewrite (gw_has_axis t q0 G eq_refl eq_refl). cbn [q0 wq_method wq_threshold]. rewrite (gw_one t q0 G eq_refl).
        destruct Hm as [E|E]; rewrite E.
        - rewrite forallb_flatten by (intros idx Hi; apply pot_b; [apply Hp|apply Hpot]; assumption). reflexivity.
        - rewrite forallb_flatten by (intros idx Hi; apply pos_b; apply Hp; assumption). reflexivity. }
      set (tt_ := QT (q_shape w) (fun idx => quantize_elem (bget t idx) (ac_bits c) true (q_at w idx))).
      assert (toolkit_quantize c w = Ok tt_) as T.
      { assert (toolkit_quantize c w = let! b := match ac_method c with W_pot => pot_ok pc t | _ => Ok true end in
            let! _ := guard b E_critical in let! _ := guard (pc || Nat.eqb (prod (q_shape t)) 1) E_value in
            let! _ := guard (all_positive t) E_critical in let! _ := guard (fits t (q_shape w)) E_value in Ok tt_) as ->
          by (unfold toolkit_quantize; destruct Hm as [E|E]; rewrite E, Et; reflexivity).
        assert (match ac_method c with W_pot => pot_ok pc t | _ => Ok true end = Ok true) as ->.
        { destruct Hm as [E|E]; rewrite E; [|reflexivity]. apply pot_ok_true; [exact Hp|exact (Hpot E)|].
          pose proof (gw_channels c w t G) as L. rewrite flatten_length in L. destruct pc; [left; reflexivity|right; exact L]. }
        cbn [bind guard]. rewrite (gw_single t G). unfold all_positive.
        rewrite forallb_flatten by (intros idx Hi; apply pos_b; apply Hp; assumption). rewrite (gw_fits c w t G). reflexivity. }
      assert (exists e, wq_call f q0 w = Ok e /\ q_shape e = q_shape w /\ forall idx, inb (q_shape w) idx -> q_at e idx = sym_elem f (param_at c t idx) (ac_bits c) (q_at w idx)) as (e & C & Se & Ve).
      { assert (forall g, wq_call g q0 w = match g with
            | Torch => let! _ := guard (chan_ok q0 (flatten_list t) (q_shape w)) E_runtime in Ok (QT (q_shape w) (fun idx => torch_symmetric_elem (pick q0 (flatten_list t) idx) (ac_bits c) (q_at w idx)))
            | Keras => keras_apply q0 (length (flatten_list t)) (fun k => keras_symmetric_elem (nth k (flatten_list t) 0) (ac_bits c)) w end) as CE
          by (intro g; unfold wq_call, q0; destruct Hm as [E|E]; rewrite E; destruct g; reflexivity).
        rewrite CE. destruct f eqn:Ef.
        - rewrite (gw_chan_ok t q0 G eq_refl eq_refl). cbn [guard bind]. eexists. split; [reflexivity|]. split; [reflexivity|]. intros idx Hi. cbn [q_at].
          rewrite (gw_pick c w t G idx q0 Hi eq_refl eq_refl). reflexivity.
        - destruct (keras_apply_ok q0 (length (flatten_list t)) (fun k => keras_symmetric_elem (nth k (flatten_list t) 0) (ac_bits c)) w Hb (gw_keras t q0 G eq_refl eq_refl eq_refl)) as (w' & -> & Sw & V).
          exists w'. split; [reflexivity|]. split; [exact Sw|]. intros idx Hi. rewrite V by exact Hi. rewrite (gw_pick_k t q0 idx G Hi eq_refl eq_refl). reflexivity. }
      exists q0, q0, e, tt_. do 4 (split; [assumption|]). split; [exact Se|]. split; [reflexivity|]. intros idx Hi x.
      pose proof (gw_every c w t G (fun v => 0 < v) idx Hi Hp) as Pp. cbv beta in Pp.
      pose proof (sym_elem_ok f (param_at c t idx) (ac_bits c) x Pp Hb) as (N1 & N2 & A).
      assert (forall th, ac_threshold c = Some th -> let d := step (param_at c th idx) (ac_bits c) true in
        let near := nearest d (code_min (ac_bits c) true) (code_max (ac_bits c) true) x in
        near (q_at e idx) /\ near (q_at tt_ idx) /\ (tie_free d x \/ (f = Torch /\ (2 <= ac_bits c)%Z) -> q_at e idx == q_at tt_ idx)) as Goal.
      { intros th Eth. rewrite Et in Eth. injection Eth as <-. cbv zeta. rewrite (Ve idx Hi). cbn [tt_ q_at]. rewrite (gw_bget c w t G idx Hi).
        split; [exact N1|]. split; [exact N2|exact A]. }
      destruct Hm as [E|E]; rewrite E; exact Goal.
    - rewrite Hm in R. destruct R as (Hb & a & b & Ea & Eb & Ga & Gb & Es & Hlt).
      set (q0 := WQ W_uniform (ac_bits c) [] (flatten_list a) (flatten_list b) [] pc (ac_axis c) (match f with Torch => None | Keras => Some (length (q_shape a)) end)).
      assert (weights_kwargs f c = Ok q0) as K by (unfold weights_kwargs, q0; rewrite Hm, Ea, Eb; reflexivity).
      assert (wq_init q0 = Ok q0) as I.
      { unfold wq_init. rewrite (gw_has_axis a q0 Ga eq_refl eq_refl). cbn [q0 wq_method wq_min wq_max]. rewrite (gw_one a q0 Ga eq_refl), (gw_one b q0 Gb eq_refl). reflexivity. }
      set (tt_ := QT (q_shape w) (fun idx => uniform_quantize_elem (bget a idx) (bget b idx) (ac_bits c) (q_at w idx))).
      assert (toolkit_quantize c w = Ok tt_) as T.
      { unfold toolkit_quantize. rewrite Hm, Ea, Eb. cbn [need bind]. rewrite (gw_fits c w a Ga), (gw_fits c w b Gb). reflexivity. }
      assert (forall idx, inb (q_shape w) idx -> param_at c a idx < param_at c b idx) as Hlt'.
      { intros idx Hi. rewrite !param_ppos. pose proof (ppos_in c w a Ga idx Hi) as [I1 _].
        assert (ppos c a idx = ppos c b idx) as Ep by (unfold ppos; rewrite Es; reflexivity). rewrite <- Ep. apply Hlt. exact I1. }
      assert (exists e, wq_call f q0 w = Ok e /\ q_shape e = q_shape w /\ forall idx, inb (q_shape w) idx -> q_at e idx = uni_elem f (param_at c a idx) (param_at c b idx) (ac_bits c) (q_at w idx)) as (e & C & Se & Ve).
      { unfold wq_call. cbn [q0 wq_method wq_bits wq_min wq_max]. fold q0. destruct f eqn:Ef.
        - rewrite (gw_chan_ok a q0 Ga eq_refl eq_refl), (gw_chan_ok b q0 Gb eq_refl eq_refl). cbn [andb guard bind].
          assert (forallb (fun ab => torch_uniform_ok (fst ab) (snd ab) (ac_bits c)) (combine (flatten_list a) (flatten_list b)) = true) as Hu.
          { apply forallb_forall. intros [x y] Hxy. unfold flatten_list in Hxy. rewrite Es in Hxy. rewrite combine_map_same in Hxy.
            apply in_map_iff in Hxy. destruct Hxy as (k & Ek & Hk). apply in_seq in Hk. cbn in Hk. injection Ek as <- <-. cbn [fst snd].
            destruct (flat_unflat (q_shape b) k) as [_ Iu]; [lia|].
            destruct (uni_elem_ok Torch (q_at a (unflat (q_shape b) k)) (q_at b (unflat (q_shape b) k)) (ac_bits c)) as (zp & _ & H & _); [apply Hlt; rewrite Es; exact Iu|exact Hb|exact H]. }
          rewrite Hu. cbn [guard bind]. eexists. split; [reflexivity|]. split; [reflexivity|]. intros idx Hi. cbn [q_at].
          rewrite (gw_pick c w a Ga idx q0 Hi eq_refl eq_refl), (gw_pick c w b Gb idx q0 Hi eq_refl eq_refl). reflexivity.
        - destruct (keras_apply_ok q0 (length (flatten_list a)) (fun k => keras_uniform_elem (nth k (flatten_list a) 0) (nth k (flatten_list b) 0) (ac_bits c)) w Hb (gw_keras a q0 Ga eq_refl eq_refl eq_refl)) as (w' & -> & Sw & V).
          exists w'. split; [reflexivity|]. split; [exact Sw|]. intros idx Hi. rewrite V by exact Hi. rewrite (gw_pick_k a q0 idx Ga Hi eq_refl eq_refl), (gw_pick_k b q0 idx Gb Hi eq_refl eq_refl). reflexivity. }
      exists q0, q0, e, tt_. do 4 (split; [assumption|]). split; [exact Se|]. split; [reflexivity|]. intros idx Hi x. rewrite Hm.
      intros a' b' Ea' Eb'. rewrite Ea in Ea'. rewrite Eb in Eb'. injection Ea' as <-. injection Eb' as <-. cbv zeta.
      destruct (uni_elem_ok f (param_at c a idx) (param_at c b idx) (ac_bits c) (Hlt' idx Hi) Hb) as (zp & Hz & _ & U). destruct (U x) as (N1 & N2 & A).
      exists (- zp)%Z. split; [lia|]. replace (- zp + (2 ^ ac_bits c - 1))%Z with (2 ^ ac_bits c - 1 - zp)%Z by lia.
      rewrite (Ve idx Hi). cbn [tt_ q_at]. rewrite (gw_bget c w a Ga idx Hi), (gw_bget c w b Gb idx Hi). split; [exact N1|]. split; [exact N2|exact A].
    - assert ((1 <= ac_bits c <= 8)%Z /\ exists l t, ac_lut c = Some l /\ ac_scale c = Some t /\ goes_with c w t /\ every t (fun v => 0 < v) /\
        (ac_method c = W_lut_pot -> every t power_of_two) /\ (1 <= Z.of_nat (prod (q_shape l)) <= 2 ^ ac_bits c)%Z /\
        every l (fun v => exists k, v == inject_Z k /\ (-128 <= k <= 127)%Z)) as (Hb & l & t & El & Et & G & Hp & Hpot & Hn & Hl)
        by (destruct Hm as [E|E]; rewrite E in R |- *; exact R).
      clear R.
      set (q0 := WQ (ac_method c) (ac_bits c) (flatten_list t) [] [] (flatten_list l) pc (ac_axis c) (Some (length (q_shape t)))).
      assert (weights_kwargs f c = Ok q0) as K by (unfold weights_kwargs, q0; destruct Hm as [E|E]; rewrite E, El, Et; reflexivity).
      assert (lut_ok (ac_bits c) true (flatten_list l) = true) as L.
      { unfold lut_ok. rewrite flatten_length. rewrite (proj2 (Z.leb_le _ _) (proj2 Hn)). change LUT_VALUES_BITWIDTH with 8%Z. rewrite (proj2 (Z.leb_le _ _) (proj2 Hb)).
        destruct (Nat.eqb_spec (prod (q_shape l)) 0) as [Z0|_]; [lia|]. cbn [negb andb]. apply forallb_flatten. intros idx Hi. destruct (Hl idx Hi) as (k & Ek & Hk).
        assert (is_whole (q_at l idx) = true) as ->.
        { unfold is_whole. apply Qeq_bool_iff. rewrite Ek at 1. rewrite (Qfloor_comp _ _ Ek). rewrite Qfloor_Z. reflexivity. }
        cbn [andb]. apply andb_true_intro. split; apply Qle_bool_iff; rewrite Ek; [change (-128#1) with (inject_Z (-128))|change (127#1) with (inject_Z 127)]; rewrite <- Zle_Qle; lia. }
      assert (wq_init q0 = Ok q0) as I.
      { unfold wq_init. rewrite (gw_has_axis t q0 G eq_refl eq_refl). cbn [q0 wq_method wq_threshold wq_lut wq_bits]. rewrite (gw_one t q0 G eq_refl), L.
        destruct Hm as [E|E]; rewrite E.
        - rewrite forallb_flatten by (intros idx Hi; apply pot_b; [apply Hp|apply Hpot]; assumption). reflexivity.
        - rewrite forallb_flatten by (intros idx Hi; apply pos_b; apply Hp; assumption). reflexivity. }
      set (tt_ := QT (q_shape w) (fun idx => match lut_kmeans_quantizer_elem (flatten_list l) (bget t idx) (q_at w idx) with Ok v => v | Err _ => 0 end)).
      assert (toolkit_quantize c w = Ok tt_) as T.
      { unfold toolkit_quantize. destruct Hm as [E|E]; rewrite E, El, Et; cbn [need bind]; rewrite (gw_fits c w t G);
          (destruct (Nat.eqb_spec (prod (q_shape l)) 0) as [Z0|_]; [lia|]); reflexivity. }
      set (e := QT (q_shape w) (fun idx => lut_value (flatten_list l) (pick q0 (flatten_list t) idx) true (q_at w idx))).
      assert (wq_call f q0 w = Ok e) as C.
      { assert (lut_chan_ok q0 (q_shape w) = true) as Lc.
        { unfold lut_chan_ok. cbn [q0 wq_per_channel wq_axis wq_rank wq_threshold]. destruct pc eqn:E; [|reflexivity]. cbn [negb orb].
          pose proof (gw_channels c w t G) as Ch. rewrite E in Ch. destruct (gw_axis c w t G E) as (a & Ea & La & Er). rewrite Ea in *. rewrite Ch, Er, !Nat.eqb_refl, (proj2 (Nat.ltb_lt _ _) La). reflexivity. }
        unfold wq_call. cbn [q0 wq_method wq_bits wq_threshold wq_lut]. fold q0. destruct Hm as [E|E]; rewrite E; rewrite Lc; destruct f; reflexivity. }
      exists q0, q0, e, tt_. do 4 (split; [assumption|]). split; [reflexivity|]. split; [reflexivity|]. intros idx Hi x.
      pose proof (gw_every c w t G (fun v => 0 < v) idx Hi Hp) as Pp. cbv beta in Pp.
      assert (flatten_list l <> []) as Hne by (intro E; apply (f_equal (@length Q)) in E; rewrite flatten_length in E; cbn in E; lia).
      destruct (lut_elem_ok (flatten_list l) (param_at c t idx) x Pp Hne) as (v & u & Ev & Eu & Evu & ce & Hc & Ec & Hnear).
      { intros y Hy. destruct (flatten_in l y Hy) as (j & Hj & ->). destruct (Hl j Hj) as (k & Ek & _). exists k. exact Ek. }
      assert (q_at e idx = v) as Ee.
      { cbn [e q_at]. rewrite (gw_pick c w t G idx q0 Hi eq_refl eq_refl). unfold lut_value. fold x. rewrite Ev. reflexivity. }
      assert (q_at tt_ idx = u) as Eq.
      { cbn [tt_ q_at]. rewrite (gw_bget c w t G idx Hi). fold x. rewrite Eu. reflexivity. }
      assert (q_at e idx == q_at tt_ idx /\
        forall l' th, ac_lut c = Some l' -> ac_scale c = Some th ->
          let v := clip (x / (param_at c th idx + EPS) * 128) (-128) 127 in
          exists j, inb (q_shape l') j /\ q_at e idx == q_at l' j * param_at c th idx / 128 /\
            forall j', inb (q_shape l') j' -> Qabs (v - q_at l' j) <= Qabs (v - q_at l' j')) as Goal.
      { rewrite Ee, Eq. split; [exact Evu|]. intros l' th E1 E2. rewrite El in E1. rewrite Et in E2. injection E1 as <-. injection E2 as <-. cbv zeta.
        destruct (flatten_in l ce Hc) as (j & Hj & ->). exists j. split; [exact Hj|]. split; [exact Ec|]. intros j' Hj'. apply Hnear. apply in_flatten. exact Hj'. }
      destruct Hm as [E|E]; rewrite E; exact Goal.
  Qed.
End One.
