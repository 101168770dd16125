From Verif Require Import Base HessianModel HessianProofs MPModel MPSpec MPProofs SearchProofs.
From Coq Require Import Permutation Lqa.

Lemma bytes_of_le s b b' : (0 <= s)%Z -> (b <= b')%Z -> (bytes_of s b <= bytes_of s b')%Q.
Proof.
  intros Hs Hb. unfold bytes_of, Qdiv. apply Qmult_le_compat_r; [|discriminate]. rewrite <- Zle_Qle. nia.
Qed.
Lemma sum_Q_le l l' : Forall2 Qle l l' -> (sum_Q l <= sum_Q l')%Q.
Proof.
  intro H. rewrite !sum_Q_eq. induction H; [apply Qle_refl|]. rewrite !Qsum_cons. apply Qplus_le_compat; assumption.
Qed.
(* two runs of a loop over the same list *)
Lemma mapM_rel {A B C} (f : A -> result B) (h : A -> result C) (R : B -> C -> Prop) l ys zs :
  (forall x y z, In x l -> f x = Ok y -> h x = Ok z -> R y z) -> mapM f l = Ok ys -> mapM h l = Ok zs -> Forall2 R ys zs.
Proof.
  intros HR H1 H2. apply mapM_Forall2 in H1. apply mapM_Forall2 in H2. revert zs H2 HR. induction H1; intros zs H2 HR; inversion H2; subst; [constructor|].
  constructor; [apply (HR x); auto; left; reflexivity|]. apply IHForall2; [assumption|]. intros; eapply HR; eauto. right; assumption.
Qed.

Section Mono.
Variable g : graph.
Hypothesis NN : nonneg_graph g.
Variables (t : crit) (m m' : bmode) (aq aq' : option (list (nat * acfg))) (wq wq' : option (list (nat * list (nat * wcfg)))).
Hypothesis Hw : forall n a b b', In n (g_nodes g) ->
  weight_nbits n a m (qc_get wq (n_name n)) = Ok b -> weight_nbits n a m' (qc_get wq' (n_name n)) = Ok b' -> (0 <= b <= b')%Z.
Hypothesis Ha : forall n qc qc' b b', In n (g_nodes g) -> extract_qc g n aq = Ok qc -> extract_qc g n aq' = Ok qc' ->
  act_nbits g n m qc = Ok b -> act_nbits g n m' qc' = Ok b' -> (0 <= b <= b')%Z.

Lemma node_weights_mono n ats q q' : In n (g_nodes g) ->
  node_weights_bytes n ats m (qc_get wq (n_name n)) = Ok q -> node_weights_bytes n ats m' (qc_get wq' (n_name n)) = Ok q' -> (q <= q')%Q.
Proof.
  intros Hn H1 H2. unfold node_weights_bytes in *.
  match type of H1 with bind ?c _ = _ => destruct c; [|discriminate] end.
  match type of H2 with bind ?c _ = _ => destruct c; [|discriminate] end. cbn [bind] in *.
  destruct ats as [|a0 ats]; [discriminate|].
  match type of H1 with bind ?c _ = _ => destruct c eqn:E1; [|discriminate] end.
  match type of H2 with bind ?c _ = _ => destruct c eqn:E2; [|discriminate] end. cbn [bind] in *.
  assert (Q1 : q = sum_Q l) by congruence. assert (Q2 : q' = sum_Q l0) by congruence. subst q q'. apply sum_Q_le.
  eapply mapM_rel; [|exact E1|exact E2]. intros a y z Hi Hy Hz. cbn beta in Hy, Hz.
  destruct (dict_get a (n_wsizes n)) as [s|] eqn:Es; [|discriminate].
  destruct (weight_nbits n a m _) as [b|] eqn:B1; [|discriminate]. destruct (weight_nbits n a m' _) as [b'|] eqn:B2; [|discriminate].
  cbn [bind] in *. inversion Hy; inversion Hz; subst. apply bytes_of_le; [|eapply Hw; eauto].
  apply (nn_sizes g NN n a s Hn). apply dict_get_in. exact Es.
Qed.

Lemma weights_mono q q' : weights_utilization g t m wq = Ok q -> weights_utilization g t m' wq' = Ok q' -> (q <= q')%Q.
Proof.
  unfold weights_utilization, weights_per_node. intros H1 H2.
  destruct (validate_qcs g wq m); [|discriminate]. destruct (validate_qcs g wq' m'); [|discriminate]. cbn [bind] in *.
  destruct (mapM _ (g_nodes g)) as [nl|] eqn:En; [|discriminate]. cbn [bind] in *.
  match type of H1 with bind ?c _ = _ => destruct c eqn:E1; [|discriminate] end.
  match type of H2 with bind ?c _ = _ => destruct c eqn:E2; [|discriminate] end. cbn [bind] in *.
  inversion H1; inversion H2; subst. apply sum_Q_le. eapply mapM_rel; [|exact E1|exact E2].
  intros p y z Hp Hy Hz. eapply node_weights_mono; [|exact Hy|exact Hz].
  apply filter_In in Hp. destruct Hp as [Hp _]. apply mapM_Forall2 in En. clear - En Hp. induction En; [destruct Hp|].
  destruct Hp as [->|Hp]; [|right; apply IHEn; exact Hp]. left. destruct (target_weight_attrs x t); [|discriminate]. cbn [bind] in H. inversion H; reflexivity.
Qed.

Lemma act_cuts_mono l l' : act_per_cut g t m aq = Ok l -> act_per_cut g t m' aq' = Ok l' -> Forall2 Qle l l'.
Proof.
  unfold act_per_cut. intros H1 H2. destruct (validate_qcs g aq m); [|discriminate]. destruct (validate_qcs g aq' m'); [|discriminate]. cbn [bind] in *.
  destruct (target_acts g t []) as [[|t0 tg]|]; [|cbn [bind] in *|discriminate].
  - cbn [bind] in *. inversion H1; inversion H2; subst. constructor.
  - destruct (mapM _ (g_cuts g)) as [nl|] eqn:En; [|discriminate]. cbn [bind] in *. eapply mapM_rel; [|exact H1|exact H2].
    intros ns y z Hns Hy Hz. cbn beta in Hy, Hz.
    destruct (mapM (node_act_bytes g m aq) ns) as [bs|] eqn:B1; [|discriminate]. destruct (mapM (node_act_bytes g m' aq') ns) as [bs'|] eqn:B2; [|discriminate].
    cbn [bind] in *. inversion Hy; inversion Hz; subst. apply sum_Q_le. eapply mapM_rel; [|exact B1|exact B2].
    assert (Hin : forall n, In n ns -> In n (g_nodes g)).
    { apply filter_In in Hns. destruct Hns as [Hns _]. apply mapM_Forall2 in En. clear - En Hns. induction En; [destruct Hns|].
      destruct Hns as [->|Hns]; [|auto]. destruct (mapM (find_node g) x) as [xs|] eqn:Ex; [|discriminate]. cbn [bind] in H.
      unfold target_acts in H. apply filterM_pure in H. subst ns. intros n Hn. apply filter_In in Hn. destruct Hn as [Hn _].
      destruct xs as [|x0 xs]; [exact Hn|]. rewrite <- (mapM_find g x _ Ex) in Hn. apply nodes_of_in in Hn. tauto. }
    intros n y z Hn Hy' Hz'. unfold node_act_bytes in Hy', Hz'.
    destruct (extract_qc g n aq) as [qc|] eqn:Q1; [|discriminate]. destruct (extract_qc g n aq') as [qc'|] eqn:Q2; [|discriminate]. cbn [bind] in *.
    destruct (act_nbits g n m qc) as [b|] eqn:B3; [|discriminate]. destruct (act_nbits g n m' qc') as [b'|] eqn:B4; [|discriminate]. cbn [bind] in *.
    assert (E1 : y = bytes_of (n_out n) b) by congruence. assert (E2 : z = bytes_of (n_out n) b') by congruence. subst y z.
    apply bytes_of_le; [apply (nn_out g NN); auto|]. eapply (Ha n); eauto.
Qed.

Lemma q_max_mono a b a' b' : (a <= a')%Q -> (b <= b')%Q -> (q_max a b <= q_max a' b')%Q.
Proof.
  unfold q_max. intros. destruct (Qle_bool a b) eqn:E1, (Qle_bool a' b') eqn:E2; auto.
  - assert (~ (a' <= b')%Q) by (rewrite <- Qle_bool_iff; congruence). lra.
  - apply Qle_bool_iff in E2. lra.
Qed.
Lemma fold_q_max_mono l l' : Forall2 Qle l l' -> forall a a', (a <= a')%Q -> (fold_left q_max l a <= fold_left q_max l' a')%Q.
Proof. induction 1; intros; cbn [fold_left]; [assumption|]. apply IHForall2. apply q_max_mono; assumption. Qed.

Lemma act_mono r r' : act_utilization g t m aq = Ok r -> act_utilization g t m' aq' = Ok r' -> (fst r <= fst r')%Q.
Proof.
  unfold act_utilization. intros H1 H2. destruct (target_acts g t []) as [tg|]; [|discriminate]. cbn [bind] in *.
  destruct (act_per_cut g t m aq) as [l|] eqn:E1; [|discriminate]. destruct (act_per_cut g t m' aq') as [l'|] eqn:E2; [|discriminate]. cbn [bind] in *.
  pose proof (act_cuts_mono l l' E1 E2) as F. destruct tg as [|t0 tg]; [inversion H1; inversion H2; subst; apply Qle_refl|].
  destruct F; [discriminate|]. inversion H1; inversion H2; subst. cbn [fst]. apply fold_q_max_mono; assumption.
Qed.

Lemma fold_Zadd l : forall a, (fold_left Z.add l a = a + fold_left Z.add l 0)%Z.
Proof. induction l as [|x l IH]; intro a; cbn [fold_left]; [lia|]. rewrite (IH (a + x)%Z), (IH (0 + x)%Z). lia. Qed.
Lemma fold_Zadd_mono l l' : Forall2 Z.le l l' -> (fold_left Z.add l 0 <= fold_left Z.add l' 0)%Z.
Proof. induction 1; cbn [fold_left]; [lia|]. rewrite (fold_Zadd l (0 + x)%Z), (fold_Zadd l' (0 + y)%Z). lia. Qed.

Lemma node_bops_mono n z z' : In n (g_nodes g) -> node_bops g t m aq wq n = Ok z -> node_bops g t m' aq' wq' n = Ok z' -> (z <= z')%Z.
Proof.
  intros Hn H1 H2. unfold node_bops in *. destruct t; try discriminate;
  (destruct (validate_qcs g aq m); [|discriminate]; destruct (validate_qcs g aq' m'); [|discriminate]; cbn [bind] in *;
   destruct (n_kernel n) as [k|]; [|inversion H1; inversion H2; lia];
   destruct (Z.eqb (n_mac n) 0); [inversion H1; inversion H2; lia|];
   destruct (g_prev g (n_name n)) as [|x [|y r]]; try discriminate;
   destruct (find_node g x) as [p|] eqn:Ep; [|discriminate]; cbn [bind] in *; destruct (find_node_ok _ _ _ Ep) as [Hp _];
   try (destruct (act_enabled p) as [e1|]; [|discriminate]; cbn [bind] in *; destruct (weights_enabled n k) as [e2|]; [|discriminate];
        cbn [bind] in *; destruct (negb (e1 || e2)); [inversion H1; inversion H2; lia|]);
   destruct (extract_qc g p aq) as [qc|] eqn:Q1; [|discriminate]; destruct (extract_qc g p aq') as [qc'|] eqn:Q2; [|discriminate]; cbn [bind] in *;
   destruct (act_nbits g p m qc) as [b|] eqn:B3; [|discriminate]; destruct (act_nbits g p m' qc') as [b'|] eqn:B4; [|discriminate]; cbn [bind] in *;
   destruct (weight_nbits n k m _) as [v|] eqn:W1; [|discriminate]; destruct (weight_nbits n k m' _) as [v'|] eqn:W2; [|discriminate]; cbn [bind] in *;
   inversion H1; inversion H2; subst; pose proof (Hw n k v v' Hn W1 W2); pose proof (Ha p qc qc' b b' Hp Q1 Q2 B3 B4);
   pose proof (nn_mac g NN n Hn); apply Z.mul_le_mono_nonneg_r; [assumption|]; apply Z.mul_le_mono_nonneg; lia).
Qed.
Lemma bops_mono z z' : bops g t m aq wq = Ok z -> bops g t m' aq' wq' = Ok z' -> (z <= z')%Z.
Proof.
  unfold bops. intros H1 H2.
  match type of H1 with bind ?c _ = _ => destruct c eqn:E1; [|discriminate] end.
  match type of H2 with bind ?c _ = _ => destruct c eqn:E2; [|discriminate] end. cbn [bind] in *. inversion H1; inversion H2; subst.
  apply fold_Zadd_mono. eapply mapM_rel; [|exact E1|exact E2]. intros n y z Hn Hy Hz. eapply node_bops_mono; eauto.
Qed.
End Mono.

Lemma compute_ru_mono g t m m' aq aq' wq wq' tg r r' : nonneg_graph g ->
  (forall n a b b', In n (g_nodes g) -> weight_nbits n a m (qc_get wq (n_name n)) = Ok b ->
      weight_nbits n a m' (qc_get wq' (n_name n)) = Ok b' -> (0 <= b <= b')%Z) ->
  (forall n qc qc' b b', In n (g_nodes g) -> extract_qc g n aq = Ok qc -> extract_qc g n aq' = Ok qc' ->
      act_nbits g n m qc = Ok b -> act_nbits g n m' qc' = Ok b' -> (0 <= b <= b')%Z) ->
  compute_ru g t m aq wq tg = Ok r -> compute_ru g t m' aq' wq' tg = Ok r' -> ru_le (fst r) (fst r').
Proof.
  intros NN Hw Ha H1 H2. unfold compute_ru in *.
  set (tg' := if t_w tg || t_a tg || t_t tg || t_b tg then tg else mkT true true true true) in *. clearbody tg'. clear tg.
  destruct (validate_qcs g aq m); [|discriminate]. destruct (validate_qcs g wq m); [|discriminate].
  destruct (validate_qcs g aq' m'); [|discriminate]. destruct (validate_qcs g wq' m'); [|discriminate]. cbn [bind] in *.
  destruct tg' as [tw ta tt tb]. cbn [t_w t_a t_t t_b] in *.
  assert (PW : forall q q', (if tw || tt then weights_utilization g t m (if tw || tt || tb then wq else None) else Ok 0%Q) = Ok q ->
     (if tw || tt then weights_utilization g t m' (if tw || tt || tb then wq' else None) else Ok 0%Q) = Ok q' -> (q <= q')%Q).
  { intros q q'. destruct tw, tt; cbn [orb]; try (apply (weights_mono g NN t m m' wq wq' Hw)). intros E1 E2. inversion E1; inversion E2; apply Qle_refl. }
  assert (PA : forall q q', (if ta || tt then act_utilization g t m (if ta || tt || tb then aq else None) else Ok (0%Q, [])) = Ok q ->
     (if ta || tt then act_utilization g t m' (if ta || tt || tb then aq' else None) else Ok (0%Q, [])) = Ok q' -> (fst q <= fst q')%Q).
  { intros q q'. destruct ta, tt; cbn [orb]; try (apply (act_mono g NN t m m' aq aq' Ha)). intros E1 E2. inversion E1; inversion E2; apply Qle_refl. }
  assert (PB : forall z z', (if tb then bops g t m (if ta || tt || tb then aq else None) (if tw || tt || tb then wq else None) else Ok 0%Z) = Ok z ->
     (if tb then bops g t m' (if ta || tt || tb then aq' else None) (if tw || tt || tb then wq' else None) else Ok 0%Z) = Ok z' -> (z <= z')%Z).
  { intros z z'. destruct tb; [rewrite !orb_true_r|]; [apply (bops_mono g NN t m m' aq aq' wq wq' Hw Ha)|]. intros E1 E2. inversion E1; inversion E2; lia. }
  match type of H1 with bind ?c _ = _ => destruct c as [w|]; [|discriminate] end.
  match type of H2 with bind ?c _ = _ => destruct c as [w'|]; [|discriminate] end. cbn [bind] in *. specialize (PW _ _ eq_refl eq_refl).
  match type of H1 with bind ?c _ = _ => destruct c as [[a cu]|]; [|discriminate] end.
  match type of H2 with bind ?c _ = _ => destruct c as [[a' cu']|]; [|discriminate] end. cbn [bind] in *. specialize (PA _ _ eq_refl eq_refl).
  match type of H1 with bind ?c _ = _ => destruct c as [z|]; [|discriminate] end.
  match type of H2 with bind ?c _ = _ => destruct c as [z'|]; [|discriminate] end. cbn [bind] in *. specialize (PB _ _ eq_refl eq_refl).
  inversion H1; inversion H2; subst. cbn [fst] in *. unfold ru_le; cbn [ru_w ru_a ru_t ru_b]. repeat split.
  - destruct tw; cbn; auto.
  - destruct ta; cbn; auto.
  - destruct tt; cbn; [lra|exact I].
  - destruct tb; cbn; [|exact I]. rewrite <- Zle_Qle. exact PB.
Qed.

(* ---- configurations ---- *)
Lemma selected_in cfg n c : selected cfg n = Some c -> In c (n_cands n).
Proof.
  unfold selected. destruct (dict_get (n_name n) cfg); [apply nth_error_In|]. destruct (n_cands n); cbn; [discriminate|]. intro H. inversion H. left; reflexivity.
Qed.
Lemma wbits_nonneg g cfg n a : nonneg_graph g -> In n (g_nodes g) -> (0 <= wbits cfg n a)%Z.
Proof.
  intros NN Hn. unfold wbits. destruct (selected cfg n) as [c|] eqn:E; [|lia]. destruct (dict_get a (c_w c)) as [w|] eqn:Ew; [|lia].
  destruct (w_enable w); [|lia]. eapply (nn_wbits g NN n c a w Hn); [eapply selected_in; exact E|apply dict_get_in; exact Ew].
Qed.
Lemma abits_nonneg g cfg n : nonneg_graph g -> In n (g_nodes g) -> (0 <= abits cfg n)%Z.
Proof.
  intros NN Hn. unfold abits. destruct (selected cfg n) as [c|] eqn:E; [|lia]. destruct (amode_eqb _ _); [|lia].
  apply (nn_abits g NN n c Hn). eapply selected_in; exact E.
Qed.
Lemma wbits_mono g cfg cfg' n a : In n (g_nodes g) -> cfg_le g cfg cfg' -> (wbits cfg n a <= wbits cfg' n a)%Z.
Proof.
  intros Hn H. specialize (H n Hn). unfold wbits. destruct (selected cfg n) as [c|], (selected cfg' n) as [d|]; try contradiction; [|lia].
  destruct H as (_ & _ & H). specialize (H a). destruct (dict_get a (c_w c)) as [x|], (dict_get a (c_w d)) as [y|]; try contradiction; [|lia].
  destruct H as [-> H]. destruct (w_enable y); lia.
Qed.
Lemma abits_mono g cfg cfg' n : In n (g_nodes g) -> cfg_le g cfg cfg' -> (abits cfg n <= abits cfg' n)%Z.
Proof.
  intros Hn H. specialize (H n Hn). unfold abits. destruct (selected cfg n) as [c|], (selected cfg' n) as [d|]; try contradiction; [|lia].
  destruct H as (-> & H & _). destruct (amode_eqb _ _); lia.
Qed.

(* ---- the extreme bit-width modes ---- *)
Lemma fold_zmax l : forall a x, (x = a \/ In x l) -> (x <= fold_left Z.max l a)%Z.
Proof.
  induction l as [|y l IH]; intros a x H; cbn [fold_left]; [destruct H as [->|[]]; lia|].
  destruct H as [->|[->|H]]; [|apply (Z.le_trans _ (Z.max a x)); [lia|apply IH; left; reflexivity]|apply IH; right; exact H].
  apply (Z.le_trans _ (Z.max a y)); [lia|apply IH; left; reflexivity].
Qed.
Lemma fold_zmin l : forall a x, (x = a \/ In x l) -> (fold_left Z.min l a <= x)%Z.
Proof.
  induction l as [|y l IH]; intros a x H; cbn [fold_left]; [destruct H as [->|[]]; lia|].
  destruct H as [->|[->|H]]; [|apply (Z.le_trans _ (Z.min a x)); [apply IH; left; reflexivity|lia]|apply IH; right; exact H].
  apply (Z.le_trans _ (Z.min a y)); [apply IH; left; reflexivity|lia].
Qed.
Lemma py_max_ge l M x : py_max l = Ok M -> In x l -> (x <= M)%Z.
Proof. unfold py_max. destruct l as [|y l]; [discriminate|]. intros H [->|Hi]; inversion H; apply fold_zmax; auto. Qed.
Lemma py_min_le l M x : py_min l = Ok M -> In x l -> (M <= x)%Z.
Proof. unfold py_min. destruct l as [|y l]; [discriminate|]. intros H [->|Hi]; inversion H; apply fold_zmin; auto. Qed.
Lemma py_min_in l M : py_min l = Ok M -> In M l.
Proof.
  unfold py_min. destruct l as [|y l]; [discriminate|]. intro H. inversion H. clear H H1. revert y.
  induction l as [|z l IH]; intro y; cbn [fold_left]; [left; reflexivity|]. destruct (IH (Z.min y z)) as [E|E].
  - rewrite <- E. destruct (Z.min_spec y z) as [[_ ->]|[_ ->]]; [left; reflexivity|right; left; reflexivity].
  - right; right; exact E.
Qed.
Lemma uniq_in {A} (e : A -> A -> bool) (He : forall a b, e a b = true <-> a = b) l : forall seen x,
  In x l -> In x seen \/ In x (uniq e seen l).
Proof.
  induction l as [|y l IH]; intros seen x H; [destruct H|]. cbn [uniq]. destruct (existsb (e y) seen) eqn:E.
  - destruct H as [->|H]; [|apply IH; exact H]. apply existsb_exists in E. destruct E as (z & Hz & E). apply He in E. subst z. left; exact Hz.
  - destruct H as [->|H]; [right; left; reflexivity|]. destruct (IH (seen ++ [y]) x H) as [H1|H1]; [|right; right; exact H1].
    apply in_app_iff in H1. destruct H1 as [H1|[->|[]]]; [left; exact H1|right; left; reflexivity].
Qed.
Lemma uniq_sub {A} (e : A -> A -> bool) l : forall seen, incl (uniq e seen l) l.
Proof.
  induction l as [|y l IH]; intros seen x H; [destruct H|]. cbn [uniq] in H. destruct (existsb (e y) seen); [right; eapply IH; exact H|].
  destruct H as [->|H]; [left; reflexivity|right; eapply IH; exact H].
Qed.
Lemma Forall2_in_l {A B} (R : A -> B -> Prop) l l' x : Forall2 R l l' -> In x l -> exists y, In y l' /\ R x y.
Proof. induction 1; intros Hi; [destruct Hi|]. destruct Hi as [->|Hi]; [exists y; split; [left|]; auto|]. destruct (IHForall2 Hi) as (z & A1 & A2). exists z; split; [right|]; auto. Qed.
Lemma Forall2_in_r {A B} (R : A -> B -> Prop) l l' y : Forall2 R l l' -> In y l' -> exists x, In x l /\ R x y.
Proof. induction 1; intros Hi; [destruct Hi|]. destruct Hi as [->|Hi]; [exists x; split; [left|]; auto|]. destruct (IHForall2 Hi) as (z & A1 & A2). exists z; split; [right|]; auto. Qed.

Lemma weight_nbits_max g cfg n a M : wf_graph g -> In n (g_nodes g) -> selected cfg n <> None ->
  weight_nbits n a B_Max None = Ok M -> (wbits cfg n a <= M)%Z.
Proof.
  intros W Hn Hs H. unfold weight_nbits in H. destruct (weights_enabled n a) as [e|] eqn:Ee; [|discriminate]. cbn [bind] in H.
  unfold wbits. destruct (selected cfg n) as [c|] eqn:Es; [|congruence]. pose proof (selected_in _ _ _ Es) as Hc.
  pose proof (weights_enabled_spec _ _ _ Ee) as Se. unfold weights_enabled in Ee. destruct (attr_cands n a) as [cs|] eqn:Ea; [|discriminate].
  pose proof (attr_cands_spec _ _ _ Ea) as Sa. destruct (Forall2_in_l _ _ _ c Sa Hc) as (w & Hw & Ew). rewrite Ew.
  destruct e; cbn [negb] in H.
  - assert (w_enable w = true) as ->.
    { symmetry in Se. unfold quantized_attr in Se. rewrite forallb_forall in Se. specialize (Se c Hc). rewrite Ew in Se. exact Se. }
    unfold unique_weights in H. rewrite Ea in H. cbn [bind] in H. eapply py_max_ge; [exact H|]. apply in_map.
    destruct (uniq_in wcfg_eqb wcfg_eqb_eq cs [] w Hw) as [[]|]; assumption.
  - inversion H; subst. destruct (w_enable w) eqn:Ew'; [|unfold float_bits; lia]. exfalso.
    assert (quantized_attr n a = true); [|congruence].
    unfold quantized_attr. apply forallb_forall. intros d Hd. destruct (Forall2_in_l _ _ _ d Sa Hd) as (v & Hv & Ev). rewrite Ev.
    rewrite <- Ew'. exact (wf_enable g W n d c a v w Hn Hd Hc Ev Ew).
Qed.
Lemma weight_nbits_min g cfg n a M : wf_graph g -> nonneg_graph g -> In n (g_nodes g) -> selected cfg n <> None ->
  weight_nbits n a B_Min None = Ok M -> (0 <= M <= wbits cfg n a)%Z.
Proof.
  intros W NN Hn Hs H. unfold weight_nbits in H. destruct (weights_enabled n a) as [e|] eqn:Ee; [|discriminate]. cbn [bind] in H.
  unfold wbits. destruct (selected cfg n) as [c|] eqn:Es; [|congruence]. pose proof (selected_in _ _ _ Es) as Hc.
  pose proof (weights_enabled_spec _ _ _ Ee) as Se. unfold weights_enabled in Ee. destruct (attr_cands n a) as [cs|] eqn:Ea; [|discriminate].
  pose proof (attr_cands_spec _ _ _ Ea) as Sa. destruct (Forall2_in_l _ _ _ c Sa Hc) as (w & Hw & Ew). rewrite Ew.
  destruct e; cbn [negb] in H.
  - assert (w_enable w = true) as ->.
    { symmetry in Se. unfold quantized_attr in Se. rewrite forallb_forall in Se. specialize (Se c Hc). rewrite Ew in Se. exact Se. }
    unfold unique_weights in H. rewrite Ea in H. cbn [bind] in H. split.
    + apply py_min_in in H. apply in_map_iff in H. destruct H as (v & <- & Hv). apply uniq_sub in Hv.
      destruct (Forall2_in_r _ _ _ v Sa Hv) as (d & Hd & Ed). eapply (nn_wbits g NN n d a v Hn Hd). apply dict_get_in; exact Ed.
    + eapply py_min_le; [exact H|]. apply in_map. destruct (uniq_in wcfg_eqb wcfg_eqb_eq cs [] w Hw) as [[]|]; assumption.
  - inversion H; subst. unfold float_bits. destruct (w_enable w) eqn:Ew'; [|lia]. exfalso.
    assert (quantized_attr n a = true); [|congruence].
    unfold quantized_attr. apply forallb_forall. intros d Hd. destruct (Forall2_in_l _ _ _ d Sa Hd) as (v & Hv & Ev). rewrite Ev.
    rewrite <- Ew'. exact (wf_enable g W n d c a v w Hn Hd Hc Ev Ew).
Qed.
Lemma act_nbits_ext g cfg n p M (md : bmode) : (md = B_Max \/ md = B_Min) -> preserved g n = Ok p -> selected cfg p <> None -> act_nbits g n md None = Ok M ->
  if match md with B_Max => true | _ => false end then (abits cfg p <= M)%Z else (M <= abits cfg p)%Z.
Proof.
  intros Hm Hp Hs H. unfold act_nbits in H. rewrite Hp in H. cbn [bind] in H. unfold abits. destruct (selected cfg p) as [c|] eqn:Es; [|congruence].
  pose proof (selected_in _ _ _ Es) as Hc.
  destruct (act_enabled p) as [e|] eqn:Ee; [|destruct Hm; subst; discriminate]. destruct (single_mode_spec _ _ _ Ee) as (_ & S1 & _).
  cbn [bind] in H. destruct e; cbn [negb] in H.
  - destruct S1 as [S1 _]. destruct (S1 eq_refl) as [_ S2]. rewrite (S2 c Hc). cbn [amode_eqb].
    destruct Hm; subst md; cbn in *.
    + eapply py_max_ge; [exact H|]. apply (in_map (fun c => a_bits (c_act c))) in Hc. exact Hc.
    + eapply py_min_le; [exact H|]. apply (in_map (fun c => a_bits (c_act c))) in Hc. exact Hc.
  - destruct (amode_eqb (a_mode (c_act c)) A_QUANT) eqn:Ea.
    + exfalso. assert (Hx : false = true); [|discriminate]. apply S1. split; [intro Hx; rewrite Hx in Hc; destruct Hc|].
      intros d Hd. destruct (single_mode_spec _ _ _ Ee) as (_ & _ & S3). rewrite (S3 d c Hd Hc). apply amode_eqb_eq. exact Ea.
    + destruct Hm; subst md; inversion H; unfold float_bits; lia.
Qed.
