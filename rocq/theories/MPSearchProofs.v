From Verif Require Import Base HessianModel HessianProofs MPModel MPSpec MPProofs RULemmas RUProps MPSearchModel MPSearchSpec SearchProofs.
From Coq Require Import Permutation Lqa.
Local Open Scope nat_scope.

(* ================= one-hot vectors ================= *)
Definition zo (v : Q) : Prop := (v == 0 \/ v == 1)%Q.
Lemma zo_sum_nonneg x : Forall zo x -> (0 <= fold_right Qplus 0 x)%Q.
Proof. induction 1 as [|v x [H|H] F IH]; cbn [fold_right]; [apply Qle_refl| |]; lra. Qed.
Lemma zo_sum_zero x : Forall zo x -> (fold_right Qplus 0 x == 0)%Q -> Forall (fun v => (v == 0)%Q) x.
Proof.
  induction 1 as [|v x H F IH]; intro E; [constructor|]. cbn [fold_right] in E. pose proof (zo_sum_nonneg x F) as N.
  destruct H as [H|H]; [|lra]. constructor; [exact H|]. apply IH. lra.
Qed.
Lemma dot_zero x : forall c, Forall (fun v => (v == 0)%Q) x -> (dot x c == 0)%Q.
Proof.
  induction x as [|v x IH]; intros c H; destruct c as [|y c]; cbn [dot]; try reflexivity. inversion H; subst. rewrite H2, IH by assumption. ring.
Qed.
Lemma onehot_index x : Forall zo x -> (fold_right Qplus 0 x == 1)%Q -> forall k,
  exists i, index_one k x = Ok (k + i) /\ i < length x /\ forall c, length c = length x -> (dot x c == nth i c 0)%Q.
Proof.
  induction 1 as [|v x H F IH]; intros E k; cbn [fold_right] in E; [exfalso; lra|]. cbn [index_one].
  destruct (Qeq_bool v 1) eqn:Ev.
  - apply Qeq_bool_iff in Ev. exists 0. split; [f_equal; lia|]. split; [cbn; lia|]. intros c Hc. destruct c as [|y c]; [discriminate|]. cbn [dot nth].
    rewrite dot_zero by (apply zo_sum_zero; [exact F|lra]). rewrite Ev. ring.
  - assert (Hv : (v == 0)%Q). { destruct H as [H|H]; [exact H|]. apply Qeq_bool_neq in Ev. contradiction. }
    destruct (IH ltac:(lra) (S k)) as (i & E1 & E2 & E3). exists (S i). split; [rewrite E1; f_equal; lia|]. split; [cbn; lia|].
    intros c Hc. destruct c as [|y c]; [discriminate|]. cbn [dot nth]. rewrite E3 by (cbn in Hc; lia). rewrite Hv. ring.
Qed.
Fixpoint onehot (n i : nat) : list Q :=
  match n with 0 => [] | S n => match i with 0 => 1%Q :: repeat 0%Q n | S i => 0%Q :: onehot n i end end.
Lemma onehot_len n : forall i, length (onehot n i) = n.
Proof. induction n as [|n IH]; intro i; [reflexivity|]. destruct i; cbn [onehot length]; [rewrite repeat_length; reflexivity|rewrite IH; reflexivity]. Qed.
Lemma repeat0_zo n : Forall zo (repeat 0%Q n).
Proof. apply Forall_forall. intros x H. apply repeat_spec in H. subst. left. reflexivity. Qed.
Lemma repeat0_sum n : (fold_right Qplus 0 (repeat 0 n) == 0)%Q.
Proof. induction n; cbn [repeat fold_right]; [reflexivity|lra]. Qed.
Lemma onehot_zo n : forall i, Forall zo (onehot n i).
Proof. induction n as [|n IH]; intro i; [constructor|]. destruct i; cbn [onehot]; constructor; [right; reflexivity|apply repeat0_zo|left; reflexivity|apply IH]. Qed.
Lemma onehot_sum n : forall i, i < n -> (fold_right Qplus 0 (onehot n i) == 1)%Q.
Proof.
  induction n as [|n IH]; intros i H; [lia|]. destruct i; cbn [onehot fold_right]; [rewrite repeat0_sum; lra|]. rewrite IH by lia. lra.
Qed.
Lemma onehot_dot n : forall i c, i < n -> length c = n -> (dot (onehot n i) c == nth i c 0)%Q.
Proof.
  induction n as [|n IH]; intros i c H Hc; [lia|]. destruct c as [|y c]; [discriminate|]. destruct i; cbn [onehot dot nth].
  - rewrite dot_zero by (apply Forall_forall; intros x Hx; apply repeat_spec in Hx; subst; reflexivity). ring.
  - rewrite IH by (cbn in Hc; lia). ring.
Qed.
Lemma dot_app a b c d : length a = length b -> (dot (a ++ c) (b ++ d) == dot a b + dot c d)%Q.
Proof. revert b. induction a as [|x a IH]; intros [|y b] H; try discriminate; cbn [app dot]; [ring|]. rewrite IH by (cbn in H; lia). ring. Qed.
Lemma dot_comm a : forall b, (dot a b == dot b a)%Q.
Proof. induction a as [|x a IH]; intros [|y b]; cbn [dot]; try reflexivity. rewrite IH. ring. Qed.

(* ================= separability ================= *)
(* changing the entries of a configuration one at a time accounts for the whole change *)
Definition vcfg (V : nat -> nat -> Prop) (ks : list nat) (cfg : mpcfg) : Prop :=
  map fst cfg = ks /\ forall k i, dict_get k cfg = Some i -> V k i.
Definition setk (base cfg : mpcfg) (k : nat) : mpcfg := match dict_get k cfg with Some i => dict_set k i base | None => base end.
Definition Sep (V : nat -> nat -> Prop) (f : mpcfg -> Q) : Prop :=
  forall ks base cfg, NoDup ks -> vcfg V ks base -> vcfg V ks cfg ->
    (f cfg - f base == Qsum (fun k => f (setk base cfg k) - f base) ks)%Q.

Lemma vcfg_key V ks cfg k : vcfg V ks cfg -> (In k ks <-> exists i, dict_get k cfg = Some i).
Proof. intros [<- _]. apply dict_get_key. Qed.
Lemma setk_get base cfg k k' : dict_get k' (setk base cfg k) =
  if Nat.eqb k' k then match dict_get k cfg with Some i => Some i | None => dict_get k base end else dict_get k' base.
Proof.
  unfold setk. destruct (dict_get k cfg) as [i|]; [rewrite dict_get_set; reflexivity|]. destruct (Nat.eqb_spec k' k); subst; reflexivity.
Qed.
Lemma dict_set_same_keys {W} k (v : W) d : In k (map fst d) -> map fst (dict_set k v d) = map fst d.
Proof.
  induction d as [|[a b] d IH]; intro H; [destruct H|]. cbn [dict_set map fst] in *. destruct (Nat.eqb_spec k a) as [->|Hn]; [reflexivity|].
  cbn [map fst]. f_equal. apply IH. destruct H as [H|H]; [congruence|exact H].
Qed.
Lemma setk_v V ks base cfg k : vcfg V ks base -> vcfg V ks cfg -> In k ks -> vcfg V ks (setk base cfg k).
Proof.
  intros HB HC Hk. unfold setk. destruct (dict_get k cfg) as [i|] eqn:E; [|exact HB]. destruct HB as [B1 B2], HC as [C1 C2]. split.
  - rewrite dict_set_same_keys by (rewrite B1; exact Hk). exact B1.
  - intros k' j. rewrite dict_get_set. destruct (Nat.eqb_spec k' k) as [->|]; [intro H; inversion H; subst; apply C2; exact E|apply B2].
Qed.
Lemma Qsum_zero {A} (f : A -> Q) l : (forall x, In x l -> (f x == 0)%Q) -> (Qsum f l == 0)%Q.
Proof. induction l as [|x l IH]; intro H; [reflexivity|]. rewrite Qsum_cons, (H x (or_introl eq_refl)), IH by (intros; apply H; right; assumption). ring. Qed.
Lemma Qsum_single {A} (f : A -> Q) l x : NoDup l -> In x l -> (forall y, In y l -> y <> x -> (f y == 0)%Q) -> (Qsum f l == f x)%Q.
Proof.
  induction l as [|y l IH]; intros Hn Hi H; [destruct Hi|]. inversion Hn; subst. rewrite Qsum_cons. destruct Hi as [->|Hi].
  - rewrite Qsum_zero; [ring|]. intros z Hz. apply H; [right; exact Hz|]. intro; subst; contradiction.
  - rewrite (H y) by (try (left; reflexivity); intro; subst; contradiction). rewrite IH; [ring|assumption|exact Hi|]. intros; apply H; [right|]; assumption.
Qed.
Lemma Qsum_plus {A} (f h : A -> Q) l : (Qsum (fun x => f x + h x) l == Qsum f l + Qsum h l)%Q.
Proof. induction l as [|x l IH]; [reflexivity|]. rewrite !Qsum_cons, IH. ring. Qed.

Lemma Sep_key V k (h : option nat -> Q) : Sep V (fun cfg => h (dict_get k cfg)).
Proof.
  intros ks base cfg Hn HB HC. destruct (in_dec Nat.eq_dec k ks) as [Hk|Hk].
  - rewrite (Qsum_single _ ks k Hn Hk).
    + rewrite setk_get, Nat.eqb_refl. destruct (proj1 (vcfg_key _ _ _ _ HC) Hk) as [i ->]. reflexivity.
    + intros y Hy Hne. rewrite setk_get. destruct (Nat.eqb_spec k y); [congruence|]. ring.
  - assert (E1 : dict_get k base = None). { destruct (dict_get k base) eqn:E; [|reflexivity]. exfalso. apply Hk. apply (vcfg_key _ _ _ _ HB). eauto. }
    assert (E2 : dict_get k cfg = None). { destruct (dict_get k cfg) eqn:E; [|reflexivity]. exfalso. apply Hk. apply (vcfg_key _ _ _ _ HC). eauto. }
    rewrite Qsum_zero; [rewrite E1, E2; ring|]. intros y Hy. rewrite setk_get. destruct (Nat.eqb_spec k y) as [->|]; [contradiction|]. ring.
Qed.
Lemma Sep_ext V f h : (forall ks cfg, vcfg V ks cfg -> (f cfg == h cfg)%Q) -> Sep V h -> Sep V f.
Proof.
  intros E H ks base cfg Hn HB HC. rewrite (E ks cfg HC), (E ks base HB), (H ks base cfg Hn HB HC). apply Qsum_ext. intros k Hk.
  rewrite (E ks base HB), (E ks _ (setk_v V ks base cfg k HB HC Hk)). reflexivity.
Qed.
Lemma Sep_plus V f h : Sep V f -> Sep V h -> Sep V (fun cfg => (f cfg + h cfg)%Q).
Proof.
  intros F H ks base cfg Hn HB HC. specialize (F ks base cfg Hn HB HC). specialize (H ks base cfg Hn HB HC).
  setoid_replace (f cfg + h cfg - (f base + h base))%Q with ((f cfg - f base) + (h cfg - h base))%Q by ring. rewrite F, H, <- Qsum_plus.
  apply Qsum_ext. intros; ring.
Qed.
Lemma Sep_const V q : Sep V (fun _ => q).
Proof. intros ks base cfg _ _ _. rewrite Qsum_zero; [ring|]. intros; ring. Qed.
Lemma Sep_sum V {A} (F : A -> mpcfg -> Q) l : (forall x, In x l -> Sep V (F x)) -> Sep V (fun cfg => Qsum (fun x => F x cfg) l).
Proof.
  induction l as [|x l IH]; intro H; [exact (Sep_const V 0%Q)|].
  apply (Sep_ext _ _ (fun cfg => F x cfg + Qsum (fun x => F x cfg) l)%Q); [intros; rewrite Qsum_cons; reflexivity|].
  apply Sep_plus; [apply H; left; reflexivity|apply IH; intros; apply H; right; assumption].
Qed.
(* a function of the entry of a single node *)
Lemma Sep_node V (n : node) (h : option cand -> Q) : Sep V (fun cfg => h (selected cfg n)).
Proof. exact (Sep_key V (n_name n) (fun o => h (match o with Some i => nth_error (n_cands n) i | None => hd_error (n_cands n) end))). Qed.

(* ================= the utilization vectors as functions of the configuration ================= *)
Definition zterm (g : graph) (cfg : mpcfg) (n : node) : Z :=
  match n_kernel n with
  | None => 0%Z
  | Some k => if Z.eqb (n_mac n) 0 then 0%Z else
              match g_prev g (n_name n) with
              | [x] => match find_node g x with
                       | Ok m => match preserved g m with Ok p => (abits cfg p * wbits cfg n k * n_mac n)%Z | Err _ => 0%Z end
                       | Err _ => 0%Z
                       end
              | _ => 0%Z
              end
  end.
Definition ufuns (g : graph) (tg : targets) : list (mpcfg -> Q) :=
  (if t_w tg then [weights_memory g] else []) ++
  (if t_a tg then map (fun ns cfg => Qsum (aterm g cfg) ns) (tcuts g) else []) ++
  (if t_t tg then map (fun ns cfg => (Qsum (aterm g cfg) ns + weights_memory g cfg)%Q) (tcuts g) else []) ++
  (if t_b tg then [fun cfg => Qsum (fun n => inject_Z (zterm g cfg n)) (g_nodes g)] else []).

Lemma tcuts_none g : target_acts g T_AnyQNonFused [] = Ok [] -> tcuts g = [].
Proof.
  intro H. apply filterM_pure in H. unfold tcuts.
  assert (E : forall cut, filter (fun n => okb (is_target_act g T_AnyQNonFused n)) (nodes_of g cut) = []).
  { intro cut. assert (N : forall n, In n (nodes_of g cut) -> okb (is_target_act g T_AnyQNonFused n) = false).
    { intros n Hn. destruct (okb _) eqn:E; [|reflexivity]. exfalso. apply nodes_of_in in Hn. destruct Hn as [Hn _].
      assert (Hi : In n (filter (fun x => okb (is_target_act g T_AnyQNonFused x)) (g_nodes g))) by (apply filter_In; auto). rewrite <- H in Hi. destruct Hi. }
    revert N. induction (nodes_of g cut) as [|n l IH]; intro N; [reflexivity|]. cbn [filter]. rewrite (N n (or_introl eq_refl)). apply IH. intros; apply N; right; assumption. }
  induction (g_cuts g) as [|c cs IH]; [reflexivity|]. cbn [map filter]. rewrite E. exact IH.
Qed.

Lemma Forall2_Qeq_refl l : Forall2 Qeq l l.
Proof. induction l; constructor; [reflexivity|assumption]. Qed.

Lemma act_util_spec g cfg aq wq a cuts : wf_graph g -> quant_candidates g cfg = Ok (aq, wq) ->
  act_utilization g T_AnyQNonFused B_Custom (Some aq) = Ok (a, cuts) ->
  Forall2 Qeq cuts (map (Qsum (aterm g cfg)) (tcuts g)) /\
  (forall c, In c cuts -> (c <= a)%Q) /\ (cuts = [] /\ a = 0%Q \/ In a cuts).
Proof.
  intros W Hq H. unfold act_utilization in H. destruct (target_acts g T_AnyQNonFused []) as [tga|] eqn:Et; [|discriminate]. cbn [bind] in H.
  destruct (act_per_cut g T_AnyQNonFused B_Custom (Some aq)) as [l|] eqn:El; [|discriminate]. cbn [bind] in H.
  destruct (act_per_cut_spec g cfg aq wq l W Hq El) as (tg' & Et' & F). rewrite Et in Et'. assert (tg' = tga) by congruence. subst tg'. clear Et'.
  destruct tga as [|t0 tga].
  - inversion H; subst. rewrite (tcuts_none g Et). split; [constructor|]. split; [intros c []|left; auto].
  - destruct l as [|x l]; [discriminate|]. assert (Ea : a = fold_left q_max l x) by congruence. assert (Ec : cuts = x :: l) by congruence. subst a cuts. clear H.
    split; [exact F|]. destruct (fold_q_max_spec l x) as [A B]. split; [exact A|right; exact B].
Qed.

Lemma node_bops_zterm g cfg aq wq n z : wf_graph g -> In n (g_nodes g) -> quant_candidates g cfg = Ok (aq, wq) ->
  node_bops g T_AnyQNonFused B_Custom (Some aq) (Some wq) n = Ok z -> z = zterm g cfg n.
Proof.
  intros W Hi Hq H. unfold node_bops in H. destruct (validate_qcs g (Some aq) B_Custom); [|discriminate]. cbn [bind] in H.
  unfold zterm. destruct (n_kernel n) as [k|]; [|congruence]. destruct (Z.eqb_spec (n_mac n) 0) as [E0|E0]; [congruence|].
  destruct (g_prev g (n_name n)) as [|x [|y r]] eqn:Ep; try discriminate. destruct (find_node g x) as [m|] eqn:Em; [|discriminate]. cbn [bind] in H.
  destruct (find_node_ok _ _ _ Em) as [Hm _].
  destruct (extract_qc g m (Some aq)) as [qc|] eqn:E1; [|discriminate]. cbn [bind] in H.
  destruct (act_nbits g m B_Custom qc) as [ab|] eqn:E2; [|discriminate]. cbn [bind] in H.
  destruct (weight_nbits n k B_Custom _) as [wb|] eqn:E3; [|discriminate]. cbn [bind] in H. inversion H; subst.
  destruct (act_nbits_spec g cfg aq wq m qc ab W Hm Hq E1 E2) as (p & Hp & ->). rewrite Hp.
  rewrite (weight_nbits_spec g cfg aq wq n k wb W Hi Hq E3). reflexivity.
Qed.
Lemma bops_zterm g cfg aq wq z : wf_graph g -> quant_candidates g cfg = Ok (aq, wq) ->
  bops g T_AnyQNonFused B_Custom (Some aq) (Some wq) = Ok z -> (inject_Z z == Qsum (fun n => inject_Z (zterm g cfg n)) (g_nodes g))%Q.
Proof.
  intros W Hq H. unfold bops in H. destruct (mapM _ (g_nodes g)) as [zs|] eqn:E; [|discriminate]. cbn [bind] in H. inversion H; subst. clear H.
  apply mapM_Forall2 in E.
  assert (G : forall ns zs, incl ns (g_nodes g) ->
      Forall2 (fun n z => node_bops g T_AnyQNonFused B_Custom (Some aq) (Some wq) n = Ok z) ns zs ->
      (inject_Z (fold_left Z.add zs 0%Z) == Qsum (fun n => inject_Z (zterm g cfg n)) ns)%Q).
  { clear E. intros ns zs0 I E. induction E; [reflexivity|]. cbn [fold_left]. rewrite fold_Zadd, Qsum_cons, inject_Z_plus, IHE by (intros u Hu; apply I; right; exact Hu).
    rewrite (node_bops_zterm g cfg aq wq x y W (I x (or_introl eq_refl)) Hq H). rewrite Z.add_0_l. reflexivity. }
  apply G; [intros u Hu; exact Hu|exact E].
Qed.

Lemma Forall2_app' {A B} (R : A -> B -> Prop) a b c d : Forall2 R a b -> Forall2 R c d -> Forall2 R (a ++ c) (b ++ d).
Proof. apply Forall2_app. Qed.

(* everything there is to know about one computed utilization *)
Lemma util_spec g tg cfg u : wf_graph g -> any_target tg = true -> compute_utilization g tg cfg = Ok u ->
  Forall2 Qeq (uflat u) (map (fun f => f cfg) (ufuns g tg)).
Proof.
  intros W Hany H. unfold compute_utilization in H. destruct (quant_candidates g cfg) as [[aq wq]|] eqn:Hq; [|discriminate]. cbn [bind] in H.
  destruct (compute_ru g T_AnyQNonFused B_Custom (Some aq) (Some wq) tg) as [[r cuts]|] eqn:Hc; [|discriminate]. cbn [bind] in H.
  unfold compute_ru in Hc. unfold any_target in Hany. rewrite Hany in Hc.
  destruct (validate_qcs g (Some aq) B_Custom); [|discriminate]. destruct (validate_qcs g (Some wq) B_Custom); [|discriminate]. cbn [bind] in Hc.
  destruct tg as [tw ta tt tb]; cbn [t_w t_a t_t t_b] in *.
  match type of Hc with bind ?c _ = _ => destruct c as [w|] eqn:E1; [|discriminate] end. cbn [bind] in Hc.
  match type of Hc with bind ?c _ = _ => destruct c as [[a cu]|] eqn:E2; [|discriminate] end. cbn [bind] in Hc.
  match type of Hc with bind ?c _ = _ => destruct c as [b|] eqn:E3; [|discriminate] end. cbn [bind] in Hc.
  match type of H with bind ?c _ = _ => destruct c as [w2|] eqn:E4; [|discriminate] end. cbn [bind] in H.
  inversion Hc; subst r cuts. inversion H; subst u. clear H Hc. unfold uflat, ufuns. cbn [u_w u_a u_t u_b ru_w ru_b t_w t_a t_t t_b]. rewrite !map_app.
  apply Forall2_app'; [|apply Forall2_app'; [|apply Forall2_app']].
  - destruct tw; [|constructor]. cbn [orb] in E1. cbn [map]. constructor; [|constructor]. eapply weights_utilization_spec; eauto.
  - destruct ta; [|constructor]. cbn [orb] in E2. destruct (act_util_spec g cfg aq wq a cu W Hq E2) as [F _]. rewrite map_map. exact F.
  - destruct tt; [|constructor]. rewrite orb_true_r in E2. cbn [orb] in E2. destruct (act_util_spec g cfg aq wq a cu W Hq E2) as [F _].
    pose proof (weights_utilization_spec g cfg aq wq w2 W Hq E4) as Ew. rewrite map_map. revert F. generalize (tcuts g). intros tc F.
    remember (map (Qsum (aterm g cfg)) tc) as L. revert tc HeqL. clear E2. induction F; intros tc HL; destruct tc; try discriminate; cbn [map]; constructor.
    + cbn [map] in HL. inversion HL; subst. rewrite H, Ew. reflexivity.
    + cbn [map] in HL. inversion HL; subst. apply IHF. reflexivity.
  - destruct tb; [|constructor]. rewrite !orb_true_r in E3. cbn [map]. constructor; [|constructor]. eapply bops_zterm; eauto.
Qed.

(* when is the bit-operation count a sum of single-node terms? *)
Definition valid_idx (g : graph) (k i : nat) : Prop := forall n, In n (g_nodes g) -> n_name n = k -> i < length (n_cands n).
Lemma selected_valid g ks cfg n : In n (g_nodes g) -> n_cands n <> [] -> vcfg (valid_idx g) ks cfg -> exists c, selected cfg n = Some c /\ In c (n_cands n).
Proof.
  intros Hn Hc [_ V]. unfold selected. destruct (dict_get (n_name n) cfg) as [i|] eqn:E.
  - pose proof (V _ _ E n Hn eq_refl) as Hi. destruct (nth_error (n_cands n) i) as [c|] eqn:Ec; [|apply nth_error_None in Ec; lia].
    exists c. split; [reflexivity|]. eapply nth_error_In; exact Ec.
  - destruct (n_cands n) as [|c r]; [congruence|]. exists c. split; [reflexivity|left; reflexivity].
Qed.
Definition act_fixed (n : node) : Prop := forall c d, In c (n_cands n) -> In d (n_cands n) ->
  (if amode_eqb (a_mode (c_act c)) A_QUANT then a_bits (c_act c) else 32%Z) = (if amode_eqb (a_mode (c_act d)) A_QUANT then a_bits (c_act d) else 32%Z).
Definition wt_fixed (n : node) (k : nat) : Prop := forall c d x y, In c (n_cands n) -> In d (n_cands n) ->
  dict_get k (c_w c) = Some x -> dict_get k (c_w d) = Some y -> (if w_enable x then w_bits x else 32%Z) = (if w_enable y then w_bits y else 32%Z).

Lemma Sep_weights g V : Sep V (weights_memory g).
Proof.
  unfold weights_memory. apply (Sep_sum V (fun n cfg => node_weights_memory cfg n)). intros n Hn.
  apply (Sep_node V n (fun o => if n_reuse n then 0%Q else Qsum (fun p => if quantized_attr n (fst p) then
     (inject_Z (snd p * match o with Some c => match dict_get (fst p) (c_w c) with Some w => if w_enable w then w_bits w else 32%Z | None => 32%Z end | None => 32%Z end) / 8)%Q else 0%Q) (n_wsizes n))).
Qed.
Lemma Sep_aterm g V n : Sep V (fun cfg => aterm g cfg n).
Proof.
  unfold aterm. destruct (preserved g n) as [p|]; [|apply Sep_const].
  apply (Sep_node V p (fun o => inject_Z (n_out n * match o with Some c => if amode_eqb (a_mode (c_act c)) A_QUANT then a_bits (c_act c) else 32%Z | None => 32%Z end) / 8)%Q).
Qed.
Definition bops_uncoupled (g : graph) : Prop :=
  forall n k m p, In n (g_nodes g) -> n_kernel n = Some k -> In m (g_nodes g) -> g_prev g (n_name n) = [n_name m] -> preserved g m = Ok p ->
    act_fixed p \/ wt_fixed n k.
Lemma abits_fixed g ks p : In p (g_nodes g) -> act_fixed p ->
  exists z, forall cfg, vcfg (valid_idx g) ks cfg -> abits cfg p = z.
Proof.
  intros Hp F. destruct (n_cands p) as [|c0 r] eqn:E.
  - exists 32%Z. intros cfg V. unfold abits. destruct (selected cfg p) as [c|] eqn:Es; [|reflexivity]. apply selected_in in Es. rewrite E in Es. destruct Es.
  - eexists. intros cfg V. destruct (selected_valid g ks cfg p Hp ltac:(rewrite E; discriminate) V) as (c & Es & Hc). unfold abits. rewrite Es.
    apply (F c c0 Hc). rewrite E. left; reflexivity.
Qed.
Lemma Sep_zterm g n : wf_graph g -> bops_uncoupled g -> In n (g_nodes g) ->
  (forall k, n_kernel n = Some k -> forall c, In c (n_cands n) -> exists w, dict_get k (c_w c) = Some w) ->
  Sep (valid_idx g) (fun cfg => inject_Z (zterm g cfg n)).
Proof.
  intros W U Hn HK. unfold zterm. destruct (n_kernel n) as [k|] eqn:Ek; [|apply Sep_const]. destruct (Z.eqb (n_mac n) 0); [apply Sep_const|].
  destruct (g_prev g (n_name n)) as [|x [|y r]] eqn:Ep; try apply Sep_const. destruct (find_node g x) as [m|] eqn:Em; [|apply Sep_const].
  destruct (find_node_ok _ _ _ Em) as [Hm Ex]. destruct (preserved g m) as [p|] eqn:Epp; [|apply Sep_const].
  pose proof (source_in g m p Hm (preserved_source g m p Epp)) as Hp.
  destruct (U n k m p Hn Ek Hm ltac:(rewrite Ex; exact Ep) Epp) as [F|F].
  - destruct (n_cands p) as [|c0 r] eqn:Ec.
    + apply (Sep_ext _ _ (fun cfg => inject_Z (32 * wbits cfg n k * n_mac n))).
      * intros ks cfg V. unfold abits. destruct (selected cfg p) as [c|] eqn:Es; [|reflexivity]. apply selected_in in Es. rewrite Ec in Es. destruct Es.
      * apply (Sep_node _ n (fun o => inject_Z (32 * match o with Some c => match dict_get k (c_w c) with Some w => if w_enable w then w_bits w else 32 | None => 32 end | None => 32 end * n_mac n)%Z)).
    + apply (Sep_ext _ _ (fun cfg => inject_Z ((if amode_eqb (a_mode (c_act c0)) A_QUANT then a_bits (c_act c0) else 32) * wbits cfg n k * n_mac n))).
      * intros ks cfg V. destruct (selected_valid g ks cfg p Hp ltac:(rewrite Ec; discriminate) V) as (c & Es & Hc). unfold abits. rewrite Es.
        rewrite (F c c0 Hc) by (rewrite Ec; left; reflexivity). reflexivity.
      * apply (Sep_node _ n (fun o => inject_Z ((if amode_eqb (a_mode (c_act c0)) A_QUANT then a_bits (c_act c0) else 32) * match o with Some c => match dict_get k (c_w c) with Some w => if w_enable w then w_bits w else 32 | None => 32 end | None => 32 end * n_mac n)%Z)).
  - destruct (n_cands n) as [|c0 r] eqn:Ec.
    + apply (Sep_ext _ _ (fun cfg => inject_Z (abits cfg p * 32 * n_mac n))).
      * intros ks cfg V. unfold wbits. destruct (selected cfg n) as [c|] eqn:Es; [|reflexivity]. apply selected_in in Es. rewrite Ec in Es. destruct Es.
      * apply (Sep_node _ p (fun o => inject_Z (match o with Some c => if amode_eqb (a_mode (c_act c)) A_QUANT then a_bits (c_act c) else 32 | None => 32 end * 32 * n_mac n)%Z)).
    + destruct (HK k eq_refl c0) as [w0 Ew0]; [left; reflexivity|].
      apply (Sep_ext _ _ (fun cfg => inject_Z (abits cfg p * (if w_enable w0 then w_bits w0 else 32) * n_mac n))).
      * intros ks cfg V. destruct (selected_valid g ks cfg n Hn ltac:(rewrite Ec; discriminate) V) as (c & Es & Hc). unfold wbits. rewrite Es.
        destruct (HK k eq_refl c) as [w Ew]; [rewrite <- Ec; exact Hc|]. rewrite Ew. 
        rewrite (F c c0 w w0 Hc) by (try (rewrite Ec; left; reflexivity); assumption). reflexivity.
      * apply (Sep_node _ p (fun o => inject_Z (match o with Some c => if amode_eqb (a_mode (c_act c)) A_QUANT then a_bits (c_act c) else 32 | None => 32 end * (if w_enable w0 then w_bits w0 else 32) * n_mac n)%Z)).
Qed.
Definition kernels_configured (g : graph) : Prop :=
  forall n k, In n (g_nodes g) -> n_kernel n = Some k -> forall c, In c (n_cands n) -> exists w, dict_get k (c_w c) = Some w.
Lemma ufuns_Sep g tg : wf_graph g -> (t_b tg = true -> bops_uncoupled g /\ kernels_configured g) -> Forall (Sep (valid_idx g)) (ufuns g tg).
Proof.
  intros W HB. unfold ufuns. repeat (apply Forall_app; split).
  - destruct (t_w tg); [|constructor]. constructor; [apply Sep_weights|constructor].
  - destruct (t_a tg); [|constructor]. apply Forall_forall. intros f Hf. apply in_map_iff in Hf. destruct Hf as (ns & <- & _).
    apply (Sep_sum _ (fun n cfg => aterm g cfg n)). intros; apply Sep_aterm.
  - destruct (t_t tg); [|constructor]. apply Forall_forall. intros f Hf. apply in_map_iff in Hf. destruct Hf as (ns & <- & _).
    apply Sep_plus; [|apply Sep_weights]. apply (Sep_sum _ (fun n cfg => aterm g cfg n)). intros; apply Sep_aterm.
  - destruct (t_b tg); [|constructor]. destruct (HB eq_refl) as [U K]. constructor; [|constructor].
    apply (Sep_sum _ (fun n cfg => inject_Z (zterm g cfg n))). intros n Hn. apply Sep_zterm; auto. intros k Ek. apply (K n k Hn Ek).
Qed.

(* ================= shape of the vectors ================= *)
Lemma util_shape g tg cfg u : wf_graph g -> any_target tg = true -> compute_utilization g tg cfg = Ok u ->
  length (u_w u) = (if t_w tg then 1 else 0) /\ length (u_a u) = (if t_a tg then length (tcuts g) else 0) /\
  length (u_t u) = (if t_t tg then length (tcuts g) else 0) /\ length (u_b u) = (if t_b tg then 1 else 0).
Proof.
  intros W Hany H. unfold compute_utilization in H. destruct (quant_candidates g cfg) as [[aq wq]|] eqn:Hq; [|discriminate]. cbn [bind] in H.
  destruct (compute_ru g T_AnyQNonFused B_Custom (Some aq) (Some wq) tg) as [[r cuts]|] eqn:Hc; [|discriminate]. cbn [bind] in H.
  unfold compute_ru in Hc. unfold any_target in Hany. rewrite Hany in Hc.
  destruct (validate_qcs g (Some aq) B_Custom); [|discriminate]. destruct (validate_qcs g (Some wq) B_Custom); [|discriminate]. cbn [bind] in Hc.
  destruct tg as [tw ta tt tb]; cbn [t_w t_a t_t t_b] in *.
  match type of Hc with bind ?c _ = _ => destruct c as [w|] eqn:E1; [|discriminate] end. cbn [bind] in Hc.
  match type of Hc with bind ?c _ = _ => destruct c as [[a cu]|] eqn:E2; [|discriminate] end. cbn [bind] in Hc.
  match type of Hc with bind ?c _ = _ => destruct c as [b|] eqn:E3; [|discriminate] end. cbn [bind] in Hc.
  match type of H with bind ?c _ = _ => destruct c as [w2|] eqn:E4; [|discriminate] end. cbn [bind] in H.
  inversion Hc; subst r cuts. inversion H; subst u. clear H Hc. cbn [u_w u_a u_t u_b ru_w ru_b].
  assert (L : ta || tt = true -> length cu = length (tcuts g)).
  { intro Ht. rewrite Ht in E2. cbn [orb] in E2. destruct (act_util_spec g cfg aq wq a cu W Hq E2) as [F _]. apply Forall2_length in F. rewrite map_length in F. exact F. }
  repeat split.
  - destruct tw; reflexivity.
  - destruct ta; [apply L; reflexivity|reflexivity].
  - destruct tt; [rewrite map_length; apply L; apply orb_true_r|reflexivity].
  - destruct tb; reflexivity.
Qed.
Definition tvec (g : graph) (t : ru) : list Q :=
  match ru_w t with Some q => [q] | None => [] end ++
  match ru_a t with Some q => map (fun _ => q) (tcuts g) | None => [] end ++
  match ru_t t with Some q => map (fun _ => q) (tcuts g) | None => [] end ++
  match ru_b t with Some q => [q] | None => [] end.
Lemma spread_len q (l : list Q) {A} (l' : list A) : length l = length l' -> map (fun _ => q) l = map (fun _ : A => q : Q) l'.
Proof. revert l'. induction l as [|x l IH]; intros [|y l'] H; try discriminate; [reflexivity|]. cbn [map]. f_equal. apply IH. cbn in H; lia. Qed.
Lemma tflat_tvec g target cfg u : wf_graph g -> any_target (restricted_targets target) = true ->
  compute_utilization g (restricted_targets target) cfg = Ok u -> tflat target u = tvec g target.
Proof.
  intros W Ha H. destruct (util_shape _ _ _ _ W Ha H) as (L1 & L2 & L3 & L4). unfold tflat, tvec, spread, restricted_targets in *. cbn [t_w t_a t_t t_b] in *.
  f_equal; [|f_equal; [|f_equal]].
  - destruct (ru_w target); [|reflexivity]. exact (spread_len q (u_w u) [tt] L1).
  - destruct (ru_a target); [|reflexivity]. exact (spread_len q (u_a u) (tcuts g) L2).
  - destruct (ru_t target); [|reflexivity]. exact (spread_len q (u_t u) (tcuts g) L3).
  - destruct (ru_b target); [|reflexivity]. exact (spread_len q (u_b u) [tt] L4).
Qed.
Lemma ufuns_tvec_len g target : length (ufuns g (restricted_targets target)) = length (tvec g target).
Proof.
  unfold ufuns, tvec, restricted_targets. cbn [t_w t_a t_t t_b]. rewrite !app_length.
  destruct (ru_w target), (ru_a target), (ru_t target), (ru_b target); cbn [restricted length]; rewrite ?map_length; reflexivity.
Qed.

Lemma Forall2_app_split {A B} (R : A -> B -> Prop) a b c d : length a = length b -> (Forall2 R (a ++ c) (b ++ d) <-> Forall2 R a b /\ Forall2 R c d).
Proof.
  revert b. induction a as [|x a IH]; intros [|y b] H; try discriminate; cbn [app].
  - split; [intro F; split; [constructor|exact F]|intros [_ F]; exact F].
  - cbn in H. specialize (IH b ltac:(lia)). split.
    + intro F. inversion F; subst. apply IH in H5. destruct H5. split; [constructor; assumption|assumption].
    + intros [F1 F2]. inversion F1; subst. constructor; [assumption|]. apply IH. auto.
Qed.
Lemma Forall2_const {A} (f : A -> Q) (q : Q) l : Forall2 Qle (map f l) (map (fun _ => q) l) <-> forall x, In x l -> (f x <= q)%Q.
Proof.
  induction l as [|x l IH]; cbn [map].
  - split; [intros _ x []|constructor].
  - split.
    + intros F y [<-|Hy]; inversion F; subst; [assumption|]. apply IH; assumption.
    + intro H. constructor; [apply H; left; reflexivity|]. apply IH. intros; apply H; right; assumption.
Qed.

(* satisfying the target is the same as staying below it in every memory element *)
Lemma fits_iff g target cfg r : wf_graph g -> any_target (restricted_targets target) = true ->
  (ru_t target <> None -> exists n, In n (g_nodes g) /\ counted g n) ->
  (forall q, ru_a target = Some q -> (0 <= q)%Q \/ exists n, In n (g_nodes g) /\ counted g n) ->
  ru_for_config g (restricted_targets target) cfg = Ok r ->
  (is_satisfied_by target r = true <-> Forall2 Qle (map (fun f => f cfg) (ufuns g (restricted_targets target))) (tvec g target)).
Proof.
  intros W Ha HT HA H. destruct (ru_for_config_inv g _ cfg r Ha H) as (aq & wq & Hq & w & a & b & cuts & Ew & Ea & Eb & ->).
  unfold restricted_targets in *. cbn [t_w t_a t_t t_b] in *.
  assert (NE : (exists n, In n (g_nodes g) /\ counted g n) -> restricted (ru_a target) || restricted (ru_t target) = true -> cuts <> []).
  { intros (n & Hn & Hc) Hx. specialize (Ea Hx). unfold act_utilization in Ea. destruct (target_acts g T_AnyQNonFused []) as [tga|] eqn:Et; [|discriminate]. cbn [bind] in Ea.
    destruct (act_per_cut g T_AnyQNonFused B_Custom (Some aq)) as [l|] eqn:El; [|discriminate]. cbn [bind] in Ea.
    destruct (filterM_ok _ _ _ n Et Hn) as [bb Hb]. pose proof (filterM_pure _ _ _ Et) as Ep. cbn beta iota in Ep.
    assert (Hi : In n tga). { rewrite Ep. apply filter_In. split; [exact Hn|]. unfold okb. cbn beta iota in Hb. rewrite Hb. rewrite (proj2 (is_target_spec g n bb Hb) Hc). reflexivity. }
    destruct tga as [|t0 tga]; [destruct Hi|]. destruct l as [|x l]; [discriminate|]. intro E. rewrite E in Ea. discriminate. }
  unfold is_satisfied_by. rewrite !andb_true_iff. unfold ufuns, tvec. cbn [ru_w ru_a ru_t ru_b t_w t_a t_t t_b]. rewrite !map_app.
  rewrite !Forall2_app_split.
  2: destruct (ru_t target); cbn [restricted]; rewrite ?map_length; reflexivity.
  2: destruct (ru_a target); cbn [restricted]; rewrite ?map_length; reflexivity.
  2: destruct (ru_w target); cbn [restricted]; reflexivity.
  assert (PW : le_inf (if restricted (ru_w target) then Some w else None) (ru_w target) = true <->
     Forall2 Qle (map (fun f => f cfg) (if restricted (ru_w target) then [weights_memory g] else [])) match ru_w target with Some q => [q] | None => [] end).
  { destruct (ru_w target) as [q|]; cbn [restricted le_inf map]; [|split; [constructor|reflexivity]]. rewrite Qle_bool_iff.
    pose proof (weights_utilization_spec g cfg aq wq w W Hq (Ew eq_refl)) as E. split; [intro L; constructor; [rewrite <- E; exact L|constructor]|].
    intro F. inversion F; subst. rewrite E. assumption. }
  assert (PA : le_inf (if restricted (ru_a target) then Some a else None) (ru_a target) = true <->
     Forall2 Qle (map (fun f => f cfg) (if restricted (ru_a target) then map (fun ns cfg => Qsum (aterm g cfg) ns) (tcuts g) else [])) match ru_a target with Some q => map (fun _ => q) (tcuts g) | None => [] end).
  { destruct (ru_a target) as [q|]; cbn [restricted le_inf]; [|split; [constructor|reflexivity]]. rewrite Qle_bool_iff, map_map.
    destruct (act_util_spec g cfg aq wq a cuts W Hq (Ea eq_refl)) as (F & Mx & Wit). rewrite Forall2_const. split.
    - intros L ns Hns. assert (Hm : In (Qsum (aterm g cfg) ns) (map (Qsum (aterm g cfg)) (tcuts g))) by (apply in_map; exact Hns).
      destruct (Forall2_in_r _ _ _ _ F Hm) as (c & Hc & Ec). rewrite <- Ec. eapply Qle_trans; [apply Mx; exact Hc|exact L].
    - intro L. destruct Wit as [[Ec Ez]|Hin].
      + subst a. destruct (HA q eq_refl) as [P|P]; [exact P|]. exfalso. apply (NE P eq_refl Ec).
      + destruct (Forall2_in_l _ _ _ _ F Hin) as (y & Hy & Ey). apply in_map_iff in Hy. destruct Hy as (ns & <- & Hns). rewrite Ey. apply L; exact Hns. }
  assert (PT : le_inf (if restricted (ru_t target) then Some (w + a)%Q else None) (ru_t target) = true <->
     Forall2 Qle (map (fun f => f cfg) (if restricted (ru_t target) then map (fun ns cfg => (Qsum (aterm g cfg) ns + weights_memory g cfg)%Q) (tcuts g) else [])) match ru_t target with Some q => map (fun _ => q) (tcuts g) | None => [] end).
  { destruct (ru_t target) as [q|]; cbn [restricted le_inf]; [|split; [constructor|reflexivity]]. rewrite Qle_bool_iff, map_map.
    cbn [restricted] in *. rewrite !orb_true_r in *.
    pose proof (weights_utilization_spec g cfg aq wq w W Hq (Ew eq_refl)) as E.
    destruct (act_util_spec g cfg aq wq a cuts W Hq (Ea eq_refl)) as (F & Mx & Wit). rewrite (Forall2_const (fun ns => (Qsum (aterm g cfg) ns + weights_memory g cfg)%Q)). split.
    - intros L ns Hns. assert (Hm : In (Qsum (aterm g cfg) ns) (map (Qsum (aterm g cfg)) (tcuts g))) by (apply in_map; exact Hns).
      destruct (Forall2_in_r _ _ _ _ F Hm) as (c & Hc & Ec). rewrite <- Ec, <- E. specialize (Mx c Hc). lra.
    - intro L. destruct Wit as [[Ec Ez]|Hin].
      + exfalso. apply (NE (HT ltac:(discriminate)) eq_refl Ec).
      + destruct (Forall2_in_l _ _ _ _ F Hin) as (y & Hy & Ey). apply in_map_iff in Hy. destruct Hy as (ns & <- & Hns). rewrite Ey, E, Qplus_comm. apply L; exact Hns. }
  assert (PB : le_inf (if restricted (ru_b target) then Some (inject_Z b) else None) (ru_b target) = true <->
     Forall2 Qle (map (fun f => f cfg) (if restricted (ru_b target) then [fun cfg => Qsum (fun n => inject_Z (zterm g cfg n)) (g_nodes g)] else [])) match ru_b target with Some q => [q] | None => [] end).
  { destruct (ru_b target) as [q|]; cbn [restricted le_inf map]; [|split; [constructor|reflexivity]]. rewrite Qle_bool_iff.
    pose proof (bops_zterm g cfg aq wq b W Hq (Eb eq_refl)) as E. split; [intro L; constructor; [rewrite <- E; exact L|constructor]|].
    intro F. inversion F; subst. rewrite E. assumption. }
  rewrite PW, PA, PT, PB. tauto.
Qed.

(* ================= the program's rows ================= *)
Lemma conf_sub g conf : configurable_nodes g = Ok conf -> incl conf (g_nodes g).
Proof. intros H n Hn. apply filterM_pure in H. subst conf. apply filter_In in Hn. tauto. Qed.
Lemma nodup_map_filter {A B} (f : A -> B) p l : NoDup (map f l) -> NoDup (map f (filter p l)).
Proof.
  induction l as [|x l IH]; intro H; [constructor|]. cbn [map] in H. inversion H; subst. cbn [filter]. destruct (p x); [|apply IH; assumption].
  cbn [map]. constructor; [|apply IH; assumption]. intro Hi. apply H2. apply in_map_iff in Hi. destruct Hi as (y & E & Hy). rewrite <- E. apply in_map. apply filter_In in Hy. tauto.
Qed.
Lemma conf_nodup g conf : wf_graph g -> configurable_nodes g = Ok conf -> NoDup (map n_name conf).
Proof. intros W H. apply filterM_pure in H. subst conf. apply nodup_map_filter. apply (wf_names g W). Qed.
Lemma name_inj g n m : wf_graph g -> In n (g_nodes g) -> In m (g_nodes g) -> n_name n = n_name m -> n = m.
Proof.
  intros W Hn Hm E. pose proof (find_node_in g n (wf_names g W) Hn) as A. pose proof (find_node_in g m (wf_names g W) Hm) as B. rewrite E in A. congruence.
Qed.
Lemma assignment_keys conf cfg : assignment conf cfg -> map fst cfg = map n_name conf.
Proof. induction 1 as [|n p conf cfg [E _] F IH]; [reflexivity|]. cbn [map]. rewrite E, IH. reflexivity. Qed.
Lemma dict_get_first {W} k (v : W) d : dict_get k ((k, v) :: d) = Some v.
Proof. cbn. rewrite Nat.eqb_refl. reflexivity. Qed.
Lemma assignment_get g conf cfg k i : wf_graph g -> incl conf (g_nodes g) -> NoDup (map n_name conf) -> assignment conf cfg ->
  dict_get k cfg = Some i -> exists n, In n conf /\ n_name n = k /\ i < length (n_cands n).
Proof.
  intros W I N F. induction F as [|n [k' j] conf cfg [E L] F IH]; intro H; [discriminate|]. cbn [fst snd] in *. cbn [dict_get find fst] in H. unfold dict_get in *. cbn [find fst] in H.
  destruct (Nat.eqb_spec k k') as [->|Hn].
  - cbn in H. inversion H; subst. exists n. split; [left; reflexivity|]. auto.
  - cbn [map] in N. inversion N; subst. destruct IH as (m & A & B & C); [intros x Hx; apply I; right; exact Hx|assumption|exact H|]. exists m. split; [right; exact A|auto].
Qed.
Lemma assignment_vcfg g conf cfg : wf_graph g -> incl conf (g_nodes g) -> NoDup (map n_name conf) -> assignment conf cfg ->
  vcfg (valid_idx g) (map n_name conf) cfg.
Proof.
  intros W I N F. split; [apply assignment_keys; exact F|]. intros k i H m Hm E. destruct (assignment_get g conf cfg k i W I N F H) as (n & A & B & C).
  assert (n = m) by (apply (name_inj g); auto; congruence). subst. exact C.
Qed.
Lemma dict_set_id {W} k (v : W) d : dict_get k d = Some v -> dict_set k v d = d.
Proof.
  induction d as [|[a b] d IH]; intro H; [discriminate|]. unfold dict_get in *. cbn [find fst dict_set] in *. destruct (Nat.eqb_spec k a) as [->|].
  - cbn in H. inversion H; reflexivity.
  - f_equal. apply IH. exact H.
Qed.
Lemma minus_nth a : forall b j, length a = length b -> (nth j (minus a b) 0 == nth j a 0 - nth j b 0)%Q.
Proof.
  unfold minus. induction a as [|x a IH]; intros [|y b] j H; try discriminate; cbn [combine map]; destruct j; cbn [nth]; try ring; [cbn [fst snd]; ring|].
  apply IH. cbn in H; lia.
Qed.
Lemma minus_len a b : length a = length b -> length (minus a b) = length a.
Proof. intro H. unfold minus. rewrite map_length, combine_length. lia. Qed.
Lemma Forall2_Qeq_nth a b j : Forall2 Qeq a b -> (nth j a 0 == nth j b 0)%Q.
Proof. intro F. revert j. induction F; intros [|j]; cbn [nth]; try reflexivity; [assumption|apply IHF]. Qed.

Definition uval (g : graph) (tg : targets) (j : nat) (cfg : mpcfg) : Q := nth j (ufuns g tg) (fun _ => 0%Q) cfg.
Lemma uval_nth g tg j cfg : nth j (map (fun f => f cfg) (ufuns g tg)) 0%Q = uval g tg j cfg.
Proof. unfold uval. rewrite <- (map_nth (fun f : mpcfg -> Q => f cfg)). reflexivity. Qed.
Lemma util_nth g tg cfg u j : wf_graph g -> any_target tg = true -> compute_utilization g tg cfg = Ok u -> (nth j (uflat u) 0 == uval g tg j cfg)%Q.
Proof. intros W A H. rewrite (Forall2_Qeq_nth _ _ j (util_spec g tg cfg u W A H)), uval_nth. reflexivity. Qed.
Lemma util_len g tg cfg u : wf_graph g -> any_target tg = true -> compute_utilization g tg cfg = Ok u -> length (uflat u) = length (ufuns g tg).
Proof. intros W A H. rewrite (Forall2_length _ _ _ (util_spec g tg cfg u W A H)), map_length. reflexivity. Qed.

Lemma rows_spec g tg conf mincfg minu rows : wf_graph g -> any_target tg = true -> compute_utilization g tg mincfg = Ok minu ->
  relative_rows g tg conf mincfg minu = Ok rows ->
  exists R, rows = concat R /\
    Forall2 (fun n Rn => Forall2 (fun i row => forall j, (nth j row 0 == uval g tg j (dict_set (n_name n) i mincfg) - uval g tg j mincfg)%Q)
                                 (seq 0 (length (n_cands n))) Rn) conf R.
Proof.
  intros W A Hm H. unfold relative_rows in H. destruct (mapM _ conf) as [R|] eqn:E; [|discriminate]. cbn [bind] in H. inversion H; subst rows. exists R. split; [reflexivity|].
  apply mapM_Forall2 in E. eapply Forall2_impl; [|exact E]. cbn beta. intros n Rn En. apply mapM_Forall2 in En. eapply Forall2_impl; [|exact En]. cbn beta.
  intros i row Er j. 
  assert (X : exists u, compute_utilization g tg (dict_set (n_name n) i mincfg) = Ok u /\ row = minus (uflat u) (uflat minu)).
  { destruct (dict_get (n_name n) mincfg) as [j0|] eqn:Ed.
    - destruct (Nat.eqb_spec i j0) as [->|].
      + cbn [bind] in Er. exists minu. rewrite dict_set_id by exact Ed. split; [exact Hm|congruence].
      + destruct (compute_utilization g tg (dict_set (n_name n) i mincfg)) as [u|]; [|discriminate]. cbn [bind] in Er. exists u. split; [reflexivity|congruence].
    - destruct (compute_utilization g tg (dict_set (n_name n) i mincfg)) as [u|]; [|discriminate]. cbn [bind] in Er. exists u. split; [reflexivity|congruence]. }
  destruct X as (u & Hu & ->). rewrite minus_nth by (rewrite (util_len _ _ _ _ W A Hu), (util_len _ _ _ _ W A Hm); reflexivity).
  rewrite (util_nth _ _ _ _ j W A Hu), (util_nth _ _ _ _ j W A Hm). reflexivity.
Qed.

(* the indicators [x] pick exactly the candidates of [idx] *)
Definition picks (x : list Q) (i : nat) : Prop :=
  i < length x /\ forall c, length c = length x -> (dot x c == nth i c 0)%Q.
Lemma dot_column j R : forall X idx,
  Forall2 (fun Rn x => length x = length Rn) R X -> Forall2 picks X idx ->
  (dot (column j (concat R)) (concat X) == Qsum (fun q => nth j (nth (snd q) (fst q) []) 0) (combine R idx))%Q.
Proof.
  induction R as [|Rn R IH]; intros X idx FL FP.
  { inversion FL; subst. inversion FP; subst. reflexivity. }
  inversion FL as [|? x ? l' E1 FL']; subst. inversion FP as [|? y0 ? l'0 HP FP']; subst.
  cbn [concat combine]. unfold column in *. rewrite map_app, dot_app by (rewrite map_length; congruence). rewrite Qsum_cons. cbn [fst snd].
  rewrite (IH l' l'0) by assumption. destruct HP as [L P]. rewrite dot_comm, P by (rewrite map_length; congruence).
  apply Qplus_inj_r. assert (E : nth y0 (map (fun r => nth j r 0%Q) Rn) 0%Q = nth j (nth y0 Rn []) 0%Q).
  { rewrite <- (map_nth (fun r => nth j r 0%Q) Rn [] y0). destruct j; reflexivity. }
  rewrite E. reflexivity.
Qed.
Lemma nth_seq_row {A} (P : nat -> A -> Prop) d n : forall s l, Forall2 P (seq s n) l -> forall i, i < n -> P (s + i) (nth i l d).
Proof.
  induction n as [|n IH]; intros s l F i Hi; [lia|]. cbn [seq] in F. inversion F; subst. destruct i as [|i]; cbn [nth]; [rewrite Nat.add_0_r; assumption|].
  replace (s + S i) with (S s + i) by lia. apply IH; [assumption|lia].
Qed.
Lemma Qsum_combine {A B} (h : A -> Q) (k : B -> Q) (R : A -> B -> Prop) l m : Forall2 R l m -> (forall a b, R a b -> (h a == k b)%Q) -> (Qsum h l == Qsum k m)%Q.
Proof. intros F H. induction F; [reflexivity|]. rewrite !Qsum_cons, IHF, (H _ _ H0). reflexivity. Qed.

(* value of one constraint row at the indicators of an assignment *)
Lemma row_value g tg conf mincfg R X cfg j : wf_graph g -> incl conf (g_nodes g) -> NoDup (map n_name conf) ->
  (t_b tg = true -> bops_uncoupled g /\ kernels_configured g) ->
  assignment conf mincfg -> assignment conf cfg ->
  Forall2 (fun n Rn => Forall2 (fun i row => forall j, (nth j row 0 == uval g tg j (dict_set (n_name n) i mincfg) - uval g tg j mincfg)%Q)
                                 (seq 0 (length (n_cands n))) Rn) conf R ->
  Forall2 (fun Rn x => length x = length Rn) R X -> Forall2 picks X (map snd cfg) ->
  (dot (column j (concat R)) (concat X) == uval g tg j cfg - uval g tg j mincfg)%Q.
Proof.
  intros W I N HB Hmin Hcfg HR HL HP. rewrite (dot_column j R X (map snd cfg) HL HP).
  assert (SJ : Sep (valid_idx g) (uval g tg j)).
  { unfold uval. destruct (Nat.lt_ge_cases j (length (ufuns g tg))) as [Hj|Hj].
    - pose proof (ufuns_Sep g tg W HB) as F. rewrite Forall_forall in F. apply F. apply nth_In. exact Hj.
    - rewrite nth_overflow by exact Hj. apply Sep_const. }
  rewrite (SJ (map n_name conf) mincfg cfg N (assignment_vcfg g conf mincfg W I N Hmin) (assignment_vcfg g conf cfg W I N Hcfg)).
  (* node by node *)
  assert (GG : forall conf0 cfg0 R0, assignment conf0 cfg0 ->
     Forall2 (fun n Rn => Forall2 (fun i row => forall j, (nth j row 0 == uval g tg j (dict_set (n_name n) i mincfg) - uval g tg j mincfg)%Q) (seq 0 (length (n_cands n))) Rn) conf0 R0 ->
     (forall p, In p cfg0 -> dict_get (fst p) cfg = Some (snd p)) ->
     (Qsum (fun q => nth j (nth (snd q) (fst q) []) 0) (combine R0 (map snd cfg0)) ==
      Qsum (fun k => uval g tg j (setk mincfg cfg k) - uval g tg j mincfg) (map n_name conf0))%Q).
  { clear. intros conf0 cfg0 R0 F. revert R0. induction F as [|n [k i] conf0 cfg0 [E L] F IH]; intros R0 HR G; inversion HR; subst; [reflexivity|].
    cbn [fst snd] in *. subst k. cbn [map combine snd]. rewrite !Qsum_cons. cbn [fst snd]. rewrite IH by (try assumption; intros; apply G; right; assumption).
    apply Qplus_inj_r. unfold setk. pose proof (G (n_name n, i) (or_introl eq_refl)) as Gn. cbn [fst snd] in Gn. rewrite Gn.
    exact (nth_seq_row _ [] _ _ _ H1 i L j). }
  apply GG; [exact Hcfg|exact HR|]. intros [k i] Hp. cbn [fst snd]. apply dict_in_get; [|exact Hp]. rewrite (assignment_keys _ _ Hcfg). exact N.
Qed.
