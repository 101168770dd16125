(* MPSearchProps.v -- C16: the mixed-precision search returns a configuration that fits the target and is the least
   sensitive among those that fit; it fails only when nothing fits. *)
From Verif Require Import Base HessianModel HessianProofs MPModel MPSpec MPProofs RULemmas RUProps MPSearchModel MPSearchSpec MPSearchProofs MPSearchLemmas SearchProofs.
From Coq Require Import Permutation Lqa.
Local Open Scope nat_scope.

(* The solver's contract: what it returns is optimal for the program it is given; it gives up only on an infeasible one. *)
Definition solver_sound (solver : lp -> option (list (list Q))) : Prop := forall p x, solver p = Some x -> exists s, lp_optimal p x s.
Definition solver_complete (solver : lp -> option (list (list Q))) : Prop := forall p, solver p = None -> forall x s, ~ lp_feasible p x s.

(* The situations in which the program's constraints say the same as the target:
   - a total-memory target needs some activation that is counted (otherwise the constraint disappears, see the refutation
     below), an activation target must not be negative;
   - with a bit-operations target, no kernel may have both its own and its input's bit-width configurable (the code then
     searches a different, "virtual" graph; see C19). *)
Record measurable (g : graph) (target : ru) : Prop := {
  ms_some : any_target (restricted_targets target) = true;
  ms_total : ru_t target <> None -> exists n, In n (g_nodes g) /\ counted g n;
  ms_act : forall q, ru_a target = Some q -> (0 <= q)%Q;
  ms_bops : ru_b target <> None -> bops_uncoupled g /\ kernels_configured g;
}.

Lemma nth_map_seq {A} (f : nat -> A) d n j : j < n -> nth j (map f (seq 0 n)) d = f j.
Proof. intro H. rewrite nth_indep with (d' := f 0) by (rewrite map_length, seq_length; exact H). rewrite map_nth, seq_nth by exact H. reflexivity. Qed.
Lemma Forall2_nth_iff (a b : list Q) : length a = length b -> (Forall2 Qle a b <-> forall j, j < length a -> (nth j a 0 <= nth j b 0)%Q).
Proof.
  revert b. induction a as [|x a IH]; intros [|y b] L; try discriminate.
  - split; [intros _ j Hj; cbn in Hj; lia|constructor].
  - cbn in L. specialize (IH b ltac:(lia)). split.
    + intros F [|j] Hj; inversion F; subst; cbn [nth]; [assumption|]. apply IH; [assumption|cbn in Hj; lia].
    + intro H. constructor; [apply (H 0); cbn; lia|]. apply IH. intros j Hj. apply (H (S j)). cbn; lia.
Qed.

(* the constraint rows hold at the indicators of [cfg] exactly when [cfg] stays below the target everywhere *)
Lemma rows_iff g target conf mincfg minu rows X cfg : wf_graph g -> measurable g target ->
  configurable_nodes g = Ok conf -> assignment conf mincfg ->
  compute_utilization g (restricted_targets target) mincfg = Ok minu ->
  relative_rows g (restricted_targets target) conf mincfg minu = Ok rows ->
  assignment conf cfg -> Forall2 (fun n x => length x = length (n_cands n)) conf X -> Forall2 picks X (map snd cfg) ->
  let rel := minus (tflat target minu) (uflat minu) in
  (Forall (fun row => (dot (fst row) (concat X) <= snd row)%Q) (map (fun j => (column j rows, nth j rel 0%Q)) (seq 0 (length rel))) <->
   Forall2 Qle (map (fun f => f cfg) (ufuns g (restricted_targets target))) (tvec g target)).
Proof.
  intros W M HC Hmin Hu HR Hcfg HX HP rel. destruct M as [M1 M2 M3 M4]. set (tg := restricted_targets target) in *.
  destruct (rows_spec g tg conf mincfg minu rows W M1 Hu HR) as (R & -> & FR).
  assert (HB : t_b tg = true -> bops_uncoupled g /\ kernels_configured g).
  { unfold tg, restricted_targets. cbn [t_b]. intro E. apply M4. destruct (ru_b target); [discriminate|discriminate E]. }
  assert (HL : Forall2 (fun Rn x => length x = length Rn) R X).
  { clear - FR HX. revert X HX. induction FR; intros X HX; inversion HX; subst; constructor; [|apply IHFR; assumption].
    apply Forall2_length in H. rewrite seq_length in H. congruence. }
  assert (RV : forall j, (dot (column j (concat R)) (concat X) == uval g tg j cfg - uval g tg j mincfg)%Q).
  { intro j. apply (row_value g tg conf mincfg R X cfg j W (conf_sub g conf HC) (conf_nodup g conf W HC) HB Hmin Hcfg FR HL HP). }
  assert (EL : length (tflat target minu) = length (uflat minu)).
  { rewrite (tflat_tvec g target mincfg minu W M1 Hu), <- ufuns_tvec_len. symmetry. apply (util_len g tg mincfg minu W M1 Hu). }
  assert (ER : length rel = length (ufuns g tg)) by (unfold rel; rewrite minus_len, EL by exact EL; apply (util_len g tg mincfg minu W M1 Hu)).
  assert (RJ : forall j, (nth j rel 0 == nth j (tvec g target) 0 - uval g tg j mincfg)%Q).
  { intro j. unfold rel. rewrite minus_nth by exact EL. rewrite (tflat_tvec g target mincfg minu W M1 Hu), (util_nth g tg mincfg minu j W M1 Hu). reflexivity. }
  rewrite Forall2_nth_iff by (rewrite map_length; apply ufuns_tvec_len). rewrite map_length. fold tg.
  split.
  - intros F j Hj. rewrite uval_nth. rewrite Forall_forall in F. specialize (F (column j (concat R), nth j rel 0%Q)).
    cbn [fst snd] in F. assert (F' : (dot (column j (concat R)) (concat X) <= nth j rel 0)%Q).
    { apply F. apply in_map_iff. exists j. split; [reflexivity|]. apply in_seq. lia. }
    clear F. specialize (RV j). specialize (RJ j). lra.
  - intro F. apply Forall_forall. intros row Hr. apply in_map_iff in Hr. destruct Hr as (j & <- & Hj). apply in_seq in Hj. cbn [fst snd]. specialize (RV j). specialize (RJ j).
    specialize (F j ltac:(lia)). rewrite uval_nth in F. lra.
Qed.

Section Search.
Variables (metric : nat -> nat -> Q) (nm : norm) (eps : option Q) (thr : Q) (solver : lp -> option (list (list Q))).

Lemma search_inv g target cfg : search metric nm eps thr solver g target = Ok cfg ->
  exists conf mincfg minu rows sens x idx, let rel := minus (tflat target minu) (uflat minu) in
    configurable_nodes g = Ok conf /\ min_config conf = Ok mincfg /\ compute_utilization g (restricted_targets target) mincfg = Ok minu /\
    relative_rows g (restricted_targets target) conf mincfg minu = Ok rows /\ sensitivity_table metric nm eps thr conf = Ok sens /\
    solver (mkLP sens (map (fun j => (column j rows, nth j rel 0%Q)) (seq 0 (length rel)))) = Some x /\
    mapM (index_one 0) x = Ok idx /\ cfg = combine (map n_name conf) idx.
Proof.
  unfold search. destruct (configurable_nodes g) as [conf|]; [|discriminate]. cbn [bind]. destruct (min_config conf) as [mincfg|] eqn:E1; [|discriminate]. cbn [bind].
  destruct (compute_utilization g (restricted_targets target) mincfg) as [minu|] eqn:E2; [|discriminate]. cbn [bind].
  destruct (relative_rows g (restricted_targets target) conf mincfg minu) as [rows|] eqn:E3; [|discriminate]. cbn [bind].
  destruct (existsb _ _); [discriminate|]. destruct (sensitivity_table metric nm eps thr conf) as [sens|] eqn:E4; [|discriminate]. cbn [bind].
  destruct (solver _) as [x|] eqn:E5; [|discriminate]. destruct (mapM (index_one 0) x) as [idx|] eqn:E6; [|discriminate]. cbn [bind]. intro H.
  exists conf, mincfg, minu, rows, sens, x, idx. repeat split; auto. congruence.
Qed.
Lemma combine_assignment conf : forall X idx, Forall2 (fun n x => length x = length (n_cands n)) conf X -> Forall2 picks X idx ->
  assignment conf (combine (map n_name conf) idx) /\ map snd (combine (map n_name conf) idx) = idx.
Proof.
  induction conf as [|n conf IH]; intros X idx F P; inversion F; subst; inversion P; subst; cbn [map combine]; [split; [constructor|reflexivity]|].
  destruct (IH l' l'0 ltac:(assumption) ltac:(assumption)) as [A B]. split; [|cbn [map snd]; rewrite B; reflexivity].
  constructor; [|exact A]. cbn [fst snd]. split; [reflexivity|]. match goal with K : picks _ _ |- _ => destruct K as [K _] end. congruence.
Qed.
Lemma Forall2_compose {A B C} (R : A -> B -> Prop) (T : C -> B -> Prop) (U : A -> C -> Prop) l m k :
  Forall2 R l m -> Forall2 T k m -> (forall a b c, R a b -> T c b -> U a c) -> Forall2 U l k.
Proof. intros F. revert k. induction F; intros k G H1; inversion G; subst; constructor; eauto. Qed.

Lemma search_core g target cfg : wf_graph g -> measurable g target -> solver_sound solver -> search metric nm eps thr solver g target = Ok cfg ->
  exists conf table, configurable_nodes g = Ok conf /\ sensitivity_table metric nm eps thr conf = Ok table /\ assignment conf cfg /\
    (forall r, ru_for_config g (restricted_targets target) cfg = Ok r -> is_satisfied_by target r = true) /\
    (nonneg_table table -> forall cfg', assignment conf cfg' -> fits g target cfg' -> (total_sensitivity table cfg <= total_sensitivity table cfg')%Q).
Proof.
  intros W M SS H. destruct (search_inv g target cfg H) as (conf & mincfg & minu & rows & sens & x & idx & HC & Hm & Hu & HR & Ht & Hs & Hi & ->).
  destruct (SS _ _ Hs) as (s & [FL FR] & Opt). cbn [lp_sens lp_rows] in *.
  destruct (layers_picks sens x s FL) as (idx' & Ei & FP & FX & TS). assert (idx' = idx) by congruence. subst idx'.
  pose proof (table_shape _ _ _ _ _ _ Ht) as SH.
  assert (FX' : Forall2 (fun n x => length x = length (n_cands n)) conf x).
  { apply (Forall2_compose _ _ _ _ _ _ SH FX). intros a b c E1 E2. congruence. }
  destruct (combine_assignment conf x idx FX' FP) as [A B]. rewrite <- B in FP.
  pose proof (min_config_assignment conf mincfg Hm) as AM.
  exists conf, sens. split; [exact HC|]. split; [exact Ht|]. split; [exact A|].
  assert (HA : forall q, ru_a target = Some q -> (0 <= q)%Q \/ exists n, In n (g_nodes g) /\ counted g n) by (intros q E; left; exact (ms_act g target M q E)).
  split.
  - intros r Hr. apply (fits_iff g target _ r W (ms_some g target M) (ms_total g target M) HA Hr).
    apply (rows_iff g target conf mincfg minu rows x _ W M HC AM Hu HR A FX' FP). exact FR.
  - intros NN cfg' A' (r' & Hr' & Sat').
    assert (FI : Forall2 (fun c i => i < length c) sens (map snd cfg')).
    { clear - SH A'. revert cfg' A'. induction SH; intros cfg' A'; inversion A'; subst; cbn [map]; constructor; [|apply IHSH; assumption]. rewrite H. tauto. }
    destruct (layers_onehot sens (map snd cfg') FI NN) as (x' & s' & L' & P' & T').
    assert (TE : forall c, (total_sensitivity sens c == Qsum (fun q => nth (snd q) (fst q) 0) (combine sens (map snd c)))%Q).
    { clear. intro c. unfold total_sensitivity. revert c. induction sens as [|a l IH]; intros [|p c]; cbn [combine map]; try reflexivity. rewrite !Qsum_cons, IH. reflexivity. }
    rewrite !TE, B, <- TS, <- T'. apply (Opt x' s'). split; [exact L'|].
    destruct (layers_picks sens x' s' L') as (_ & _ & _ & FX2 & _).
    apply (rows_iff g target conf mincfg minu rows x' cfg' W M HC AM Hu HR A'); [|exact P'|].
    + apply (Forall2_compose _ _ _ _ _ _ SH FX2). intros a b c E1 E2. congruence.
    + apply (fits_iff g target cfg' r' W (ms_some g target M) (ms_total g target M) HA Hr'). exact Sat'.
Qed.

(* Every returned configuration picks one existing candidate for each configurable node, and fits the target. *)
Theorem mp_search_fits g target cfg : wf_graph g -> measurable g target -> solver_sound solver ->
  search metric nm eps thr solver g target = Ok cfg ->
  exists conf, configurable_nodes g = Ok conf /\ assignment conf cfg /\
    forall r, ru_for_config g (restricted_targets target) cfg = Ok r -> is_satisfied_by target r = true.
Proof. intros W M SS H. destruct (search_core g target cfg W M SS H) as (conf & t & A & _ & B & C & _). exists conf. auto. Qed.

(* No configuration that fits the target is less sensitive. *)
Theorem mp_search_least_sensitive g target cfg conf table : wf_graph g -> measurable g target -> solver_sound solver ->
  search metric nm eps thr solver g target = Ok cfg ->
  configurable_nodes g = Ok conf -> sensitivity_table metric nm eps thr conf = Ok table -> nonneg_table table ->
  forall cfg', assignment conf cfg' -> fits g target cfg' -> (total_sensitivity table cfg <= total_sensitivity table cfg')%Q.
Proof.
  intros W M SS H HC Ht NN. destruct (search_core g target cfg W M SS H) as (conf' & t & A & B & _ & _ & C).
  assert (conf' = conf) by congruence. subst. assert (t = table) by congruence. subst. exact (C NN).
Qed.

(* the candidates of a node differ only in their bit-widths *)
Definition uniform (n : node) : Prop := forall c d, In c (n_cands n) -> In d (n_cands n) ->
  a_mode (c_act c) = a_mode (c_act d) /\ map fst (c_w c) = map fst (c_w d) /\ NoDup (map fst (c_w c)).

Lemma min_le g conf mincfg cfg : wf_graph g -> incl conf (g_nodes g) -> NoDup (map n_name conf) -> (forall n, In n (g_nodes g) -> uniform n) -> min_config conf = Ok mincfg -> assignment conf cfg ->
  cfg_le g mincfg cfg.
Proof.
  intros W I N U Hm A n Hn. pose proof (min_config_assignment conf mincfg Hm) as AM.
  assert (NB : forall c, In c (n_cands n) -> NoDup (map fst (c_w c))) by (intros c Hc; apply (U n Hn c c Hc Hc)).
  assert (RF : forall c, In c (n_cands n) -> cand_le c c).
  { intros c Hc. split; [reflexivity|]. split; [lia|]. intro a. destruct (dict_get a (c_w c)); [split; [reflexivity|lia]|exact Logic.I]. }
  unfold selected. destruct (in_dec Nat.eq_dec (n_name n) (map n_name conf)) as [Hi|Hi].
  - assert (Hc : In n conf). { apply in_map_iff in Hi. destruct Hi as (m & E & Hmm). rewrite <- (name_inj g m n W (I m Hmm) Hn E). exact Hmm. }
    assert (G : dict_get (n_name n) mincfg = match find_min_candidate n with Ok i => Some i | Err _ => None end /\ exists i, find_min_candidate n = Ok i).
    { unfold min_config in Hm. apply mapM_Forall2 in Hm. destruct (Forall2_in_l _ _ _ _ Hm Hc) as ([k i] & Hp & Ep). cbn beta in Ep.
      destruct (find_min_candidate n) as [i'|]; [|discriminate]. cbn [bind] in Ep. inversion Ep; subst. split; [|eauto]. apply dict_in_get; [|exact Hp].
      rewrite (assignment_keys _ _ AM). exact N. }
    destruct G as [G [i Ei]]. rewrite G, Ei. destruct (find_min_le n i) as (c & Ec & Le); [|exact NB|exact Ei|].
    { intros c d Hcc Hdd. destruct (U n Hn c d Hcc Hdd) as (u1 & u2 & _). split; [exact u1|]. split; [exact u2|]. intros a x y Ex Ey. eapply (wf_enable g W n c d a); eauto. }
    rewrite Ec. destruct (proj1 (dict_get_key cfg (n_name n)) ltac:(rewrite (assignment_keys _ _ A); exact Hi)) as [j Ej]. rewrite Ej.
    destruct (assignment_get g conf cfg _ _ W I N A Ej) as (m & Hm' & En & Lj). assert (m = n) by (apply (name_inj g); auto). subst m.
    destruct (nth_error (n_cands n) j) as [d|] eqn:Ed; [|apply nth_error_None in Ed; lia]. apply Le. eapply nth_error_In; exact Ed.
  - assert (NO : forall c, assignment conf c -> dict_get (n_name n) c = None).
    { intros c Ac. destruct (dict_get (n_name n) c) eqn:E; [|reflexivity]. exfalso. apply Hi. rewrite <- (assignment_keys _ _ Ac). apply dict_get_key. eauto. }
    rewrite (NO mincfg AM), (NO cfg A). destruct (n_cands n) as [|c r]; cbn [hd_error]; [exact Logic.I|]. apply RF. left; reflexivity.
Qed.

(* Failure means there is nothing to find: if the model's utilization and sensitivities can be measured and some
   configuration fits the target, a configuration is returned. *)
Theorem mp_search_succeeds g target conf mincfg minu rows table cfg : wf_graph g -> nonneg_graph g -> measurable g target -> solver_sound solver -> solver_complete solver ->
  (forall n, In n (g_nodes g) -> uniform n) ->
  configurable_nodes g = Ok conf -> min_config conf = Ok mincfg -> compute_utilization g (restricted_targets target) mincfg = Ok minu ->
  relative_rows g (restricted_targets target) conf mincfg minu = Ok rows -> sensitivity_table metric nm eps thr conf = Ok table -> nonneg_table table ->
  assignment conf cfg -> fits g target cfg ->
  exists cfg', search metric nm eps thr solver g target = Ok cfg'.
Proof.
  intros W NNG M SS SC U HC Hm Hu HR Ht NN A (r & Hr & Sat).
  pose proof (min_config_assignment conf mincfg Hm) as AM. pose proof (table_shape _ _ _ _ _ _ Ht) as SH.
  assert (HA : forall q, ru_a target = Some q -> (0 <= q)%Q \/ exists n, In n (g_nodes g) /\ counted g n) by (intros q E; left; exact (ms_act g target M q E)).
  pose proof (proj1 (fits_iff g target cfg r W (ms_some g target M) (ms_total g target M) HA Hr) Sat) as LE.
  unfold search. rewrite HC. cbn [bind]. rewrite Hm. cbn [bind]. rewrite Hu. cbn [bind]. rewrite HR. cbn [bind]. rewrite Ht.
  set (rel := minus (tflat target minu) (uflat minu)) in *. set (tg := restricted_targets target) in *.
  assert (EX : existsb (fun q => negb (Qle_bool 0 q)) rel = false).
  { destruct (existsb _ rel) eqn:E; [|reflexivity]. exfalso. apply existsb_exists in E. destruct E as (q & Hq & Nq). apply negb_true_iff in Nq.
    assert (0 <= q)%Q; [|rewrite <- Qle_bool_iff in H; congruence].
    destruct (In_nth rel q 0%Q Hq) as (j & Hj & <-).
    assert (EL : length (tflat target minu) = length (uflat minu)).
    { rewrite (tflat_tvec g target mincfg minu W (ms_some g target M) Hu), <- ufuns_tvec_len. symmetry. apply (util_len g tg mincfg minu W (ms_some g target M) Hu). }
    assert (Lj : j < length (ufuns g tg)).
    { unfold rel in Hj. rewrite minus_len, EL in Hj by exact EL. rewrite <- (util_len g tg mincfg minu W (ms_some g target M) Hu). exact Hj. }
    unfold rel. rewrite minus_nth by exact EL. rewrite (tflat_tvec g target mincfg minu W (ms_some g target M) Hu), (util_nth g tg mincfg minu j W (ms_some g target M) Hu).
    rewrite Forall2_nth_iff in LE by (rewrite map_length; apply ufuns_tvec_len). specialize (LE j ltac:(rewrite map_length; exact Lj)). rewrite uval_nth in LE.
    pose proof (uval_mono g tg j mincfg cfg W NNG (min_le g conf mincfg cfg W (conf_sub g conf HC) (conf_nodup g conf W HC) U Hm A)). fold tg in LE. lra. }
  rewrite EX. cbn [bind]. destruct (solver _) as [x|] eqn:Es.
  - destruct (SS _ _ Es) as (s & [FL FR] & Opt). cbn [lp_sens] in FL. destruct (layers_picks table x s FL) as (idx & Ei & _). rewrite Ei. cbn [bind]. eauto.
  - exfalso.
    assert (FI : Forall2 (fun c i => i < length c) table (map snd cfg)).
    { clear - SH A. revert cfg A. induction SH; intros cfg A'; inversion A'; subst; cbn [map]; constructor; [|apply IHSH; assumption]. rewrite H. tauto. }
    destruct (layers_onehot table (map snd cfg) FI NN) as (x' & s' & L' & P' & T').
    apply (SC _ Es x' s'). split; [exact L'|]. destruct (layers_picks table x' s' L') as (_ & _ & _ & FX2 & _).
    apply (rows_iff g target conf mincfg minu rows x' cfg W M HC AM Hu HR A); [|exact P'|exact LE].
    apply (Forall2_compose _ _ _ _ _ _ SH FX2). intros a b c E1 E2. congruence.
Qed.
End Search.
Print Assumptions mp_search_fits.
Print Assumptions mp_search_least_sensitive.
Print Assumptions mp_search_succeeds.

(* ---- the contract of the solver can be met: an exhaustive solver ---- *)
Fixpoint choices (l : list (list Q)) : list (list nat) :=
  match l with [] => [[]] | c :: r => flat_map (fun i => map (cons i) (choices r)) (seq 0 (length c)) end.
Definition enc (l : list (list Q)) (idx : list nat) : list (list Q) := map (fun p => onehot (length (fst p)) (snd p)) (combine l idx).
Definition okrow (p : lp) (idx : list nat) : bool :=
  forallb (fun q => Qle_bool 0 (nth (snd q) (fst q) 0%Q)) (combine (lp_sens p) idx) &&
  forallb (fun row => Qle_bool (dot (fst row) (concat (enc (lp_sens p) idx))) (snd row)) (lp_rows p).
Definition cost (l : list (list Q)) (idx : list nat) : Q := Qsum (fun q => nth (snd q) (fst q) 0%Q) (combine l idx).
Definition best (l : list (list Q)) (ch : list (list nat)) : option (list nat) :=
  match ch with [] => None | i :: r => Some (fold_left (fun b j => if Qle_bool (cost l b) (cost l j) then b else j) r i) end.
Definition exhaustive (p : lp) : option (list (list Q)) :=
  match best (lp_sens p) (filter (okrow p) (choices (lp_sens p))) with None => None | Some i => Some (enc (lp_sens p) i) end.

Lemma choices_in l : forall idx, In idx (choices l) <-> Forall2 (fun c i => i < length c) l idx.
Proof.
  induction l as [|c l IH]; intro idx; cbn [choices].
  - split; [intros [<-|[]]; constructor|]. intro F. inversion F. left; reflexivity.
  - rewrite in_flat_map. split.
    + intros (i & Hi & H). apply in_map_iff in H. destruct H as (r & <- & Hr). apply in_seq in Hi. constructor; [lia|]. apply IH; exact Hr.
    + intro F. inversion F as [|? i ? r Hi Fr]; subst. exists i. split; [apply in_seq; lia|]. apply in_map. apply IH; exact Fr.
Qed.
Lemma dot_Qeq a : forall x y, Forall2 Qeq x y -> (dot a x == dot a y)%Q.
Proof. induction a as [|v a IH]; intros x y F; [reflexivity|]. inversion F; subst; cbn [dot]; [reflexivity|]. rewrite (IH l l'), H by assumption. reflexivity. Qed.
Lemma zo_onehot x : Forall zo x -> (fold_right Qplus 0 x == 1)%Q -> exists i, i < length x /\ Forall2 Qeq x (onehot (length x) i).
Proof.
  induction 1 as [|v x H F IH]; intro E; cbn [fold_right] in E; [exfalso; lra|]. pose proof (zo_sum_nonneg x F) as N. destruct H as [H|H].
  - destruct (IH ltac:(lra)) as (i & L & G). exists (S i). cbn [length onehot]. split; [lia|]. constructor; assumption.
  - exists 0. cbn [length onehot]. split; [lia|]. constructor; [exact H|]. pose proof (zo_sum_zero x F ltac:(lra)) as Z. clear - Z. induction Z; cbn [length repeat]; constructor; assumption.
Qed.
Lemma layers_enc sens x s : lp_layers sens x s ->
  exists idx, Forall2 (fun c i => i < length c) sens idx /\ Forall2 Qeq (concat x) (concat (enc sens idx)) /\
    (fold_right Qplus 0 s == cost sens idx)%Q /\ Forall (fun q => 0 <= nth (snd q) (fst q) 0)%Q (combine sens idx).
Proof.
  induction 1 as [|c cs x xs s ss (L & Z & D & P & S1) F (idx & A & B & C & N)]; [exists []; repeat split; constructor|].
  destruct (zo_onehot x Z S1) as (i & Hi & G). exists (i :: idx). rewrite L in *.
  assert (V : (s == nth i c 0)%Q). { rewrite <- D, dot_comm, (dot_Qeq c _ _ G), dot_comm. apply onehot_dot; auto. }
  split; [constructor; assumption|]. split; [|split].
  - unfold enc. cbn [combine map concat fst snd]. apply Forall2_app; assumption.
  - cbn [fold_right]. unfold cost in *. cbn [combine]. rewrite Qsum_cons. cbn [fst snd]. rewrite C, V. reflexivity.
  - cbn [combine]. constructor; [cbn [fst snd]; rewrite <- V; exact P|exact N].
Qed.
Lemma enc_layers sens : forall idx, Forall2 (fun c i => i < length c) sens idx -> Forall (fun q => 0 <= nth (snd q) (fst q) 0)%Q (combine sens idx) ->
  exists s, lp_layers sens (enc sens idx) s /\ (fold_right Qplus 0 s == cost sens idx)%Q.
Proof.
  induction sens as [|c sens IH]; intros idx F N; inversion F as [|? i ? r Hi Fr]; subst.
  - exists []. split; [constructor|reflexivity].
  - cbn [combine] in N. inversion N as [|? ? Hn Nr]; subst. cbn [fst snd] in Hn. destruct (IH r Fr Nr) as (s & A & B). exists (nth i c 0%Q :: s). unfold enc. cbn [combine map fst snd].
    split; [|cbn [fold_right]; unfold cost in *; cbn [combine]; rewrite Qsum_cons; cbn [fst snd]; rewrite B; reflexivity].
    constructor; [|exact A]. split; [apply onehot_len|]. split; [apply onehot_zo|]. split; [apply onehot_dot; auto|]. split; [exact Hn|apply onehot_sum; exact Hi].
Qed.
Lemma best_spec l r : forall i, let b := fold_left (fun b j => if Qle_bool (cost l b) (cost l j) then b else j) r i in
  In b (i :: r) /\ forall j, In j (i :: r) -> (cost l b <= cost l j)%Q.
Proof.
  induction r as [|k r IH]; intro i; cbn [fold_left].
  - split; [left; reflexivity|]. intros j [<-|[]]. apply Qle_refl.
  - destruct (Qle_bool (cost l i) (cost l k)) eqn:E.
    + apply Qle_bool_iff in E. destruct (IH i) as [A B]. split; [destruct A as [A|A]; [left; exact A|right; right; exact A]|].
      intros j [<-|[<-|Hj]]; [apply B; left; reflexivity| |apply B; right; exact Hj]. eapply Qle_trans; [apply B; left; reflexivity|exact E].
    + assert (E' : (cost l k <= cost l i)%Q). { apply Qlt_le_weak. apply Qnot_le_lt. intro X. apply Qle_bool_iff in X. congruence. }
      destruct (IH k) as [A B]. split; [right; exact A|]. intros j [<-|Hj]; [|apply B; exact Hj]. eapply Qle_trans; [apply B; left; reflexivity|exact E'].
Qed.
Lemma okrow_feasible p idx : In idx (choices (lp_sens p)) -> okrow p idx = true -> exists s, lp_feasible p (enc (lp_sens p) idx) s /\ (fold_right Qplus 0 s == cost (lp_sens p) idx)%Q.
Proof.
  intros Hi H. apply choices_in in Hi. unfold okrow in H. apply andb_true_iff in H. destruct H as [H1 H2]. rewrite forallb_forall in H1, H2.
  destruct (enc_layers (lp_sens p) idx Hi) as (s & A & B).
  { apply Forall_forall. intros q Hq. apply Qle_bool_iff. apply H1; exact Hq. }
  exists s. split; [|exact B]. split; [exact A|]. apply Forall_forall. intros row Hr. apply Qle_bool_iff. apply H2; exact Hr.
Qed.
Lemma feasible_okrow p x s : lp_feasible p x s -> exists idx, In idx (filter (okrow p) (choices (lp_sens p))) /\ (fold_right Qplus 0 s == cost (lp_sens p) idx)%Q.
Proof.
  intros [L R]. destruct (layers_enc _ _ _ L) as (idx & A & B & C & N). exists idx. split; [|exact C]. apply filter_In. split; [apply choices_in; exact A|].
  unfold okrow. apply andb_true_iff. split; apply forallb_forall.
  - intros q Hq. apply Qle_bool_iff. rewrite Forall_forall in N. apply N; exact Hq.
  - intros row Hr. apply Qle_bool_iff. rewrite <- (dot_Qeq _ _ _ B). rewrite Forall_forall in R. apply R; exact Hr.
Qed.
Theorem exhaustive_solver_exact : solver_sound exhaustive /\ solver_complete exhaustive.
Proof.
  split.
  - intros p x H. unfold exhaustive, best in H. destruct (filter (okrow p) (choices (lp_sens p))) as [|i r] eqn:E; [discriminate|].
    set (b := fold_left _ r i) in H. destruct (best_spec (lp_sens p) r i) as [Hb Mb]. fold b in Hb, Mb. rewrite <- E in Hb. pose proof Hb as Hb'. apply filter_In in Hb. destruct Hb as [Hb1 Hb2].
    destruct (okrow_feasible p b Hb1 Hb2) as (s & F & C). assert (x = enc (lp_sens p) b) by congruence. subst x. exists s. split; [exact F|].
    intros x' s' F'. destruct (feasible_okrow p x' s' F') as (idx & Hi & C'). rewrite C, C'. apply Mb. rewrite <- E. exact Hi.
  - intros p H x s F. destruct (feasible_okrow p x s F) as (idx & Hi & _). unfold exhaustive, best in H. destruct (filter (okrow p) (choices (lp_sens p))); [destruct Hi|discriminate].
Qed.
Print Assumptions exhaustive_solver_exact.

(* ---- the table and the raw metric ---- *)
(* With the default settings (no normalization, no epsilon) and a non-negative metric the table is the metric up to a positive
   factor, so the result is the least sensitive one for the metric itself. *)
Definition raw_sensitivity (metric : nat -> nat -> Q) (cfg : mpcfg) : Q := Qsum (fun p => metric (fst p) (snd p)) cfg.
Lemma raw_row metric n row : node_sensitivity metric N_none None n = Ok row -> row = map (metric (n_name n)) (seq 0 (length (n_cands n))).
Proof. unfold node_sensitivity. destruct (find_max_candidate n); [|discriminate]. cbn [bind normalize ensure_maxbit]. congruence. Qed.
Lemma fold_q_max_ge l : forall x, (x <= fold_left q_max l x)%Q.
Proof. intro x. destruct (fold_q_max_spec l x) as [A _]. apply A. left; reflexivity. Qed.
Lemma raw_table metric thr conf table : (forall k i, (0 <= metric k i)%Q) -> sensitivity_table metric N_none None thr conf = Ok table ->
  exists f, (0 < f)%Q /\ nonneg_table table /\ forall cfg, assignment conf cfg -> (total_sensitivity table cfg == f * raw_sensitivity metric cfg)%Q.
Proof.
  intros NN H. unfold sensitivity_table in H. destruct (mapM (node_sensitivity metric N_none None) conf) as [t|] eqn:E; [|discriminate]. cbn [bind] in H. apply mapM_Forall2 in E.
  assert (Et : t = map (fun n => map (metric (n_name n)) (seq 0 (length (n_cands n)))) conf).
  { clear H. induction E; cbn [map]; [reflexivity|]. rewrite (raw_row _ _ _ H), IHE. reflexivity. }
  clear E. destruct (list_max_Q (concat t)) as [mx|] eqn:Em; [|discriminate]. cbn [bind] in H.
  assert (NT : nonneg_table t). { subst t. apply Forall_forall. intros row Hr. apply in_map_iff in Hr. destruct Hr as (n & <- & _). apply Forall_forall. intros q Hq. apply in_map_iff in Hq. destruct Hq as (i & <- & _). apply NN. }
  assert (VT : forall cfg, assignment conf cfg -> (total_sensitivity t cfg == raw_sensitivity metric cfg)%Q).
  { subst t. clear. induction 1 as [|n [k i] conf cfg [E L] F IH]; [reflexivity|]. cbn [fst snd] in *. subst k. unfold total_sensitivity, raw_sensitivity in *. cbn [map combine]. rewrite !Qsum_cons, IH. cbn [fst snd].
    rewrite nth_map_seq by exact L. reflexivity. }
  destruct (Qle_bool thr mx).
  - assert (Mx0 : (0 <= mx)%Q).
    { unfold list_max_Q in Em. destruct (concat t) as [|x r] eqn:Ec; [discriminate|]. inversion Em; subst mx. apply Qle_trans with x; [|apply fold_q_max_ge].
      assert (Hx : In x (concat t)) by (rewrite Ec; left; reflexivity). apply in_concat in Hx. destruct Hx as (row & Hr & Hx). unfold nonneg_table in NT. rewrite Forall_forall in NT. specialize (NT row Hr). rewrite Forall_forall in NT. apply NT; exact Hx. }
    apply mapM_Forall2 in H.
    assert (D : t = [] \/ (0 < mx)%Q).
    { destruct H as [|r r' t t' Hr _]; [left; reflexivity|]. right. unfold scale_by in Hr. destruct (Qeq_bool mx 0) eqn:Ez; [discriminate|]. apply Qeq_bool_neq in Ez.
      apply Qle_lt_or_eq in Mx0. destruct Mx0 as [P|P]; [exact P|]. exfalso. apply Ez. symmetry; exact P. }
    destruct D as [->|Pm]; [cbn in Em; discriminate|].
    assert (Es : table = map (map (fun x => x / mx)%Q) t).
    { clear - H. induction H; [reflexivity|]. cbn [map]. unfold scale_by in H. destruct (Qeq_bool mx 0); [discriminate|]. inversion H; subst. reflexivity. }
    assert (Pi : (0 < / mx)%Q) by (apply Qinv_lt_0_compat; exact Pm).
    exists (/ mx)%Q. split; [exact Pi|]. split.
    + rewrite Es. unfold nonneg_table in *. rewrite Forall_forall in *. intros row Hr. apply in_map_iff in Hr. destruct Hr as (row' & <- & Hr). specialize (NT row' Hr). rewrite Forall_forall in *.
      intros q Hq. apply in_map_iff in Hq. destruct Hq as (q' & <- & Hq). unfold Qdiv. apply Qmult_le_0_compat; [apply NT; exact Hq|apply Qlt_le_weak; exact Pi].
    + intros cfg A. rewrite <- (VT cfg A), Es. clear. unfold total_sensitivity. revert cfg. induction t as [|row t IH]; intros [|p cfg]; cbn [map combine]; rewrite ?Qsum_cons; try (cbn; ring).
      rewrite IH. cbn [fst snd]. setoid_replace (nth (snd p) (map (fun x => x / mx) row) 0)%Q with (nth (snd p) row 0 / mx)%Q; [unfold Qdiv; ring|].
      generalize (snd p). induction row as [|v row IHr]; intros [|i]; cbn [map nth]; try reflexivity; try (unfold Qdiv; ring). apply IHr.
  - inversion H; subst table. exists 1%Q. split; [reflexivity|]. split; [exact NT|]. intros cfg A. rewrite (VT cfg A). ring.
Qed.
Theorem mp_search_least_raw_sensitivity metric thr solver g target cfg conf : wf_graph g -> measurable g target -> solver_sound solver ->
  (forall k i, (0 <= metric k i)%Q) -> search metric N_none None thr solver g target = Ok cfg -> configurable_nodes g = Ok conf ->
  forall cfg', assignment conf cfg' -> fits g target cfg' -> (raw_sensitivity metric cfg <= raw_sensitivity metric cfg')%Q.
Proof.
  intros W M SS NN H HC cfg' A' F'. destruct (search_core metric N_none None thr solver g target cfg W M SS H) as (conf' & t & HC' & Ht & A & _ & Opt).
  assert (conf' = conf) by congruence. subst conf'. destruct (raw_table metric thr conf t NN Ht) as (f & Pf & NT & V).
  specialize (Opt NT cfg' A' F'). rewrite (V cfg A), (V cfg' A') in Opt. apply Qmult_le_l in Opt; assumption.
Qed.
Print Assumptions mp_search_least_raw_sensitivity.

(* With metric_epsilon set, no candidate is less sensitive than the one with the most bits (plus epsilon). *)
Theorem max_bits_least_sensitive metric nm e n row mx : node_sensitivity metric nm (Some e) n = Ok row -> find_max_candidate n = Ok mx ->
  forall i q, nth_error row i = Some q -> i <> mx -> exists v, nth_error row mx = Some v /\ (v + e <= q)%Q.
Proof.
  unfold node_sensitivity. intros H Hm i q Hq Hne. rewrite Hm in H. cbn [bind] in H. destruct (normalize _ _ _ _) as [l|]; [|discriminate]. cbn [bind] in H.
  unfold ensure_maxbit in H. destruct (nth_error l mx) as [v|] eqn:Ev; [|discriminate]. inversion H; subst row. clear H.
  assert (G : forall s l j, nth_error (map (fun p => if Nat.eqb (fst p) mx then v else q_max (snd p) (v + e)%Q) (combine (seq s (length l)) l)) j =
     match nth_error l j with None => None | Some y => Some (if Nat.eqb (s + j) mx then v else q_max y (v + e)%Q) end).
  { clear. intros s l. revert s. induction l as [|y l IH]; intros s [|j]; cbn [length seq combine map nth_error fst snd]; try reflexivity; [rewrite Nat.add_0_r; reflexivity|].
    rewrite IH. rewrite Nat.add_succ_comm. reflexivity. }
  rewrite G in *. rewrite Ev in *. cbn [Nat.add] in *. rewrite Nat.eqb_refl. exists v. split; [reflexivity|]. destruct (nth_error l i) as [y|]; [|discriminate].
  destruct (Nat.eqb_spec i mx); [contradiction|]. inversion Hq. unfold q_max. destruct (Qle_bool _ _) eqn:E; [|]; try apply Qle_refl; try (apply Qle_bool_iff; exact E).
  all: try (apply Qlt_le_weak, Qnot_le_lt; intro X; apply Qle_bool_iff in X; congruence).
Qed.
Print Assumptions max_bits_least_sensitive.

(* ---- a concrete search (the graph of RUProps) ---- *)
Definition ex_metric (k i : nat) : Q := match k, i with 0, 1 => 3%Q | 1, 1 => 5%Q | _, _ => 1%Q end.
Definition ex_target : ru := mkRU (Some (5 # 1)) (Some (110 # 1)) None None.
Example ex_measurable : measurable ex_g ex_target.
Proof. split; cbn; try reflexivity; try congruence. intros q E. inversion E; subst. discriminate. Qed.
Example ex_search : search ex_metric N_none None 1000000 exhaustive ex_g ex_target = Ok [(0, 1); (1, 1)].
Proof. vm_compute. reflexivity. Qed.
Example ex_fits : fits ex_g ex_target [(0, 1); (1, 1)].
Proof. eexists. split; vm_compute; reflexivity. Qed.
Example ex_uniform : forall n, In n (g_nodes ex_g) -> uniform n.
Proof.
  intros n [<-|[<-|[<-|[]]]] c d; cbn; intros Hc Hd; repeat (destruct Hc as [<-|Hc]); try destruct Hc; repeat (destruct Hd as [<-|Hd]); try destruct Hd; cbn;
  repeat split; repeat constructor; cbn; tauto.
Qed.
(* a target for which a wider choice is left and the least sensitive one is taken *)
Example ex_search2 : search ex_metric N_none None 1000000 exhaustive ex_g (mkRU (Some (10 # 1)) (Some (110 # 1)) None None) = Ok [(0, 1); (1, 0)].
Proof. vm_compute. reflexivity. Qed.
(* bit-operations target, only weights configurable *)
Definition exb_in : node := mkN 0 [mkC (mkA A_QUANT 8 0) []] [] 100 false None 0.
Definition exb : graph := mkG [exb_in; ex_conv] (fun x => match x with 1 => [0] | _ => [] end) [] [[0]; [0; 1]; [1]].
Example exb_uncoupled : bops_uncoupled exb /\ kernels_configured exb.
Proof.
  split.
  - intros n k m p [<-|[<-|[]]] Ek [<-|[<-|[]]] Ep Hp; try discriminate. cbn in Hp. inversion Hp; subst. left. intros c d [<-|[]] [<-|[]]. reflexivity.
  - intros n k [<-|[<-|[]]] Ek; [discriminate|]. cbn in Ek. inversion Ek; subst. intros c [<-|[<-|[]]]; cbn; eauto.
Qed.
Example exb_search : search ex_metric N_none None 1000000 exhaustive exb (mkRU None None None (Some (32000 # 1))) = Ok [(1, 1)].
Proof. vm_compute. reflexivity. Qed.

(* ---- limits ---- *)
(* Without any counted activation a total-memory target puts no constraint at all: the search returns a configuration above
   the target although another one fits. *)
Definition rf_conv : node := mkN 1 [mkC (mkA A_NO_QUANT 8 0) [(7, mkW true 8 0)]; mkC (mkA A_NO_QUANT 8 0) [(7, mkW true 4 0)]] [(7, 10%Z)] 60 false (Some 7) 1000.
Definition rf_g : graph := mkG [rf_conv] (fun _ => []) [] [[1]].
Theorem total_target_ignored_without_activations_refuted :
  exists metric thr g target cfg r cfg', wf_graph g /\ nonneg_graph g /\ search metric N_none None thr exhaustive g target = Ok cfg /\
    ru_for_config g (restricted_targets target) cfg = Ok r /\ is_satisfied_by target r = false /\ fits g target cfg'.
Proof.
  exists (fun _ i => inject_Z (Z.of_nat i)), 1000000%Q, rf_g, (mkRU None None (Some (5 # 1)) None), [(1, 0)]. eexists. exists [(1, 1)].
  split; [|split; [|split; [|split; [|split; [|eexists; split]]]]].
  - split; cbn.
    + repeat constructor; cbn; tauto.
    + intros n [<-|[]]; cbn; repeat constructor; cbn; tauto.
    + intros c [<-|[]]; discriminate.
    + intros n c d a x y [<-|[]]; cbn. intros [<-|[<-|[]]] [<-|[<-|[]]]; cbn; destruct (Nat.eqb a 7); try discriminate; intros E1 E2; inversion E1; inversion E2; reflexivity.
  - split; cbn.
    + intros n a s [<-|[]]; cbn. intros [E|[]]; inversion E; lia.
    + intros n [<-|[]]; cbn; lia.
    + intros n [<-|[]]; cbn; lia.
    + intros n c [<-|[]]; cbn. intros [<-|[<-|[]]]; cbn; lia.
    + intros n c a w [<-|[]]; cbn. intros [<-|[<-|[]]]; cbn; intros [E|[]]; inversion E; cbn; lia.
  - vm_compute; reflexivity.
  - vm_compute; reflexivity.
  - vm_compute; reflexivity.
  - vm_compute; reflexivity.
  - vm_compute; reflexivity.
Qed.
Print Assumptions total_target_ignored_without_activations_refuted.

(* The per-layer objective variables are declared non-negative: with a (custom) metric that is negative for every candidate of
   a layer the search fails although every configuration fits. *)
Theorem negative_sensitivity_refuted :
  exists metric thr g target, wf_graph g /\ measurable g target /\ (exists cfg, fits g target cfg) /\
    search metric N_none None thr exhaustive g target = Err E_runtime.
Proof.
  exists (fun _ _ => (-1)%Q), 1000000%Q, ex_g, ex_target. split; [apply ex_g_wf|]. split; [apply ex_measurable|]. split; [eexists; apply ex_fits|]. vm_compute. reflexivity.
Qed.
Print Assumptions negative_sensitivity_refuted.

(* With both the input's and the kernel's bit-widths configurable the bit-operations are not the sum of the single changes.  When the
   activation feeds two kernels no virtual node joins them (virtual nodes are made for single consumers only), and the program can
   accept a configuration above the target. *)
Definition rb_in : node := mkN 0 [mkC (mkA A_QUANT 8 0) []; mkC (mkA A_QUANT 2 0) []] [] 100 false None 0.
Definition rb_conv (k : nat) : node := mkN k [mkC (mkA A_QUANT 8 0) [(7, mkW true 8 0)]; mkC (mkA A_QUANT 8 0) [(7, mkW true 2 0)]] [(7, 10%Z)] 60 false (Some 7) 100.
Definition rb_g : graph := mkG [rb_in; rb_conv 1; rb_conv 2] (fun x => match x with 1 => [0] | 2 => [0] | _ => [] end) [] [[0]; [0; 1]; [1; 2]].
Theorem bops_target_exceeded_refuted :
  exists metric thr g target cfg r, (forall k i, (0 <= metric k i)%Q) /\ search metric N_none None thr exhaustive g target = Ok cfg /\
    ru_for_config g (restricted_targets target) cfg = Ok r /\ is_satisfied_by target r = false.
Proof.
  exists (fun _ i => inject_Z (Z.of_nat i)), 1000000%Q, rb_g, (mkRU None None None (Some (5000 # 1))). do 2 eexists.
  split; [|split; [|split]].
  - intros k i. change 0%Q with (inject_Z 0). rewrite <- Zle_Qle. lia.
  - vm_compute; reflexivity.
  - vm_compute; reflexivity.
  - vm_compute; reflexivity.
Qed.
Print Assumptions bops_target_exceeded_refuted.

(* C16/C17: the cheapest and the most precise candidate are found whenever they exist and are unique *)
Lemma lex_lt_trans_ge a : forall b c, lex_lt b a = true -> lex_lt c a = false -> lex_lt c b = false.
Proof.
  induction a as [|x a IH]; intros [|y b] [|z c]; cbn; try congruence.
  destruct (Z.ltb_spec y x), (Z.ltb_spec x y), (Z.ltb_spec z x), (Z.ltb_spec x z), (Z.ltb_spec z y), (Z.ltb_spec y z); try lia; try congruence; intros; eapply IH; eassumption.
Qed.
Lemma lex_lt_irrefl a : lex_lt a a = false.
Proof. induction a; cbn; [reflexivity|]. rewrite Z.ltb_irrefl. exact IHa. Qed.
Lemma lex_trans a : forall b c, lex_lt a b = true -> lex_lt b c = true -> lex_lt a c = true.
Proof.
  induction a as [|x a IH]; intros [|y b] [|z c]; cbn; try congruence.
  destruct (Z.ltb_spec x y), (Z.ltb_spec y x), (Z.ltb_spec y z), (Z.ltb_spec z y), (Z.ltb_spec x z), (Z.ltb_spec z x); try lia; try congruence; intros; eapply IH; eassumption.
Qed.
Lemma lex_total a : forall b, lex_lt a b = false -> lex_lt b a = false -> a = b.
Proof.
  induction a as [|x a IH]; intros [|y b]; cbn; try congruence.
  destruct (Z.ltb_spec x y), (Z.ltb_spec y x); try congruence. intros. assert (x = y) as -> by lia. f_equal. auto.
Qed.
Lemma lex_fold_min r : forall x, let m := fold_left (fun best y => if lex_lt y best then y else best) r x in
  In m (x :: r) /\ forall y, In y (x :: r) -> lex_lt y m = false.
Proof.
  induction r as [|z r IH]; intros x; cbn; [split; [auto|intros y [<-|[]]; apply lex_lt_irrefl]|].
  specialize (IH (if lex_lt z x then z else x)). destruct IH as [I M]. cbn in I. split.
  - destruct (lex_lt z x); intuition.
  - intros y H. cbn in M. destruct (lex_lt z x) eqn:E.
    + destruct H as [<-|[<-|H]]; auto.
      destruct (lex_lt x _) eqn:F in |- *; [|reflexivity]. pose proof (M z (or_introl eq_refl)) as K.
      rewrite (lex_trans _ _ _ E F) in K. discriminate.
    + destruct H as [<-|[<-|H]]; auto.
      destruct (lex_lt z _) eqn:F in |- *; [|reflexivity]. pose proof (M x (or_introl eq_refl)) as K.
      destruct (lex_lt x z) eqn:G; [rewrite (lex_trans _ _ _ G F) in K; discriminate|].
      assert (z = x) by (apply lex_total; assumption). subst z. congruence.
Qed.
Lemma lex_fold_max r : forall x, let m := fold_left (fun best y => if lex_lt best y then y else best) r x in
  In m (x :: r) /\ forall y, In y (x :: r) -> lex_lt m y = false.
Proof.
  induction r as [|z r IH]; intros x; cbn; [split; [auto|intros y [<-|[]]; apply lex_lt_irrefl]|].
  specialize (IH (if lex_lt x z then z else x)). destruct IH as [I M]. cbn in I. split.
  - destruct (lex_lt x z); intuition.
  - intros y H. cbn in M. destruct (lex_lt x z) eqn:E.
    + destruct H as [<-|[<-|H]]; auto.
      destruct (lex_lt _ x) eqn:F in |- *; [|reflexivity]. pose proof (M z (or_introl eq_refl)) as K.
      rewrite (lex_trans _ _ _ F E) in K. discriminate.
    + destruct H as [<-|[<-|H]]; auto.
      destruct (lex_lt _ z) eqn:F in |- *; [|reflexivity]. pose proof (M x (or_introl eq_refl)) as K.
      destruct (lex_lt z x) eqn:G; [rewrite (lex_trans _ _ _ F G) in K; discriminate|].
      assert (x = z) by (apply lex_total; assumption). subst z. congruence.
Qed.
Lemma pointwise_lex a b : Forall2 Z.le a b -> a = b \/ lex_lt a b = true.
Proof.
  induction 1 as [|x y a b H F IH]; [auto|]. cbn. destruct (Z.ltb_spec x y); [auto|].
  destruct (Z.ltb_spec y x); [lia|]. assert (x = y) as -> by lia. destruct IH as [->|IH]; auto.
Qed.
Lemma zlist_eqb_refl a : zlist_eqb a a = true.
Proof. induction a; cbn; [reflexivity|]. rewrite Z.eqb_refl. exact IHa. Qed.
Lemma indices_where_single {A} (p : A -> bool) (l : list A) i x : nth_error l i = Some x -> p x = true ->
  (forall j y, nth_error l j = Some y -> p y = true -> j = i) -> indices_where p l = [i].
Proof.
  unfold indices_where. intros H P U.
  assert (forall l s i, nth_error l i = Some x -> (forall j y, nth_error l j = Some y -> p y = true -> j = i) ->
    map fst (filter (fun q : nat * A => p (snd q)) (combine (seq s (length l)) l)) = [s + i]) as K.
  { clear - P. induction l as [|y l IH]; intros s [|i] H U; try discriminate; cbn [length seq combine filter snd].
    - cbn in H. inversion H; subst y. rewrite P. cbn [map fst]. f_equal; [lia|].
      assert (forall l s, (forall j y, nth_error l j = Some y -> p y = true -> S j = 0) -> filter (fun q : nat * A => p (snd q)) (combine (seq s (length l)) l) = []) as E.
      { clear. induction l as [|y l IH]; intros s U; cbn [length seq combine filter snd]; [reflexivity|].
        destruct (p y) eqn:E; [specialize (U 0 y eq_refl E); lia|]. apply IH. intros j z Hj Pz. specialize (U (S j) z Hj Pz). lia. }
      rewrite E; [reflexivity|]. intros j z Hj Pz. apply (U (S j) z Hj Pz).
    - destruct (p y) eqn:E; [specialize (U 0 y eq_refl E); lia|]. rewrite (IH (S s) i); [f_equal; lia|exact H|].
      intros j z Hj Pz. specialize (U (S j) z Hj Pz). lia. }
  rewrite (K l 0 i H U). reflexivity.
Qed.

Theorem min_candidate_found n i c : nth_error (n_cands n) i = Some c ->
  (forall j d, nth_error (n_cands n) j = Some d -> Forall2 Z.le (aw_nbits c) (aw_nbits d) /\ (aw_nbits d = aw_nbits c -> j = i)) ->
  find_min_candidate n = Ok i.
Proof.
  intros H U. unfold find_min_candidate. destruct (map aw_nbits (n_cands n)) as [|x r] eqn:E.
  { destruct (n_cands n); [destruct i; discriminate|discriminate]. }
  destruct (lex_fold_min r x) as [I M]. set (m := fold_left _ r x) in *.
  assert (m = aw_nbits c) as Em.
  { assert (In (aw_nbits c) (x :: r)) as Ic by (rewrite <- E; apply in_map; eapply nth_error_In; exact H).
    rewrite <- E in I. apply in_map_iff in I. destruct I as [d [Ed Id]]. apply In_nth_error in Id. destruct Id as [j Hj].
    destruct (U j d Hj) as [F _]. rewrite Ed in F. destruct (pointwise_lex _ _ F) as [F'|F']; [congruence|]. rewrite (M _ Ic) in F'. discriminate. }
  rewrite <- E, Em. rewrite (indices_where_single _ _ i (aw_nbits c)).
  - replace (any_below (aw_nbits c) (map aw_nbits (n_cands n))) with false; [reflexivity|]. symmetry. unfold any_below.
    apply Bool.not_true_is_false. intro X. apply existsb_exists in X. destruct X as [nb [I' X]]. apply in_map_iff in I'. destruct I' as [d [<- Id]].
    apply In_nth_error in Id. destruct Id as [j Hj]. destruct (U j d Hj) as [F _]. clear - F X.
    induction F as [|a b l l' Hab F IH]; cbn in X; [discriminate|]. destruct (Z.ltb_spec b a); [lia|]. auto.
  - rewrite nth_error_map, H. reflexivity.
  - apply zlist_eqb_refl.
  - intros j y Hj Py. rewrite nth_error_map in Hj. destruct (nth_error (n_cands n) j) as [d|] eqn:Ed; [|discriminate]. cbn in Hj. inversion Hj; subst y.
    apply (U j d Ed). symmetry. apply zlist_eqb_eq, Py.
Qed.
Print Assumptions min_candidate_found.

Theorem max_candidate_found n i c : nth_error (n_cands n) i = Some c ->
  (forall j d, nth_error (n_cands n) j = Some d -> Forall2 Z.le (aw_nbits d) (aw_nbits c) /\ (aw_nbits d = aw_nbits c -> j = i)) ->
  find_max_candidate n = Ok i.
Proof.
  intros H U. unfold find_max_candidate. destruct (map aw_nbits (n_cands n)) as [|x r] eqn:E.
  { destruct (n_cands n); [destruct i; discriminate|discriminate]. }
  destruct (lex_fold_max r x) as [I M]. set (m := fold_left _ r x) in *.
  assert (m = aw_nbits c) as Em.
  { assert (In (aw_nbits c) (x :: r)) as Ic by (rewrite <- E; apply in_map; eapply nth_error_In; exact H).
    rewrite <- E in I. apply in_map_iff in I. destruct I as [d [Ed Id]]. apply In_nth_error in Id. destruct Id as [j Hj].
    destruct (U j d Hj) as [F _]. rewrite Ed in F. destruct (pointwise_lex _ _ F) as [F'|F']; [congruence|]. rewrite (M _ Ic) in F'. discriminate. }
  rewrite <- E, Em. rewrite (indices_where_single _ _ i (aw_nbits c)).
  - replace (any_above (aw_nbits c) (map aw_nbits (n_cands n))) with false; [reflexivity|]. symmetry. unfold any_above.
    apply Bool.not_true_is_false. intro X. apply existsb_exists in X. destruct X as [nb [I' X]]. apply in_map_iff in I'. destruct I' as [d [<- Id]].
    apply In_nth_error in Id. destruct Id as [j Hj]. destruct (U j d Hj) as [F _]. clear - F X.
    induction F as [|a b l l' Hab F IH]; cbn in X; [discriminate|]. destruct (Z.ltb_spec b a); [lia|]. auto.
  - rewrite nth_error_map, H. reflexivity.
  - apply zlist_eqb_refl.
  - intros j y Hj Py. rewrite nth_error_map in Hj. destruct (nth_error (n_cands n) j) as [d|] eqn:Ed; [|discriminate]. cbn in Hj. inversion Hj; subst y.
    apply (U j d Ed). symmetry. apply zlist_eqb_eq, Py.
Qed.
Print Assumptions max_candidate_found.
