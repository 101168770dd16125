From Verif Require Import Base RoundQ RoundQFacts QuantModel QuantProofs QuantLemmas SearchModel SearchProofs KLModel KLProofs
  CollectModel CollectSpec.
From Coq Require Import Lqa.
Open Scope Q_scope.

Lemma map2_length {A B C} (f : A -> B -> C) a : forall b, length a = length b -> length (map2 f a b) = length a.
Proof. induction a as [|x a IH]; intros [|y b] H; cbn in *; try discriminate; auto. Qed.
Lemma expand_length n v : (length v = n \/ length v = 1%nat) -> length (expand n v) = n.
Proof. intros [H|H]; destruct v as [|x [|y v]]; cbn in *; try rewrite repeat_length; try lia. Qed.
Lemma map2_repeat {A B C} (f : A -> B -> C) x : forall a, map2 f a (repeat x (length a)) = map (fun y => f y x) a.
Proof. induction a as [|y a IH]; cbn; [reflexivity|]. rewrite IH. reflexivity. Qed.
Lemma bcast_expand f a v n : (1 <= n)%nat -> length a = n -> (length v = n \/ length v = 1%nat) ->
  bcast2 f a v = Ok (map2 f a (expand n v)).
Proof.
  intros Hn Ha Hv. unfold bcast2. destruct (Nat.eqb_spec (length a) (length v)) as [E|E].
  - f_equal. destruct v as [|x [|y v]]; cbn [expand]; try reflexivity.
    replace n with 1%nat by (cbn in E; lia). reflexivity.
  - destruct Hv as [Hv|Hv]; [lia|]. destruct v as [|x [|y v]]; try discriminate. cbn [expand].
    destruct a as [|p [|q a]]; cbn in *; try lia. rewrite <- Ha. f_equal.
    apply (eq_sym (map2_repeat f x (p :: q :: a))).
Qed.
Lemma bcast_same f a b : length a = length b -> bcast2 f a b = Ok (map2 f a b).
Proof. intro H. unfold bcast2. rewrite H, Nat.eqb_refl. reflexivity. Qed.

(* ---- min / max ---- *)
Definition mm_inv (n : nat) (log : list (list Q)) (m : minmax) : Prop :=
  exists mx mn, mm_state m = Some (mx, mn) /\ length log = n /\ Forall2 is_max log mx /\ Forall2 is_min log mn.

Lemma list_max_is_max l v : list_max l = Ok v -> is_max l v.
Proof. intro H. split; [exists v; split; [eapply list_max_in; exact H|reflexivity]|]. apply list_max_ge. exact H. Qed.
Lemma list_min_is_min l v : list_min l = Ok v -> is_min l v.
Proof. intro H. split; [exists v; split; [eapply list_min_in; exact H|reflexivity]|]. apply list_min_le. exact H. Qed.

Lemma maxs_total x : Forall (fun c => c <> []) x -> exists a b, mapM list_max x = Ok a /\ mapM list_min x = Ok b.
Proof.
  induction 1 as [|c x Hc H IH]; cbn; [eauto|]. destruct IH as (a & b & -> & ->). cbn.
  destruct c as [|v c]; [tauto|]. cbn. eauto.
Qed.
Lemma max_app a b u v : is_max a u -> is_max b v -> is_max (a ++ b) (Qmax_ v u).
Proof.
  intros [[y [Hy Ey]] Hu] [[z [Hz Ez]] Hv]. pose proof (Qmax_ub_l v u). pose proof (Qmax_ub_r v u). split.
  - destruct (Qmax_case v u) as [-> | ->]; [exists z|exists y]; split; auto; apply in_or_app; auto.
  - intros w Hw. apply in_app_or in Hw. destruct Hw as [Hw|Hw]; [specialize (Hu w Hw)|specialize (Hv w Hw)]; lra.
Qed.
Lemma min_app a b u v : is_min a u -> is_min b v -> is_min (a ++ b) (Qmin_ v u).
Proof.
  intros [[y [Hy Ey]] Hu] [[z [Hz Ez]] Hv]. pose proof (Qmin_lb_l v u). pose proof (Qmin_lb_r v u). split.
  - destruct (Qmin_case v u) as [-> | ->]; [exists z|exists y]; split; auto; apply in_or_app; auto.
  - intros w Hw. apply in_app_or in Hw. destruct Hw as [Hw|Hw]; [specialize (Hu w Hw)|specialize (Hv w Hw)]; lra.
Qed.

Lemma map2_app_nil n : forall x : list (list Q), length x = n -> map2 (@app Q) (repeat [] n) x = x.
Proof. induction n as [|n IH]; intros [|c x] H; cbn in *; try discriminate; [reflexivity|]. f_equal. apply IH. lia. Qed.

Lemma mm_first n m x : mm_state m = None -> fits n (MM_update x) ->
  exists m', mm_update m x = Ok m' /\ mm_inv n x m' /\
    mm_init_min m' = mm_init_min m /\ mm_init_max m' = mm_init_max m /\ mm_ignore_init m' = mm_ignore_init m.
Proof.
  intros Hm [Hl Hx]. unfold mm_update. destruct (maxs_total x Hx) as (a & b & Ea & Eb). rewrite Ea, Eb, Hm. cbn [bind].
  eexists. split; [reflexivity|]. split; [|auto].
  exists a, b. split; [reflexivity|]. split; [exact Hl|].
  apply mapM_Forall2 in Ea. apply mapM_Forall2 in Eb.
  split; [eapply Forall2_impl; [apply list_max_is_max|exact Ea] | eapply Forall2_impl; [apply list_min_is_min|exact Eb]].
Qed.


Lemma mm_step_lem n m log o : (1 <= n)%nat -> mm_inv n log m -> fits n o ->
  exists m', mm_step m o = Ok m' /\ mm_inv n (observe n log o) m'.
Proof.
  intros Hn (mx & mn & Hs & Hl & Fx & Fm) Hf. pose proof (Forall2_length _ _ _ Fx) as Lx. pose proof (Forall2_length _ _ _ Fm) as Lm.
  destruct o as [x|s|s]; cbn [mm_step observe].
  - destruct Hf as [Hlx Hx]. unfold mm_update. destruct (maxs_total x Hx) as (a & b & Ea & Eb). rewrite Ea, Eb, Hs. cbn [bind].
    apply mapM_Forall2 in Ea. apply mapM_Forall2 in Eb.
    pose proof (Forall2_length _ _ _ Ea) as La. pose proof (Forall2_length _ _ _ Eb) as Lb.
    rewrite !bcast_same by congruence. cbn [bind]. eexists. split; [reflexivity|].
    exists (map2 Qmax_ a mx), (map2 Qmin_ b mn). split; [reflexivity|]. split; [rewrite map2_length; congruence|]. split.
    + clear - Fx Ea. revert x a Ea. induction Fx as [|l u log mx H F IH]; intros x a Ea; [inversion Ea; subst; constructor|].
      inversion Ea; subst; cbn; [constructor|]. constructor; [|apply IH; assumption].
      apply max_app; [exact H|]. apply list_max_is_max. assumption.
    + clear - Fm Eb. revert x b Eb. induction Fm as [|l u log mx H F IH]; intros x a Ea; [inversion Ea; subst; constructor|].
      inversion Ea; subst; cbn; [constructor|]. constructor; [|apply IH; assumption].
      apply min_app; [exact H|]. apply list_min_is_min. assumption.
  - destruct Hf as [Hsl Hp]. unfold mm_scale, mm_affine. rewrite Hs.
    rewrite !(bcast_expand Qmult _ s n) by (auto; congruence). cbn [bind].
    assert (length (expand n s) = n) as Le by (apply expand_length; exact Hsl).
    assert (Forall (fun f => 0 < f) (expand n s)) as Pe.
    { destruct s as [|f [|g s]]; cbn [expand]; try exact Hp. inversion Hp; subst.
      apply Forall_forall. intros y Hy. apply repeat_spec in Hy. subst. assumption. }
    assert (mm_inv n (map2 (fun l f => map (fun v => v * f) l) log (expand n s))
              {| mm_state := Some (map2 Qmult mx (expand n s), map2 Qmult mn (expand n s));
                 mm_init_min := None; mm_init_max := None; mm_ignore_init := true |}) as Inv.
    { eexists _, _. split; [reflexivity|]. split; [rewrite map2_length; congruence|]. split.
      - clear - Fx Pe. revert Pe. generalize (expand n s) as e. induction Fx as [|l u log mx H F IH]; intros [|f e] Pe; cbn; constructor.
        + inversion Pe; subst. destruct H as [[y [Hy Ey]] Hu]. split.
          * exists (y * f). split; [apply in_map_iff; exists y; auto|]. rewrite Ey. reflexivity.
          * intros w Hw. apply in_map_iff in Hw. destruct Hw as [v [<- Hv]]. specialize (Hu v Hv). nra.
        + apply IH. inversion Pe; assumption.
      - clear - Fm Pe. revert Pe. generalize (expand n s) as e. induction Fm as [|l u log mx H F IH]; intros [|f e] Pe; cbn; constructor.
        + inversion Pe; subst. destruct H as [[y [Hy Ey]] Hu]. split.
          * exists (y * f). split; [apply in_map_iff; exists y; auto|]. rewrite Ey. reflexivity.
          * intros w Hw. apply in_map_iff in Hw. destruct Hw as [v [<- Hv]]. specialize (Hu v Hv). nra.
        + apply IH. inversion Pe; assumption. }
    destruct (Nat.ltb_spec 1 (length s)).
    + eexists. split; [reflexivity|]. destruct Inv as (p & q & E & I). cbn in E. exists p, q. auto.
    + destruct s as [|f [|g s]]; cbn in *; try lia.
      eexists. split; [reflexivity|]. destruct Inv as (p & q & E & I). cbn in E. exists p, q. auto.
  - cbn [fits] in Hf. unfold mm_shift, mm_affine. rewrite Hs.
    rewrite !(bcast_expand Qplus _ s n) by (auto; congruence). cbn [bind].
    assert (length (expand n s) = n) as Le by (apply expand_length; exact Hf).
    assert (mm_inv n (map2 (fun l f => map (fun v => v + f) l) log (expand n s))
              {| mm_state := Some (map2 Qplus mx (expand n s), map2 Qplus mn (expand n s));
                 mm_init_min := None; mm_init_max := None; mm_ignore_init := true |}) as Inv.
    { eexists _, _. split; [reflexivity|]. split; [rewrite map2_length; congruence|]. split.
      - clear - Fx. generalize (expand n s) as e. induction Fx as [|l u log mx H F IH]; intros [|f e]; cbn; constructor.
        + destruct H as [[y [Hy Ey]] Hu]. split.
          * exists (y + f). split; [apply in_map_iff; exists y; auto|]. rewrite Ey. reflexivity.
          * intros w Hw. apply in_map_iff in Hw. destruct Hw as [v [<- Hv]]. specialize (Hu v Hv). lra.
        + apply IH.
      - clear - Fm. generalize (expand n s) as e. induction Fm as [|l u log mx H F IH]; intros [|f e]; cbn; constructor.
        + destruct H as [[y [Hy Ey]] Hu]. split.
          * exists (y + f). split; [apply in_map_iff; exists y; auto|]. rewrite Ey. reflexivity.
          * intros w Hw. apply in_map_iff in Hw. destruct Hw as [v [<- Hv]]. specialize (Hu v Hv). lra.
        + apply IH. }
    destruct (Nat.ltb_spec 1 (length s)).
    + eexists. split; [reflexivity|]. destruct Inv as (p & q & E & I). cbn in E. exists p, q. auto.
    + destruct s as [|f [|g s]]; cbn in *; try lia.
      eexists. split; [reflexivity|]. destruct Inv as (p & q & E & I). cbn in E. exists p, q. auto.
Qed.

Lemma mm_run_lem n : (1 <= n)%nat -> forall ops m log, mm_inv n log m -> Forall (fits n) ops ->
  exists m', mm_run m ops = Ok m' /\ mm_inv n (fold_left (observe n) ops log) m'.
Proof.
  intros Hn ops. induction ops as [|o ops IH]; intros m log Hi Hf; cbn; [eauto|].
  inversion Hf; subst. destruct (mm_step_lem n m log o Hn Hi) as (m' & -> & Hi'); [assumption|]. cbn. apply IH; assumption.
Qed.

Lemma mm_history_lem : forall n i j o ops, (1 <= n)%nat -> is_update o -> Forall (fits n) (o :: ops) ->
  exists m mx mn, mm_run (mm_new i j) (o :: ops) = Ok m /\ mm_state m = Some (mx, mn) /\
    Forall2 is_max (observed n (o :: ops)) mx /\ Forall2 is_min (observed n (o :: ops)) mn.
Proof.
  intros n i j o ops Hn Hu Hf. inversion Hf as [|? ? Hfo Hfs]; subst. destruct o as [x|?|?]; [|destruct Hu|destruct Hu].
  destruct (mm_first n (mm_new i j) x eq_refl Hfo) as (m1 & E1 & I1 & _).
  destruct (mm_run_lem n Hn ops m1 x I1 Hfs) as (m' & E' & (mx & mn & H1 & H2 & H3 & H4)).
  exists m', mx, mn. split; [cbn; rewrite E1; exact E'|]. split; [exact H1|].
  unfold observed. cbn [fold_left observe]. destruct Hfo as [Hl _]. rewrite (map2_app_nil n x Hl). split; assumption.
Qed.

Lemma is_max_concat logs : forall mx v, Forall2 is_max logs mx -> is_max mx v -> is_max (concat logs) v.
Proof.
  intros mx v F [[y [Hy Ey]] Hu]. split.
  - clear Hu. revert Hy. induction F as [|l u logs mx H F IH]; intro Hy; [destruct Hy|]. destruct Hy as [<-|Hy].
    + destruct H as [[z [Hz Ez]] _]. exists z. split; [cbn; apply in_or_app; auto|]. rewrite Ey. exact Ez.
    + destruct (IH Hy) as [z [Hz Ez]]. exists z. split; [cbn; apply in_or_app; auto|exact Ez].
  - intros w Hw. clear Hy Ey. induction F as [|l u logs mx H F IH]; [destruct Hw|]. cbn in Hw. apply in_app_or in Hw.
    destruct Hw as [Hw|Hw].
    + destruct H as [_ H]. specialize (H w Hw). specialize (Hu u (or_introl eq_refl)). lra.
    + apply IH; [|exact Hw]. intros z Hz. apply Hu. right; exact Hz.
Qed.
Lemma is_min_concat logs : forall mx v, Forall2 is_min logs mx -> is_min mx v -> is_min (concat logs) v.
Proof.
  intros mx v F [[y [Hy Ey]] Hu]. split.
  - clear Hu. revert Hy. induction F as [|l u logs mx H F IH]; intro Hy; [destruct Hy|]. destruct Hy as [<-|Hy].
    + destruct H as [[z [Hz Ez]] _]. exists z. split; [cbn; apply in_or_app; auto|]. rewrite Ey. exact Ez.
    + destruct (IH Hy) as [z [Hz Ez]]. exists z. split; [cbn; apply in_or_app; auto|exact Ez].
  - intros w Hw. clear Hy Ey. induction F as [|l u logs mx H F IH]; [destruct Hw|]. cbn in Hw. apply in_app_or in Hw.
    destruct Hw as [Hw|Hw].
    + destruct H as [_ H]. specialize (H w Hw). specialize (Hu u (or_introl eq_refl)). lra.
    + apply IH; [|exact Hw]. intros z Hz. apply Hu. right; exact Hz.
Qed.

Lemma mm_init_none ops : forall m m', mm_run m ops = Ok m' -> mm_init_min m = None -> mm_init_max m = None ->
  mm_init_min m' = None /\ mm_init_max m' = None.
Proof.
  induction ops as [|o ops IH]; intros m m' H Hi Hj; cbn in H; [inversion H; subst; auto|].
  destruct (mm_step m o) as [m1|] eqn:E; [|discriminate]. cbn in H.
  assert (mm_init_min m1 = None /\ mm_init_max m1 = None) as [A B]; [|eapply IH; eauto].
  assert (forall f v, mm_affine f m v = Ok m1 -> mm_init_min m1 = None /\ mm_init_max m1 = None) as Haf.
  { intros f v Ev. unfold mm_affine in Ev. destruct (mm_state m) as [[mx mn]|]; [|discriminate].
    destruct (bcast2 f mx v); [|discriminate]. destruct (bcast2 f mn v); [|discriminate]. cbn [bind] in Ev.
    destruct (Nat.ltb 1 (length v)); [inversion Ev; subst; cbn; split; assumption|].
    destruct v as [|s [|? ?]]; [discriminate| |discriminate]. inversion Ev; subst; cbn. rewrite Hi, Hj. split; reflexivity. }
  destruct o as [x|s|s]; cbn in E; [|eapply Haf; exact E|eapply Haf; exact E].
  unfold mm_update in E. destruct (mapM list_max x); [|discriminate]. destruct (mapM list_min x); [|discriminate]. cbn in E.
  destruct (match mm_state m with None => _ | Some _ => _ end); [|discriminate]. cbn in E. inversion E; subst; auto.
Qed.

Lemma get_min_max_lem : forall n o ops, (1 <= n)%nat -> is_update o -> Forall (fits n) (o :: ops) ->
  exists m a b, mm_run (mm_new None None) (o :: ops) = Ok m /\ get_min_max_values m = Ok (a, b) /\
    is_min (concat (observed n (o :: ops))) a /\ is_max (concat (observed n (o :: ops))) b.
Proof.
  intros n o ops Hn Hu Hf. destruct (mm_history_lem n None None o ops Hn Hu Hf) as (m & mx & mn & E & Es & Fx & Fm).
  destruct (mm_init_none _ _ _ E eq_refl eq_refl) as [I1 I2].
  assert (length (observed n (o :: ops)) = n) as L.
  { destruct o as [x|?|?]; [|destruct Hu|destruct Hu]. inversion Hf as [|? ? Hfo Hfs]; subst. destruct Hfo as [Hl Hx]; subst n. unfold observed. cbn [fold_left observe].
    rewrite map2_app_nil by reflexivity. clear - Hfs Hn. revert Hfs. remember (length x) as n. revert x Heqn.
    induction ops as [|o ops IH]; intros x Heqn Hfs; cbn; [auto|]. inversion Hfs as [|? ? Hfo Hf2]; subst.
    apply IH; [|exact Hf2]. destruct o as [y|s|s]; cbn [observe].
    - destruct Hfo as [Hy _]. rewrite map2_length; auto.
    - destruct Hfo as [Hs _]. rewrite map2_length; [auto|]. rewrite expand_length; auto.
    - rewrite map2_length; [auto|]. rewrite expand_length; auto. }
  pose proof (Forall2_length _ _ _ Fx) as Lx. pose proof (Forall2_length _ _ _ Fm) as Lm.
  assert (exists b, list_max mx = Ok b) as [b Eb] by (destruct mx; [cbn in *; lia|cbn; eauto]).
  assert (exists a, list_min mn = Ok a) as [a Ea] by (destruct mn; [cbn in *; lia|cbn; eauto]).
  exists m, a, b. split; [exact E|]. unfold get_min_max_values, mm_min, mm_max. rewrite Es, Ea, Eb, I1, I2. cbn [bind].
  split; [destruct (mm_ignore_init m); reflexivity|]. split.
  - eapply is_min_concat; [exact Fm|]. apply list_min_is_min; exact Ea.
  - eapply is_max_concat; [exact Fx|]. apply list_max_is_max; exact Eb.
Qed.

(* ---- histograms ---- *)
Lemma countb_split {A} (f g h : A -> bool) x :
  (forall v, In v x -> h v = true -> xorb (f v) (g v) = true) -> (forall v, In v x -> h v = false -> f v = false /\ g v = false) ->
  (length (filter h x) = length (filter f x) + length (filter g x))%nat.
Proof.
  induction x as [|v x IH]; intros H1 H2; [reflexivity|]. cbn.
  assert (length (filter h x) = length (filter f x) + length (filter g x))%nat as E.
  { apply IH; intros w Hw; [apply H1|apply H2]; right; exact Hw. }
  specialize (H1 v (or_introl eq_refl)). specialize (H2 v (or_introl eq_refl)).
  destruct (h v); [specialize (H1 eq_refl)|destruct (H2 eq_refl) as [-> ->]]; [|exact E].
  destruct (f v), (g v); try discriminate; cbn; lia.
Qed.

Lemma si_tail x l : strictly_increasing (x :: l) -> strictly_increasing l.
Proof. destruct l as [|y l]; cbn; tauto. Qed.
Lemma si_last l : forall x d, strictly_increasing (x :: l) -> l <> [] -> x < last (x :: l) d.
Proof.
  induction l as [|y l IH]; intros x d H Hn; [tauto|]. destruct H as [H1 H2].
  destruct l as [|z l]; [exact H1|]. specialize (IH y d H2). change (last (x :: y :: z :: l) d) with (last (y :: z :: l) d).
  assert (y < last (y :: z :: l) d) by (apply IH; discriminate). lra.
Qed.

Lemma count_bins_nonneg x : forall edges, Forall (fun c => 0 <= c) (count_bins x edges).
Proof.
  induction edges as [|l [|r rest] IH]; [constructor..|]. destruct rest as [|r2 rest].
  - cbn. constructor; [|constructor]. apply ZQ_le. lia.
  - constructor; [|exact IH]. apply ZQ_le. lia.
Qed.
Lemma count_bins_length x : forall edges, length (count_bins x edges) = (length edges - 1)%nat.
Proof.
  induction edges as [|l [|r rest] IH]; [reflexivity..|]. destruct rest as [|r2 rest]; [reflexivity|].
  change (count_bins x (l :: r :: r2 :: rest)) with
    (inject_Z (Z.of_nat (length (filter (fun v => Qle_bool l v && Qlt_b v r) x))) :: count_bins x (r :: r2 :: rest)).
  cbn [length]. rewrite IH. cbn. lia.
Qed.
Lemma count_bins_sum x : forall edges l d, strictly_increasing (l :: edges) -> edges <> [] ->
  sumQ (count_bins x (l :: edges)) ==
    inject_Z (Z.of_nat (length (filter (fun v => Qle_bool l v && Qle_bool v (last (l :: edges) d)) x))).
Proof.
  induction edges as [|r rest IH]; intros l d H Hn; [tauto|]. destruct rest as [|r2 rest].
  - cbn. ring.
  - change (count_bins x (l :: r :: r2 :: rest)) with
      (inject_Z (Z.of_nat (length (filter (fun v => Qle_bool l v && Qlt_b v r) x))) :: count_bins x (r :: r2 :: rest)).
    destruct H as [H1 H2]. change (last (l :: r :: r2 :: rest) d) with (last (r :: r2 :: rest) d).
    rewrite sumQ_cons, (IH r d H2) by discriminate. rewrite <- inject_Z_plus, <- Nat2Z.inj_add.
    assert (r < last (r :: r2 :: rest) d) as Hr by (apply si_last; [exact H2|discriminate]).
    set (z := last (r :: r2 :: rest) d) in *.
    rewrite (countb_split (fun v => Qle_bool l v && Qlt_b v r) (fun v => Qle_bool r v && Qle_bool v z)
               (fun v => Qle_bool l v && Qle_bool v z)); [reflexivity| |]; intros v _; unfold Qlt_b; qcases; cbn;
      intro Hb; try discriminate; try (split; reflexivity); try lra; auto.
Qed.

Lemma natQ_pos m : 0 < inject_Z (Z.of_nat (S m)).
Proof. apply ZQ_lt. lia. Qed.

Lemma si_map (g : nat -> Q) : (forall i, g i < g (S i)) -> forall n a, strictly_increasing (map g (seq a n)).
Proof. intros Hg. induction n as [|n IH]; intros a; [exact I|]. destruct n as [|n]; [exact I|]. split; [apply Hg|]. apply (IH (S a)). Qed.

Lemma linspace_shape lo hi m : lo < hi ->
  exists e, linspace lo hi (S (S m)) = e /\ length e = S (S m) /\ strictly_increasing e /\ hd 0 e == lo /\ last e 0 == hi.
Proof.
  intro H. eexists. split; [reflexivity|]. unfold linspace.
  assert (0 < (hi - lo) / inject_Z (Z.of_nat (S m))) as Hs by (apply Qlt_shift_div_l; [apply natQ_pos|lra]).
  set (s := (hi - lo) / inject_Z (Z.of_nat (S m))) in *. split; [rewrite map_length, seq_length; reflexivity|]. split.
  - apply si_map. intro i. rewrite Nat2Z.inj_succ. unfold Z.succ. rewrite inject_Z_plus. change (inject_Z 1) with 1. lra.
  - split.
    + cbn. ring.
    + rewrite seq_S, map_app. cbn [map]. rewrite last_last. cbn [plus]. subst s. field.
      pose proof (natQ_pos m). lra.
Qed.

Lemma Qmin_max_le x lo hi : list_min x = Ok lo -> list_max x = Ok hi -> lo <= hi.
Proof. intros H1 H2. apply (list_min_le _ _ H1). apply list_max_in. exact H2. Qed.

Lemma filter_all {A} (f : A -> bool) l : (forall v, In v l -> f v = true) -> filter f l = l.
Proof. induction l as [|v l IH]; intro H; cbn; [reflexivity|]. rewrite (H v (or_introl eq_refl)). f_equal. apply IH. intros; apply H; right; assumption. Qed.

(* a histogram: strictly increasing edges, non-negative counts, one per bin *)
Definition hist_ok (n : nat) (h : list Q * list Q) : Prop :=
  length (snd h) = S n /\ length (fst h) = n /\ strictly_increasing (snd h) /\ Forall (fun c => 0 <= c) (fst h).

Lemma np_histogram_lem x m : x <> [] ->
  exists c e, np_histogram x (S m) = Ok (c, e) /\ hist_ok (S m) (c, e) /\ sumQ c == inject_Z (Z.of_nat (length x)) /\
    (forall v, In v x -> hd 0 e <= v <= last e 0).
Proof.
  intro Hx. unfold np_histogram.
  assert (exists lo, list_min x = Ok lo) as [lo Elo] by (destruct x; [tauto|cbn; eauto]).
  assert (exists hi, list_max x = Ok hi) as [hi Ehi] by (destruct x; [tauto|cbn; eauto]).
  rewrite Elo, Ehi. cbn [bind]. pose proof (Qmin_max_le x lo hi Elo Ehi) as Hle.
  assert (exists lo' hi', (if Qeq_bool lo hi then (lo - (1#2), hi + (1#2)) else (lo, hi)) = (lo', hi') /\ lo' < hi' /\ lo' <= lo /\ hi <= hi')
    as (lo' & hi' & -> & Hlt & Hlo & Hhi).
  { destruct (Qeq_bool lo hi) eqn:E; eexists _, _; split; try reflexivity.
    - lra.
    - apply Qeq_bool_neq in E. split; [|lra]. destruct (Qlt_le_dec lo hi); [assumption|]. exfalso. apply E. lra. }
  destruct (linspace_shape lo' hi' m Hlt) as (e & Ee & Le & Se & He & Hl). rewrite Ee.
  assert (forall v, In v x -> hd 0 e <= v <= last e 0) as Hin.
  { intros v Hv. pose proof (list_min_le _ _ Elo v Hv). pose proof (list_max_ge _ _ Ehi v Hv). lra. }
  exists (count_bins x e), e. split; [reflexivity|]. split; [|split; [|exact Hin]].
  - split; [exact Le|]. cbn. split; [rewrite count_bins_length, Le; cbn; lia|]. split; [exact Se|apply count_bins_nonneg].
  - destruct e as [|l [|r e]]; cbn in Le; try lia. rewrite (count_bins_sum x (r :: e) l 0 Se) by discriminate.
    rewrite filter_all; [reflexivity|]. intros v Hv. destruct (Hin v Hv) as [H1 H2]. cbn [hd] in H1.
    apply andb_true_iff. split; apply Qle_bool_iff; assumption.
Qed.

(* interpolation *)
Fixpoint nd_pts (pts : list (Q * Q)) : Prop :=
  match pts with
  | p :: ((q :: _) as r) => fst p < fst q /\ snd p <= snd q /\ nd_pts r
  | _ => True
  end.
Lemma nd_tail p l : nd_pts (p :: l) -> nd_pts l.
Proof. destruct l; cbn; tauto. Qed.

Lemma interp_left x pts : forall p, x <= fst p -> interp x (p :: pts) == snd p.
Proof.
  intros [x0 f0] H. cbn in H. destruct pts as [|[x1 f1] r]; cbn; [reflexivity|].
  destruct (Qle_bool_spec x x0); [reflexivity|lra].
Qed.
Lemma interp_cons x x0 f0 x1 f1 r : interp x ((x0, f0) :: (x1, f1) :: r) =
  if Qle_bool x x0 then f0 else if Qlt_b x x1 then f0 + (f1 - f0) * ((x - x0) / (x1 - x0)) else interp x ((x1, f1) :: r).
Proof. reflexivity. Qed.
Lemma interp_ge_first x : forall pts p, nd_pts (p :: pts) -> snd p <= interp x (p :: pts).
Proof.
  induction pts as [|[x1 f1] r IH]; intros [x0 f0] H; [apply Qle_refl|].
  destruct H as (H1 & H2 & H3). cbn in H1, H2. rewrite interp_cons. cbn [snd]. unfold Qlt_b.
  destruct (Qle_bool_spec x x0); [apply Qle_refl|]. destruct (Qle_bool_spec x1 x); cbn [negb].
  - specialize (IH (x1, f1) H3). cbn [snd] in IH. lra.
  - assert (0 <= (x - x0) / (x1 - x0)) by (apply Qle_shift_div_l; lra).
    assert (0 <= (f1 - f0) * ((x - x0) / (x1 - x0))) by (apply Qmult_le_0_compat; lra). lra.
Qed.
Lemma interp_step x y x0 f0 x1 f1 : x0 < x1 -> f0 <= f1 -> x <= y -> x0 < x -> y < x1 ->
  f0 + (f1 - f0) * ((x - x0) / (x1 - x0)) <= f0 + (f1 - f0) * ((y - x0) / (x1 - x0)) /\
  f0 + (f1 - f0) * ((x - x0) / (x1 - x0)) <= f1.
Proof.
  intros. assert ((x - x0) / (x1 - x0) <= (y - x0) / (x1 - x0)) as E.
  { apply Qle_shift_div_l; [lra|]. assert ((x - x0) / (x1 - x0) * (x1 - x0) == x - x0) as -> by (field; lra). lra. }
  assert ((y - x0) / (x1 - x0) <= 1) by (apply Qle_shift_div_r; lra).
  revert E H4. generalize ((x - x0) / (x1 - x0)) ((y - x0) / (x1 - x0)). intros u w E Hw.
  assert (0 <= (f1 - f0) * (w - u)) by (apply Qmult_le_0_compat; lra).
  assert (0 <= (f1 - f0) * (1 - u)) by (apply Qmult_le_0_compat; lra). split; lra.
Qed.
Lemma interp_mono x y : x <= y -> forall pts, nd_pts pts -> interp x pts <= interp y pts.
Proof.
  intro Hxy. induction pts as [|[x0 f0] pts IH]; intro H; [apply Qle_refl|].
  destruct pts as [|[x1 f1] r]; [apply Qle_refl|]. pose proof (nd_tail _ _ H) as H3.
  destruct H as (H1 & H2 & _). cbn in H1, H2. pose proof (interp_ge_first y r (x1, f1) H3) as Hf. cbn [snd] in Hf.
  pose proof (interp_ge_first y ((x1, f1) :: r) (x0, f0) (conj H1 (conj H2 H3))) as Hf0. cbn [snd] in Hf0.
  specialize (IH H3).
  change (interp x ((x0, f0) :: (x1, f1) :: r)) with (if Qle_bool x x0 then f0 else if Qlt_b x x1 then f0 + (f1 - f0) * ((x - x0) / (x1 - x0)) else interp x ((x1, f1) :: r)).
  destruct (Qle_bool_spec x x0); [exact Hf0|]. clear Hf0.
  change (interp y ((x0, f0) :: (x1, f1) :: r)) with (if Qle_bool y x0 then f0 else if Qlt_b y x1 then f0 + (f1 - f0) * ((y - x0) / (x1 - x0)) else interp y ((x1, f1) :: r)).
  unfold Qlt_b. destruct (Qle_bool_spec y x0); [lra|].
  destruct (Qle_bool_spec x1 x); cbn [negb]; destruct (Qle_bool_spec x1 y); cbn [negb]; try lra.

  - destruct (interp_step x x x0 f0 x1 f1) as [_ E]; lra.
  - apply interp_step; assumption.
Qed.
Lemma interp_right x : forall pts d, pts <> [] -> nd_pts pts -> fst (last pts d) <= x -> interp x pts == snd (last pts d).
Proof.
  induction pts as [|[x0 f0] pts IH]; intros d Hn H Hx; [tauto|]. destruct pts as [|[x1 f1] r]; [reflexivity|].
  pose proof (nd_tail _ _ H) as H3. destruct H as (H1 & H2 & _). cbn in H1, H2.
  change (last ((x0, f0) :: (x1, f1) :: r) d) with (last ((x1, f1) :: r) d) in *.
  assert (x1 <= fst (last ((x1, f1) :: r) d)) as Hl.
  { clear - H3. revert x1 f1 H3. induction r as [|[x2 f2] r IH]; intros x1 f1 H; [apply Qle_refl|].
    change (last ((x1, f1) :: (x2, f2) :: r) d) with (last ((x2, f2) :: r) d). pose proof (nd_tail _ _ H) as H3.
    destruct H as (H1 & _). cbn in H1. specialize (IH _ _ H3). lra. }
  change (interp x ((x0, f0) :: (x1, f1) :: r)) with (if Qle_bool x x0 then f0 else if Qlt_b x x1 then f0 + (f1 - f0) * ((x - x0) / (x1 - x0)) else interp x ((x1, f1) :: r)).
  unfold Qlt_b. destruct (Qle_bool_spec x x0); [lra|]. destruct (Qle_bool_spec x1 x); cbn [negb]; [|lra].
  apply IH; [discriminate|exact H3|exact Hx].
Qed.

Lemma diff_sum : forall l x d, sumQ (diff (x :: l)) == last (x :: l) d - x.
Proof.
  induction l as [|y l IH]; intros x d; [cbn; ring|].
  change (diff (x :: y :: l)) with ((y - x) :: diff (y :: l)). rewrite sumQ_cons, (IH y d).
  change (last (x :: y :: l) d) with (last (y :: l) d). ring.
Qed.
Lemma diff_length : forall l, length (diff l) = (length l - 1)%nat.
Proof. induction l as [|x [|y l] IH]; try reflexivity. change (diff (x :: y :: l)) with ((y - x) :: diff (y :: l)). cbn [length]. rewrite IH. cbn. lia. Qed.
Lemma cumsum_length a : forall l, length (cumsum a l) = length l.
Proof. intro l. revert a. induction l as [|x l IH]; intro a; cbn; [reflexivity|]. rewrite IH. reflexivity. Qed.
Lemma cumsum_last : forall l a d, last (a :: cumsum a l) d == a + sumQ l.
Proof.
  induction l as [|x l IH]; intros a d; [cbn; ring|]. cbn [cumsum].
  change (last (a :: (a + x) :: cumsum (a + x) l) d) with (last ((a + x) :: cumsum (a + x) l) d). rewrite IH, sumQ_cons. ring.
Qed.
Lemma nd_combine : forall bins counts a, strictly_increasing bins -> Forall (fun c => 0 <= c) counts -> nd_pts (combine bins (a :: cumsum a counts)).
Proof.
  induction bins as [|b bins IH]; intros counts a Hs Hc; [exact I|].
  cbn [combine]. destruct counts as [|c counts]; cbn [cumsum].
  - destruct bins; cbn; exact I.
  - destruct bins as [|b2 bins]; [exact I|]. inversion Hc; subst. destruct Hs as [Hs1 Hs2].
    cbn. split; [exact Hs1|]. split; [lra|]. apply (IH counts (a + c) Hs2). assumption.
Qed.
Lemma combine_last {A B} : forall (a : list A) (b : list B) x y, length a = length b -> a <> [] -> last (combine a b) (x, y) = (last a x, last b y).
Proof.
  induction a as [|p a IH]; intros [|q b] x y H Hn; cbn in H; try discriminate; [tauto|].
  destruct a as [|p2 a], b as [|q2 b]; cbn in H; try discriminate; [reflexivity|].
  change (combine (p :: p2 :: a) (q :: q2 :: b)) with ((p, q) :: combine (p2 :: a) (q2 :: b)).
  change (last ((p, q) :: combine (p2 :: a) (q2 :: b)) (x, y)) with (last (combine (p2 :: a) (q2 :: b)) (x, y)).
  rewrite IH; [reflexivity| |discriminate]. cbn. lia.
Qed.

Lemma diff_nonneg (g : Q -> Q) : (forall x y, x <= y -> g x <= g y) -> forall l, strictly_increasing l -> Forall (fun c => 0 <= c) (diff (map g l)).
Proof.
  intros Hg. induction l as [|x [|y l] IH]; intro H; [constructor..|]. destruct H as [H1 H2].
  change (diff (map g (x :: y :: l))) with ((g y - g x) :: diff (map g (y :: l))). constructor; [|apply IH; exact H2].
  specialize (Hg x y). assert (g x <= g y) by (apply Hg; lra). lra.
Qed.

Lemma interpolate_lem n m cb h : hist_ok (S n) h -> length cb = S m -> strictly_increasing cb ->
  hd 0 cb <= hd 0 (snd h) -> last (snd h) 0 <= last cb 0 ->
  let c := interpolate_histogram cb (snd h) (fst h) in
  length c = m /\ Forall (fun v => 0 <= v) c /\ sumQ c == sumQ (fst h).
Proof.
  destruct h as [counts bins]. intros (L1 & L2 & S1 & N1) Lc Sc H1 H2. cbn [fst snd] in *. unfold interpolate_histogram.
  pose proof (nd_combine bins counts 0 S1 N1) as Hnd. set (pts := combine bins (0 :: cumsum 0 counts)) in *.
  split; [rewrite diff_length, map_length, Lc; lia|]. split.
  - apply diff_nonneg; [|exact Sc]. intros x y Hxy. apply interp_mono; assumption.
  - destruct cb as [|c0 cb]; [discriminate|]. cbn [map].
    rewrite (diff_sum _ _ (interp 0 pts)).
    assert (last (interp c0 pts :: map (fun b => interp b pts) cb) (interp 0 pts) = interp (last (c0 :: cb) 0) pts) as ->.
    { change (interp c0 pts :: map (fun b => interp b pts) cb) with (map (fun b => interp b pts) (c0 :: cb)).
      clear. generalize (c0 :: cb) as l. induction l as [|x [|y l] IH]; [reflexivity..|exact IH]. }
    assert (pts <> []) as Hne by (subst pts; destruct bins; [discriminate|cbn; discriminate]).
    assert (last pts (0, 0) = (last bins 0, last (0 :: cumsum 0 counts) 0)) as El.
    { apply combine_last; [cbn; rewrite cumsum_length; lia|]. destruct bins; discriminate. }
    rewrite (interp_right _ pts (0, 0) Hne Hnd) by (rewrite El; exact H2). rewrite El. cbn [snd]. rewrite cumsum_last.
    assert (exists p r, pts = p :: r /\ fst p = hd 0 bins /\ snd p = 0) as (p & r & -> & Hp & Hp0).
    { subst pts. destruct bins as [|b bins]; [discriminate|]. cbn. eauto. }
    rewrite interp_left by (rewrite Hp; exact H1). rewrite Hp0. ring.
Qed.

Lemma hd_in (e : list Q) : e <> [] -> In (hd 0 e) e.
Proof. destruct e; [tauto|]. intros; left; reflexivity. Qed.
Lemma last_in (e : list Q) d : e <> [] -> In (last e d) e.
Proof. induction e as [|x [|y e] IH]; intro H; [tauto|left; reflexivity|]. right. apply IH. discriminate. Qed.

Lemma map2_plus_sum : forall a b, length a = length b -> sumQ (map2 Qplus a b) == sumQ a + sumQ b.
Proof. induction a as [|x a IH]; intros [|y b] H; cbn in H; try discriminate; [cbn; ring|]. cbn [map2]. rewrite !sumQ_cons, IH by lia. ring. Qed.
Lemma map2_plus_nonneg : forall a b, Forall (fun v => 0 <= v) a -> Forall (fun v => 0 <= v) b -> Forall (fun v => 0 <= v) (map2 Qplus a b).
Proof. induction a as [|x a IH]; intros [|y b] H1 H2; cbn; constructor; inversion H1; inversion H2; subst; [lra|apply IH; assumption]. Qed.

Lemma fold_plus_lem m : forall l c0, length c0 = m -> Forall (fun v => 0 <= v) c0 ->
  Forall (fun c => length c = m /\ Forall (fun v => 0 <= v) c) l ->
  let r := fold_left (map2 Qplus) l c0 in
  length r = m /\ Forall (fun v => 0 <= v) r /\ sumQ r == sumQ (map sumQ (c0 :: l)).
Proof.
  induction l as [|c l IH]; intros c0 L N F; cbn [fold_left]; cbv zeta.
  - split; [exact L|]. split; [exact N|]. cbn. ring.
  - inversion F as [|? ? [Lc Nc] Fl]; subst. destruct (IH (map2 Qplus c0 c)) as (A & B & C); [rewrite map2_length; lia|apply map2_plus_nonneg; assumption|exact Fl|].
    split; [exact A|]. split; [exact B|]. rewrite C. cbn [map]. rewrite !sumQ_cons, map2_plus_sum by lia. ring.
Qed.

Lemma si_hd_last e : (2 <= length e)%nat -> strictly_increasing e -> hd 0 e < last e 0.
Proof. destruct e as [|x [|y e]]; cbn [length]; try lia. intros _ H. apply (si_last (y :: e) x 0 H). discriminate. Qed.

Lemma merge_lem n hs : hs <> [] -> Forall (hist_ok (S n)) hs ->
  exists b c, merge_histograms (S n) hs = Ok (b, c) /\ hist_ok (S n) (c, b) /\
    sumQ c == sumQ (map (fun h => sumQ (fst h)) hs) /\
    Forall (fun h => hd 0 b <= hd 0 (snd h) /\ last (snd h) 0 <= last b 0) hs.
Proof.
  intros Hn Hok. unfold merge_histograms. destruct hs as [|h0 hs]; [tauto|]. set (all := h0 :: hs) in *.
  cbn match. set (edges := concat (map snd all)).
  assert (forall h, In h all -> snd h <> []) as Hne.
  { intros h Hh. rewrite Forall_forall in Hok. destruct (Hok h Hh) as (L & _). intro E. rewrite E in L. discriminate. }
  assert (forall h v, In h all -> In v (snd h) -> In v edges) as Hin.
  { intros h v Hh Hv. apply in_concat. exists (snd h). split; [apply in_map; exact Hh|exact Hv]. }
  assert (edges <> []) as He.
  { intro E. specialize (Hin h0 (hd 0 (snd h0)) (or_introl eq_refl)). rewrite E in Hin. apply Hin. apply hd_in. apply Hne. left; reflexivity. }
  assert (exists mn, list_min edges = Ok mn) as [mn Emn] by (destruct edges; [tauto|cbn; eauto]).
  assert (exists mx, list_max edges = Ok mx) as [mx Emx] by (destruct edges; [tauto|cbn; eauto]).
  rewrite Emn, Emx. cbn [bind].
  assert (forall h, In h all -> mn <= hd 0 (snd h) /\ last (snd h) 0 <= mx) as Hb.
  { intros h Hh. split; [apply (list_min_le _ _ Emn)|apply (list_max_ge _ _ Emx)]; apply (Hin h); auto; [apply hd_in|apply last_in]; auto. }
  assert (mn < mx) as Hlt.
  { destruct (Hb h0 (or_introl eq_refl)). rewrite Forall_forall in Hok. destruct (Hok h0 (or_introl eq_refl)) as (L & _ & S & _).
    assert (hd 0 (snd h0) < last (snd h0) 0) by (apply si_hd_last; [lia|exact S]). lra. }
  destruct (linspace_shape mn mx n Hlt) as (b & Eb & Lb & Sb & Hhd & Hlast). rewrite Eb. clear Eb.
  assert (Forall (fun h => let c := interpolate_histogram b (snd h) (fst h) in length c = S n /\ Forall (fun v => 0 <= v) c /\ sumQ c == sumQ (fst h)) all) as FI.
  { apply Forall_forall. intros h Hh. rewrite Forall_forall in Hok. destruct (Hb h Hh). apply (interpolate_lem n (S n) b h); auto; lra. }
  assert (Forall (fun h => hd 0 b <= hd 0 (snd h) /\ last (snd h) 0 <= last b 0) all) as FB.
  { apply Forall_forall. intros h Hh. destruct (Hb h Hh). lra. }
  unfold all in *. cbn [map]. inversion FI as [|? ? (I1 & I2 & I3) FI']; subst.
  eexists _, _. split; [reflexivity|].
  destruct (fold_plus_lem (S n) (map (fun ch => interpolate_histogram b (snd ch) (fst ch)) hs) (interpolate_histogram b (snd h0) (fst h0)) I1 I2) as (A & B & C).
  { apply Forall_forall. intros c Hc. apply in_map_iff in Hc. destruct Hc as [h [<- Hh]]. rewrite Forall_forall in FI'. specialize (FI' h Hh). tauto. }
  split; [split; [exact Lb|split; [exact A|split; [exact Sb|exact B]]]|]. split; [|exact FB].
  cbn [fst]. rewrite C. cbn [map]. rewrite !sumQ_cons. rewrite I3.
  assert (sumQ (map sumQ (map (fun ch => interpolate_histogram b (snd ch) (fst ch)) hs)) == sumQ (map (fun h => sumQ (fst h)) hs)) as ->; [|reflexivity].
  clear - FI'. induction FI' as [|h hs (_ & _ & E) F IH]; [reflexivity|]. cbn [map]. rewrite !sumQ_cons, E, IH. reflexivity.
Qed.

Lemma updates_lem n : forall xs h, h_n h = S n -> Forall (fun x => x <> []) xs ->
  exists h' hs, foldM h_update xs h = Ok h' /\ h_iter h' = h_iter h ++ hs /\ h_n h' = S n /\ h_legal h' = h_legal h /\
    h_bins h' = h_bins h /\ h_counts h' = h_counts h /\
    Forall2 (fun x ch => hist_ok (S n) ch /\ sumQ (fst ch) == inject_Z (Z.of_nat (length x)) /\
                         forall v, In v x -> hd 0 (snd ch) <= v <= last (snd ch) 0) xs hs.
Proof.
  induction xs as [|x xs IH]; intros h Hn F; cbn [foldM].
  - exists h, []. rewrite app_nil_r. repeat (split; [auto|]). constructor.
  - inversion F as [|? ? Hx Fx]; subst. unfold h_update at 1. rewrite Hn.
    destruct (np_histogram_lem x n Hx) as (c & e & E & Hok & Hs & Hi). rewrite E. cbn [bind].
    match goal with |- context [foldM h_update xs ?h1] => destruct (IH h1 eq_refl Fx) as (h' & hs & E' & H1 & H2 & H3 & H4 & H5 & H6) end.
    cbn in H1, H3, H4, H5. exists h', ((c, e) :: hs). split; [exact E'|]. split; [rewrite H1, <- app_assoc; reflexivity|].
    repeat (split; [assumption|]). constructor; auto.
Qed.

Lemma histogram_lem : forall n xs, xs <> [] -> Forall (fun x => x <> []) xs ->
  exists h h' bins counts, foldM h_update xs (h_new (S n)) = Ok h /\ h_get h = Ok (h', (bins, counts)) /\
    length bins = S (S n) /\ length counts = S n /\ strictly_increasing bins /\ Forall (fun c => 0 <= c) counts /\
    sumQ counts == inject_Z (Z.of_nat (length (concat xs))) /\
    (forall v, In v (concat xs) -> hd 0 bins <= v <= last bins 0).
Proof.
  intros n xs Hx F. destruct (updates_lem n xs (h_new (S n)) eq_refl F) as (h & hs & E & H1 & H2 & H3 & H4 & H5 & H6).
  cbn in H1, H3, H4, H5. pose proof (Forall2_length _ _ _ H6) as L.
  assert (hs <> []) as Hhs by (destruct hs; [|discriminate]; destruct xs; [contradiction|cbn in L; lia]).
  assert (Forall (hist_ok (S n)) hs) as Hok by (clear - H6; induction H6; constructor; tauto).
  destruct (merge_lem n hs Hhs Hok) as (b & c & Em & (A & B & C & D) & Es & FB).
  eexists h, _, b, c. split; [exact E|]. unfold h_get. rewrite H3, H4, H1, H2, Em. cbn. split; [reflexivity|].
  repeat (split; [assumption|]). split.
  - rewrite Es. clear - H6. induction H6 as [|x ch xs hs (_ & E & _) F IH]; [reflexivity|].
    cbn [map concat]. rewrite sumQ_cons, IH, E, app_length, Nat2Z.inj_add, inject_Z_plus. reflexivity.
  - intros v Hv. clear - H6 FB Hv. induction H6 as [|x ch xs hs (_ & _ & E) F IH]; [destruct Hv|].
    inversion FB as [|? ? [B1 B2] FB']; subst. cbn in Hv. apply in_app_or in Hv. destruct Hv as [Hv|Hv].
    + specialize (E v Hv). lra.
    + apply IH; assumption.
Qed.

(* scaling or shifting by one number moves the bins and keeps the counts; a vector makes it unusable *)
Lemma h_affine_lem f h s h1 b c : h_get h = Ok (h1, (b, c)) -> (2 <= length b)%nat ->
  exists h2 h3, h_affine f h [s] = Ok h2 /\ h_get h2 = Ok (h3, (map (fun v => f v s) b, c)).
Proof.
  intros E L. unfold h_affine. cbn [length Nat.ltb Nat.leb orb].
  assert (h_legal h = true) as Hl by (unfold h_get in E; destruct (h_legal h); [reflexivity|discriminate]).
  assert (h_legal h1 = true /\ h_counts h1 = Some c) as [Hl1 Hc1].
  { unfold h_get in E. rewrite Hl in E. cbn [negb] in E. destruct (h_bins h) eqn:Eb, (h_counts h) eqn:Ec;
      try (destruct (merge_histograms (h_n h) (h_iter h)) as [[b' c']|]; [|discriminate]; cbn in E; inversion E; subst; cbn; auto).
    inversion E; subst. auto. }
  rewrite Hl, E. cbn [negb orb bind]. assert (bcast2 f b [s] = Ok (map (fun v => f v s) b)) as ->.
  { unfold bcast2. destruct b as [|x [|y b]]; cbn in L; try lia. reflexivity. }
  cbn [bind]. eexists _, _. split; [reflexivity|]. unfold h_get. cbn [h_legal h_bins h_counts]. rewrite Hl1, Hc1. reflexivity.
Qed.
Lemma h_affine_vector_lem f h v : (1 < length v)%nat -> exists h', h_affine f h v = Ok h' /\ h_get h' = Err E_critical.
Proof.
  intro H. unfold h_affine. assert (Nat.ltb 1 (length v) = true) as -> by (apply Nat.ltb_lt; exact H). cbn [orb].
  eexists. split; [reflexivity|]. reflexivity.
Qed.

(* ---- means ---- *)
Definition nQ (n : nat) : Q := inject_Z (Z.of_nat n).
Lemma nQ_S n : nQ (S n) == nQ n + 1.
Proof. unfold nQ. rewrite Nat2Z.inj_succ. unfold Z.succ. rewrite inject_Z_plus. reflexivity. Qed.
Lemma nQ_pos n : (0 < n)%nat -> 0 < nQ n.
Proof. intro. apply ZQ_lt. lia. Qed.
Lemma sum_bounds lo hi l : (forall y, In y l -> lo <= y <= hi) -> nQ (length l) * lo <= sumQ l <= nQ (length l) * hi.
Proof.
  induction l as [|x l IH]; intro H; [unfold nQ, sumQ; cbn [length Z.of_nat fold_right]; change (inject_Z 0) with 0; split; lra|].
  cbn [length]. rewrite nQ_S, sumQ_cons. destruct IH as [A B]; [intros; apply H; right; assumption|].
  destruct (H x (or_introl eq_refl)). lra.
Qed.
Lemma mean_bounds lo hi l : l <> [] -> (forall y, In y l -> lo <= y <= hi) -> lo <= meanQ l <= hi.
Proof.
  intros Hl H. pose proof (sum_bounds lo hi l H) as [A B]. unfold meanQ. fold (nQ (length l)).
  assert (0 < nQ (length l)) by (apply nQ_pos; destruct l; [tauto|cbn; lia]).
  split; [apply Qle_shift_div_l|apply Qle_shift_div_r]; lra.
Qed.

(* what the running sum of one channel means, for batches whose channel has k values *)
Definition me_chan (k i : nat) (l : list Q) (s : Q) : Prop := length l = (k * i)%nat /\ sumQ l == nQ k * s.
Definition me_bnd (i : nat) (l : list Q) (s : Q) : Prop :=
  forall lo hi, (forall y, In y l -> lo <= y <= hi) -> nQ i * lo <= s <= nQ i * hi.

Lemma map2_Forall2 {A B C D E F} (R : A -> B -> Prop) (S : C -> D -> Prop) (T : E -> F -> Prop) (f : A -> C -> E) (g : B -> D -> F)
  a b c d : (forall x y z w, R x y -> S z w -> T (f x z) (g y w)) -> Forall2 R a b -> Forall2 S c d -> Forall2 T (map2 f a c) (map2 g b d).
Proof.
  intros H F1. revert c d. induction F1; intros c d F2; [constructor|]. inversion F2; subst; cbn; [constructor|]. constructor; auto.
Qed.

Lemma me_updates (R : nat -> list Q -> Q -> Prop) (P : list Q -> Prop) n :
  (forall i l s c, P c -> R i l s -> R (S i) (l ++ c) (s + meanQ c)) ->
  forall xs m log, length log = n -> length (me_sum m) = n -> Forall2 (R (me_i m)) log (me_sum m) ->
  Forall (fun x => length x = n /\ Forall P x) xs ->
  (xs = [] -> me_mean m = map (fun v => v / nQ (me_i m)) (me_sum m)) ->
  exists m', foldM me_update xs m = Ok m' /\ me_i m' = (me_i m + length xs)%nat /\
    me_mean m' = map (fun v => v / nQ (me_i m')) (me_sum m') /\
    Forall2 (R (me_i m')) (fold_left (observe n) (map MM_update xs) log) (me_sum m').
Proof.
  intros HR xs. induction xs as [|x xs IH]; intros m log L Ls F Fx Hm; cbn [foldM map fold_left].
  - exists m. split; [reflexivity|]. split; [cbn; lia|]. split; [auto|exact F].
  - inversion Fx as [|? ? [Hx Px] Fx']; subst. unfold me_update at 1. rewrite bcast_same by (rewrite map_length; congruence). cbn [bind].
    match goal with |- context [foldM me_update xs ?m1] => destruct (IH m1 (map2 (@app Q) log x)) as (m' & E & I & M & F') end.
    + rewrite map2_length; congruence.
    + cbn. rewrite map2_length; rewrite ?map_length; congruence.
    + cbn. eapply map2_Forall2 with (S := fun c v => P c /\ v = meanQ c); [|exact F|].
      * intros l s c v Hr [Pc ->]. apply HR; assumption.
      * clear - Px. induction Px; constructor; auto.
    + exact Fx'.
    + intros _. reflexivity.
    + exists m'. split; [exact E|]. split; [cbn in I; cbn; lia|]. split; [exact M|exact F'].
Qed.

Lemma me_run (R : nat -> list Q -> Q -> Prop) (P : list Q -> Prop) n :
  (1 <= n)%nat -> R 0%nat [] 0 -> (forall i l s t, s == t -> R i l s -> R i l t) ->
  (forall i l s c, P c -> R i l s -> R (S i) (l ++ c) (s + meanQ c)) ->
  forall xs, xs <> [] -> Forall (fun x => length x = n /\ Forall P x) xs ->
  exists m, foldM me_update xs me_new = Ok m /\ me_i m = length xs /\
    me_mean m = map (fun v => v / nQ (me_i m)) (me_sum m) /\
    Forall2 (R (me_i m)) (observed n (map MM_update xs)) (me_sum m).
Proof.
  intros Hn H0 He HR xs Hxs Fx. destruct xs as [|x xs]; [tauto|]. inversion Fx as [|? ? [Hx Px] Fx']; subst.
  cbn [foldM]. unfold me_update at 1. cbn [me_sum me_new me_i].
  assert (exists s, bcast2 Qplus [0] (map meanQ x) = Ok s /\ Forall2 (fun c v => P c /\ v == meanQ c) x s) as (s & Es & Fs).
  { exists (map (fun y => 0 + y) (map meanQ x)). split.
    - unfold bcast2. rewrite map_length. destruct x as [|c [|c2 x]]; cbn in *; try lia; reflexivity.
    - clear - Px. induction Px; constructor; auto. split; [assumption|]. ring. }
  rewrite Es. cbn [bind].
  match goal with |- context [foldM me_update xs ?m1] => destruct (me_updates R P (length x) HR xs m1 x) as (m' & E & I & M & F') end.
  - reflexivity.
  - cbn. symmetry. eapply Forall2_length. exact Fs.
  - cbn. eapply Forall2_impl; [|exact Fs]. cbn. intros c v [Pc Ev]. eapply He; [|exact (HR 0%nat [] 0 c Pc H0)]. rewrite Ev. ring.
  - exact Fx'.
  - intros _. reflexivity.
  - exists m'. split; [exact E|]. split; [cbn in I; cbn; lia|]. split; [exact M|].
    unfold observed. cbn [map fold_left observe]. rewrite map2_app_nil by reflexivity. exact F'.
Qed.

Lemma mean_equal_batches_lem : forall n k xs, (1 <= n)%nat -> (1 <= k)%nat -> xs <> [] ->
  Forall (fun x => length x = n /\ Forall (fun c => length c = k) x) xs ->
  exists m, foldM me_update xs me_new = Ok m /\
    Forall2 (fun l v => v == meanQ l) (observed n (map MM_update xs)) (me_mean m).
Proof.
  intros n k xs Hn Hk Hxs Fx.
  destruct (me_run (me_chan k) (fun c => length c = k) n Hn) with (xs := xs) as (m & E & I & M & F); auto.
  - split; [cbn; lia|]. cbn. ring.
  - intros i l s t Est [A B]. split; [exact A|]. rewrite B, Est. reflexivity.
  - intros i l s c Hc [A B]. split; [rewrite app_length, A, Hc; lia|].
    rewrite sumQ_app, B. unfold meanQ. fold (nQ (length c)). rewrite Hc. field. pose proof (nQ_pos k). assert (0 < nQ k) by (apply H; lia). lra.
  - exists m. split; [exact E|]. rewrite M. apply Forall2_map_r. eapply Forall2_impl; [|exact F].
    cbn. intros l s [A B]. unfold meanQ. rewrite A, B, I. fold (nQ (k * length xs)).
    assert (nQ (k * length xs) == nQ k * nQ (length xs)) as -> by (unfold nQ; rewrite Nat2Z.inj_mul, inject_Z_mult; reflexivity).
    assert (0 < nQ k) by (apply nQ_pos; lia). assert (0 < nQ (length xs)) by (apply nQ_pos; destruct xs; [tauto|cbn; lia]).
    field. split; lra.
Qed.

Lemma mean_bounded_lem : forall n xs, (1 <= n)%nat -> xs <> [] ->
  Forall (fun x => length x = n /\ Forall (fun c => c <> []) x) xs ->
  exists m, foldM me_update xs me_new = Ok m /\
    Forall2 (fun l v => forall lo hi, is_min l lo -> is_max l hi -> lo <= v <= hi) (observed n (map MM_update xs)) (me_mean m).
Proof.
  intros n xs Hn Hxs Fx.
  destruct (me_run me_bnd (fun c => c <> []) n Hn) with (xs := xs) as (m & E & I & M & F); auto.
  - intros lo hi _. change (nQ 0) with 0. split; lra.
  - intros i l s t Est H lo hi Hl. specialize (H lo hi Hl). lra.
  - intros i l s c Hc H lo hi Hl. destruct (H lo hi) as [A B]; [intros; apply Hl, in_or_app; auto|].
    destruct (mean_bounds lo hi c Hc) as [C D]; [intros; apply Hl, in_or_app; auto|]. rewrite nQ_S. lra.
  - exists m. split; [exact E|]. rewrite M. apply Forall2_map_r. eapply Forall2_impl; [|exact F].
    cbn. intros l s H lo hi [_ Hlo] [_ Hhi]. destruct (H lo hi) as [A B]; [auto|].
    assert (0 < nQ (me_i m)) by (rewrite I; apply nQ_pos; destruct xs; [tauto|cbn; lia]).
    split; [apply Qle_shift_div_l|apply Qle_shift_div_r]; lra.
Qed.
