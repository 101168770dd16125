(* PlatProofs.v -- lemmas: the boolean equalities decide the specification's equalities. *)
From Coq Require Import String.
From Verif Require Import Base SDict PlatModel PlatSpec SearchProofs.
Local Open Scope list_scope.

Lemma opt_eqb_eq {A} (e : A -> A -> bool) : (forall x y, e x y = true <-> x = y) -> forall a b, opt_eqb e a b = true <-> a = b.
Proof. intros H [x|] [y|]; cbn; try rewrite H; split; intro K; try discriminate; congruence. Qed.
Lemma list_eqb_spec {A} (e : A -> A -> bool) (R : A -> A -> Prop) a : forall b,
  (forall x y, In x a -> In y b -> (e x y = true <-> R x y)) -> (list_eqb e a b = true <-> Forall2 R a b).
Proof.
  induction a as [|x a IH]; intros [|y b] H; cbn; split; intro K; try discriminate; try constructor; try solve [inversion K]; try reflexivity.
  - apply andb_true_iff in K. apply H; [left; reflexivity|left; reflexivity|apply K].
  - apply andb_true_iff in K. apply IH; [intros; apply H; right; assumption|apply K].
  - inversion K; subst. apply andb_true_iff. split; [apply H; [left; reflexivity|left; reflexivity|assumption]|].
    apply IH; [intros; apply H; right; assumption|assumption].
Qed.
Lemma Forall2_eq {A} (a b : list A) : Forall2 eq a b <-> a = b.
Proof. split; [induction 1; congruence|intros ->; induction b; constructor; auto]. Qed.

Lemma attrcfg_eqb_eq a b : attrcfg_eqb a b = true <-> a = b.
Proof.
  unfold attrcfg_eqb. rewrite !andb_true_iff, Nat.eqb_eq, Z.eqb_eq, !Bool.eqb_true_iff, (opt_eqb_eq Z.eqb Z.eqb_eq).
  destruct a, b; cbn. split; [intros [[[[-> ->] ->] ->] ->]; reflexivity|intro H; inversion H; auto].
Qed.
Lemma ibits_eqb_eq a b : ibits_eqb a b = true <-> a = b.
Proof.
  destruct a, b; cbn; try (split; intro; discriminate).
  - rewrite Z.eqb_eq. split; congruence.
  - rewrite (list_eqb_spec Z.eqb eq) by (intros; apply Z.eqb_eq). rewrite Forall2_eq. split; congruence.
Qed.

Lemma attrs_eqb_spec a b : NoDup (skeys a) -> NoDup (skeys b) ->
  (sdict_eqb attrcfg_eqb a b = true <-> forall k, sget k a = sget k b).
Proof.
  intros Na Nb. rewrite sdict_eqb_spec by assumption. split; intros H k; specialize (H k).
  - destruct (sget k a), (sget k b); try tauto. apply attrcfg_eqb_eq in H. congruence.
  - rewrite H. destruct (sget k b); [apply attrcfg_eqb_eq; reflexivity|exact I].
Qed.

Lemma opcfg_eqb_spec a b : wf_cfg a -> wf_cfg b -> (opcfg_eqb a b = true <-> same_cfg a b).
Proof.
  intros Wa Wb. unfold opcfg_eqb, same_cfg.
  rewrite !andb_true_iff, attrcfg_eqb_eq, (attrs_eqb_spec _ _ Wa Wb), !Nat.eqb_eq, Z.eqb_eq, ibits_eqb_eq, !Bool.eqb_true_iff,
    !(opt_eqb_eq Z.eqb Z.eqb_eq). tauto.
Qed.

Lemma same_cfg_refl a : same_cfg a a.
Proof. repeat split. Qed.
Lemma same_cfg_sym a b : same_cfg a b -> same_cfg b a.
Proof. unfold same_cfg. intuition. Qed.
Lemma same_cfg_trans a b c : same_cfg a b -> same_cfg b c -> same_cfg a c.
Proof. unfold same_cfg. intuition; congruence. Qed.

Lemma Forall2_refl {A} (R : A -> A -> Prop) : (forall x, R x x) -> forall l, Forall2 R l l.
Proof. intros H l. induction l; constructor; auto. Qed.
Lemma Forall2_sym {A} (R : A -> A -> Prop) : (forall x y, R x y -> R y x) -> forall l m, Forall2 R l m -> Forall2 R m l.
Proof. intros H l m F. induction F; constructor; auto. Qed.
Lemma Forall2_trans {A} (R : A -> A -> Prop) : (forall x y z, R x y -> R y z -> R x z) ->
  forall l m n, Forall2 R l m -> Forall2 R m n -> Forall2 R l n.
Proof. intros H l m n F. revert n. induction F; intros n G; inversion G; subst; constructor; eauto. Qed.

Lemma same_qco_refl a : same_qco a a.
Proof. split; [apply same_cfg_refl|apply Forall2_refl, same_cfg_refl]. Qed.
Lemma same_qco_sym a b : same_qco a b -> same_qco b a.
Proof. intros [H K]. split; [apply same_cfg_sym, H|apply (Forall2_sym _ same_cfg_sym), K]. Qed.
Lemma same_qco_trans a b c : same_qco a b -> same_qco b c -> same_qco a c.
Proof. intros [H K] [H' K']. split; [eapply same_cfg_trans; eassumption|eapply (Forall2_trans _ same_cfg_trans); eassumption]. Qed.

Lemma qco_eqb_spec a b : wf_qco a -> wf_qco b -> (qco_eqb a b = true <-> same_qco a b).
Proof.
  intros [Wa Fa] [Wb Fb]. unfold qco_eqb, same_qco. rewrite andb_true_iff, (opcfg_eqb_spec _ _ Wa Wb).
  rewrite (list_eqb_spec opcfg_eqb same_cfg); [reflexivity|].
  rewrite Forall_forall in Fa, Fb. intros x y I J. apply opcfg_eqb_spec; auto.
Qed.

Lemma same_opset_refl a : same_opset a a.
Proof. split; [reflexivity|]. destruct (os_qco a); [apply same_qco_refl|exact I]. Qed.
Lemma same_opset_sym a b : same_opset a b -> same_opset b a.
Proof.
  intros [H K]. split; [congruence|]. destruct (os_qco a), (os_qco b); try tauto. apply same_qco_sym, K.
Qed.
Lemma same_opset_trans a b c : same_opset a b -> same_opset b c -> same_opset a c.
Proof.
  intros [H K] [H' K']. split; [congruence|]. destruct (os_qco a), (os_qco b), (os_qco c); try tauto.
  eapply same_qco_trans; eassumption.
Qed.
Lemma opset_eqb_spec a b : wf_opset a -> wf_opset b -> (opset_eqb a b = true <-> same_opset a b).
Proof.
  unfold wf_opset, opset_eqb, same_opset. rewrite andb_true_iff, String.eqb_eq.
  destruct (os_qco a), (os_qco b); cbn; intros Wa Wb; try (intuition congruence).
  rewrite (qco_eqb_spec _ _ Wa Wb). reflexivity.
Qed.

Lemma same_group_refl a : same_group a a.
Proof. destruct a; constructor; [apply same_opset_refl|apply Forall2_refl, same_opset_refl]. Qed.
Lemma same_group_sym a b : same_group a b -> same_group b a.
Proof. destruct 1; constructor; [apply same_opset_sym; assumption|apply (Forall2_sym _ same_opset_sym); assumption]. Qed.
Lemma same_group_trans a b c : same_group a b -> same_group b c -> same_group a c.
Proof.
  destruct 1 as [s t E|n l k F]; intro K; inversion K as [s' t' E'|n' l' k' F']; subst; constructor.
  - eapply same_opset_trans; eassumption.
  - eapply (Forall2_trans _ same_opset_trans); eassumption.
Qed.
Lemma opgroup_eqb_spec a b : wf_group a -> wf_group b -> (opgroup_eqb a b = true <-> same_group a b).
Proof.
  destruct a as [s|n l], b as [t|m k]; cbn; intros Wa Wb; try (split; [discriminate|intro H; inversion H]).
  - rewrite (opset_eqb_spec _ _ Wa Wb). split; [intro; constructor; assumption|intro H; inversion H; assumption].
  - rewrite andb_true_iff, String.eqb_eq, (list_eqb_spec opset_eqb same_opset).
    + split; [intros [-> F]; constructor; assumption|intro H; inversion H; auto].
    + rewrite Forall_forall in Wa, Wb. intros x y I J. apply opset_eqb_spec; auto.
Qed.

Lemma covers_b_spec a b : wf_group a -> wf_group b -> (covers_b a b = true <-> accepts a b).
Proof.
  intros Wa Wb. unfold covers_b. rewrite orb_true_iff, (opgroup_eqb_spec _ _ Wa Wb). split.
  - intros [H|H]; [apply A_same; assumption|]. destruct a as [s|n l], b as [t|m k]; try discriminate.
    apply existsb_exists in H. destruct H as [u [I E]]. cbn in Wa, Wb. rewrite Forall_forall in Wa.
    apply (A_member n l t u I). apply opset_eqb_spec; auto.
  - destruct 1 as [a b H|n l s t I E]; [left; assumption|right]. apply existsb_exists. exists t. split; [assumption|].
    cbn in Wa, Wb. rewrite Forall_forall in Wa. apply opset_eqb_spec; auto.
Qed.

Lemma covers_from_spec other : forall self, Forall wf_group self -> Forall wf_group other ->
  (covers_from self other = true <-> exists mid post, self = mid ++ post /\ Forall2 accepts mid other).
Proof.
  induction other as [|b r IH]; intros self Ws Wo.
  - split; [|destruct self; reflexivity]. intros _. exists [], self. split; [reflexivity|apply Forall2_nil].
  - inversion Wo as [|? ? Wb Wr]; subst. destruct self as [|a s].
    + cbn. split; [discriminate|]. intros [mid [post [E F]]]. inversion F; subst. discriminate.
    + cbn [covers_from]. inversion Ws as [|? ? Wa Wt]; subst. rewrite andb_true_iff, (covers_b_spec _ _ Wa Wb), (IH _ Wt Wr). split.
      * intros [H [mid [post [-> F]]]]. exists (a :: mid), post. split; [reflexivity|constructor; assumption].
      * intros [mid [post [E F]]]. inversion F as [|x y m o H F']; subst. inversion E; subst. split; [assumption|].
        exists m, post. auto.
Qed.

(* edits *)
Lemma sget_mapk {V W} (f : string -> V -> W) k d : sget k (map (fun kv => (fst kv, f (fst kv) (snd kv))) d) = option_map (f k) (sget k d).
Proof.
  induction d as [|[k' v'] r IH]; cbn; [reflexivity|]. destruct (String.eqb_spec k k') as [->|]; [reflexivity|exact IH].
Qed.
Lemma skeys_mapk {V W} (f : string -> V -> W) d : skeys (map (fun kv => (fst kv, f (fst kv) (snd kv))) d) = skeys d.
Proof. unfold skeys. rewrite map_map. apply map_ext. reflexivity. Qed.

Definition attr_step (l : list (string * attr_edit)) (k : string) (c : attrcfg) : attrcfg :=
  match sget k l with Some ae => attr_clone ae c | None => c end.
Lemma op_clone_attrs l e c : oc_attrs (op_clone l e c) = map (fun kv => (fst kv, attr_step l (fst kv) (snd kv))) (or_old (oe_attrs e) (oc_attrs c)).
Proof. reflexivity. Qed.
Lemma op_clone_get l e c k : sget k (oc_attrs (op_clone l e c)) = option_map (attr_step l k) (sget k (or_old (oe_attrs e) (oc_attrs c))).
Proof. rewrite op_clone_attrs. apply sget_mapk. Qed.
Lemma op_clone_keys l e c : skeys (oc_attrs (op_clone l e c)) = skeys (or_old (oe_attrs e) (oc_attrs c)).
Proof. rewrite op_clone_attrs. apply skeys_mapk. Qed.

Lemma op_clone_same l e a b : same_cfg a b -> same_cfg (op_clone l e a) (op_clone l e b).
Proof.
  intro S. unfold same_cfg in S. decompose [and] S. unfold same_cfg. repeat split; try (cbn; congruence).
  intro k. rewrite !op_clone_get. destruct (oe_attrs e); cbn; congruence.
Qed.

Lemma op_clone_set m c : op_clone [] (edit_attrs m) c = with_attrs m c.
Proof.
  unfold op_clone, with_attrs. cbn. f_equal. induction m as [|[k v] m IH]; cbn; [reflexivity|]. rewrite IH. reflexivity.
Qed.
Lemma sset_fold_get {V} (l : list (string * V)) : forall d k,
  sget k (fold_left (fun d kv => sset (fst kv) (snd kv) d) l d) =
  match sget k (rev l) with Some v => Some v | None => sget k d end.
Proof.
  induction l as [|[k' v'] l IH]; intros d k; cbn; [reflexivity|]. rewrite IH, sget_sset.
  assert (forall d1 d2 : list (string * V), sget k (d1 ++ d2) = match sget k d1 with Some v => Some v | None => sget k d2 end) as A.
  { induction d1 as [|[k1 v1] r IHr]; intro d2; cbn; [reflexivity|]. destruct (String.eqb k k1); [reflexivity|apply IHr]. }
  rewrite A. cbn. destruct (sget k (rev l)); [reflexivity|]. destruct (String.eqb k k'); reflexivity.
Qed.
Lemma sset_fold_nodup {V} (l : list (string * V)) : forall d, NoDup (skeys d) -> NoDup (skeys (fold_left (fun d kv => sset (fst kv) (snd kv) d) l d)).
Proof. induction l as [|[k v] l IH]; intros d N; cbn; [assumption|]. apply IH, sset_nodup, N. Qed.
Lemma sget_rev {V} (l : list (string * V)) k : NoDup (skeys l) -> sget k (rev l) = sget k l.
Proof.
  intro N. assert (NoDup (skeys (rev l))) as N' by (unfold skeys; rewrite map_rev; apply NoDup_rev, N).
  destruct (sget k l) as [v|] eqn:E.
  - apply in_sget; [assumption|]. apply in_rev. rewrite rev_involutive. apply sget_in, E.
  - apply sget_none. apply sget_none in E. intro I. apply E. unfold skeys in *. rewrite map_rev, <- in_rev in I. exact I.
Qed.
Lemma sset_id_fold {V} (l : list (string * V)) : NoDup (skeys l) -> fold_left (fun d kv => sset (fst kv) (snd kv) d) l [] = l.
Proof.
  assert (forall (d : list (string * V)) k v, ~ In k (skeys d) -> sset k v d = d ++ [(k, v)]) as A.
  { induction d as [|[k1 v1] r IHr]; intros k v Nk; cbn; [reflexivity|]. destruct (String.eqb_spec k k1) as [->|].
    - exfalso. apply Nk. left. reflexivity.
    - rewrite IHr; [reflexivity|]. intro I. apply Nk. right. exact I. }
  assert (forall l d : list (string * V), NoDup (skeys (d ++ l)) -> fold_left (fun d kv => sset (fst kv) (snd kv) d) l d = d ++ l) as B.
  { clear l. intro l. induction l as [|[k v] l IH]; intros d N; cbn; [symmetry; apply app_nil_r|]. rewrite A.
    - rewrite IH; rewrite <- app_assoc; [reflexivity|exact N].
    - unfold skeys in *. rewrite map_app in N. cbn in N. apply NoDup_remove_2 in N. intro I. apply N, in_app_iff. left. exact I. }
  intro N. apply (B l []). exact N.
Qed.
