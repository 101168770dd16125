From Coq Require Import String Permutation Lia.
From Verif Require Import Base SearchProofs HessianModel HessianProofs FilterModel PruneModel PruneProofs PruneMemModel PruneMemSpec PruneMemProofs PruneMemProps.
From Verif Require Import PruneBuildModel PruneBuildSpec.
Open Scope Z_scope.
Open Scope res_scope.

(* ---- cutting tensors ---- *)
Lemma kept_remaining m : kept m = remaining m.
Proof. reflexivity. Qed.
Lemma map_nth_seq (l : list nat) : map (fun a => nth a l 0%nat) (seq 0 (length l)) = l.
Proof.
  apply list_eq_nth_error. intro i. rewrite nth_error_map. destruct (Nat.lt_ge_cases i (length l)) as [L|L].
  - rewrite nth_error_nth' with (d := 0%nat) by (rewrite seq_length; exact L). rewrite seq_nth by exact L. cbn.
    symmetry. apply nth_error_nth'. exact L.
  - assert (nth_error (seq 0 (length l)) i = None) as -> by (apply nth_error_None; rewrite seq_length; exact L). symmetry. apply nth_error_None. exact L.
Qed.
Lemma replace_nth x (v : nat) l a : (x < length l)%nat -> nth a (replace x v l) 0%nat = if Nat.eqb a x then v else nth a l 0%nat.
Proof.
  intro L. pose proof (replace_nth_error x v l a) as H. destruct (Nat.eqb_spec a x) as [->|N].
  - apply Nat.ltb_lt in L. rewrite L in H. apply nth_error_nth. exact H.
  - destruct (nth_error l a) as [y|] eqn:E.
    + rewrite (nth_error_nth _ _ 0%nat H). symmetry. apply nth_error_nth. exact E.
    + apply nth_error_None in H. apply nth_error_None in E. rewrite !nth_overflow by assumption. reflexivity.
Qed.
Lemma Forall2_lt_nth pos shape : Forall2 lt pos shape <-> length pos = length shape /\ forall a d, nth_error shape a = Some d -> (nth a pos 0 < d)%nat.
Proof.
  split.
  - induction 1 as [|i d pos shape H F [IH1 IH2]]; [split; [reflexivity|intros [|a] d E; discriminate]|]. split; [cbn; lia|].
    intros [|a] d' E; cbn in *; [inversion E; subst; exact H|apply IH2, E].
  - revert shape. induction pos as [|i pos IH]; intros [|d shape] [L H]; try discriminate; constructor.
    + exact (H 0%nat d eq_refl).
    + apply IH. split; [cbn in L; lia|]. intros a d' E. exact (H (S a) d' E).
Qed.
Lemma compress_spec w m x w' : compress w m x = Ok w' ->
  exists d, nth_error (t_shape w) x = Some d /\ (forall i, In i (remaining m) -> (i < d)%nat) /\
    t_shape w' = replace x (length (remaining m)) (t_shape w) /\
    forall pos, t_val w' pos = t_val w (replace x (nth (nth x pos 0%nat) (remaining m) 0%nat) pos).
Proof.
  unfold compress, dim. destruct (nth_error (t_shape w) x) as [d|] eqn:E; cbn [from_index bind]; [|discriminate].
  destruct (existsb _ (kept m)) eqn:Ex; [discriminate|]. intro H. inversion H; subst w'. exists d. split; [reflexivity|]. split; [|split; reflexivity].
  intros i I. destruct (Nat.lt_ge_cases i d) as [L|L]; [exact L|]. rewrite <- not_true_iff_false in Ex. exfalso. apply Ex. apply existsb_exists.
  exists i. split; [exact I|]. apply Nat.leb_le. exact L.
Qed.
Lemma restricted_id w ia oa : restricted None ia None oa w w.
Proof.
  split; [intro a; cbn; destruct (nth_error (t_shape w) a); reflexivity|]. intros pos _. cbn. rewrite map_nth_seq. reflexivity.
Qed.
Lemma restricted_length im ia om oa w w' : restricted im ia om oa w w' -> length (t_shape w') = length (t_shape w).
Proof.
  intros [H _]. destruct (Nat.lt_trichotomy (length (t_shape w')) (length (t_shape w))) as [L|[L|L]]; [exfalso|exact L|exfalso].
  - pose proof (H (length (t_shape w'))) as E. apply nth_error_Some in L. destruct (nth_error (t_shape w) (length (t_shape w'))); [|congruence]. cbn in E.
    assert (nth_error (t_shape w') (length (t_shape w')) <> None) as X by congruence. apply nth_error_Some in X. lia.
  - pose proof (H (length (t_shape w))) as E. assert (nth_error (t_shape w) (length (t_shape w)) = None) as X by (apply nth_error_None; lia). rewrite X in E. cbn in E.
    apply nth_error_None in E. lia.
Qed.
Lemma moved_position w1 x k v d pos : nth_error (t_shape w1) x = Some d -> (v < d)%nat -> Forall2 lt pos (replace x k (t_shape w1)) -> Forall2 lt (replace x v pos) (t_shape w1).
Proof.
  intros E L F. apply Forall2_lt_nth in F. destruct F as [F1 F2]. rewrite replace_length in F1. apply Forall2_lt_nth.
  assert (Lx : (x < length pos)%nat) by (rewrite F1; apply nth_error_Some; congruence).
  split; [rewrite replace_length; exact F1|]. intros a d' Ea. rewrite replace_nth by exact Lx. destruct (Nat.eqb_spec a x) as [->|N]; [congruence|].
  apply F2. rewrite replace_nth_error. apply Nat.eqb_neq in N. rewrite N. exact Ea.
Qed.
Lemma cut_dim w1 x k a : (x < length (t_shape w1))%nat -> nth_error (replace x k (t_shape w1)) a = if Nat.eqb a x then Some k else nth_error (t_shape w1) a.
Proof. intro L. rewrite replace_nth_error. destruct (Nat.eqb_spec a x) as [->|N]; [|reflexivity]. apply Nat.ltb_lt in L. rewrite L. reflexivity. Qed.
Lemma nth_remaining_lt m d i : (forall j, In j (remaining m) -> (j < d)%nat) -> (i < length (remaining m))%nat -> (nth i (remaining m) 0 < d)%nat.
Proof. intros H L. apply H. apply nth_In. exact L. Qed.
Lemma restrict_out im ia w w1 m x w2 : restricted im ia None (Some x) w w1 -> compress w1 m x = Ok w2 -> im = None \/ ia <> Some x ->
  restricted im ia (Some m) (Some x) w w2.
Proof.
  intros R C D. apply compress_spec in C. destruct C as (d & E & B & S & Vv). pose proof (restricted_length _ _ _ _ _ _ R) as LR. destruct R as [R1 R2].
  assert (Lx : (x < length (t_shape w1))%nat) by (apply nth_error_Some; congruence).
  assert (NO : forall i, origin im ia x i = i).
  { intro i. destruct D as [->|D]; [reflexivity|]. unfold origin. destruct im as [mm|]; [|reflexivity]. destruct ia as [y|]; [|reflexivity].
    destruct (Nat.eqb_spec x y) as [->|N]; [congruence|reflexivity]. }
  split.
  - intro a. rewrite S, (cut_dim w1 x _ a Lx), R1. cbn [dim_left]. destruct (Nat.eqb_spec a x) as [->|N]; [|reflexivity].
    specialize (R1 x). rewrite E in R1. destruct (nth_error (t_shape w) x); [reflexivity|discriminate].
  - intros pos F. rewrite Vv. rewrite S in F.
    assert (Lp : length pos = length (t_shape w1)) by (apply Forall2_lt_nth in F; destruct F as [F _]; rewrite replace_length in F; exact F).
    assert (Fx : (nth x pos 0 < length (remaining m))%nat).
    { apply Forall2_lt_nth in F. destruct F as [_ F]. apply F. rewrite (cut_dim w1 x _ x Lx), Nat.eqb_refl. reflexivity. }
    rewrite R2.
    + f_equal. rewrite replace_length. apply map_ext_in. intros a Ha. cbn [origin]. rewrite replace_nth by lia.
      destruct (Nat.eqb_spec a x) as [->|N]; [rewrite !NO; reflexivity|reflexivity].
    + eapply moved_position; [exact E|apply nth_remaining_lt; [exact B|exact Fx]|exact F].
Qed.
Lemma restrict_in om oa w w1 m x w2 : restricted None (Some x) om oa w w1 -> compress w1 m x = Ok w2 -> om = None \/ oa <> Some x ->
  restricted (Some m) (Some x) om oa w w2.
Proof.
  intros R C D. apply compress_spec in C. destruct C as (d & E & B & S & Vv). destruct R as [R1 R2].
  assert (Lx : (x < length (t_shape w1))%nat) by (apply nth_error_Some; congruence).
  assert (NO : forall i, dim_left om oa x i = i).
  { intro i. destruct D as [->|D]; [reflexivity|]. unfold dim_left. destruct om as [mm|]; [|reflexivity]. destruct oa as [y|]; [|reflexivity].
    destruct (Nat.eqb_spec x y) as [->|N]; [congruence|reflexivity]. }
  split.
  - intro a. rewrite S, (cut_dim w1 x _ a Lx), R1. cbn [dim_left]. destruct (Nat.eqb_spec a x) as [->|N]; [|reflexivity].
    specialize (R1 x). rewrite E in R1. destruct (nth_error (t_shape w) x); [cbn; rewrite NO; reflexivity|discriminate].
  - intros pos F. rewrite Vv. rewrite S in F.
    assert (Lp : length pos = length (t_shape w1)) by (apply Forall2_lt_nth in F; destruct F as [F _]; rewrite replace_length in F; exact F).
    assert (Fx : (nth x pos 0 < length (remaining m))%nat).
    { apply Forall2_lt_nth in F. destruct F as [_ F]. apply F. rewrite (cut_dim w1 x _ x Lx), Nat.eqb_refl. reflexivity. }
    rewrite R2.
    + f_equal. rewrite replace_length. apply map_ext_in. intros a Ha. cbn [origin]. rewrite replace_nth by lia.
      destruct (Nat.eqb_spec a x) as [->|N]; reflexivity.
    + eapply moved_position; [exact E|apply nth_remaining_lt; [exact B|exact Fx]|exact F].
Qed.
Lemma remaining_all m : ~ In 0 m -> remaining m = seq 0 (length m).
Proof.
  intro N. apply filter_true. intros i I. apply in_seq in I. apply negb_true_iff, Z.eqb_neq. intro E. apply N. rewrite <- E. apply nth_In. lia.
Qed.
Lemma restrict_out_skip im ia w w1 m x : restricted im ia None (Some x) w w1 -> ~ In 0 m -> nth_error (t_shape w) x = Some (length m) -> im = None \/ ia <> Some x ->
  restricted im ia (Some m) (Some x) w w1.
Proof.
  intros [R1 R2] N E D.
  assert (NO : forall i, dim_left im ia x i = i /\ origin im ia x i = i).
  { intro i. destruct D as [->|D]; [split; reflexivity|]. unfold dim_left, origin. destruct im as [mm|]; [|split; reflexivity]. destruct ia as [y|]; [|split; reflexivity].
    destruct (Nat.eqb_spec x y) as [->|N0]; [congruence|split; reflexivity]. }
  split.
  - intro a. rewrite R1. cbn [dim_left]. destruct (Nat.eqb_spec a x) as [->|Na]; [|reflexivity]. rewrite E. cbn. rewrite (proj1 (NO _)), (remaining_all m N), seq_length. reflexivity.
  - intros pos F. rewrite R2 by exact F. f_equal. apply map_ext_in. intros a Ha. cbn [origin]. destruct (Nat.eqb_spec a x) as [->|Na]; [|reflexivity].
    rewrite (proj2 (NO _)), (remaining_all m N), seq_nth; [reflexivity|]. apply Forall2_lt_nth in F. apply F. rewrite R1, E. cbn. rewrite (proj1 (NO _)). reflexivity.
Qed.
Lemma restrict_in_skip om oa w w1 m x : restricted None (Some x) om oa w w1 -> ~ In 0 m -> nth_error (t_shape w) x = Some (length m) -> om = None \/ oa <> Some x ->
  restricted (Some m) (Some x) om oa w w1.
Proof.
  intros [R1 R2] N E D.
  assert (NO : forall i, dim_left om oa x i = i).
  { intro i. destruct D as [->|D]; [reflexivity|]. unfold dim_left. destruct om as [mm|]; [|reflexivity]. destruct oa as [y|]; [|reflexivity].
    destruct (Nat.eqb_spec x y) as [->|N0]; [congruence|reflexivity]. }
  split.
  - intro a. rewrite R1. cbn [dim_left]. destruct (Nat.eqb_spec a x) as [->|Na]; [|reflexivity]. rewrite E. cbn. rewrite (remaining_all m N), seq_length. reflexivity.
  - intros pos F. rewrite R2 by exact F. f_equal. apply map_ext_in. intros a Ha. cbn [origin]. destruct (Nat.eqb_spec a x) as [->|Na]; [|reflexivity].
    rewrite (remaining_all m N), seq_nth; [reflexivity|]. apply Forall2_lt_nth in F. apply F. rewrite R1, E. cbn. rewrite NO. reflexivity.
Qed.
(* without an axis the mask does not matter *)
Lemma restricted_no_in im im' om oa w w' : restricted im None om oa w w' -> restricted im' None om oa w w'.
Proof.
  assert (forall i a d, dim_left i None a d = d) as D by (intros [?|]; reflexivity). assert (forall i a d, origin i None a d = d) as O by (intros [?|]; reflexivity).
  intros [A B]. split.
  - intro a. rewrite A. destruct (nth_error (t_shape w) a); [|reflexivity]. cbn. rewrite !D. reflexivity.
  - intros pos F. rewrite B by exact F. f_equal. apply map_ext. intro a. rewrite !O. reflexivity.
Qed.
Lemma restricted_no_out im ia om om' w w' : restricted im ia om None w w' -> restricted im ia om' None w w'.
Proof.
  assert (forall i a d, dim_left i None a d = d) as D by (intros [?|]; reflexivity). assert (forall i a d, origin i None a d = d) as O by (intros [?|]; reflexivity).
  intros [A B]. split.
  - intro a. rewrite A. destruct (nth_error (t_shape w) a); [|reflexivity]. cbn. rewrite !D. reflexivity.
  - intros pos F. rewrite B by exact F. f_equal. apply map_ext. intro a. rewrite !O. reflexivity.
Qed.
Lemma restricted_shape im ia om oa w w' : restricted im ia om oa w w' -> fits im ia (t_shape w) -> fits om oa (cut im ia (t_shape w)) ->
  t_shape w' = cut om oa (cut im ia (t_shape w)).
Proof.
  intros [R _] Fi Fo. apply list_eq_nth_error. intro a. rewrite R.
  assert (C : forall m ax l, fits m ax l -> nth_error (cut m ax l) a = option_map (fun d => dim_left m ax a d) (nth_error l a)).
  { clear. intros m ax l F. unfold cut, dim_left. destruct m as [mm|]; [|destruct (nth_error l a); reflexivity]. destruct ax as [x|]; [|destruct (nth_error l a); reflexivity].
    rewrite replace_nth_error. specialize (F mm x eq_refl eq_refl). destruct (Nat.eqb_spec a x) as [->|N]; [|destruct (nth_error l a); reflexivity].
    rewrite F. assert (L : (x < length l)%nat) by (apply nth_error_Some; congruence). apply Nat.ltb_lt in L. rewrite L. reflexivity. }
  rewrite (C om oa) by exact Fo. rewrite (C im ia) by exact Fi. destruct (nth_error (t_shape w) a); reflexivity.
Qed.

(* ---- weights by name ---- *)
Definition cn (name : string) (k : wkey) : bool := match k with WS s => str_contains s name | WI _ => false end.
Lemma wkey_eqb_spec a b : wkey_eqb a b = true <-> a = b.
Proof.
  destruct a as [x|x], b as [y|y]; cbn; try (split; discriminate); [rewrite String.eqb_eq|rewrite Z.eqb_eq]; split; congruence.
Qed.
Lemma wset_spec name key w w' : forall ws, map fst (filter (fun kv => cn name (fst kv)) ws) = [key] -> wget key ws = Some w ->
  Forall2 (fun kv kv' : wkey * tensor => fst kv' = fst kv /\ (cn name (fst kv) = true -> snd kv = w /\ snd kv' = w') /\ (cn name (fst kv) = false -> snd kv' = snd kv))
          ws (wset key w' ws).
Proof.
  induction ws as [|kv ws IH]; intros F G; [discriminate|]. cbn [filter] in F. cbn [wget wset] in *. destruct kv as [k v]. cbn [fst snd] in *.
  destruct (cn name k) eqn:C.
  - cbn [map fst] in F. inversion F; subst key. assert (wkey_eqb k k = true) as E by (apply wkey_eqb_spec; reflexivity). rewrite E in *. inversion G; subst v.
    constructor; [cbn; repeat split; congruence|]. assert (NC : forall kv, In kv ws -> cn name (fst kv) = false).
    { intros kv I. destruct (cn name (fst kv)) eqn:X; [|reflexivity]. exfalso. assert (In kv (filter (fun kv => cn name (fst kv)) ws)) as J by (apply filter_In; split; assumption).
      apply (in_map fst) in J. match goal with H : map fst _ = [] |- _ => rewrite H in J end. destruct J. }
    clear - NC. induction ws as [|kv ws IH]; [constructor|]. constructor; [cbn; repeat split; rewrite (NC kv (or_introl eq_refl)) in *; congruence|]. apply IH. intros kv' I. apply NC. right. exact I.
  - assert (wkey_eqb key k = false) as E.
    { destruct (wkey_eqb key k) eqn:E; [|reflexivity]. apply wkey_eqb_spec in E. subst k. exfalso.
      assert (In key (map fst (filter (fun kv => cn name (fst kv)) ws))) as J by (rewrite F; left; reflexivity).
      apply in_map_iff in J. destruct J as [kv [<- J]]. apply filter_In in J. destruct J as [_ J]. congruence. }
    rewrite E in *. constructor; [cbn; repeat split; congruence|]. apply IH; assumption.
Qed.
Lemma get_weight_names name n w : get_weight (Some name) n = Some w ->
  exists key, weight_names name n = [key] /\ wget key (pn_weights n) = Some w /\ map fst (filter (fun kv => cn name (fst kv)) (pn_weights n)) = [key].
Proof.
  unfold get_weight. destruct (weight_names name n) as [|k [|? ?]] eqn:E; try discriminate. intro H. exists k. split; [reflexivity|]. split; [exact H|exact E].
Qed.
Lemma set_weight_spec name n w w' : get_weight (Some name) n = Some w ->
  Forall2 (fun kv kv' : wkey * tensor => fst kv' = fst kv /\ (cn name (fst kv) = true -> snd kv = w /\ snd kv' = w') /\ (cn name (fst kv) = false -> snd kv' = snd kv))
          (pn_weights n) (pn_weights (set_weight name w' n)).
Proof.
  intro H. apply get_weight_names in H. destruct H as (key & E & G & F). unfold set_weight. rewrite E. cbn. eapply wset_spec; eassumption.
Qed.

(* ---- one layer ---- *)
Definition classified (f : fw) (n : pnode) : Prop :=
  forall k, kernel_attr f (pn_kind n) = Some k -> forall kw, In kw (pn_weights n) -> exists name, fst kw = WS name /\ xorb (str_contains name k) (str_contains name "bias") = true.
Lemma params_classified f padded n im om p : node_params f padded n im om = Ok p -> classified f n.
Proof.
  intros H k K kw I. unfold node_params in H. destruct (mapM _ (pn_weights n)) as [ps|] eqn:E; [|discriminate]. clear H.
  destruct (mapM_in _ _ _ E kw I) as [z [Hz _]]. unfold weight_params in Hz. unfold attrs_info in Hz. rewrite K in Hz.
  destruct (fst kw) as [name|z0]; [|destruct (channel_axis f (pn_kind n)) as [[o i]|]; cbn in Hz; discriminate].
  exists name. split; [reflexivity|].
  destruct (channel_axis f (pn_kind n)) as [[o i]|]; cbn [mapM attr_in bind fst snd filter] in Hz;
    destruct (str_contains name k), (str_contains name "bias"); cbn in Hz; try discriminate; reflexivity.
Qed.
Lemma params_fit f padded n im om p : safe f n im -> node_params f padded n im om = Ok p -> forall kw, In kw (pn_weights n) ->
  fits im (snd (weight_axes f n kw)) (t_shape (snd kw)) /\ fits om (fst (weight_axes f n kw)) (cut im (snd (weight_axes f n kw)) (t_shape (snd kw))).
Proof.
  intros S H kw I. unfold node_params in H. destruct (mapM _ (pn_weights n)) as [ps|] eqn:E; [|discriminate]. clear H.
  destruct (mapM_in _ _ _ E kw I) as [z [Hz _]]. apply weight_params_left in Hz; [|exact S]. tauto.
Qed.
Lemma edge_axes f n : is_edge n = true -> exists k o i, kernel_attr f (pn_kind n) = Some k /\ channel_axis f (pn_kind n) = Some (o, i) /\ o <> i.
Proof.
  unfold is_edge. destruct (pn_kind n) as [[|] gr| | | | |]; try discriminate; intros _; destruct f; cbn; do 3 eexists; (split; [reflexivity|split; [reflexivity|discriminate]]).
Qed.
Lemma axes_apart f n kw : pn_kind n <> K_depthwise -> fst (weight_axes f n kw) = None \/ snd (weight_axes f n kw) = None \/ fst (weight_axes f n kw) <> snd (weight_axes f n kw).
Proof.
  intro NK. unfold weight_axes. destruct (kernel_attr f (pn_kind n)) as [k|] eqn:Ek.
  - destruct (fst kw) as [name|z]; [|left; reflexivity]. destruct (str_contains name k).
    + destruct f, (pn_kind n) as [[|] gr| | | | |]; cbn in *; try discriminate; try congruence; right; right; discriminate.
    + right. left. reflexivity.
  - right. left. reflexivity.
Qed.
Lemma inter_axes f n kw : is_inter n = true -> snd (weight_axes f n kw) = None /\ (f = Keras -> fst (weight_axes f n kw) = Some (length (t_shape (snd kw)) - 1)%nat).
Proof.
  unfold is_inter, weight_axes. destruct (pn_kind n) as [[|] gr| | | | |]; try discriminate; intros _; destruct f; cbn; (split; [reflexivity|]); intro E; try discriminate; reflexivity.
Qed.
Lemma left_refl f n : left_of f n None None n.
Proof.
  unfold left_of. do 5 (split; [reflexivity|]). split; [discriminate|]. split; [reflexivity|].
  induction (pn_weights n) as [|kw l IH]; constructor; [split; [reflexivity|apply restricted_id]|exact IH].
Qed.
Lemma Forall2_trans {A B C} (P : A -> B -> Prop) (Q : B -> C -> Prop) (R : A -> C -> Prop) l m n :
  (forall a b c, In a l -> P a b -> Q b c -> R a c) -> Forall2 P l m -> Forall2 Q m n -> Forall2 R l n.
Proof.
  intros H F. revert n. induction F as [|a b l m Hab F IH]; intros n G; inversion G; subst; constructor.
  - eapply H; [left; reflexivity|eassumption|eassumption].
  - apply IH; [|assumption]. intros ? ? ? I. apply H. right. exact I.
Qed.
Lemma Forall2_impl_in {A B} (P Q : A -> B -> Prop) l m : (forall a b, In a l -> P a b -> Q a b) -> Forall2 P l m -> Forall2 Q l m.
Proof. intros H F. induction F; constructor; [apply H; [left; reflexivity|assumption]|]. apply IHF. intros. apply H; [right|]; assumption. Qed.

Section Layer.
Context (f : fw) (n0 : pnode).
Let ia kw := snd (weight_axes f n0 kw).
Let oa kw := fst (weight_axes f n0 kw).

Lemma left_entry im m n n' : is_edge n0 = true -> classified f n0 -> bias_consistent n0 -> In 0 m ->
  left_of f n0 im None n -> prune_edge f false m n = Ok n' -> left_of f n0 im (Some m) n'.
Proof.
  intros HE CL [BC1 BC2] Z0 (L1 & L2 & L3 & L4 & L5 & L6 & L7 & L8) H. destruct (edge_axes f n0 HE) as (k & o & i & K1 & K2 & NE).
  unfold prune_edge in H. rewrite L3, K2 in H. cbn [axis_of bind fst] in H.
  unfold kernel_of in H. rewrite L3, K1 in H. destruct (get_weight (Some k) n) as [w|] eqn:G; cbn [bind] in H; [|discriminate].
  destruct (compress w m o) as [w'|] eqn:C; cbn [bind] in H; [|discriminate].
  pose proof (set_weight_spec k n w w' G) as F1. set (n1 := set_weight k w' n) in *.
  assert (N1 : pn_use_bias n1 = pn_use_bias n0) by exact L5.
  destruct (if pn_use_bias n1 then _ else _) as [n2|] eqn:E2; cbn [bind] in H; [|discriminate]. inversion H; subst n'. clear H.
  assert (S2 : pn_id n2 = pn_id n1 /\ pn_name n2 = pn_name n1 /\ pn_kind n2 = pn_kind n1 /\ pn_oca n2 = pn_oca n1 /\ pn_use_bias n2 = pn_use_bias n1 /\
     Forall2 (fun kv kv' : wkey * tensor => fst kv' = fst kv /\ (cn "bias" (fst kv) = true -> pn_use_bias n0 = true -> exists b, compress_flat (snd kv) m = Ok b /\ snd kv' = b) /\
       (cn "bias" (fst kv) = false -> snd kv' = snd kv)) (pn_weights n1) (pn_weights n2)).
  { rewrite N1 in E2. destruct (pn_use_bias n0).
    - destruct (get_weight (Some "bias"%string) n1) as [b|] eqn:Gb; [|discriminate]. destruct (compress_flat b m) as [b'|] eqn:Cb; cbn [bind] in E2; [|discriminate].
      inversion E2; subst n2. do 5 (split; [reflexivity|]). eapply Forall2_impl_in; [|apply (set_weight_spec "bias" n1 b b' Gb)].
      intros kv kv' _ (A & B & D). split; [exact A|]. split; [|exact D]. intros X _. destruct (B X) as [-> ->]. exists b'. split; [exact Cb|reflexivity].
    - inversion E2; subst n2. do 5 (split; [reflexivity|]). clear. induction (pn_weights n1); constructor; [repeat split; discriminate|assumption]. }
  destruct S2 as (S1 & S2 & S3 & S4 & S5 & F2).
  assert (I1 : pn_id n1 = pn_id n /\ pn_name n1 = pn_name n /\ pn_kind n1 = pn_kind n /\ pn_oca n1 = pn_oca n) by (repeat split). destruct I1 as (I1 & I2 & I3 & I4).
  unfold left_of. cbn [set_units pn_id pn_name pn_kind pn_oca pn_use_bias pn_units pn_weights].
  split; [congruence|]. split; [congruence|]. split; [congruence|]. split; [congruence|]. split; [congruence|].
  split; [intros mm E _ _; inversion E; reflexivity|].
  split; [intros [X|[X|[mm [X Y]]]]; [discriminate|congruence|inversion X; subst mm; destruct (Y Z0)]|].
  refine (Forall2_trans _ _ _ _ _ _ _ L8 (Forall2_trans _ _ (fun kv kv'' => fst kv'' = fst kv /\ (cn k (fst kv) = true -> cn "bias" (fst kv) = false -> exists b, compress (snd kv) m o = Ok b /\ snd kv'' = b) /\
      (cn k (fst kv) = false -> cn "bias" (fst kv) = true -> pn_use_bias n0 = true -> exists b, compress_flat (snd kv) m = Ok b /\ snd kv'' = b)) _ _ _ _ F1 F2)).
  - intros kw kw1 kw2 I [A1 A2] (B1 & B2 & B3). split; [congruence|]. destruct (CL k K1 kw I) as (name & Hn & X). rewrite A1, Hn in B2, B3. cbn [cn] in B2, B3.
    assert (CA : channel_axis f (pn_kind n0) = Some (o, i)) by exact K2.
    destruct (str_contains name k) eqn:Ck, (str_contains name "bias") eqn:Cb; try discriminate.
    + destruct (B2 eq_refl eq_refl) as (b & Hb & ->). unfold weight_axes in *. rewrite K1, Hn, Ck, CA in *. cbn [fst snd] in *.
      eapply restrict_out; [exact A2|exact Hb|]. right. congruence.
    + assert (U : pn_use_bias n0 = true). { apply BC1. exists name, (snd kw). rewrite <- Hn. destruct kw; cbn in *; tauto. }
      destruct (B3 eq_refl eq_refl U) as (b & Hb & ->). unfold weight_axes in *. rewrite K1, Hn, Ck in *. cbn [fst snd] in *.
      unfold compress_flat in Hb. destruct (t_shape (snd kw1)) as [|d1 [|? ?]]; try discriminate. eapply restrict_out; [exact A2|exact Hb|]. right. discriminate.
  - intros kv kv1 kv2 _ (A1 & A2 & A3) (B1 & B2 & B3). split; [congruence|]. rewrite A1 in B2, B3. split.
    + intros X Y. destruct (A2 X) as [-> A4]. exists w'. split; [exact C|]. rewrite (B3 Y). exact A4.
    + intros X Y U. rewrite (A3 X) in B2. apply B2; assumption.
Qed.
Lemma left_exit om m n n' : is_edge n0 = true -> classified f n0 -> left_of f n0 None om n -> prune_edge f true m n = Ok n' -> left_of f n0 (Some m) om n'.
Proof.
  intros HE CL (L1 & L2 & L3 & L4 & L5 & L6 & L7 & L8) H. destruct (edge_axes f n0 HE) as (k & o & i & K1 & K2 & NE).
  unfold prune_edge in H. rewrite L3, K2 in H. cbn [axis_of bind snd] in H.
  unfold kernel_of in H. rewrite L3, K1 in H. destruct (get_weight (Some k) n) as [w|] eqn:G; cbn [bind] in H; [|discriminate].
  destruct (compress w m i) as [w'|] eqn:C; cbn [bind] in H; [|discriminate]. inversion H; subst n'.
  pose proof (set_weight_spec k n w w' G) as F1.
  unfold left_of. cbn [set_weight set_weights pn_id pn_name pn_kind pn_oca pn_use_bias pn_units]. do 7 (split; [assumption|]).
  refine (Forall2_trans _ _ _ _ _ _ _ L8 F1). intros kw kw1 kw2 I [A1 A2] (B1 & B2 & B3). split; [congruence|].
  destruct (CL k K1 kw I) as (name & Hn & X). rewrite A1, Hn in B2, B3. cbn [cn] in B2, B3. unfold weight_axes in *. rewrite K1, Hn in *.
  destruct (str_contains name k) eqn:Ck.
  - rewrite K2 in *. cbn [fst snd] in *. destruct (B2 eq_refl) as [Bw ->]. rewrite Bw in A2. eapply restrict_in; [exact A2|exact C|]. right. congruence.
  - cbn [fst snd] in *. rewrite (B3 eq_refl). eapply restricted_no_in. exact A2.
Qed.
Lemma left_inter im m n n' : is_inter n0 = true -> (f = Keras \/ pn_weights n0 = []) -> left_of f n0 im None n -> prune_inter f m n = Ok n' -> left_of f n0 im (Some m) n'.
Proof.
  intros HI D (L1 & L2 & L3 & L4 & L5 & L6 & L7 & L8) H.
  assert (EE : is_edge n0 = false) by (destruct (is_edge n0) eqn:E; [destruct (edge_not_inter n0 E HI)|reflexivity]).
  assert (exists ws, n' = set_weights n ws /\ Forall2 (fun kw kw' => fst kw' = fst kw /\ restricted im (ia kw) (Some m) (oa kw) (snd kw) (snd kw')) (pn_weights n0) ws) as (ws & -> & FW).
  { unfold prune_inter in H. destruct D as [->|D].
    - destruct (mapM _ (pn_weights n)) as [ws|] eqn:E; cbn [bind] in H; [|discriminate]. inversion H; subst n'. exists ws. split; [reflexivity|].
      apply mapM_Forall2 in E. refine (Forall2_trans _ _ _ _ _ _ _ L8 E). intros kw kw1 kw2 I [A1 A2] B.
      destruct (compress (snd kw1) m _) as [w|] eqn:C; cbn [bind] in B; [|discriminate]. inversion B; subst kw2. cbn [fst snd]. split; [exact A1|].
      destruct (inter_axes Keras n0 kw HI) as [X Y]. specialize (Y eq_refl). unfold ia, oa in *. rewrite X, Y in *.
      rewrite (restricted_length _ _ _ _ _ _ A2) in C. eapply restrict_out; [exact A2|exact C|]. right. discriminate.
    - rewrite D in L8 |- *. assert (E0 : pn_weights n = []) by (inversion L8; reflexivity). destruct f.
      + rewrite E0 in H. cbn in H. inversion H. exists []. split; [reflexivity|constructor].
      + inversion H. exists []. split; [reflexivity|constructor]. }
  unfold left_of. cbn [set_weights pn_id pn_name pn_kind pn_oca pn_use_bias pn_units pn_weights]. do 5 (split; [assumption|]).
  split; [intros; congruence|]. split; [intros _; apply L7; left; reflexivity|exact FW].
Qed.
(* a mask that keeps every channel changes nothing *)
Lemma left_out_skip im m n : ~ In 0 m -> left_of f n0 im None n -> pn_kind n0 <> K_depthwise ->
  (forall kw x, In kw (pn_weights n0) -> oa kw = Some x -> nth_error (t_shape (snd kw)) x = Some (length m)) -> left_of f n0 im (Some m) n.
Proof.
  intros N (L1 & L2 & L3 & L4 & L5 & L6 & L7 & L8) NK F. unfold left_of. do 5 (split; [assumption|]).
  split; [intros mm E _ Z0; inversion E; subst; destruct (N Z0)|]. split; [intros _; apply L7; left; reflexivity|].
  eapply Forall2_impl_in; [|exact L8]. intros kw kw' I [A B]. split; [exact A|]. specialize (F kw). destruct (axes_apart f n0 kw NK) as [D|[D|D]]; unfold oa in *.
  - rewrite D in *. eapply restricted_no_out. exact B.
  - rewrite D in *. apply restricted_no_in with (im' := None) in B. apply restricted_no_in with (im := None).
    destruct (fst (weight_axes f n0 kw)) as [x|]; [|eapply restricted_no_out; exact B]. apply restrict_out_skip; [exact B|exact N|apply F; [exact I|reflexivity]|left; reflexivity].
  - destruct (fst (weight_axes f n0 kw)) as [x|]; [|eapply restricted_no_out; exact B]. apply restrict_out_skip; [exact B|exact N|apply F; [exact I|reflexivity]|]. right. congruence.
Qed.
Lemma left_in_skip om m n : ~ In 0 m -> left_of f n0 None om n -> pn_kind n0 <> K_depthwise ->
  (forall kw x, In kw (pn_weights n0) -> ia kw = Some x -> nth_error (t_shape (snd kw)) x = Some (length m)) -> left_of f n0 (Some m) om n.
Proof.
  intros N (L1 & L2 & L3 & L4 & L5 & L6 & L7 & L8) NK F. unfold left_of. do 7 (split; [assumption|]).
  eapply Forall2_impl_in; [|exact L8]. intros kw kw' I [A B]. split; [exact A|]. specialize (F kw). destruct (axes_apart f n0 kw NK) as [D|[D|D]]; unfold ia in *.
  - rewrite D in *. apply restricted_no_out with (om' := None) in B. apply restricted_no_out with (om := None).
    destruct (snd (weight_axes f n0 kw)) as [x|]; [|eapply restricted_no_in; exact B]. apply restrict_in_skip; [exact B|exact N|apply F; [exact I|reflexivity]|left; reflexivity].
  - rewrite D in *. eapply restricted_no_in. exact B.
  - destruct (snd (weight_axes f n0 kw)) as [x|]; [|eapply restricted_no_in; exact B]. apply restrict_in_skip; [exact B|exact N|apply F; [exact I|reflexivity]|]. right. congruence.
Qed.
Lemma left_in_irrelevant im im' om n : is_inter n0 = true -> left_of f n0 im om n -> left_of f n0 im' om n.
Proof.
  intros HI (L1 & L2 & L3 & L4 & L5 & L6 & L7 & L8). unfold left_of. do 7 (split; [assumption|]). eapply Forall2_impl_in; [|exact L8].
  intros kw kw' I [A B]. split; [exact A|]. destruct (inter_axes f n0 kw HI) as [X _]. rewrite X in *. eapply restricted_no_in. exact B.
Qed.
End Layer.
Lemma prune_edge_id f b m n n' : prune_edge f b m n = Ok n' -> pn_id n' = pn_id n.
Proof.
  unfold prune_edge. destruct (axis_of _ _); cbn [bind]; [|discriminate]. destruct (kernel_of f n); cbn [bind]; [|discriminate].
  destruct (compress _ m _); cbn [bind]; [|discriminate]. destruct (kernel_attr f (pn_kind n)); cbn [bind]; [|discriminate].
  destruct b; [intro H; inversion H; reflexivity|]. destruct (pn_use_bias _); [|cbn [bind]; intro H; inversion H; reflexivity].
  destruct (get_weight _ _); cbn [bind]; [|discriminate]. destruct (compress_flat _ m); cbn [bind]; [|discriminate]. intro H. inversion H. reflexivity.
Qed.
Lemma prune_inter_id f m n n' : prune_inter f m n = Ok n' -> pn_id n' = pn_id n.
Proof. unfold prune_inter. destruct f; [destruct (mapM _ _); cbn [bind]; [|discriminate]|]; intro H; inversion H; reflexivity. Qed.

(* ---- the whole graph ---- *)
Definition step1 (n : pnode) (op : nat * (pnode -> result pnode)) : result pnode := if Nat.eqb (pn_id n) (fst op) then snd op n else Ok n.
Lemma foldM_app1 {A B} (h : B -> A -> result B) l1 l2 s : foldM h (l1 ++ l2) s = let! t := foldM h l1 s in foldM h l2 t.
Proof. revert s. induction l1 as [|x l1 IH]; intro s; [reflexivity|]. cbn [app foldM]. destruct (h s x); cbn [bind]; [apply IH|reflexivity]. Qed.
Lemma on_nodes ops : forall nodes nodes', foldM on_node ops nodes = Ok nodes' -> Forall2 (fun n n' => foldM step1 ops n = Ok n') nodes nodes'.
Proof.
  induction ops as [|op ops IH]; intros nodes nodes' H; cbn [foldM] in H.
  - inversion H; subst. clear. induction nodes'; constructor; [reflexivity|assumption].
  - destruct (on_node nodes op) as [n1|] eqn:E; cbn [bind] in H; [|discriminate]. apply IH in H. unfold on_node in E. apply mapM_Forall2 in E.
    eapply Forall2_trans; [|exact E|exact H]. intros a b c _ P Q. cbn [foldM]. unfold step1 at 1. rewrite P. cbn [bind]. exact Q.
Qed.
Lemma skip_ops ops n : (forall op, In op ops -> fst op <> pn_id n) -> foldM step1 ops n = Ok n.
Proof.
  induction ops as [|op ops IH]; intro H; [reflexivity|]. cbn [foldM]. unfold step1 at 1. assert (Nat.eqb (pn_id n) (fst op) = false) as ->.
  { apply Nat.eqb_neq. intro E. apply (H op (or_introl eq_refl)). congruence. }
  cbn [bind]. apply IH. intros o I. apply H. right. exact I.
Qed.
Lemma one_op (fi : pnode -> result pnode) : (forall n n', fi n = Ok n' -> pn_id n' = pn_id n) -> forall ids n n', NoDup ids -> In (pn_id n) ids ->
  foldM step1 (map (fun i => (i, fi)) ids) n = Ok n' -> fi n = Ok n'.
Proof.
  intros P ids. induction ids as [|i ids IH]; intros n n' ND I H; [destruct I|]. inversion ND as [|? ? N1 N2]; subst. cbn [map foldM] in H. unfold step1 at 1 in H. cbn [fst snd] in H.
  destruct (Nat.eqb_spec (pn_id n) i) as [E|N].
  - subst i. destruct (fi n) as [n1|] eqn:E; cbn [bind] in H; [|discriminate]. rewrite skip_ops in H; [exact H|].
    intros op J. apply in_map_iff in J. destruct J as [j [<- J]]. cbn. rewrite (P n n1 E). congruence.
  - cbn [bind] in H. destruct I as [I|I]; [congruence|]. exact (IH n n' N2 I H).
Qed.
Lemma find_app1 {A} (q : A -> bool) l x : find q (l ++ [x]) = match find q l with Some y => Some y | None => if q x then Some x else None end.
Proof. induction l as [|y l IH]; cbn; [destruct (q x); reflexivity|]. destruct (q y); [reflexivity|exact IH]. Qed.

Section Graph.
Context (f : fw) (padded : bool) (g : pgraph) (masks : masks_t) (secs : list section) (p : Z).
Context (W : wf_graph g) (HS : sections f g = Ok secs) (HE : graph_params f padded g masks = Ok p).
Context (UN : NoDup (map pn_name (pg_nodes g))).
Context (HB : forall n, In n (pg_nodes g) -> is_edge n = true -> bias_consistent n).
Context (HK : f = Keras \/ forall e i x n, is_section f g e i x -> In n i -> pn_weights n = []).
Let M (n : pnode) := dict_get (pn_id n) masks.

Lemma est s : In s secs ->
  (exists ic a, input_mask f secs masks (sc_entry s) = Ok ic /\ node_params f padded (sc_entry s) ic (M (sc_entry s)) = Ok a) /\
  (forall n, In n (sc_inter s) -> exists b, node_params f padded n (M (sc_entry s)) (M (sc_entry s)) = Ok b) /\
  (exists c, node_params f padded (sc_exit s) (M (sc_entry s)) (M (sc_exit s)) = Ok c).
Proof.
  intro I. unfold graph_params in HE. rewrite HS in HE. cbn [bind] in HE. destruct (nonpruned_params f padded g secs) as [np|]; cbn [bind] in HE; [|discriminate].
  destruct (mapM (section_params f padded secs masks) secs) as [bs|] eqn:E; [|discriminate].
  destruct (mapM_in _ _ _ E s I) as [z [Hz _]]. apply (section_value f padded g masks secs W HS s z I) in Hz. apply Hz.
Qed.
Definition mask_of (s : section) : list Z := match masks_named g masks (pn_name (sc_entry s)) with [m] => m | _ => [] end.
Definition named (s : section) : Prop := exists m, masks_named g masks (pn_name (sc_entry s)) = [m].
Lemma same_name a b : In a (pg_nodes g) -> In b (pg_nodes g) -> pn_name a = pn_name b -> a = b.
Proof.
  revert UN. clear. generalize (pg_nodes g). induction l as [|x l IH]; [intros _ []|]. cbn. intro ND. inversion ND as [|? ? Hx Hl]; subst.
  intros [->|Ha] [->|Hb] E; [reflexivity| | |apply IH; assumption]; exfalso; apply Hx.
  - rewrite E. apply in_map. exact Hb.
  - rewrite <- E. apply in_map. exact Ha.
Qed.
Lemma named_mask s : In s secs -> named s -> M (sc_entry s) = Some (mask_of s).
Proof.
  intros I [m H]. unfold mask_of. rewrite H. unfold masks_named in H. destruct (entry_in f g secs W HS s I) as [E1 _].
  unfold M. clear HE. induction masks as [|[k v] ms IH]; [discriminate|]. cbn [filter fst] in H. cbn [dict_get].
  destruct (Nat.eqb_spec (pn_id (sc_entry s)) k) as [<-|N].
  - rewrite (node_of_total g _ (wf_ids g W) E1), String.eqb_refl in H. cbn in H. inversion H. reflexivity.
  - destruct (node_of g k) as [n|] eqn:En; [|apply IH, H]. apply node_of_spec in En. destruct En as [N1 N2].
    destruct (String.eqb_spec (pn_name n) (pn_name (sc_entry s))) as [En|En]; [|apply IH, H].
    exfalso. apply N. rewrite (same_name n (sc_entry s) N1 E1 En) in N2. exact N2.
Qed.
Definition imD (D : list section) (n : pnode) : option (list Z) := option_map mask_of (find (fun s => Nat.eqb (pn_id (sc_exit s)) (pn_id n)) D).
Definition omD (D : list section) (n : pnode) : option (list Z) :=
  option_map mask_of (find (fun s => Nat.eqb (pn_id (sc_entry s)) (pn_id n) || memb n (sc_inter s)) D).
Definition Inv (D : list section) (nodes : list pnode) : Prop := Forall2 (fun n0 n => left_of f n0 (imD D n0) (omD D n0) n) (pg_nodes g) nodes.

Lemma imD_none D n : (forall s, In s D -> In s secs) -> In n (pg_nodes g) -> (forall s, In s D -> n <> sc_exit s) -> imD D n = None.
Proof.
  intros L I H. unfold imD. destruct (find _ D) as [s|] eqn:F; [|reflexivity]. exfalso. apply find_some in F. destruct F as [F1 F2]. apply Nat.eqb_eq in F2.
  apply (H s F1). apply (same_node g (wf_ids g W)); [exact I|apply (exit_in f g secs W HS s (L s F1))|congruence].
Qed.
Lemma omD_none D n : (forall s, In s D -> In s secs) -> In n (pg_nodes g) -> (forall s, In s D -> n <> sc_entry s /\ ~ In n (sc_inter s)) -> omD D n = None.
Proof.
  intros L I H. unfold omD. destruct (find _ D) as [s|] eqn:F; [|reflexivity]. exfalso. apply find_some in F. destruct F as [F1 F2]. apply orb_true_iff in F2.
  destruct (H s F1) as [H1 H2]. destruct F2 as [F2|F2].
  - apply Nat.eqb_eq in F2. apply H1. apply (same_node g (wf_ids g W)); [exact I|apply (entry_in f g secs W HS s (L s F1))|congruence].
  - apply (memb_inter f g secs W HS s n (L s F1) I) in F2. contradiction.
Qed.
Lemma entry_not_exit s : In s secs -> sc_entry s <> sc_exit s.
Proof.
  intros I E. apply (sec_is f g secs W HS) in I. destruct I as (_ & _ & _ & _ & _ & _ & C).
  assert (LT : forall l a b, chain g a l b -> (index_in (pg_topo g) (pn_id a) < index_in (pg_topo g) (pn_id b))%nat).
  { induction l as [|y l IH]; intros a b H; cbn in H; [apply (link_index g a b W H)|]. destruct H as [H1 H2]. apply (link_index g _ _ W) in H1. apply IH in H2. lia. }
  apply LT in C. rewrite E in C. lia.
Qed.
Lemma not_again s D rest s' n : secs = D ++ s :: rest -> In s' D -> (n = sc_entry s /\ n = sc_entry s') \/ ((In n (sc_inter s) \/ n = sc_exit s) /\ (In n (sc_inter s') \/ n = sc_exit s')) -> False.
Proof.
  intros E I H. assert (In s secs) as Is by (rewrite E; apply in_or_app; right; left; reflexivity). assert (In s' secs) as Is' by (rewrite E; apply in_or_app; left; exact I).
  assert (s = s').
  { destruct H as [[A B]|[A B]]; [apply (sec_eq f g secs W HS s s' Is Is'); congruence|exact (sec_shared f g secs W HS s s' n Is Is' A B)]. }
  subst s'. pose proof (nodup_secs f g secs W HS) as ND. rewrite E in ND. apply NoDup_remove_2 in ND. apply ND. apply in_or_app. left. exact I.
Qed.
Lemma edge_inter_apart s s' n : In s secs -> In s' secs -> n = sc_entry s \/ n = sc_exit s -> In n (sc_inter s') -> False.
Proof.
  intros I I' A B. destruct (inter_in f g secs W HS s' n I' B) as [_ X].
  destruct A as [->| ->]; [destruct (entry_in f g secs W HS s I) as [_ Y]|destruct (exit_in f g secs W HS s I) as [_ Y]]; exact (edge_not_inter _ Y X).
Qed.
(* what the estimate says about the masks *)
Lemma entry_fit s kw x : In s secs -> named s -> In kw (pn_weights (sc_entry s)) -> fst (weight_axes f (sc_entry s) kw) = Some x -> nth_error (t_shape (snd kw)) x = Some (length (mask_of s)).
Proof.
  intros I N K A. destruct (est s I) as ((ic & a & _ & H) & _). destruct (entry_in f g secs W HS s I) as [_ E].
  destruct (params_fit f padded _ _ _ _ (or_intror (edge_kind _ E)) H kw K) as [_ F]. specialize (F (mask_of s) x (named_mask s I N) A).
  unfold cut in F. destruct ic as [m|]; [|exact F]. destruct (snd (weight_axes f (sc_entry s) kw)) as [y|] eqn:Y; [|exact F]. rewrite replace_nth_error in F.
  destruct (Nat.eqb_spec x y) as [->|Nx]; [|exact F]. exfalso. destruct (axes_apart f (sc_entry s) kw (edge_kind _ E)) as [D|[D|D]]; congruence.
Qed.
Lemma exit_fit s kw x : In s secs -> named s -> In kw (pn_weights (sc_exit s)) -> snd (weight_axes f (sc_exit s) kw) = Some x -> nth_error (t_shape (snd kw)) x = Some (length (mask_of s)).
Proof.
  intros I N K A. destruct (est s I) as (_ & _ & c & H). destruct (exit_in f g secs W HS s I) as [_ E].
  destruct (params_fit f padded _ _ _ _ (or_intror (edge_kind _ E)) H kw K) as [F _]. exact (F (mask_of s) x (named_mask s I N) A).
Qed.
Lemma inter_fit s n kw x : In s secs -> named s -> In n (sc_inter s) -> In kw (pn_weights n) -> fst (weight_axes f n kw) = Some x -> nth_error (t_shape (snd kw)) x = Some (length (mask_of s)).
Proof.
  intros I N J K A. destruct (est s I) as (_ & H & _). destruct (H n J) as [b Hb]. destruct (inter_in f g secs W HS s n I J) as [_ E].
  destruct (params_fit f padded _ _ _ _ (or_intror (inter_kind _ E)) Hb kw K) as [_ F]. specialize (F (mask_of s) x (named_mask s I N) A).
  destruct (inter_axes f n kw E) as [X _]. rewrite X in F. unfold cut in F. destruct (M (sc_entry s)); exact F.
Qed.

Lemma step D s rest nodes nodes' : secs = D ++ s :: rest -> Inv D nodes -> prune_section f g masks nodes s = Ok nodes' -> named s /\ Inv (D ++ [s]) nodes'.
Proof.
  intros E IV H. assert (Is : In s secs) by (rewrite E; apply in_or_app; right; left; reflexivity).
  assert (LD : forall s', In s' D -> In s' secs) by (intros s' J; rewrite E; apply in_or_app; left; exact J).
  unfold prune_section in H. destruct (masks_named g masks (pn_name (sc_entry s))) as [|m [|? ?]] eqn:EM; try discriminate.
  assert (N : named s) by (exists m; exact EM). split; [exact N|].
  assert (Mm : mask_of s = m) by (unfold mask_of; rewrite EM; reflexivity).
  destruct (entry_in f g secs W HS s Is) as [A1 A2], (exit_in f g secs W HS s Is) as [B1 B2]. pose proof (entry_not_exit s Is) as EX.
  assert (FE : forall n0, In n0 (pg_nodes g) -> imD (D ++ [s]) n0 = if Nat.eqb (pn_id (sc_exit s)) (pn_id n0) then Some m else imD D n0).
  { intros n0 I0. unfold imD. rewrite find_app1. destruct (Nat.eqb_spec (pn_id (sc_exit s)) (pn_id n0)) as [Eq|Ne].
    - assert (n0 = sc_exit s) as -> by (apply (same_node g (wf_ids g W)); congruence || assumption).
      pose proof (imD_none D (sc_exit s) LD I0) as X. unfold imD in X. destruct (find _ D) as [s'|]; [exfalso|cbn; congruence].
      enough (option_map mask_of (Some s') = None) by discriminate. apply X. intros s1 J1 Q. apply (not_again s D rest s1 (sc_exit s) E J1). right. tauto.
    - destruct (find _ D); reflexivity. }
  assert (FO : forall n0, In n0 (pg_nodes g) -> omD (D ++ [s]) n0 = if Nat.eqb (pn_id (sc_entry s)) (pn_id n0) || memb n0 (sc_inter s) then Some m else omD D n0).
  { intros n0 I0. unfold omD. rewrite find_app1. destruct (Nat.eqb (pn_id (sc_entry s)) (pn_id n0) || memb n0 (sc_inter s)) eqn:Eq.
    - assert (n0 = sc_entry s \/ In n0 (sc_inter s)) as C.
      { apply orb_true_iff in Eq. destruct Eq as [Eq|Eq]; [left; apply Nat.eqb_eq in Eq; apply (same_node g (wf_ids g W)); congruence || assumption|right; apply (memb_inter f g secs W HS s n0 Is I0), Eq]. }
      pose proof (omD_none D n0 LD I0) as X. unfold omD in X. destruct (find _ D) as [s'|]; [exfalso|cbn; congruence].
      enough (option_map mask_of (Some s') = None) by discriminate. apply X. intros s1 J1. split; intro Q.
      + destruct C as [C|C]; [apply (not_again s D rest s1 n0 E J1); left; tauto|exact (edge_inter_apart s1 s n0 (LD s1 J1) Is (or_introl Q) C)].
      + destruct C as [C|C]; [exact (edge_inter_apart s s1 n0 Is (LD s1 J1) (or_introl C) Q)|apply (not_again s D rest s1 n0 E J1); right; tauto].
    - destruct (find _ D); reflexivity. }
  assert (NI : imD D (sc_exit s) = None) by (apply imD_none; [exact LD|exact B1|intros s1 J1 Q; apply (not_again s D rest s1 (sc_exit s) E J1); right; tauto]).
  assert (NOE : omD D (sc_entry s) = None).
  { apply omD_none; [exact LD|exact A1|]. intros s1 J1. split; intro Q; [apply (not_again s D rest s1 (sc_entry s) E J1); left; tauto|exact (edge_inter_apart s s1 _ Is (LD s1 J1) (or_introl eq_refl) Q)]. }
  assert (NOI : forall n0, In n0 (sc_inter s) -> omD D n0 = None).
  { intros n0 J. apply omD_none; [exact LD|apply (inter_in f g secs W HS s n0 Is J)|]. intros s1 J1. split; intro Q;
      [exact (edge_inter_apart s1 s n0 (LD s1 J1) Is (or_introl Q) J)|apply (not_again s D rest s1 n0 E J1); right; tauto]. }
  assert (CASES : forall n0 n n', In n0 (pg_nodes g) -> left_of f n0 (imD D n0) (omD D n0) n ->
     (n0 = sc_entry s -> left_of f n0 (imD D n0) None n -> left_of f n0 (imD D n0) (Some m) n') ->
     (In n0 (sc_inter s) -> left_of f n0 (imD D n0) None n -> left_of f n0 (imD D n0) (Some m) n') ->
     (n0 = sc_exit s -> left_of f n0 None (omD D n0) n -> left_of f n0 (Some m) (omD D n0) n') ->
     (n0 <> sc_entry s -> ~ In n0 (sc_inter s) -> n0 <> sc_exit s -> n' = n) ->
     left_of f n0 (imD (D ++ [s]) n0) (omD (D ++ [s]) n0) n').
  { intros n0 n n' I0 L C1 C2 C3 C4. rewrite (FE n0 I0), (FO n0 I0).
    destruct (Nat.eqb_spec (pn_id (sc_exit s)) (pn_id n0)) as [Ex|Ex].
    - assert (n0 = sc_exit s) as -> by (apply (same_node g (wf_ids g W)); congruence || assumption).
      destruct (Nat.eqb_spec (pn_id (sc_entry s)) (pn_id (sc_exit s))) as [Ee|Ee].
      { exfalso. apply EX. apply (same_node g (wf_ids g W)); assumption. }
      cbn [orb]. destruct (memb (sc_exit s) (sc_inter s)) eqn:Mb.
      { exfalso. apply (memb_inter f g secs W HS s _ Is I0) in Mb. exact (edge_inter_apart s s _ Is Is (or_intror eq_refl) Mb). }
      apply C3; [reflexivity|]. rewrite NI in L. exact L.
    - destruct (Nat.eqb_spec (pn_id (sc_entry s)) (pn_id n0)) as [Ee|Ee]; cbn [orb].
      + assert (n0 = sc_entry s) as -> by (apply (same_node g (wf_ids g W)); congruence || assumption). apply C1; [reflexivity|]. rewrite NOE in L. exact L.
      + destruct (memb n0 (sc_inter s)) eqn:Mb.
        * apply (memb_inter f g secs W HS s _ Is I0) in Mb. apply C2; [exact Mb|]. rewrite (NOI n0 Mb) in L. exact L.
        * rewrite C4; [exact L|congruence| |congruence]. intro Q. apply (memb_inter f g secs W HS s _ Is I0) in Q. congruence. }
  destruct (existsb (Z.eqb 0) m) eqn:Ez.
  - assert (Z0 : In 0 m) by (apply existsb_exists in Ez; destruct Ez as [z [Z1 Z2]]; apply Z.eqb_eq in Z2; subst z; exact Z1).
    apply on_nodes in H. unfold Inv in *. eapply Forall2_trans; [|exact IV|exact H]. intros n0 n n' I0 L R.
    assert (Ln : pn_id n = pn_id n0) by apply L.
    assert (CLE : classified f (sc_entry s)) by (destruct (est s Is) as ((ic & a & _ & Ha) & _); eapply params_classified; exact Ha).
    assert (CLX : classified f (sc_exit s)) by (destruct (est s Is) as (_ & _ & c & Hc); eapply params_classified; exact Hc).
    assert (IDI : forall n1, In n1 (pg_nodes g) -> In (pn_id n1) (map pn_id (sc_inter s)) -> In n1 (sc_inter s)).
    { intros n1 J1 J. apply in_map_iff in J. destruct J as [y [Y1 Y2]]. replace n1 with y; [exact Y2|]. apply (same_node g (wf_ids g W)); [apply (inter_in f g secs W HS s y Is Y2)|exact J1|exact Y1]. }
    unfold section_ops in R. rewrite foldM_app1 in R. cbn [foldM] in R. unfold step1 at 1 in R. cbn [fst snd] in R.
    assert (MM : map (fun n1 => (pn_id n1, prune_inter f m)) (sc_inter s) = map (fun i => (i, prune_inter f m)) (map pn_id (sc_inter s))) by (rewrite map_map; reflexivity).
    rewrite MM in R. clear MM.
    apply (CASES n0 n n' I0 L).
    + intros -> L'. rewrite Ln, Nat.eqb_refl in R. destruct (prune_edge f false m n) as [n1|] eqn:P1; cbn [bind] in R; [|discriminate].
      rewrite skip_ops in R.
      * inversion R; subst n'. eapply left_entry; [exact A2|exact CLE|apply HB; assumption|exact Z0|exact L'|exact P1].
      * intros op J. rewrite (prune_edge_id _ _ _ _ _ P1), Ln. apply in_app_or in J. destruct J as [J|[<-|[]]].
        { apply in_map_iff in J. destruct J as [i [<- J]]. cbn. intros ->. apply (IDI _ A1) in J. exact (edge_inter_apart s s _ Is Is (or_introl eq_refl) J). }
        { cbn. intro Q. apply EX. apply (same_node g (wf_ids g W)); congruence || assumption. }
    + intros J L'. assert (Nat.eqb (pn_id n) (pn_id (sc_entry s)) = false) as Q.
      { apply Nat.eqb_neq. intro Q. rewrite Ln in Q. apply (same_node g (wf_ids g W)) in Q; [|exact I0|exact A1]. exact (edge_inter_apart s s n0 Is Is (or_introl Q) J). }
      rewrite Q in R. cbn [bind] in R. rewrite foldM_app1 in R. destruct (foldM step1 (map _ (map pn_id (sc_inter s))) n) as [n1|] eqn:P1; cbn [bind] in R; [|discriminate].
      apply one_op in P1; [|apply prune_inter_id| |rewrite Ln; apply in_map, J].
      * rewrite skip_ops in R.
        { inversion R; subst n'. eapply left_inter; [apply (inter_in f g secs W HS s n0 Is J)| |exact L'|exact P1].
          destruct HK as [K|K]; [left; exact K|right]. eapply K; [apply (sec_is f g secs W HS s Is)|exact J]. }
        intros op [<-|[]]. cbn. rewrite (prune_inter_id _ _ _ _ P1), Ln. intro Q1. apply (same_node g (wf_ids g W)) in Q1; [|exact B1|exact I0].
        exact (edge_inter_apart s s n0 Is Is (or_intror (eq_sym Q1)) J).
      * apply (NoDup_map_on pn_id).
        { pose proof (sec_is f g secs W HS s Is) as (_ & _ & _ & _ & _ & _ & C). apply (chain_index g W) in C. apply C. }
        { intros a b Ja Jb. apply (same_node g (wf_ids g W)); [apply (inter_in f g secs W HS s a Is Ja)|apply (inter_in f g secs W HS s b Is Jb)]. }
    + intros -> L'. assert (Nat.eqb (pn_id n) (pn_id (sc_entry s)) = false) as Q.
      { apply Nat.eqb_neq. intro Q. rewrite Ln in Q. apply EX. apply (same_node g (wf_ids g W)); congruence || assumption. }
      rewrite Q in R. cbn [bind] in R. rewrite foldM_app1 in R. rewrite skip_ops in R.
      * cbn [bind foldM] in R. unfold step1 in R. cbn [fst snd] in R. rewrite Ln, Nat.eqb_refl in R.
        destruct (prune_edge f true m n) as [n1|] eqn:P1; cbn [bind] in R; [|discriminate]. inversion R; subst n'.
        eapply left_exit; [exact B2|exact CLX|exact L'|exact P1].
      * intros op J. apply in_map_iff in J. destruct J as [i [<- J]]. cbn. rewrite Ln. intros ->. apply (IDI _ B1) in J. exact (edge_inter_apart s s _ Is Is (or_intror eq_refl) J).
    + intros Q1 Q2 Q3. assert (Nat.eqb (pn_id n) (pn_id (sc_entry s)) = false) as Q.
      { apply Nat.eqb_neq. intro Q. rewrite Ln in Q. apply Q1. apply (same_node g (wf_ids g W)); assumption. }
      rewrite Q in R. cbn [bind] in R. rewrite skip_ops in R; [inversion R; reflexivity|]. intros op J. rewrite Ln. apply in_app_or in J. destruct J as [J|[<-|[]]].
      * apply in_map_iff in J. destruct J as [i [<- J]]. cbn. intros ->. apply Q2, IDI; assumption.
      * cbn. intro X. apply Q3. apply (same_node g (wf_ids g W)); congruence || assumption.
  - assert (Z0 : ~ In 0 m) by (intro J; rewrite <- not_true_iff_false in Ez; apply Ez, existsb_exists; exists 0; split; [exact J|reflexivity]).
    inversion H; subst nodes'. unfold Inv in *. eapply Forall2_impl_in; [|exact IV]. intros n0 n I0 L. apply (CASES n0 n n I0 L); [| | |reflexivity].
    + intros -> L'. apply left_out_skip; [exact Z0|exact L'|apply edge_kind, A2|]. intros kw x K A. rewrite <- Mm. apply (entry_fit s kw x Is N K A).
    + intros J L'. apply left_out_skip; [exact Z0|exact L'|apply inter_kind, (inter_in f g secs W HS s n0 Is J)|]. intros kw x K A. rewrite <- Mm. apply (inter_fit s n0 kw x Is N J K A).
    + intros -> L'. apply left_in_skip; [exact Z0|exact L'|apply edge_kind, B2|]. intros kw x K A. rewrite <- Mm. apply (exit_fit s kw x Is N K A).
Qed.
Lemma run rest : forall D nodes nodes', secs = D ++ rest -> Inv D nodes -> foldM (prune_section f g masks) rest nodes = Ok nodes' -> Inv secs nodes' /\ forall s, In s rest -> named s.
Proof.
  induction rest as [|s rest IH]; intros D nodes nodes' E IV H; cbn [foldM] in H.
  - inversion H; subst nodes'. rewrite app_nil_r in E. subst D. split; [exact IV|intros s []].
  - destruct (prune_section f g masks nodes s) as [n1|] eqn:P1; cbn [bind] in H; [|discriminate]. destruct (step D s rest nodes n1 E IV P1) as [N1 IV1].
    destruct (IH (D ++ [s]) n1 nodes') as [A B]; [rewrite <- app_assoc; exact E|exact IV1|exact H|]. split; [exact A|]. intros s' [<-|J]; [exact N1|apply B, J].
Qed.

Lemma pruned_values nodes' : pruned_nodes f g masks = Ok nodes' ->
  Forall2 (fun n n' => exists im om, applies f g masks n im om /\ left_of f n im om n' /\
    forall kw, In kw (pn_weights n) -> fits im (snd (weight_axes f n kw)) (t_shape (snd kw)) /\ fits om (fst (weight_axes f n kw)) (cut im (snd (weight_axes f n kw)) (t_shape (snd kw))))
    (pg_nodes g) nodes'.
Proof.
  unfold pruned_nodes. rewrite HS. cbn [bind]. destruct (Nat.eqb_spec (length secs) (length masks)) as [EL|EL]; cbn [negb]; [|discriminate]. intro H.
  destruct (run secs [] (pg_nodes g) nodes' eq_refl) as [IV N]; [|exact H|].
  { unfold Inv. clear. induction (pg_nodes g); constructor; [apply left_refl|assumption]. }
  assert (KEYS : forall n, In n (pg_nodes g) -> (forall s, In s secs -> n <> sc_entry s) -> M n = None).
  { intros n I0 Hn. unfold M. destruct (dict_get (pn_id n) masks) as [v|] eqn:G; [exfalso|reflexivity].
    assert (In (pn_id n) (map fst masks)) as K by (apply dict_get_in in G; apply (in_map fst) in G; exact G).
    assert (NoDup (pn_id n :: map pn_id (map sc_entry secs))) as ND.
    { constructor.
      - intro J. apply in_map_iff in J. destruct J as [e [J1 J2]]. apply in_map_iff in J2. destruct J2 as [s [<- J2]]. apply (Hn s J2).
        apply (same_node g (wf_ids g W)); [exact I0|apply (entry_in f g secs W HS s J2)|congruence].
      - apply (NoDup_map_on pn_id); [apply (nodup_entry f g secs W HS)|]. intros a b Ja Jb. apply in_map_iff in Ja, Jb. destruct Ja as [sa [<- Ja]], Jb as [sb [<- Jb]].
        apply (same_node g (wf_ids g W)); [apply (entry_in f g secs W HS sa Ja)|apply (entry_in f g secs W HS sb Jb)]. }
    apply NoDup_incl_length with (l' := map fst masks) in ND; [cbn in ND; rewrite !map_length in ND; lia|].
    intros i [<-|J]; [exact K|]. apply in_map_iff in J. destruct J as [e [<- J]]. apply in_map_iff in J. destruct J as [s [<- J]].
    pose proof (named_mask s J (N s J)) as X. unfold M in X. apply dict_get_in in X. apply (in_map fst) in X. exact X. }
  eapply Forall2_impl_in; [|exact IV]. intros n n' I0 L. cbn beta in L.
  assert (IMX : forall s, In s secs -> imD secs (sc_exit s) = M (sc_entry s)).
  { intros s Is. rewrite (named_mask s Is (N s Is)). unfold imD. destruct (find _ secs) as [s'|] eqn:F.
    - apply find_some in F. destruct F as [F1 F2]. apply Nat.eqb_eq in F2. cbn. do 2 f_equal. apply (sec_shared f g secs W HS s' s (sc_exit s) F1 Is); [right|right; reflexivity].
      symmetry. apply (same_node g (wf_ids g W)); [apply (exit_in f g secs W HS s' F1)|apply (exit_in f g secs W HS s Is)|exact F2].
    - apply find_none with (x := s) in F; [|exact Is]. rewrite Nat.eqb_refl in F. discriminate. }
  assert (OME : forall n1, In n1 (pg_nodes g) -> is_edge n1 = true -> omD secs n1 = M n1).
  { intros n1 J1 E1. unfold omD. destruct (find _ secs) as [s'|] eqn:F.
    - apply find_some in F. destruct F as [F1 F2]. apply orb_true_iff in F2. destruct F2 as [F2|F2].
      + apply Nat.eqb_eq in F2. apply (same_node g (wf_ids g W)) in F2; [|apply (entry_in f g secs W HS s' F1)|exact J1]. subst n1. symmetry. apply (named_mask s' F1 (N s' F1)).
      + exfalso. apply (memb_inter f g secs W HS s' n1 F1 J1) in F2. destruct (inter_in f g secs W HS s' n1 F1 F2) as [_ X]. exact (edge_not_inter n1 E1 X).
    - symmetry. apply KEYS; [exact J1|]. intros s Js Q. apply find_none with (x := s) in F; [|exact Js]. rewrite Q, Nat.eqb_refl in F. discriminate. }
  assert (OMI : forall s, In s secs -> In n (sc_inter s) -> omD secs n = M (sc_entry s)).
  { intros s Is J. rewrite (named_mask s Is (N s Is)). unfold omD. destruct (find _ secs) as [s'|] eqn:F.
    - apply find_some in F. destruct F as [F1 F2]. apply orb_true_iff in F2. destruct F2 as [F2|F2].
      + exfalso. apply Nat.eqb_eq in F2. apply (same_node g (wf_ids g W)) in F2; [|apply (entry_in f g secs W HS s' F1)|exact I0]. exact (edge_inter_apart s' s n F1 Is (or_introl (eq_sym F2)) J).
      + apply (memb_inter f g secs W HS s' n F1 I0) in F2. cbn. do 2 f_equal. apply (sec_shared f g secs W HS s' s n F1 Is); left; assumption.
    - apply find_none with (x := s) in F; [|exact Is]. apply (memb_inter f g secs W HS s n Is I0) in J. rewrite J, orb_true_r in F. discriminate. }
  destruct (find (fun s => Nat.eqb (pn_id (sc_exit s)) (pn_id n)) secs) as [sx|] eqn:FX.
  - apply find_some in FX. destruct FX as [X1 X2]. apply Nat.eqb_eq in X2. destruct (exit_in f g secs W HS sx X1) as [B1 B2].
    apply (same_node g (wf_ids g W)) in X2; [|exact B1|exact I0]. subst n. rewrite (IMX sx X1), (OME _ B1 B2) in L.
    exists (M (sc_entry sx)), (M (sc_exit sx)). split; [apply (A_exit f g masks (sc_exit sx) (sc_entry sx) (sc_inter sx)), (sec_is f g secs W HS sx X1)|]. split; [exact L|].
    destruct (est sx X1) as (_ & _ & c & Hc). apply (params_fit f padded _ _ _ _ (or_intror (edge_kind _ B2)) Hc).
  - assert (NX : forall s, In s secs -> n <> sc_exit s).
    { intros s Is Q. apply find_none with (x := s) in FX; [|exact Is]. rewrite Q, Nat.eqb_refl in FX. discriminate. }
    rewrite (imD_none secs n (fun s J => J) I0 NX) in L.
    destruct (find (fun s => Nat.eqb (pn_id (sc_entry s)) (pn_id n) || memb n (sc_inter s)) secs) as [s|] eqn:FE.
    + apply find_some in FE. destruct FE as [Is E2]. apply orb_true_iff in E2. destruct E2 as [E2|E2].
      * apply Nat.eqb_eq in E2. destruct (entry_in f g secs W HS s Is) as [A1 A2]. apply (same_node g (wf_ids g W)) in E2; [|exact A1|exact I0]. subst n. rewrite (OME _ A1 A2) in L.
        exists None, (M (sc_entry s)). split; [|split; [exact L|]].
        { apply (A_entry f g masks (sc_entry s) (sc_inter s) (sc_exit s)); [apply (sec_is f g secs W HS s Is)|]. intros e i X. apply (sections_spec f g secs W HS) in X. apply (NX _ X). reflexivity. }
        { intros kw K. split; [intros mm x Q; discriminate|]. change (cut None (snd (weight_axes f (sc_entry s) kw)) (t_shape (snd kw))) with (t_shape (snd kw)).
          intros mm x Q1 Q2. rewrite (named_mask s Is (N s Is)) in Q1. inversion Q1; subst mm. apply (entry_fit s kw x Is (N s Is) K Q2). }
      * apply (memb_inter f g secs W HS s n Is I0) in E2. rewrite (OMI s Is E2) in L. exists (M (sc_entry s)), (M (sc_entry s)).
        split; [apply (A_inter f g masks n (sc_entry s) (sc_inter s) (sc_exit s)); [apply (sec_is f g secs W HS s Is)|exact E2]|].
        destruct (inter_in f g secs W HS s n Is E2) as [_ II]. split; [exact (left_in_irrelevant f n _ _ _ _ II L)|].
        destruct (est s Is) as (_ & Hi & _). destruct (Hi n E2) as [b Hb]. apply (params_fit f padded _ _ _ _ (or_intror (inter_kind _ II)) Hb).
    + assert (NE : forall s, In s secs -> n <> sc_entry s /\ ~ In n (sc_inter s)).
      { intros s Is. apply find_none with (x := s) in FE; [|exact Is]. apply orb_false_iff in FE. destruct FE as [F1 F2]. split; intro Q.
        - rewrite Q, Nat.eqb_refl in F1. discriminate.
        - apply (memb_inter f g secs W HS s n Is I0) in Q. congruence. }
      rewrite (omD_none secs n (fun s J => J) I0 NE) in L. exists None, None. split; [|split; [exact L|intros kw K; split; intros mm x Q; discriminate]].
      apply A_outside. intros e i x S. apply (sections_spec f g secs W HS) in S. destruct (NE _ S) as [Q1 Q2]. cbn in Q1, Q2. split; [exact Q1|]. split; [|exact Q2]. apply (NX _ S).
Qed.
End Graph.
