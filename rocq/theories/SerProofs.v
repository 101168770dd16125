(* SerProofs.v -- lemmas about the dictionaries of quantizers and the weights of finished layers. *)
From Coq Require Import String.
From Verif Require Import Base SDict SerModel SerSpec.
Local Open Scope list_scope.
Local Open Scope string_scope.

Lemma method_of_value m : method_of (m_value m) = Ok m.
Proof. destruct m; reflexivity. Qed.

(* ---- parameters ---- *)
Lemma write_numeric packed v : numeric v -> exists u, write_value packed v = Ok u /\ numbers (unpack u) = numbers v /\ numeric (unpack u) /\
  (forall s x, v = V_nd s x -> unpack u = v).
Proof.
  intros [s [x [E L]]]. destruct v; try discriminate; cbn in E; inversion E; subst.
  - exists (V_num q). split; [reflexivity|]. split; [reflexivity|]. split; [exists [], [q]; split; reflexivity|]. intros; discriminate.
  - cbn [write_value]. destruct packed.
    + eexists. split; [reflexivity|]. destruct s as [|n s].
      * destruct x as [|q [|q' x]]; try discriminate. split; [reflexivity|]. split; [exists [], [q]; split; reflexivity|]. intros s x H. inversion H; subst. reflexivity.
      * split; [reflexivity|]. split; [exists (n :: s), x; split; [reflexivity|exact L]|]. intros s' x' H. reflexivity.
    + eexists. split; [reflexivity|]. destruct s as [|n s].
      * destruct x as [|q [|q' x]]; try discriminate. split; [reflexivity|]. split; [exists [], [q]; split; reflexivity|]. intros s x H. inversion H; subst. reflexivity.
      * split; [reflexivity|]. split; [exists (n :: s), x; split; [reflexivity|exact L]|]. intros s' x' H. reflexivity.
Qed.

Lemma write_params packed (p : params) : Forall (fun kv => numeric (snd kv)) p ->
  exists p', mapM (fun kv => let! v := write_value packed (snd kv) in Ok (fst kv, v)) p = Ok p' /\
    same_numbers p (map (fun kv => (fst kv, unpack (snd kv))) p') /\ Forall (fun kv => numeric (snd kv)) (map (fun kv => (fst kv, unpack (snd kv))) p') /\
    Forall (fun kv => exists s x, snd kv = V_nd s x) (map (fun kv => (fst kv, unpack (snd kv))) p') /\
    (Forall (fun kv => exists s x, snd kv = V_nd s x) p -> map (fun kv => (fst kv, unpack (snd kv))) p' = p).
Proof.
  induction 1 as [|[k v] p N F IH].
  - exists []. split; [reflexivity|]. split; [constructor|]. split; [constructor|]. split; [constructor|]. reflexivity.
  - destruct IH as [p' [E [S [N' [A I]]]]]. destruct (write_numeric packed v N) as [u [Eu [Nu [Nn Ex]]]]. exists ((k, u) :: p').
    cbn [mapM fst snd]. rewrite Eu. cbn [bind]. rewrite E. cbn [bind map fst snd]. split; [reflexivity|].
    split; [constructor; [split; [reflexivity|cbn [snd]; congruence]|exact S]|].
    split; [constructor; [exact Nn|exact N']|]. split.
    + constructor; [|exact A]. cbn [snd]. destruct Nn as [s [x [E1 _]]]. unfold unpack in *.
      destruct u as [| | |s1 x1|s1 x1|s1 x1|]; cbn in *; try discriminate; eauto.
      destruct s1 as [|n1 s1], x1 as [|q1 [|q2 x1]]; cbn in *; eauto.
    + intro Fa. inversion Fa as [|? ? [s [x Hv]] Fr]; subst. cbn [snd] in Hv. rewrite (Ex _ _ Hv). rewrite (I Fr). reflexivity.
Qed.

Lemma write_simple packed (p : params) : Forall (fun kv => simple (snd kv)) p ->
  mapM (fun kv => let! v := write_value packed (snd kv) in Ok (fst kv, v)) p = Ok p.
Proof.
  induction 1 as [|[k v] p N F IH]; [reflexivity|]. cbn [mapM fst snd]. cbn [snd] in N.
  destruct v; try contradiction; cbn [write_value bind]; rewrite IH; reflexivity.
Qed.

(* ---- the whole configuration ---- *)
Definition bare (c : config) : config :=
  match c with
  | CW w => CW (WConfig (w_method w) (w_bits w) (w_params w) (w_enable w) (w_axis w) (w_channel w) (w_min w) None)
  | CA a => CA (AConfig (a_method a) (a_bits a) (a_params a) (a_enable a) (a_min a) None)
  end.

Lemma write_cands packed c : match c with Some (_ :: _) => True | _ => False end \/ write_field packed (F_cands c) = Ok (F_cands c).
Proof. destruct c as [[|x l]|]; [right; reflexivity|left; exact I|right; reflexivity]. Qed.

Lemma saved_weights packed w : Forall (fun kv => numeric (snd kv)) (w_params w) -> candidates (CW w) = [] ->
  exists d p', write packed (serialization (CW w)) = Ok d /\
    deserialization d = Ok (CW (WConfig (w_method w) (w_bits w) p' (w_enable w) (w_axis w) (w_channel w) (w_min w) None)) /\
    same_numbers (w_params w) p' /\ Forall (fun kv => numeric (snd kv)) p' /\ Forall (fun kv => exists s x, snd kv = V_nd s x) p' /\
    (Forall (fun kv => exists s x, snd kv = V_nd s x) (w_params w) -> p' = w_params w).
Proof.
  intros N C. destruct w as [m b p e x ch t cs]. cbn [w_method w_bits w_params w_enable w_axis w_channel w_min w_cands] in *.
  destruct (write_params packed p N) as [p' [E R]].
  assert (write_field packed (F_cands cs) = Ok (F_cands cs)) as Ec by (cbn in C; destruct cs as [[|y l]|]; [reflexivity|discriminate|reflexivity]).
  eexists. exists (map (fun kv => (fst kv, unpack (snd kv))) p'). split; [|split; [|exact R]].
  - unfold write, serialization, attributes. cbn [map fst snd transform_enum is_weights negb sset String.eqb Ascii.eqb Bool.eqb w_method w_bits w_params w_enable w_axis w_channel w_min w_cands].
    cbn -[write_value]. rewrite E. cbn -[write_value]. destruct cs as [[|y l]|]; [|discriminate C|]; cbn; reflexivity.
  - cbn -[method_of m_value]. rewrite method_of_value. reflexivity.
Qed.

Lemma saved_activation packed a : Forall (fun kv => simple (snd kv)) (a_params a) -> candidates (CA a) = [] ->
  exists d, write packed (serialization (CA a)) = Ok d /\ deserialization d = Ok (bare (CA a)).
Proof.
  intros N C. destruct a as [m b p e t cs]. cbn [a_params] in N. pose proof (write_simple packed p N) as E.
  eexists. split.
  - unfold write, serialization, attributes. cbn -[write_value]. rewrite E. cbn -[write_value].
    cbn in C. destruct cs as [[|y l]|]; [|discriminate C|]; cbn; reflexivity.
  - cbn -[method_of m_value]. rewrite method_of_value. reflexivity.
Qed.

(* ---- classes by name ---- *)
Lemma sset_keys {V} k (v : V) d : NoDup (skeys d) -> NoDup (skeys (sset k v d)).
Proof.
  induction d as [|[k' v'] d IH]; intro N; cbn.
  - repeat constructor. intros [].
  - inversion N as [|? ? N1 N2]; subst. destruct (String.eqb k k') eqn:E.
    + apply String.eqb_eq in E. subst. constructor; assumption.
    + cbn. constructor; [|apply IH; exact N2]. intro I. apply sget_key in I. destruct I as [u Eu]. rewrite sget_sset in Eu.
      rewrite String.eqb_sym, E in Eu. apply N1, sget_key. eauto.
Qed.
Lemma fold_keys {V} (l : list (string * V)) d : NoDup (skeys d) -> NoDup (skeys (fold_left (fun d kv => sset (fst kv) (snd kv) d) l d)).
Proof. revert d. induction l as [|kv l IH]; intros d N; [exact N|]. cbn. apply IH, sset_keys, N. Qed.
Lemma fold_get_other {V} n (l : list (string * V)) d : ~ In n (map fst l) ->
  sget n (fold_left (fun d kv => sset (fst kv) (snd kv) d) l d) = sget n d.
Proof.
  revert d. induction l as [|[k v] l IH]; intros d N; [reflexivity|]. cbn in *. rewrite IH by tauto. rewrite sget_sset.
  destruct (String.eqb n k) eqn:E; [apply String.eqb_eq in E; subst; tauto|reflexivity].
Qed.
Lemma fold_get_last {V} n (v : V) l d : last_named n l v -> sget n (fold_left (fun d kv => sset (fst kv) (snd kv) d) l d) = Some v.
Proof.
  intros [a [b [-> N]]]. rewrite fold_left_app. cbn [fold_left fst snd]. rewrite fold_get_other by exact N.
  rewrite sget_sset, String.eqb_refl. reflexivity.
Qed.

Lemma load_ok {C} classes (wrapper : C) custom : load_objects classes wrapper custom =
  Ok (let d := sset "KerasTrainableQuantizationWrapper" wrapper (fold_left (fun d kv => sset (fst kv) (snd kv) d) classes []) in
      match custom with Some c => fold_left (fun d kv => sset (fst kv) (snd kv) d) c d | None => d end).
Proof.
  unfold load_objects. set (d := sset _ wrapper _).
  assert (NoDup (skeys d)) as N by (apply sset_keys, fold_keys; constructor).
  rewrite nodup_fixed_point by exact N. rewrite Nat.ltb_irrefl. reflexivity.
Qed.

(* ---- the weights of a finished layer ---- *)
Section Weights.
Variable T : Type.
Lemma index_spec s l : match index s l with Some i => nth_error l i = Some s /\ (forall j, (j < i)%nat -> nth_error l j <> Some s) | None => ~ In s l end.
Proof.
  induction l as [|x l IH]; [intros []|]. cbn. destruct (String.eqb s x) eqn:E.
  - apply String.eqb_eq in E. subst. split; [reflexivity|]. intros j J. lia.
  - assert (x <> s) by (intro; subst; rewrite String.eqb_refl in E; discriminate).
    destruct (index s l) as [i|]; cbn.
    + destruct IH as [A B]. split; [exact A|]. intros [|j] J; cbn; [congruence|]. apply B. lia.
    + intros [X|X]; [auto|auto].
Qed.
Lemma set_nth_length i (v : T) l : length (set_nth i v l) = length l.
Proof. revert i. induction l as [|x l IH]; intros [|i]; cbn; auto. Qed.
Lemma set_nth_get i (v : T) l j : nth_error (set_nth i v l) j = if Nat.eqb i j then option_map (fun _ => Some v) (nth_error l j) else nth_error l j.
Proof.
  revert i j. induction l as [|x l IH]; intros i j.
  - destruct i, j; cbn; try reflexivity. destruct (Nat.eqb i j); reflexivity.
  - destruct i as [|i], j as [|j]; cbn; try reflexivity. apply IH.
Qed.
Lemma all_some_spec (l : list (option T)) : match all_some l with Some r => l = map Some r | None => In None l end.
Proof. induction l as [|[x|] l IH]; cbn; [reflexivity| |left; reflexivity]. destruct (all_some l); cbn; [congruence|auto]. Qed.

Definition fill (keys : list string) (l : list (option T)) (vars : list (string * T)) : list (option T) :=
  fold_left (fun l w => match index (weight_name (fst w)) keys with Some i => set_nth i (snd w) l | None => l end) vars l.
Definition named (vars : list (string * T)) : list (string * T) := map (fun w => (weight_name (fst w), snd w)) vars.

Lemma fill_length keys vars l : length (fill keys l vars) = length l.
Proof.
  revert l. unfold fill. induction vars as [|[n v] vars IH]; intros l; [reflexivity|]. cbn [fold_left fst snd]. rewrite IH.
  destruct (index (weight_name n) keys); [apply set_nth_length|reflexivity].
Qed.
(* the slot i holds the last variable whose name has its first position at i *)
Lemma fill_get keys vars l i k : length l = length keys -> nth_error keys i = Some k ->
  (index k keys = Some i -> forall v, last_named k (named vars) v -> nth_error (fill keys l vars) i = Some (Some v)) /\
  (index k keys <> Some i \/ ~ In k (map fst (named vars)) -> nth_error (fill keys l vars) i = nth_error l i).
Proof.
  revert l. unfold fill. induction vars as [|[n v] vars IH] using rev_ind; intros l L K.
  - split; [|reflexivity]. intros _ v [a [b [E _]]]. destruct a; discriminate.
  - rewrite fold_left_app. cbn [fold_left fst snd]. destruct (IH l L K) as [IA IB].
    pose proof (fill_length keys vars l) as FL. unfold fill in FL. set (f := fold_left _ vars l) in *.
    assert (named (vars ++ [(n, v)]) = (named vars ++ [(weight_name n, v)])%list) as EN by (unfold named; rewrite map_app; reflexivity).
    rewrite EN. destruct (string_dec (weight_name n) k) as [E|E].
    + rewrite E. split.
      * intros X u [a [b [Eb Nb]]]. rewrite X, set_nth_get, Nat.eqb_refl.
        destruct b as [|y b] using rev_ind.
        -- apply app_inj_tail in Eb. destruct Eb as [_ Eb]. inversion Eb; subst.
           destruct (nth_error f i) eqn:Ef; [reflexivity|]. exfalso. apply nth_error_None in Ef. assert (i < length keys)%nat by (apply nth_error_Some; congruence). lia.
        -- exfalso. rewrite app_comm_cons, app_assoc in Eb. apply app_inj_tail in Eb. destruct Eb as [_ Eb]. subst y.
           apply Nb. rewrite map_app. apply in_or_app. right. left. reflexivity.
      * intros [X|X].
        -- destruct (index k keys) as [j|] eqn:J; [|apply IB; left; congruence].
           rewrite set_nth_get. destruct (Nat.eqb j i) eqn:Ji; [apply Nat.eqb_eq in Ji; congruence|]. apply IB. left. congruence.
        -- exfalso. apply X. rewrite map_app. apply in_or_app. right. left. reflexivity.
    + assert (forall j, index (weight_name n) keys = Some j -> j <> i) as D.
      { intros j J ->. pose proof (index_spec (weight_name n) keys) as H. rewrite J in H. destruct H as [H _]. congruence. }
      assert (nth_error (match index (weight_name n) keys with Some j => set_nth j v f | None => f end) i = nth_error f i) as EF.
      { destruct (index (weight_name n) keys) as [j|]; [|reflexivity]. rewrite set_nth_get.
        destruct (Nat.eqb j i) eqn:Ji; [apply Nat.eqb_eq in Ji; subst; exfalso; apply (D i); reflexivity|reflexivity]. }
      rewrite EF. split.
      * intros X u [a [b [Eb Nb]]]. apply IA; [exact X|]. destruct b as [|y b] using rev_ind.
        -- apply app_inj_tail in Eb. destruct Eb as [_ Eb]. inversion Eb; subst. congruence.
        -- rewrite app_comm_cons, app_assoc in Eb. apply app_inj_tail in Eb. destruct Eb as [Eb _]. exists a, b. split; [exact Eb|].
           intro I. apply Nb. rewrite map_app. apply in_or_app. left. exact I.
      * intros [X|X]; apply IB; [left; exact X|right]. intro I. apply X. rewrite map_app. apply in_or_app. left. exact I.
Qed.

Lemma last_exists k (l : list (string * T)) : In k (map fst l) -> exists v, last_named k l v.
Proof.
  induction l as [|[n v] l IH]; [intros []|]. cbn. intro I. destruct (in_dec string_dec k (map fst l)) as [J|J].
  - destruct (IH J) as [u [a [b [-> N]]]]. exists u, ((n, v) :: a), b. split; [reflexivity|exact N].
  - destruct I as [->|I]; [|contradiction]. exists v, [], l. split; [reflexivity|exact J].
Qed.
Lemma last_in k (l : list (string * T)) v : last_named k l v -> In k (map fst l).
Proof. intros [a [b [-> _]]]. rewrite map_app. apply in_or_app. right. left. reflexivity. Qed.

Lemma index_nodup keys i k : NoDup keys -> nth_error keys i = Some k -> index k keys = Some i.
Proof.
  intros N K. pose proof (index_spec k keys) as H. destruct (index k keys) as [j|].
  - destruct H as [H _]. f_equal. eapply NoDup_nth_error; [exact N| |congruence]. apply nth_error_Some. congruence.
  - exfalso. apply H. eapply nth_error_In. exact K.
Qed.
Lemma first_positions keys : (forall i k, nth_error keys i = Some k -> index k keys = Some i) -> NoDup keys.
Proof.
  intro H. apply NoDup_nth_error. intros i j L E. destruct (nth_error keys i) as [k|] eqn:Ki; [|apply nth_error_None in Ki; lia].
  pose proof (H i k Ki) as A. pose proof (H j k (eq_sym E)) as B. congruence.
Qed.
End Weights.
