(* TabProofs.v -- attaching a platform with a table whose entries are all different. *)
From Coq Require Import String.
From Verif Require Import Base SDict FilterModel PlatModel LookupModel LookupSpec LookupProps TabModel TabSpec.
Local Open Scope list_scope.

Lemma idx_inj l : forall a b, In a l -> In b l -> idx a l = idx b l -> a = b.
Proof.
  induction l as [|x l IH]; intros a b A B; [destruct A|]. cbn [idx].
  destruct (String.eqb_spec a x) as [->|Na], (String.eqb_spec b x) as [->|Nb]; try discriminate; [reflexivity|].
  intro E. injection E as E. destruct A as [A|A]; [congruence|]. destruct B as [B|B]; [congruence|]. apply (IH a b A B E).
Qed.
Lemma nodup_app_r {A} (a b : list A) : NoDup (a ++ b) -> NoDup b.
Proof. induction a as [|x a IH]; cbn; [auto|]. intro N. inversion N; auto. Qed.
Lemma nodup_app_l {A} (a b : list A) : NoDup (a ++ b) -> NoDup a.
Proof. induction a as [|x a IH]; cbn; [constructor|]. intro N. inversion N as [|? ? N1 N2]; subst. constructor; [|auto]. intro X. apply N1, in_app_iff. auto. Qed.
Lemma nodup_app_disj {A} (a b : list A) x : NoDup (a ++ b) -> In x a -> In x b -> False.
Proof. induction a as [|y a IH]; cbn; [auto|]. intros N [->|I] J; inversion N as [|? ? N1 N2]; subst; [apply N1, in_app_iff; auto|auto]. Qed.
Lemma nodup_app_intro {A} (a b : list A) : NoDup a -> NoDup b -> (forall x, In x a -> In x b -> False) -> NoDup (a ++ b).
Proof.
  induction a as [|x a IH]; cbn; [auto|]. intros Na Nb D. inversion Na as [|? ? N1 N2]; subst. constructor.
  - intro X. apply in_app_iff in X. destruct X as [X|X]; [auto|]. apply (D x); auto.
  - apply IH; [assumption|assumption|]. intros y Y1 Y2. apply (D y); auto.
Qed.
Lemma nodup_flat {A B} (f : A -> list B) l : NoDup (flat_map f l) -> forall a b x, In a l -> In b l -> In x (f a) -> In x (f b) -> a = b.
Proof.
  induction l as [|y l IH]; intros N a b x Ia Ib Xa Xb; [destruct Ia|]. cbn in N.
  destruct Ia as [->|Ia], Ib as [->|Ib]; [reflexivity| | |].
  - exfalso. apply (nodup_app_disj _ _ x N Xa). apply in_flat_map. exists b. auto.
  - exfalso. apply (nodup_app_disj _ _ x N Xb). apply in_flat_map. exists a. auto.
  - apply (IH (nodup_app_r _ _ N) a b x); assumption.
Qed.
Lemma nodup_flat_row {A B} (f : A -> list B) l a : NoDup (flat_map f l) -> In a l -> NoDup (f a).
Proof.
  induction l as [|y l IH]; intros N I; [destruct I|]. cbn in N. destruct I as [->|I]; [exact (nodup_app_l _ _ N)|exact (IH (nodup_app_r _ _ N) I)].
Qed.

(* ---- keys ---- *)
Definition kid (k : lkey) : bool * nat := match k with K_layer i _ => (true, i) | K_filter i _ => (false, i) end.
Lemma lkey_eqb_kid a b : lkey_eqb a b = true <-> kid a = kid b.
Proof.
  destruct a, b; cbn; try (split; discriminate).
  - rewrite Nat.eqb_eq. split; [intros ->; reflexivity|intro E; injection E; auto].
  - rewrite Nat.eqb_eq. split; [intros ->; reflexivity|intro E; injection E; auto].
Qed.
Lemma key_repeats_no l : forall seen, NoDup (map kid (seen ++ l)) -> key_repeats seen l = false.
Proof.
  induction l as [|k l IH]; intros seen N; cbn [key_repeats]; [reflexivity|]. apply orb_false_iff. split.
  - apply not_true_is_false. intro X. apply existsb_exists in X. destruct X as [x [I E]]. apply lkey_eqb_kid in E.
    rewrite map_app in N. apply (nodup_app_disj _ _ (kid k) N); [rewrite E; apply in_map, I|left; reflexivity].
  - apply IH. rewrite <- app_assoc. exact N.
Qed.
Lemma validate_ok l : forall names seen, NoDup (names ++ map ol_name l) -> NoDup (map kid (seen ++ flat_map ol_layers l)) ->
  validate_op_sets names seen l = Ok tt.
Proof.
  induction l as [|o l IH]; intros names seen N K; cbn [validate_op_sets]; [reflexivity|].
  destruct (existsb (String.eqb (ol_name o)) names) eqn:E.
  { exfalso. apply existsb_exists in E. destruct E as [x [I E]]. apply String.eqb_eq in E. subst x.
    apply (nodup_app_disj _ _ (ol_name o) N I). left. reflexivity. }
  cbn [flat_map] in K. rewrite key_repeats_no.
  2:{ rewrite app_assoc, map_app in K. exact (nodup_app_l _ _ K). }
  apply IH; [rewrite <- app_assoc; exact N|rewrite <- app_assoc; exact K].
Qed.

(* ---- a table with different entries ---- *)
Section T.
Variable attrs : list (string * list (string * ddict)).
Variable t : rows.
Hypothesis Htags : NoDup (tags t).

Lemma in_tags r o : In r t -> In o (snd r) -> In (tag o) (tags t).
Proof. intros I J. apply in_flat_map. exists r. split; [exact I|apply in_map, J]. Qed.
Lemma in_paths r o : In r t -> In o (snd r) -> In (path_of o) (paths t).
Proof. intros I J. apply in_flat_map. exists r. split; [exact I|apply in_map, J]. Qed.
Lemma kid_tag r1 r2 o1 o2 : In r1 t -> In o1 (snd r1) -> In r2 t -> In o2 (snd r2) -> kid (key t o1) = kid (key t o2) -> tag o1 = tag o2.
Proof.
  intros I1 J1 I2 J2. pose proof (in_tags _ _ I1 J1) as T1. pose proof (in_tags _ _ I2 J2) as T2.
  pose proof (in_paths _ _ I1 J1) as P1. pose proof (in_paths _ _ I2 J2) as P2.
  destruct o1 as [p1|p1 c1 a1], o2 as [p2|p2 c2 a2]; cbn [key kid tag path_of] in *; intro E; try discriminate; injection E as E;
    [apply (idx_inj (paths t))|apply (idx_inj (tags t))]; assumption.
Qed.
Lemma tag_row r1 r2 o1 o2 : In r1 t -> In o1 (snd r1) -> In r2 t -> In o2 (snd r2) -> tag o1 = tag o2 -> r1 = r2.
Proof.
  intros I1 J1 I2 J2 E. apply (nodup_flat (fun r => map tag (snd r)) t Htags r1 r2 (tag o1) I1 I2); [apply in_map, J1|rewrite E; apply in_map, J2].
Qed.
Lemma row_kids r : In r t -> NoDup (map kid (map (key t) (snd r))).
Proof.
  intro I. pose proof (nodup_flat_row (fun r => map tag (snd r)) t r Htags I) as N. cbn beta in N.
  assert (forall l, incl l (snd r) -> NoDup (map tag l) -> NoDup (map kid (map (key t) l))) as G; [|apply G; [apply incl_refl|exact N]].
  induction l as [|o l IH]; intros S M; [constructor|]. cbn in *. inversion M as [|? ? M1 M2]; subst. constructor.
  - intro X. rewrite map_map in X. apply in_map_iff in X. destruct X as [o2 [E J]]. apply M1.
    rewrite <- (kid_tag r r o2 o I (S o2 (or_intror J)) I (S o (or_introl eq_refl)) E). apply in_map, J.
  - apply IH; [intros y Y; apply S; right; exact Y|exact M2].
Qed.
(* operator sets taken from the table, with different names *)
Definition from_table (acc : list oplayers) : Prop := forall o, In o acc -> exists r, In r t /\ fst r = ol_name o /\ ol_layers o = map (key t) (snd r).
Lemma from_table_kids acc : from_table acc -> NoDup (map ol_name acc) -> NoDup (map kid (flat_map ol_layers acc)).
Proof.
  induction acc as [|o acc IH]; intros F N; [constructor|]. cbn [flat_map map] in *. inversion N as [|? ? N1 N2]; subst. rewrite map_app.
  destruct (F o (or_introl eq_refl)) as [r [I [E L]]]. apply nodup_app_intro.
  - rewrite L. apply row_kids, I.
  - apply IH; [intros x X; apply F; right; exact X|exact N2].
  - intros x X Y. rewrite L, map_map in X. apply in_map_iff in X. destruct X as [o1 [E1 J1]].
    apply in_map_iff in Y. destruct Y as [k [E2 Y]]. apply in_flat_map in Y. destruct Y as [o' [I' K']].
    destruct (F o' (or_intror I')) as [r' [Ir [Er Lr]]]. rewrite Lr in K'. apply in_map_iff in K'. destruct K' as [o2 [<- J2]].
    assert (r = r') as -> by (apply (tag_row r r' o1 o2 I J1 Ir J2); apply (kid_tag r r' o1 o2); try assumption; congruence).
    apply N1. rewrite <- E, Er. apply in_map, I'.
Qed.
Lemma sget_table rs name : In name (map fst rs) ->
  exists r, In r rs /\ fst r = name /\
    sget name (map (fun r => (fst r, OpLayers (fst r) (map (key t) (snd r)) (sget (fst r) attrs))) rs) = Some (OpLayers name (map (key t) (snd r)) (sget name attrs)).
Proof.
  induction rs as [|[n l] rs IH]; intro I; [destruct I|]. cbn [map sget fst snd]. destruct (String.eqb_spec name n) as [->|N].
  - exists (n, l). split; [left; reflexivity|]. split; reflexivity.
  - destruct I as [I|I]; [cbn in I; congruence|]. destruct (IH I) as [r [A [B C]]]. exists r. split; [right; exact A|]. auto.
Qed.
Lemma attach_sets l : forall acc, from_table acc -> NoDup (map ol_name acc ++ map os_name l) ->
  (forall s, In s l -> In (os_name s) (map fst t)) ->
  exists ops, foldM (attach_step [] (table attrs t)) l acc = Ok ops.
Proof.
  induction l as [|s l IH]; intros acc F N H; [exists acc; reflexivity|]. cbn [foldM].
  destruct (sget_table t (os_name s) (H s (or_introl eq_refl))) as [r [I [E S]]].
  assert (attach_step [] (table attrs t) acc s = Ok acc \/
          attach_step [] (table attrs t) acc s = Ok (acc ++ [OpLayers (os_name s) (map (key t) (snd r)) (sget (os_name s) attrs)])) as C.
  { unfold attach_step. cbn [sget]. unfold table. rewrite S. cbn [ol_layers ol_attr]. destruct (map (key t) (snd r)) as [|k ks] eqn:K; [left; reflexivity|]. right.
    rewrite <- K. rewrite validate_ok; [reflexivity| |].
    - cbn [app]. rewrite map_app. cbn [map ol_name]. cbn [map] in N. replace (os_name s :: map os_name l) with ([os_name s] ++ map os_name l) in N by reflexivity.
      rewrite app_assoc in N. exact (nodup_app_l _ _ N).
    - cbn [app]. apply from_table_kids.
      + intros o O. apply in_app_iff in O. destruct O as [O|[<-|[]]]; [exact (F o O)|]. exists r. auto.
      + rewrite map_app. cbn [map ol_name]. cbn [map] in N. replace (os_name s :: map os_name l) with ([os_name s] ++ map os_name l) in N by reflexivity.
        rewrite app_assoc in N. exact (nodup_app_l _ _ N). }
  destruct C as [C|C]; rewrite C; cbn [bind].
  - apply IH; [exact F| |intros x X; apply H; right; exact X]. cbn [map] in N. apply NoDup_remove_1 in N. exact N.
  - apply IH; [| |intros x X; apply H; right; exact X].
    + intros o O. apply in_app_iff in O. destruct O as [O|[<-|[]]]; [exact (F o O)|]. exists r. auto.
    + rewrite map_app. cbn [map ol_name]. rewrite <- app_assoc. exact N.
Qed.
Lemma foldM_total {A B} (f : B -> A -> result B) l : (forall b a, In a l -> exists c, f b a = Ok c) -> forall b, exists c, foldM f l b = Ok c.
Proof.
  induction l as [|a l IH]; intros H b; [exists b; reflexivity|]. cbn [foldM]. destruct (H b a (or_introl eq_refl)) as [c E]. rewrite E. cbn [bind].
  apply IH. intros b' a' I. apply H. right. exact I.
Qed.
Lemma attach_ok (p : tpc2) : NoDup (map os_name (or_old (t2_opsets p) [])) ->
  (forall s, In s (or_old (t2_opsets p) []) -> In (os_name s) (map fst t)) -> exists f, attach [] (table attrs t) p = Ok f.
Proof.
  intros N H. unfold attach. destruct (attach_sets (or_old (t2_opsets p) []) []) as [ops E]; [intros o []|exact N|exact H|].
  rewrite E. cbn [bind]. assert (exists d, options_mapping p ops = Ok d) as [d D].
  { unfold options_mapping. destruct (t2_opsets p) as [l|] eqn:L.
    - apply foldM_total. intros b o _. apply foldM_total. intros b' k _. unfold layer_options, options_of_opset. rewrite L. cbn [bind]. eexists. reflexivity.
    - cbn in E. injection E as <-. exists []. reflexivity. }
  rewrite D. cbn [bind]. eexists. reflexivity.
Qed.
Lemma table_get name o : sget name (table attrs t) = Some o -> exists r, In r t /\ fst r = name /\ ol_layers o = map (key t) (snd r) /\ ol_attr o = sget name attrs.
Proof.
  intro S. assert (In name (map fst t)) as I.
  { apply sget_in in S. unfold table in S. apply in_map_iff in S. destruct S as [r [E I]]. apply in_map_iff. exists r. split; [congruence|exact I]. }
  destruct (sget_table t name I) as [r [A [B C]]]. unfold table in S. rewrite C in S. injection S as <-. exists r. auto.
Qed.
Lemma entry_row p r o k q : In r t -> In o (snd r) -> kid k = kid (key t o) -> entry [] (table attrs t) p k q ->
  exists s, In s (or_old (t2_opsets p) []) /\ os_name s = fst r /\
    q = qco_map_keys (option_map (map (fun kv => (fst kv, dd_get (snd kv) k))) (sget (fst r) attrs)) (or_old (os_qco s) (t2_default p)).
Proof.
  intros I J K [s [x [Is [[G|[_ G]] [L Q]]]]]; [discriminate|]. destruct (table_get _ _ G) as [r' [I' [E' [L' A']]]].
  rewrite L' in L. apply in_map_iff in L. destruct L as [o' [<- J']].
  assert (r' = r) as -> by (apply (tag_row r' r o' o I' J' I J); apply (kid_tag r' r o' o); assumption).
  exists s. split; [exact Is|]. split; [congruence|]. rewrite Q, A', E'. reflexivity.
Qed.
Lemma row_entry p r o s : NoDup (map fst t) -> In r t -> In o (snd r) -> In s (or_old (t2_opsets p) []) -> os_name s = fst r ->
  entry [] (table attrs t) p (key t o)
    (qco_map_keys (option_map (map (fun kv => (fst kv, dd_get (snd kv) (key t o)))) (sget (fst r) attrs)) (or_old (os_qco s) (t2_default p))).
Proof.
  intros N I J Is E. destruct (sget_table t (fst r) (in_map fst _ _ I)) as [r' [A [B C]]].
  assert (r' = r) as ->.
  { clear - N I A B. induction t as [|x l IH]; [destruct I|]. cbn in N. inversion N as [|? ? N1 N2]; subst.
    destruct I as [->|I], A as [->|A]; [reflexivity| | |auto]; exfalso; apply N1; [rewrite <- B|rewrite B]; apply in_map; assumption. }
  exists s. eexists. split; [exact Is|]. split; [right; split; [reflexivity|]; rewrite E; exact C|]. cbn [ol_layers ol_attr]. split; [apply in_map, J|reflexivity].
Qed.
End T.
