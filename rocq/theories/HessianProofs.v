From Verif Require Import Base SearchProofs HessianModel.
Open Scope nat_scope.

(* ---- dictionaries ---- *)
Lemma dict_get_set {V} k (v : V) k' d : dict_get k' (dict_set k v d) = if Nat.eqb k' k then Some v else dict_get k' d.
Proof.
  induction d as [|[a b] d IH]; cbn; [reflexivity|]. destruct (Nat.eqb_spec k a) as [->|Hn]; cbn.
  - destruct (Nat.eqb_spec k' a); reflexivity.
  - destruct (Nat.eqb_spec k' a) as [->|]; [|exact IH]. destruct (Nat.eqb_spec a k); congruence.
Qed.
Lemma dict_set_keys {V} k (v : V) d k' : In k' (map fst (dict_set k v d)) <-> k' = k \/ In k' (map fst d).
Proof.
  induction d as [|[a b] d IH]; cbn; [intuition congruence|]. destruct (Nat.eqb_spec k a) as [->|Hn]; cbn; [intuition congruence|].
  rewrite IH. intuition congruence.
Qed.
Lemma dict_set_nodup {V} k (v : V) d : NoDup (map fst d) -> NoDup (map fst (dict_set k v d)).
Proof.
  induction d as [|[a b] d IH]; cbn; intro H; [repeat constructor; auto|]. inversion H; subst.
  destruct (Nat.eqb_spec k a) as [->|Hn]; cbn; [constructor; assumption|]. constructor; [|auto].
  rewrite dict_set_keys. intros [->|Hi]; [congruence|contradiction].
Qed.
Lemma dict_set_nonempty {V} k (v : V) d : dict_set k v d <> [].
Proof. destruct d as [|[a b] d]; cbn; [discriminate|]. destruct (Nat.eqb k a); discriminate. Qed.
Lemma dict_of_nodup_aux {V} (l : list (nat * V)) : forall d, NoDup (map fst d) ->
  NoDup (map fst (fold_left (fun d kv => dict_set (fst kv) (snd kv) d) l d)).
Proof. induction l as [|kv l IH]; intros d H; cbn; [exact H|]. apply IH. apply dict_set_nodup. exact H. Qed.
Lemma dict_of_nodup {V} (l : list (nat * V)) : NoDup (map fst (dict_of l)).
Proof. apply dict_of_nodup_aux. constructor. Qed.
(* the value is the last one given for the key *)
Lemma dict_of_aux {V} (l : list (nat * V)) : forall d k,
  dict_get k (fold_left (fun d kv => dict_set (fst kv) (snd kv) d) l d) =
  match find (fun kv => Nat.eqb k (fst kv)) (rev l) with Some kv => Some (snd kv) | None => dict_get k d end.
Proof.
  induction l as [|[a b] l IH] using rev_ind; intros d k; [reflexivity|]. rewrite fold_left_app, rev_app_distr. cbn.
  rewrite dict_get_set, IH. destruct (Nat.eqb k a); reflexivity.
Qed.
Lemma dict_of_get {V} (l : list (nat * V)) k :
  dict_get k (dict_of l) = match find (fun kv => Nat.eqb k (fst kv)) (rev l) with Some kv => Some (snd kv) | None => None end.
Proof. unfold dict_of. rewrite dict_of_aux. reflexivity. Qed.
Lemma dict_of_fun {V} (l : list (nat * V)) k v : (forall a b, In (k, a) l -> In (k, b) l -> a = b) -> In (k, v) l ->
  dict_get k (dict_of l) = Some v.
Proof.
  intros Hf Hi. rewrite dict_of_get. destruct (find _ (rev l)) as [[a b]|] eqn:E.
  - apply find_some in E. destruct E as [E1 E2]. apply Nat.eqb_eq in E2. cbn in *. subst a. apply in_rev in E1. f_equal. eauto.
  - exfalso. apply find_none with (x := (k, v)) in E; [|apply -> in_rev; exact Hi]. cbn in E. rewrite Nat.eqb_refl in E. discriminate.
Qed.
Lemma dict_of_in {V} (l : list (nat * V)) k v : dict_get k (dict_of l) = Some v -> In (k, v) l.
Proof.
  rewrite dict_of_get. destruct (find _ (rev l)) as [[a b]|] eqn:E; [|discriminate]. intro H. inversion H; subst.
  apply find_some in E. destruct E as [E1 E2]. apply Nat.eqb_eq in E2. cbn in *. subst. apply in_rev. exact E1.
Qed.
Lemma dict_of_some {V} (l : list (nat * V)) k : In k (map fst l) -> exists v, dict_get k (dict_of l) = Some v.
Proof.
  intro H. apply in_map_iff in H. destruct H as [[a b] [E Hi]]. cbn in E. subst a. rewrite dict_of_get.
  destruct (find _ (rev l)) as [[a c]|] eqn:E; [eauto|]. apply find_none with (x := (k, b)) in E; [|apply -> in_rev; exact Hi].
  cbn in E. rewrite Nat.eqb_refl in E. discriminate.
Qed.
Lemma dict_get_in {V} (d : list (nat * V)) k v : dict_get k d = Some v -> In (k, v) d.
Proof. induction d as [|[a b] d IH]; cbn; [discriminate|]. destruct (Nat.eqb_spec k a) as [->|]; [intro H; inversion H; auto|auto]. Qed.
Lemma dict_in_get {V} (d : list (nat * V)) k v : NoDup (map fst d) -> In (k, v) d -> dict_get k d = Some v.
Proof.
  induction d as [|[a b] d IH]; cbn; intros H Hi; [destruct Hi|]. inversion H; subst. destruct Hi as [E|Hi].
  - inversion E; subst. rewrite Nat.eqb_refl. reflexivity.
  - destruct (Nat.eqb_spec k a) as [->|]; [|auto]. exfalso. apply H2. apply in_map_iff. exists (a, v). auto.
Qed.
Lemma dict_get_key {V} (d : list (nat * V)) k : In k (map fst d) <-> exists v, dict_get k d = Some v.
Proof.
  induction d as [|[a b] d IH]; cbn; [split; [tauto|intros [v H]; discriminate]|]. destruct (Nat.eqb_spec k a) as [->|Hn].
  - split; eauto.
  - rewrite IH. split; [intros [H|H]; [congruence|exact H]|auto].
Qed.
Lemma dict_get_map {V W} (f : V -> W) (d : list (nat * V)) k :
  dict_get k (map (fun kv => (fst kv, f (snd kv))) d) = option_map f (dict_get k d).
Proof. induction d as [|[a b] d IH]; cbn; [reflexivity|]. destruct (Nat.eqb k a); [reflexivity|exact IH]. Qed.

Lemma list_min_nat_le l : forall m, list_min_nat l = Ok m -> forall x, In x l -> m <= x.
Proof.
  destruct l as [|a l]; cbn; [discriminate|]. intros m H. assert (m = fold_left Nat.min l a) as -> by congruence. clear H.
  assert (forall a, fold_left Nat.min l a <= a /\ forall x, In x l -> fold_left Nat.min l a <= x) as H.
  { clear. induction l as [|b l IH]; intros a; cbn; [split; [lia|tauto]|]. destruct (IH (Nat.min a b)) as [H1 H2].
    split; [lia|]. intros x [->|Hx]; [lia|auto]. }
  destruct (H a) as [H1 H2]. intros x [->|Hx]; auto.
Qed.
Lemma list_min_nat_ge l v : l <> [] -> (forall x, In x l -> v <= x) -> exists m, list_min_nat l = Ok m /\ v <= m.
Proof.
  destruct l as [|a l]; [tauto|]. intros _ H. eexists. split; [reflexivity|]. assert (v <= a) by (apply H; left; reflexivity).
  assert (forall x, In x l -> v <= x) as Hl by (intros; apply H; right; assumption). clear H. revert a H0.
  induction l as [|b l IH]; intros a Ha; cbn; [exact Ha|]. apply IH; [intros; apply Hl; right; assumption|].
  assert (v <= b) by (apply Hl; left; reflexivity). lia.
Qed.

Section Proofs.
Context {T B : Type}.
Variable calc : nat -> nat -> list hnode -> B -> list (list T).
Variable bsize : B -> nat.
Variable graph_nodes : list hnode.
Notation cache := (@cache T).
Notation request := (@request B).

Lemma query_eqb_spec p q : reflect (p = q) (query_eqb p q).
Proof.
  destruct p as [[a b] c], q as [[a' b'] c']. cbn. destruct (Nat.eqb_spec a a'), (Nat.eqb_spec b b'), (Nat.eqb_spec c c'); cbn; constructor; congruence.
Qed.

Definition old (c : cache) (q : query) : list T := match c q with Some h => h | None => [] end.
(* c extended by the scores of d for the queries of r *)
Definition ext (c : cache) (r : request) (d : list (nat * list T)) : cache := fun q =>
  if query_eqb q (query_of r (snd q))
  then match dict_get (snd q) d with Some v => Some (old c q ++ v) | None => c q end
  else c q.

Lemma query_of_snd r k : snd (query_of (B:=B) r k) = k.
Proof. reflexivity. Qed.

Lemma update_fold r : forall d c cnt, NoDup (map fst d) ->
  let st := fold_left (update_one r) d (c, cnt) in
  (forall q, fst st q = ext c r d q) /\ snd st = cnt ++ map (fun kv => length (old c (query_of r (fst kv)) ++ snd kv)) d.
Proof.
  induction d as [|[k v] d IH]; intros c cnt Hn; cbn [fold_left].
  - split; [|rewrite app_nil_r; reflexivity]. intro q. unfold ext. cbn. destruct (query_eqb _ _); reflexivity.
  - inversion Hn as [|? ? Hk Hd]; subst.
    assert (update_one r (c, cnt) (k, v) = (cache_set c (query_of r k) (old c (query_of r k) ++ v), cnt ++ [length (old c (query_of r k) ++ v)])) as ->.
    { unfold update_one, old. cbn. destruct (c (query_of r k)); reflexivity. }
    destruct (IH (cache_set c (query_of r k) (old c (query_of r k) ++ v)) (cnt ++ [length (old c (query_of r k) ++ v)]) Hd) as [H1 H2]. split.
    + intro q. rewrite H1. unfold ext. cbn [dict_get]. destruct (query_eqb_spec q (query_of r (snd q))) as [Eq|Hne].
      * destruct (Nat.eqb_spec (snd q) k) as [Ek|Hnk].
        -- destruct (dict_get (snd q) d) as [w|] eqn:E.
           ++ exfalso. apply Hk. rewrite <- Ek. apply (dict_get_key d). eauto.
           ++ unfold cache_set. rewrite Eq, Ek. destruct (query_eqb_spec (query_of r k) (query_of r k)); [reflexivity|congruence].
        -- assert (query_eqb q (query_of r k) = false) as Ef.
           { destruct (query_eqb_spec q (query_of r k)) as [->|]; [exfalso; apply Hnk; reflexivity|reflexivity]. }
           unfold old, cache_set. rewrite Ef. reflexivity.
      * unfold cache_set. destruct (query_eqb_spec q (query_of r k)) as [->|]; [exfalso; apply Hne; reflexivity|reflexivity].
    + rewrite H2, <- app_assoc. cbn [map app fst snd]. do 2 f_equal. apply map_ext_in. intros [k2 v2] Hi. cbn [fst snd].
      unfold old at 1, cache_set. destruct (query_eqb_spec (query_of r k2) (query_of r k)) as [E|]; [|reflexivity].
      exfalso. apply Hk. assert (k2 = k) as <- by (unfold query_of in E; congruence). apply in_map_iff. exists (k2, v2). auto.
Qed.

Definition prefix {A} (a b : option (list A)) : Prop :=
  match a with None => True | Some h => exists t, b = Some (h ++ t) end.
Lemma prefix_refl {A} (a : option (list A)) : prefix a a.
Proof. destruct a as [h|]; cbn; [exists []; rewrite app_nil_r; reflexivity|exact I]. Qed.
Lemma prefix_trans {A} (a b c : option (list A)) : prefix a b -> prefix b c -> prefix a c.
Proof. destruct a as [h|]; cbn; [|auto]. intros [t ->]. cbn. intros [u ->]. exists (t ++ u). rewrite app_assoc. reflexivity. Qed.
Lemma ext_prefix c r d q : prefix (c q) (ext c r d q).
Proof.
  unfold ext. destruct (query_eqb _ _); [|apply prefix_refl]. destruct (dict_get (snd q) d) as [v|]; [|apply prefix_refl].
  unfold old. destruct (c q) as [h|]; cbn; [eauto|exact I].
Qed.

Definition target (r : request) (q : query) : Prop := exists n, In n (rq_targets r) /\ q = query_of r (hn_name n).

Lemma same_names_key d r k : same_names (T:=T) d (rq_targets r) = true -> In k (map fst d) -> exists n, In n (rq_targets (B:=B) r) /\ hn_name n = k.
Proof.
  intros H Hk. apply andb_prop in H. destruct H as [H _]. rewrite forallb_forall in H. apply in_map_iff in Hk. destruct Hk as [kv [<- Hi]].
  specialize (H kv Hi). apply existsb_exists in H. destruct H as [n [Hn E]]. apply Nat.eqb_eq in E. eauto.
Qed.
Lemma same_names_target d r n : same_names (T:=T) d (rq_targets (B:=B) r) = true -> In n (rq_targets r) -> exists v, dict_get (hn_name n) d = Some v.
Proof.
  intros H Hk. apply andb_prop in H. destruct H as [_ H]. rewrite forallb_forall in H. specialize (H n Hk). apply existsb_exists in H.
  destruct H as [kv [Hkv E]]. apply Nat.eqb_eq in E. rewrite <- E. apply dict_get_key. apply in_map. exact Hkv.
Qed.

Lemma cache_update_spec c d r c' x : NoDup (map fst d) -> cache_update c d r = (c', x) ->
  (forall q, prefix (c q) (c' q)) /\ (forall q, target r q \/ c' q = c q) /\
  (forall m, x = Ok m -> (forall q, c' q = ext c r d q) /\ same_names d (rq_targets r) = true /\
     forall n, In n (rq_targets r) -> exists h, c' (query_of r (hn_name n)) = Some h /\ m <= length h).
Proof.
  intros Hn H. unfold cache_update in H. destruct (same_names d (rq_targets r)) eqn:Es.
  - destruct (update_fold r d c [] Hn) as [H1 H2]. cbn [app] in H2. inversion H; subst c' x. split; [|split].
    + intro q. rewrite H1. apply ext_prefix.
    + intro q. rewrite H1. unfold ext. destruct (query_eqb_spec q (query_of r (snd q))) as [E|]; [|auto].
      destruct (dict_get (snd q) d) as [v|] eqn:Eg; [|auto]. left. destruct (same_names_key d r (snd q) Es) as (n & Hi & Hk).
      { apply dict_get_key. eauto. }
      exists n. split; [exact Hi|]. rewrite Hk. exact E.
    + intros m Em. split; [exact H1|]. split; [reflexivity|]. intros n Hi. destruct (same_names_target d r n Es Hi) as [v Hv].
      rewrite H1. unfold ext. rewrite query_of_snd. destruct (query_eqb_spec (query_of r (hn_name n)) (query_of r (hn_name n))); [|congruence].
      rewrite Hv. eexists. split; [reflexivity|]. rewrite H2 in Em. eapply list_min_nat_le; [exact Em|].
      apply in_map_iff. exists (hn_name n, v). split; [reflexivity|]. apply dict_get_in. exact Hv.
  - inversion H; subst. split; [intro; apply prefix_refl|]. split; [auto|]. discriminate.
Qed.

Lemma compute_for_batch_nodup r b : NoDup (map fst (compute_for_batch calc r b)).
Proof. apply dict_of_nodup. Qed.

Lemma loop_spec by_cache r : forall bs c acc n c' x, compute_loop calc bsize by_cache r bs c acc n = (c', x) ->
  (forall q, prefix (c q) (c' q)) /\ (forall q, target r q \/ c' q = c q) /\
  (forall acc' n', x = Ok (acc', n') ->
     exists used rest, bs = used ++ rest /\ acc' = acc ++ map (compute_for_batch calc r) used /\
       (used <> [] -> by_cache = true -> forall t, In t (rq_targets r) -> exists h, c' (query_of r (hn_name t)) = Some h /\ n' <= length h) /\
       (used <> [] -> forall t, In t (rq_targets r) -> exists h, c' (query_of r (hn_name t)) = Some h) /\
       (used = [] -> n' = n) /\
       (forall q, c' q = fold_left (fun c b => ext c r (compute_for_batch calc r b)) used c q) /\
       (rest <> [] -> reached r n' = true)).
Proof.
  induction bs as [|b bs IH]; intros c acc n c' x H; cbn in H.
  - inversion H; subst. split; [intro; apply prefix_refl|]. split; [auto|]. intros acc' n' E. inversion E; subst. exists [], [].
    repeat split; try tauto. cbn. rewrite app_nil_r. reflexivity.
  - destruct (cache_update c (compute_for_batch calc r b) r) as [c1 [mc|e]] eqn:Eu.
    + pose proof (cache_update_spec _ _ _ _ _ (compute_for_batch_nodup r b) Eu) as (U1 & U2 & U3). specialize (U3 mc eq_refl). destruct U3 as (U3 & U4 & U5).
      destruct (reached r (if by_cache then mc else n + bsize b)) eqn:Er.
      * inversion H; subst. split; [exact U1|]. split; [exact U2|]. intros acc' n' E. inversion E; subst. exists [b], bs.
        split; [reflexivity|]. split; [reflexivity|]. split.
        { intros _ -> t Ht. apply U5. exact Ht. }
        split. { intros _ t Ht. destruct (U5 t Ht) as (h & Eh & _). eauto. }
        split; [discriminate|]. split; [exact U3|]. intros _. exact Er.
      * apply IH in H. destruct H as (H1 & H2 & H3). split; [intro q; eapply prefix_trans; [apply U1|apply H1]|]. split.
        { intro q. destruct (H2 q) as [|E]; [auto|]. destruct (U2 q) as [|E2]; [auto|]. right. congruence. }
        intros acc' n' E. destruct (H3 acc' n' E) as (used & rest & A & A2 & A3 & A3' & A4 & A5 & A6). exists (b :: used), rest.
        split; [cbn; congruence|]. split; [rewrite A2, <- app_assoc; reflexivity|]. split; [|split].
        { intros _ Hb t Ht. destruct used as [|b2 used]; [|apply A3; auto; discriminate].
          rewrite (A4 eq_refl), Hb. rewrite (A5 _). cbn. apply U5. exact Ht. }
        { intros _ t Ht. destruct (U5 t Ht) as (h & Eh & _). specialize (H1 (query_of r (hn_name t))). rewrite Eh in H1. destruct H1 as [u Eu2]. eauto. }
        split; [discriminate|]. split; [|exact A6].
        intro q. rewrite A5. cbn [fold_left]. clear - U3.
        revert q. generalize used as us. intro us. assert (forall c1 c2 : cache, (forall q, c1 q = c2 q) ->
           forall q, fold_left (fun c b0 => ext c r (compute_for_batch calc r b0)) us c1 q = fold_left (fun c b0 => ext c r (compute_for_batch calc r b0)) us c2 q) as G.
        { induction us as [|u us IH2]; intros c1' c2' E q; cbn; [apply E|]. apply IH2. intro q2. unfold ext, old. rewrite E. reflexivity. }
        apply G. exact U3.
    + inversion H; subst. pose proof (cache_update_spec _ _ _ _ _ (compute_for_batch_nodup r b) Eu) as (U1 & U2 & _).
      split; [exact U1|]. split; [exact U2|]. discriminate.
Qed.

Lemma compute_spec by_cache r c c' x : compute_hessians calc bsize by_cache r c = (c', x) ->
  (forall q, prefix (c q) (c' q)) /\ (forall q, target r q \/ c' q = c q) /\
  (forall res k, x = Ok res -> by_cache = true -> rq_n r = Some k -> rq_targets r <> [] ->
     forall t, In t (rq_targets r) -> exists h, c' (query_of r (hn_name t)) = Some h /\ k <= length h).
Proof.
  intro H. unfold compute_hessians in H.
  destruct (by_cache && match rq_n r with None => true | _ => false end).
  { inversion H; subst. split; [intro; apply prefix_refl|]. split; [auto|]. discriminate. }
  destruct (rq_loader r) as [bs|].
  2:{ inversion H; subst. split; [intro; apply prefix_refl|]. split; [auto|]. discriminate. }
  destruct (compute_loop calc bsize by_cache r bs c [] 0) as [c1 [[acc n]|e]] eqn:El; apply loop_spec in El; destruct El as (L1 & L2 & L3);
    inversion H; subst c1; (split; [exact L1|]); (split; [exact L2|]); [|discriminate].
  intros res k Ex Hb Hk Ht. subst x. destruct (L3 acc n eq_refl) as (used & rest & A1 & A2 & A3 & A3' & A4 & A5 & A6). cbn [app] in A2.
  rewrite Hk in Ex. destruct (concat_layers r acc) as [d|] eqn:Ec; [|discriminate]. cbn [bind] in Ex.
  assert (used <> []) as Hu.
  { intro Eu. rewrite Eu in A2. cbn in A2. subst acc. unfold concat_layers in Ec. destruct (rq_targets r) as [|t0 ts]; [tauto|].
    cbn in Ec. discriminate. }
  intros t Hit. destruct k as [|k]; [destruct (A3' Hu t Hit) as [h Eh]; exists h; split; [exact Eh|lia]|].
  destruct (Nat.ltb_spec n (S k)); [discriminate|]. destruct (A3 Hu Hb t Hit) as (h & Eh & Hl). exists h. split; [exact Eh|lia].
Qed.

(* ---- reading the cache ---- *)
Definition lacking (c : cache) (r : request) (k : nat) (t : hnode) : Prop :=
  match c (query_of r (hn_name t)) with None => True | Some h => length h < k end.

Lemma fetch_fold c r k : forall ts st,
  let st' := fold_left (fetch_one c r k) ts st in
  (forall nm, dict_get nm (fst st') =
     if existsb (fun t => Nat.eqb (hn_name t) nm) ts
     then match c (query_of r nm) with Some h => Some (firstn k h) | None => dict_get nm (fst st) end
     else dict_get nm (fst st)) /\
  (forall nm, (exists v, dict_get nm (snd st') = Some v) <->
     (exists t, In t ts /\ hn_name t = nm /\ lacking c r k t) \/ (exists v, dict_get nm (snd st) = Some v)) /\
  (snd st' = [] <-> (snd st = [] /\ forall t, In t ts -> ~ lacking c r k t)).
Proof.
  induction ts as [|t ts IH]; intros st; cbn [fold_left existsb].
  - split; [reflexivity|]. split; [|split; [intro H; split; [exact H|intros ? []]|tauto]].
    intro nm. split; [auto|]. intros [[t [[] _]]|H]; exact H.
  - destruct (IH (fetch_one c r k st t)) as (H1 & H2 & H3). split; [|split].
    + intro nm. rewrite H1. unfold fetch_one. destruct (Nat.eqb_spec (hn_name t) nm) as [E|Hne]; cbn [orb].
      * subst nm. destruct (c (query_of r (hn_name t))) as [h|]; cbn [fst]; [|destruct (existsb _ ts); reflexivity].
        rewrite dict_get_set, Nat.eqb_refl. destruct (existsb _ ts); reflexivity.
      * destruct (c (query_of r (hn_name t))) as [h|]; cbn [fst]; [|reflexivity].
        rewrite dict_get_set. destruct (Nat.eqb_spec nm (hn_name t)); [congruence|]. reflexivity.
    + intro nm. rewrite H2. clear H1 H2 H3 IH. split.
      * intros [(t' & Hi & E & Hl)|[v Hv]]; [left; exists t'; auto with datatypes|].
        assert ((nm = hn_name t /\ lacking c r k t) \/ exists v, dict_get nm (snd st) = Some v) as [[-> Hl]|Hx]; [|left; exists t; auto with datatypes|right; exact Hx].
        unfold fetch_one, lacking in *. destruct (c (query_of r (hn_name t))) as [h|]; cbn [snd] in Hv.
        -- destruct (Nat.ltb_spec (length h) k); [|eauto]. rewrite dict_get_set in Hv. destruct (Nat.eqb_spec nm (hn_name t)); [auto|eauto].
        -- rewrite dict_get_set in Hv. destruct (Nat.eqb_spec nm (hn_name t)); [auto|eauto].
      * intros [(t' & [<-|Hi] & E & Hl)|[v Hv]].
        -- right. unfold fetch_one, lacking in *. subst nm. destruct (c (query_of r (hn_name t))) as [h|]; cbn [snd].
           ++ destruct (Nat.ltb_spec (length h) k); [|lia]. rewrite dict_get_set, Nat.eqb_refl. eauto.
           ++ rewrite dict_get_set, Nat.eqb_refl. eauto.
        -- left. exists t'. auto.
        -- right. unfold fetch_one. destruct (c (query_of r (hn_name t))) as [h|]; cbn [snd].
           ++ destruct (Nat.ltb (length h) k); [|eauto]. rewrite dict_get_set. destruct (Nat.eqb nm (hn_name t)); eauto.
           ++ rewrite dict_get_set. destruct (Nat.eqb nm (hn_name t)); eauto.
    + rewrite H3. clear. unfold fetch_one, lacking at 2. split.
      * intros [E H]. destruct (c (query_of r (hn_name t))) as [h|] eqn:Ec; cbn [snd] in E.
        -- destruct (Nat.ltb_spec (length h) k); [exfalso; eapply dict_set_nonempty; exact E|]. split; [exact E|].
           intros t' [<-|Hi]; [rewrite Ec; lia|apply H; exact Hi].
        -- exfalso; eapply dict_set_nonempty; exact E.
      * intros [E H]. pose proof (H t (or_introl eq_refl)) as Ht. destruct (c (query_of r (hn_name t))) as [h|]; cbn [snd]; [|tauto].
        destruct (Nat.ltb_spec (length h) k); [lia|]. split; [exact E|]. intros t' Hi. apply H. right; exact Hi.
Qed.

Lemma cache_fetch_spec c r k res missing : cache_fetch c r k = (res, missing) ->
  (forall t, In t (rq_targets r) -> dict_get (hn_name t) res = option_map (firstn k) (c (query_of r (hn_name t)))) /\
  (forall nm, (exists v, dict_get nm missing = Some v) <-> exists t, In t (rq_targets r) /\ hn_name t = nm /\ lacking c r k t) /\
  (missing = [] <-> forall t, In t (rq_targets r) -> ~ lacking c r k t) /\
  (forall nm v, dict_get nm res = Some v -> exists t, In t (rq_targets r) /\ hn_name t = nm).
Proof.
  intro H. unfold cache_fetch in H. destruct (fetch_fold c r k (rq_targets r) ([], [])) as (H1 & H2 & H3). rewrite H in H1, H2, H3. cbn [fst snd] in *.
  split; [|split; [|split]].
  - intros t Ht. rewrite H1. assert (existsb (fun t0 => Nat.eqb (hn_name t0) (hn_name t)) (rq_targets r) = true) as ->.
    { apply existsb_exists. exists t. split; [exact Ht|apply Nat.eqb_refl]. }
    destruct (c (query_of r (hn_name t))); reflexivity.
  - intro nm. rewrite H2. split; [intros [H0|[v Hv]]; [exact H0|discriminate]|auto].
  - rewrite H3. tauto.
  - intros nm v Hv. rewrite H1 in Hv. destruct (existsb (fun t => Nat.eqb (hn_name t) nm) (rq_targets r)) eqn:E; [|discriminate].
    apply existsb_exists in E. destruct E as (t & Hi & E). apply Nat.eqb_eq in E. eauto.
Qed.

Lemma fetch_with_compute_spec r k c c' x : rq_n r = Some k -> fetch_with_compute calc bsize r k c = (c', x) ->
  (forall q, prefix (c q) (c' q)) /\ (forall q, target r q \/ c' q = c q) /\
  (forall q h, c q = Some h -> k <= length h -> c' q = c q) /\
  (forall res, x = Ok res -> forall t, In t (rq_targets r) ->
     exists h, c' (query_of r (hn_name t)) = Some h /\ k <= length h /\ dict_get (hn_name t) res = Some (firstn k h)).
Proof.
  intros Hk H. unfold fetch_with_compute in H. destruct (cache_fetch c r k) as [res missing] eqn:Ef.
  pose proof (cache_fetch_spec _ _ _ _ _ Ef) as (F1 & F2 & F3 & F4).
  assert (missing = [] -> (c', x) = (c, Ok res) ->
    (forall q, prefix (c q) (c' q)) /\ (forall q, target r q \/ c' q = c q) /\
    (forall q h, c q = Some h -> k <= length h -> c' q = c q) /\
    (forall res, x = Ok res -> forall t, In t (rq_targets r) ->
      exists h, c' (query_of r (hn_name t)) = Some h /\ k <= length h /\ dict_get (hn_name t) res = Some (firstn k h))) as Hbase.
  { intros Em E. inversion E; subst. split; [intro; apply prefix_refl|]. split; [auto|]. split; [auto|].
    intros res' E' t Ht. inversion E'; subst. pose proof (proj1 F3 eq_refl t Ht) as Hl. unfold lacking in Hl. rewrite (F1 t Ht).
    destruct (c (query_of r (hn_name t))) as [h|]; [|tauto]. exists h. split; [reflexivity|]. split; [lia|reflexivity]. }
  destruct missing as [|m0 ms].
  { apply Hbase; [reflexivity|]. congruence. }
  clear Hbase. set (missing := m0 :: ms) in *.
  destruct (rq_loader r) as [bs|] eqn:Elo.
  2:{ inversion H; subst. split; [intro; apply prefix_refl|]. split; [auto|]. split; [auto|]. discriminate. }
  set (r' := match res with [] => r | _ => with_targets r (filter (fun n => match dict_get (hn_name n) missing with Some _ => true | None => false end) (rq_targets r)) end) in *.
  assert (forall nm, query_of r' nm = query_of r nm) as Eq by (intro; subst r'; destruct res; reflexivity).
  assert (rq_n r' = Some k) as Hk' by (subst r'; destruct res; exact Hk).
  assert (forall t, In t (rq_targets r') -> In t (rq_targets r)) as Hsub.
  { intros t. subst r'. destruct res; [auto|]. cbn. rewrite filter_In. tauto. }
  assert (forall t, In t (rq_targets r) -> lacking c r k t -> In t (rq_targets r')) as Hmiss.
  { intros t Ht Hl. subst r'. destruct res; [exact Ht|]. cbn [with_targets rq_targets]. apply filter_In. split; [exact Ht|].
    destruct (proj2 (F2 (hn_name t))) as [v ->]; [exists t; auto|reflexivity]. }
  assert (forall t h, In t (rq_targets r') -> c (query_of r (hn_name t)) = Some h -> length h < k) as Hlack.
  { intros t h Ht Ec. subst r'. destruct res as [|r0 rs].
    - exfalso. specialize (F1 t Ht). rewrite Ec in F1. discriminate.
    - cbn [with_targets rq_targets] in Ht. apply filter_In in Ht. destruct Ht as [Ht Hg]. destruct (dict_get (hn_name t) missing) as [v|] eqn:Eg; [|discriminate].
      destruct (proj1 (F2 (hn_name t)) (ex_intro _ v Eg)) as (t' & Hi & En & Hl). unfold lacking in Hl. rewrite En, Ec in Hl. exact Hl. }
  assert (rq_targets r' <> []) as Hne.
  { assert (exists v, dict_get (fst m0) missing = Some v) as Hm.
    { subst missing. destruct m0 as [a b]. cbn. rewrite Nat.eqb_refl. eauto. }
    apply (F2 (fst m0)) in Hm. destruct Hm as (t & Ht & _ & Hl). specialize (Hmiss t Ht Hl). intro E. rewrite E in Hmiss. destruct Hmiss. }
  change (match compute_hessians calc bsize true r' c with
          | (c', Err e) => (c', Err e)
          | (c', Ok _) => let '(res', missing') := cache_fetch c' r k in (c', match missing' with [] => Ok res' | _ => Err E_assert end)
          end = (c', x)) in H.
  destruct (compute_hessians calc bsize true r' c) as [c1 [d|e]] eqn:Ec.
  - pose proof (compute_spec _ _ _ _ _ Ec) as (C1 & C2 & C3).
    destruct (cache_fetch c1 r k) as [res' missing'] eqn:Ef'. inversion H; subst c1.
    pose proof (cache_fetch_spec _ _ _ _ _ Ef') as (G1 & G2 & G3 & G4).
    split; [exact C1|]. split.
    { intro q. destruct (C2 q) as [(t & Ht & E)|E]; [|auto]. left. exists t. split; [apply Hsub; exact Ht|]. rewrite <- Eq. exact E. }
    split.
    { intros q h Eh Hl. destruct (C2 q) as [(t & Ht & E)|E]; [|auto]. exfalso. rewrite Eq in E. subst q. specialize (Hlack t h Ht Eh). lia. }
    intros res2 Ex t Ht. subst x. destruct missing' as [|? ?]; [|discriminate]. inversion Ex; subst res2.
    pose proof (proj1 G3 eq_refl t Ht) as Hl. unfold lacking in Hl. rewrite (G1 t Ht). destruct (c' (query_of r (hn_name t))) as [h|]; [|tauto].
    exists h. split; [reflexivity|]. split; [lia|reflexivity].
  - pose proof (compute_spec _ _ _ _ _ Ec) as (C1 & C2 & C3). inversion H; subst c1 x. split; [exact C1|]. split.
    { intro q. destruct (C2 q) as [(t & Ht & E)|E]; [|auto]. left. exists t. split; [apply Hsub; exact Ht|]. rewrite <- Eq. exact E. }
    split; [|discriminate].
    intros q h Eh Hl. destruct (C2 q) as [(t & Ht & E)|E]; [|auto]. exfalso. rewrite Eq in E. subst q. specialize (Hlack t h Ht Eh). lia.
Qed.

(* the final assertion never fires *)
Definition narrowed (r : request) (res : list (nat * list T)) (missing : list (nat * nat)) : request :=
  match res with [] => r | _ => with_targets r (filter (fun n => match dict_get (hn_name n) missing with Some _ => true | None => false end) (rq_targets r)) end.
Lemma fetch_with_compute_assert r k c c' d res missing : rq_n r = Some k -> cache_fetch c r k = (res, missing) -> missing <> [] ->
  compute_hessians calc bsize true (narrowed r res missing) c = (c', Ok d) ->
  snd (cache_fetch c' r k) = [].
Proof.
  intros Hk Ef Hm Ec. unfold narrowed in Ec. pose proof (cache_fetch_spec _ _ _ _ _ Ef) as (F1 & F2 & F3 & F4).
  set (r' := match res with [] => r | _ => with_targets r (filter (fun n => match dict_get (hn_name n) missing with Some _ => true | None => false end) (rq_targets r)) end) in *.
  assert (forall nm, query_of r' nm = query_of r nm) as Eq by (intro; subst r'; destruct res; reflexivity).
  assert (rq_n r' = Some k) as Hk' by (subst r'; destruct res; exact Hk).
  assert (forall t, In t (rq_targets r) -> lacking c r k t -> In t (rq_targets r')) as Hmiss.
  { intros t Ht Hl. subst r'. destruct res; [exact Ht|]. cbn [with_targets rq_targets]. apply filter_In. split; [exact Ht|].
    destruct (proj2 (F2 (hn_name t))) as [v ->]; [exists t; auto|reflexivity]. }
  pose proof (compute_spec _ _ _ _ _ Ec) as (C1 & C2 & C3).
  destruct (cache_fetch c' r k) as [res' missing'] eqn:Ef'. pose proof (cache_fetch_spec _ _ _ _ _ Ef') as (_ & _ & G3 & _). cbn [snd]. apply G3.
  intros t Ht Hl. unfold lacking in Hl.
  assert (lacking c r k t \/ ~ lacking c r k t) as [HL|HL].
  { unfold lacking. destruct (c (query_of r (hn_name t))); [destruct (Nat.lt_ge_cases (length l) k); [auto|right; lia]|auto]. }
  - specialize (Hmiss t Ht HL). assert (rq_targets r' <> []) as Hne by (intro E; rewrite E in Hmiss; destruct Hmiss).
    destruct (C3 d k eq_refl eq_refl Hk' Hne t Hmiss) as (h & Eh & Hle). rewrite Eq in Eh. rewrite Eh in Hl. lia.
  - unfold lacking in HL. destruct (c (query_of r (hn_name t))) as [h|] eqn:Ech; [|tauto]. specialize (C1 (query_of r (hn_name t))). rewrite Ech in C1.
    destruct C1 as [u Eu]. rewrite Eu in Hl. rewrite app_length in Hl. lia.
Qed.

(* ---- the public entry point ---- *)
Definition named (ts : list hnode) : Prop := forall n m, In n ts -> In m ts -> hn_name n = hn_name m -> n = m.
Notation primary := (primary graph_nodes).
Notation fetch := (fetch_hessian calc bsize graph_nodes).

Lemma in_combine_Forall2 {A C} (R : A -> C -> Prop) l m : Forall2 R l m -> forall a b, In (a, b) (combine l m) -> R a b /\ In a l.
Proof. induction 1; cbn; [tauto|]. intros a b [E|Hi]; [inversion E; subst; auto|]. destruct (IHForall2 a b Hi). auto. Qed.
Lemma Forall2_in_combine {A C} (R : A -> C -> Prop) l m : Forall2 R l m -> forall a, In a l -> exists b, In (a, b) (combine l m) /\ R a b.
Proof.
  induction 1; cbn; [tauto|]. intros a [->|Hi]; [eauto|]. destruct (IHForall2 a Hi) as (b & H1 & H2). eauto.
Qed.

Lemma restore_spec ts prim res d : Forall2 (fun n p => primary n = Ok p) ts prim -> restore (T:=T) ts prim res = Ok d -> named ts ->
  forall n, In n ts -> exists p v, primary n = Ok p /\ dict_get (hn_name p) res = Some v /\ dict_get (hn_name n) d = Some v.
Proof.
  intros F H Hn n Hin. unfold restore in H. destruct (mapM _ (combine ts prim)) as [l|] eqn:E; [|discriminate]. cbn in H.
  assert (d = dict_of l) as -> by congruence. apply mapM_Forall2 in E.
  destruct (Forall2_in_combine _ _ _ F n Hin) as (p & Hc & Hp).
  destruct (Forall2_in_combine _ _ _ E (n, p) Hc) as ([k v] & Hc2 & Hv). cbn in Hv.
  destruct (dict_get (hn_name p) res) as [w|] eqn:Eg; [|discriminate]. cbn in Hv. inversion Hv; subst k w.
  exists p, v. split; [exact Hp|]. split; [exact Eg|]. apply dict_of_fun.
  - intros a b Ha Hb.
    assert (forall a, In (hn_name n, a) l -> a = v) as G; [|rewrite (G a Ha), (G b Hb); reflexivity].
    intros a0 Ha0. apply in_split in Ha0. destruct Ha0 as (l1 & l2 & El).
    rewrite El in E. apply Forall2_app_inv_r in E. destruct E as (m1 & m2 & F1 & F2 & Em). inversion F2 as [|[n' p'] ? m2' ? Hb2 F3]; subst. cbn in Hb2.
    assert (In (n', p') (combine ts prim)) as Hi2 by (rewrite Em; apply in_or_app; right; left; reflexivity).
    destruct (in_combine_Forall2 _ _ _ F n' p' Hi2) as [Hp' Hin'].
    destruct (dict_get (hn_name p') res) as [w|] eqn:Eg2; [|discriminate]. cbn in Hb2. inversion Hb2; subst.
    assert (n' = n) as -> by (apply Hn; auto). assert (p' = p) as -> by congruence. congruence.
  - clear - Hc2. revert Hc2. generalize (combine ts prim) as a. intros a. revert l. induction a as [|x a IH]; intros [|y l]; cbn; try tauto.
    intros [H|H]; [inversion H; auto|]. right. apply IH. exact H.
Qed.

Lemma fetch_monotone r force c c' x : fetch r force c = (c', x) -> forall q, prefix (c q) (c' q).
Proof.
  intro H. unfold fetch_hessian in H.
  assert (forall q, prefix (c q) (c q)) as Hrefl by (intro; apply prefix_refl).
  assert ((match mapM primary (rq_targets r) with
      | Err e => (c, Err e)
      | Ok prim =>
          let r' := with_targets r prim in
          match (if force then compute_hessians calc bsize false r' c
                 else match rq_n r with Some k => fetch_with_compute calc bsize r' k c | None => (c, Err E_critical) end) with
          | (c', Err e) => (c', Err e)
          | (c', Ok res) => (c', restore (rq_targets r) prim res)
          end
      end) = (c', x) -> forall q, prefix (c q) (c' q)) as G.
  { clear H. destruct (mapM primary (rq_targets r)) as [prim|e]; [|intro H; inversion H; subst; exact Hrefl]. cbv zeta. destruct force.
    - destruct (compute_hessians calc bsize false (with_targets r prim) c) as [c1 y] eqn:E. pose proof (compute_spec _ _ _ _ _ E) as (C1 & _).
      intro H. destruct y; inversion H; subst; exact C1.
    - destruct (rq_n r) as [k|] eqn:Ek; [|intro H; inversion H; subst; exact Hrefl].
      destruct (fetch_with_compute calc bsize (with_targets r prim) k c) as [c1 y] eqn:E.
      pose proof (fetch_with_compute_spec (with_targets r prim) k c c1 y Ek E) as (C1 & _). intro H. destruct y; inversion H; subst; exact C1. }
  destruct (rq_n r) as [k|]; [apply G; exact H|]. destruct force; [apply G; exact H|]. inversion H; subst; exact Hrefl.
Qed.

Lemma fetch_spec r k c c' x : rq_n r = Some k -> fetch r false c = (c', x) ->
  (forall q h, c q = Some h -> k <= length h -> c' q = c q) /\
  (forall res, x = Ok res -> named (rq_targets r) -> forall n, In n (rq_targets r) ->
     exists p h, primary n = Ok p /\ c' (query_of r (hn_name p)) = Some h /\ k <= length h /\ dict_get (hn_name n) res = Some (firstn k h)).
Proof.
  intros Hk H. unfold fetch_hessian in H. rewrite Hk in H.
  destruct (mapM primary (rq_targets r)) as [prim|e] eqn:Ep; [|inversion H; subst; split; [auto|discriminate]].
  cbv zeta in H. destruct (fetch_with_compute calc bsize (with_targets r prim) k c) as [c1 y] eqn:E.
  pose proof (fetch_with_compute_spec (with_targets r prim) k c c1 y Hk E) as (_ & _ & C3 & C4). apply mapM_Forall2 in Ep. destruct y as [res|e].
  - inversion H; subst c1 x. split; [exact C3|]. intros d Hr Hn n Hin.
    destruct (restore_spec _ _ _ _ Ep Hr Hn n Hin) as (p & v & Hp & Hv & Hd). exists p.
    assert (In p prim) as Hip.
    { clear - Ep Hin Hp. induction Ep as [|a b l m Ha F IH]; [destruct Hin|]. destruct Hin as [->|Hin]; [left; congruence|right; auto]. }
    destruct (C4 res eq_refl p Hip) as (h & Eh & Hl & Eg). exists h. split; [exact Hp|]. split; [exact Eh|]. split; [exact Hl|].
    cbn in Eg. congruence.
  - inversion H; subst. split; [exact C3|discriminate].
Qed.

Lemma serve_all_monotone rs : forall c q, prefix (c q) (serve_all calc bsize graph_nodes rs c q).
Proof.
  induction rs as [|[r f] rs IH]; intros c q; cbn; [apply prefix_refl|]. eapply prefix_trans; [|apply IH].
  unfold serve. cbn. destruct (fetch r f c) as [c' x] eqn:E. exact (fetch_monotone _ _ _ _ _ E q).
Qed.

Lemma firstn_prefix {A} k k' (h t : list A) : k <= k' -> k <= length h -> firstn k (firstn k' (h ++ t)) = firstn k h.
Proof. intros. rewrite firstn_firstn, Nat.min_l by assumption. rewrite firstn_app. replace (k - length h) with 0 by lia. cbn. apply app_nil_r. Qed.

Lemma stable_lem : forall r1 r2 k1 k2 c c1 c2 res1 res2 rs n,
  rq_n r1 = Some k1 -> rq_n r2 = Some k2 -> k1 <= k2 -> rq_mode r1 = rq_mode r2 -> rq_gran r1 = rq_gran r2 ->
  named (rq_targets r1) -> named (rq_targets r2) -> In n (rq_targets r1) -> In n (rq_targets r2) ->
  fetch r1 false c = (c1, Ok res1) -> fetch r2 false (serve_all calc bsize graph_nodes rs c1) = (c2, Ok res2) ->
  exists v1 v2, dict_get (hn_name n) res1 = Some v1 /\ dict_get (hn_name n) res2 = Some v2 /\ firstn k1 v2 = v1.
Proof.
  intros r1 r2 k1 k2 c c1 c2 res1 res2 rs n K1 K2 Hk Em Eg N1 N2 I1 I2 F1 F2.
  destruct (fetch_spec _ _ _ _ _ K1 F1) as [_ S1]. destruct (fetch_spec _ _ _ _ _ K2 F2) as [_ S2].
  destruct (S1 res1 eq_refl N1 n I1) as (p & h1 & P1 & H1 & L1 & D1). destruct (S2 res2 eq_refl N2 n I2) as (p' & h2 & P2 & H2 & L2 & D2).
  assert (p' = p) as -> by congruence. exists (firstn k1 h1), (firstn k2 h2). split; [exact D1|]. split; [exact D2|].
  assert (query_of r1 (hn_name p) = query_of r2 (hn_name p)) as Eq by (unfold query_of; congruence).
  pose proof (serve_all_monotone rs c1 (query_of r2 (hn_name p))) as M1. pose proof (fetch_monotone _ _ _ _ _ F2 (query_of r2 (hn_name p))) as M2.
  pose proof (prefix_trans _ _ _ M1 M2) as M. rewrite <- Eq in M at 1. rewrite H1, H2 in M. destruct M as [t Et]. inversion Et; subst h2.
  apply firstn_prefix; assumption.
Qed.

Lemma no_recompute_lem : forall (calc' : nat -> nat -> list hnode -> B -> list (list T)) bsize' (r : request) k (c : cache) loader, rq_n r = Some k ->
  Forall (fun n => exists p h, primary n = Ok p /\ c (query_of r (hn_name p)) = Some h /\ k <= length h) (rq_targets r) ->
  exists res, fetch_hessian calc' bsize' graph_nodes
      {| rq_mode := rq_mode r; rq_gran := rq_gran r; rq_targets := rq_targets r; rq_loader := loader; rq_n := Some k; rq_from_tensors := rq_from_tensors r |}
      false c = (c, Ok res).
Proof.
  intros calc' bsize' r k c loader Hk F.
  set (r2 := {| rq_mode := rq_mode r; rq_gran := rq_gran r; rq_targets := rq_targets r; rq_loader := loader; rq_n := Some k; rq_from_tensors := rq_from_tensors r |}).
  unfold fetch_hessian. cbn [rq_n r2]. 
  assert (exists prim, mapM primary (rq_targets r2) = Ok prim /\ Forall2 (fun n p => primary n = Ok p) (rq_targets r) prim) as (prim & Ep & Fp).
  { edestruct (mapM_total primary (rq_targets r)) as [prim [E _]].
    - intros n Hn. rewrite Forall_forall in F. destruct (F n Hn) as (p & h & Hp & _). eauto.
    - exists prim. split; [exact E|]. apply mapM_Forall2. exact E. }
  rewrite Ep. cbv zeta. unfold fetch_with_compute. destruct (cache_fetch c (with_targets r2 prim) k) as [res missing] eqn:Ef.
  pose proof (cache_fetch_spec _ _ _ _ _ Ef) as (F1 & F2 & F3 & F4).
  assert (forall p, In p prim -> exists h, c (query_of r (hn_name p)) = Some h /\ k <= length h) as Hprim.
  { intros p Hp. clear - F Fp Hp. revert Hp. induction Fp as [|a b l m Ha Fp IH]; [intros []|]. inversion F as [|? ? Hh Ft]; subst. intros [<-|Hp].
    - destruct Hh as (p' & h & E1 & E2 & E3). assert (p' = b) as -> by congruence. eauto.
    - apply IH; assumption. }
  assert (missing = []) as ->.
  { apply F3. intros p Hp Hl. destruct (Hprim p Hp) as (h & Eh & Hle). unfold lacking in Hl. change (query_of (with_targets r2 prim) (hn_name p)) with (query_of r (hn_name p)) in Hl.
    rewrite Eh in Hl. lia. }
  unfold restore. edestruct (mapM_total (fun p0 => let! v := from_opt (dict_get (hn_name (snd p0)) res) in Ok (hn_name (fst p0), v)) (combine (rq_targets r2) prim)) as [l [El _]].
  - intros [n p] Hi. cbn. apply in_combine_r in Hi. rewrite (F1 p Hi). change (query_of (with_targets r2 prim) (hn_name p)) with (query_of r (hn_name p)).
    destruct (Hprim p Hi) as (h & -> & _). cbn. eauto.
  - rewrite El. cbn. eauto.
Qed.

(* ---- no internal assertion fires, and enough data suffices ---- *)
Lemma calc_same_names r b : length (rq_targets r) <= length (calc (rq_mode r) (rq_gran r) (rq_targets r) b) ->
  same_names (compute_for_batch calc r b) (rq_targets r) = true.
Proof.
  intro Hc. unfold same_names. apply andb_true_iff. split; apply forallb_forall.
  - intros [k v] Hi. assert (In k (map fst (compute_for_batch calc r b))) as Hk by (apply in_map_iff; exists (k, v); auto).
    apply dict_get_key in Hk. destruct Hk as [w Hw]. apply dict_of_in in Hw. apply in_combine_l in Hw. apply in_map_iff in Hw. destruct Hw as (n & En & Hn).
    apply existsb_exists. exists n. split; [exact Hn|]. cbn. apply Nat.eqb_eq. congruence.
  - intros n Hn. assert (In (hn_name n) (map fst (compute_for_batch calc r b))) as Hk.
    { apply dict_get_key. apply dict_of_some. assert (length (map hn_name (rq_targets r)) <= length (calc (rq_mode r) (rq_gran r) (rq_targets r) b)) as Hl by (rewrite map_length; exact Hc).
      revert Hl. apply (in_map hn_name) in Hn. revert Hn. generalize (map hn_name (rq_targets r)) as ks, (calc (rq_mode r) (rq_gran r) (rq_targets r) b) as vs.
      induction ks as [|k ks IH]; intros vs Hi Hl; [destruct Hi|]. destruct vs as [|v vs]; cbn in Hl; [lia|]. destruct Hi as [->|Hi]; [left; reflexivity|right; apply IH; [exact Hi|lia]]. }
    apply in_map_iff in Hk. destruct Hk as (kv & E & Hi). apply existsb_exists. exists kv. split; [exact Hi|]. apply Nat.eqb_eq. exact E.
Qed.

Definition calc_complete : Prop := forall m g ts b, length ts <= length (calc m g ts b).

Lemma loop_no_assert by_cache r : calc_complete -> forall bs c acc n c' e, compute_loop calc bsize by_cache r bs c acc n = (c', Err e) -> e <> E_assert.
Proof.
  intros Hc. induction bs as [|b bs IH]; intros c acc n c' e H; cbn in H; [discriminate|]. unfold cache_update in H.
  rewrite calc_same_names in H by apply Hc.
  destruct (list_min_nat _) as [m|e'] eqn:El.
  - destruct (reached r _); [discriminate|]. eapply IH. exact H.
  - inversion H; subst. unfold list_min_nat in El. destruct (snd _); [|discriminate]. inversion El; subst. discriminate.
Qed.
Lemma mapM_err {A C} (f : A -> result C) e l : mapM f l = Err e -> exists x, In x l /\ f x = Err e.
Proof.
  induction l as [|x l IH]; cbn; [discriminate|]. destruct (f x) as [y|e'] eqn:E; cbn.
  - destruct (mapM f l); cbn; [discriminate|]. intro H. inversion H; subst. destruct (IH eq_refl) as (z & Hz & Ez). eauto.
  - intro H. inversion H; subst. eauto.
Qed.
Lemma from_opt_err {V} (o : option V) e : from_opt o = Err e -> e = E_key.
Proof. destruct o; cbn; [discriminate|congruence]. Qed.
Lemma concat_layers_err r acc e : concat_layers (T:=T) (B:=B) r acc = Err e -> e = E_key \/ e = E_value.
Proof.
  unfold concat_layers. destruct (mapM _ (rq_targets r)) as [l|e'] eqn:E; cbn; [discriminate|]. intro H. inversion H; subst.
  apply mapM_err in E. destruct E as (t & _ & E). destruct (mapM _ acc) as [ps|e2] eqn:E2; cbn in E.
  - destruct ps; [inversion E; auto|discriminate].
  - inversion E; subst. apply mapM_err in E2. destruct E2 as (d & _ & E2). apply from_opt_err in E2. auto.
Qed.
Lemma compute_no_assert by_cache r c c' e : calc_complete -> (by_cache = true -> rq_n r <> None) ->
  compute_hessians calc bsize by_cache r c = (c', Err e) -> e <> E_assert.
Proof.
  intros Hc Hb H. unfold compute_hessians in H.
  assert (by_cache && match rq_n r with None => true | _ => false end = false) as E0.
  { destruct by_cache; [|reflexivity]. destruct (rq_n r); [reflexivity|]. exfalso. apply (Hb eq_refl). reflexivity. }
  rewrite E0 in H. destruct (rq_loader r) as [bs|]; [|inversion H; subst; discriminate].
  destruct (compute_loop calc bsize by_cache r bs c [] 0) as [c1 [[acc n]|e1]] eqn:El.
  - inversion H; subst. destruct (concat_layers r acc) as [d|e2] eqn:Ec; cbn [bind] in H2.
    + destruct (rq_n r) as [[|k]|]; try discriminate. destruct (Nat.ltb n (S k)); [inversion H2; subst; discriminate|]. destruct (Nat.ltb (S k) n); discriminate.
    + inversion H2; subst. apply concat_layers_err in Ec. destruct Ec as [-> | ->]; discriminate.
  - inversion H; subst. eapply loop_no_assert; eassumption.
Qed.

Lemma no_assert_lem : forall r force c c' e, calc_complete ->
  Forall (fun n => exists p, primary n = Ok p) (rq_targets r) ->
  fetch r force c = (c', Err e) -> e <> E_assert.
Proof.
  intros r force c c' e Hc Hp H. unfold fetch_hessian in H.
  edestruct (mapM_total primary (rq_targets r)) as [prim [Ep _]].
  { intros n Hn. rewrite Forall_forall in Hp. exact (Hp n Hn). }
  rewrite Ep in H. cbv zeta in H. pose proof Ep as Fp. apply mapM_Forall2 in Fp.
  assert (forall res e2, restore (T:=T) (rq_targets r) prim res = Err e2 -> e2 <> E_assert) as Hres.
  { intros res e2 Hr. unfold restore in Hr. destruct (mapM _ (combine (rq_targets r) prim)) as [l|e3] eqn:E; cbn in Hr; [discriminate|]. inversion Hr; subst.
    apply mapM_err in E. destruct E as (x & _ & E). destruct (dict_get _ res) in E; cbn in E; [discriminate|]. inversion E; subst. discriminate. }
  destruct force.
  - assert ((match compute_hessians calc bsize false (with_targets r prim) c with
          | (c', Err e) => (c', Err e) | (c', Ok res) => (c', restore (rq_targets r) prim res) end) = (c', Err e)) as H' by (destruct (rq_n r); exact H).
    destruct (compute_hessians calc bsize false (with_targets r prim) c) as [c1 [res|e1]] eqn:E; inversion H'; subst; [eapply Hres; eassumption|].
    eapply compute_no_assert; [exact Hc| |exact E]. discriminate.
  - destruct (rq_n r) as [k|] eqn:Ek; [|inversion H; subst; discriminate].
    destruct (fetch_with_compute calc bsize (with_targets r prim) k c) as [c1 [res|e1]] eqn:E; inversion H; subst; [eapply Hres; eassumption|].
    unfold fetch_with_compute in E. destruct (cache_fetch c (with_targets r prim) k) as [res missing] eqn:Ef.
    destruct missing as [|m0 ms]; [discriminate|]. destruct (rq_loader (with_targets r prim)); [|inversion E; subst; discriminate].
    fold (narrowed (with_targets r prim) res (m0 :: ms)) in E.
    destruct (compute_hessians calc bsize true (narrowed (with_targets r prim) res (m0 :: ms)) c) as [c2 [d|e2]] eqn:Ec.
    + assert (m0 :: ms <> []) as Hm by discriminate. pose proof (fetch_with_compute_assert (with_targets r prim) k c c2 d res (m0 :: ms) Ek Ef Hm Ec) as A.
      destruct (cache_fetch c2 (with_targets r prim) k) as [res' missing']. cbn in A. subst missing'. discriminate.
    + inversion E; subst. eapply compute_no_assert; [exact Hc| |exact Ec]. intros _. unfold narrowed. destruct res; cbn; rewrite Ek; discriminate.
Qed.

Definition total_size (bs : list B) : nat := fold_right (fun b s => bsize b + s) 0 bs.
(* the calculator returns, for every target, one score per sample *)
Definition calc_per_sample : Prop := forall m g ts b, length (calc m g ts b) = length ts /\ Forall (fun h => length h = bsize b) (calc m g ts b).

Lemma batch_entry r b n : calc_per_sample -> In n (rq_targets r) -> exists v, dict_get (hn_name n) (compute_for_batch calc r b) = Some v /\ length v = bsize b.
Proof.
  intros Hc Hn. destruct (Hc (rq_mode r) (rq_gran r) (rq_targets r) b) as [L F].
  destruct (same_names_target (compute_for_batch calc r b) r n) as [v Hv]; [apply calc_same_names; lia|exact Hn|].
  exists v. split; [exact Hv|]. apply dict_of_in in Hv. apply in_combine_r in Hv. rewrite Forall_forall in F. apply F. exact Hv.
Qed.
Lemma ext_target c r d n v : dict_get (hn_name n) d = Some v -> ext c r d (query_of (B:=B) r (hn_name n)) = Some (old c (query_of r (hn_name n)) ++ v).
Proof. intro H. unfold ext. rewrite query_of_snd. destruct (query_eqb_spec (query_of r (hn_name n)) (query_of r (hn_name n))); [|congruence]. rewrite H. reflexivity. Qed.

Lemma loop_total r : calc_per_sample -> rq_targets r <> [] -> forall bs c acc n s,
  (forall t, In t (rq_targets r) -> s <= length (old c (query_of r (hn_name t)))) ->
  exists c' acc' n', compute_loop calc bsize true r bs c acc n = (c', Ok (acc', n')) /\
    (reached r n' = true \/ bs = [] \/ s + total_size bs <= n').
Proof.
  intros Hc Ht. induction bs as [|b bs IH]; intros c acc n s Hs; cbn [compute_loop].
  - exists c, acc, n. auto.
  - unfold cache_update. rewrite calc_same_names by (destruct (Hc (rq_mode r) (rq_gran r) (rq_targets r) b); lia).
    destruct (update_fold r (compute_for_batch calc r b) c [] (compute_for_batch_nodup r b)) as [U1 U2]. cbn [app] in U2.
    rewrite U2.
    assert (compute_for_batch calc r b <> []) as Hne.
    { destruct (rq_targets r) as [|t0 ts] eqn:E; [tauto|]. destruct (batch_entry r b t0 Hc) as (v & Hv & _); [rewrite E; left; reflexivity|].
      intro E2. rewrite E2 in Hv. discriminate. }
    destruct (list_min_nat_ge (map (fun kv => length (old c (query_of r (fst kv)) ++ snd kv)) (compute_for_batch calc r b)) (s + bsize b)) as (m & Em & Hm).
    + intro E. apply map_eq_nil in E. contradiction.
    + intros x Hx. apply in_map_iff in Hx. destruct Hx as ([k v] & <- & Hi). cbn [fst snd].
      assert (dict_get k (compute_for_batch calc r b) = Some v) as Hg by (apply dict_in_get; [apply compute_for_batch_nodup|exact Hi]).
      destruct (same_names_key (compute_for_batch calc r b) r k) as (t & Hti & Ek).
      { apply calc_same_names. destruct (Hc (rq_mode r) (rq_gran r) (rq_targets r) b); lia. }
      { apply dict_get_key. eauto. }
      destruct (batch_entry r b t Hc Hti) as (v' & Hv' & Lv). rewrite Ek in Hv'. assert (v' = v) as -> by congruence.
      rewrite app_length. specialize (Hs t Hti). rewrite Ek in Hs. lia.
    + rewrite Em. destruct (reached r m) eqn:Er; [eexists _, _, _; split; [reflexivity|auto]|].
      destruct (IH (fst (fold_left (update_one r) (compute_for_batch calc r b) (c, []))) (acc ++ [compute_for_batch calc r b]) m (s + bsize b)) as (c' & acc' & n' & E & Hr).
      * intros t Hti. destruct (batch_entry r b t Hc Hti) as (v & Hv & Lv). specialize (Hs t Hti).
        unfold old at 1. rewrite U1, (ext_target _ _ _ _ v Hv), app_length. lia.
      * exists c', acc', n'. split; [exact E|]. destruct Hr as [Hr|[->|Hr]]; [auto| |right; right; change (total_size (b :: bs)) with (bsize b + total_size bs); lia].
        cbn in E. right; right. inversion E; subst. cbn. lia.
Qed.

Lemma concat_layers_total r used : calc_per_sample -> used <> [] -> exists d, concat_layers r (map (compute_for_batch calc r) used) = Ok d.
Proof.
  intros Hc Hu. unfold concat_layers.
  match goal with |- context [mapM ?f (rq_targets r)] => edestruct (mapM_total f (rq_targets r)) as [l [E _]] end.
  - intros n Hn.
    edestruct (mapM_total (fun d : list (nat * list T) => from_opt (dict_get (hn_name n) d)) (map (compute_for_batch calc r) used)) as [ps [Eps _]].
    + intros d Hd. apply in_map_iff in Hd. destruct Hd as (b & <- & _). destruct (batch_entry r b n Hc Hn) as (v & -> & _). cbn. eauto.
    + cbn beta. rewrite Eps. cbn. destruct ps; [|eauto]. apply mapM_Forall2 in Eps. apply Forall2_length in Eps. rewrite map_length in Eps. destruct used; [tauto|discriminate].
  - rewrite E. cbn. eauto.
Qed.

Lemma fetch_total_lem : forall r k bs c, calc_per_sample -> rq_n r = Some k -> rq_loader r = Some bs -> bs <> [] -> k <= total_size bs ->
  Forall (fun n => exists p, primary n = Ok p) (rq_targets r) ->
  exists c' res, fetch r false c = (c', Ok res).
Proof.
  intros r k bs c Hc Hk Hb Hbs Hle Hp. unfold fetch_hessian. rewrite Hk.
  edestruct (mapM_total primary (rq_targets r)) as [prim [Ep _]].
  { intros n Hn. rewrite Forall_forall in Hp. exact (Hp n Hn). }
  rewrite Ep. cbv zeta. set (r1 := with_targets r prim).
  assert (exists c1 res, fetch_with_compute calc bsize r1 k c = (c1, Ok res)) as (c1 & res & E).
  { unfold fetch_with_compute. destruct (cache_fetch c r1 k) as [res missing] eqn:Ef. pose proof (cache_fetch_spec _ _ _ _ _ Ef) as (F1 & F2 & F3 & F4).
    destruct missing as [|m0 ms]; [eauto|]. set (missing := m0 :: ms) in *.
    assert (rq_loader r1 = Some bs) as -> by exact Hb.
    fold (narrowed r1 res missing).
    assert (missing <> []) as Hmne by (subst missing; discriminate).
    set (r' := narrowed r1 res missing).
    assert (rq_n r' = Some k) as Hk' by (subst r'; unfold narrowed; destruct res; exact Hk).
    assert (rq_loader r' = Some bs) as Hb' by (subst r'; unfold narrowed; destruct res; exact Hb).
    assert (rq_targets r' <> []) as Hne.
    { assert (exists v, dict_get (fst m0) missing = Some v) as Hm by (subst missing; destruct m0 as [a b]; cbn; rewrite Nat.eqb_refl; eauto).
      pose proof (proj1 (F2 (fst m0)) Hm) as (t & Ht & En & Hl). intro E.
      assert (In t (rq_targets r')) as Hi; [|rewrite E in Hi; destruct Hi].
      subst r'. unfold narrowed. destruct res; [exact Ht|]. cbn [with_targets rq_targets]. apply filter_In. split; [exact Ht|]. rewrite En. destruct Hm as [v ->]. reflexivity. }
    assert (exists c2 d, compute_hessians calc bsize true r' c = (c2, Ok d)) as (c2 & d & Ec).
    { unfold compute_hessians. rewrite Hk', Hb'. cbn [andb].
      destruct (loop_total r' Hc Hne bs c [] 0 0) as (c2 & acc & n & El & Hr); [intros; lia|]. rewrite El.
      pose proof (loop_spec _ _ _ _ _ _ _ _ El) as (_ & _ & L3). destruct (L3 acc n eq_refl) as (used & rest & A1 & A2 & A3 & _ & A4 & _ & A6). cbn [app] in A2.
      assert (used <> []) as Hu.
      { intro Eu. subst used. cbn in A1. subst rest. specialize (A6 Hbs). rewrite (A4 eq_refl) in A6. unfold reached in A6. rewrite Hk' in A6. destruct k; discriminate. }
      destruct (concat_layers_total r' used Hc Hu) as [d Ed]. rewrite <- A2 in Ed. rewrite Ed. cbn [bind].
      destruct k as [|k]; [eauto|]. assert (S k <= n) as Hn.
      { destruct Hr as [Hr|[Hr|Hr]]; [|contradiction|lia]. unfold reached in Hr. rewrite Hk' in Hr. apply Nat.leb_le in Hr. exact Hr. }
      destruct (Nat.ltb_spec n (S k)); [lia|]. destruct (Nat.ltb (S k) n); eauto. }
    rewrite Ec. pose proof (fetch_with_compute_assert r1 k c c2 d res missing Hk Ef Hmne Ec) as A.
    destruct (cache_fetch c2 r1 k) as [res' missing']. cbn in A. subst missing'. eauto. }
  rewrite E. pose proof (fetch_with_compute_spec r1 k c c1 (Ok res) Hk E) as (_ & _ & _ & C4).
  unfold restore.
  edestruct (mapM_total (fun p0 => let! v := from_opt (dict_get (hn_name (snd p0)) res) in Ok (hn_name (fst p0), v)) (combine (rq_targets r) prim)) as [l [El _]].
  - intros [n p] Hi. cbn. apply in_combine_r in Hi. destruct (C4 res eq_refl p Hi) as (h & _ & _ & ->). cbn. eauto.
  - rewrite El. cbn. eauto.
Qed.

(* ---- first request: scores aligned over the nodes ---- *)
Lemma combine_nth_error {A C} : forall (l : list A) (m : list C) i a b, nth_error l i = Some a -> nth_error m i = Some b -> In (a, b) (combine l m).
Proof.
  induction l as [|x l IH]; intros [|y m] [|i] a b H1 H2; cbn in *; try discriminate.
  - left. congruence.
  - right. eapply IH; eassumption.
Qed.
Lemma combine_in_nth {A C} : forall (l : list A) (m : list C) a b, In (a, b) (combine l m) -> exists i, nth_error l i = Some a /\ nth_error m i = Some b.
Proof.
  induction l as [|x l IH]; intros [|y m] a b H; cbn in *; try tauto. destruct H as [H|H].
  - exists 0. cbn. split; congruence.
  - destruct (IH m a b H) as (i & H1 & H2). exists (S i). auto.
Qed.
Lemma batch_nth r b i t : length (calc (rq_mode r) (rq_gran r) (rq_targets r) b) = length (rq_targets r) -> NoDup (map hn_name (rq_targets r)) ->
  nth_error (rq_targets r) i = Some t ->
  dict_get (hn_name t) (compute_for_batch calc r b) = Some (nth i (calc (rq_mode r) (rq_gran r) (rq_targets r) b) []).
Proof.
  intros L Hn Hi. set (vs := calc (rq_mode r) (rq_gran r) (rq_targets r) b) in *.
  assert (nth_error (map hn_name (rq_targets r)) i = Some (hn_name t)) as Hk by (apply map_nth_error; exact Hi).
  assert (i < length (rq_targets r)) as Hlt by (apply nth_error_Some; congruence).
  assert (nth_error vs i = Some (nth i vs [])) as Hv by (apply nth_error_nth'; lia).
  apply dict_of_fun; [|eapply combine_nth_error; eassumption].
  intros a c Ha Hb. apply combine_in_nth in Ha. apply combine_in_nth in Hb. destruct Ha as (j & J1 & J2), Hb as (j' & J1' & J2').
  fold vs in J2, J2'. assert (j' = j) as ->; [|congruence]. eapply NoDup_nth_error; [exact Hn| |congruence].
  apply nth_error_Some. congruence.
Qed.
Lemma fold_ext_entry r i t : (forall b, length (calc (rq_mode r) (rq_gran r) (rq_targets r) b) = length (rq_targets r)) -> NoDup (map hn_name (rq_targets r)) ->
  nth_error (rq_targets r) i = Some t -> forall used c, used <> [] ->
  fold_left (fun c b => ext c r (compute_for_batch calc r b)) used c (query_of r (hn_name t)) =
    Some (old c (query_of r (hn_name t)) ++ concat (map (fun b => nth i (calc (rq_mode r) (rq_gran r) (rq_targets r) b) []) used)).
Proof.
  intros L Hn Hi. induction used as [|b used IH]; intros c Hu; [tauto|]. cbn [fold_left map concat].
  pose proof (ext_target c r _ t _ (batch_nth r b i t (L b) Hn Hi)) as E. destruct used as [|b2 used].
  - cbn. rewrite E, app_nil_r. reflexivity.
  - rewrite IH by discriminate. unfold old at 1. rewrite E. rewrite <- app_assoc. reflexivity.
Qed.

Lemma named_nodup ts : NoDup (map hn_name ts) -> named ts.
Proof.
  intros H n m Hn Hm E. apply In_nth_error in Hn. apply In_nth_error in Hm. destruct Hn as [i Hi], Hm as [j Hj].
  assert (j = i) as ->; [|congruence]. eapply NoDup_nth_error; [exact H| |].
  - apply nth_error_Some. erewrite map_nth_error by exact Hj. discriminate.
  - erewrite !map_nth_error by eassumption. congruence.
Qed.

Lemma fresh_aligned_lem : forall r k bs c c' res, rq_n r = Some k -> rq_loader r = Some bs ->
  (forall b, length (calc (rq_mode r) (rq_gran r) (rq_targets r) b) = length (rq_targets r)) -> NoDup (map hn_name (rq_targets r)) ->
  Forall (fun n => hn_reuse n = false) (rq_targets r) ->
  (forall n, In n (rq_targets r) -> c (query_of r (hn_name n)) = None) ->
  fetch r false c = (c', Ok res) ->
  exists used rest, bs = used ++ rest /\ forall i t, nth_error (rq_targets r) i = Some t ->
    dict_get (hn_name t) res = Some (firstn k (concat (map (fun b => nth i (calc (rq_mode r) (rq_gran r) (rq_targets r) b) []) used))).
Proof.
  intros r k bs c c' res Hk Hb Hc Hn Hr Hf H. pose proof (fetch_spec _ _ _ _ _ Hk H) as [_ S].
  specialize (S res eq_refl (named_nodup _ Hn)).
  unfold fetch_hessian in H. rewrite Hk in H.
  assert (forall l, Forall (fun n => hn_reuse n = false) l -> mapM primary l = Ok l) as Hprim.
  { induction l as [|n l IH]; intro F; [reflexivity|]. inversion F; subst. cbn. unfold HessianModel.primary at 1. rewrite H2. cbn. rewrite IH by assumption. reflexivity. }
  rewrite (Hprim _ Hr) in H. cbv zeta in H. assert (with_targets r (rq_targets r) = r) as Ew by (destruct r; reflexivity). rewrite Ew in H.
  destruct (fetch_with_compute calc bsize r k c) as [c1 [res1|e]] eqn:E; [|discriminate]. assert (c1 = c') as -> by congruence.
  destruct (rq_targets r) as [|t0 ts] eqn:Et.
  { exists [], bs. split; [reflexivity|]. intros [|i] t Hi; discriminate. }
  rewrite <- Et in *.
  assert (forall t, In t (rq_targets r) -> primary t = Ok t) as Hpt.
  { intros t Ht. rewrite Forall_forall in Hr. unfold HessianModel.primary. rewrite (Hr t Ht). reflexivity. }
  unfold fetch_with_compute in E. destruct (cache_fetch c r k) as [res0 missing] eqn:Ef.
  pose proof (cache_fetch_spec _ _ _ _ _ Ef) as (F1 & F2 & F3 & F4).
  assert (In t0 (rq_targets r)) as Ht0 by (rewrite Et; left; reflexivity).
  destruct missing as [|m0 ms].
  { exfalso. apply (proj1 F3 eq_refl t0 Ht0). unfold lacking. rewrite (Hf t0 Ht0). exact I. }
  rewrite Hb in E.
  assert (res0 = []) as ->.
  { destruct res0 as [|[k0 v0] rs]; [reflexivity|]. exfalso. assert (dict_get k0 ((k0, v0) :: rs) = Some v0) as Hg by (cbn; rewrite Nat.eqb_refl; reflexivity).
    destruct (F4 k0 v0 Hg) as (t & Ht & En). specialize (F1 t Ht). rewrite (Hf t Ht), En, Hg in F1. discriminate. }
  destruct (compute_hessians calc bsize true r c) as [c2 [d|e]] eqn:Ec; [|discriminate].
  destruct (cache_fetch c2 r k) as [res' missing']. assert (c2 = c') as -> by congruence.
  unfold compute_hessians in Ec. rewrite Hk, Hb in Ec. cbn [andb] in Ec.
  destruct (compute_loop calc bsize true r bs c [] 0) as [c3 [[acc n]|e]] eqn:El; [|discriminate]. assert (c3 = c') as -> by congruence.
  pose proof (loop_spec _ _ _ _ _ _ _ _ El) as (_ & _ & L3). destruct (L3 acc n eq_refl) as (used & rest & A1 & A2 & A3 & _ & A4 & A5 & A6). cbn [app] in A2.
  assert (used <> []) as Hu.
  { intro Eu. rewrite Eu in A2. cbn in A2. subst acc. inversion Ec as [Ec']. unfold concat_layers in Ec'. rewrite Et in Ec'. cbn in Ec'. discriminate. }
  exists used, rest. split; [exact A1|]. intros i t Hi. assert (In t (rq_targets r)) as Hit by (eapply nth_error_In; exact Hi).
  destruct (S t Hit) as (p & h & Hp & Eh & Hl & Hd). rewrite Hpt in Hp by exact Hit. assert (p = t) as -> by congruence.
  rewrite Hd. f_equal. f_equal. rewrite A5 in Eh. rewrite (fold_ext_entry r i t Hc Hn Hi used c Hu) in Eh.
  unfold old in Eh. rewrite (Hf t Hit) in Eh. cbn in Eh. congruence.
Qed.
End Proofs.
