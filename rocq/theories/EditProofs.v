(* EditProofs.v -- lemmas on the network editor. *)
From Coq Require Import String Lia.
From Verif Require Import Base SDict FilterModel FilterProps EditModel EditSpec.
Local Open Scope list_scope.

(* filters *)
Lemma match_node_spec m n : truthy (match_node m n) = true <-> matches m n.
Proof.
  induction m as [t|s|s| |a IHa b IHb|a IHa b IHb|a IHa]; cbn [match_node matches].
  - destruct (String.eqb_spec t (node_type n)); cbn; split; congruence.
  - destruct (String.eqb_spec (n_name n) s); cbn; split; congruence.
  - unfold contains. rewrite <- str_contains_spec. destruct (str_contains (n_name n) s); cbn; split; congruence.
  - cbn. tauto.
  - destruct (truthy (match_node a n)) eqn:E; [rewrite IHb; tauto|]. rewrite E. split; [congruence|].
    intros [H _]. apply IHa in H. congruence.
  - destruct (truthy (match_node a n)) eqn:E; [rewrite E; tauto|]. rewrite IHb. split; [tauto|].
    intros [H|H]; [apply IHa in H; congruence|exact H].
  - cbn. destruct (truthy (match_node a n)) eqn:E; cbn; split; try congruence.
    + intro H. exfalso. apply H, IHa. reflexivity.
    + intros _ H. apply IHa in H. congruence.
Qed.
Lemma matches_dec m n : matches m n \/ ~ matches m n.
Proof. rewrite <- match_node_spec. destruct (truthy (match_node m n)); [left; reflexivity|right; congruence]. Qed.

(* one rule over a graph *)
Lemma replace_nth_length {A} (l : list A) i x : length (replace_nth l i x) = length l.
Proof. revert i. induction l as [|a l IH]; intros [|i]; cbn; auto. Qed.
Lemma nth_error_replace {A} (l : list A) i x j :
  nth_error (replace_nth l i x) j = if Nat.eqb i j then match nth_error l j with Some _ => Some x | None => None end else nth_error l j.
Proof.
  revert i j. induction l as [|a l IH]; intros i j.
  - cbn. destruct j; cbn; destruct (Nat.eqb i _); reflexivity.
  - destruct i as [|i], j as [|j]; cbn; try reflexivity. apply IH.
Qed.
Lemma replace_nth_app {A} (p : list A) a r x : replace_nth (p ++ a :: r) (length p) x = p ++ x :: r.
Proof. induction p as [|b p IH]; cbn; [reflexivity|]. rewrite IH. reflexivity. Qed.
Lemma nth_error_mid {A} (p : list A) a r : nth_error (p ++ a :: r) (length p) = Some a.
Proof. induction p as [|b p IH]; cbn; auto. Qed.

Definition step (T : tables) (r : rule) (n n' : node) : Prop :=
  (matches (r_filter r) n /\ apply_action T (r_action r) n = Ok n') \/ (~ matches (r_filter r) n /\ n' = n).

Lemma foldM_app {A S} (f : S -> A -> result S) l1 l2 s :
  foldM f (l1 ++ l2) s = match foldM f l1 s with Ok s' => foldM f l2 s' | Err e => Err e end.
Proof. revert s. induction l1 as [|a l IH]; intro s; cbn; [reflexivity|]. destruct (f s a); cbn; [apply IH|reflexivity]. Qed.

Lemma edit_rule_spec T r p0 p g :
  let k := length p in
  let idx := filter (fun i => match nth_error (p0 ++ g) i with Some n => truthy (match_node (r_filter r) n) | None => false end)
                    (seq k (length g)) in
  length p0 = k ->
  forall g', foldM (act_on T (r_action r)) idx (p ++ g) = Ok g' <-> exists q, g' = p ++ q /\ Forall2 (step T r) g q.
Proof.
  revert p0 p. induction g as [|n g IH]; intros p0 p k idx L g'; subst k idx.
  - cbn. split.
    + intro H. inversion H; subst. exists []. split; [reflexivity|constructor].
    + intros (q & -> & F). inversion F; subst. reflexivity.
  - cbn [seq filter length]. rewrite <- L, nth_error_mid, L.
    specialize (IH (p0 ++ [n])).
    assert (St : forall n1 g', foldM (act_on T (r_action r))
              (filter (fun i => match nth_error (p0 ++ n :: g) i with Some n => truthy (match_node (r_filter r) n) | None => false end)
                  (seq (S (length p)) (length g))) (p ++ n1 :: g) = Ok g' <->
              exists q, g' = p ++ n1 :: q /\ Forall2 (step T r) g q).
    { intros n1 g''. specialize (IH (p ++ [n1])). cbn zeta in IH. rewrite !app_length in IH. cbn [length] in IH.
      specialize (IH (ltac:(lia)) g''). rewrite <- !app_assoc in IH. cbn [app] in IH.
      replace (length p + 1)%nat with (S (length p)) in IH by lia. rewrite IH.
      split; intros (q & E & F); exists q; (split; [|exact F]); rewrite E, <- ?app_assoc; reflexivity. }
    destruct (truthy (match_node (r_filter r) n)) eqn:M.
    + cbn [foldM]. unfold act_on at 1. rewrite nth_error_mid.
      destruct (apply_action T (r_action r) n) as [n1|e] eqn:A; cbn.
      * rewrite replace_nth_app, (St n1 g'). split.
        -- intros (q & E & F). exists (n1 :: q). split; [exact E|]. constructor; [|exact F]. left. split; [|exact A].
           apply match_node_spec; exact M.
        -- intros (q & E & F). inversion F as [|? n1' ? q' [[_ A']|[N _]] F' E1 E2]; subst.
           ++ exists q'. split; [congruence|exact F'].
           ++ exfalso. apply N, match_node_spec, M.
      * split; [discriminate|]. intros (q & E & F).
        inversion F as [|? n1' ? q' [[_ A']|[N _]] F' E1 E2]; subst; [congruence|].
        exfalso. apply N, match_node_spec, M.
    + rewrite (St n g'). split.
      * intros (q & E & F). exists (n :: q). split; [exact E|]. constructor; [|exact F]. right. split; [|reflexivity].
        intro H. apply match_node_spec in H. congruence.
      * intros (q & E & F). inversion F as [|? n1' ? q' [[Hm _]|[_ ->]] F' E1 E2]; subst.
        -- apply match_node_spec in Hm. congruence.
        -- exists q'. split; [reflexivity|exact F'].
Qed.

Lemma edit_rule_nodes T r g g' : edit_rule T g r = Ok g' <-> Forall2 (step T r) g g'.
Proof.
  unfold edit_rule, matched. pose proof (edit_rule_spec T r [] [] g eq_refl g') as H. cbn [app length] in H. rewrite H.
  split; [intros (q & -> & F); exact F|intro F; exists g'; auto].
Qed.

Lemma runs_cons T r rs n n' : runs T (r :: rs) n n' <-> exists m, step T r n m /\ runs T rs m n'.
Proof.
  split.
  - intro H. inversion H; subst; [exists n; split; [right; auto|assumption]|exists n1; split; [left; auto|assumption]].
  - intros (m & [[M A]|[N ->]] & R); [eapply R_hit; eauto|apply R_skip; auto].
Qed.

Lemma Forall2_comp {A} (P Q : A -> A -> Prop) l l'' :
  (exists l', Forall2 P l l' /\ Forall2 Q l' l'') <-> Forall2 (fun a c => exists b, P a b /\ Q b c) l l''.
Proof.
  split.
  - intros (l' & H1 & H2). revert l'' H2. induction H1 as [|a b l l' Hp F IH]; intros l'' H2; inversion H2; subst; constructor; eauto.
  - intro H. induction H as [|a c l l'' (b & Hp & Hq) F (l' & IH1 & IH2)]; [exists []; split; constructor|].
    exists (b :: l'). split; constructor; assumption.
Qed.

Lemma Forall2_mono {A B} (P Q : A -> B -> Prop) l l' : (forall a b, P a b -> Q a b) -> Forall2 P l l' -> Forall2 Q l l'.
Proof. intros H F. induction F; constructor; auto. Qed.

Lemma edit_nodes T rules g g' : edit_network_graph T rules g = Ok g' <-> Forall2 (runs T rules) g g'.
Proof.
  unfold edit_network_graph. revert g. induction rules as [|r rs IH]; intro g.
  - cbn. split.
    + intro H. inversion H; subst. clear H. induction g' as [|n g IH]; constructor; [constructor|exact IH].
    + intro H. f_equal. induction H as [|n n' g g' R F IH]; [reflexivity|]. inversion R; subst. reflexivity.
  - cbn [foldM]. transitivity (exists g1, edit_rule T g r = Ok g1 /\ foldM (edit_rule T) rs g1 = Ok g').
    { destruct (edit_rule T g r) as [g1|e]; cbn.
      - split; [intro H; exists g1; auto|intros (g2 & E & H); congruence].
      - split; [discriminate|intros (g2 & E & _); discriminate]. }
    transitivity (exists g1, Forall2 (step T r) g g1 /\ Forall2 (runs T rs) g1 g').
    { split; intros (g1 & H1 & H2); exists g1; (split; [apply edit_rule_nodes; exact H1|apply IH; exact H2]). }
    rewrite Forall2_comp. split; intro F; (eapply Forall2_mono; [|exact F]); intros a b; apply runs_cons.
Qed.

Lemma runs_app T r1 r2 n n' : runs T (r1 ++ r2) n n' <-> exists m, runs T r1 n m /\ runs T r2 m n'.
Proof.
  revert n. induction r1 as [|r r1 IH]; intro n; cbn [app].
  - split; [intro H; exists n; split; [constructor|exact H]|intros (m & H1 & H2); inversion H1; subst; exact H2].
  - rewrite runs_cons. split.
    + intros (m & S & R). apply IH in R. destruct R as (m' & R1 & R2). exists m'. split; [|exact R2].
      apply runs_cons. exists m. auto.
    + intros (m' & R1 & R2). apply runs_cons in R1. destruct R1 as (m & S & R1). exists m. split; [exact S|]. apply IH. exists m'. auto.
Qed.
Lemma runs_fun T rs n a b : runs T rs n a -> runs T rs n b -> a = b.
Proof.
  revert n. induction rs as [|r rs IH]; intros n Ha Hb.
  - inversion Ha; subst; inversion Hb; subst. reflexivity.
  - apply runs_cons in Ha. apply runs_cons in Hb. destruct Ha as (x & Sx & Rx), Hb as (y & Sy & Ry).
    assert (x = y) as -> by (destruct Sx as [[M A]|[N ->]], Sy as [[M' A']|[N' ->]]; congruence || tauto).
    eapply IH; eauto.
Qed.

(* names of weights *)
Lemma akey_eqb_spec a b : reflect (a = b) (akey_eqb a b).
Proof.
  destruct a as [i|s], b as [j|t]; cbn; try (constructor; congruence).
  - destruct (Nat.eqb_spec i j); constructor; congruence.
  - destruct (String.eqb_spec s t); constructor; congruence.
Qed.
Lemma aget_in k l : aget k l <> None <-> In k (map fst l).
Proof.
  induction l as [|[k' c] l IH]; cbn; [tauto|]. destruct (akey_eqb_spec k k') as [->|N].
  - split; [auto|congruence].
  - rewrite IH. split; [auto|intros [E|I]; [congruence|exact I]].
Qed.
Lemma aget_aset k c l k' : aget k' (aset k c l) = if akey_eqb k' k then match aget k' l with Some _ => Some c | None => None end else aget k' l.
Proof.
  induction l as [|[k0 c0] l IH]; cbn; [destruct (akey_eqb k' k); reflexivity|].
  destruct (akey_eqb_spec k k0) as [->|N]; cbn.
  - destruct (akey_eqb_spec k' k0); reflexivity.
  - rewrite IH. destruct (akey_eqb_spec k' k0) as [->|N1]; [|reflexivity].
    destruct (akey_eqb_spec k0 k); congruence.
Qed.
Lemma aset_keys k c l : map fst (aset k c l) = map fst l.
Proof. induction l as [|[k0 c0] l IH]; cbn; [reflexivity|]. destruct (akey_eqb k k0); cbn; congruence. Qed.

Definition nm_b (s : string) (k : akey) : bool := match k with A_name t => str_contains t s | A_pos _ => false end.
Lemma names_with_keys w s : map fst (names_with w s) = filter (nm_b s) (map fst (w_attrs w)).
Proof.
  unfold names_with. induction (w_attrs w) as [|[k c] l IH]; cbn; [reflexivity|].
  change (match k with A_name t => str_contains t s | A_pos _ => false end) with (nm_b s k).
  destruct (nm_b s k); cbn; congruence.
Qed.

Lemma names_fun w a k k' : names w a k -> names w a k' -> k = k'.
Proof.
  intros [P H] [P' H']. destruct a as [i|s], k as [j|t], k' as [j'|t']; try tauto; [congruence|].
  destruct H as [C U], H' as [C' U']. f_equal. destruct U as [<-|U].
  - destruct U' as [<-|U']; [reflexivity|]. auto.
  - symmetry. auto.
Qed.
Lemma names_keys w w' a k : map fst (w_attrs w) = map fst (w_attrs w') -> names w a k -> names w' a k.
Proof.
  unfold names. intros E [P H].
  assert (X : forall k, aget k (w_attrs w) <> None <-> aget k (w_attrs w') <> None) by (intro k0; rewrite !aget_in, E; tauto).
  split; [apply X, P|]. destruct a as [i|s], k as [j|t]; try tauto. destruct H as [C [U|U]]; split; auto.
  right. intros t' Ht'. apply U, X, Ht'.
Qed.

Lemma get_attr_spec w a : wf_w w ->
  match get_attr w a with Ok k => names w a k | Err _ => forall k, ~ names w a k end.
Proof.
  intro W. unfold get_attr, names. destruct a as [i|s].
  - destruct (aget (A_pos i) (w_attrs w)) eqn:E.
    + split; [congruence|reflexivity].
    + intros [j|t] [P H]; [|tauto]. subst. congruence.
  - pose proof (names_with_keys w s) as K.
    assert (I : forall t, In (A_name t) (map fst (names_with w s)) <-> aget (A_name t) (w_attrs w) <> None /\ contains t s).
    { intro t. rewrite K, filter_In, <- aget_in. cbn [nm_b]. unfold contains. rewrite str_contains_spec. tauto. }
    assert (Nm : forall k, In k (map fst (names_with w s)) -> exists t, k = A_name t).
    { intros k Hk. rewrite K in Hk. apply filter_In in Hk. destruct Hk as [_ Hk]. destruct k; [discriminate|eauto]. }
    destruct (names_with w s) as [|[k c] [|[k2 c2] r]] eqn:E; cbn [map fst] in *.
    + intros [j|t] [P H]; [tauto|]. destruct H as [C _]. apply (I t). auto.
    + destruct (Nm k) as [t ->]; [left; reflexivity|]. destruct (proj1 (I t)) as [P C]; [left; reflexivity|].
      split; [exact P|]. split; [exact C|]. right. intros t' P' C'. destruct (proj2 (I t')) as [Q|[]]; [auto|congruence].
    + destruct (aget (A_name s) (w_attrs w)) eqn:G.
      * split; [congruence|]. split; [|left; reflexivity]. exists ""%string, ""%string.
        cbn. clear. induction s as [|ch s IH]; cbn; congruence.
      * intros [j|t] [P H]; [tauto|]. destruct H as [C [->|U]]; [congruence|].
        destruct (Nm k) as [t1 ->]; [left; reflexivity|]. destruct (Nm k2) as [t2 ->]; [right; left; reflexivity|].
        assert (t1 = t) by (apply U; apply I; left; reflexivity).
        assert (t2 = t) by (apply U; apply I; right; left; reflexivity). subst.
        assert (D : NoDup (filter (nm_b s) (map fst (w_attrs w)))) by (apply NoDup_filter, W).
        rewrite <- K in D. inversion D as [|? ? D1 _]; subst. apply D1. left. reflexivity.
Qed.
Lemma has_attr_names w a k : names w a k -> has_attr w a = true.
Proof.
  intros [P H]. unfold has_attr. destruct a as [i|s], k as [j|t]; try tauto.
  - subst. destruct (aget _ _); [reflexivity|congruence].
  - destruct H as [C _]. assert (In (A_name t) (map fst (names_with w s))) as I.
    { rewrite names_with_keys. apply filter_In. split; [apply aget_in, P|]. cbn. apply str_contains_spec. exact C. }
    destruct (names_with w s); [destruct I|reflexivity].
Qed.

(* reading a weights configuration *)
Definition wread (w : wcfg) (k : akey) (f : string) : option pyv :=
  match aget k (w_attrs w) with Some c => sget f c | None => None end.
Lemma on_attr_fields w k F : w_fields (on_attr w k F) = w_fields w.
Proof. unfold on_attr. destruct (aget k (w_attrs w)); reflexivity. Qed.
Lemma on_attr_keys w k F : map fst (w_attrs (on_attr w k F)) = map fst (w_attrs w).
Proof. unfold on_attr. destruct (aget k (w_attrs w)); [apply aset_keys|reflexivity]. Qed.
Lemma on_attr_get w k F k' : aget k' (w_attrs (on_attr w k F)) = if akey_eqb k' k then option_map F (aget k' (w_attrs w)) else aget k' (w_attrs w).
Proof.
  unfold on_attr. destruct (aget k (w_attrs w)) as [c|] eqn:E; cbn [w_attrs].
  - rewrite aget_aset. destruct (akey_eqb_spec k' k) as [->|N]; [|reflexivity]. rewrite E. reflexivity.
  - destruct (akey_eqb_spec k' k) as [->|N]; [|reflexivity]. rewrite E. reflexivity.
Qed.

(* keyword arguments on a plain list of fields *)
Definition over (kw : list (string * pyv)) (f : string) (old : option pyv) : option pyv :=
  match old with None => None | Some x => match sget f kw with Some v => Some v | None => Some x end end.
Lemma sset_over k v c f : sget f (match sget k c with Some _ => sset k v c | None => c end) = over [(k, v)] f (sget f c).
Proof.
  unfold over. cbn [sget]. destruct (sget k c) eqn:E.
  - rewrite sget_sset. destruct (String.eqb_spec f k) as [->|N]; [rewrite E; reflexivity|]. destruct (sget f c); reflexivity.
  - destruct (String.eqb_spec f k) as [->|N]; [rewrite E; reflexivity|]. destruct (sget f c); reflexivity.
Qed.
Lemma over_cons k v kw f x : ~ In k (map fst kw) -> over kw f (over [(k, v)] f x) = over ((k, v) :: kw) f x.
Proof.
  intro N. unfold over. destruct x; [|reflexivity]. cbn [sget]. destruct (String.eqb_spec f k) as [->|Ne]; [|reflexivity].
  assert (sget k kw = None) as -> by (apply sget_none; exact N). reflexivity.
Qed.
Lemma set_fields_spec props kw c : NoDup (map fst kw) ->
  match foldM (fun c kv => set_field props c (fst kv) (snd kv)) kw c with
  | Ok c' => plain props kw /\ forall f, sget f c' = over kw f (sget f c)
  | Err _ => ~ plain props kw
  end.
Proof.
  revert c. induction kw as [|[k v] kw IH]; intros c N; cbn [foldM fst snd].
  - split; [intros f v []|]. intro f. unfold over. destruct (sget f c); reflexivity.
  - inversion N as [|? ? N1 N2]; subst. unfold set_field at 1. destruct (existsb (String.eqb k) props) eqn:E; cbn [bind].
    + intro P. apply existsb_exists in E. destruct E as (p & I & E). apply String.eqb_eq in E. subst.
      exact (P p v (or_introl eq_refl) I).
    + match goal with |- context [foldM _ kw ?x] => set (c1 := x) end. specialize (IH c1 N2).
      destruct (foldM (fun (c : cfg) (kv : string * pyv) => set_field props c (fst kv) (snd kv)) kw c1) as [c'|e].
      * destruct IH as [P R]. split.
        -- intros f w [Q|I]; [|eapply P; eauto]. inversion Q; subst. intro J.
           assert (existsb (String.eqb f) props = true) by (apply existsb_exists; exists f; split; [exact J|apply String.eqb_refl]).
           congruence.
        -- intro f. rewrite R. unfold c1. rewrite sset_over. apply over_cons. exact N1.
      * intro P. apply IH. intros f w I. eapply P. right. exact I.
Qed.

Lemma bind_field_fold kw : forall w,
  foldM (fun w kv => set_weights_field w (fst kv) (snd kv) None) kw w =
  let! c := foldM (fun c kv => set_field w_props c (fst kv) (snd kv)) kw (w_fields w) in Ok (WCfg c (w_attrs w)).
Proof.
  induction kw as [|[k v] kw IH]; intro w; cbn [foldM fst snd].
  - destruct w; reflexivity.
  - unfold set_weights_field at 1. destruct (set_field w_props (w_fields w) k v); cbn [bind]; [|reflexivity].
    rewrite IH. reflexivity.
Qed.

(* what a function on the weights configuration does: it keeps the keys, and writes the fields wr says *)
Record wfun (F : wcfg -> result wcfg) (ok : wcfg -> Prop) (wf : wcfg -> string -> option pyv -> option pyv)
            (wa : wcfg -> akey -> string -> option pyv -> option pyv) : Prop := WFun {
  wf_ok : forall w, wf_w w -> (exists w', F w = Ok w') <-> ok w;
  wf_keys : forall w w', F w = Ok w' -> map fst (w_attrs w') = map fst (w_attrs w);
  wf_field : forall w w' f, F w = Ok w' -> sget f (w_fields w') = wf w f (sget f (w_fields w));
  wf_attr : forall w w' k f, wf_w w -> F w = Ok w' -> wread w' k f = wa w k f (wread w k f)
}.

Lemma set_w_kw_none kw : NoDup (map fst kw) ->
  wfun (set_w_kw None kw) (fun _ => plain w_props kw) (fun _ => over kw) (fun _ _ _ x => x).
Proof.
  intro N. unfold set_w_kw.
  assert (X : forall w, match foldM (fun w kv => set_weights_field w (fst kv) (snd kv) None) kw w with
                        | Ok w' => plain w_props kw /\ w_attrs w' = w_attrs w /\ forall f, sget f (w_fields w') = over kw f (sget f (w_fields w))
                        | Err _ => ~ plain w_props kw end).
  { intro w. rewrite bind_field_fold. pose proof (set_fields_spec w_props kw (w_fields w) N) as S.
    destruct (foldM _ kw (w_fields w)) as [c|e]; cbn; [|exact S]. tauto. }
  split.
  - intros w _. specialize (X w). destruct (foldM _ kw w) as [w'|e]; [split; [tauto|eauto]|split; [intros [? ?]; discriminate|tauto]].
  - intros w w' E. specialize (X w). rewrite E in X. destruct X as (_ & -> & _). reflexivity.
  - intros w w' f E. specialize (X w). rewrite E in X. apply X.
  - intros w w' k f _ E. specialize (X w). rewrite E in X. unfold wread. destruct X as (_ & -> & _). reflexivity.
Qed.

Lemma get_attr_names w a k : wf_w w -> (get_attr w a = Ok k <-> names w a k).
Proof.
  intro W. pose proof (get_attr_spec w a W) as S. destruct (get_attr w a) as [k'|e].
  - split; [congruence|]. intro H. f_equal. eapply names_fun; eauto.
  - split; [discriminate|]. intro H. destruct (S k H).
Qed.

Definition nameb (w : wcfg) (a k : akey) : bool := match get_attr w a with Ok k' => akey_eqb k k' | Err _ => false end.
Lemma nameb_spec w a k : wf_w w -> (nameb w a k = true <-> names w a k).
Proof.
  intro W. rewrite <- get_attr_names by exact W. unfold nameb. destruct (get_attr w a) as [k'|e]; [|split; discriminate].
  destruct (akey_eqb_spec k k'); split; congruence.
Qed.
Lemma nameb_keys w w' a k : wf_w w -> map fst (w_attrs w) = map fst (w_attrs w') -> nameb w a k = nameb w' a k.
Proof.
  intros W E. assert (W' : wf_w w') by (unfold wf_w in *; rewrite <- E; exact W).
  destruct (nameb w' a k) eqn:H.
  - apply (nameb_spec w a k W). apply (nameb_spec w' a k W') in H. eapply names_keys; [symmetry; exact E|exact H].
  - destruct (nameb w a k) eqn:H'; [|reflexivity]. apply (nameb_spec w a k W) in H'.
    rewrite (proj2 (nameb_spec w' a k W')) in H; [discriminate|]. eapply names_keys; [exact E|exact H'].
Qed.

Lemma set_w_kw_some a kw : NoDup (map fst kw) ->
  wfun (set_w_kw (Some a) kw) (fun w => kw <> [] -> exists k, names w a k) (fun _ _ x => x)
       (fun w k f x => if nameb w a k then over kw f x else x).
Proof.
  unfold set_w_kw. induction kw as [|[k0 v] kw IH]; intro N; cbn [foldM fst snd].
  - split.
    + intros w _. split; [intros _ H; congruence|eauto].
    + intros w w' E. inversion E; reflexivity.
    + intros w w' f E. inversion E; reflexivity.
    + intros w w' k f _ E. inversion E; subst. unfold over. destruct (nameb w' a k), (wread w' k f); reflexivity.
  - inversion N as [|? ? N1 N2]; subst. specialize (IH N2).
    assert (S : forall w, set_weights_field w k0 v (Some a) =
               match has_attr w a, get_attr w a with
               | true, Ok key => Ok (on_attr w key (fun c => match sget k0 c with Some _ => sset k0 v c | None => c end))
               | true, Err e => Err e
               | false, _ => Err E_critical
               end) by (intro w; unfold set_weights_field; destruct (has_attr w a), (get_attr w a); reflexivity).
    split.
    + intros w W. rewrite S. destruct (get_attr w a) as [key|e] eqn:G.
      * pose proof (proj1 (get_attr_names w a key W) G) as Nm. rewrite (has_attr_names _ _ _ Nm). cbn [bind].
        set (w1 := on_attr w key _). assert (W1 : wf_w w1) by (unfold wf_w, w1; rewrite on_attr_keys; exact W).
        split; [eauto|]. intros _. apply (wf_ok _ _ _ _ IH w1 W1). intros _. exists key.
        eapply names_keys; [|exact Nm]. unfold w1. rewrite on_attr_keys. reflexivity.
      * split.
        -- intros [w' H]. destruct (has_attr w a); discriminate.
        -- intro H. exfalso. destruct H as [k Hk]; [discriminate|]. apply (get_attr_names w a k W) in Hk. congruence.
    + intros w w'. rewrite S. destruct (has_attr w a), (get_attr w a) as [key|e]; cbn [bind]; try discriminate.
      intro E. rewrite (wf_keys _ _ _ _ IH _ _ E), on_attr_keys. reflexivity.
    + intros w w' f. rewrite S. destruct (has_attr w a), (get_attr w a) as [key|e]; cbn [bind]; try discriminate.
      intro E. rewrite (wf_field _ _ _ _ IH _ _ f E), on_attr_fields. reflexivity.
    + intros w w' k f W. rewrite S. destruct (has_attr w a); [|discriminate].
      destruct (get_attr w a) as [key|e] eqn:G; cbn [bind]; [|discriminate].
      set (w1 := on_attr w key _). intro E.
      assert (W1 : wf_w w1) by (unfold wf_w, w1; rewrite on_attr_keys; exact W).
      rewrite (wf_attr _ _ _ _ IH _ _ k f W1 E).
      assert (Ek : map fst (w_attrs w) = map fst (w_attrs w1)) by (unfold w1; rewrite on_attr_keys; reflexivity).
      rewrite <- (nameb_keys w w1 a k W Ek). unfold nameb. rewrite G. unfold wread, w1. rewrite on_attr_get.
      destruct (akey_eqb k key) eqn:Ek'; [|reflexivity].
      destruct (aget k (w_attrs w)) as [c|]; cbn [option_map]; [|reflexivity].
      rewrite sset_over. apply over_cons. exact N1.
Qed.

(* functions that write fields: R f x v says that value v is put into field f, which held x *)
Definition wrel := string -> option pyv -> pyv -> Prop.
Definition by_rel (R : wrel) (f : string) (x y : option pyv) : Prop :=
  (forall v, R f x v -> y = Some v) /\ ((forall v, ~ R f x v) -> y = x).
Definition kw_rel (kw : list (string * pyv)) : wrel := fun f x v => In (f, v) kw /\ x <> None.
Definition no_rel : wrel := fun _ _ _ => False.
Lemma by_no f x : by_rel no_rel f x x.
Proof. split; [intros v []|reflexivity]. Qed.
Lemma over_by kw f x : NoDup (map fst kw) -> by_rel (kw_rel kw) f x (over kw f x).
Proof.
  intro N. unfold by_rel, kw_rel, over. split.
  - intros v [I H]. destruct x; [|congruence]. rewrite (in_sget f v kw N I). reflexivity.
  - intro H. destruct x as [x|]; [|reflexivity]. destruct (sget f kw) as [v|] eqn:E; [|reflexivity].
    exfalso. apply (H v). split; [apply sget_in, E|congruence].
Qed.

Record afun (F : cfg -> result cfg) (ok : Prop) (R : wrel) : Prop := AFun {
  af_ok : forall c, (exists c', F c = Ok c') <-> ok;
  af_field : forall c c' f, F c = Ok c' -> by_rel R f (sget f c) (sget f c')
}.
Record wfun2 (F : wcfg -> result wcfg) (ok : wcfg -> Prop) (RF : wrel) (RW : wcfg -> akey -> wrel) : Prop := WFun2 {
  w2_ok : forall w, wf_w w -> (exists w', F w = Ok w') <-> ok w;
  w2_keys : forall w w', F w = Ok w' -> map fst (w_attrs w') = map fst (w_attrs w);
  w2_field : forall w w' f, F w = Ok w' -> by_rel RF f (sget f (w_fields w)) (sget f (w_fields w'));
  w2_attr : forall w w' k f, wf_w w -> F w = Ok w' -> by_rel (RW w k) f (wread w k f) (wread w' k f)
}.
Definition name_rel (a : akey) (R : wrel) (w : wcfg) (k : akey) : wrel := fun f x v => names w a k /\ R f x v.
Lemma by_name a R w k f x y : wf_w w ->
  (names w a k -> by_rel R f x y) -> (~ names w a k -> y = x) -> by_rel (name_rel a R w k) f x y.
Proof.
  intros W H1 H2. unfold name_rel. split.
  - intros v [Nm Hv]. apply (H1 Nm). exact Hv.
  - intro H. destruct (nameb w a k) eqn:E.
    + apply (nameb_spec w a k W) in E. apply (H1 E). intros v Hv. apply (H v). auto.
    + apply H2. intro Nm. apply (nameb_spec w a k W) in Nm. congruence.
Qed.

Lemma af_id : afun Ok True no_rel.
Proof. split; [intro c; split; [tauto|eauto]|intros c c' f E; inversion E; subst; apply by_no]. Qed.
Lemma w2_id : wfun2 Ok (fun _ => True) no_rel (fun _ _ => no_rel).
Proof.
  split; [intros w _; split; [tauto|eauto]|intros w w' E; inversion E; reflexivity| |];
    [intros w w' f E|intros w w' k f _ E]; inversion E; subst; apply by_no.
Qed.
Lemma af_kw kw : NoDup (map fst kw) -> afun (set_act_kw kw) (plain act_props kw) (kw_rel kw).
Proof.
  intro N. split; [intro c|intros c c' f E]; pose proof (set_fields_spec act_props kw c N) as S; unfold set_act_kw in *.
  - destruct (foldM _ kw c) as [c'|e]; [split; [tauto|eauto]|split; [intros [? ?]; discriminate|tauto]].
  - rewrite E in S. destruct S as [_ S]. rewrite S. apply over_by. exact N.
Qed.
Definition kw_ok (attr : option akey) (kw : list (string * pyv)) (w : wcfg) : Prop :=
  kw <> [] -> match attr with None => plain w_props kw | Some a => exists k, names w a k end.
Lemma w2_kw attr kw : NoDup (map fst kw) ->
  wfun2 (set_w_kw attr kw) (kw_ok attr kw)
        (match attr with None => kw_rel kw | Some _ => no_rel end)
        (match attr with None => fun _ _ => no_rel | Some a => name_rel a (kw_rel kw) end).
Proof.
  intro N. unfold kw_ok. destruct attr as [a|].
  - pose proof (set_w_kw_some a kw N) as H. split.
    + apply (wf_ok _ _ _ _ H).
    + apply (wf_keys _ _ _ _ H).
    + intros w w' f E. rewrite (wf_field _ _ _ _ H w w' f E). apply by_no.
    + intros w w' k f W E. rewrite (wf_attr _ _ _ _ H w w' k f W E). apply by_name; [exact W| |]; intro Nm.
      * apply (nameb_spec w a k W) in Nm. rewrite Nm. apply over_by, N.
      * destruct (nameb w a k) eqn:Eb; [|reflexivity]. apply (nameb_spec w a k W) in Eb. tauto.
  - pose proof (set_w_kw_none kw N) as H. split.
    + intros w W. rewrite (wf_ok _ _ _ _ H w W). split; [auto|]. intro P. destruct kw; [intros f v []|apply P; discriminate].
    + apply (wf_keys _ _ _ _ H).
    + intros w w' f E. rewrite (wf_field _ _ _ _ H w w' f E). apply over_by, N.
    + intros w w' k f W E. rewrite (wf_attr _ _ _ _ H w w' k f W E). apply by_no.
Qed.

Definition fn_rel (name : string) (g : nat) : wrel := fun f _ v => f = name /\ v = Some g.
Lemma sset_by name g f (c : cfg) : by_rel (fn_rel name g) f (sget f c) (sget f (sset name (Some g) c)).
Proof.
  rewrite sget_sset. unfold fn_rel. split.
  - intros v [-> ->]. rewrite String.eqb_refl. reflexivity.
  - intro H. destruct (String.eqb_spec f name) as [->|N]; [|reflexivity]. exfalso. apply (H (Some g)). auto.
Qed.
Lemma three_by (n1 n2 n3 : string) (v1 v2 v3 : pyv) f (c : cfg) : n1 <> n2 -> n1 <> n3 -> n2 <> n3 ->
  by_rel (fun f _ v => (f = n1 /\ v = v1) \/ (f = n2 /\ v = v2) \/ (f = n3 /\ v = v3)) f (sget f c)
         (sget f (sset n3 v3 (sset n2 v2 (sset n1 v1 c)))).
Proof.
  intros N12 N13 N23. rewrite !sget_sset. split.
  - intros v [[-> ->]|[[-> ->]|[-> ->]]].
    + destruct (String.eqb_spec n1 n3); [congruence|]. destruct (String.eqb_spec n1 n2); [congruence|].
      rewrite String.eqb_refl. reflexivity.
    + destruct (String.eqb_spec n2 n3); [congruence|]. rewrite String.eqb_refl. reflexivity.
    + rewrite String.eqb_refl. reflexivity.
  - intro H. destruct (String.eqb_spec f n3) as [->|]; [exfalso; apply (H v3); tauto|].
    destruct (String.eqb_spec f n2) as [->|]; [exfalso; apply (H v2); tauto|].
    destruct (String.eqb_spec f n1) as [->|]; [exfalso; apply (H v1); tauto|reflexivity].
Qed.
Lemma af_final_method T m : afun (final_act_method T m) (t_act_params T m <> None) (fun f _ v => act_method_sets T m f v).
Proof.
  split; [intro c|intros c c' f]; unfold final_act_method; destruct (t_act_params T m) as [p|] eqn:E.
  - split; [congruence|eauto].
  - split; [intros [? ?]; discriminate|congruence].
  - intro H. inversion H; subst. unfold act_method_sets. rewrite E. apply three_by; discriminate.
  - discriminate.
Qed.
Lemma af_cand_method T m :
  afun (cand_act_method T m) (t_act_params T m <> None /\ t_act_fn T m <> None) (fun f _ v => act_method_sets T m f v).
Proof.
  split; [intro c|intros c c' f]; unfold cand_act_method; destruct (t_act_params T m) as [p|] eqn:E;
    destruct (t_act_fn T m) as [q|] eqn:E2; try discriminate;
    try (split; [intros [? ?]; discriminate|intros [? ?]; congruence]).
  - split; [split; congruence|eauto].
  - intro H. inversion H; subst. unfold act_method_sets. rewrite E, E2. apply three_by; discriminate.
Qed.
Lemma af_fn act :
  afun (fun c => Ok (match act with Some f => sset "activation_quantization_params_fn" (Some f) c | None => c end)) True
       (match act with Some g => fn_rel "activation_quantization_params_fn" g | None => no_rel end).
Proof.
  split; [intro c; split; [tauto|eauto]|]. intros c c' f E. inversion E; subst. destruct act; [apply sset_by|apply by_no].
Qed.

Lemma wread_on_attr w k F k' f :
  wread (on_attr w k F) k' f = if akey_eqb k' k then match aget k' (w_attrs w) with Some c => sget f (F c) | None => None end else wread w k' f.
Proof. unfold wread. rewrite on_attr_get. destruct (akey_eqb k' k); [|reflexivity]. destruct (aget k' (w_attrs w)); reflexivity. Qed.

Lemma w2_on_attr a (F : wcfg -> akey -> wcfg) (ok : Prop) (G : cfg -> cfg) R :
  ok ->
  (forall c f, by_rel R f (sget f c) (sget f (G c))) ->
  (forall w k, w_fields (F w k) = w_fields w) ->
  (forall w k, map fst (w_attrs (F w k)) = map fst (w_attrs w)) ->
  (forall w k k', aget k' (w_attrs (F w k)) = if akey_eqb k' k then option_map G (aget k' (w_attrs w)) else aget k' (w_attrs w)) ->
  wfun2 (fun w => let! k := get_attr w a in Ok (F w k)) (fun w => exists k, names w a k) no_rel (name_rel a R).
Proof.
  intros O HG HF HK HA. split.
  - intros w W. split.
    + intros [w' H]. destruct (get_attr w a) as [k|e] eqn:E; [|discriminate]. exists k. apply get_attr_names; assumption.
    + intros [k H]. apply (get_attr_names w a k W) in H. rewrite H. cbn. eauto.
  - intros w w' H. destruct (get_attr w a) as [k|e]; [|discriminate]. inversion H; subst. apply HK.
  - intros w w' f H. destruct (get_attr w a) as [k|e]; [|discriminate]. inversion H; subst. rewrite HF. apply by_no.
  - intros w w' k0 f W H. destruct (get_attr w a) as [k|e] eqn:E; [|discriminate]. inversion H; subst.
    pose proof (proj1 (get_attr_names w a k W) E) as Nm. unfold wread. rewrite HA. apply by_name; [exact W| |]; intro Nm'.
    + rewrite (names_fun _ _ _ _ Nm' Nm). destruct (akey_eqb_spec k k) as [_|N]; [|congruence].
      destruct (aget k (w_attrs w)) as [c|] eqn:Ec; [cbn; apply HG|]. destruct Nm as [P _]. congruence.
    + destruct (akey_eqb_spec k0 k) as [->|N]; [tauto|reflexivity].
Qed.

Lemma wfun2_ext F F' ok ok' RF RW : (forall w, F w = F' w) -> (forall w, ok w <-> ok' w) -> wfun2 F ok RF RW -> wfun2 F' ok' RF RW.
Proof.
  intros EF EO [H1 H2 H3 H4]. split.
  - intros w W. rewrite <- EF, <- EO. auto.
  - intros w w'. rewrite <- EF. apply H2.
  - intros w w' f. rewrite <- EF. apply H3.
  - intros w w' k f. rewrite <- EF. apply H4.
Qed.
Lemma wfun2_err (F : wcfg -> result wcfg) (ok : wcfg -> Prop) RF RW :
  (forall w, exists e, F w = Err e) -> (forall w, ~ ok w) -> wfun2 F ok RF RW.
Proof.
  intros HF HO. split.
  - intros w W. destruct (HF w) as [e E]. rewrite E. split; [intros [? ?]; discriminate|intro H; destruct (HO w H)].
  - intros w w' H. destruct (HF w) as [e E]. congruence.
  - intros w w' f H. destruct (HF w) as [e E]. congruence.
  - intros w w' k f _ H. destruct (HF w) as [e E]. congruence.
Qed.

Lemma w2_method T a m :
  wfun2 (w_method T a m) (fun w => t_w_params T m <> None /\ t_w_fn T m <> None /\ exists k, names w a k) no_rel
        (name_rel a (fun f _ v => w_method_sets T m f v)).
Proof.
  unfold w_method, w_method_sets. destruct (t_w_params T m) as [p|] eqn:E.
  2:{ apply wfun2_err; [eauto|intros w (H & _); congruence]. }
  destruct (t_w_fn T m) as [q|] eqn:E2.
  2:{ apply wfun2_err; [|intros w (_ & H & _); congruence]. intro w. destruct (get_attr w a); cbn; eauto. }
  eapply wfun2_ext; [intro w; reflexivity| |apply (w2_on_attr a _ True
    (fun c => sset "weights_quantization_method" (Some m) (sset "weights_quantization_fn" (Some q) (sset "weights_quantization_params_fn" (Some p) c))))].
  - intro w. split; [intro H; repeat split; try congruence; exact H|tauto].
  - exact I.
  - intros c f. apply three_by; discriminate.
  - intros w k. rewrite !on_attr_fields. reflexivity.
  - intros w k. rewrite !on_attr_keys. reflexivity.
  - intros w k k'. rewrite !on_attr_get. destruct (akey_eqb k' k); [|reflexivity]. destruct (aget k' (w_attrs w)); reflexivity.
Qed.
Definition w_fn (attr : option akey) (w : option nat) (c : wcfg) : result wcfg :=
  match w with
  | None => Ok c
  | Some f => match attr with
              | None => Err E_critical
              | Some a => let! k := get_attr c a in Ok (on_attr c k (sset "weights_quantization_params_fn" (Some f)))
              end
  end.
Lemma w2_fn attr w :
  wfun2 (w_fn attr w) (fun c => w = None \/ exists a k, attr = Some a /\ names c a k) no_rel
        (fun c k f x v => exists a g, attr = Some a /\ w = Some g /\ names c a k /\ fn_rel "weights_quantization_params_fn" g f x v).
Proof.
  unfold w_fn. destruct w as [g|].
  - destruct attr as [a|].
    + pose proof (w2_on_attr a (fun w k => on_attr w k (sset "weights_quantization_params_fn" (Some g))) True
         (sset "weights_quantization_params_fn" (Some g)) (fn_rel "weights_quantization_params_fn" g) I
         (fun c f => sset_by _ g f c) (fun w k => on_attr_fields w k _) (fun w k => on_attr_keys w k _)
         (fun w k k' => on_attr_get w k _ k')) as [H1 H2 H3 H4].
      split; [|exact H2|exact H3|].
      * intros w W. rewrite (H1 w W). split; [intros [k Hk]; right; exists a, k; auto|].
        intros [H|(a' & k & E & Hk)]; [discriminate|]. inversion E; subst. eauto.
      * intros w w' k f W E. specialize (H4 w w' k f W E). destruct H4 as [A B]. split.
        -- intros v (a' & g' & Ea & Eg & Nm & R). inversion Ea; inversion Eg; subst. apply A. split; assumption.
        -- intro H. apply B. intros v [Nm R]. apply (H v). exists a, g. auto.
    + apply wfun2_err; [eauto|]. intros c [H|(a & k & H & _)]; discriminate.
  - destruct w2_id as [H1 H2 H3 H4]. split; [|exact H2|exact H3|].
    + intros w W. split; [auto|eauto].
    + intros w w' k f W E. destruct (H4 w w' k f W E) as [A B]. split; [|intros _; apply B; intros v []].
      intros v (a & g & _ & H & _). discriminate.
Qed.

(* functions on the objects of a node *)
Definition upd {X} (P : Prop) (F : X -> result X) (x x' : option X) : Prop :=
  (P -> match x with Some c => exists c', F c = Ok c' /\ x' = Some c' | None => x' = None end) /\ (~ P -> x' = x).
Definition static (n n' : node) : Prop :=
  n_name n' = n_name n /\ n_class n' = n_class n /\ n_func n' = n_func n /\ n_weights n' = n_weights n /\ n_fattr n' = n_fattr n /\
  (forall o, is_final_act n' o <-> is_final_act n o) /\ (forall o, is_final_w n' o <-> is_final_w n o).
Definition pairc (FA : cfg -> result cfg) (FW : wcfg -> result wcfg) (c : cand) : result cand :=
  let! a := FA (c_act c) in let! w := FW (c_w c) in Ok (Cand a w).

Lemma mapM_nth {A B} (f : A -> result B) l l' : mapM f l = Ok l' ->
  forall i, match nth_error l i with Some a => exists b, f a = Ok b /\ nth_error l' i = Some b | None => nth_error l' i = None end.
Proof.
  revert l'. induction l as [|a l IH]; intros l' H; cbn in H.
  - inversion H; subst. intros [|i]; reflexivity.
  - destruct (f a) as [b|e] eqn:E; [|discriminate]. cbn in H. destruct (mapM f l) as [l1|e]; [|discriminate]. cbn in H.
    inversion H; subst. intros [|i]; cbn; [eauto|]. apply IH. reflexivity.
Qed.
Lemma mapM_total {A B} (f : A -> result B) l : (exists l', mapM f l = Ok l') <-> forall a, In a l -> exists b, f a = Ok b.
Proof.
  induction l as [|a l IH]; cbn; [split; [intros _ a []|eauto]|]. split.
  - intros [l' H]. destruct (f a) as [b|e] eqn:E; [|discriminate]. cbn in H. destruct (mapM f l) as [l1|e]; [|discriminate].
    intros x [<-|I]; [eauto|]. apply IH; eauto.
  - intro H. destruct (H a (or_introl eq_refl)) as [b ->]. cbn. destruct (proj2 IH) as [l1 ->]; [auto|]. cbn. eauto.
Qed.

Lemma each_cand_obj FA FW n n' : each_cand (pairc FA FW) n = Ok n' ->
  static n n' /\ (forall o, upd (is_cand_obj o) FA (obj_act n o) (obj_act n' o)) /\
  (forall o, upd (is_cand_obj o) FW (obj_w n o) (obj_w n' o)).
Proof.
  unfold each_cand. destruct (mapM (pairc FA FW) (n_cands n)) as [cs|e] eqn:E; [|discriminate]. cbn. intro H.
  inversion H; subst. clear H. pose proof (mapM_nth _ _ _ E) as N. split; [|split].
  - unfold static, is_final_act, is_final_w. cbn. intuition.
  - intro o. split.
    + unfold is_cand_obj. destruct o as [i|]; [intros _|congruence]. cbn. specialize (N i).
      destruct (nth_error (n_cands n) i) as [c|]; cbn.
      * destruct N as (b & Eb & ->). unfold pairc in Eb. destruct (FA (c_act c)) as [a|e]; [|discriminate]. cbn in Eb.
        destruct (FW (c_w c)) as [w|e]; [|discriminate]. inversion Eb; subst. cbn. eauto.
      * rewrite N. reflexivity.
    + unfold is_cand_obj. destruct o; [intro H; destruct H; discriminate|reflexivity].
  - intro o. split.
    + unfold is_cand_obj. destruct o as [i|]; [intros _|congruence]. cbn. specialize (N i).
      destruct (nth_error (n_cands n) i) as [c|]; cbn.
      * destruct N as (b & Eb & ->). unfold pairc in Eb. destruct (FA (c_act c)) as [a|e]; [|discriminate]. cbn in Eb.
        destruct (FW (c_w c)) as [w|e] eqn:Ew; [|discriminate]. inversion Eb; subst. cbn. eauto.
      * rewrite N. reflexivity.
    + unfold is_cand_obj. destruct o; [intro H; destruct H; discriminate|reflexivity].
Qed.
Lemma each_cand_total FA FW n :
  (exists n', each_cand (pairc FA FW) n = Ok n') <->
  (forall o c, is_cand_obj o -> obj_act n o = Some c -> exists c', FA c = Ok c') /\
  (forall o w, is_cand_obj o -> obj_w n o = Some w -> exists w', FW w = Ok w').
Proof.
  unfold each_cand. transitivity (exists cs, mapM (pairc FA FW) (n_cands n) = Ok cs).
  { destruct (mapM (pairc FA FW) (n_cands n)); cbn; split; intros [? ?]; try discriminate; eauto. }
  rewrite mapM_total. split.
  - intro H. split; intros [i|] x O E; try (exfalso; apply O; reflexivity); cbn in E;
      destruct (nth_error (n_cands n) i) as [c|] eqn:Ec; try discriminate; cbn in E; inversion E; subst;
      apply nth_error_In in Ec; destruct (H c Ec) as [b Eb]; unfold pairc in Eb.
    + destruct (FA (c_act c)); [eauto|discriminate].
    + destruct (FA (c_act c)); [|discriminate]. cbn in Eb. destruct (FW (c_w c)); [eauto|discriminate].
  - intros [HA HW] c I. apply In_nth_error in I. destruct I as [i Ei].
    destruct (HA (Some i) (c_act c)) as [a Ea]; [discriminate|cbn; rewrite Ei; reflexivity|].
    destruct (HW (Some i) (c_w c)) as [w Ew]; [discriminate|cbn; rewrite Ei; reflexivity|].
    unfold pairc. rewrite Ea. cbn. rewrite Ew. cbn. eauto.
Qed.

Lemma cands_replace n i c o f g : nth_error (n_cands n) i = Some c -> f = c_act g ->
  obj_act (with_cands n (replace_nth (n_cands n) i g)) o =
  if match o with Some j => Nat.eqb i j | None => false end then Some f else obj_act n o.
Proof.
  intros E ->. destruct o as [j|]; cbn; [|reflexivity]. rewrite nth_error_replace.
  destruct (Nat.eqb_spec i j) as [->|N]; [|reflexivity]. rewrite E. reflexivity.
Qed.
Lemma cands_replace_w n i c o f g : nth_error (n_cands n) i = Some c -> f = c_w g ->
  obj_w (with_cands n (replace_nth (n_cands n) i g)) o =
  if match o with Some j => Nat.eqb i j | None => false end then Some f else obj_w n o.
Proof.
  intros E ->. destruct o as [j|]; cbn; [|reflexivity]. rewrite nth_error_replace.
  destruct (Nat.eqb_spec i j) as [->|N]; [|reflexivity]. rewrite E. reflexivity.
Qed.
Lemma static_refl n : static n n.
Proof. unfold static. tauto. Qed.
Lemma upd_refl {X} (P : Prop) (F : X -> result X) x : (P -> x = None) -> upd P F x x.
Proof. intro H. split; [|reflexivity]. intro p. rewrite (H p). reflexivity. Qed.
Lemma upd_false {X} (F : X -> result X) x : upd False F x x.
Proof. split; [tauto|reflexivity]. Qed.

Lemma final_act_obj F n n' : on_final_act F n = Ok n' ->
  static n n' /\ (forall o, upd (is_final_act n o) F (obj_act n o) (obj_act n' o)) /\ (forall o, obj_w n' o = obj_w n o).
Proof.
  unfold on_final_act. destruct (n_fact n) as [[c|i]|] eqn:Ef.
  - destruct (F c) as [c'|e] eqn:E; [|discriminate]. cbn. intro H. inversion H; subst. clear H. split; [|split].
    + unfold static, is_final_act, is_final_w. cbn. rewrite Ef. intuition.
    + intro o. unfold is_final_act. rewrite Ef. destruct o as [j|]; cbn.
      * split; [tauto|reflexivity].
      * rewrite Ef. split; [eauto|tauto].
    + intro o. destruct o; reflexivity.
  - destruct (nth_error (n_cands n) i) as [c|] eqn:Ec.
    + destruct (F (c_act c)) as [a|e] eqn:E; [|discriminate]. cbn. intro H. inversion H; subst. clear H. split; [|split].
      * unfold static, is_final_act, is_final_w. cbn. intuition.
      * intro o. rewrite (cands_replace n i c o a (Cand a (c_w c)) Ec eq_refl). unfold is_final_act. rewrite Ef.
        destruct o as [j|]; [|split; [tauto|reflexivity]].
        destruct (Nat.eqb_spec i j) as [->|N]; [|split; [tauto|reflexivity]].
        split; [|tauto]. intros _. cbn. rewrite Ec. cbn. eauto.
      * intro o. rewrite (cands_replace_w n i c o (c_w c) (Cand a (c_w c)) Ec eq_refl).
        destruct o as [j|]; [|reflexivity]. destruct (Nat.eqb_spec i j) as [->|N]; [|reflexivity]. cbn. rewrite Ec. reflexivity.
    + intro H. inversion H; subst. split; [apply static_refl|split; [|reflexivity]]. intro o. apply upd_refl.
      unfold is_final_act. rewrite Ef. destruct o as [j|]; [intros <-|tauto]. cbn. rewrite Ec. reflexivity.
  - intro H. inversion H; subst. split; [apply static_refl|split; [|reflexivity]]. intro o. apply upd_refl.
    unfold is_final_act. rewrite Ef. tauto.
Qed.
Lemma final_act_total F n : (exists n', on_final_act F n = Ok n') <->
  forall o c, is_final_act n o -> obj_act n o = Some c -> exists c', F c = Ok c'.
Proof.
  unfold on_final_act, is_final_act. destruct (n_fact n) as [[c|i]|] eqn:Ef.
  - split.
    + intros [n' H] [j|] c0 O E; [tauto|]. cbn in E. rewrite Ef in E. inversion E; subst. destruct (F c0); [eauto|discriminate].
    + intro H. destruct (H None c) as [c' ->]; [exact I|cbn; rewrite Ef; reflexivity|]. cbn. eauto.
  - split.
    + intros [n' H] [j|] c0 O E; [|tauto]. subst. cbn in E. destruct (nth_error (n_cands n) j) as [c|]; [|discriminate].
      cbn in E. inversion E; subst. destruct (F (c_act c)); [eauto|discriminate].
    + intro H. destruct (nth_error (n_cands n) i) as [c|] eqn:Ec; [|eauto].
      destruct (H (Some i) (c_act c)) as [c' ->]; [reflexivity|cbn; rewrite Ec; reflexivity|]. cbn. eauto.
  - split; [intros _ o c []|eauto].
Qed.
Lemma final_w_obj F n n' : on_final_w F n = Ok n' ->
  static n n' /\ (forall o, upd (is_final_w n o) F (obj_w n o) (obj_w n' o)) /\ (forall o, obj_act n' o = obj_act n o).
Proof.
  unfold on_final_w. destruct (n_fw n) as [[c|i]|] eqn:Ef.
  - destruct (F c) as [c'|e] eqn:E; [|discriminate]. cbn. intro H. inversion H; subst. clear H. split; [|split].
    + unfold static, is_final_act, is_final_w. cbn. rewrite Ef. intuition.
    + intro o. unfold is_final_w. rewrite Ef. destruct o as [j|]; cbn.
      * split; [tauto|reflexivity].
      * rewrite Ef. split; [eauto|tauto].
    + intro o. destruct o; reflexivity.
  - destruct (nth_error (n_cands n) i) as [c|] eqn:Ec.
    + destruct (F (c_w c)) as [a|e] eqn:E; [|discriminate]. cbn. intro H. inversion H; subst. clear H. split; [|split].
      * unfold static, is_final_act, is_final_w. cbn. intuition.
      * intro o. rewrite (cands_replace_w n i c o a (Cand (c_act c) a) Ec eq_refl). unfold is_final_w. rewrite Ef.
        destruct o as [j|]; [|split; [tauto|reflexivity]].
        destruct (Nat.eqb_spec i j) as [->|N]; [|split; [tauto|reflexivity]].
        split; [|tauto]. intros _. cbn. rewrite Ec. cbn. eauto.
      * intro o. rewrite (cands_replace n i c o (c_act c) (Cand (c_act c) a) Ec eq_refl).
        destruct o as [j|]; [|reflexivity]. destruct (Nat.eqb_spec i j) as [->|N]; [|reflexivity]. cbn. rewrite Ec. reflexivity.
    + intro H. inversion H; subst. split; [apply static_refl|split; [|reflexivity]]. intro o. apply upd_refl.
      unfold is_final_w. rewrite Ef. destruct o as [j|]; [intros <-|tauto]. cbn. rewrite Ec. reflexivity.
  - intro H. inversion H; subst. split; [apply static_refl|split; [|reflexivity]]. intro o. apply upd_refl.
    unfold is_final_w. rewrite Ef. tauto.
Qed.
Lemma final_w_total F n : (exists n', on_final_w F n = Ok n') <->
  forall o c, is_final_w n o -> obj_w n o = Some c -> exists c', F c = Ok c'.
Proof.
  unfold on_final_w, is_final_w. destruct (n_fw n) as [[c|i]|] eqn:Ef.
  - split.
    + intros [n' H] [j|] c0 O E; [tauto|]. cbn in E. rewrite Ef in E. inversion E; subst. destruct (F c0); [eauto|discriminate].
    + intro H. destruct (H None c) as [c' ->]; [exact I|cbn; rewrite Ef; reflexivity|]. cbn. eauto.
  - split.
    + intros [n' H] [j|] c0 O E; [|tauto]. subst. cbn in E. destruct (nth_error (n_cands n) j) as [c|]; [|discriminate].
      cbn in E. inversion E; subst. destruct (F (c_w c)); [eauto|discriminate].
    + intro H. destruct (nth_error (n_cands n) i) as [c|] eqn:Ec; [|eauto].
      destruct (H (Some i) (c_w c)) as [c' ->]; [reflexivity|cbn; rewrite Ec; reflexivity|]. cbn. eauto.
  - split; [intros _ o c []|eauto].
Qed.

(* what an action leaves as it is *)
Definition keys_of (w : option wcfg) : option (list akey) := option_map (fun w => map fst (w_attrs w)) w.
Definition frame (n n' : node) : Prop :=
  n_name n' = n_name n /\ n_func n' = n_func n /\
  (forall o, is_final_act n' o <-> is_final_act n o) /\ (forall o, is_final_w n' o <-> is_final_w n o) /\
  (forall o, obj_act n' o = None <-> obj_act n o = None) /\ (forall o, keys_of (obj_w n' o) = keys_of (obj_w n o)).
Lemma frame_refl n : frame n n.
Proof. unfold frame. intuition. Qed.
Lemma frame_trans a b c : frame a b -> frame b c -> frame a c.
Proof.
  unfold frame. intros (N1 & F1 & A1 & W1 & O1 & K1) (N2 & F2 & A2 & W2 & O2 & K2).
  split; [congruence|]. split; [congruence|]. split; [intro o; rewrite A2; apply A1|]. split; [intro o; rewrite W2; apply W1|].
  split; [intro o; rewrite O2; apply O1|]. intro o. rewrite K2. apply K1.
Qed.
Lemma frame_wf n n' : frame n n' -> wf_node n -> wf_node n'.
Proof.
  intros (_ & _ & _ & _ & _ & K) W o w E. specialize (K o). rewrite E in K. cbn in K.
  destruct (obj_w n o) as [w0|] eqn:E0; cbn in K; [|discriminate]. inversion K as [K']. unfold wf_w. rewrite K'. exact (W o w0 E0).
Qed.

Lemma effect n n' PA PW FA FW okA okW RA RF RW (W : slot -> pyv -> Prop) :
  wf_node n -> afun FA okA RA -> wfun2 FW okW RF RW -> static n n' ->
  (forall o, PA o \/ ~ PA o) -> (forall o, PW o \/ ~ PW o) ->
  (forall o, upd (PA o) FA (obj_act n o) (obj_act n' o)) -> (forall o, upd (PW o) FW (obj_w n o) (obj_w n' o)) ->
  (forall o f v, W (S_act o f) v <-> PA o /\ exists c, obj_act n o = Some c /\ RA f (sget f c) v) ->
  (forall o f v, W (S_w o f) v <-> PW o /\ exists w, obj_w n o = Some w /\ RF f (sget f (w_fields w)) v) ->
  (forall o k f v, W (S_attr o k f) v <-> PW o /\ exists w, obj_w n o = Some w /\ RW w k f (wread w k f) v) ->
  (forall v, ~ W S_weights v) -> (forall v, ~ W S_fattr v) ->
  frame n n' /\ (forall s v, W s v -> read n' s = Some v) /\ (forall s, (forall v, ~ W s v) -> read n' s = read n s).
Proof.
  intros Wf HA HW (Sn & Sc & Sf & Sw & Sa & SA & SW) DA DW UA UW WA WF WW WN WN'.
  assert (XA : forall o c, obj_act n o = Some c -> exists c', obj_act n' o = Some c' /\
             forall f, by_rel (fun f x v => PA o /\ RA f x v) f (sget f c) (sget f c')).
  { intros o c E. destruct (UA o) as [U1 U2]. rewrite E in *. destruct (DA o) as [P|P].
    - destruct (U1 P) as (c' & Ec & ->). exists c'. split; [reflexivity|]. intro f.
      destruct (af_field _ _ _ HA c c' f Ec) as [B1 B2]. split; [intros v [_ R]; apply B1, R|].
      intro H. apply B2. intros v R. apply (H v). auto.
    - rewrite (U2 P). exists c. split; [reflexivity|]. intro f. split; [intros v [Q _]; tauto|reflexivity]. }
  assert (XW : forall o w, obj_w n o = Some w -> exists w', obj_w n' o = Some w' /\ map fst (w_attrs w') = map fst (w_attrs w) /\
             (forall f, by_rel (fun f x v => PW o /\ RF f x v) f (sget f (w_fields w)) (sget f (w_fields w'))) /\
             (forall k f, by_rel (fun f x v => PW o /\ RW w k f x v) f (wread w k f) (wread w' k f))).
  { intros o w E. destruct (UW o) as [U1 U2]. rewrite E in *. destruct (DW o) as [P|P].
    - destruct (U1 P) as (w' & Ew & ->). exists w'. split; [reflexivity|]. split; [apply (w2_keys _ _ _ _ HW), Ew|]. split.
      + intro f. destruct (w2_field _ _ _ _ HW w w' f Ew) as [B1 B2]. split; [intros v [_ R]; apply B1, R|].
        intro H. apply B2. intros v R. apply (H v). auto.
      + intros k f. destruct (w2_attr _ _ _ _ HW w w' k f (Wf o w E) Ew) as [B1 B2]. split; [intros v [_ R]; apply B1, R|].
        intro H. apply B2. intros v R. apply (H v). auto.
    - rewrite (U2 P). exists w. split; [reflexivity|]. split; [reflexivity|]. split.
      + intro f. split; [intros v [Q _]; tauto|reflexivity].
      + intros k f. split; [intros v [Q _]; tauto|reflexivity]. }
  assert (NA : forall o, obj_act n o = None -> obj_act n' o = None).
  { intros o E. destruct (UA o) as [U1 U2]. rewrite E in *. destruct (DA o); auto. }
  assert (NW : forall o, obj_w n o = None -> obj_w n' o = None).
  { intros o E. destruct (UW o) as [U1 U2]. rewrite E in *. destruct (DW o); auto. }
  split; [|split].
  - split; [exact Sn|]. split; [exact Sf|]. split; [exact SA|]. split; [exact SW|]. split; intro o.
    + split; [|apply NA]. intro E. destruct (obj_act n o) as [c|] eqn:Ec; [|reflexivity].
      destruct (XA o c Ec) as (c' & E' & _). congruence.
    + destruct (obj_w n o) as [w|] eqn:Ew; [|rewrite (NW o Ew); reflexivity].
      destruct (XW o w Ew) as (w' & -> & K & _). cbn. congruence.
  - intros s v H. destruct s as [o f|o f|o k f| |].
    + apply WA in H. destruct H as (P & c & E & R). destruct (XA o c E) as (c' & E' & B). cbn. rewrite E'. apply B. auto.
    + apply WF in H. destruct H as (P & w & E & R). destruct (XW o w E) as (w' & E' & _ & B & _). cbn. rewrite E'. apply B. auto.
    + apply WW in H. destruct H as (P & w & E & R). destruct (XW o w E) as (w' & E' & _ & _ & B). cbn. rewrite E'. apply B. auto.
    + destruct (WN v H).
    + destruct (WN' v H).
  - intros s H. destruct s as [o f|o f|o k f| |]; cbn.
    + destruct (obj_act n o) as [c|] eqn:E; [|rewrite (NA o E); reflexivity].
      destruct (XA o c E) as (c' & -> & B). apply B. intros v [P R]. apply (H v). apply WA. eauto.
    + destruct (obj_w n o) as [w|] eqn:E; [|rewrite (NW o E); reflexivity].
      destruct (XW o w E) as (w' & -> & _ & B & _). apply B. intros v [P R]. apply (H v). apply WF. eauto.
    + destruct (obj_w n o) as [w|] eqn:E; [|rewrite (NW o E); reflexivity].
      destruct (XW o w E) as (w' & -> & _ & _ & B). apply B. intros v [P R]. apply (H v). apply WW. eauto.
    + congruence.
    + congruence.
Qed.

Lemma dec_cand o : is_cand_obj o \/ ~ is_cand_obj o.
Proof. unfold is_cand_obj. destruct o; [left; discriminate|right; intro H; apply H; reflexivity]. Qed.
Lemma dec_fact n o : is_final_act n o \/ ~ is_final_act n o.
Proof.
  unfold is_final_act. destruct (n_fact n) as [[c|i]|], o as [j|]; try tauto. destruct (Nat.eq_dec i j); tauto.
Qed.
Lemma dec_fw n o : is_final_w n o \/ ~ is_final_w n o.
Proof.
  unfold is_final_w. destruct (n_fw n) as [[c|i]|], o as [j|]; try tauto. destruct (Nat.eq_dec i j); tauto.
Qed.

Lemma each_ext f g n : (forall c, f c = g c) -> each_cand f n = each_cand g n.
Proof.
  intro H. unfold each_cand. assert (mapM f (n_cands n) = mapM g (n_cands n)) as ->; [|reflexivity].
  induction (n_cands n) as [|c l IH]; cbn; [reflexivity|]. rewrite H, IH. reflexivity.
Qed.
Lemma each_w FW n : each_cand (fun c => let! w := FW (c_w c) in Ok (Cand (c_act c) w)) n = each_cand (pairc Ok FW) n.
Proof. reflexivity. Qed.
Lemma each_a FA n : each_cand (fun c => let! x := FA (c_act c) in Ok (Cand x (c_w c))) n = each_cand (pairc FA Ok) n.
Proof. apply each_ext. intro c. unfold pairc. destruct (FA (c_act c)); reflexivity. Qed.
Lemma each_p attr act w n :
  each_cand (params_fn attr act w) n =
  each_cand (pairc (fun c => Ok (match act with Some f => sset "activation_quantization_params_fn" (Some f) c | None => c end)) (w_fn attr w)) n.
Proof.
  apply each_ext. intro c. unfold params_fn, pairc, w_fn. cbn [bind]. destruct w as [g|]; [|reflexivity].
  destruct attr as [a|]; [|reflexivity]. destruct (get_attr (c_w c) a); reflexivity.
Qed.

Lemma kw_act_read P kw n o f v : kw_act P kw n (S_act o f) v <-> P o /\ exists c, obj_act n o = Some c /\ kw_rel kw f (sget f c) v.
Proof.
  unfold kw_act, kw_rel. split.
  - intros (o' & f' & E & Po & I & R). inversion E; subst. split; [exact Po|]. cbn in R.
    destruct (obj_act n o') as [c|]; [eauto|congruence].
  - intros (Po & c & E & I & R). exists o, f. repeat split; auto. cbn. rewrite E. exact R.
Qed.
Lemma kw_w_field P attr kw n o f v : kw_w P attr kw n (S_w o f) v <->
  P o /\ exists w, obj_w n o = Some w /\ (match attr with None => kw_rel kw | Some _ => no_rel end) f (sget f (w_fields w)) v.
Proof.
  unfold kw_w, kw_rel, no_rel. destruct attr as [a|].
  - split; [intros (o' & w & k & f' & E & _); discriminate|intros (_ & w & _ & [])].
  - split.
    + intros (o' & f' & E & Po & I & R). inversion E; subst. split; [exact Po|]. cbn in R.
      destruct (obj_w n o') as [w|]; [eauto|congruence].
    + intros (Po & w & E & I & R). exists o, f. repeat split; auto. cbn. rewrite E. exact R.
Qed.
Lemma kw_w_attr P attr kw n o k f v : kw_w P attr kw n (S_attr o k f) v <->
  P o /\ exists w, obj_w n o = Some w /\
    (match attr with None => fun _ _ => no_rel | Some a => name_rel a (kw_rel kw) end) w k f (wread w k f) v.
Proof.
  unfold kw_w, name_rel, kw_rel, no_rel. destruct attr as [a|].
  - split.
    + intros (o' & w & k' & f' & E & Po & Ew & Nm & I & R). inversion E; subst. split; [exact Po|]. exists w. split; [exact Ew|].
      split; [exact Nm|]. split; [exact I|]. cbn in R. rewrite Ew in R. exact R.
    + intros (Po & w & Ew & Nm & I & R). exists o, w, k, f. repeat split; auto; try apply Nm. cbn. rewrite Ew. exact R.
  - split; [intros (o' & f' & E & _); discriminate|intros (_ & w & _ & [])].
Qed.
Lemma meth_act_read T P m n o f v : meth_act T P (Some m) n (S_act o f) v <->
  P o /\ exists c, obj_act n o = Some c /\ act_method_sets T m f v.
Proof.
  unfold meth_act. split.
  - intros (o' & c & f' & m' & E & Po & Ec & Em & R). inversion E; inversion Em; subst. eauto.
  - intros (Po & c & E & R). exists o, c, f, m. auto.
Qed.
Lemma meth_w_attr T P a m n o k f v : meth_w T P a (Some m) n (S_attr o k f) v <->
  P o /\ exists w, obj_w n o = Some w /\ name_rel a (fun f _ v => w_method_sets T m f v) w k f (wread w k f) v.
Proof.
  unfold meth_w, name_rel. split.
  - intros (o' & w & k' & f' & m' & E & Po & Ec & Nm & Em & R). inversion E; inversion Em; subst. split; [exact Po|]. eauto.
  - intros (Po & w & E & Nm & R). exists o, w, k, f, m. auto 10.
Qed.

Ltac nope := intros; split; [unfold kw_act, kw_w, meth_act, meth_w; intros H; (destruct H as (? & H)); repeat (let x := fresh in destruct H as (x & H)); discriminate|intros (_ & ? & _ & []) ].

Lemma action_effect T a n n' : wf_node n -> wf_action a -> apply_action T a n = Ok n' ->
  frame n n' /\ (forall s v, writes T a n s v -> read n' s = Some v) /\
  (forall s, (forall v, ~ writes T a n s v) -> read n' s = read n s).
Proof.
  intros W Wa E. assert (Id : apply_action T a n = Ok n -> n' = n) by congruence.
  destruct a as [attr kw|attr kw|kw|kw|attr act w|m|m|a m|a m|cls fn]; cbn [apply_action writes wf_action] in *.
  - rewrite each_w in E. apply each_cand_obj in E. destruct E as (S & UA & UW).
    eapply (effect n n' is_cand_obj is_cand_obj); try exact S; try exact UA; try exact UW; try exact W;
      [exact af_id|apply w2_kw, Wa|apply dec_cand|apply dec_cand| |apply kw_w_field|apply kw_w_attr| |].
    + intros o f v. split; [|intros (_ & ? & _ & [])]. unfold kw_w. destruct attr; [intros (? & ? & ? & ? & Q & _)|intros (? & ? & Q & _)]; discriminate.
    + intros v. unfold kw_w. destruct attr; [intros (? & ? & ? & ? & Q & _)|intros (? & ? & Q & _)]; discriminate.
    + intros v. unfold kw_w. destruct attr; [intros (? & ? & ? & ? & Q & _)|intros (? & ? & Q & _)]; discriminate.
  - apply final_w_obj in E. destruct E as (S & UW & UA).
    eapply (effect n n' (fun _ => False) (is_final_w n)); try exact S; try exact UW; try exact W;
      [exact af_id|apply w2_kw, Wa|tauto|apply dec_fw| | |apply kw_w_field|apply kw_w_attr| |].
    + intro o. rewrite UA. apply upd_false.
    + intros o f v. split; [|intros ([] & _)]. unfold kw_w. destruct attr; [intros (? & ? & ? & ? & Q & _)|intros (? & ? & Q & _)]; discriminate.
    + intros v. unfold kw_w. destruct attr; [intros (? & ? & ? & ? & Q & _)|intros (? & ? & Q & _)]; discriminate.
    + intros v. unfold kw_w. destruct attr; [intros (? & ? & ? & ? & Q & _)|intros (? & ? & Q & _)]; discriminate.
  - rewrite each_a in E. apply each_cand_obj in E. destruct E as (S & UA & UW).
    eapply (effect n n' is_cand_obj is_cand_obj); try exact S; try exact UA; try exact UW; try exact W;
      [apply af_kw, Wa|exact w2_id|apply dec_cand|apply dec_cand|apply kw_act_read| | | |].
    + intros o f v. split; [intros (? & ? & Q & _); discriminate|intros (_ & ? & _ & [])].
    + intros o k f v. split; [intros (? & ? & Q & _); discriminate|intros (_ & ? & _ & [])].
    + intros v (? & ? & Q & _). discriminate.
    + intros v (? & ? & Q & _). discriminate.
  - apply final_act_obj in E. destruct E as (S & UA & UW).
    eapply (effect n n' (is_final_act n) (fun _ => False)); try exact S; try exact UA; try exact W;
      [apply af_kw, Wa|exact w2_id|apply dec_fact|tauto| |apply kw_act_read| | | |].
    + intro o. rewrite UW. apply upd_false.
    + intros o f v. split; [intros (? & ? & Q & _); discriminate|intros ([] & _)].
    + intros o k f v. split; [intros (? & ? & Q & _); discriminate|intros ([] & _)].
    + intros v (? & ? & Q & _). discriminate.
    + intros v (? & ? & Q & _). discriminate.
  - rewrite each_p in E. apply each_cand_obj in E. destruct E as (S & UA & UW).
    eapply (effect n n' is_cand_obj is_cand_obj); try exact S; try exact UA; try exact UW; try exact W;
      [apply af_fn|apply w2_fn|apply dec_cand|apply dec_cand| | | | |].
    + intros o f v. split.
      * intros [(o' & c & g & Q & P & Ec & -> & ->)|(? & ? & ? & ? & ? & Q & _)]; [|discriminate]. inversion Q; subst.
        split; [exact P|]. exists c. split; [exact Ec|]. split; reflexivity.
      * intros (P & c & Ec & R). left. destruct act as [g|]; [|destruct R]. destruct R as [-> ->]. exists o, c, g. auto.
    + intros o f v. split; [intros [(? & ? & ? & Q & _)|(? & ? & ? & ? & ? & Q & _)]; discriminate|intros (_ & ? & _ & [])].
    + intros o k f v. split.
      * intros [(? & ? & ? & Q & _)|(o' & wc & k' & a & g & Q & P & Ew & -> & Nm & -> & ->)]; [discriminate|]. inversion Q; subst.
        split; [exact P|]. exists wc. split; [exact Ew|]. exists a, g. split; [reflexivity|]. split; [reflexivity|]. split; [exact Nm|].
        split; reflexivity.
      * intros (P & wc & Ew & a & g & -> & -> & Nm & -> & ->). right. exists o, wc, k, a, g. auto 10.
    + intros v [(? & ? & ? & Q & _)|(? & ? & ? & ? & ? & Q & _)]; discriminate.
    + intros v [(? & ? & ? & Q & _)|(? & ? & ? & ? & ? & Q & _)]; discriminate.
  - destruct m as [m|].
    + apply final_act_obj in E. destruct E as (S & UA & UW).
      eapply (effect n n' (is_final_act n) (fun _ => False)); try exact S; try exact UA; try exact W;
        [apply af_final_method|exact w2_id|apply dec_fact|tauto| |apply meth_act_read| | | |].
      * intro o. rewrite UW. apply upd_false.
      * intros o f v. split; [intros (? & ? & ? & ? & Q & _); discriminate|intros ([] & _)].
      * intros o k f v. split; [intros (? & ? & ? & ? & Q & _); discriminate|intros ([] & _)].
      * intros v (? & ? & ? & ? & Q & _). discriminate.
      * intros v (? & ? & ? & ? & Q & _). discriminate.
    + rewrite (Id eq_refl). split; [apply frame_refl|]. split; [|auto]. intros s v (? & ? & ? & ? & _ & _ & _ & Q & _). discriminate.
  - destruct m as [m|].
    + rewrite each_a in E. apply each_cand_obj in E. destruct E as (S & UA & UW).
      eapply (effect n n' is_cand_obj is_cand_obj); try exact S; try exact UA; try exact UW; try exact W;
        [apply af_cand_method|exact w2_id|apply dec_cand|apply dec_cand|apply meth_act_read| | | |].
      * intros o f v. split; [intros (? & ? & ? & ? & Q & _); discriminate|intros (_ & ? & _ & [])].
      * intros o k f v. split; [intros (? & ? & ? & ? & Q & _); discriminate|intros (_ & ? & _ & [])].
      * intros v (? & ? & ? & ? & Q & _). discriminate.
      * intros v (? & ? & ? & ? & Q & _). discriminate.
    + rewrite (Id eq_refl). split; [apply frame_refl|]. split; [|auto]. intros s v (? & ? & ? & ? & _ & _ & _ & Q & _). discriminate.
  - destruct m as [m|].
    + apply final_w_obj in E. destruct E as (S & UW & UA).
      eapply (effect n n' (fun _ => False) (is_final_w n)); try exact S; try exact UW; try exact W;
        [exact af_id|apply w2_method|tauto|apply dec_fw| | | |apply meth_w_attr| |].
      * intro o. rewrite UA. apply upd_false.
      * intros o f v. split; [intros (? & ? & ? & ? & ? & Q & _); discriminate|intros ([] & _)].
      * intros o f v. split; [intros (? & ? & ? & ? & ? & Q & _); discriminate|intros (_ & ? & _ & [])].
      * intros v (? & ? & ? & ? & ? & Q & _). discriminate.
      * intros v (? & ? & ? & ? & ? & Q & _). discriminate.
    + rewrite (Id eq_refl). split; [apply frame_refl|]. split; [|auto]. intros s v (? & ? & ? & ? & ? & _ & _ & _ & _ & Q & _). discriminate.
  - destruct m as [m|].
    + rewrite each_w in E. apply each_cand_obj in E. destruct E as (S & UA & UW).
      eapply (effect n n' is_cand_obj is_cand_obj); try exact S; try exact UA; try exact UW; try exact W;
        [exact af_id|apply w2_method|apply dec_cand|apply dec_cand| | |apply meth_w_attr| |].
      * intros o f v. split; [intros (? & ? & ? & ? & ? & Q & _); discriminate|intros (_ & ? & _ & [])].
      * intros o f v. split; [intros (? & ? & ? & ? & ? & Q & _); discriminate|intros (_ & ? & _ & [])].
      * intros v (? & ? & ? & ? & ? & Q & _). discriminate.
      * intros v (? & ? & ? & ? & ? & Q & _). discriminate.
    + rewrite (Id eq_refl). split; [apply frame_refl|]. split; [|auto]. intros s v (? & ? & ? & ? & ? & _ & _ & _ & _ & Q & _). discriminate.
  - clear Id. match type of E with bind ?X _ = _ => destruct X as [[ws fa]|e] eqn:Ef end; [|discriminate]. cbn in E.
    inversion E; subst. clear E. split; [|split].
    + unfold frame, is_final_act, is_final_w. cbn. intuition; destruct o; reflexivity || assumption.
    + intros s v (ws' & fa' & E' & H). assert (ws' = ws /\ fa' = fa) as [-> ->] by (split; congruence). destruct H as [[-> ->]|[-> ->]]; reflexivity.
    + intros s H. destruct s as [o f|o f|o k f| |]; try (destruct o; reflexivity).
      * exfalso. apply (H ws). eauto 10.
      * exfalso. apply (H fa). eauto 10.
Qed.

Lemma action_total T a n : wf_node n -> wf_action a -> (exists n', apply_action T a n = Ok n') <-> applicable T a n.
Proof.
  intros W Wa. assert (Tr : forall x : node, (exists n', Ok x = Ok n') <-> True) by (intro x; split; [tauto|eauto]).
  destruct a as [attr kw|attr kw|kw|kw|attr act w|m|m|a m|a m|cls fn]; cbn [apply_action applicable wf_action] in *.
  - rewrite each_w, each_cand_total. unfold kw_w_ok. split.
    + intros [_ H] o w P E. apply (w2_ok _ _ _ _ (w2_kw attr kw Wa) w (W o w E)). eauto.
    + intro H. split; [eauto|]. intros o w P E. apply (w2_ok _ _ _ _ (w2_kw attr kw Wa) w (W o w E)). exact (H o w P E).
  - rewrite final_w_total. unfold kw_w_ok. split.
    + intros H o w P E. apply (w2_ok _ _ _ _ (w2_kw attr kw Wa) w (W o w E)). eauto.
    + intros H o w P E. apply (w2_ok _ _ _ _ (w2_kw attr kw Wa) w (W o w E)). exact (H o w P E).
  - rewrite each_a, each_cand_total. split.
    + intros [H _] N. destruct (n_cands n) as [|c cs] eqn:Ec; [congruence|]. apply (af_ok _ _ _ (af_kw kw Wa) (c_act c)).
      apply (H (Some 0%nat)); [discriminate|cbn; rewrite Ec; reflexivity].
    + intro H. split; [|eauto]. intros [i|] c O E; [|destruct O; reflexivity]. apply (af_ok _ _ _ (af_kw kw Wa) c). apply H.
      intro N. cbn in E. rewrite N in E. destruct i; discriminate.
  - rewrite final_act_total. split.
    + intros H (o & c & P & E). apply (af_ok _ _ _ (af_kw kw Wa) c). eauto.
    + intros H o c P E. apply (af_ok _ _ _ (af_kw kw Wa) c). eauto.
  - rewrite each_p, each_cand_total. split.
    + intros [_ H] o wc g P E ->. destruct (proj1 (w2_ok _ _ _ _ (w2_fn attr (Some g)) wc (W o wc E)) (H o wc P E)) as [Q|Q]; [discriminate|exact Q].
    + intro H. split; [eauto|]. intros o wc P E. apply (w2_ok _ _ _ _ (w2_fn attr w) wc (W o wc E)).
      destruct w as [g|]; [right; eauto|left; reflexivity].
  - destruct m as [m|].
    + rewrite final_act_total. split.
      * intros H o c m' P E Em. inversion Em; subst. apply (af_ok _ _ _ (af_final_method T m') c). eauto.
      * intros H o c P E. apply (af_ok _ _ _ (af_final_method T m) c). eauto.
    + rewrite Tr. split; [|tauto]. intros _ o c m' P E Q. discriminate.
  - destruct m as [m|].
    + rewrite each_a, each_cand_total. split.
      * intros [H _] m' N Em. inversion Em; subst. destruct (n_cands n) as [|c cs] eqn:Ec; [congruence|].
        apply (af_ok _ _ _ (af_cand_method T m') (c_act c)). apply (H (Some 0%nat)); [discriminate|cbn; rewrite Ec; reflexivity].
      * intro H. split; [|eauto]. intros [i|] c O E; [|destruct O; reflexivity]. apply (af_ok _ _ _ (af_cand_method T m) c). apply H; [|reflexivity].
        intro N. cbn in E. rewrite N in E. destruct i; discriminate.
    + rewrite Tr. split; [|tauto]. intros _ m' N Q. discriminate.
  - destruct m as [m|].
    + rewrite final_w_total. unfold meth_w_ok. split.
      * intros H o w m' P E Em. inversion Em; subst. apply (w2_ok _ _ _ _ (w2_method T a m') w (W o w E)). eauto.
      * intros H o w P E. apply (w2_ok _ _ _ _ (w2_method T a m) w (W o w E)). eauto.
    + rewrite Tr. split; [|tauto]. intros _ o w m' P E Q. discriminate.
  - destruct m as [m|].
    + rewrite each_w, each_cand_total. unfold meth_w_ok. split.
      * intros [_ H] o w m' P E Em. inversion Em; subst. apply (w2_ok _ _ _ _ (w2_method T a m') w (W o w E)). eauto.
      * intro H. split; [eauto|]. intros o w P E. apply (w2_ok _ _ _ _ (w2_method T a m) w (W o w E)). eauto.
    + rewrite Tr. split; [|tauto]. intros _ o w m' P E Q. discriminate.
  - match goal with |- context [bind ?X _] => destruct X as [[ws fa]|e] end; cbn; split; intros [? ?]; try discriminate; eauto.
Qed.
