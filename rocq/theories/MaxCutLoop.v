(* MaxCutLoop.v -- the best-first loop: soundness, optimality, termination, on a graph with the facts of MaxCutSearch. *)
From Coq Require Import Permutation Lqa.
From Verif Require Import Base RoundQ RoundQFacts MaxCutModel MaxCutSearch.
Open Scope nat_scope.

Lemma extract_some {A} (f : A -> bool) l x r : extract f l = Some (x, r) -> f x = true /\ Permutation l (x :: r).
Proof.
  revert x r. induction l as [|y l IH]; cbn; intros x r H; [discriminate|].
  destruct (f y) eqn:E; [inversion H; subst; auto|].
  destruct (extract f l) as [[z r']|] eqn:E'; [|discriminate]. inversion H; subst.
  destruct (IH _ _ eq_refl) as [A1 A2]. split; auto. rewrite A2. apply perm_swap.
Qed.
Lemma extract_none {A} (f : A -> bool) l : extract f l = None -> forall x, In x l -> f x = false.
Proof.
  induction l as [|y l IH]; cbn; intros H x Hx; [destruct Hx|].
  destruct (f y) eqn:E; [discriminate|]. destruct (extract f l) as [[z r']|] eqn:E'; [discriminate|].
  destruct Hx as [<-|Hx]; auto.
Qed.
Lemma rotate_perm {A} k (l : list A) : Permutation l (rotate k l).
Proof. unfold rotate. rewrite <- (firstn_skipn k l) at 1. apply Permutation_app_comm. Qed.
Lemma forallb_perm {A} (f : A -> bool) l l' : Permutation l l' -> forallb f l = forallb f l'.
Proof. induction 1; cbn; auto; try congruence. destruct (f x), (f y); auto. Qed.

Lemma Qlt_b_iff x y : Qlt_b x y = true <-> (x < y)%Q.
Proof.
  unfold Qlt_b. destruct (Qle_bool y x) eqn:E; cbn.
  - apply Qle_bool_iff in E. split; [discriminate|intros; lra].
  - split; auto. intros _. apply Qnot_le_lt. intros A. apply Qle_bool_iff in A. congruence.
Qed.
Lemma key_le_prio est e e' : key_le est e e' = true -> (prio est e <= prio est e')%Q.
Proof.
  unfold key_le. rewrite orb_true_iff, andb_true_iff, Qlt_b_iff, Qeq_bool_iff. intros [H|[H _]]; lra.
Qed.
Lemma key_le_refl est e : key_le est e e = true.
Proof. unfold key_le. rewrite Nat.leb_refl. assert (Qeq_bool (prio est e) (prio est e) = true) as -> by (apply Qeq_bool_iff; reflexivity). destruct (Qlt_b _ _); auto. Qed.
Lemma key_le_total est e e' : key_le est e e' = true \/ key_le est e' e = true.
Proof.
  unfold key_le. rewrite !orb_true_iff, !andb_true_iff, !Qlt_b_iff, !Qeq_bool_iff, !Nat.leb_le.
  destruct (Q_dec (prio est e) (prio est e')) as [[H|H]|H]; [left; auto|right; auto|].
  destruct (le_lt_dec (length (e_route e')) (length (e_route e))); [left|right]; right; split; auto; try lia. symmetry; auto.
Qed.
Lemma key_le_trans est e1 e2 e3 : key_le est e1 e2 = true -> key_le est e2 e3 = true -> key_le est e1 e3 = true.
Proof.
  unfold key_le. rewrite !orb_true_iff, !andb_true_iff, !Qlt_b_iff, !Qeq_bool_iff, !Nat.leb_le.
  intros [A|[A A']] [B|[B B']]; [left; lra|left; lra|left; lra|right; split; [lra|lia]].
Qed.
Lemma minimal_exists est l : l <> [] -> exists e, In e l /\ minimal est l e = true.
Proof.
  intros Hl. assert (H : forall l0, l0 <> [] -> exists e, In e l0 /\ forall e', In e' l0 -> key_le est e e' = true).
  { induction l0 as [|x l0 IH]; [congruence|]. intros _. destruct l0 as [|y l0].
    - exists x. split; cbn; auto. intros e' [<-|[]]. apply key_le_refl.
    - destruct IH as (m & Hm & Lm); [discriminate|]. destruct (key_le_total est x m) as [A|A].
      + exists x. split; [left; auto|]. intros e' [<-|H']; [apply key_le_refl|]. eapply key_le_trans; eauto.
      + exists m. split; [right; auto|]. intros e' [<-|H']; auto. }
  destruct (H l Hl) as (e & He & L). exists e. split; auto. unfold minimal. apply forallb_forall. auto.
Qed.
Lemma choose_some pick est open : open <> [] -> exists e rest, choose pick est open = Some (e, rest).
Proof.
  intros H. destruct (minimal_exists est open H) as (m & Hm & Mm). unfold choose.
  destruct (extract _ _) as [[e rest]|] eqn:E; [eauto|]. exfalso.
  apply extract_none with (x := m) in E; [congruence|]. eapply Permutation_in; [apply rotate_perm|]. auto.
Qed.
Lemma choose_spec pick est open e rest : choose pick est open = Some (e, rest) ->
  Permutation open (e :: rest) /\ forall e', In e' open -> key_le est e e' = true.
Proof.
  unfold choose. intros H. apply extract_some in H. destruct H as [A B]. split.
  - rewrite <- B. apply rotate_perm.
  - unfold minimal in A. rewrite forallb_forall in A. auto.
Qed.
Lemma natq_le m n : (natq m <= natq n)%Q <-> m <= n.
Proof. unfold natq. rewrite <- Zle_Qle. lia. Qed.

Section Loop.
Variable g : mgraph.
Variable N : list opn.
Variable rank : opn -> nat.
Variable M : nat.
Hypothesis G : gfacts g N rank M.
Hypothesis Hba : forall t, NoDup (ten_children (astar_graph g) t).
Variable pick : list entry -> nat.
Variable est : Q.
Notation sched := (sched g N).
Notation complete := (complete g N).
Notation costR := (costR g).
Notation entryR := (entryR g).
Notation cands r := (candidates g (cleanR g r)).

Definition good (rs : list (list opn)) : Prop :=
  forall tau, complete tau -> exists r s, In r rs /\ complete (s ++ r) /\ (natq (costR (s ++ r)) <= Qmax_ est (natq (costR tau)))%Q.
Lemma cost_suffix s r : costR r <= costR (s ++ r).
Proof. induction s; cbn [app MaxCutSearch.costR]; auto. lia. Qed.
Lemma good_perm rs rs' : Permutation rs rs' -> good rs -> good rs'.
Proof. intros P H tau Ht. destruct (H tau Ht) as (r & s & Hr & X). exists r, s. split; auto. eapply Permutation_in; eauto. Qed.
Lemma prio_entry r : prio est (entryR r) = Qmax_ (natq (costR r)) est.
Proof. reflexivity. Qed.

Lemma good_cost rs r tau : good rs -> (forall r', In r' rs -> key_le est (entryR r) (entryR r') = true) -> complete tau ->
  (Qmax_ (natq (costR r)) est <= Qmax_ est (natq (costR tau)))%Q.
Proof.
  intros Gd Hm Ht. destruct (Gd tau Ht) as (r' & s & Hr' & Hc & Hle).
  pose proof (key_le_prio _ _ _ (Hm r' Hr')) as K. rewrite !prio_entry in K.
  pose proof (cost_suffix s r') as C. apply natq_le in C.
  eapply Qle_trans; [exact K|].
  destruct (Qmax_case (natq (costR r')) est) as [-> | ->]; [lra|]. apply Qmax_ub_l.
Qed.

Lemma good_step rs r rest : Forall sched rs -> Permutation rs (r :: rest) ->
  (forall r', In r' rs -> key_le est (entryR r) (entryR r') = true) -> ~ In TgtA2 r -> good rs ->
  good ((if is_pivot g (cutR g r) then [] else rest) ++ map (fun o => o :: r) (cands r)).
Proof.
  intros Fs P Hm HT Gd tau Ht.
  assert (S : sched r). { rewrite Forall_forall in Fs. apply Fs. eapply Permutation_in; [symmetry; eauto|]. left; auto. }
  assert (Next : forall s, complete (s ++ r) -> exists s' o, s = s' ++ [o] /\ In (o :: r) (map (fun o => o :: r) (cands r)) ).
  { intros s [Sc Hc]. destruct (exists_last (l := s)) as (s' & o & ->).
    - intros ->. cbn in Hc. contradiction.
    - exists s', o. split; auto. apply in_map_iff. exists o. split; auto.
      apply (candidates_spec g N rank M G Hba r S). rewrite <- app_assoc in Sc. cbn in Sc.
      eapply (sched_app g N s'); eauto. discriminate. }
  destruct (is_pivot g (cutR g r)) eqn:EP.
  - destruct (is_pivot_pivotal g N rank M G r S EP) as (p & HP & Hp).
    destruct (pivot_split g N rank M G r p tau S HT HP Hp Ht) as (s & r0 & -> & Hr0 & Eq).
    destruct Ht as [St Htt].
    destruct (transplant g N rank M G s r r0 St Hr0 S Eq) as [S2 C2].
    assert (Hc : complete (s ++ r)).
    { split; auto. apply in_app_iff in Htt. apply in_app_iff. destruct Htt as [|A]; auto. right. apply Eq; auto. }
    destruct (Next s Hc) as (s' & o & -> & Hin).
    exists (o :: r), s'. split; [apply in_app_iff; auto|].
    rewrite <- ?app_assoc in *. cbn [app] in *. split; auto.
    assert (K := good_cost rs r (s' ++ o :: r0) Gd Hm (conj St Htt)).
    pose proof (Qmax_ub_l (natq (costR r)) est) as U.
    apply natq_le in C2. eapply Qle_trans; [exact C2|].
    destruct (Nat.max_spec (costR r) (costR (s' ++ o :: r0))) as [[_ ->]|[_ ->]]; [apply Qmax_ub_r|lra].
  - destruct (Gd tau Ht) as (r' & s & Hr' & Hc & Hle).
    apply (Permutation_in _ P) in Hr'. destruct Hr' as [<-|Hr'].
    + destruct (Next s Hc) as (s' & o & -> & Hin). exists (o :: r), s'. split; [apply in_app_iff; auto|].
      rewrite <- ?app_assoc in *. cbn [app] in *. split; auto.
    + exists r', s. split; [apply in_app_iff; auto|]. split; auto.
Qed.
Lemma sched_step rs r rest (piv : bool) : Forall sched rs -> Permutation rs (r :: rest) ->
  Forall sched ((if piv then [] else rest) ++ map (fun o => o :: r) (cands r)).
Proof.
  intros Fs P. assert (F' : Forall sched (r :: rest)) by (eapply Permutation_Forall; eauto). inversion F'; subst.
  apply Forall_app. split; [destruct piv; auto|]. apply Forall_forall. intros x Hx. apply in_map_iff in Hx. destruct Hx as (o & <- & Ho).
  apply (candidates_spec g N rank M G Hba r H1). auto.
Qed.

(* one iteration, seen on orders *)
Definition result_of (r : list opn) : list nat * nat * list (list (nat * nat)) :=
  (real_ops (rev r), costR r, map (fun c => real_tens (c_elems c)) (routeR g r)).
Lemma loop_unfold limit rs : Forall sched rs ->
  (rs = [] /\ solve_loop g pick est (S limit) (map entryR rs) = None) \/
  exists r rest, Permutation rs (r :: rest) /\ sched r /\ (forall r', In r' rs -> key_le est (entryR r) (entryR r') = true) /\
    ((In TgtA2 r /\ solve_loop g pick est (S limit) (map entryR rs) = Some (result_of r)) \/
     (~ In TgtA2 r /\ solve_loop g pick est (S limit) (map entryR rs)
        = solve_loop g pick est limit (map entryR ((if is_pivot g (cutR g r) then [] else rest) ++ map (fun o => o :: r) (cands r))))).
Proof.
  intros Fs. cbn [solve_loop]. destruct rs as [|r0 rs0].
  - left. split; auto. unfold choose, rotate. rewrite skipn_nil, firstn_nil. reflexivity.
  - right. set (rs := r0 :: rs0) in *.
    destruct (choose_some pick est (map entryR rs)) as (e & rest & E); [discriminate|]. rewrite E.
    destruct (choose_spec _ _ _ _ _ E) as [P Hm].
    symmetry in P. apply Permutation_map_inv in P. destruct P as (l & El & Pl).
    destruct l as [|r l]; [discriminate|]. cbn in El. inversion El; subst e rest.
    exists r, l. split; auto.
    assert (S : sched r). { rewrite Forall_forall in Fs. apply Fs. eapply Permutation_in; [symmetry; eauto|]. left; auto. }
    split; auto. split.
    { intros r' Hr'. apply Hm. apply in_map; auto. }
    assert (T := is_target_iff g N rank M G r S).
    change (e_cut (entryR r)) with (cutR g r) in *. destruct (is_target (cutR g r)) eqn:ET.
    + left. split; [apply T; auto|]. unfold result_of.
      destruct r as [|o r']; [inversion S|]. reflexivity.
    + right. split; [rewrite <- T; discriminate|]. f_equal.
      assert (X := expand_entries g N rank M G Hba r S). change (e_cut (entryR r)) with (cutR g r) in X. rewrite map_app, <- X. destruct (is_pivot g (cutR g r)); reflexivity.
Qed.

Lemma loop_sound limit : forall rs res, Forall sched rs -> solve_loop g pick est limit (map entryR rs) = Some res ->
  exists r, complete r /\ res = result_of r /\
    (good rs -> forall tau, complete tau -> (natq (costR r) <= Qmax_ est (natq (costR tau)))%Q).
Proof.
  induction limit as [|limit IH]; intros rs res Fs H; [discriminate|].
  destruct (loop_unfold limit rs Fs) as [[_ E]|(r & rest & P & S & Hm & [[HT E]|[HT E]])]; rewrite E in H; [discriminate| |].
  - inversion H; subst. exists r. repeat split; auto. intros Gd tau Ht.
    eapply Qle_trans; [|eapply good_cost; eauto]. apply Qmax_ub_l.
  - destruct (IH _ _ (sched_step rs r rest _ Fs P) H) as (r' & A & B & C). exists r'. repeat split; try apply A; auto.
    intros Gd. apply C. eapply good_step; eauto.
Qed.

Lemma good_init : good [[SrcA]].
Proof.
  intros tau [S HT].
  assert (X : forall r, sched r -> exists s, r = s ++ [SrcA]).
  { induction 1; [exists []; auto|]. destruct IHsched as (s & ->). exists (o :: s). auto. }
  destruct (X tau S) as (s & ->). exists [SrcA], s. split; [cbn; auto|]. split; [split; auto|]. apply Qmax_ub_r.
Qed.

(* ---- termination ---- *)
Lemma sched_length r : sched r -> length r <= length N.
Proof. intros S. apply NoDup_incl_length; [eapply sched_nodup; eauto|eapply sched_N; eauto]. Qed.
Lemma complete_length r : sched r -> In TgtA2 r -> length r = length N.
Proof.
  intros S HT. apply Nat.le_antisymm; [apply sched_length; auto|].
  apply NoDup_incl_length; [apply (gf_Nnodup _ _ _ _ G)|]. intros o Ho. eapply complete_all; eauto.
Qed.
Definition K := length N + 2.
Fixpoint weight (rs : list (list opn)) : nat := match rs with [] => 0 | r :: rs' => K ^ (length N + 1 - length r) + weight rs' end.
Lemma weight_perm a c : Permutation a c -> weight a = weight c.
Proof. induction 1; cbn [weight]; lia. Qed.
Lemma weight_app a c : weight (a ++ c) = weight a + weight c.
Proof. induction a; cbn [app weight]; auto. rewrite IHa; lia. Qed.
Lemma weight_new r l : weight (map (fun o => o :: r) l) = length l * K ^ (length N + 1 - S (length r)).
Proof. induction l; [reflexivity|]. cbn [map weight length]. rewrite IHl. lia. Qed.
Lemma weight_step rs r rest (piv : bool) : Permutation rs (r :: rest) -> sched r ->
  weight ((if piv then [] else rest) ++ map (fun o => o :: r) (cands r)) < weight rs.
Proof.
  intros P S. rewrite (weight_perm _ _ P), weight_app, weight_new. cbn [weight].
  assert (L : length (cands r) <= length N).
  { destruct (candidates_spec g N rank M G Hba r S) as [A B]. apply NoDup_incl_length; auto.
    intros o Ho. apply B in Ho. eapply sched_N; eauto. left; auto. }
  pose proof (sched_length r S).
  replace (length N + 1 - length r) with (1 + (length N + 1 - (1 + length r))) by lia. cbn [Nat.pow Nat.add].
  set (p := K ^ (length N + 1 - _)).
  assert (1 <= p) by (apply Nat.neq_0_lt_0, Nat.pow_nonzero; unfold K; lia).
  assert (length (cands r) * p < K * p).
  { apply Nat.mul_lt_mono_pos_r; [lia|]. unfold K; lia. }
  destruct piv; cbn [weight]; lia.
Qed.
Lemma loop_total limit : forall rs, Forall sched rs -> rs <> [] -> weight rs < limit -> exists res, solve_loop g pick est limit (map entryR rs) = Some res.
Proof.
  induction limit as [|limit IH]; intros rs Fs Hne W; [lia|].
  destruct (loop_unfold limit rs Fs) as [[E _]|(r & rest & P & S & Hm & [[HT E]|[HT E]])]; [congruence|rewrite E; eauto|].
  rewrite E. apply IH.
  - eapply sched_step; eauto.
  - destruct (sched_extend g N rank M G r S HT) as (o & So). apply (candidates_spec g N rank M G Hba r S) in So.
    intros A. apply (in_map (fun o => o :: r)) in So. destruct (app_eq_nil _ _ A) as [_ A']. rewrite A' in So. destruct So.
  - pose proof (weight_step rs r rest (is_pivot g (cutR g r)) P S). lia.
Qed.

(* an estimate that no partial order exceeds: the deepest cut is expanded first, straight to the target *)
Lemma loop_dive limit : (forall r, sched r -> (natq (costR r) <= est)%Q) ->
  forall rs r0, Forall sched rs -> In r0 rs -> length N - length r0 < limit -> exists res, solve_loop g pick est limit (map entryR rs) = Some res.
Proof.
  intros He. induction limit as [|limit IH]; intros rs r0 Fs Hin W; [lia|].
  destruct (loop_unfold limit rs Fs) as [[-> _]|(r & rest & P & S & Hm & [[HT E]|[HT E]])]; [destruct Hin|rewrite E; eauto|].
  rewrite E. destruct (sched_extend g N rank M G r S HT) as (o & So).
  apply (IH _ (o :: r)).
  - eapply sched_step; eauto.
  - apply in_app_iff. right. apply in_map_iff. exists o. split; auto. apply (candidates_spec g N rank M G Hba r S); auto.
  - assert (S0 : sched r0) by (rewrite Forall_forall in Fs; auto).
    assert (EP : forall x, sched x -> (prio est (entryR x) == est)%Q).
    { intros x Sx. rewrite prio_entry. specialize (He x Sx). pose proof (Qmax_ub_r (natq (costR x)) est).
      destruct (Qmax_case (natq (costR x)) est) as [A|A]; rewrite A in *; lra. }
    specialize (Hm r0 Hin). unfold key_le in Hm. rewrite orb_true_iff, andb_true_iff, Qlt_b_iff, Nat.leb_le in Hm.
    rewrite (EP r S), (EP r0 S0) in Hm. destruct Hm as [A|[_ A]]; [lra|].
    cbn [MaxCutSearch.entryR e_route] in A. rewrite !routeR_length in A.
    pose proof (sched_length _ So) as X. cbn [length] in *. lia.
Qed.
(* every expansion adds one operation, so a small limit cannot reach the target *)
Lemma loop_limit limit d : limit + d <= length N -> forall rs, Forall sched rs -> Forall (fun r => length r <= d) rs ->
  solve_loop g pick est limit (map entryR rs) = None.
Proof.
  revert d. induction limit as [|limit IH]; intros d Hd rs Fs Fl; [reflexivity|].
  destruct (loop_unfold limit rs Fs) as [[_ E]|(r & rest & P & S & Hm & [[HT E]|[HT E]])]; rewrite E; auto.
  - exfalso. apply complete_length in HT; auto. rewrite Forall_forall in Fl.
    assert (In r rs) by (eapply Permutation_in; [symmetry; eauto|left; auto]). apply Fl in H. lia.
  - apply (IH (1 + d)); [lia|eapply sched_step; eauto|].
    assert (F' : Forall (fun r => length r <= d) (r :: rest)) by (eapply Permutation_Forall; eauto). inversion F'; subst.
    apply Forall_app. split.
    + destruct (is_pivot g (cutR g r)); [constructor|]. eapply Forall_impl; [|eassumption]. cbn; intros; lia.
    + apply Forall_forall. intros x Hx. apply in_map_iff in Hx. destruct Hx as (o & <- & _). cbn. lia.
Qed.
End Loop.
