(* GraphProofs.v -- lemmas about the graph primitives. *)
From Coq Require Import Permutation Sorted Lia.
From Verif Require Import Base GraphModel GraphSpec.
Open Scope res_scope.
Local Open Scope nat_scope.

Lemma mem_spec n l : mem n l = true <-> In n l.
Proof. unfold mem. rewrite existsb_exists. split; [intros [x [I E]]; apply Nat.eqb_eq in E; subst; exact I|intro I; exists n; split; [exact I|apply Nat.eqb_refl]]. Qed.
Lemma mem_false n l : mem n l = false <-> ~ In n l.
Proof. rewrite <- mem_spec. destruct (mem n l); split; congruence. Qed.
Lemma firsts_in l x : In x (firsts l) <-> In x l.
Proof.
  revert x. induction l as [|y l IH]; intro x; [tauto|]. cbn. rewrite filter_In, IH. destruct (Nat.eqb_spec y x); cbn; [tauto|]. intuition congruence.
Qed.
Lemma firsts_nodup l : NoDup (firsts l).
Proof.
  induction l as [|y l IH]; cbn; constructor; [|apply NoDup_filter, IH].
  intro I. apply filter_In in I. destruct I as [_ I]. rewrite Nat.eqb_refl in I. discriminate.
Qed.
(* a list grouped by a key *)
Lemma filter_nil {A} (p : A -> bool) l : (forall x, In x l -> p x = false) -> filter p l = [].
Proof. induction l as [|x l IH]; intro H; [reflexivity|]. cbn. rewrite (H x (or_introl eq_refl)). apply IH. intros y I. apply H. right. exact I. Qed.
Lemma filter_all {A} (p : A -> bool) l : (forall x, In x l -> p x = true) -> filter p l = l.
Proof. induction l as [|x l IH]; intro H; [reflexivity|]. cbn. rewrite (H x (or_introl eq_refl)). f_equal. apply IH. intros y I. apply H. right. exact I. Qed.
Lemma flat_map_empty {A B} (ks : list A) : flat_map (fun _ => @nil B) ks = [].
Proof. induction ks; [reflexivity|assumption]. Qed.
Lemma filter_and {A} (p q : A -> bool) l : filter (fun x => p x && q x) l = filter q (filter p l).
Proof. induction l as [|x l IH]; [reflexivity|]. cbn. destruct (p x); cbn; [destruct (q x); rewrite IH; reflexivity|exact IH]. Qed.
Lemma flat_map_ext_in {A B} (f h : A -> list B) l : (forall x, In x l -> f x = h x) -> flat_map f l = flat_map h l.
Proof. induction l as [|x l IH]; intro H; [reflexivity|]. cbn. rewrite (H x (or_introl eq_refl)), IH; [reflexivity|]. intros y I. apply H. right. exact I. Qed.
Lemma group_perm {A} (key : A -> nat) ks : NoDup ks -> forall l, (forall x, In x l -> In (key x) ks) ->
  Permutation (flat_map (fun k => filter (fun x => Nat.eqb (key x) k) l) ks) l.
Proof.
  induction 1 as [|k ks N1 N2 IH]; intros l H.
  - destruct l as [|x l]; [constructor|]. destruct (H x (or_introl eq_refl)).
  - cbn. assert (Permutation (filter (fun x => Nat.eqb (key x) k) l ++ filter (fun x => negb (Nat.eqb (key x) k)) l) l) as P.
    { clear. induction l as [|x l IH]; [constructor|]. cbn. destruct (Nat.eqb (key x) k); cbn; [constructor; exact IH|]. symmetry. apply Permutation_cons_app. symmetry. exact IH. }
    eapply Permutation_trans; [|exact P]. apply Permutation_app_head. rewrite (flat_map_ext_in _ (fun j => filter (fun x => Nat.eqb (key x) j) (filter (fun x => negb (Nat.eqb (key x) k)) l))).
    + apply IH. intros x I. apply filter_In in I. destruct I as [I J]. destruct (H x I) as [E|E]; [|exact E]. rewrite <- E, Nat.eqb_refl in J. discriminate.
    + intros j J. rewrite <- filter_and. apply filter_ext. intro x. destruct (Nat.eqb_spec (key x) j) as [E|E]; [|rewrite andb_comm; reflexivity].
      destruct (Nat.eqb_spec (key x) k) as [E'|E']; [|reflexivity]. exfalso. apply N1. congruence.
Qed.
Lemma out_edges_perm g u : Permutation (out_edges g u) (filter (fun e => Nat.eqb (src e) u) (g_edges g)).
Proof.
  unfold out_edges, between. set (l := filter (fun e => Nat.eqb (src e) u) (g_edges g)).
  rewrite (flat_map_ext _ (fun k => filter (fun e => Nat.eqb (snk e) k) l)).
  - apply (group_perm snk); [apply firsts_nodup|]. intros x I. apply firsts_in, in_map, I.
  - intro v. unfold is_between. apply filter_and.
Qed.
Lemma in_edges_perm g v : Permutation (in_edges g v) (filter (fun e => Nat.eqb (snk e) v) (g_edges g)).
Proof.
  unfold in_edges, between. set (l := filter (fun e => Nat.eqb (snk e) v) (g_edges g)).
  rewrite (flat_map_ext _ (fun k => filter (fun e => Nat.eqb (src e) k) l)).
  - apply (group_perm src); [apply firsts_nodup|]. intros x I. apply firsts_in, in_map, I.
  - intro u. unfold l. rewrite <- filter_and. apply filter_ext. intro e. unfold is_between. apply andb_comm.
Qed.
Lemma out_edges_in g u e : In e (out_edges g u) <-> In e (g_edges g) /\ src e = u.
Proof. rewrite (Permutation_in' eq_refl (out_edges_perm g u)). rewrite filter_In, Nat.eqb_eq. reflexivity. Qed.
Lemma in_edges_in g v e : In e (in_edges g v) <-> In e (g_edges g) /\ snk e = v.
Proof. rewrite (Permutation_in' eq_refl (in_edges_perm g v)). rewrite filter_In, Nat.eqb_eq. reflexivity. Qed.
Lemma between_in g u v e : In e (between g u v) <-> In e (g_edges g) /\ src e = u /\ snk e = v.
Proof. unfold between. rewrite filter_In. unfold is_between. rewrite andb_true_iff, !Nat.eqb_eq. reflexivity. Qed.
Lemma is_between_spec u v e : is_between u v e = true <-> src e = u /\ snk e = v.
Proof. unfold is_between. rewrite andb_true_iff, !Nat.eqb_eq. reflexivity. Qed.

Lemma remove_first_spec {A} (p : A -> bool) l l' : remove_first p l = Some l' -> exists a x b, l = a ++ x :: b /\ l' = a ++ b /\ p x = true /\ forall y, In y a -> p y = false.
Proof.
  revert l'. induction l as [|x l IH]; intros l' H; [discriminate|]. cbn in H. destruct (p x) eqn:E.
  - inversion H; subst. exists [], x, l'. repeat split; auto. intros y [].
  - destruct (remove_first p l) as [r|]; [|discriminate]. inversion H; subst. destruct (IH r eq_refl) as (a & y & b & -> & -> & P & Q).
    exists (x :: a), y, b. repeat split; auto. intros z [<-|I]; [exact E|apply Q, I].
Qed.
Lemma remove_first_none {A} (p : A -> bool) l : remove_first p l = None <-> forall x, In x l -> p x = false.
Proof.
  induction l as [|x l IH]; cbn; [split; [intros _ x []|reflexivity]|]. destruct (p x) eqn:E.
  - split; [discriminate|]. intro H. rewrite (H x (or_introl eq_refl)) in E. discriminate.
  - destruct (remove_first p l); cbn; split.
    + discriminate.
    + intro H. exfalso. assert (Some l0 = None) as Q by (apply IH; intros y I; apply H; right; exact I). discriminate.
    + intros _ y [<-|I]; [exact E|]. apply IH; [reflexivity|exact I].
    + reflexivity.
Qed.
Lemma remove_edge_spec g u v g' : remove_edge_nx g u v = Ok g' ->
  exists e, src e = u /\ snk e = v /\ Permutation (g_edges g) (e :: g_edges g') /\ g' = set_edges g (g_edges g').
Proof.
  unfold remove_edge_nx. destruct (remove_first _ _) as [es|] eqn:E; [|discriminate]. intro H. inversion H; subst. clear H. apply remove_first_spec in E.
  destruct E as (a & x & b & E1 & -> & P & _). apply is_between_spec in P. exists x. split; [apply P|]. split; [apply P|]. split; [|reflexivity].
  cbn. rewrite <- (rev_involutive (g_edges g)), E1, rev_app_distr. cbn [rev]. rewrite rev_app_distr, <- app_assoc. cbn. symmetry. apply Permutation_middle.
Qed.
Lemma remove_edge_total g u v e : In e (g_edges g) -> src e = u -> snk e = v -> exists g', remove_edge_nx g u v = Ok g'.
Proof.
  intros I S T. unfold remove_edge_nx. destruct (remove_first _ _) as [es|] eqn:E; [eexists; reflexivity|]. exfalso.
  rewrite remove_first_none in E. specialize (E e (proj1 (in_rev _ _) I)). assert (is_between u v e = true) by (apply is_between_spec; split; assumption). congruence.
Qed.
Lemma remove_edge_last g e es : g_edges g = es ++ [e] -> remove_edge_nx g (src e) (snk e) = Ok (set_edges g es).
Proof.
  intro E. unfold remove_edge_nx. rewrite E, rev_app_distr. cbn. unfold is_between. rewrite !Nat.eqb_refl. cbn. rewrite rev_involutive. reflexivity.
Qed.
Lemma filter_perm {A} (p : A -> bool) l l' : Permutation l l' -> Permutation (filter p l) (filter p l').
Proof.
  induction 1; cbn.
  - constructor.
  - destruct (p x); [constructor|]; assumption.
  - destruct (p x), (p y); try apply perm_swap; apply Permutation_refl.
  - eapply Permutation_trans; eassumption.
Qed.
Lemma add_node_in g n m : In m (g_nodes (add_node_nx g n)) <-> In m (g_nodes g) \/ m = n.
Proof.
  unfold add_node_nx. destruct (mem n (g_nodes g)) eqn:E; [|cbn; rewrite in_app_iff; cbn; intuition]. apply mem_spec in E. intuition congruence.
Qed.
Lemma add_node_rest g n : g_edges (add_node_nx g n) = g_edges g /\ g_in (add_node_nx g n) = g_in g /\ g_out (add_node_nx g n) = g_out g.
Proof. unfold add_node_nx. destruct (mem n (g_nodes g)); cbn; auto. Qed.
Lemma add_node_known g n : In n (g_nodes g) -> add_node_nx g n = g.
Proof. intro I. unfold add_node_nx. apply mem_spec in I. rewrite I. reflexivity. Qed.
Lemma NoDup_snoc {A} (l : list A) x : NoDup l -> ~ In x l -> NoDup (l ++ [x]).
Proof. intros N I. eapply Permutation_NoDup; [apply Permutation_cons_append|]. constructor; assumption. Qed.
Lemma add_node_wf g n : wf g -> wf (add_node_nx g n).
Proof.
  intros [A B]. split.
  - unfold add_node_nx. destruct (mem n (g_nodes g)) eqn:E; [exact A|]. cbn. apply NoDup_snoc; [exact A|apply mem_false, E].
  - destruct (add_node_rest g n) as [-> _]. intros e I. rewrite !add_node_in. destruct (B e I). tauto.
Qed.
Lemma add_edge_in g e m : In m (g_nodes (add_edge_nx g e)) <-> In m (g_nodes g) \/ m = src e \/ m = snk e.
Proof. unfold add_edge_nx. cbn. rewrite !add_node_in. tauto. Qed.
Lemma add_edge_edges g e : g_edges (add_edge_nx g e) = g_edges g ++ [e] /\ g_in (add_edge_nx g e) = g_in g /\ g_out (add_edge_nx g e) = g_out g.
Proof.
  unfold add_edge_nx. cbn. destruct (add_node_rest (add_node_nx g (src e)) (snk e)) as (-> & -> & ->). destruct (add_node_rest g (src e)) as (-> & -> & ->). auto.
Qed.
Lemma add_edge_wf g e : wf g -> wf (add_edge_nx g e).
Proof.
  intro W. split.
  - unfold add_edge_nx. cbn. apply (wf_nodes _ (add_node_wf _ _ (add_node_wf _ _ W))).
  - destruct (add_edge_edges g e) as [-> _]. intros x I. rewrite !add_edge_in. apply in_app_or in I. destruct I as [I|[<-|[]]]; [destruct (wf_ends g W x I)|]; tauto.
Qed.
Lemma remove_edge_wf g u v g' : wf g -> remove_edge_nx g u v = Ok g' -> wf g'.
Proof.
  intros [A B] H. destruct (remove_edge_spec g u v g' H) as (e & _ & _ & P & E). rewrite E. split; [exact A|]. cbn. intros x I. apply B.
  apply (Permutation_in x (Permutation_sym P)). right. exact I.
Qed.

Section Checked.
Variable validate : graph -> result unit.
Lemma checked_ok g g' : checked validate g = Ok g' -> g' = g.
Proof. unfold checked. destruct (validate g); cbn; [congruence|discriminate]. Qed.
Lemma add_edge_ok g e g' : add_edge validate g e = Ok g' -> g' = add_edge_nx g e.
Proof. apply checked_ok. Qed.
Lemma remove_edge_ok g u v g' : remove_edge validate g u v = Ok g' -> remove_edge_nx g u v = Ok g'.
Proof. unfold remove_edge. destruct (remove_edge_nx g u v) as [h|]; cbn [bind]; [|discriminate]. intro H. apply checked_ok in H. congruence. Qed.
Hypothesis VT : forall g, validate g = Ok tt.
Lemma checked_total g : checked validate g = Ok g.
Proof. unfold checked. rewrite VT. reflexivity. Qed.
End Checked.

(* moving the edges of one node, one at a time: the i-th step adds the i-th edge at the new end and removes
   some edge at the old end *)
Section Move.
Variable validate : graph -> result unit.
Variables (key other : edge -> nat) (mk : edge -> edge) (c n : nat) (rm : graph -> nat -> result graph).
Hypothesis Hrm : forall g v g', rm g v = Ok g' -> exists e, key e = c /\ other e = v /\ Permutation (g_edges g) (e :: g_edges g') /\ g' = set_edges g (g_edges g').
Hypothesis Htot : forall g v e, In e (g_edges g) -> key e = c -> other e = v -> exists g', rm g v = Ok g'.
Hypothesis Hmk : forall e, key (mk e) = n.
Hypothesis cn : c <> n.
Let step g e := let! g := add_edge validate g (mk e) in let! g := rm g (other e) in checked validate g.
Definition stays e := negb (Nat.eqb (key e) c).
Lemma move_edges l : forall g g', (forall v, length (filter (fun e => Nat.eqb (key e) c && Nat.eqb (other e) v) (g_edges g)) = length (filter (fun e => Nat.eqb (other e) v) l)) ->
  foldM step l g = Ok g' -> Permutation (g_edges g') (filter stays (g_edges g) ++ map mk l).
Proof.
  induction l as [|e l IH]; intros g g' C H; cbn [foldM] in H.
  - inversion H; subst g'. rewrite app_nil_r. rewrite filter_all; [reflexivity|]. intros x I. unfold stays. destruct (Nat.eqb (key x) c) eqn:K; [|reflexivity].
    exfalso. specialize (C (other x)). cbn in C. assert (In x (filter (fun e => Nat.eqb (key e) c && Nat.eqb (other e) (other x)) (g_edges g))) as J.
    { apply filter_In. split; [exact I|]. rewrite K, Nat.eqb_refl. reflexivity. }
    destruct (filter _ _); [destruct J|discriminate].
  - unfold step at 1 in H. destruct (add_edge validate g (mk e)) as [g1|] eqn:E1; cbn [bind] in H; [|discriminate]. apply add_edge_ok in E1.
    destruct (rm g1 (other e)) as [g2|] eqn:E2; cbn [bind] in H; [|discriminate]. destruct (checked validate g2) as [g3|] eqn:E3; cbn [bind] in H; [|discriminate]. apply checked_ok in E3. subst g3.
    destruct (Hrm _ _ _ E2) as (x & X1 & X2 & P & _). destruct (add_edge_edges g (mk e)) as [Ed _]. rewrite <- E1 in Ed. rewrite Ed in P.
    assert (Kmk : Nat.eqb (key (mk e)) c = false) by (rewrite Hmk; apply Nat.eqb_neq; congruence).
    rewrite (IH g2 g'); [| |exact H].
    + pose proof (filter_perm stays _ _ P) as Q. rewrite filter_app in Q. cbn [filter] in Q. assert (stays (mk e) = true) as S1 by (unfold stays; rewrite Kmk; reflexivity).
      assert (stays x = false) as S2 by (unfold stays; rewrite X1, Nat.eqb_refl; reflexivity). rewrite S1, S2 in Q.
      cbn [map]. rewrite <- Q, <- app_assoc. reflexivity.
    + intro v. specialize (C v). pose proof (filter_perm (fun e => Nat.eqb (key e) c && Nat.eqb (other e) v) _ _ P) as Q. apply Permutation_length in Q.
      rewrite filter_app in Q. cbn [filter] in Q. rewrite Kmk, X1, X2, Nat.eqb_refl in Q. cbn [andb] in Q. rewrite app_nil_r in Q. rewrite C in Q. cbn [filter] in Q.
      destruct (Nat.eqb (other e) v); cbn [length] in Q; lia.
Qed.
Lemma move_total (VT : forall g, validate g = Ok tt) l : forall g, (forall v, length (filter (fun e => Nat.eqb (key e) c && Nat.eqb (other e) v) (g_edges g)) = length (filter (fun e => Nat.eqb (other e) v) l)) ->
  exists g', foldM step l g = Ok g'.
Proof.
  induction l as [|e l IH]; intros g C; cbn [foldM]; [eexists; reflexivity|]. unfold step at 1. unfold add_edge. rewrite (checked_total validate VT). cbn [bind].
  destruct (add_edge_edges g (mk e)) as [Ed _]. assert (Kmk : Nat.eqb (key (mk e)) c = false) by (rewrite Hmk; apply Nat.eqb_neq; congruence).
  assert (exists x, In x (g_edges g) /\ key x = c /\ other x = other e) as (x & I & K & O).
  { specialize (C (other e)). cbn [filter] in C. rewrite Nat.eqb_refl in C. destruct (filter (fun e0 => Nat.eqb (key e0) c && Nat.eqb (other e0) (other e)) (g_edges g)) as [|x r] eqn:F; [discriminate|].
    exists x. assert (In x (filter (fun e0 => Nat.eqb (key e0) c && Nat.eqb (other e0) (other e)) (g_edges g))) as J by (rewrite F; left; reflexivity).
    apply filter_In in J. rewrite andb_true_iff, !Nat.eqb_eq in J. tauto. }
  destruct (Htot (add_edge_nx g (mk e)) (other e) x) as [g2 E2]; [rewrite Ed; apply in_or_app; left; exact I|exact K|exact O|]. rewrite E2. cbn [bind]. rewrite (checked_total validate VT). cbn [bind].
  apply IH. destruct (Hrm _ _ _ E2) as (y & X1 & X2 & P & _). rewrite Ed in P. intro v. specialize (C v).
  pose proof (filter_perm (fun e => Nat.eqb (key e) c && Nat.eqb (other e) v) _ _ P) as Q. apply Permutation_length in Q.
  rewrite filter_app in Q. cbn [filter] in Q. rewrite Kmk, X1, X2, Nat.eqb_refl in Q. cbn [andb] in Q. rewrite app_nil_r in Q. rewrite C in Q. cbn [filter] in Q.
  destruct (Nat.eqb (other e) v); cbn [length] in Q; lia.
Qed.
Lemma move_rest l : forall g g', foldM step l g = Ok g' -> g_in g' = g_in g /\ g_out g' = g_out g /\ 
  (forall m, In m (g_nodes g') <-> In m (g_nodes g) \/ exists e, In e l /\ (m = src (mk e) \/ m = snk (mk e))) /\ (NoDup (g_nodes g) -> NoDup (g_nodes g')).
Proof.
  induction l as [|e l IH]; intros g g' H; cbn [foldM] in H.
  - inversion H; subst. repeat split; auto. intros [I|[e [[] _]]]. exact I.
  - unfold step at 1 in H. destruct (add_edge validate g (mk e)) as [g1|] eqn:E1; cbn [bind] in H; [|discriminate]. apply add_edge_ok in E1.
    destruct (rm g1 (other e)) as [g2|] eqn:E2; cbn [bind] in H; [|discriminate]. destruct (checked validate g2) as [g3|] eqn:E3; cbn [bind] in H; [|discriminate]. apply checked_ok in E3. subst g3.
    destruct (Hrm _ _ _ E2) as (x & _ & _ & _ & E). destruct (IH g2 g' H) as (A & B & C & D). destruct (add_edge_edges g (mk e)) as (_ & F1 & F2).
    rewrite E in A, B, C, D. cbn in A, B, C, D. subst g1. rewrite A, B, F1, F2. split; [reflexivity|]. split; [reflexivity|]. split.
    + intro m. rewrite C, add_edge_in. split.
      * intros [[I|I]|[y [I J]]]; [left; exact I|right; exists e; split; [left; reflexivity|exact I]|right; exists y; split; [right; exact I|exact J]].
      * intros [I|[y [[<-|I] J]]]; [tauto|tauto|right; exists y; tauto].
    + intro N. apply D. unfold add_edge_nx. cbn. assert (W : forall h k, NoDup (g_nodes h) -> NoDup (g_nodes (add_node_nx h k))).
      { clear. intros h k N. unfold add_node_nx. destruct (mem k (g_nodes h)) eqn:E; [exact N|]. cbn. apply NoDup_snoc; [exact N|apply mem_false, E]. }
      apply W, W, N.
Qed.
End Move.

Lemma split_moved (key : edge -> nat) (mk : edge -> edge) c l :
  Permutation (filter (stays key c) l ++ map mk (filter (fun e => Nat.eqb (key e) c) l)) (map (fun e => if Nat.eqb (key e) c then mk e else e) l).
Proof.
  induction l as [|e l IH]; [constructor|]. cbn [filter map]. unfold stays at 1. destruct (Nat.eqb (key e) c); cbn [negb].
  - cbn [map]. symmetry. apply Permutation_cons_app. symmetry. exact IH.
  - cbn [app]. constructor. exact IH.
Qed.
Lemma filter_length_perm {A} (p : A -> bool) l l' : Permutation l l' -> length (filter p l) = length (filter p l').
Proof. intro P. apply Permutation_length, filter_perm, P. Qed.

Section Reconnect.
Variable validate : graph -> result unit.
Lemma same_loop (key : edge -> nat) (mk : edge -> edge) (rm : graph -> edge -> result graph) c : (forall e, key e = c -> mk e = e) -> (forall g e es, key e = c -> g_edges g = es ++ [e] -> rm g e = Ok (set_edges g es)) ->
  forall l g g', (forall e, In e l -> key e = c /\ In (src e) (g_nodes g) /\ In (snk e) (g_nodes g)) ->
  foldM (fun g e => let! g := add_edge validate g (mk e) in let! g := rm g e in checked validate g) l g = Ok g' -> g' = g.
Proof.
  intros Hmk Hrm. induction l as [|e l IH]; intros g g' K H; cbn [foldM] in H; [congruence|].
  destruct (add_edge validate g (mk e)) as [g1|] eqn:E1; cbn [bind] in H; [|discriminate]. apply add_edge_ok in E1.
  destruct (K e (or_introl eq_refl)) as (Ke & S & T). rewrite (Hmk e Ke) in E1. destruct (add_edge_edges g e) as [Ed _]. rewrite <- E1 in Ed. rewrite (Hrm g1 e (g_edges g) Ke Ed) in H. cbn [bind] in H.
  assert (set_edges g1 (g_edges g) = g) as Q. { subst g1. unfold add_edge_nx. rewrite (add_node_known g _ S), (add_node_known g _ T). destruct g; reflexivity. }
  rewrite Q in H. destruct (checked validate g) as [g3|] eqn:E3; cbn [bind] in H; [|discriminate]. apply checked_ok in E3. subst g3. apply (IH g g'); [|exact H]. intros x I. apply K. right. exact I.
Qed.
Lemma rm_out c : forall g v g', remove_edge_nx g c v = Ok g' -> exists e, src e = c /\ snk e = v /\ Permutation (g_edges g) (e :: g_edges g') /\ g' = set_edges g (g_edges g').
Proof. intros g v g' H. apply remove_edge_spec in H. exact H. Qed.
Lemma rm_in c : forall g v g', remove_edge_nx g v c = Ok g' -> exists e, snk e = c /\ src e = v /\ Permutation (g_edges g) (e :: g_edges g') /\ g' = set_edges g (g_edges g').
Proof. intros g v g' H. apply remove_edge_spec in H. destruct H as (e & A & B & C). exists e. tauto. Qed.
Lemma out_count g c v : length (filter (fun e => Nat.eqb (src e) c && Nat.eqb (snk e) v) (g_edges g)) = length (filter (fun e => Nat.eqb (snk e) v) (out_edges g c)).
Proof. rewrite (filter_length_perm _ _ _ (out_edges_perm g c)), <- filter_and. reflexivity. Qed.
Lemma in_count g c v : length (filter (fun e => Nat.eqb (snk e) c && Nat.eqb (src e) v) (g_edges g)) = length (filter (fun e => Nat.eqb (src e) v) (in_edges g c)).
Proof. rewrite (filter_length_perm _ _ _ (in_edges_perm g c)), <- filter_and. reflexivity. Qed.

Lemma reconnect_out_spec g c n g' : wf g -> reconnect_out_edges validate g c n = Ok g' ->
  Permutation (g_edges g') (map (resrc c n) (g_edges g)) /\ g_in g' = g_in g /\ g_out g' = g_out g /\ wf g' /\
  (forall m, In m (g_nodes g') <-> In m (g_nodes g) \/ (m = n /\ exists e, In e (g_edges g) /\ src e = c)).
Proof.
  intros W H. unfold reconnect_out_edges in H.
  destruct (foldM _ _ g) as [g1|] eqn:F; cbn [bind] in H; [|discriminate]. apply checked_ok in H. subst g1. unfold remove_edge in F.
  destruct (Nat.eq_dec c n) as [<-|cn].
  - apply (same_loop src (fun oe => Edge c (snk oe) (si oe) (ti oe)) (fun g oe => remove_edge_nx g c (snk oe)) c) in F.
    + subst g'. split; [|split; [reflexivity|split; [reflexivity|split; [exact W|]]]].
      * rewrite (map_ext_in _ (fun e => e)), map_id; [reflexivity|]. intros e I. unfold resrc. destruct (Nat.eqb_spec (src e) c) as [<-|]; [destruct e|]; reflexivity.
      * intro m. split; [tauto|]. intros [I|[-> [e [I E]]]]; [exact I|]. subst c. apply (wf_ends g W e I).
    + intros e <-. destruct e; reflexivity.
    + intros h e es <- E. apply remove_edge_last, E.
    + intros e I. apply out_edges_in in I. destruct I as [I E]. destruct (wf_ends g W e I). auto.
  - pose proof (move_edges validate src snk (fun oe => Edge n (snk oe) (si oe) (ti oe)) c n (fun g v => remove_edge_nx g c v) (rm_out c) (fun e => eq_refl) cn (out_edges g c) g g' (out_count g c) F) as P.
    pose proof (move_rest validate src snk (fun oe => Edge n (snk oe) (si oe) (ti oe)) c (fun g v => remove_edge_nx g c v) (rm_out c) (out_edges g c) g g' F) as (A & B & C & D).
    rewrite (Permutation_map _ (out_edges_perm g c)) in P. rewrite split_moved in P. split; [exact P|]. split; [exact A|]. split; [exact B|].
    assert (N : forall m, In m (g_nodes g') <-> In m (g_nodes g) \/ (m = n /\ exists e, In e (g_edges g) /\ src e = c)).
    { intro m. rewrite C. cbn. split; (intros [I|I]; [left; exact I|]).
      - destruct I as [e [I [->| ->]]]; apply out_edges_in in I; [right; split; [reflexivity|exists e; exact I]|left; apply (wf_ends g W e), I].
      - destruct I as [-> [e I]]. right. exists e. split; [apply out_edges_in, I|left; reflexivity]. }
    split; [|exact N]. split; [apply D, (wf_nodes g W)|]. intros e I. apply (Permutation_in e P) in I. apply in_map_iff in I. destruct I as [x [<- I]].
    destruct (wf_ends g W x I) as [S T]. rewrite !N. destruct (Nat.eqb_spec (src x) c) as [E|E]; cbn; [|tauto]. split; [right; split; [reflexivity|exists x; tauto]|tauto].
Qed.
Lemma reconnect_in_spec g c n g' : wf g -> reconnect_in_edges validate g c n = Ok g' ->
  Permutation (g_edges g') (map (resnk c n) (g_edges g)) /\ g_in g' = g_in g /\ g_out g' = g_out g /\ wf g' /\
  (forall m, In m (g_nodes g') <-> In m (g_nodes g) \/ (m = n /\ exists e, In e (g_edges g) /\ snk e = c)).
Proof.
  intros W H. unfold reconnect_in_edges in H.
  destruct (foldM _ _ g) as [g1|] eqn:F; cbn [bind] in H; [|discriminate]. apply checked_ok in H. subst g1. unfold remove_edge in F.
  destruct (Nat.eq_dec c n) as [<-|cn].
  - apply (same_loop snk (fun ie => Edge (src ie) c (si ie) (ti ie)) (fun g ie => remove_edge_nx g (src ie) c) c) in F.
    + subst g'. split; [|split; [reflexivity|split; [reflexivity|split; [exact W|]]]].
      * rewrite (map_ext_in _ (fun e => e)), map_id; [reflexivity|]. intros e I. unfold resnk. destruct (Nat.eqb_spec (snk e) c) as [<-|]; [destruct e|]; reflexivity.
      * intro m. split; [tauto|]. intros [I|[-> [e [I E]]]]; [exact I|]. subst c. apply (wf_ends g W e I).
    + intros e <-. destruct e; reflexivity.
    + intros h e es <- E. apply remove_edge_last, E.
    + intros e I. apply in_edges_in in I. destruct I as [I E]. destruct (wf_ends g W e I). auto.
  - pose proof (move_edges validate snk src (fun ie => Edge (src ie) n (si ie) (ti ie)) c n (fun g v => remove_edge_nx g v c) (rm_in c) (fun e => eq_refl) cn (in_edges g c) g g' (in_count g c) F) as P.
    pose proof (move_rest validate snk src (fun ie => Edge (src ie) n (si ie) (ti ie)) c (fun g v => remove_edge_nx g v c) (rm_in c) (in_edges g c) g g' F) as (A & B & C & D).
    rewrite (Permutation_map _ (in_edges_perm g c)) in P. rewrite split_moved in P. split; [exact P|]. split; [exact A|]. split; [exact B|].
    assert (N : forall m, In m (g_nodes g') <-> In m (g_nodes g) \/ (m = n /\ exists e, In e (g_edges g) /\ snk e = c)).
    { intro m. rewrite C. cbn. split; (intros [I|I]; [left; exact I|]).
      - destruct I as [e [I [->| ->]]]; apply in_edges_in in I; [left; apply (wf_ends g W e), I|right; split; [reflexivity|exists e; exact I]].
      - destruct I as [-> [e I]]. right. exists e. split; [apply in_edges_in, I|right; reflexivity]. }
    split; [|exact N]. split; [apply D, (wf_nodes g W)|]. intros e I. apply (Permutation_in e P) in I. apply in_map_iff in I. destruct I as [x [<- I]].
    destruct (wf_ends g W x I) as [S T]. rewrite !N. destruct (Nat.eqb_spec (snk x) c) as [E|E]; cbn; [|tauto]. split; [tauto|right; split; [reflexivity|exists x; tauto]].
Qed.
Hypothesis VT : forall g, validate g = Ok tt.
Lemma same_total (key : edge -> nat) (mk : edge -> edge) (rm : graph -> edge -> result graph) c : (forall e, key e = c -> mk e = e) -> (forall g e es, key e = c -> g_edges g = es ++ [e] -> rm g e = Ok (set_edges g es)) ->
  forall l g, (forall e, In e l -> key e = c) ->
  exists g', foldM (fun g e => let! g := add_edge validate g (mk e) in let! g := rm g e in checked validate g) l g = Ok g'.
Proof.
  intros Hmk Hrm. induction l as [|e l IH]; intros g K; cbn [foldM]; [eexists; reflexivity|].
  unfold add_edge. rewrite (checked_total validate VT). cbn [bind]. rewrite (Hmk e) by (apply K; left; reflexivity). destruct (add_edge_edges g e) as [Ed _].
  rewrite (Hrm (add_edge_nx g e) e (g_edges g)); [|apply K; left; reflexivity|exact Ed]. cbn [bind]. rewrite (checked_total validate VT). cbn [bind]. apply IH. intros x I. apply K. right. exact I.
Qed.
Lemma reconnect_out_total g c n : exists g', reconnect_out_edges validate g c n = Ok g'.
Proof.
  unfold reconnect_out_edges, remove_edge. destruct (Nat.eq_dec c n) as [<-|cn].
  - destruct (same_total src (fun oe => Edge c (snk oe) (si oe) (ti oe)) (fun g oe => remove_edge_nx g c (snk oe)) c) with (l := out_edges g c) (g := g) as [g' E].
    + intros e <-. destruct e; reflexivity.
    + intros h e es <- E. apply remove_edge_last, E.
    + intros e I. apply out_edges_in in I. apply I.
    + rewrite E. cbn [bind]. rewrite (checked_total validate VT). eexists. reflexivity.
  - destruct (move_total validate src snk (fun oe => Edge n (snk oe) (si oe) (ti oe)) c n (fun g v => remove_edge_nx g c v) (rm_out c)) with (l := out_edges g c) (g := g) as [g' E].
    + intros h v e I S T. exact (remove_edge_total h c v e I S T).
    + reflexivity.
    + exact cn.
    + exact VT.
    + apply out_count.
    + rewrite E. cbn [bind]. rewrite (checked_total validate VT). eexists. reflexivity.
Qed.
Lemma reconnect_in_total g c n : exists g', reconnect_in_edges validate g c n = Ok g'.
Proof.
  unfold reconnect_in_edges, remove_edge. destruct (Nat.eq_dec c n) as [<-|cn].
  - destruct (same_total snk (fun ie => Edge (src ie) c (si ie) (ti ie)) (fun g ie => remove_edge_nx g (src ie) c) c) with (l := in_edges g c) (g := g) as [g' E].
    + intros e <-. destruct e; reflexivity.
    + intros h e es <- E. apply remove_edge_last, E.
    + intros e I. apply in_edges_in in I. apply I.
    + rewrite E. cbn [bind]. rewrite (checked_total validate VT). eexists. reflexivity.
  - destruct (move_total validate snk src (fun ie => Edge (src ie) n (si ie) (ti ie)) c n (fun g v => remove_edge_nx g v c) (rm_in c)) with (l := in_edges g c) (g := g) as [g' E].
    + intros h v e I S T. exact (remove_edge_total h v c e I T S).
    + reflexivity.
    + exact cn.
    + exact VT.
    + apply in_count.
    + rewrite E. cbn [bind]. rewrite (checked_total validate VT). eexists. reflexivity.
Qed.
End Reconnect.
