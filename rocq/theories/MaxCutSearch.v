(* MaxCutSearch.v -- the search on an abstract operation/tensor graph. *)
From Coq Require Import Permutation Lqa.
From Verif Require Import Base RoundQ RoundQFacts MaxCutModel.
Open Scope nat_scope.

Lemma op_in_iff o l : op_in o l = true <-> In o l.
Proof. unfold op_in; destruct (in_dec opn_eq_dec o l); split; intros; auto; discriminate. Qed.
Lemma ten_in_iff o l : ten_in o l = true <-> In o l.
Proof. unfold ten_in; destruct (in_dec ten_eq_dec o l); split; intros; auto; discriminate. Qed.
Lemma sum_nat_app a b : sum_nat (a ++ b) = sum_nat a + sum_nat b.
Proof. unfold sum_nat. induction a; cbn [app fold_right]; auto. rewrite IHa; lia. Qed.
Lemma sum_nat_perm a b : Permutation a b -> sum_nat a = sum_nat b.
Proof. unfold sum_nat. induction 1; cbn [fold_right]; lia. Qed.

Section Graph.
Variable g : mgraph.
Notation b := (astar_graph g).
Notation outs := (op_children b).
Notation ins := (op_parents b).
Notation kids := (ten_children b).
Notation pars := (ten_parents b).
Notation size := (ten_size g).
Variable N : list opn.
Variable rank : opn -> nat.
Variable M : nat.
Record gfacts : Prop := {
  gf_pars : forall o t, In t (outs o) -> pars t = [o];
  gf_kids : forall o t, In t (ins o) <-> In o (kids t);
  gf_rank : forall o t o', In t (outs o) -> In o' (kids t) -> rank o < rank o';
  gf_bound : forall o, In o N -> rank o < M;
  gf_prod : forall o t, In t (ins o) -> exists p, In p N /\ In t (outs p);
  gf_next : forall o, In o N -> o <> TgtA2 -> exists t k, In t (outs o) /\ In k (kids t);
  gf_nodup : forall o, NoDup (outs o);
  gf_src : forall o, In o N -> ins o = [] -> o = SrcA;
  gf_kidsN : forall t k, In k (kids t) -> In k N;
  gf_insrc : ins SrcA = [];
  gf_outsrc : outs SrcA = [SrcB];
  gf_outA : outs TgtA = [TgtB];
  gf_outA2 : outs TgtA2 = [TgtB2];
  gf_kidB2 : kids TgtB2 = [];
  gf_kidB : kids TgtB = [TgtA2];
  gf_insA2 : ins TgtA2 = [TgtB];
  gf_srcN : In SrcA N;
  gf_tgtN : In TgtA N;
  gf_tgt2N : In TgtA2 N;
  gf_Nnodup : NoDup N }.
Hypothesis G : gfacts.

(* ---- orders (latest operation first) ---- *)
Definition pend (r : list opn) (t : ten) : bool := negb (forallb (fun ch => op_in ch r) (kids t)).
Lemma pend_iff r t : pend r t = true <-> exists k, In k (kids t) /\ ~ In k r.
Proof.
  unfold pend. rewrite negb_true_iff. split.
  - intros E. apply not_true_iff_false in E. rewrite forallb_forall in E.
    destruct (Exists_dec (fun k => ~ In k r) (kids t)) as [X|X].
    + intros k. destruct (in_dec opn_eq_dec k r); [right; tauto | left; auto].
    + apply Exists_exists in X. exact X.
    + exfalso. apply E. intros k Hk. apply op_in_iff. destruct (in_dec opn_eq_dec k r); auto.
      exfalso. apply X. apply Exists_exists. eauto.
  - intros (k & Hk & Hn). apply not_true_iff_false. rewrite forallb_forall. intros E. apply Hn, op_in_iff, E, Hk.
Qed.
Lemma pend_false r t : pend r t = false <-> forall k, In k (kids t) -> In k r.
Proof.
  rewrite <- not_true_iff_false, pend_iff. split.
  - intros E k Hk. destruct (in_dec opn_eq_dec k r); auto. exfalso; eauto.
  - intros E (k & Hk & Hn). eauto.
Qed.
Lemma pend_ext r r' t : (forall o, In o r <-> In o r') -> pend r t = pend r' t.
Proof.
  intros E. destruct (pend r t) eqn:A; symmetry.
  - rewrite pend_iff in A |- *. destruct A as (k & Hk & Hn). exists k. rewrite <- E. auto.
  - rewrite pend_false in A |- *. intros k Hk. rewrite <- E. auto.
Qed.

Fixpoint elemsR (r : list opn) : list ten :=
  match r with [] => [] | o :: r' => filter (pend r') (elemsR r') ++ outs o end.
Definition memR (r : list opn) : nat := sum_nat (map size (elemsR r)).
Fixpoint costR (r : list opn) : nat := match r with [] => 0 | _ :: r' => Nat.max (costR r') (memR r) end.

Inductive sched : list opn -> Prop :=
| sched_src : sched [SrcA]
| sched_cons r o : sched r -> ~ In o r -> In o N -> ins o <> [] -> (forall t, In t (ins o) -> exists p, In p r /\ In t (outs p)) -> sched (o :: r).

Definition complete (r : list opn) : Prop := sched r /\ In TgtA2 r.

Lemma sched_nodup r : sched r -> NoDup r.
Proof. induction 1; constructor; auto. constructor. Qed.
Lemma sched_N r : sched r -> incl r N.
Proof. induction 1; intros x [<-|H']; auto. apply gf_srcN; auto. destruct H'. Qed.
Lemma sched_SrcA r : sched r -> In SrcA r.
Proof. induction 1; cbn; auto. Qed.
Lemma sched_tail o r : sched (o :: r) -> r <> [] -> sched r.
Proof. inversion 1; subst; auto. congruence. Qed.
Lemma sched_app s r : r <> [] -> sched (s ++ r) -> sched r.
Proof.
  intros Hr. induction s; cbn; auto. intros H. apply IHs. eapply sched_tail; eauto. destruct s, r; cbn; congruence.
Qed.
Lemma prod_unique t o o' : In t (outs o) -> In t (outs o') -> o = o'.
Proof. intros A B. apply (gf_pars G) in A. apply (gf_pars G) in B. congruence. Qed.

(* predecessors are executed first *)
Lemma sched_closed r : sched r -> forall o t p, In o r -> In t (ins o) -> In t (outs p) -> In p r.
Proof.
  induction 1; intros o' t p Ho Ht Hp.
  - destruct Ho as [<-|[]]. rewrite (gf_insrc G) in Ht. destruct Ht.
  - destruct Ho as [<-|Ho].
    + destruct (H3 t Ht) as (p' & Hp' & Hq). right. rewrite (prod_unique t p p'); auto.
    + right. eapply IHsched; eauto.
Qed.
Lemma sched_before o r t p : sched (o :: r) -> In t (ins o) -> In t (outs p) -> In p r.
Proof.
  inversion 1; subst; intros Ht Hp.
  - rewrite (gf_insrc G) in Ht. destruct Ht.
  - destruct (H6 t Ht) as (p' & Hp' & Hq). rewrite (prod_unique t p p'); auto.
Qed.

(* membership of a cut *)
Lemma elems_cons o r t : sched (o :: r) ->
  (In t (elemsR (o :: r)) <-> In t (outs o) \/ exists p, In p r /\ In t (outs p) /\ pend r t = true).
Proof.
  revert o. induction r as [|p r IH]; intros o S.
  - cbn. split; [tauto|]. intros [H|(p & [] & _)]; auto.
  - assert (S' : sched (p :: r)) by (eapply sched_tail; eauto; discriminate).
    cbn [elemsR] in *. rewrite in_app_iff, filter_In. specialize (IH p S'). cbn [elemsR] in IH. rewrite IH.
    split.
    + intros [[[H|(q & Hq & H & _)] Hp]|H]; auto; right.
      * exists p; cbn; auto.
      * exists q; cbn; auto.
    + intros [H|(q & [<-|Hq] & H & Hp)]; auto; left; split; auto.
      right. exists q. repeat split; auto.
      rewrite pend_iff in *. destruct Hp as (k & Hk & Hn). exists k. split; auto. intros A; apply Hn; cbn; auto.
Qed.
Lemma kept_iff r t : sched r ->
  (In t (filter (pend r) (elemsR r)) <-> exists p, In p r /\ In t (outs p) /\ pend r t = true).
Proof.
  intros S. rewrite filter_In. destruct r as [|o r]; [inversion S|]. rewrite elems_cons by auto.
  split.
  - intros [[H|(p & Hp & H & _)] E]; [exists o|exists p]; cbn; auto.
  - intros (p & [<-|Hp] & H & E); split; auto. right; exists p; repeat split; auto.
    rewrite pend_iff in *. destruct E as (k & Hk & Hn). exists k. split; auto. intros A; apply Hn; cbn; auto.
Qed.
Lemma NoDup_filter' {A} (f : A -> bool) l : NoDup l -> NoDup (filter f l).
Proof. induction 1; cbn; [constructor|]. destruct (f x); auto. constructor; auto. rewrite filter_In; tauto. Qed.
Lemma NoDup_app' {A} (l l' : list A) : NoDup l -> NoDup l' -> (forall x, In x l -> In x l' -> False) -> NoDup (l ++ l').
Proof.
  induction 1; cbn; auto. intros H1 H2. constructor.
  - rewrite in_app_iff. intros [A'|A']; auto. eapply H2; eauto.
  - apply IHNoDup; auto. intros y Hy Hy'. eapply H2; eauto.
Qed.
Lemma fresh_outs o r t : sched (o :: r) -> In t (outs o) -> ~ In t (filter (pend r) (elemsR r)).
Proof.
  intros S Ht Hf. destruct r as [|p r]; [destruct Hf|].
  apply kept_iff in Hf; [|eapply sched_tail; eauto; discriminate].
  destruct Hf as (q & Hq & Hq' & _). assert (q = o) by (eapply prod_unique; eauto). subst q.
  apply sched_nodup in S. inversion S; auto.
Qed.
Lemma elems_nodup r : sched r -> NoDup (elemsR r).
Proof.
  induction 1.
  - cbn. apply gf_nodup; auto.
  - cbn [elemsR]. apply NoDup_app'.
    + apply NoDup_filter'; auto.
    + apply gf_nodup; auto.
    + intros t A B'. eapply (fresh_outs o r); eauto. constructor; auto.
Qed.

(* cuts only depend on the set of executed operations and the next operation *)
Lemma mem_ext o r r' : sched (o :: r) -> sched (o :: r') -> (forall x, In x r <-> In x r') -> memR (o :: r) = memR (o :: r').
Proof.
  intros S S' E. unfold memR. apply sum_nat_perm, Permutation_map, NoDup_Permutation; try (apply elems_nodup; auto).
  intros t. rewrite !elems_cons by auto. rewrite (pend_ext r r' t E).
  split; (intros [H|(p & Hp & H)]; [auto|right; exists p; split; auto; apply E; auto]).
Qed.

(* ---- ancestors: executing the target means everything is executed ---- *)
Lemma complete_all r : sched r -> In TgtA2 r -> forall o, In o N -> In o r.
Proof.
  intros S HT. assert (H : forall n o, M - rank o <= n -> In o N -> In o r).
  { induction n; intros o Hn Ho.
    - pose proof (gf_bound G o Ho). lia.
    - destruct (opn_eq_dec o TgtA2) as [->|Hne]; auto.
      destruct (gf_next G o Ho Hne) as (t & k & Ht & Hk).
      pose proof (gf_rank G _ _ _ Ht Hk). pose proof (gf_kidsN G _ _ Hk) as HkN. pose proof (gf_bound G _ HkN).
      assert (In k r) by (apply IHn; auto; lia).
      eapply sched_closed; eauto. apply gf_kids; auto. }
  intros o. apply (H (M - rank o)); auto.
Qed.
Lemma complete_head r : sched r -> In TgtA2 r -> exists r', r = TgtA2 :: r'.
Proof.
  intros S HT. apply in_split in HT. destruct HT as (a & r' & ->).
  destruct a as [|x a]; [exists r'; auto|]. exfalso.
  assert (S' : sched (TgtA2 :: r')) by (eapply (sched_app (x :: a)); eauto; discriminate).
  assert (In x (TgtA2 :: r')).
  { apply (complete_all _ S'); [left; reflexivity|]. apply (sched_N _ S). left; reflexivity. }
  apply sched_nodup in S. cbn in S. inversion S; subst. apply H2. rewrite in_app_iff; auto.
Qed.

(* ---- extension ---- *)
Lemma exists_min_rank (P : opn -> Prop) (Pd : forall o, {P o} + {~ P o}) l : (exists o, In o l /\ P o) -> exists o, In o l /\ P o /\ forall o', In o' l -> P o' -> rank o <= rank o'.
Proof.
  induction l as [|x l IH]; intros (o & Ho & HP); [destruct Ho|].
  destruct (Exists_dec P l Pd) as [X|X].
  - apply Exists_exists in X. destruct (IH X) as (m & Hm & Pm & Lm).
    destruct (Pd x) as [Px|Px].
    + destruct (le_lt_dec (rank x) (rank m)).
      * exists x. repeat split; cbn; auto. intros o' [<-|H'] P'; auto. specialize (Lm o' H' P'). lia.
      * exists m. repeat split; cbn; auto. intros o' [<-|H'] P'; auto. lia.
    + exists m. repeat split; cbn; auto. intros o' [<-|H'] P'; auto. contradiction.
  - destruct Ho as [<-|Ho]; [|exfalso; apply X, Exists_exists; eauto].
    exists x. repeat split; cbn; auto. intros o' [<-|H'] P'; auto. exfalso; apply X, Exists_exists; eauto.
Qed.
Lemma sched_extend r : sched r -> ~ In TgtA2 r -> exists o, sched (o :: r).
Proof.
  intros S H.
  destruct (exists_min_rank (fun o => ~ In o r)) with (l := N) as (o & Ho & Hn & Hm).
  - intros o. destruct (in_dec opn_eq_dec o r); [right|left]; auto.
  - exists TgtA2. split; auto. apply gf_tgt2N; auto.
  - exists o. constructor; auto.
    + intros E. apply (gf_src G) in E; auto. subst. apply Hn, sched_SrcA; auto.
    + intros t Ht. destruct (gf_prod G _ _ Ht) as (p & Hp & Hp'). exists p. split; auto.
      destruct (in_dec opn_eq_dec p r) as [|Hpn]; auto. exfalso.
      specialize (Hm p Hp Hpn). pose proof (gf_rank G p t o Hp'). rewrite <- (gf_kids G) in H0. specialize (H0 Ht). lia.
Qed.

(* ---- the pivot ---- *)
Definition pivotal (r : list opn) (p : opn) : Prop := forall t q, In q r -> In t (outs q) -> pend r t = true -> q = p.
Lemma pivot_down r p r1 : sched r -> pivotal r p -> sched r1 -> ~ In p r1 -> incl r1 r.
Proof.
  intros S HP. induction 1; intros Hp x Hx.
  - destruct Hx as [<-|[]]. apply sched_SrcA; auto.
  - assert (I : incl r0 r) by (apply IHsched; intros A; apply Hp; cbn; auto).
    destruct Hx as [<-|Hx]; auto.
    destruct (in_dec opn_eq_dec o r) as [|Hn]; auto. exfalso.
    destruct (ins o) as [|t l] eqn:E; [congruence|].
    destruct (H3 t) as (q & Hq & Hq'); [cbn; auto|].
    assert (q = p). { apply (HP t q); auto. apply pend_iff. exists o. split; auto. apply gf_kids; auto. rewrite E; cbn; auto. }
    subst q. apply Hp. cbn; auto.
Qed.
Lemma pivot_up r p r1 : sched r -> ~ In TgtA2 r -> pivotal r p -> sched r1 -> In p r1 -> incl r r1.
Proof.
  intros S HT HP S1 Hp. assert (H : forall n o, M - rank o <= n -> In o r -> In o r1).
  { induction n; intros o Hn Ho.
    - pose proof (gf_bound G o (sched_N _ S _ Ho)). lia.
    - destruct (opn_eq_dec o p) as [->|Hne]; auto.
      destruct (gf_next G o (sched_N _ S _ Ho)) as (t & k & Ht & Hk); [intros ->; auto|].
      assert (E : pend r t = false). { destruct (pend r t) eqn:E; auto. exfalso; apply Hne; eapply HP; eauto. }
      rewrite pend_false in E. specialize (E k Hk).
      pose proof (gf_rank G _ _ _ Ht Hk). pose proof (gf_bound G _ (gf_kidsN G _ _ Hk)).
      assert (In k r1) by (apply IHn; auto; lia).
      eapply sched_closed; eauto. apply gf_kids; auto. }
  intros o. apply (H (M - rank o)); auto.
Qed.
Lemma pivot_split r p tau : sched r -> ~ In TgtA2 r -> pivotal r p -> In p r -> complete tau ->
  exists s r0, tau = s ++ r0 /\ r0 <> [] /\ forall o, In o r0 <-> In o r.
Proof.
  intros S HT HP Hp [St Ht].
  assert (Hpt : In p tau) by (exact (complete_all _ St Ht _ (sched_N _ S _ Hp))).
  apply in_split in Hpt. destruct Hpt as (s & r0 & ->).
  assert (S1 : sched (p :: r0)) by (eapply sched_app; eauto; discriminate).
  exists s, (p :: r0). split; [auto|]. split; [discriminate|]. intros o. split.
  - intros [<-|Ho]; auto. destruct r0 as [|x r0]; [destruct Ho|].
    eapply pivot_down; [exact S|exact HP| |  |exact Ho].
    + eapply sched_tail; eauto; discriminate.
    + apply sched_nodup in S1. inversion S1; auto.
  - intros Ho. eapply (pivot_up r p); eauto. cbn; auto.
Qed.

(* transplanting the end of a schedule *)
Lemma transplant s r r0 : sched (s ++ r0) -> r0 <> [] -> sched r -> (forall o, In o r0 <-> In o r) ->
  sched (s ++ r) /\ costR (s ++ r) <= Nat.max (costR r) (costR (s ++ r0)).
Proof.
  intros H Hr0 S E. assert (Hr : r <> []) by (intros ->; inversion S).
  induction s as [|o s IH]; cbn [app] in *.
  - split; auto. lia.
  - assert (Hne : s ++ r0 <> []) by (destruct s, r0; cbn; congruence).
    destruct IH as [IH1 IH2]; [eapply sched_tail; eauto|].
    assert (EE : forall x, In x (s ++ r) <-> In x (s ++ r0)) by (intros x; rewrite !in_app_iff, E; tauto).
    assert (S1 : sched (o :: s ++ r)).
    { inversion H; subst; [destruct s, r0; cbn in *; congruence|]. constructor; auto.
      - rewrite EE; auto.
      - intros t Ht. destruct (H6 t Ht) as (p & Hp & Hp'). exists p. rewrite EE; auto. }
    split; auto. pose proof (mem_ext o _ _ S1 H EE). cbn [costR]. lia.
Qed.

(* ---- the model's cuts ---- *)
Definition cutR (r : list opn) : cut := {| c_order := rev r; c_record := rev r; c_elems := elemsR r; c_size := memR r |}.
Fixpoint routeR (r : list opn) : list cut := match r with [] => [] | _ :: r' => cutR r :: routeR r' end.
Definition entryR (r : list opn) : entry := {| e_cut := cutR r; e_cost := costR r; e_route := routeR r |}.
Definition cleanR (r : list opn) : cut :=
  {| c_order := rev r; c_record := rev r; c_elems := filter (pend r) (elemsR r); c_size := sum_nat (map size (filter (pend r) (elemsR r))) |}.

Lemma routeR_length r : length (routeR r) = length r.
Proof. induction r; cbn; auto. Qed.
Lemma src_entry : {| e_cut := src_cut; e_cost := 0; e_route := [src_cut] |} = entryR [SrcA].
Proof.
  unfold entryR, cutR, src_cut. cbn [routeR costR]. unfold cutR, memR. cbn [elemsR filter app rev]. rewrite (gf_outsrc G). reflexivity.
Qed.
Lemma filter_ext' {A} (f h : A -> bool) l : (forall x, f x = h x) -> filter f l = filter h l.
Proof. intros E. induction l; cbn; auto. rewrite E, IHl; auto. Qed.
Lemma forallb_ext' {A} (f h : A -> bool) l : (forall x, f x = h x) -> forallb f l = forallb h l.
Proof. intros E. induction l; cbn; auto. rewrite E, IHl; auto. Qed.
Lemma op_in_rev o r : op_in o (rev r) = op_in o r.
Proof.
  destruct (op_in o r) eqn:E.
  - apply op_in_iff. rewrite op_in_iff in E. apply in_rev in E. auto.
  - apply not_true_iff_false. rewrite op_in_iff, <- in_rev, <- op_in_iff, E. discriminate.
Qed.
Lemma clean_cutR r : clean g (cutR r) = cleanR r.
Proof.
  unfold clean, cutR, cleanR. cbn [c_record c_order c_elems].
  assert (E : filter (fun t => negb (forallb (fun ch => op_in ch (rev r)) (kids t))) (elemsR r) = filter (pend r) (elemsR r)).
  { apply filter_ext'. intros t. unfold pend. f_equal. apply forallb_ext'. intros x; apply op_in_rev. }
  rewrite E. reflexivity.
Qed.
Lemma filter_idem {A} (f : A -> bool) l : filter f (filter f l) = filter f l.
Proof. induction l; cbn; auto. destruct (f a) eqn:E; cbn; rewrite ?E, IHl; auto. Qed.
Lemma clean_cleanR r : clean g (cleanR r) = cleanR r.
Proof.
  unfold clean, cleanR. cbn [c_record c_order c_elems].
  assert (E : filter (fun t => negb (forallb (fun ch => op_in ch (rev r)) (kids t))) (filter (pend r) (elemsR r)) = filter (pend r) (elemsR r)).
  { rewrite <- (filter_idem (pend r) (elemsR r)) at 2. apply filter_ext'. intros t. unfold pend. f_equal. apply forallb_ext'. intros x; apply op_in_rev. }
  rewrite E. reflexivity.
Qed.

Lemma can_expand_iff r o : sched r -> In o N -> ins o <> [] -> (can_expand g o (cleanR r) = true <-> sched (o :: r)).
Proof.
  intros S Ho Hi. unfold can_expand. rewrite clean_cleanR. cbn [cleanR c_record c_elems].
  rewrite !andb_true_iff, op_in_rev, negb_true_iff, forallb_forall. split.
  - intros [[A _] B]. assert (Hn : ~ In o r) by (rewrite <- op_in_iff, A; discriminate).
    constructor; auto. intros t Ht. apply B in Ht. rewrite ten_in_iff, kept_iff in Ht by auto. destruct Ht as (p & Hp & Hp' & _). eauto.
  - intros SS. inversion SS; subst; [rewrite (gf_insrc G) in Hi; congruence|].
    assert (K : forall t, In t (ins o) -> In t (filter (pend r) (elemsR r))).
    { intros t Ht. apply kept_iff; auto. destruct (H5 t Ht) as (p & Hp & Hp'). exists p. repeat split; auto.
      apply pend_iff. exists o. split; auto. apply gf_kids; auto. }
    repeat split.
    + apply not_true_iff_false. rewrite op_in_iff. auto.
    + destruct (ins o) as [|t l] eqn:E; [congruence|]. specialize (K t (or_introl eq_refl)).
      destruct (filter (pend r) (elemsR r)); [destruct K|reflexivity].
    + intros t Ht. apply ten_in_iff. auto.
Qed.
Lemma cand_fold cc ts : forall init,
  NoDup init ->
  (forall t, NoDup (kids t)) ->
  let l := fold_left (fun cands t => cands ++ filter (fun o => can_expand g o cc && negb (op_in o cands)) (kids t)) ts init in
  NoDup l /\ forall o, In o l <-> In o init \/ (can_expand g o cc = true /\ exists t, In t ts /\ In o (kids t)).
Proof.
  induction ts as [|t ts IH]; cbn [fold_left]; intros init Hi Hk.
  - split; auto. intros o. split; auto. intros [H|(_ & t & [] & _)]; auto.
  - assert (Hi' : NoDup (init ++ filter (fun o => can_expand g o cc && negb (op_in o init)) (kids t))).
    { apply NoDup_app'; [exact Hi|apply NoDup_filter', Hk|].
      intros x Hx Hf. apply filter_In in Hf. destruct Hf as [_ Hf]. apply andb_true_iff in Hf. destruct Hf as [_ Hf].
      apply op_in_iff in Hx. rewrite Hx in Hf. discriminate. }
    destruct (IH _ Hi' Hk) as [A B]. split; auto. intros o. rewrite B, in_app_iff, filter_In. split.
    + intros [[H|[H1 H2]]|(H1 & t' & H2 & H3)].
      * left; exact H.
      * right. apply andb_true_iff in H2. split; [tauto|]. exists t; cbn; auto.
      * right. split; [exact H1|]. exists t'; cbn; auto.
    + intros [H|(H1 & t' & [<-|H2] & H3)].
      * left; left; exact H.
      * destruct (op_in o init) eqn:E; [left; left; apply op_in_iff; auto|]. left; right. rewrite H1; auto.
      * right. split; [exact H1|]. exists t'; auto.
Qed.
Lemma kids_nodup_of : NoDup (b_ba b) -> forall t, NoDup (kids t).
Proof.
  intros H t. unfold ten_children. induction H; cbn; [constructor|].
  destruct (ten_eq_dec (fst x) t) as [E|E]; cbn; auto. constructor; auto.
  rewrite in_map_iff. intros (y & E1 & E2). apply filter_In in E2. destruct E2 as [E2 E3].
  destruct (ten_eq_dec (fst y) t); [|discriminate]. destruct x, y; cbn in *; subst. auto.
Qed.
Hypothesis Hba : forall t, NoDup (kids t).

Lemma candidates_spec r : sched r -> NoDup (candidates g (cleanR r)) /\ forall o, In o (candidates g (cleanR r)) <-> sched (o :: r).
Proof.
  intros S. unfold candidates. destruct (cand_fold (cleanR r) (c_elems (cleanR r)) [] (NoDup_nil _) Hba) as [A B].
  split; auto. intros o. rewrite B. split.
  - intros [[]|(H & t & Ht & Hk)]. apply can_expand_iff in H; auto.
    + eapply gf_kidsN; eauto.
    + intros E. apply (gf_kids G) in Hk. rewrite E in Hk. destruct Hk.
  - intros SS. right. assert (Ho : In o N) by (eapply sched_N; eauto; cbn; auto).
    assert (Hi : ins o <> []). { inversion SS; subst; auto. inversion S. }
    split; [apply can_expand_iff; auto|].
    destruct (ins o) as [|t l] eqn:E; [congruence|]. exists t.
    assert (Ht : In t (ins o)) by (rewrite E; cbn; auto).
    split; [|apply gf_kids; auto]. cbn [cleanR c_elems]. apply kept_iff; auto.
    destruct (gf_prod G _ _ Ht) as (p & _ & Hp). exists p. split; [eapply sched_before; eauto|]. split; auto.
    apply pend_iff. exists o. split; [apply gf_kids; auto|]. apply sched_nodup in SS. inversion SS; auto.
Qed.
Lemma add_elements_fresh new : forall es, NoDup new -> (forall t, In t new -> ~ In t es) -> add_elements es new = es ++ new.
Proof.
  unfold add_elements. induction new as [|t new IH]; cbn; intros es Hn Hf; [rewrite app_nil_r; auto|].
  inversion Hn; subst. destruct (ten_in t es) eqn:E; [exfalso; eapply Hf; eauto; apply ten_in_iff; auto|].
  rewrite IH; auto. rewrite <- app_assoc; auto.
  intros t' H' Ha. apply in_app_iff in Ha. destruct Ha as [Ha|[<-|[]]]; auto. eapply Hf; eauto.
Qed.
Lemma expand_by_cutR r o : sched (o :: r) -> expand_by g (cleanR r) o = cutR (o :: r).
Proof.
  intros S. unfold expand_by, cutR, memR. cbn [cleanR c_order c_record c_elems c_size rev elemsR].
  rewrite add_elements_fresh; [|apply gf_nodup; auto|intros t Ht; eapply fresh_outs; eauto].
  rewrite map_app, sum_nat_app. reflexivity.
Qed.
Lemma expand_entries r : sched r ->
  map (fun c => {| e_cut := c; e_cost := Nat.max (e_cost (entryR r)) (c_size c); e_route := c :: e_route (entryR r) |}) (expand g (e_cut (entryR r)))
  = map entryR (map (fun o => o :: r) (candidates g (cleanR r))).
Proof.
  intros S. unfold expand. cbn [entryR e_cut e_cost e_route]. rewrite clean_cutR, !map_map. apply map_ext_in. intros o Ho.
  apply candidates_spec in Ho; auto. rewrite expand_by_cutR by auto. reflexivity.
Qed.

Lemma is_target_iff r : sched r -> (is_target (cutR r) = true <-> In TgtA2 r).
Proof.
  intros S. unfold is_target. cbn [cutR c_elems]. rewrite andb_true_iff, !forallb_forall. split.
  - intros [_ A]. specialize (A TgtB2). rewrite ten_in_iff in A. cbn in A.
    destruct r as [|o r]; [inversion S|]. rewrite (elems_cons o r) in A by auto.
    assert (X : In TgtB2 (outs TgtA2)) by (rewrite (gf_outA2 G); cbn; auto).
    destruct A as [A|(p & Hp & A & _)]; auto.
    + left. eapply prod_unique; eauto.
    + right. assert (p = TgtA2) by (eapply prod_unique; eauto). subst; auto.
  - intros HT. destruct (complete_head r S HT) as (r' & ->).
    assert (HA : In TgtA r').
    { eapply (sched_before TgtA2 r' TgtB); eauto. rewrite (gf_insA2 G); cbn; auto. rewrite (gf_outA G); cbn; auto. }
    assert (E : forall t, In t (elemsR (TgtA2 :: r')) <-> t = TgtB \/ t = TgtB2).
    { intros t. rewrite elems_cons, (gf_outA2 G) by auto. cbn [In]. split.
      - intros [[<-|[]]|(p & Hp & Ht & Hpe)]; auto. apply pend_iff in Hpe. destruct Hpe as (k & Hk & Hn).
        assert (k = TgtA2). { pose proof (complete_all _ S HT k (gf_kidsN G _ _ Hk)) as [<-|]; auto. contradiction. }
        subst k. apply (gf_kids G) in Hk. rewrite (gf_insA2 G) in Hk. destruct Hk as [<-|[]]; auto.
      - intros [-> | ->]; auto. right. exists TgtA. split; auto. rewrite (gf_outA G). split; [cbn; auto|].
        apply pend_iff. exists TgtA2. rewrite (gf_kidB G). split; cbn; auto. apply sched_nodup in S. inversion S; auto. }
    split.
    + intros t Ht. apply E in Ht. apply ten_in_iff. destruct Ht as [->| ->]; cbn; auto.
    + intros t Ht. apply ten_in_iff. apply E. destruct Ht as [<-|[<-|[]]]; auto.
Qed.
Lemma is_pivot_pivotal r : sched r -> is_pivot g (cutR r) = true -> exists p, pivotal r p /\ In p r.
Proof.
  intros S. unfold is_pivot. rewrite clean_cutR. cbn [cleanR c_elems]. intros H. apply Nat.eqb_eq in H.
  destruct (nodup opn_eq_dec _) as [|p [|? ?]] eqn:E; cbn in H; try lia.
  assert (X : forall q, In q (concat (map pars (filter (pend r) (elemsR r)))) <-> q = p).
  { intros q. rewrite <- (nodup_In opn_eq_dec), E. cbn. intuition. }
  assert (P : pivotal r p).
  { intros t q Hq Ht Hp. apply X. apply in_concat. exists (pars t). split.
    - apply in_map. apply kept_iff; auto. eauto.
    - rewrite (gf_pars G q t); cbn; auto. }
  exists p. split; auto.
  clear X.
  assert (X : In p (concat (map pars (filter (pend r) (elemsR r))))) by (rewrite <- (nodup_In opn_eq_dec), E; cbn; auto).
  apply in_concat in X. destruct X as (l & Hl & Hp). apply in_map_iff in Hl. destruct Hl as (t & <- & Ht).
  apply kept_iff in Ht; auto. destruct Ht as (q & Hq & Hq' & _). rewrite (gf_pars G q t) in Hp; auto. destruct Hp as [<-|[]]; auto.
Qed.
End Graph.
