(* FuserProps.v -- C31: replacing the nodes of a fused operation by one node. *)
From Coq Require Import Permutation Sorted Lia String.
From Verif Require Import Base GraphModel GraphSpec GraphProofs GraphProps GraphFindProps FuseModel FuseSpec FuseProofs FuseProps FuseGenProofs FuseGenProps FuserProofs.
Open Scope list_scope.
Open Scope res_scope.
Local Open Scope nat_scope.

Lemma ends_of g ns f : fusible g ns f -> exists a z r, hd_error ns = Some a /\ ns = r ++ [z].
Proof.
  intro F. pose proof (fu_two _ _ _ F) as L. destruct ns as [|a l]; [cbn in L; lia|]. exists a, (last (a :: l) a), (removelast (a :: l)). split; [reflexivity|]. apply split_last. discriminate.
Qed.
(* whatever check runs after each change, the result keeps every edge but those that enter the group behind
   its first node, and every output *)
Theorem fusing_group check g ns f g' : fusible g ns f -> fuse_group check g ns f = Ok g' ->
  fused_with (fun e => negb (enters_late ns e)) g ns f g' /\ wf g'.
Proof.
  intros F H. destruct (ends_of g ns f F) as (a & z & r & HA & HZ). destruct (fuse_one g ns f a z r F HA HZ) as (h & E & R). apply fuse_group_mono in H. rewrite E in H. injection H as <-. exact R.
Qed.
Lemma late_inside g ns f : fusible g ns f -> no_side_inputs g ns -> forall e, In e (g_edges g) -> enters_late ns e = inside ns e.
Proof.
  intros F S e I. destruct (ends_of g ns f F) as (a & z & r & HA & HZ). unfold enters_late, inside. apply Bool.eq_iff_eq_true. rewrite andb_true_iff, !mem_spec. split.
  - intro T. assert (X : forall l, steps (only_prev g) l -> In (snk e) (tl l) -> In (src e) l).
    { clear -I. induction l as [|x l IH]; intros S T; [destruct T|]. destruct l as [|y l]; [destruct T|]. destruct S as [(d & S1 & S2) S3]. cbn [tl] in T. destruct T as [T|T].
      - assert (In e (filter (fun x => Nat.eqb (snk x) y) (g_edges g))) as J by (apply filter_In; split; [exact I|rewrite T; apply Nat.eqb_refl]). rewrite S1 in J. destruct J as [<-|[]]. left. symmetry. exact S2.
      - right. apply IH; assumption. }
    split; [apply X; assumption|]. apply (in_tl g ns f a z r F HA HZ). right. exact T.
  - intros [A B]. apply (in_rz ns z r HZ) in A. destruct A as [A|A].
    + exact (r_out g ns f z r F HZ e I A).
    + exfalso. exact (z_out g ns f z r F HZ e I A B).
Qed.
(* with no such inputs exactly the edges inside the group disappear *)
Theorem fusing_group_exact check g ns f g' : fusible g ns f -> no_side_inputs g ns -> fuse_group check g ns f = Ok g' -> fused g ns f g' /\ wf g'.
Proof.
  intros F S H. destruct (fusing_group check g ns f g' F H) as [(P & R) W]. split; [|exact W]. split; [|exact R]. rewrite P.
  rewrite (filter_ext_in _ (fun e => negb (inside ns e))); [reflexivity|]. intros e I. rewrite (late_inside g ns f F S e I). reflexivity.
Qed.
Theorem fusing_group_succeeds g ns f : fusible g ns f -> exists g', fuse_group no_check g ns f = Ok g'.
Proof. intro F. destruct (ends_of g ns f F) as (a & z & r & HA & HZ). destruct (fuse_one g ns f a z r F HA HZ) as (h & E & R). exists h. exact E. Qed.

(* ---- the fused graph computes the same outputs ---- *)
Section Values.
Context {V : Type}.
Lemma sorted_map_ti (h : edge -> edge) l : (forall e, ti (h e) = ti e) -> StronglySorted (fun a b => ti a <= ti b) (map h l) -> StronglySorted (fun a b => ti a <= ti b) l.
Proof.
  intro H. induction l as [|x l IH]; intro S; constructor; cbn in S; inversion S as [|? ? S1 S2]; subst; [apply IH, S1|]. rewrite Forall_map in S2. eapply Forall_impl; [|exact S2]. cbn. intros y. rewrite !H. auto.
Qed.
Lemma reads_fused g ns f g' (val val' : nat -> nat -> V) n n' l : fused g ns f g' ->
  (forall e, In e (g_edges g) -> inside ns e = false -> (rep ns f (snk e) = n' <-> snk e = n)) -> (forall e, In e (g_edges g) -> snk e = n -> inside ns e = false) ->
  (forall e, In e (g_edges g) -> inside ns e = false -> val' (rep ns f (src e)) (si e) = val (src e) (si e)) -> reads g' val' n' l -> reads g val n l.
Proof.
  intros (P & _) HN HI HV (es & P1 & S & ->).
  rewrite (filter_perm _ _ _ P), filter_map_comm in P1. apply Permutation_map_inv in P1. destruct P1 as (es0 & -> & P1).
  assert (Q : Permutation es0 (filter (fun e => Nat.eqb (snk e) n) (g_edges g))).
  { rewrite <- P1, <- filter_and. rewrite (filter_ext_in _ (fun e => Nat.eqb (snk e) n)); [reflexivity|]. intros e I. cbn. apply Bool.eq_iff_eq_true. rewrite andb_true_iff, negb_true_iff, !Nat.eqb_eq.
    split; [intros [A B]; apply (HN e I A), B|]. intro A. pose proof (HI e I A) as B. split; [exact B|]. apply (HN e I B), A. }
  exists es0. split; [exact Q|]. split; [apply (sorted_map_ti (collapse ns f)); [reflexivity|exact S]|]. rewrite map_map. apply map_ext_in. intros e I. apply (Permutation_in _ Q) in I. apply filter_In in I.
  destruct I as [I J]. apply Nat.eqb_eq in J. cbn. apply HV; [exact I|]. apply (HI e I J).
Qed.
Lemma last_indep (y : nat) l : forall d d', last (y :: l) d = last (y :: l) d'.
Proof. revert y. induction l as [|x l IH]; intros y d d'; [reflexivity|]. change (last (x :: l) d = last (x :: l) d'). apply IH. Qed.
Lemma chain_values g : forall l, steps (only_prev g) l -> forall a t, l = a :: t ->
  exists later, map fst later = t /\ forall op (val : nat -> nat -> V), computes op g val -> (forall n, In n l -> In n (g_nodes g)) ->
    forall v, (forall k, val a k = v k) -> forall k, val (last l a) k = fold_left (fun v ni => op (fst ni) [v (snd ni)]) later v k.
Proof.
  induction l as [|x l IH]; intros S a t E; [discriminate|]. injection E as <- <-. destruct l as [|y l].
  - exists []. split; [reflexivity|]. intros op val C N v H k. apply H.
  - destruct S as [(e & S1 & S2) S3]. destruct (IH S3 y l eq_refl) as (later & M & L). exists ((y, si e) :: later). split; [cbn; f_equal; exact M|].
    intros op val C N v H k. cbn [fold_left fst snd]. change (last (x :: y :: l) x) with (last (y :: l) x). rewrite (last_indep y l x y). apply L; [exact C|intros n I; apply N; right; exact I|]. intro k'. rewrite <- H. subst x.
    apply (C y (N y (or_intror (or_introl eq_refl)))). exists [e]. rewrite S1. split; [reflexivity|]. split; [repeat constructor|]. reflexivity.
Qed.
Theorem fusing_preserves_outputs check g ns f g' : fusible g ns f -> no_side_inputs g ns -> (forall o, In o (g_out g) -> In (fst o) (g_nodes g)) -> fuse_group check g ns f = Ok g' ->
  exists a later, ns = a :: map fst later /\ forall (op op' : nat -> list V -> nat -> V),
    (forall m l k, m <> f -> op' m l k = op m l k) -> (forall l k, op' f l k = compose op a later l k) ->
    forall val, computes op g val -> exists val', computes op' g' val' /\ outputs g' val' = outputs g val /\ forall m k, m <> f -> val' m k = val m k.
Proof.
  intros F S OG H. destruct (fusing_group_exact check g ns f g' F S H) as [FU W']. destruct (ends_of g ns f F) as (a & z & r & HA & HZ). pose proof F as [W FN ND TW NO NX FI FO NI].
  assert (X : exists t, ns = a :: t). { destruct ns as [|x t]; [discriminate|]. injection HA as ->. eauto. } destruct X as [t EN].
  destruct (chain_values g ns S a t EN) as (later & M & L). exists a, later. split; [rewrite M; exact EN|]. intros op op' HO HF val C.
  assert (LA : last ns a = z) by (rewrite HZ; apply last_last). rewrite LA in L.
  assert (LI := late_inside g ns f F S).
  exists (fun m k => if Nat.eqb m f then val z k else val m k).
  assert (HV : forall e, In e (g_edges g) -> inside ns e = false -> (if Nat.eqb (rep ns f (src e)) f then val z (si e) else val (rep ns f (src e)) (si e)) = val (src e) (si e)).
  { intros e I IN. unfold rep. destruct (mem (src e) ns) eqn:MM.
    - rewrite Nat.eqb_refl. apply mem_spec in MM. apply (in_rz ns z r HZ) in MM. destruct MM as [MM| ->]; [|reflexivity]. exfalso. pose proof (r_out g ns f z r F HZ e I MM) as T. apply mem_spec in T. rewrite <- (LI e I) in IN. unfold enters_late in IN. congruence.
    - destruct (Nat.eqb_spec (src e) f) as [E|E]; [|reflexivity]. exfalso. apply FN. rewrite <- E. apply (wf_ends g W e I). }
  split; [|split].
  - intros n IN l R k. destruct FU as (P & N' & GI & GO). apply N' in IN. destruct (Nat.eqb_spec n f) as [->|NF].
    + assert (RA : reads g val a l).
      { eapply reads_fused; [split; [exact P|split; [exact N'|split; [exact GI|exact GO]]]| | | |exact R].
        - intros e I J. rewrite <- (LI e I) in J. unfold enters_late in J. apply mem_false in J. unfold rep. destruct (mem (snk e) ns) eqn:MM.
          + apply mem_spec, (in_tl g ns f a z r F HA HZ) in MM. split; [tauto|reflexivity].
          + apply mem_false in MM. split; [|intro E; exfalso; apply MM; rewrite E; exact (a_in g ns f a z r F HA HZ)]. intro E. exfalso. apply FN. rewrite <- E. apply (wf_ends g W e I).
        - intros e I J. rewrite <- (LI e I). unfold enters_late. apply mem_false. rewrite J. exact (a_not_tl g ns f a z r F HA HZ).
        - exact HV. }
      rewrite HF. unfold compose. apply (L op val C NO). intro k'. apply (C a); [apply NO; exact (a_in g ns f a z r F HA HZ)|exact RA].
    + destruct IN as [[IN NN]|IN]; [|contradiction]. rewrite (HO n l k NF). apply (C n IN). eapply reads_fused; [split; [exact P|split; [exact N'|split; [exact GI|exact GO]]]| | | |exact R].
      * intros e I J. unfold rep. destruct (mem (snk e) ns) eqn:MM; [|tauto]. apply mem_spec in MM. split; [congruence|]. intros <-. contradiction.
      * intros e I J. unfold inside. rewrite J, (proj2 (mem_false n ns) NN). apply andb_false_r.
      * exact HV.
  - unfold outputs. destruct FU as (_ & _ & _ & ->). rewrite map_map. apply map_ext_in. intros o I. cbn. unfold rep. destruct (mem (fst o) ns) eqn:MM.
    + rewrite Nat.eqb_refl. apply mem_spec in MM. destruct (FO z r HZ) as (_ & _ & O3 & _). rewrite (O3 o I MM). reflexivity.
    + destruct (Nat.eqb_spec (fst o) f) as [E|E]; [|reflexivity]. exfalso. apply FN. rewrite <- E. apply (OG o I).
  - intros m k NF. rewrite (proj2 (Nat.eqb_neq m f) NF). reflexivity.
Qed.
End Values.
