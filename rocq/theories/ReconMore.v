(* ReconMore.v -- separate configurations, and the correspondence between assignments of the virtual graph and
   configurations of the original graph. *)
From Coq Require Import String Permutation Sorted.
From Verif Require Import Base SDict ReconModel ReconSpec ReconProofs ReconMain.
Local Open Scope list_scope.
Local Open Scope nat_scope.

Lemma vnode_eq_dec (v w : vnode) : {v = w} + {v <> w}.
Proof. repeat decide equality. Defined.

Section Bits.
Variables bits_a bits_w : nat -> nat.
Notation vc := (v_cands bits_a bits_w).

(* ---- order and distinctness of the composed candidates ---- *)
Lemma before_total x y : before bits_a bits_w x y = false -> before bits_a bits_w y x = true.
Proof.
  unfold before. intro H. apply orb_false_iff in H. destruct H as [A B].
  destruct (Nat.ltb_spec (bits_w (c_w y)) (bits_w (c_w x))) as [L|L]; [discriminate|].
  destruct (Nat.ltb_spec (bits_w (c_w x)) (bits_w (c_w y))) as [L'|L']; [reflexivity|].
  assert (Q : bits_w (c_w y) = bits_w (c_w x)) by lia. rewrite Q, Nat.eqb_refl in *. cbn in *.
  destruct (Nat.leb_spec (bits_a (c_a y)) (bits_a (c_a x))) as [M|M]; [discriminate|]. apply Nat.leb_le. lia.
Qed.
Lemma before_trans x y z : before bits_a bits_w x y = true -> before bits_a bits_w y z = true -> before bits_a bits_w x z = true.
Proof.
  unfold before. rewrite !orb_true_iff, !andb_true_iff, !Nat.ltb_lt, !Nat.eqb_eq, !Nat.leb_le. lia.
Qed.
Lemma insert_sorted x l : StronglySorted (fun a b => before bits_a bits_w a b = true) l ->
  StronglySorted (fun a b => before bits_a bits_w a b = true) (insert bits_a bits_w x l).
Proof.
  induction l as [|y r IH]; cbn; intro S; [repeat constructor|]. inversion S as [|? ? S1 S2]; subst.
  destruct (before bits_a bits_w x y) eqn:B.
  - constructor; [exact S|]. constructor; [exact B|]. eapply Forall_impl; [|exact S2]. intros z Z. eapply before_trans; eassumption.
  - constructor; [auto|]. apply Forall_forall. intros z Z.
    apply (Permutation_in z (Permutation_sym (insert_perm bits_a bits_w x r))) in Z. destruct Z as [<-|Z].
    + apply before_total. exact B.
    + rewrite Forall_forall in S2. auto.
Qed.
Lemma sort_sorted l : StronglySorted (fun a b => before bits_a bits_w a b = true) (sort bits_a bits_w l).
Proof. induction l as [|x r IH]; cbn; [constructor|]. apply insert_sorted. exact IH. Qed.

Lemma nodup_map_inv {A B} (f : A -> B) l : NoDup (map f l) -> NoDup l.
Proof.
  induction l as [|x l IH]; cbn; intro N; [constructor|]. inversion N as [|? ? N1 N2]; subst.
  constructor; [|auto]. intro I. apply N1. apply in_map. exact I.
Qed.

Lemma product_nodup la lw : NoDup (map c_a la) -> NoDup (map c_w lw) ->
  NoDup (flat_map (fun ca => map (fun cw => Cand (c_a ca) (c_w cw)) lw) la).
Proof.
  intros Na Nw. induction la as [|a la IH]; cbn; [constructor|]. cbn in Na. inversion Na as [|? ? N1 N2]; subst.
  apply nodup_app; [| auto|].
  - apply (nodup_map_inv c_w). rewrite map_map. exact Nw.
  - intros x I J. apply in_map_iff in I. destruct I as [w [<- I]]. apply in_flat_map in J. destruct J as [a' [Ia J]].
    apply in_map_iff in J. destruct J as [w' [Q _]]. injection Q as Q _. apply N1. rewrite <- Q. apply in_map. exact Ia.
Qed.

Section Graph.
Variable g : ograph.
Hypothesis G : graph_ok g.
Variable vs : list vnode.
Hypothesis V : virtual_nodes bits_a bits_w g = Ok vs.

Lemma nodup_c_a n : In n (og_nodes g) -> o_conf_w n = false -> NoDup (map c_a (o_cands n)).
Proof.
  intros I W. assert (N := gk_distinct _ G n I).
  assert (S : forall c d, In c (o_cands n) -> In d (o_cands n) -> c_w c = c_w d) by (intros; eapply (settled_w g G n); eassumption).
  clear - N S. induction (o_cands n) as [|c r IH]; cbn; [constructor|]. inversion N as [|? ? N1 N2]; subst.
  constructor; [|apply IH; [exact N2|intros; apply S; right; assumption]].
  intro J. apply in_map_iff in J. destruct J as [d [Q J]]. apply N1.
  assert (Q2 := S c d (or_introl eq_refl) (or_intror J)). destruct c, d. cbn in *. subst. exact J.
Qed.

Lemma split_w_nodup n : NoDup (map c_w (split_w_cands n)).
Proof. unfold split_w_cands. rewrite map_map. cbn. apply (uniq_nodup c_w (o_cands n) []). Qed.
Lemma split_a_nodup n : NoDup (map c_a (split_a_cands n)).
Proof. unfold split_a_cands. rewrite map_map. cbn. apply (uniq_nodup c_a (o_cands n) []). Qed.

Lemma v_cands_nodup v : In v vs -> NoDup (vc v).
Proof.
  intro I. apply (virtual_cases bits_a bits_w g vs V) in I. destruct v as [n|n|n|p n]; cbn [v_cands].
  - apply (gk_distinct _ G). tauto.
  - apply (nodup_map_inv c_w). apply split_w_nodup.
  - apply (nodup_map_inv c_a). apply split_a_nodup.
  - destruct I as [I [K C]]. apply composable_some in C. destruct C as [P [_ [_ C]]].
    eapply Permutation_NoDup; [apply sort_perm|]. apply product_nodup.
    + destruct (o_kernel p) eqn:Kp; [apply split_a_nodup|]. apply nodup_c_a; auto.
    + apply (uniq_nodup c_w (split_w_cands n) []).
Qed.

(* ---- separate configurations ---- *)
Section Sep.
Variable all : bool.
Variable cfg : vcfg.
Hypothesis INVS : forall v, In v (map fst cfg) -> In v vs.
Hypothesis IDX : forall v j, In (v, j) cfg -> j < length (vc v).

Definition from (r : vnode -> nat -> option (onode * list nat)) (conf : onode -> bool) (l : vcfg) (d : list (string * nat)) : Prop :=
  (forall k i, sget k d = Some i -> exists v j n t, In (v, j) l /\ r v j = Some (n, i :: t) /\ k = o_name n /\ all || conf n = true) /\
  (forall v j n t, In (v, j) l -> r v j = Some (n, t) -> all || conf n = true -> sget (o_name n) d <> None).

Lemma from_step r conf l d v j : (forall n t, r v j = Some (n, t) -> t <> []) -> from r conf l d ->
  exists d', first_candidate d (r v j) (fun n => all || conf n) = Ok d' /\ from r conf (l ++ [(v, j)]) d'.
Proof.
  intros Ne [A B]. unfold first_candidate.
  assert (W : from r conf l d -> (forall n t, r v j = Some (n, t) -> all || conf n = true -> False) -> from r conf (l ++ [(v, j)]) d).
  { intros _ X. split.
    - intros k i S. destruct (A k i S) as [v' [j' [n' [t' [I R]]]]]. exists v', j', n', t'. split; [apply in_app_iff; auto|exact R].
    - intros v' j' n' t' I R C. apply in_app_iff in I. destruct I as [I|[I|[]]]; [eauto|]. injection I as <- <-. exfalso. eauto. }
  destruct (r v j) as [[n t]|] eqn:R.
  2: { exists d. split; [reflexivity|]. apply W; [split; assumption|]. intros n t Q. discriminate. }
  destruct (all || conf n) eqn:C.
  2: { exists d. split; [reflexivity|]. apply W; [split; assumption|]. intros n' t' Q. injection Q as <- <-. congruence. }
  destruct t as [|i t]; [exfalso; apply (Ne n [] eq_refl); reflexivity|].
  eexists. split; [reflexivity|]. split.
  - intros k i' S. rewrite sget_sset in S. destruct (String.eqb_spec k (o_name n)) as [->|Nk].
    + injection S as <-. exists v, j, n, t. split; [apply in_app_iff; right; left; reflexivity|auto].
    + destruct (A k i' S) as [v' [j' [n' [t' [I R']]]]]. exists v', j', n', t'. split; [apply in_app_iff; auto|exact R'].
  - intros v' j' n' t' I R' C'. rewrite sget_sset. destruct (String.eqb_spec (o_name n') (o_name n)) as [_|Nk]; [discriminate|].
    apply in_app_iff in I. destruct I as [I|[I|[]]]; [eauto|]. injection I as <- <-. congruence.
Qed.

Lemma rA_nonempty v j n t : In v vs -> j < length (vc v) -> rA bits_a bits_w v j = Some (n, t) -> t <> [].
Proof.
  intros I L R. assert (H := retrieve_a_ok bits_a bits_w g G vs V v j I L). rewrite R in H.
  destruct v as [m|m|m|p m]; cbn [retrieve_a rA] in *; try discriminate.
  - injection R as _ <-. discriminate.
  - unfold candidate in H. destruct (nth_error _ _) as [q|]; cbn [bind] in H; [|discriminate]. injection R as -> <-.
    unfold matched in H. destruct (matching _ _); discriminate.
  - unfold candidate in H. destruct (nth_error _ _) as [q|]; cbn [bind] in H; [|discriminate]. injection R as -> <-.
    unfold matched in H. destruct (matching _ _); discriminate.
Qed.
Lemma rW_nonempty v j n t : In v vs -> j < length (vc v) -> rW bits_a bits_w v j = Some (n, t) -> t <> [].
Proof.
  intros I L R. assert (H := retrieve_w_ok bits_a bits_w g G vs V v j I L). rewrite R in H.
  destruct v as [m|m|m|p m]; cbn [retrieve_w rW] in *; try discriminate.
  - destruct (o_weights m); [|discriminate]. injection R as _ <-. discriminate.
  - unfold candidate in H. destruct (nth_error _ _) as [q|]; cbn [bind] in H; [|discriminate]. injection R as -> <-.
    unfold matched in H. destruct (matching _ _); discriminate.
  - unfold candidate in H. destruct (nth_error _ _) as [q|]; cbn [bind] in H; [|discriminate]. injection R as -> <-.
    unfold matched in H. destruct (matching _ _); discriminate.
Qed.

Lemma separate_ok : exists ac wc, reconstruct_separate bits_a bits_w g all cfg = Ok (ac, wc) /\
  from (rA bits_a bits_w) o_conf_a cfg ac /\ from (rW bits_a bits_w) o_conf_w cfg wc.
Proof.
  unfold reconstruct_separate.
  assert (H : forall l pre a w, cfg = pre ++ l -> from (rA bits_a bits_w) o_conf_a pre a -> from (rW bits_a bits_w) o_conf_w pre w ->
    exists ac wc, foldM (fun (st : list (string * nat) * list (string * nat)) (vi : vnode * nat) =>
      let '(v, i) := vi in
      let! ra := retrieve_a bits_a bits_w g v i in
      let! da := first_candidate (fst st) ra (fun n => all || o_conf_a n) in
      let! rw := retrieve_w bits_a bits_w g v i in
      let! dw := first_candidate (snd st) rw (fun n => all || o_conf_w n) in
      Ok (da, dw)) l (a, w) = Ok (ac, wc) /\ from (rA bits_a bits_w) o_conf_a cfg ac /\ from (rW bits_a bits_w) o_conf_w cfg wc).
  { induction l as [|[v j] l IH]; intros pre a w Q Fa Fw; cbn [foldM].
    - rewrite app_nil_r in Q. subst pre. eauto.
    - assert (I : In (v, j) cfg) by (rewrite Q; apply in_app_iff; right; left; reflexivity).
      assert (Iv : In v vs) by (apply INVS; apply (in_map fst) in I; exact I).
      assert (L := IDX _ _ I).
      rewrite (retrieve_a_ok bits_a bits_w g G vs V v j Iv L), (retrieve_w_ok bits_a bits_w g G vs V v j Iv L). cbn [bind fst snd].
      destruct (from_step (rA bits_a bits_w) o_conf_a pre a v j) as [a' [-> Fa']]; [intros n t; apply rA_nonempty; assumption|exact Fa|]. cbn [bind].
      destruct (from_step (rW bits_a bits_w) o_conf_w pre w v j) as [w' [-> Fw']]; [intros n t; apply rW_nonempty; assumption|exact Fw|]. cbn [bind].
      apply (IH (pre ++ [(v, j)])); auto. rewrite <- app_assoc. exact Q. }
  apply (H cfg [] [] []); [reflexivity|..]; (split; [intros k i S; discriminate|intros v j n t []]).
Qed.

Lemma from_a_agrees ac n i : from (rA bits_a bits_w) o_conf_a cfg ac -> In n (og_nodes g) -> sget (o_name n) ac = Some i ->
  activation_agrees bits_a bits_w cfg n i /\ all || o_conf_a n = true.
Proof.
  intros [A _] N S. destruct (A _ _ S) as [v [j [m [t [I [R [Q C]]]]]]].
  assert (Iv : In v vs) by (apply INVS; apply (in_map fst) in I; exact I).
  assert (P := rA_part bits_a bits_w _ _ _ _ R).
  assert (n = m) by (apply (name_inj g G); auto; eapply (act_part_in bits_a bits_w); eassumption). subst m.
  split; [|exact C]. destruct (index_some bits_a bits_w v j (IDX _ _ I)) as [q [Nq _]].
  exists v, j, q.
  assert (D : exists c, nth_error (o_cands n) i = Some c /\ c_a c = c_a q).
  { destruct v as [m|m|m|p m]; cbn [rA] in R; try discriminate.
    - injection R as -> -> _. exists q. auto.
    - rewrite Nq in R. injection R as -> R. assert (X : In i (i :: t)) by (left; reflexivity). rewrite <- R in X.
      apply matching_spec in X. destruct X as [c [Qc T]]. apply Nat.eqb_eq in T. eauto.
    - rewrite Nq in R. injection R as -> R. assert (X : In i (i :: t)) by (left; reflexivity). rewrite <- R in X.
      apply matching_spec in X. destruct X as [c [Qc T]]. apply Nat.eqb_eq in T. eauto. }
  destruct D as [c [Qc Ec]]. exists c. auto.
Qed.
Lemma from_w_agrees wc n i : from (rW bits_a bits_w) o_conf_w cfg wc -> In n (og_nodes g) -> sget (o_name n) wc = Some i ->
  weights_agree bits_a bits_w cfg n i /\ all || o_conf_w n = true.
Proof.
  intros [A _] N S. destruct (A _ _ S) as [v [j [m [t [I [R [Q C]]]]]]].
  assert (Iv : In v vs) by (apply INVS; apply (in_map fst) in I; exact I).
  assert (P := rW_part bits_a bits_w _ _ _ _ R).
  assert (n = m) by (apply (name_inj g G); auto; eapply (wts_part_in bits_a bits_w); eassumption). subst m.
  split; [|exact C]. destruct (index_some bits_a bits_w v j (IDX _ _ I)) as [q [Nq Iq]].
  exists v, j, q.
  assert (X : v = VReg n \/ In i (matching (fun c => negb (o_conf_w n) || Nat.eqb (c_w c) (c_w q)) (o_cands n))).
  { rewrite <- (conf_w_of bits_a bits_w g G vs V v n Iv P).
    destruct v as [m|m|m|p m]; cbn [rW] in R; try discriminate.
    - destruct (o_weights m); [|discriminate]. left. congruence.
    - rewrite Nq in R. assert (R2 := R). injection R2 as -> _.
      match goal with |- _ \/ In i ?M => assert (X : M = i :: t) by congruence; right; rewrite X; left; reflexivity end.
    - rewrite Nq in R. assert (R2 := R). injection R2 as -> _.
      match goal with |- _ \/ In i ?M => assert (X : M = i :: t) by congruence; right; rewrite X; left; reflexivity end. }
  destruct X as [->|X].
  - cbn [rW] in R. destruct (o_weights n); [|discriminate]. injection R as -> _. exists q. auto.
  - apply matching_spec in X. destruct X as [c [Qc T]]. exists c. repeat split; auto.
    destruct (o_conf_w n) eqn:Cw; cbn in T; [apply Nat.eqb_eq in T; exact T|].
    destruct (v_wts_in bits_a bits_w g G vs V v n q Iv P Iq) as [d [Id <-]].
    apply (settled_w g G n); auto. eapply nth_error_In. exact Qc.
Qed.
Lemma from_has r conf (part : vnode -> option onode) d v j n :
  (forall v j n, part v = Some n -> j < length (vc v) -> exists l, r v j = Some (n, l)) ->
  from r conf cfg d -> In (v, j) cfg -> part v = Some n -> all || conf n = true -> sget (o_name n) d <> None.
Proof. intros H [_ B] I P C. destruct (H v j n P (IDX _ _ I)) as [l R]. eauto. Qed.
End Sep.

(* ---- every configuration of the original graph comes from an assignment ---- *)
Variable choice : onode -> nat.
Hypothesis CHOICE : forall n, In n (og_nodes g) -> choice n < length (o_cands n).

Definition follows (v : vnode) (q : cand) : Prop :=
  (forall n c, act_part v = Some n -> nth_error (o_cands n) (choice n) = Some c -> c_a q = c_a c) /\
  (forall n c, wts_part v = Some n -> nth_error (o_cands n) (choice n) = Some c -> c_w q = c_w c).

Lemma chosen n : In n (og_nodes g) -> exists c, nth_error (o_cands n) (choice n) = Some c /\ In c (o_cands n).
Proof.
  intro I. destruct (nth_error (o_cands n) (choice n)) as [c|] eqn:Q.
  - exists c. split; [reflexivity|eapply nth_error_In; exact Q].
  - apply nth_error_None in Q. specialize (CHOICE n I). lia.
Qed.

Lemma follow_index v : In v vs -> exists j q, nth_error (vc v) j = Some q /\ follows v q.
Proof.
  intro I. assert (A := fun n => act_part_in bits_a bits_w g vs V v n I). assert (W := fun n => wts_part_in bits_a bits_w g vs V v n I).
  assert (D : exists q, In q (vc v) /\ follows v q).
  { destruct v as [n|n|n|p n].
    - destruct (chosen n) as [c [Q Ic]]; [apply A; reflexivity|]. exists c. split; [exact Ic|].
      split; intros m d P Qd; cbn in P.
      + injection P as <-. congruence.
      + destruct (o_weights n); [|discriminate]. injection P as <-. congruence.
    - destruct (chosen n) as [c [Q Ic]]; [apply W; reflexivity|].
      apply (in_map c_w) in Ic. apply split_w_keys in Ic. apply in_map_iff in Ic. destruct Ic as [q [Eq Iq]].
      exists q. split; [exact Iq|]. split; intros m d P Qd; cbn in P; [discriminate|]. injection P as <-. congruence.
    - destruct (chosen n) as [c [Q Ic]]; [apply A; reflexivity|].
      apply (in_map c_a) in Ic. apply split_a_keys in Ic. apply in_map_iff in Ic. destruct Ic as [q [Eq Iq]].
      exists q. split; [exact Iq|]. split; intros m d P Qd; cbn in P; [|discriminate]. injection P as <-. congruence.
    - destruct (chosen p) as [c [Q Ic]]; [apply A; reflexivity|]. destruct (chosen n) as [d [R Id]]; [apply W; reflexivity|].
      exists (Cand (c_a c) (c_w d)). split; [apply aw_cands; cbn; split; apply in_map; assumption|].
      split; intros m e P Qe; cbn in *; injection P as <-; congruence. }
  destruct D as [q [Iq F]]. apply In_nth_error in Iq. destruct Iq as [j Qj]. eauto.
Qed.

Lemma follow_all l : (forall v, In v l -> In v vs) -> exists cfg, map fst cfg = l /\
  forall v j, In (v, j) cfg -> exists q, nth_error (vc v) j = Some q /\ follows v q.
Proof.
  induction l as [|v l IH]; intro H; [exists []; split; [reflexivity|intros v j []]|].
  destruct IH as [cfg [M F]]; [intros; apply H; right; assumption|].
  destruct (follow_index v) as [j [q [Q Fq]]]; [apply H; left; reflexivity|].
  exists ((v, j) :: cfg). cbn. split; [congruence|]. intros v' j' [I|I]; [injection I as <- <-; eauto|eauto].
Qed.

Lemma follow_assignment : exists cfg, assignment bits_a bits_w vs cfg /\
  forall v j, In (v, j) cfg -> exists q, nth_error (vc v) j = Some q /\ follows v q.
Proof.
  destruct (follow_all (nodup vnode_eq_dec (filter (v_configurable bits_a bits_w) vs))) as [cfg [M F]].
  { intros v I. apply nodup_In in I. apply filter_In in I. tauto. }
  exists cfg. split; [|exact F]. split.
  - rewrite M. apply NoDup_nodup.
  - intro v. rewrite M, nodup_In, filter_In. tauto.
  - intros v j I. destruct (F v j I) as [q [Q _]]. apply nth_error_Some. congruence.
Qed.
End Graph.
End Bits.
