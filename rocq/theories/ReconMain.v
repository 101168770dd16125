(* ReconMain.v -- the reconstruction succeeds and agrees with the assignment. *)
From Coq Require Import String Permutation.
From Verif Require Import Base SDict ReconModel ReconSpec ReconProofs.
Local Open Scope list_scope.
Local Open Scope nat_scope.

Lemma mapM_total {A B} (f : A -> result B) l : (forall x, In x l -> exists y, f x = Ok y) ->
  exists r, mapM f l = Ok r /\ Forall2 (fun x y => f x = Ok y) l r.
Proof.
  induction l as [|x l IH]; cbn; intro H; [exists []; split; [reflexivity|constructor]|].
  destruct (H x) as [y Y]; [auto|]. destruct IH as [r [R F]]; [auto|].
  exists (y :: r). rewrite Y, R. cbn. split; [reflexivity|constructor; assumption].
Qed.

Lemma in_concat_f2 {A B} (P : A -> list B -> Prop) l r e : Forall2 P l r ->
  In e (concat r) -> exists x y, In x l /\ P x y /\ In e y.
Proof.
  induction 1 as [|x y l r H F IH]; cbn; [intros []|]. rewrite in_app_iff. intros [I|I]; [exists x, y; auto|].
  destruct (IH I) as [x0 [y0 [I0 R]]]. exists x0, y0. auto.
Qed.
Lemma f2_mem {A B} (P : A -> B -> Prop) l r : Forall2 P l r -> Forall2 (fun x y => In x l /\ P x y) l r.
Proof.
  intro F. assert (H : forall D, (forall x, In x l -> In x D) -> Forall2 (fun x y => In x D /\ P x y) l r); [|apply H; auto].
  intros D X. induction F as [|x y l r H F IH]; constructor; [split; [apply X; left; reflexivity|exact H]|].
  apply IH. intros; apply X; right; assumption.
Qed.
Lemma f2_in {A B} (P : A -> B -> Prop) l r x : Forall2 P l r -> In x l -> exists y, In y r /\ P x y.
Proof.
  induction 1 as [|a b l r H F IH]; cbn; [intros []|]. intros [->|I]; [exists b; auto|].
  destruct (IH I) as [y [J K]]. exists y. auto.
Qed.

Lemma nodup_app {A} (a b : list A) : NoDup a -> NoDup b -> (forall x, In x a -> ~ In x b) -> NoDup (a ++ b).
Proof.
  induction a as [|x a IH]; cbn; intros Na Nb D; [exact Nb|]. inversion Na as [|? ? N1 N2]; subst.
  constructor; [|auto]. rewrite in_app_iff. intros [I|I]; [auto|]. apply (D x); auto.
Qed.

(* one entry at most for every element, under its own key *)
Lemma concat_keys {V W} (P : string * V -> list (string * W) -> Prop) l r : Forall2 P l r ->
  (forall x y, P x y -> y = [] \/ exists i, y = [(fst x, i)]) -> NoDup (skeys l) ->
  NoDup (skeys (concat r)).
Proof.
  intros F H. induction F as [|x y l r Pxy F IH]; cbn; intro N; [constructor|].
  inversion N as [|? ? N1 N2]; subst. destruct (H x y Pxy) as [->|[i ->]]; cbn; [auto|].
  constructor; [|auto]. intro I. apply N1. unfold skeys in I. apply in_map_iff in I. destruct I as [e [Q I]].
  destruct (in_concat_f2 _ _ _ _ F I) as [x0 [y0 [I0 [P0 E0]]]]. destruct (H _ _ P0) as [->|[i0 ->]]; [destruct E0|].
  destruct E0 as [<-|[]]. cbn in Q. rewrite <- Q. apply in_map. exact I0.
Qed.

Section Bits.
Variables bits_a bits_w : nat -> nat.
Notation vc := (v_cands bits_a bits_w).
Section Graph.
Variable g : ograph.
Hypothesis G : graph_ok g.
Variable vs : list vnode.
Hypothesis V : virtual_nodes bits_a bits_w g = Ok vs.

(* ---- retrieval as a total function ---- *)
Definition rA (v : vnode) (j : nat) : option (onode * list nat) :=
  match v with
  | VReg n => Some (n, [j])
  | VSplitW _ => None
  | VSplitA n | VAW n _ => match nth_error (vc v) j with Some q => Some (n, matching (fun c => Nat.eqb (c_a c) (c_a q)) (o_cands n)) | None => None end
  end.
Definition rW (v : vnode) (j : nat) : option (onode * list nat) :=
  match v with
  | VReg n => if o_weights n then Some (n, [j]) else None
  | VSplitA _ => None
  | VSplitW n | VAW _ n =>
      match nth_error (vc v) j with
      | Some q => Some (n, matching (fun c => negb (v_conf_w bits_a bits_w v) || Nat.eqb (c_w c) (c_w q)) (o_cands n)) | None => None end
  end.

Lemma matched_ok o f c : In o (og_nodes g) -> In c (o_cands o) -> f c = true -> matched g o f = Ok (Some (o, matching f (o_cands o))).
Proof.
  intros I J K. unfold matched. rewrite (find_node_ok g G o I).
  destruct (matching f (o_cands o)) as [|i r] eqn:M; [|reflexivity].
  apply In_nth_error in J. destruct J as [i J].
  assert (X : In i (matching f (o_cands o))) by (apply matching_spec; eauto). rewrite M in X. destruct X.
Qed.

Lemma index_some v j : j < length (vc v) -> exists q, nth_error (vc v) j = Some q /\ In q (vc v).
Proof.
  intro L. destruct (nth_error (vc v) j) as [q|] eqn:Q; [|apply nth_error_None in Q; lia].
  exists q. split; [reflexivity|]. eapply nth_error_In. exact Q.
Qed.

Lemma v_act_in v n q : In v vs -> act_part v = Some n -> In q (vc v) -> exists c, In c (o_cands n) /\ c_a c = c_a q.
Proof.
  intros I Q J. apply (in_map c_a) in J.
  rewrite (v_act_keys bits_a bits_w v n (c_a q) Q) in J
    by (intros m R; eapply gk_some; [exact G|]; eapply (wts_part_in bits_a bits_w); eassumption).
  apply in_map_iff in J. destruct J as [c [K J]]. eauto.
Qed.
Lemma v_wts_in v n q : In v vs -> wts_part v = Some n -> In q (vc v) -> exists c, In c (o_cands n) /\ c_w c = c_w q.
Proof.
  intros I Q J. apply (in_map c_w) in J.
  rewrite (v_wts_keys bits_a bits_w v n (c_w q) Q) in J
    by (intros m R; eapply gk_some; [exact G|]; eapply (act_part_in bits_a bits_w); eassumption).
  apply in_map_iff in J. destruct J as [c [K J]]. eauto.
Qed.

Lemma retrieve_a_ok v j : In v vs -> j < length (vc v) -> retrieve_a bits_a bits_w g v j = Ok (rA v j).
Proof.
  intros I L. destruct (index_some v j L) as [q [Q J]].
  destruct (act_part v) as [n|] eqn:P; [|destruct v; try discriminate; reflexivity].
  assert (N := act_part_in bits_a bits_w g vs V v n I P).
  destruct (v_act_in v n q I P J) as [c [Ic Ec]].
  destruct v as [m|m|m|p m]; cbn [act_part] in P; try discriminate; injection P as ->;
    cbn [retrieve_a rA]; unfold candidate; try rewrite Q; cbn [bind].
  - rewrite (find_node_ok g G n N). reflexivity.
  - apply (matched_ok _ _ c); auto. apply Nat.eqb_eq. exact Ec.
  - apply (matched_ok _ _ c); auto. apply Nat.eqb_eq. exact Ec.
Qed.
Lemma retrieve_w_ok v j : In v vs -> j < length (vc v) -> retrieve_w bits_a bits_w g v j = Ok (rW v j).
Proof.
  intros I L. destruct (index_some v j L) as [q [Q J]].
  destruct (wts_part v) as [n|] eqn:P.
  2: { destruct v as [m|m|m|p m]; try discriminate; cbn in *; [|reflexivity]. destruct (o_weights m); [discriminate|reflexivity]. }
  assert (N := wts_part_in bits_a bits_w g vs V v n I P).
  destruct (v_wts_in v n q I P J) as [c [Ic Ec]].
  destruct v as [m|m|m|p m]; cbn [wts_part] in P; try discriminate; cbn [retrieve_w rW]; unfold candidate; try rewrite Q; cbn [bind].
  - destruct (o_weights m); [injection P as ->|discriminate]. rewrite (find_node_ok g G n N). reflexivity.
  - injection P as ->. apply (matched_ok _ _ c); auto. apply orb_true_iff. right. apply Nat.eqb_eq. exact Ec.
  - injection P as ->. apply (matched_ok _ _ c); auto. apply orb_true_iff. right. apply Nat.eqb_eq. exact Ec.
Qed.

Lemma rA_part v j n l : rA v j = Some (n, l) -> act_part v = Some n.
Proof. destruct v as [m|m|m|p m]; cbn [rA act_part]; try discriminate; [|destruct (nth_error _ _); [|discriminate]..]; intro H; injection H as -> _; reflexivity. Qed.
Lemma rW_part v j n l : rW v j = Some (n, l) -> wts_part v = Some n.
Proof.
  destruct v as [m|m|m|p m]; cbn [rW wts_part]; try discriminate; [destruct (o_weights m); [|discriminate]|destruct (nth_error _ _); [|discriminate]..];
    intro H; injection H as -> _; reflexivity.
Qed.
Lemma rA_some v j n : act_part v = Some n -> j < length (vc v) -> exists l, rA v j = Some (n, l).
Proof.
  intros P L. destruct (index_some v j L) as [q [Q _]].
  destruct v as [m|m|m|p m]; cbn [rA act_part] in *; try discriminate; injection P as ->; try rewrite Q; eexists; reflexivity.
Qed.
Lemma rW_some v j n : wts_part v = Some n -> j < length (vc v) -> exists l, rW v j = Some (n, l).
Proof.
  intros P L. destruct (index_some v j L) as [q [Q _]].
  destruct v as [m|m|m|p m]; cbn [rW wts_part] in *; try discriminate; [destruct (o_weights m); [|discriminate]|..];
    injection P as ->; try rewrite Q; eexists; reflexivity.
Qed.

(* ---- candidates of one node ---- *)
Lemma same_candidate n i j c d : In n (og_nodes g) -> nth_error (o_cands n) i = Some c -> nth_error (o_cands n) j = Some d ->
  c_a c = c_a d -> c_w c = c_w d -> i = j.
Proof.
  intros I Q R A W. assert (N := gk_distinct _ G n I). rewrite NoDup_nth_error in N. apply N.
  - apply nth_error_Some. congruence.
  - rewrite Q, R. destruct c, d. cbn in *. congruence.
Qed.
Lemma settled_a n c d : In n (og_nodes g) -> o_conf_a n = false -> In c (o_cands n) -> In d (o_cands n) -> c_a c = c_a d.
Proof.
  intros I H Ic Id. unfold o_conf_a, conf_a in H. destruct (o_a_on n) eqn:O; [|eapply (gk_off_a _ G n); eassumption].
  cbn in H. apply negb_false_iff in H. rewrite all_equal_spec in H. apply H; apply in_map; assumption.
Qed.
Lemma settled_w n c d : In n (og_nodes g) -> o_conf_w n = false -> In c (o_cands n) -> In d (o_cands n) -> c_w c = c_w d.
Proof.
  intros I H Ic Id. unfold o_conf_w, conf_w in H. destruct (o_weights n && o_w_on n) eqn:O; [|eapply (gk_off_w _ G n); eassumption].
  rewrite andb_assoc, O in H. cbn in H. apply negb_false_iff in H. rewrite all_equal_spec in H. apply H; apply in_map; assumption.
Qed.

Lemma product n ca cw : In n (og_nodes g) -> o_kernel n = true -> bits_decide bits_a bits_w n ->
  In ca (o_cands n) -> In cw (o_cands n) -> exists c, In c (o_cands n) /\ c_a c = c_a ca /\ c_w c = c_w cw.
Proof.
  intros I K B Ia Iw. destruct (o_conf_a n) eqn:A; [destruct (o_conf_w n) eqn:W|].
  - assert (X := virtual_composite bits_a bits_w g vs V n I K A W). unfold composite in X.
    rewrite forallb_forall in X.
    destruct (uniq_complete c_w (o_cands n) [] cw Iw) as [w [Jw Qw]]; [cbn; tauto|].
    destruct (uniq_complete c_a (o_cands n) [] ca Ia) as [a [Ja Qa]]; [cbn; tauto|].
    specialize (X w Jw). rewrite forallb_forall in X. specialize (X a Ja). apply existsb_exists in X.
    destruct X as [c [Ic X]]. apply andb_true_iff in X. destruct X as [Xw Xa]. apply Nat.eqb_eq in Xw. apply Nat.eqb_eq in Xa.
    exists c. split; [exact Ic|]. rewrite <- Qa, <- Qw.
    split; [apply (B c a); auto; eapply uniq_incl; exact Ja|apply (B c w); auto; eapply uniq_incl; exact Jw].
  - exists ca. split; [exact Ia|]. split; [reflexivity|]. apply (settled_w n); assumption.
  - exists cw. split; [exact Iw|]. split; [apply (settled_a n); assumption|reflexivity].
Qed.

(* ---- the two dictionaries ---- *)
Variable cfg : vcfg.
Hypothesis ONCE : NoDup (map fst cfg).
Hypothesis INVS : forall v, In v (map fst cfg) -> In v vs.
Hypothesis IDX : forall v j, In (v, j) cfg -> j < length (vc v).

Lemma cfg_vs v j : In (v, j) cfg -> In v vs.
Proof. intro I. apply INVS. apply (in_map fst) in I. exact I. Qed.
Lemma cfg_fun v i j : In (v, i) cfg -> In (v, j) cfg -> i = j.
Proof.
  clear INVS IDX. revert ONCE. induction cfg as [|[w k] r IH]; cbn; intros N I J; [destruct I|]. inversion N as [|? ? N1 N2]; subst.
  destruct I as [I|I], J as [J|J]; auto.
  - congruence.
  - injection I as -> ->. exfalso. apply N1. apply (in_map fst) in J. exact J.
  - injection J as -> ->. exfalso. apply N1. apply (in_map fst) in I. exact I.
Qed.

Variable all : bool.
Definition ent (r : vnode -> nat -> option (onode * list nat)) (conf : onode -> bool) (vj : vnode * nat) : ncands :=
  match r (fst vj) (snd vj) with Some (n, l) => if all || conf n then [(o_name n, (n, l))] else [] | None => [] end.

Lemma ent_in r conf l k nl : In (k, nl) (flat_map (ent r conf) l) <->
  exists v j, In (v, j) l /\ r v j = Some nl /\ k = o_name (fst nl) /\ all || conf (fst nl) = true.
Proof.
  rewrite in_flat_map. split.
  - intros [[v j] [I H]]. unfold ent in H. cbn [fst snd] in H. destruct (r v j) as [[n l0]|] eqn:R; [|destruct H].
    destruct (all || conf n) eqn:C; [|destruct H]. destruct H as [H|[]]. injection H as <- <-. exists v, j. auto.
  - intros [v [j [I [R [-> C]]]]]. exists (v, j). split; [exact I|]. unfold ent. cbn [fst snd]. rewrite R. destruct nl as [n l0].
    cbn in *. rewrite C. left. reflexivity.
Qed.

Lemma ent_nodup r conf part : (forall v j n l, r v j = Some (n, l) -> part v = Some n) ->
  (forall v n, In v vs -> part v = Some n -> In n (og_nodes g)) ->
  (forall v v' n, In v vs -> In v' vs -> part v = Some n -> part v' = Some n -> v = v') ->
  NoDup (skeys (flat_map (ent r conf) cfg)).
Proof.
  intros H1 H2 H3. clear IDX. revert ONCE INVS. induction cfg as [|[v j] l IH]; cbn [map flat_map]; intros N I; [constructor|].
  inversion N as [|? ? N1 N2]; subst. unfold skeys. rewrite map_app. apply nodup_app.
  - unfold ent. destruct (r _ _) as [[n l0]|]; [destruct (all || conf n)|]; cbn; repeat constructor; tauto.
  - apply IH; [exact N2|]. intros w J. apply I. right. exact J.
  - intros k A B. apply in_map_iff in A. destruct A as [[k1 nl] [<- A]]. apply in_map_iff in B. destruct B as [[k2 nl'] [Q B]].
    cbn [fst] in Q. subst k2. unfold ent in A. cbn [fst snd] in A.
    destruct (r v j) as [[n l0]|] eqn:R; [|destruct A]. destruct (all || conf n); [|destruct A]. destruct A as [A|[]]. injection A as <- <-.
    apply ent_in in B. destruct B as [v' [j' [J [R' [Q _]]]]]. destruct nl' as [n' l']. cbn [fst] in Q.
    apply H1 in R. apply H1 in R'.
    assert (Iv : In v vs) by (apply I; left; reflexivity).
    assert (J' : In v' (map fst l)) by (apply (in_map fst) in J; exact J).
    assert (Iv' : In v' vs) by (apply I; right; exact J').
    assert (n = n') by (apply (name_inj g G); eauto). subst n'.
    assert (v = v') by eauto. subst v'. apply N1. exact J'.
Qed.

Definition dA : ncands := flat_map (ent rA o_conf_a) cfg.
Definition dW : ncands := flat_map (ent rW o_conf_w) cfg.
Lemma dA_nodup : NoDup (skeys dA).
Proof.
  apply (ent_nodup rA o_conf_a act_part); [apply rA_part|apply (act_part_in bits_a bits_w g vs V)|].
  apply (act_part_unique bits_a bits_w g G vs V).
Qed.
Lemma dW_nodup : NoDup (skeys dW).
Proof.
  apply (ent_nodup rW o_conf_w wts_part); [apply rW_part|apply (wts_part_in bits_a bits_w g vs V)|].
  apply (wts_part_unique bits_a bits_w g vs V).
Qed.

Lemma add_new_ok d r conf v j : NoDup (skeys (d ++ ent r conf (v, j))) ->
  add_new d (r v j) (fun n => all || conf n) = Ok (d ++ ent r conf (v, j)).
Proof.
  unfold ent, add_new. cbn [fst snd]. destruct (r v j) as [[n l]|]; [|rewrite app_nil_r; reflexivity].
  destruct (all || conf n); [|rewrite app_nil_r; reflexivity]. intro N.
  destruct (sget (o_name n) d) as [x|] eqn:S; [|reflexivity]. exfalso.
  apply sget_in in S. unfold skeys in N. rewrite map_app in N. apply NoDup_remove_2 in N.
  apply N. rewrite app_nil_r. apply (in_map fst) in S. exact S.
Qed.

Lemma nodup_app_l {A} (a b : list A) : NoDup (a ++ b) -> NoDup a.
Proof.
  induction a as [|x a IH]; cbn; intro N; [constructor|]. inversion N as [|? ? N1 N2]; subst.
  constructor; [|auto]. intro I. apply N1. apply in_or_app. auto.
Qed.

Lemma collect_ok : (forall v, In v (map fst cfg) -> v_configurable bits_a bits_w v = true) ->
  collect bits_a bits_w g all cfg = Ok (dA, dW).
Proof.
  intro C. unfold collect.
  assert (H : forall l a w, (forall v j, In (v, j) l -> In (v, j) cfg) ->
      NoDup (skeys (a ++ flat_map (ent rA o_conf_a) l)) -> NoDup (skeys (w ++ flat_map (ent rW o_conf_w) l)) ->
      foldM (fun (st : ncands * ncands) (vi : vnode * nat) =>
        let '(v, i) := vi in
        if negb (v_configurable bits_a bits_w v) then Err E_assert else
        let! ra := retrieve_a bits_a bits_w g v i in
        let! da := add_new (fst st) ra (fun n => all || o_conf_a n) in
        let! rw := retrieve_w bits_a bits_w g v i in
        let! dw := add_new (snd st) rw (fun n => all || o_conf_w n) in
        Ok (da, dw)) l (a, w) = Ok (a ++ flat_map (ent rA o_conf_a) l, w ++ flat_map (ent rW o_conf_w) l)).
  { induction l as [|[v j] l IH]; intros a w S Na Nw; cbn [foldM flat_map]; [rewrite !app_nil_r; reflexivity|].
    assert (I : In (v, j) cfg) by (apply S; left; reflexivity).
    rewrite (C v) by (apply (in_map fst) in I; exact I). cbn [negb].
    rewrite retrieve_a_ok, retrieve_w_ok by (eauto using cfg_vs). cbn [bind fst snd].
    cbn [flat_map] in Na, Nw. rewrite app_assoc in Na, Nw.
    rewrite (add_new_ok a rA o_conf_a) by (unfold skeys in *; rewrite map_app in Na; eapply nodup_app_l; exact Na). cbn [bind].
    rewrite (add_new_ok w rW o_conf_w) by (unfold skeys in *; rewrite map_app in Nw; eapply nodup_app_l; exact Nw). cbn [bind].
    rewrite IH; auto; [rewrite <- !app_assoc; reflexivity|]. intros; apply S; right; assumption. }
  apply (H cfg [] []); [auto|apply dA_nodup|apply dW_nodup].
Qed.

(* entries of the dictionaries and the nodes they come from *)
Lemma dA_entry k n l : sget k dA = Some (n, l) -> exists v j q, In (v, j) cfg /\ act_part v = Some n /\ rA v j = Some (n, l) /\
  nth_error (vc v) j = Some q /\ In n (og_nodes g) /\ k = o_name n /\ all || o_conf_a n = true.
Proof.
  intro S. apply sget_in in S. apply ent_in in S. destruct S as [v [j [I [R [Q C]]]]]. cbn [fst] in *.
  assert (P := rA_part _ _ _ _ R). destruct (index_some v j (IDX v j I)) as [q [Nq _]].
  exists v, j, q. repeat split; auto. eapply (act_part_in bits_a bits_w); eauto using cfg_vs.
Qed.
Lemma dW_entry k n l : sget k dW = Some (n, l) -> exists v j q, In (v, j) cfg /\ wts_part v = Some n /\ rW v j = Some (n, l) /\
  nth_error (vc v) j = Some q /\ In n (og_nodes g) /\ k = o_name n /\ all || o_conf_w n = true.
Proof.
  intro S. apply sget_in in S. apply ent_in in S. destruct S as [v [j [I [R [Q C]]]]]. cbn [fst] in *.
  assert (P := rW_part _ _ _ _ R). destruct (index_some v j (IDX v j I)) as [q [Nq _]].
  exists v, j, q. repeat split; auto. eapply (wts_part_in bits_a bits_w); eauto using cfg_vs.
Qed.
Lemma dA_has v j n : In (v, j) cfg -> act_part v = Some n -> all || o_conf_a n = true ->
  exists l, rA v j = Some (n, l) /\ sget (o_name n) dA = Some (n, l).
Proof.
  intros I P C. destruct (rA_some v j n P (IDX _ _ I)) as [l R]. exists l. split; [exact R|].
  apply in_sget; [apply dA_nodup|]. apply ent_in. exists v, j. auto.
Qed.
Lemma dW_has v j n : In (v, j) cfg -> wts_part v = Some n -> all || o_conf_w n = true ->
  exists l, rW v j = Some (n, l) /\ sget (o_name n) dW = Some (n, l).
Proof.
  intros I P C. destruct (rW_some v j n P (IDX _ _ I)) as [l R]. exists l. split; [exact R|].
  apply in_sget; [apply dW_nodup|]. apply ent_in. exists v, j. auto.
Qed.

(* candidate i of n agrees with every virtual node of the assignment that contains a part of n *)
Definition good (n : onode) (i : nat) : Prop :=
  exists c, nth_error (o_cands n) i = Some c /\
    (forall v j q, In (v, j) cfg -> act_part v = Some n -> nth_error (vc v) j = Some q -> c_a c = c_a q) /\
    (forall v j q, In (v, j) cfg -> wts_part v = Some n -> nth_error (vc v) j = Some q -> c_w c = c_w q).

Lemma act_holder v v' j j' n : In (v, j) cfg -> In (v', j') cfg -> act_part v = Some n -> act_part v' = Some n -> v = v' /\ j = j'.
Proof.
  intros I J P Q. assert (v = v') by (eapply (act_part_unique bits_a bits_w g G vs V); eauto using cfg_vs). subst v'.
  split; [reflexivity|]. eapply cfg_fun; eassumption.
Qed.
Lemma wts_holder v v' j j' n : In (v, j) cfg -> In (v', j') cfg -> wts_part v = Some n -> wts_part v' = Some n -> v = v' /\ j = j'.
Proof.
  intros I J P Q. assert (v = v') by (eapply (wts_part_unique bits_a bits_w g vs V); eauto using cfg_vs). subst v'.
  split; [reflexivity|]. eapply cfg_fun; eassumption.
Qed.

Lemma good_intro n i c : In n (og_nodes g) -> nth_error (o_cands n) i = Some c ->
  (o_conf_a n = true -> forall v j q, In (v, j) cfg -> act_part v = Some n -> nth_error (vc v) j = Some q -> c_a c = c_a q) ->
  (o_conf_w n = true -> forall v j q, In (v, j) cfg -> wts_part v = Some n -> nth_error (vc v) j = Some q -> c_w c = c_w q) ->
  good n i.
Proof.
  intros N Q A W. exists c. split; [exact Q|]. apply nth_error_In in Q. split; intros v j q I P R.
  - destruct (o_conf_a n) eqn:C; [eauto|]. apply nth_error_In in R.
    destruct (v_act_in v n q (cfg_vs _ _ I) P R) as [d [Id <-]]. apply (settled_a n); auto.
  - destruct (o_conf_w n) eqn:C; [eauto|]. apply nth_error_In in R.
    destruct (v_wts_in v n q (cfg_vs _ _ I) P R) as [d [Id <-]]. apply (settled_w n); auto.
Qed.

Hypothesis CONF : forall v, In v vs -> v_configurable bits_a bits_w v = true -> In v (map fst cfg).
Hypothesis BITS : forall n, In n (og_nodes g) -> o_kernel n = true -> bits_decide bits_a bits_w n.

Lemma conf_holder_a n : In n (og_nodes g) -> o_conf_a n = true -> exists v j, In (v, j) cfg /\ act_part v = Some n.
Proof.
  intros I C. destruct (act_part_exists bits_a bits_w g G vs V n I) as [v [J P]].
  assert (K : In v (map fst cfg)).
  { apply CONF; [exact J|]. unfold v_configurable. rewrite (conf_a_of bits_a bits_w g G vs V v n J P), C. reflexivity. }
  apply in_map_iff in K. destruct K as [[v' j] [Q K]]. cbn in Q. subst v'. eauto.
Qed.
Lemma conf_holder_w n : In n (og_nodes g) -> o_conf_w n = true -> exists v j, In (v, j) cfg /\ wts_part v = Some n.
Proof.
  intros I C. destruct (wts_part_exists bits_a bits_w g G vs V n I (or_introl C)) as [v [J P]].
  assert (K : In v (map fst cfg)).
  { apply CONF; [exact J|]. unfold v_configurable. rewrite (conf_w_of bits_a bits_w g G vs V v n J P), C. apply orb_true_r. }
  apply in_map_iff in K. destruct K as [[v' j] [Q K]]. cbn in Q. subst v'. eauto.
Qed.

(* a regular node: its own index *)
Lemma reg_good n j : In (VReg n, j) cfg -> good n j.
Proof.
  intro I. assert (L := IDX _ _ I). destruct (index_some _ _ L) as [c [Q _]]. exists c. split; [exact Q|]. split; intros v k q J P R.
  - destruct (act_holder _ _ _ _ n I J eq_refl P) as [<- <-]. cbn [v_cands] in *. congruence.
  - assert (X : v = VReg n).
    { assert (A := cfg_vs _ _ I). assert (B := cfg_vs _ _ J). apply (virtual_cases bits_a bits_w g vs V) in A.
      apply (virtual_cases bits_a bits_w g vs V) in B.
      destruct v as [m|m|m|p m]; cbn [wts_part] in P; try discriminate;
        [destruct (o_weights m); [|discriminate]|..]; injection P as ->; [reflexivity|..];
        destruct A as [_ [A _]], B as [_ [B _]]; congruence. }
    subst v. assert (j = k) by (eapply cfg_fun; eassumption). subst k. cbn [v_cands] in *. congruence.
Qed.

Lemma common_one n v j v' j' la lw : In (v, j) cfg -> In (v', j') cfg -> rA v j = Some (n, la) -> rW v' j' = Some (n, lw) ->
  exists i, intersect la lw = [i] /\ good n i.
Proof.
  intros I J A W. assert (Pa := rA_part _ _ _ _ A). assert (Pw := rW_part _ _ _ _ W).
  assert (Vv := cfg_vs _ _ I). assert (Vv' := cfg_vs _ _ J).
  assert (N := act_part_in bits_a bits_w g vs V _ _ Vv Pa).
  destruct (index_some _ _ (IDX _ _ I)) as [qa [Qa Ia]]. destruct (index_some _ _ (IDX _ _ J)) as [qw [Qw Iw]].
  destruct (o_kernel n) eqn:K.
  - assert (Ea : la = matching (fun c => Nat.eqb (c_a c) (c_a qa)) (o_cands n)).
    { apply (virtual_cases bits_a bits_w g vs V) in Vv. destruct v as [m|m|m|p m]; cbn [rA] in A; try discriminate.
      - injection A as -> _. destruct Vv as [_ [X _]]. congruence.
      - rewrite Qa in A. injection A as -> <-. reflexivity.
      - rewrite Qa in A. injection A as -> <-. reflexivity. }
    assert (Ew : lw = matching (fun c => negb (v_conf_w bits_a bits_w v') || Nat.eqb (c_w c) (c_w qw)) (o_cands n)).
    { assert (Y := Vv'). apply (virtual_cases bits_a bits_w g vs V) in Y. destruct v' as [m|m|m|p m]; cbn [rW] in W; try discriminate.
      - destruct (o_weights m); [|discriminate]. injection W as -> _. destruct Y as [_ [X _]]. congruence.
      - rewrite Qw in W. injection W as -> <-. reflexivity.
      - rewrite Qw in W. injection W as -> <-. reflexivity. }
    rewrite (conf_w_of bits_a bits_w g G vs V v' n Vv' Pw) in Ew.
    destruct (v_act_in v n qa Vv Pa Ia) as [ca [Ica Eca]]. destruct (v_wts_in v' n qw Vv' Pw Iw) as [cw [Icw Ecw]].
    destruct (product n ca cw N K (BITS n N K) Ica Icw) as [c [Ic [Xa Xw]]].
    apply In_nth_error in Ic as Jc. destruct Jc as [i Jc].
    exists i. split.
    + apply nodup_single.
      * apply intersect_nodup. subst la. apply matching_nodup.
      * apply intersect_in. subst la lw. split; apply matching_spec; exists c; (split; [exact Jc|]).
        -- apply Nat.eqb_eq. congruence.
        -- apply orb_true_iff. right. apply Nat.eqb_eq. congruence.
      * intros k Ik. apply intersect_in in Ik. subst la lw. destruct Ik as [Ka Kw].
        apply matching_spec in Ka. apply matching_spec in Kw. destruct Ka as [d [Qd Ta]], Kw as [d' [Qd' Tw]].
        rewrite Qd in Qd'. injection Qd' as <-. apply Nat.eqb_eq in Ta.
        apply (same_candidate n k i d c N Qd Jc); [congruence|].
        destruct (o_conf_w n) eqn:C; cbn in Tw; [apply Nat.eqb_eq in Tw; congruence|].
        apply (settled_w n); auto. eapply nth_error_In. exact Qd.
    + apply (good_intro n i c N Jc); intros _ u k q Iu Pu Ru.
      * destruct (act_holder _ _ _ _ n I Iu Pa Pu) as [<- <-]. congruence.
      * destruct (wts_holder _ _ _ _ n J Iu Pw Pu) as [<- <-]. congruence.
  - apply (virtual_cases bits_a bits_w g vs V) in Vv'. destruct v' as [m|m|m|p m]; cbn [rW] in W; try discriminate.
    + destruct (o_weights m); [|discriminate]. injection W as -> <-.
      assert (X : v = VReg n) by (eapply (act_part_unique bits_a bits_w g G vs V); eauto using cfg_vs). subst v.
      cbn [rA] in A. injection A as <-. assert (j = j') by (eapply cfg_fun; eassumption). subst j'.
      exists j. split; [cbn; rewrite Nat.eqb_refl; reflexivity|]. apply reg_good. exact I.
    + rewrite Qw in W. injection W as -> _. destruct Vv' as [_ [X _]]. congruence.
    + rewrite Qw in W. injection W as -> _. destruct Vv' as [_ [X _]]. congruence.
Qed.

Lemma only_a n v j la : In (v, j) cfg -> rA v j = Some (n, la) -> o_conf_w n = false -> exists i, la = [i] /\ good n i.
Proof.
  intros I A W. assert (Pa := rA_part _ _ _ _ A). assert (Vv := cfg_vs _ _ I).
  assert (N := act_part_in bits_a bits_w g vs V _ _ Vv Pa).
  destruct (index_some _ _ (IDX _ _ I)) as [qa [Qa Ia]].
  assert (D : v = VReg n \/ la = matching (fun c => Nat.eqb (c_a c) (c_a qa)) (o_cands n)).
  { destruct v as [m|m|m|p m]; cbn [rA] in A; try discriminate; [left; congruence|right..]; rewrite Qa in A; injection A as -> <-; reflexivity. }
  destruct D as [->|E0]; [cbn in A; injection A as <-; exists j; split; [reflexivity|apply reg_good; exact I]|].
  destruct (v_act_in v n qa Vv Pa Ia) as [c [Ic Ec]]. apply In_nth_error in Ic as Jc. destruct Jc as [i Jc]. exists i. split.
  - apply nodup_single; [subst la; apply matching_nodup| |].
    + subst la. apply matching_spec. exists c. split; [exact Jc|]. apply Nat.eqb_eq. exact Ec.
    + intros k Ik. subst la. apply matching_spec in Ik. destruct Ik as [d [Qd T]]. apply Nat.eqb_eq in T.
      apply (same_candidate n k i d c N Qd Jc); [congruence|]. apply (settled_w n); auto. eapply nth_error_In. exact Qd.
  - apply (good_intro n i c N Jc); [|congruence]. intros _ u k q Iu Pu Ru.
    destruct (act_holder _ _ _ _ n I Iu Pa Pu) as [<- <-]. congruence.
Qed.
Lemma only_w n v j lw : In (v, j) cfg -> rW v j = Some (n, lw) -> o_conf_a n = false ->
  (o_conf_w n = false -> forall c d, In c (o_cands n) -> In d (o_cands n) -> c = d) -> exists i, lw = [i] /\ good n i.
Proof.
  intros I A W Z. assert (Pa := rW_part _ _ _ _ A). assert (Vv := cfg_vs _ _ I).
  assert (N := wts_part_in bits_a bits_w g vs V _ _ Vv Pa).
  destruct (index_some _ _ (IDX _ _ I)) as [qa [Qa Ia]].
  assert (D : v = VReg n \/ lw = matching (fun c => negb (o_conf_w n) || Nat.eqb (c_w c) (c_w qa)) (o_cands n)).
  { rewrite <- (conf_w_of bits_a bits_w g G vs V v n Vv Pa).
    destruct v as [m|m|m|p m]; cbn [rW] in A; try discriminate;
      [destruct (o_weights m); [|discriminate]; left; congruence|right..]; rewrite Qa in A; injection A as -> <-; reflexivity. }
  destruct D as [->|E0].
  { cbn in A. destruct (o_weights n); [|discriminate]. injection A as <-; exists j; split; [reflexivity|apply reg_good; exact I]. }
  destruct (v_wts_in v n qa Vv Pa Ia) as [c [Ic Ec]]. apply In_nth_error in Ic as Jc. destruct Jc as [i Jc]. exists i. split.
  - apply nodup_single; [subst lw; apply matching_nodup| |].
    + subst lw. apply matching_spec. exists c. split; [exact Jc|]. apply orb_true_iff. right. apply Nat.eqb_eq. exact Ec.
    + intros k Ik. subst lw. apply matching_spec in Ik. destruct Ik as [d [Qd T]].
      assert (Id : In d (o_cands n)) by (eapply nth_error_In; exact Qd).
      apply (same_candidate n k i d c N Qd Jc); [apply (settled_a n); auto|].
      destruct (o_conf_w n) eqn:C; cbn in T; [apply Nat.eqb_eq in T; congruence|]. rewrite (Z eq_refl d c) by auto. reflexivity.
  - apply (good_intro n i c N Jc); [congruence|]. intros _ u k q Iu Pu Ru.
    destruct (wts_holder _ _ _ _ n I Iu Pa Pu) as [<- <-]. congruence.
Qed.

Hypothesis ONLY : forall v, In v (map fst cfg) -> v_configurable bits_a bits_w v = true.

Theorem reconstruct_ok : exists oc, reconstruct_full bits_a bits_w g all cfg = Ok oc /\ NoDup (skeys oc) /\
  (forall k i, In (k, i) oc -> exists n, In n (og_nodes g) /\ o_name n = k /\ good n i /\ (all = false -> configurable n = true)) /\
  (forall n, In n (og_nodes g) -> configurable n = true -> exists i, In (o_name n, i) oc).
Proof.
  unfold reconstruct_full. rewrite (collect_ok ONLY). cbn [bind].
  assert (PA : forall kv, In kv dA -> exists n l v j, kv = (o_name n, (n, l)) /\ sget (o_name n) dA = Some (n, l) /\ In (v, j) cfg /\ rA v j = Some (n, l)
                 /\ In n (og_nodes g) /\ all || o_conf_a n = true).
  { intros [k [n l]] I. apply (in_sget _ _ _ dA_nodup) in I. destruct (dA_entry _ _ _ I) as [v [j [q [A [B [C [D [E0 [-> F]]]]]]]]].
    exists n, l, v, j. auto 10. }
  assert (PW : forall kv, In kv dW -> exists n l v j, kv = (o_name n, (n, l)) /\ sget (o_name n) dW = Some (n, l) /\ In (v, j) cfg /\ rW v j = Some (n, l)
                 /\ In n (og_nodes g) /\ all || o_conf_w n = true).
  { intros [k [n l]] I. apply (in_sget _ _ _ dW_nodup) in I. destruct (dW_entry _ _ _ I) as [v [j [q [A [B [C [D [E0 [-> F]]]]]]]]].
    exists n, l, v, j. auto 10. }
  assert (AW : forall n l, In n (og_nodes g) -> sget (o_name n) dW = Some l -> exists lw v j, l = (n, lw) /\ In (v, j) cfg /\ rW v j = Some (n, lw)).
  { intros n [n' l] I S. destruct (dW_entry _ _ _ S) as [v [j [q [A [B [C [D [E0 [Q F]]]]]]]]].
    assert (n = n') by (apply (name_inj g G); auto). subst n'. exists l, v, j. auto. }
  assert (WA : forall n l, In n (og_nodes g) -> sget (o_name n) dA = Some l -> exists la v j, l = (n, la) /\ In (v, j) cfg /\ rA v j = Some (n, la)).
  { intros n [n' l] I S. destruct (dA_entry _ _ _ S) as [v [j [q [A [B [C [D [E0 [Q F]]]]]]]]].
    assert (n = n') by (apply (name_inj g G); auto). subst n'. exists l, v, j. auto. }
  assert (NW : forall n, In n (og_nodes g) -> sget (o_name n) dW = None -> o_conf_w n = false).
  { intros n I S. destruct (o_conf_w n) eqn:C; [|reflexivity]. destruct (conf_holder_w n I C) as [v [j [J P]]].
    destruct (dW_has v j n J P) as [l [_ T]]; [rewrite C; apply orb_true_r|]. congruence. }
  assert (NA : forall n, In n (og_nodes g) -> sget (o_name n) dA = None -> o_conf_a n = false).
  { intros n I S. destruct (o_conf_a n) eqn:C; [|reflexivity]. destruct (conf_holder_a n I C) as [v [j [J P]]].
    destruct (dA_has v j n J P) as [l [_ T]]; [rewrite C; apply orb_true_r|]. congruence. }
  match goal with |- context [mapM ?f dA] => set (fc := f) end.
  assert (FC : forall kv, In kv dA -> exists y, fc kv = Ok y /\ (y = [] \/ exists n i, In n (og_nodes g) /\ fst kv = o_name n /\ good n i /\ configurable n = true /\ y = [(fst kv, i)])
             /\ (forall n, In n (og_nodes g) -> o_name n = fst kv -> (y = [] -> sget (fst kv) dW = None \/ configurable n = false)) /\ (sget (fst kv) dW = None -> y = [])).
  { intros kv I. destruct (PA kv I) as [n [l [v [j [-> [S [J [R [N C]]]]]]]]]. unfold fc. cbn [fst snd].
    destruct (sget (o_name n) dW) as [lw|] eqn:S'.
    - destruct (AW n _ N S') as [w [v' [j' [-> [J' R']]]]]. destruct (common_one n v j v' j' l w J J' R R') as [i [-> Gi]].
      eexists. split; [reflexivity|]. change (o_conf_a n || o_conf_w n) with (configurable n). destruct (configurable n) eqn:CF.
      + split; [right; exists n, i; auto|]. split; [discriminate|discriminate].
      + split; [auto|]. split; [|discriminate]. intros n' I' Q _. right. rewrite (name_inj g G n' n); auto.
    - exists []. split; [reflexivity|]. split; [auto|]. split; auto. }
  destruct (mapM_total fc dA) as [rc [-> RC]]; [intros x I; destruct (FC x I) as [y [Y _]]; eauto|]. cbn [bind].
  match goal with |- context [mapM ?f dA] => set (fa := f) end.
  assert (FA : forall kv, In kv dA -> exists y, fa kv = Ok y /\ (y = [] \/ exists n i, In n (og_nodes g) /\ fst kv = o_name n /\ good n i /\ all || o_conf_a n = true /\ y = [(fst kv, i)])
             /\ (sget (fst kv) dW = None <-> y <> [])).
  { intros kv I. destruct (PA kv I) as [n [l [v [j [-> [S [J [R [N C]]]]]]]]]. unfold fa. cbn [fst snd].
    destruct (sget (o_name n) dW) as [lw|] eqn:S'.
    - exists []. split; [reflexivity|]. split; [auto|]. split; [discriminate|congruence].
    - rewrite (NW n N S'). destruct (only_a n v j l J R (NW n N S')) as [i [-> Gi]]. rewrite C.
      eexists. split; [reflexivity|]. split; [right; exists n, i; auto|]. split; [discriminate|reflexivity]. }
  destruct (mapM_total fa dA) as [ra [-> RA]]; [intros x I; destruct (FA x I) as [y [Y _]]; eauto|]. cbn [bind].
  match goal with |- context [mapM ?f dW] => set (fw := f) end.
  assert (FW : forall kv, In kv dW -> exists y, fw kv = Ok y /\ (y = [] \/ exists n i, In n (og_nodes g) /\ fst kv = o_name n /\ good n i /\ all || o_conf_w n = true /\ y = [(fst kv, i)])
             /\ (sget (fst kv) dA = None <-> y <> [])).
  { intros kv I. destruct (PW kv I) as [n [l [v [j [-> [S [J [R [N C]]]]]]]]]. unfold fw. cbn [fst snd].
    destruct (sget (o_name n) dA) as [lw|] eqn:S'.
    - exists []. split; [reflexivity|]. split; [auto|]. split; [discriminate|congruence].
    - assert (Ca := NA n N S'). rewrite Ca. destruct (only_w n v j l J R Ca) as [i [-> Gi]].
      { intros Cw c d Ic Id. destruct c as [x y], d as [x' y']. f_equal.
        - apply (settled_a n (Cand x y) (Cand x' y')); auto.
        - apply (settled_w n (Cand x y) (Cand x' y')); auto. }
      rewrite C. eexists. split; [reflexivity|]. split; [right; exists n, i; auto|]. split; [discriminate|reflexivity]. }
  destruct (mapM_total fw dW) as [rw [-> RW]]; [intros x I; destruct (FW x I) as [y [Y _]]; eauto|]. cbn [bind].
  assert (RC' : Forall2 (fun x y => In x dA /\ fc x = Ok y) dA rc) by (apply f2_mem; exact RC).
  assert (RA' : Forall2 (fun x y => In x dA /\ fa x = Ok y) dA ra) by (apply f2_mem; exact RA).
  assert (RW' : Forall2 (fun x y => In x dW /\ fw x = Ok y) dW rw) by (apply f2_mem; exact RW).
  assert (KC : forall k i, In (k, i) (concat rc) -> exists n, In n (og_nodes g) /\ o_name n = k /\ good n i /\ configurable n = true /\ sget k dW <> None /\ In k (skeys dA)).
  { intros k i I. destruct (in_concat_f2 _ _ _ _ RC' I) as [x [y [Ix [[_ Y] J]]]]. destruct (FC x Ix) as [y' [Y' [D [_ D2]]]].
    rewrite Y in Y'. injection Y' as <-. destruct D as [->|[n [i' [N [Q [Gi [Cf ->]]]]]]]; [destruct J|]. destruct J as [J|[]]. injection J as <- <-.
    exists n. repeat split; auto; [|apply in_map; exact Ix]. intro Z. specialize (D2 Z). discriminate. }
  assert (KA : forall k i, In (k, i) (concat ra) -> exists n, In n (og_nodes g) /\ o_name n = k /\ good n i /\ all || o_conf_a n = true /\ sget k dW = None /\ In k (skeys dA)).
  { intros k i I. destruct (in_concat_f2 _ _ _ _ RA' I) as [x [y [Ix [[_ Y] J]]]]. destruct (FA x Ix) as [y' [Y' [D D2]]].
    rewrite Y in Y'. injection Y' as <-. destruct D as [->|[n [i' [N [Q [Gi [Cf ->]]]]]]]; [destruct J|]. destruct J as [J|[]]. injection J as <- <-.
    exists n. repeat split; auto; [|apply in_map; exact Ix]. apply D2. discriminate. }
  assert (KW : forall k i, In (k, i) (concat rw) -> exists n, In n (og_nodes g) /\ o_name n = k /\ good n i /\ all || o_conf_w n = true /\ sget k dA = None).
  { intros k i I. destruct (in_concat_f2 _ _ _ _ RW' I) as [x [y [Ix [[_ Y] J]]]]. destruct (FW x Ix) as [y' [Y' [D D2]]].
    rewrite Y in Y'. injection Y' as <-. destruct D as [->|[n [i' [N [Q [Gi [Cf ->]]]]]]]; [destruct J|]. destruct J as [J|[]]. injection J as <- <-.
    exists n. repeat split; auto. apply D2. discriminate. }
  eexists. split; [reflexivity|]. split; [|split].
  - unfold skeys. rewrite !map_app. apply nodup_app; [|apply nodup_app|].
    + apply (concat_keys _ _ _ RC'); [|apply dA_nodup]. intros x y [Ix Y]. destruct (FC x Ix) as [y' [Y' [D _]]]. rewrite Y in Y'. injection Y' as <-.
      destruct D as [->|[n [i [_ [_ [_ [_ ->]]]]]]]; eauto.
    + apply (concat_keys _ _ _ RA'); [|apply dA_nodup]. intros x y [Ix Y]. destruct (FA x Ix) as [y' [Y' [D _]]]. rewrite Y in Y'. injection Y' as <-.
      destruct D as [->|[n [i [_ [_ [_ [_ ->]]]]]]]; eauto.
    + apply (concat_keys _ _ _ RW'); [|apply dW_nodup]. intros x y [Ix Y]. destruct (FW x Ix) as [y' [Y' [D _]]]. rewrite Y in Y'. injection Y' as <-.
      destruct D as [->|[n [i [_ [_ [_ [_ ->]]]]]]]; eauto.
    + intros k A B. apply in_map_iff in A. destruct A as [[k1 i1] [Q1 A]]. apply in_map_iff in B. destruct B as [[k2 i2] [Q2 B]]. cbn in Q1, Q2. subst k1 k2.
      apply KA in A. apply KW in B. destruct A as [n [_ [_ [_ [_ [_ A]]]]]], B as [n' [_ [_ [_ [_ B]]]]]. apply sget_none in B. contradiction.
    + intros k A B. rewrite <- map_app in B. apply in_map_iff in A. destruct A as [[k1 i1] [Q1 A]]. apply in_map_iff in B. destruct B as [[k2 i2] [Q2 B]]. cbn in Q1, Q2. subst k1 k2.
      apply KC in A. destruct A as [n [_ [_ [_ [_ [A1 A2]]]]]]. apply in_app_iff in B. destruct B as [B|B].
      * apply KA in B. destruct B as [n' [_ [_ [_ [_ [B _]]]]]]. contradiction.
      * apply KW in B. destruct B as [n' [_ [_ [_ [_ B]]]]]. apply sget_none in B. contradiction.
  - intros k i I. rewrite !in_app_iff in I. destruct I as [I|[I|I]].
    + apply KC in I. destruct I as [n [N [Q [Gi [C _]]]]]. exists n. auto.
    + apply KA in I. destruct I as [n [N [Q [Gi [C _]]]]]. exists n. repeat split; auto. intros ->. unfold configurable. cbn in C. rewrite C. reflexivity.
    + apply KW in I. destruct I as [n [N [Q [Gi [C _]]]]]. exists n. repeat split; auto. intros ->. unfold configurable. cbn in C. rewrite C. apply orb_true_r.
  - intros n N CF.
    destruct (sget (o_name n) dA) as [na|] eqn:SA.
    + apply sget_in in SA. destruct (sget (o_name n) dW) as [nw|] eqn:SW.
      * destruct (FC _ SA) as [y [Y [D [D1 _]]]]. cbn [fst] in *.
        destruct D as [->|[n' [i [_ [Q [_ [_ ->]]]]]]].
        -- destruct (D1 n N eq_refl eq_refl); congruence.
        -- exists i. apply in_app_iff. left. destruct (f2_in _ _ _ _ RC' SA) as [y' [Iy [_ Y']]]. rewrite Y in Y'. injection Y' as <-.
           apply in_concat. eexists. split; [exact Iy|left; reflexivity].
      * destruct (FA _ SA) as [y [Y [D D1]]]. cbn [fst] in *. apply D1 in SW.
        destruct D as [->|[n' [i [_ [Q [_ [_ ->]]]]]]]; [congruence|].
        exists i. apply in_app_iff. right. apply in_app_iff. left. destruct (f2_in _ _ _ _ RA' SA) as [y' [Iy [_ Y']]]. rewrite Y in Y'. injection Y' as <-.
        apply in_concat. eexists. split; [exact Iy|left; reflexivity].
    + assert (Ca := NA n N SA). unfold configurable in CF. rewrite Ca in CF. cbn in CF.
      destruct (sget (o_name n) dW) as [nw|] eqn:SW; [|rewrite (NW n N SW) in CF; discriminate].
      apply sget_in in SW. destruct (FW _ SW) as [y [Y [D D1]]]. cbn [fst] in *. apply D1 in SA.
      destruct D as [->|[n' [i [_ [Q [_ [_ ->]]]]]]]; [congruence|].
      exists i. apply in_app_iff. right. apply in_app_iff. right. destruct (f2_in _ _ _ _ RW' SW) as [y' [Iy [_ Y']]]. rewrite Y in Y'. injection Y' as <-.
      apply in_concat. eexists. split; [exact Iy|left; reflexivity].
Qed.
End Graph.
End Bits.
