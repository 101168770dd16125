(* ReconRefuseProps.v -- C19: an assignment that does not determine the configuration of the original graph is refused. *)
From Coq Require Import String Permutation Lia.
From Verif Require Import Base SDict ReconModel ReconSpec ReconProofs ReconMain ReconMore ReconProps.
Local Open Scope list_scope.
Local Open Scope nat_scope.


Section Refuse.
Variables bits_a bits_w : nat -> nat.
Variable g : ograph.
Hypothesis G : graph_ok g.
Variable vs : list vnode.
Hypothesis V : virtual_nodes bits_a bits_w g = Ok vs.
Notation eA all := (ent all (rA bits_a bits_w) o_conf_a).
Notation eW all := (ent all (rW bits_a bits_w) o_conf_w).

Lemma add_new_inv all d r conf v j d' : NoDup (skeys d) -> add_new d (r v j) (fun n => all || conf n) = Ok d' ->
  d' = (d ++ ent all r conf (v, j))%list /\ NoDup (skeys d').
Proof.
  intros N. unfold ent, add_new. cbn [fst snd]. destruct (r v j) as [[n l]|]; [|rewrite app_nil_r; intro H; injection H as <-; auto].
  destruct (all || conf n); [|rewrite app_nil_r; intro H; injection H as <-; auto].
  destruct (sget (o_name n) d) as [x|] eqn:S; [discriminate|]. intro H. injection H as <-. split; [reflexivity|].
  unfold skeys. rewrite map_app. apply nodup_app; [exact N|cbn; constructor; [tauto|constructor]|].
  intros k A [B|[]]. cbn in B. subst k. apply sget_none in S. exact (S A).
Qed.

Lemma collect_inv all cfg a w : (forall v, In v (map fst cfg) -> In v vs) -> (forall v j, In (v, j) cfg -> j < length (v_cands bits_a bits_w v)) ->
  collect bits_a bits_w g all cfg = Ok (a, w) ->
  a = flat_map (eA all) cfg /\ w = flat_map (eW all) cfg /\ NoDup (skeys a) /\ NoDup (skeys w).
Proof.
  unfold collect. intros IV IDX.
  assert (forall l a0 w0, (forall v j, In (v, j) l -> In (v, j) cfg) -> NoDup (skeys a0) -> NoDup (skeys w0) ->
    foldM (fun (st : ncands * ncands) (vi : vnode * nat) =>
        let '(v, i) := vi in
        if negb (v_configurable bits_a bits_w v) then Err E_assert else
        let! ra := retrieve_a bits_a bits_w g v i in
        let! da := add_new (fst st) ra (fun n => all || o_conf_a n) in
        let! rw := retrieve_w bits_a bits_w g v i in
        let! dw := add_new (snd st) rw (fun n => all || o_conf_w n) in
        Ok (da, dw)) l (a0, w0) = Ok (a, w) ->
    a = a0 ++ flat_map (eA all) l /\ w = w0 ++ flat_map (eW all) l /\ NoDup (skeys a) /\ NoDup (skeys w)) as H.
  2: { intro E. destruct (H cfg [] [] ltac:(auto) ltac:(constructor) ltac:(constructor) E) as (A & B & C & D). auto. }
  induction l as [|[v j] l IH]; intros a0 w0 S Na Nw; cbn [foldM flat_map].
  - intro E. injection E as <- <-. rewrite !app_nil_r. auto.
  - assert (I : In (v, j) cfg) by (apply S; left; reflexivity).
    assert (Iv : In v vs) by (apply IV; apply (in_map fst) in I; exact I).
    destruct (negb _); [discriminate|]. rewrite (retrieve_a_ok bits_a bits_w g G vs V), (retrieve_w_ok bits_a bits_w g G vs V) by eauto. cbn [bind fst snd].
    destruct (add_new a0 _ _) as [a1|] eqn:A1; [|discriminate]. cbn [bind].
    destruct (add_new w0 _ _) as [w1|] eqn:W1; [|discriminate]. cbn [bind]. intro E.
    destruct (add_new_inv all a0 (rA bits_a bits_w) o_conf_a v j a1 Na A1) as [-> Na'].
    destruct (add_new_inv all w0 (rW bits_a bits_w) o_conf_w v j w1 Nw W1) as [-> Nw'].
    destruct (IH _ _ ltac:(intros; apply S; right; assumption) Na' Nw' E) as (B1 & B2 & B3 & B4). rewrite <- app_assoc in B1, B2. auto.
Qed.
End Refuse.

(* A node configured by two entries of the assignment is refused. *)
Theorem configured_twice_refused : forall bits_a bits_w g vs all c1 v j c2 v' j' c3 n,
  graph_ok g -> virtual_nodes bits_a bits_w g = Ok vs ->
  let cfg := c1 ++ (v, j) :: c2 ++ (v', j') :: c3 in
  (forall v, In v (map fst cfg) -> In v vs) -> (forall v j, In (v, j) cfg -> j < length (v_cands bits_a bits_w v)) ->
  (act_part v = Some n /\ act_part v' = Some n /\ o_conf_a n = true) \/ (wts_part v = Some n /\ wts_part v' = Some n /\ o_conf_w n = true) ->
  exists e, reconstruct_full bits_a bits_w g all cfg = Err e.
Proof.
  intros ba bw g vs all c1 v j c2 v' j' c3 n G V cfg IV IDX H. unfold reconstruct_full.
  destruct (collect ba bw g all cfg) as [[a w]|e] eqn:C; cbn [bind]; [|exists e; reflexivity].
  exfalso. destruct (collect_inv ba bw g G vs V all cfg a w IV IDX C) as (-> & -> & Na & Nw).
  assert (I1 : In (v, j) cfg) by (unfold cfg; apply in_or_app; right; left; reflexivity).
  assert (I2 : In (v', j') cfg) by (unfold cfg; apply in_or_app; right; right; apply in_or_app; right; left; reflexivity).
  assert (forall (f : vnode * nat -> ncands) x y, f (v, j) = [x] -> f (v', j') = [y] -> fst x = fst y -> NoDup (skeys (flat_map f cfg)) -> False) as K.
  { intros f x y E1 E2 E N. unfold cfg in N. rewrite flat_map_app in N. cbn [flat_map] in N. rewrite flat_map_app in N. cbn [flat_map] in N. rewrite E1, E2 in N.
    unfold skeys in N. rewrite !map_app in N. cbn [map app] in N. apply NoDup_remove_2 in N. apply N. apply in_or_app. right. rewrite E. apply in_or_app. right. left. reflexivity. }
  destruct H as [(P & P' & O)|(P & P' & O)].
  - destruct (rA_some ba bw v j n P (IDX _ _ I1)) as [l R]. destruct (rA_some ba bw v' j' n P' (IDX _ _ I2)) as [l' R'].
    apply (K (ent all (rA ba bw) o_conf_a) (o_name n, (n, l)) (o_name n, (n, l'))); [| |reflexivity|exact Na]; unfold ent; cbn [fst snd]; [rewrite R|rewrite R']; rewrite O, orb_true_r; reflexivity.
  - destruct (rW_some ba bw v j n P (IDX _ _ I1)) as [l R]. destruct (rW_some ba bw v' j' n P' (IDX _ _ I2)) as [l' R'].
    apply (K (ent all (rW ba bw) o_conf_w) (o_name n, (n, l)) (o_name n, (n, l'))); [| |reflexivity|exact Nw]; unfold ent; cbn [fst snd]; [rewrite R|rewrite R']; rewrite O, orb_true_r; reflexivity.
Qed.
Print Assumptions configured_twice_refused.

(* If the reconstruction succeeds, the candidate it names for a node whose activation and weights are both configurable
   is the only one with the assigned configurations; nothing is guessed. *)
Theorem reconstruction_never_guesses : forall bits_a bits_w g vs all cfg oc n i j,
  graph_ok g -> virtual_nodes bits_a bits_w g = Ok vs ->
  (forall v, In v (map fst cfg) -> In v vs) -> (forall v j, In (v, j) cfg -> j < length (v_cands bits_a bits_w v)) ->
  reconstruct_full bits_a bits_w g all cfg = Ok oc -> In n (og_nodes g) -> o_conf_a n = true -> o_conf_w n = true ->
  sget (o_name n) oc = Some i -> activation_agrees bits_a bits_w cfg n j -> weights_agree bits_a bits_w cfg n j -> j = i.
Proof.
  intros ba bw g vs all cfg oc n i j G V IV IDX R In_n CA CW S (v & jv & q & c & I & P & Nq & Nc & Ea) (v' & jw & q' & c' & I' & P' & Nq' & Nc' & Ew).
  rewrite Nc' in Nc. injection Nc as ->. unfold reconstruct_full in R.
  destruct (collect ba bw g all cfg) as [[a w]|e] eqn:C; cbn [bind] in R; [|discriminate].
  destruct (collect_inv ba bw g G vs V all cfg a w IV IDX C) as (Ha & Hw & Na & Nw).
  assert (Iv : In v vs) by (apply IV; apply (in_map fst) in I; exact I).
  assert (Iv' : In v' vs) by (apply IV; apply (in_map fst) in I'; exact I').
  destruct (rA_some ba bw v jv n P (IDX _ _ I)) as [la RA]. destruct (rW_some ba bw v' jw n P' (IDX _ _ I')) as [lw RW].
  assert (SA : sget (o_name n) a = Some (n, la)) by (apply in_sget; [exact Na|]; rewrite Ha; apply ent_in; exists v, jv; cbn [fst]; rewrite CA, orb_true_r; auto).
  assert (SW : sget (o_name n) w = Some (n, lw)) by (apply in_sget; [exact Nw|]; rewrite Hw; apply ent_in; exists v', jw; cbn [fst]; rewrite CW, orb_true_r; auto).
  (* the named candidate *)
  destruct (mapM _ a) as [l1|] eqn:M1; cbn [bind] in R; [|discriminate].
  destruct (mapM _ a) as [l2|] eqn:M2 in R; cbn [bind] in R; [|discriminate].
  destruct (mapM _ w) as [l3|] eqn:M3; cbn [bind] in R; [|discriminate]. injection R as <-.
  apply mapM_spec in M1. apply mapM_spec in M2. apply mapM_spec in M3. apply sget_in in S.
  assert (intersect la lw = [i]) as X.
  { apply in_app_or in S. destruct S as [S|S]; [|exfalso; apply in_app_or in S; destruct S as [S|S]].
    - destruct (in_concat_f2 _ _ _ _ M1 S) as (kv & y & J & F & K). destruct kv as [k [n0 l0]]. cbn [fst snd] in F.
      destruct (sget k w) as [[n1 l1']|] eqn:Q; [|injection F as <-; destruct K].
      destruct (intersect l0 l1') as [|x [|x' r']] eqn:T; try discriminate. destruct (o_conf_a n0 || o_conf_w n0); injection F as <-; [|destruct K].
      destruct K as [K|[]]. injection K as -> ->. rewrite SW in Q. injection Q as <- <-.
      apply (in_sget _ _ _ Na) in J. rewrite SA in J. injection J as <- <-. exact T.
    - destruct (in_concat_f2 _ _ _ _ M2 S) as (kv & y & J & F & K). destruct kv as [k [n0 l0]]. cbn [fst snd] in F.
      destruct (sget k w) as [x|] eqn:Q; [injection F as <-; destruct K|]. destruct (o_conf_w n0); [discriminate|]. destruct l0 as [|x [|x' r']]; try discriminate.
      destruct (all || o_conf_a n0); injection F as <-; [|destruct K]. destruct K as [K|[]]. injection K as -> ->. congruence.
    - destruct (in_concat_f2 _ _ _ _ M3 S) as (kv & y & J & F & K). destruct kv as [k [n0 l0]]. cbn [fst snd] in F.
      destruct (sget k a) as [x|] eqn:Q; [injection F as <-; destruct K|]. destruct (o_conf_a n0); [discriminate|]. destruct l0 as [|x [|x' r']]; try discriminate.
      destruct (all || o_conf_w n0); injection F as <-; [|destruct K]. destruct K as [K|[]]. injection K as -> ->. congruence. }
  assert (forall x, In x la -> In x lw -> x = i) as U.
  { intros x A B. assert (In x (intersect la lw)) as Y by (unfold intersect; apply filter_In; split; [exact A|apply existsb_eqb; exact B]). rewrite X in Y. destruct Y as [Y|[]]; auto. }
  assert (forall m, v = VReg m -> v' = v) as RG.
  { intros m ->. cbn in P. injection P as ->. apply (wts_part_unique ba bw g vs V v' (VReg n) n Iv' Iv P'). cbn. unfold o_conf_w in CW. destruct (o_weights n); [reflexivity|discriminate]. }
  assert (forall m, v' = VReg m -> v = v') as RG'.
  { intros m ->. cbn in P'. destruct (o_weights m); [|discriminate]. injection P' as ->. apply (act_part_unique ba bw g G vs V v (VReg n) n Iv Iv' P). reflexivity. }
  destruct v as [m|m|m|p m].
  - (* one entry for both *) rewrite (RG m eq_refl) in *. cbn in P. injection P as ->. cbn in RA, RW. injection RA as <-.
    destruct (o_weights n); [|discriminate]. injection RW as <-. cbn [v_cands] in Nq, Nq'.
    cbn in X. destruct (Nat.eqb_spec jv jw) as [Q|Q]; cbn in X; [|discriminate]. injection X as <-. subst jw. rewrite Nq in Nq'. injection Nq' as ->.
    exact (same_candidate g G n j jv c q' In_n Nc' Nq Ea Ew).
  - discriminate.
  - apply U.
    + cbn [rA] in RA. rewrite Nq in RA. cbn in P. injection P as ->. injection RA as <-. apply matching_spec. exists c. split; [exact Nc'|apply Nat.eqb_eq; exact Ea].
    + destruct v' as [m'|m'|m'|p' m']; [specialize (RG' m' eq_refl); discriminate| |discriminate|];
        cbn [rW] in RW; rewrite Nq' in RW; injection RW as _ <-; cbn in P'; injection P' as ->; apply matching_spec; exists c; (split; [exact Nc'|apply orb_true_iff; right; apply Nat.eqb_eq; exact Ew]).
  - apply U.
    + cbn [rA] in RA. rewrite Nq in RA. cbn in P. injection P as ->. injection RA as <-. apply matching_spec. exists c. split; [exact Nc'|apply Nat.eqb_eq; exact Ea].
    + destruct v' as [m'|m'|m'|p' m']; [specialize (RG' m' eq_refl); discriminate| |discriminate|];
        cbn [rW] in RW; rewrite Nq' in RW; injection RW as _ <-; cbn in P'; injection P' as ->; apply matching_spec; exists c; (split; [exact Nc'|apply orb_true_iff; right; apply Nat.eqb_eq; exact Ew]).
Qed.
Print Assumptions reconstruction_never_guesses.

(* On the graph of ReconProps: the activation of n configured by two entries.  (For the second theorem see
   reconstruction_ex there.) *)
Example twice_ex : let v := VAW (nx g1 1) (nx g1 2) in
  (forall v j, In (v, j) [(VAW (nx g1 1) (nx g1 2), 1); (VAW (nx g1 1) (nx g1 2), 0)] -> j < length (v_cands bid bid v)) /\
  act_part v = Some (nx g1 1) /\ o_conf_a (nx g1 1) = true /\ reconstruct_full bid bid g1 false [(v, 1); (v, 0)] = Err E_assert.
Proof. split; [intros v j [H|[H|[]]]; injection H as <- <-; cbn; lia|]. repeat split; reflexivity. Qed.
