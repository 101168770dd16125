(* FuncSubAttProofs.v -- proofs about replacing scaled dot product attention. *)
From Coq Require Import String Lia.
From Verif Require Import Base GraphModel GraphProofs FxModel FxSpec FxProofs FuncSubModel FuncSubSpec FuncSubProofs.
From Coq Require Import Reals Lra.
Local Open Scope nat_scope.

Lemma op_args_rest nd q k v rest : f_args nd = map ANode [q; k; v] ++ rest -> op_call_args nd = filter (fun a => negb (is_node a)) rest.
Proof. intro E. unfold op_call_args, inputs_as_list, first_list. rewrite E. reflexivity. Qed.

Lemma graph_not_const prog n : NoDup (map f_id prog) -> In n (graph_ids prog) -> ~ In n (const_ids prog).
Proof.
  unfold graph_ids, const_ids. intros N G C. apply in_map_iff in G. destruct G as (a & Ea & Ia). apply in_map_iff in C. destruct C as (b & Eb & Ib).
  apply filter_In in Ia. apply filter_In in Ib. destruct Ia as [Ia Ga], Ib as [Ib Gb].
  assert (a = b) as ->. { revert Ia Ib. clear -N Ea Eb. revert N. subst n. induction prog as [|x prog IH]; [intros _ []|]. cbn [map]. intro N. apply NoDup_cons_iff in N. destruct N as [N1 N2].
    intros [->|Ia] [->|Ib]; [reflexivity| | |exact (IH N2 Ia Ib)]; exfalso; apply N1; [rewrite <- Eb|rewrite Eb]; apply in_map; assumption. }
  unfold is_graph_node in Ga. rewrite Gb in Ga. discriminate Ga.
Qed.

Definition npos (n : nat) (l : list nat) : nat := count_occ Nat.eq_dec l n.
Lemma positions_count n l : length (positions_of n (map ANode l)) = npos n l.
Proof.
  unfold positions_of, npos. rewrite map_length. generalize 0 as j. induction l as [|x l IH]; intro j; [reflexivity|]. cbn [map enumerate_from filter snd arg_is count_occ].
  destruct (Nat.eqb_spec x n) as [->|D]; destruct (Nat.eq_dec _ _) as [E|E]; try congruence; cbn [length]; rewrite IH; reflexivity.
Qed.
Lemma no_positions n l j : ~ In n (nodes_in l) -> filter (fun p => arg_is n (snd p)) (enumerate_from j l) = [].
Proof.
  revert j. induction l as [|a l IH]; intros j Q; [reflexivity|]. cbn [enumerate_from filter snd]. unfold nodes_in in Q. cbn [flat_map] in Q.
  replace (arg_is n a) with false. { apply IH. intro J. apply Q. apply in_or_app. right. exact J. }
  symmetry. destruct a as [m| |]; try reflexivity. cbn [arg_is]. apply Nat.eqb_neq. intros ->. apply Q. apply in_or_app. left. left. reflexivity.
Qed.
Lemma enumerate_app {A} (l m : list A) j : enumerate_from j (l ++ m) = enumerate_from j l ++ enumerate_from (j + length l) m.
Proof. revert j. induction l as [|x l IH]; intro j; cbn [app enumerate_from length]; [rewrite Nat.add_0_r; reflexivity|]. rewrite IH, Nat.add_succ_comm. reflexivity. Qed.

Lemma attention_inputs prog nd q k v rest mask : wf_prog prog -> In nd prog -> attention_call prog nd q k v rest mask ->
  sdpa_prev prog nd = [q; k; v] /\ map snd (const_weights (const_ids prog) nd) = mask.
Proof.
  intros [N W] I [Ao Aa Ar Ak Aon [Am1 Am2] (Iq & Ik & Iv) Ac [S1 S2]].
  assert (occ nd = [q; k; v] ++ mask) as Eo. { unfold occ. rewrite Aa. rewrite <- Am1. unfold nodes_in. rewrite flat_map_app. rewrite <- app_assoc. reflexivity. }
  assert (length mask <= 1) as Lm. { rewrite Am2. destruct (arg_for _ _ _) as [[]|]; cbn; lia. }
  assert (forall c, In c mask -> c <> q /\ c <> k /\ c <> v) as Md.
  { intros c J. specialize (Ac c J). repeat split; intro E; rewrite E in Ac; [exact (graph_not_const prog q N Iq Ac)|exact (graph_not_const prog k N Ik Ac)|exact (graph_not_const prog v N Iv Ac)]. }
  assert (edge_args nd = map ANode [q; k; v] ++ rest) as Ee. { unfold edge_args, is_op. rewrite Ao. unfold tensor_args, first_list. rewrite Aa. reflexivity. }
  assert (forall n, n = q \/ n = k \/ n = v -> length (positions_of n (edge_args nd)) = npos n [q; k; v]) as Pl.
  { intros n Hn. rewrite Ee, <- positions_count. unfold positions_of. rewrite !map_length, enumerate_app, filter_app, (no_positions n rest), app_nil_r; [reflexivity|].
    intro J. destruct (Md n) as (A & B & C); [rewrite <- Am1; apply in_or_app; left; exact J|]. destruct Hn as [->|[->| ->]]; congruence. }
  assert (forall n, n = q \/ n = k \/ n = v -> mem n (graph_ids prog) = true) as Gm by (intros n [->|[->| ->]]; apply mem_spec; assumption).
  assert (forall c, In c mask -> mem c (graph_ids prog) = false) as Gc.
  { intros c J. apply not_true_iff_false. intro Q. apply mem_spec in Q. exact (graph_not_const prog c N Q (Ac c J)). }
  assert (forall n, n = q \/ n = k \/ n = v -> mem n (const_ids prog) = false) as Cm.
  { intros n Hn. apply not_true_iff_false. intro Q. apply mem_spec in Q. specialize (Gm n Hn). apply mem_spec in Gm. exact (graph_not_const prog n N Gm Q). }
  assert (forall c, In c mask -> mem c (const_ids prog) = true) as Cc by (intros c J; apply mem_spec, Ac, J).
  (* the distinct tensors and how often each is used *)
  assert (exists pre z m, firsts [q; k; v] = pre ++ [z] /\ (forall n, In n pre -> npos n [q; k; v] = 1) /\ npos z [q; k; v] = S m /\ [q; k; v] = pre ++ repeat z (S m) /\
    all_input_nodes nd = pre ++ z :: mask) as (pre & z & m & Ef & Pp & Pz & El & Ea).
  { assert (all_input_nodes nd = firsts ([q; k; v] ++ mask)) as Ea by (rewrite ains_occ, Eo; reflexivity).
    assert (mask = [] \/ exists c, mask = [c] /\ c <> q /\ c <> k /\ c <> v) as Hm.
    { destruct mask as [|c [|? ?]]; [left; reflexivity| |cbn in Lm; lia]. right. exists c. split; [reflexivity|]. apply Md. left. reflexivity. }
    clear -S1 S2 Ea Hm. unfold npos. cbn [count_occ app] in *.
    destruct (Nat.eq_dec q k) as [E1|D1]; [|destruct (Nat.eq_dec k v) as [E3|D3]].
    - assert (k = v) as E2 by exact (S1 E1). subst k v. exists [], q, 2. cbn [firsts filter app] in *. rewrite !Nat.eqb_refl in *. cbn [negb filter] in *.
      destruct (Nat.eq_dec q q) as [_|D]; [|congruence]. split; [reflexivity|]. split; [intros ? []|]. split; [reflexivity|]. split; [reflexivity|].
      rewrite Ea. destruct Hm as [->|(c & -> & A & _)]; [reflexivity|]. assert (Nat.eqb q c = false) as Q by (apply Nat.eqb_neq; congruence).
      repeat (progress (cbn [filter firsts negb]; rewrite ?Nat.eqb_refl, ?Q)). reflexivity.
    - subst v. exists [q], k, 1. assert (Nat.eqb q k = false) as Q by (apply Nat.eqb_neq; exact D1). cbn [firsts filter app] in *. rewrite ?Q, ?Nat.eqb_refl in *. cbn [negb filter] in *. rewrite ?Q, ?Nat.eqb_refl in *. cbn [negb filter] in *.
      split; [reflexivity|]. split. { intros n [<-|[]]. destruct (Nat.eq_dec q q); [|congruence]. destruct (Nat.eq_dec k q); [congruence|reflexivity]. }
      split. { destruct (Nat.eq_dec q k); [congruence|]. destruct (Nat.eq_dec k k); [reflexivity|congruence]. } split; [reflexivity|].
      rewrite Ea. destruct Hm as [->|(c & -> & A & B & _)]; [repeat (progress (cbn [filter firsts negb]; rewrite ?Nat.eqb_refl, ?Q)); reflexivity|].
      assert (Nat.eqb q c = false) as Q1 by (apply Nat.eqb_neq; congruence). assert (Nat.eqb k c = false) as Q2 by (apply Nat.eqb_neq; congruence).
      repeat (progress (cbn [filter firsts negb]; rewrite ?Nat.eqb_refl, ?Q, ?Q1, ?Q2)). reflexivity.
    - assert (q <> v) as D2 by (intro E; apply D3, S2, E). exists [q; k], v, 0.
      assert (NoDup ([q; k; v] ++ mask)) as Nd. { destruct Hm as [->|(c & -> & A & B & C)]; cbn [app]; repeat constructor; cbn; intuition congruence. }
      assert (NoDup [q; k; v]) as Nd3 by (repeat constructor; cbn; intuition congruence).
      change (q :: k :: v :: mask) with ([q; k; v] ++ mask) in Ea. rewrite firsts_id in Ea by exact Nd. rewrite firsts_id by exact Nd3. split; [reflexivity|].
      split. { intros n [<-|[<-|[]]]; repeat destruct (Nat.eq_dec _ _); congruence. }
      split. { repeat destruct (Nat.eq_dec _ _); congruence. } split; [reflexivity|exact Ea]. }
  assert (forall n, In n pre -> n = q \/ n = k \/ n = v) as Ip. { intros n J. assert (In n [q; k; v]) as Q by (rewrite El; apply in_or_app; left; exact J). cbn in Q. intuition congruence. }
  assert (z = q \/ z = k \/ z = v) as Iz. { assert (In z [q; k; v]) as Q by (rewrite El; apply in_or_app; right; left; reflexivity). cbn in Q. intuition congruence. }
  split.
  - unfold sdpa_prev. rewrite sources; [|exact N|exact I|rewrite Ao; discriminate|].
    + rewrite Ea, El, flat_map_app. cbn [flat_map]. rewrite (Gm z Iz), (Pl z Iz), Pz. change (Nat.max (S m) 1) with (S (Nat.max m 0)). rewrite Nat.max_0_r.
      replace (flat_map _ mask) with (@nil nat). 2: { symmetry. clear -Gc. induction mask as [|c mask IH]; [reflexivity|]. cbn [flat_map]. rewrite Gc by (left; reflexivity). apply IH. intros d J. apply Gc. right. exact J. }
      rewrite app_nil_r. f_equal. clear -Pp Ip Gm Pl. generalize (fun n J => Pl n (Ip n J)) as Pl'. generalize (fun n J => Gm n (Ip n J)) as Gm'. clear Ip Gm Pl.
      induction pre as [|x pre IH]; intros Gm Pl; [reflexivity|]. cbn [flat_map]. rewrite (Gm x (or_introl eq_refl)), (Pl x (or_introl eq_refl)), (Pp x (or_introl eq_refl)). cbn [Nat.max repeat app]. f_equal.
      apply IH; intros n J; [apply Pp|apply Gm|apply Pl]; right; exact J.
    + rewrite Ea. intros a n b E An. destruct (in_dec Nat.eq_dec n pre) as [J|J].
      * left. rewrite (Pl n (Ip n J)), (Pp n J). reflexivity.
      * right. assert (exists b', mask = b' ++ b) as (b' & Eb).
        { clear -E J. revert a E. induction pre as [|x pre IH]; intros a E.
          - destruct a as [|y a]; cbn [app] in E; injection E as E1 E; [exists []; exact E|]. exists (a ++ [n])%list. rewrite E, <- app_assoc. reflexivity.
          - destruct a as [|y a]; cbn [app] in E; injection E as E1 E; [exfalso; apply J; left; exact E1|]. apply (IH (fun Q => J (or_intror Q)) a E). }
        intros y Q. apply Gc. rewrite Eb. apply in_or_app. right. exact Q.
  - unfold const_weights, first_list. rewrite Aa. cbn [map app]. rewrite Ea. change (z :: mask) with ([z] ++ mask). rewrite app_assoc, enumerate_app, filter_app, map_app.
    replace (filter _ (enumerate_from 0 (pre ++ [z]))) with (@nil (nat * nat)).
    + cbn [map app]. generalize (0 + length (pre ++ [z])) as j. clear -Cc. induction mask as [|c mask IH]; intro j; [reflexivity|]. cbn [enumerate_from filter snd]. rewrite Cc by (left; reflexivity). cbn [map snd]. f_equal. apply IH. intros d J. apply Cc. right. exact J.
    + assert (forall n, In n (pre ++ [z]) -> mem n (const_ids prog) = false) as Q. { intros n J. apply Cm. apply in_app_or in J. destruct J as [J|[<-|[]]]; [exact (Ip n J)|exact Iz]. }
      symmetry. revert Q. generalize 0 as j. generalize (pre ++ [z]) as l. clear. induction l as [|x l IH]; intros j Q; [reflexivity|]. cbn [enumerate_from filter snd]. rewrite Q by (left; reflexivity). apply IH. intros n J. apply Q. right. exact J.
Qed.

Lemma nth_filter_all {A} (f : A -> bool) l i a : nth_error (filter f l) i = Some a -> length l <= S i -> nth_error l i = Some a.
Proof.
  intros H L. assert (length (filter f l) <= length l) as F by (clear; induction l as [|x l IH]; [reflexivity|]; cbn; destruct (f x); cbn; lia).
  assert (i < length (filter f l)) as Q by (apply nth_error_Some; rewrite H; discriminate).
  replace (filter f l) with l in H; [exact H|]. assert (length (filter f l) = length l) as E by lia. clear -E.
  induction l as [|x l IH]; [reflexivity|]. cbn [filter] in *. destruct (f x); [cbn in E; f_equal; apply IH; lia|]. exfalso.
  assert (length (filter f l) <= length l) by (clear; induction l as [|y l IH]; [reflexivity|]; cbn; destruct (f y); cbn; lia). cbn in E. lia.
Qed.
Lemma filter_nodes rest : nodes_in rest = [] -> filter (fun a => negb (is_node a)) rest = rest.
Proof.
  induction rest as [|a rest IH]; intro H; [reflexivity|]. unfold nodes_in in H. cbn [flat_map] in H. apply app_eq_nil in H. destruct H as [H1 H2]. cbn [filter].
  destruct a as [n|c|l]; [discriminate H1| |]; cbn [is_node negb]; f_equal; apply IH, H2.
Qed.
Lemma third_bound prog nd q k v rest mask : attention_call prog nd q k v rest mask ->
  nth_error (f_args nd) (param_index "is_causal"%string sdpa_sig) = nth_error rest 2.
Proof. intros C. rewrite (ac_args _ _ _ _ _ _ _ C). reflexivity. Qed.
Lemma causal_read prog nd q k v rest mask a : attention_call prog nd q k v rest mask -> get_input_by_name nd "is_causal"%string 2 = Some a -> arg_for sdpa_sig nd "is_causal"%string = Some a.
Proof.
  intros C H. unfold arg_for. rewrite (third_bound _ _ _ _ _ _ _ C). unfold get_input_by_name in H. rewrite kwget_keyword, (op_args_rest nd q k v rest (ac_args _ _ _ _ _ _ _ C)) in H.
  destruct (keyword _ (op_call_kwargs nd)) as [b|] eqn:K.
  - injection H as ->. assert (keyword "is_causal"%string (f_kwargs nd) = Some a) as K'.
    { apply in_keyword; [exact (ac_keys _ _ _ _ _ _ _ C)|]. apply keyword_in in K. unfold op_call_kwargs in K. apply filter_In in K. apply K. }
    destruct (nth_error rest 2) as [b|] eqn:E; [|exact K']. exfalso.
    assert (2 < length rest) as L by (apply nth_error_Some; rewrite E; discriminate). apply (ac_once _ _ _ _ _ _ _ C "is_causal"%string).
    + destruct (length rest) as [|[|[|n]]]; [lia|lia|lia|]. cbn. tauto.
    + apply keyword_in in K'. apply (in_map fst) in K'. exact K'.
  - apply nth_filter_all in H; [rewrite H; reflexivity|]. exact (ac_rest _ _ _ _ _ _ _ C).
Qed.
Lemma causal_read_all prog nd q k v rest c : attention_call prog nd q k v rest [] -> arg_for sdpa_sig nd "is_causal"%string = Some (AConst c) -> get_input_by_name nd "is_causal"%string 2 = Some (AConst c).
Proof.
  intros C H. unfold arg_for in H. rewrite (third_bound _ _ _ _ _ _ _ C) in H. unfold get_input_by_name. rewrite kwget_keyword, (op_args_rest nd q k v rest (ac_args _ _ _ _ _ _ _ C)).
  rewrite filter_nodes by (pose proof (proj1 (ac_mask _ _ _ _ _ _ _ C)) as Q; apply app_eq_nil in Q; apply Q).
  destruct (nth_error rest 2) as [b|] eqn:E.
  - injection H as ->. rewrite op_kw_none; [reflexivity|]. apply keyword_none. apply (ac_once _ _ _ _ _ _ _ C).
    assert (2 < length rest) as L by (apply nth_error_Some; rewrite E; discriminate). destruct (length rest) as [|[|[|n]]]; [lia|lia|lia|]. cbn. tauto.
  - rewrite (op_kw_val _ _ _ H); reflexivity.
Qed.
Lemma scale_read prog nd q k v rest mask : attention_call prog nd q k v rest mask -> (forall n, keyword "scale"%string (f_kwargs nd) <> Some (ANode n)) ->
  get_input_by_name nd "scale"%string 3 = keyword "scale"%string (f_kwargs nd).
Proof.
  intros C H. unfold get_input_by_name. rewrite kwget_keyword, (op_args_rest nd q k v rest (ac_args _ _ _ _ _ _ _ C)).
  destruct (keyword "scale"%string (f_kwargs nd)) as [a|] eqn:K.
  - rewrite (op_kw_val _ _ _ K); [reflexivity|]. destruct a as [n| |]; [|reflexivity|reflexivity]. exfalso. exact (H n eq_refl).
  - rewrite (op_kw_none _ _ K). apply nth_error_None. pose proof (ac_rest _ _ _ _ _ _ _ C) as L. clear -L. assert (forall l : list arg, length (filter (fun a => negb (is_node a)) l) <= length l) as F; [|specialize (F rest); lia].
    induction l as [|x l IH]; [reflexivity|]. cbn. destruct (negb _); cbn; lia.
Qed.

Local Open Scope R_scope.
Lemma total_ext n f g : (forall i, f i = g i) -> total n f = total n g.
Proof. intro H. unfold total. f_equal. apply map_ext. exact H. Qed.

Section Att.
Variable dec : nat -> pv.
Lemma attention_lem supported prog nd q k v rest mask cm :
  wf_prog prog -> In nd prog -> attention_call prog nd q k v rest mask ->
  (forall c, In c mask -> supported c = true) ->
  (arg_for sdpa_sig nd "is_causal"%string = None \/ exists c, arg_for sdpa_sig nd "is_causal"%string = Some (AConst c) /\ dec c = PBool false) ->
  (keyword "scale"%string (f_kwargs nd) = None \/ exists c, keyword "scale"%string (f_kwargs nd) = Some (AConst c) /\ (dec c = PNone \/ exists r, dec c = PNum r /\ r <> 0)) ->
  number dec 0 (arg_for sdpa_sig nd "dropout_p"%string) = 0 ->
  exists a, substitute_attention dec supported (const_ids prog) (sdpa_prev prog nd) nd = Ok a /\
    forall val keep, exists y, run_attention dec cm a val = Ok y /\ torch_attention dec cm keep nd (val q) (val k) (val v) y.
Proof.
  intros W I C Hs Hc Hsc Hp. destruct (attention_inputs _ _ _ _ _ _ _ W I C) as [Ep Ew].
  assert (truthy dec (get_input_by_name nd "is_causal"%string 2) = false) as Tc.
  { destruct (get_input_by_name nd "is_causal"%string 2) as [a|] eqn:G; [|reflexivity]. rewrite (causal_read _ _ _ _ _ _ _ _ C G) in Hc.
    destruct Hc as [Hc|(c & Hc & Hd)]; [discriminate|]. injection Hc as ->. cbn [truthy]. rewrite Hd. reflexivity. }
  assert (flag dec (arg_for sdpa_sig nd "is_causal"%string) = false) as Fc.
  { destruct Hc as [Hc|(c & Hc & Hd)]; rewrite Hc; [reflexivity|]. cbn [flag]. rewrite Hd. reflexivity. }
  assert (get_input_by_name nd "scale"%string 3 = keyword "scale"%string (f_kwargs nd)) as Ek by (apply (scale_read _ _ _ _ _ _ _ C); intros n E; destruct Hsc as [Q|(c & Q & _)]; rewrite Q in E; discriminate).
  rewrite <- Ek in Hsc. destruct (ac_mask _ _ _ _ _ _ _ C) as [_ Em].
  assert (attention_mask dec supported (const_ids prog) nd = Ok (hd_error mask)) as Ma.
  { unfold attention_mask. rewrite Tc. destruct (const_weights (const_ids prog) nd) as [|[i c] ws]; cbn [map snd] in Ew; rewrite <- Ew; [reflexivity|]. cbn [hd_error]. rewrite Hs; [reflexivity|]. rewrite <- Ew. left. reflexivity. }
  assert (forall d, scale_of dec d (if truthy dec (get_input_by_name nd "scale"%string 3) then get_input_by_name nd "scale"%string 3 else None) = number dec (1 / sqrt (INR d)) (get_input_by_name nd "scale"%string 3)) as Es.
  { intro d. destruct Hsc as [-> | (c & -> & [Hd|(r & Hd & Hr)])]; cbn [truthy number]; [reflexivity| |]; rewrite Hd; [reflexivity|]. destruct (Req_EM_T r 0) as [E|_]; [contradiction|]. cbn [scale_of]. rewrite Hd. reflexivity. }
  unfold substitute_attention. rewrite Ep, Ma. cbn [bind]. eexists. split; [reflexivity|]. intros val keep.
  unfold run_attention. cbn [at_q at_k at_v at_nodes]. rewrite Ek in *.
  destruct (Req_EM_T (number dec 0 (arg_for sdpa_sig nd "dropout_p"%string)) 0) as [Ed|D] eqn:Er; [|contradiction].
  destruct mask as [|c [|? ?]].
  - cbn. eexists. split; [reflexivity|]. unfold torch_attention. rewrite Er, Fc. cbn [rows cols el mmul mmap msoftmax mtranspose]. split; [reflexivity|]. split; [reflexivity|]. intros i j.
    rewrite Es. destruct (arg_for sdpa_sig nd "attn_mask"%string) as [[m|m|m]|]; try discriminate Em; (apply total_ext; intro l; cbn [andb]; rewrite Rplus_0_r; apply (f_equal2 Rmult); [apply (f_equal2 Rdiv); [reflexivity|]|reflexivity]; apply total_ext; intro l2; rewrite Rplus_0_r; reflexivity).
  - destruct (arg_for sdpa_sig nd "attn_mask"%string) as [[m|m|m]|] eqn:Ea; try discriminate Em. injection Em as ->.
    cbn. eexists. split; [reflexivity|]. unfold torch_attention. rewrite Er, Fc, Ea. cbn [rows cols el mmul mmap msoftmax mtranspose]. split; [reflexivity|]. split; [reflexivity|]. intros i j.
    rewrite Es. reflexivity.
  - exfalso. destruct (arg_for sdpa_sig nd "attn_mask"%string) as [[m|m|m]|]; discriminate Em.
Qed.
End Att.
