(* MpEvalProofs.v -- lemmas for MpEvalProps.v. *)
From Coq Require Import Permutation Sorted Lia String.
From Verif Require Import Base SDict SensModel SensSpec SensProofs SensProps MpEvalModel MpEvalSpec.
Open Scope res_scope.
Local Open Scope list_scope.
Local Open Scope Z_scope.

(* ---- generic ---- *)
Lemma mapM_total {A B} (f : A -> result B) (h : A -> B) : forall l, (forall x, In x l -> f x = Ok (h x)) -> mapM f l = Ok (map h l).
Proof. induction l as [|x l IH]; intro H; [reflexivity|]. cbn. rewrite (H x (or_introl eq_refl)). cbn. rewrite IH; [reflexivity|intros y Y; apply H; right; exact Y]. Qed.
Lemma filterM_total {A} (p : A -> result bool) (q : A -> bool) : forall l, (forall x, In x l -> p x = Ok (q x)) -> filterM p l = Ok (filter q l).
Proof. induction l as [|x l IH]; intro H; [reflexivity|]. cbn. rewrite (H x (or_introl eq_refl)). cbn. rewrite IH; [cbn; destruct (q x); reflexivity|intros y Y; apply H; right; exact Y]. Qed.
Lemma forallb_false {A} (p : A -> bool) l : forallb p l = false <-> exists x, In x l /\ p x = false.
Proof.
  induction l as [|a l IH]; cbn; [split; [discriminate|intros (? & [] & _)]|]. rewrite andb_false_iff, IH. split.
  - intros [H|(x & I & H)]; [exists a; auto|exists x; auto].
  - intros (x & [<-|I] & H); [left; exact H|right; exists x; auto].
Qed.
Lemma amode_eqb_spec a b : amode_eqb a b = true <-> a = b.
Proof. destruct a, b; cbn; split; congruence. Qed.
Lemma wattr_eqb_spec a b : wattr_eqb a b = true <-> a = b.
Proof. destruct a as [x y z], b as [x' y' z']. unfold wattr_eqb. cbn. rewrite !andb_true_iff, Z.eqb_eq, Bool.eqb_true_iff, Nat.eqb_eq. split; [intros [[-> ->] ->]; reflexivity|intro E; injection E; auto]. Qed.
Lemma acfg_eqb_spec a b : acfg_eqb a b = true <-> a = b.
Proof. destruct a as [x y z], b as [x' y' z']. unfold acfg_eqb. cbn. rewrite !andb_true_iff, Z.eqb_eq, amode_eqb_spec, Nat.eqb_eq. split; [intros [[-> ->] ->]; reflexivity|intro E; injection E; auto]. Qed.

Lemma filter_block {A B} (p : B -> bool) (f : A -> list B) (x : A) : forall l, NoDup l -> (forall y, In y l -> y <> x -> filter p (f y) = []) ->
  In x l -> filter p (concat (map f l)) = filter p (f x).
Proof.
  induction l as [|y l IH]; intros N H I; [destruct I|]. inversion N as [|? ? N1 N2]; subst. cbn. rewrite filter_app. destruct I as [->|I].
  - assert (filter p (concat (map f l)) = []) as ->; [|apply app_nil_r].
    assert (forall z, In z l -> filter p (f z) = []) as K by (intros z Z; apply H; [right; exact Z|intros ->; contradiction]).
    clear - K. induction l as [|z l IH]; [reflexivity|]. cbn. rewrite filter_app, (K z (or_introl eq_refl)). apply IH. intros u U. apply K. right. exact U.
  - rewrite (H y (or_introl eq_refl)); [|intros ->; contradiction]. apply IH; [exact N2|intros z Z; apply H; right; exact Z|exact I].
Qed.
Lemma filter_none {A B} (p : B -> bool) (f : A -> list B) : forall l, (forall y, In y l -> filter p (f y) = []) -> filter p (concat (map f l)) = [].
Proof. induction l as [|y l IH]; intro H; [reflexivity|]. cbn. rewrite filter_app, (H y (or_introl eq_refl)). apply IH. intros z Z. apply H. right. exact Z. Qed.

(* ---- decisions on one node ---- *)
Section Node.
Variables (n : mnode) (OK : node_ok n).

Lemma attrs_total k : In k (m_weights n) -> exists ws, mapM (attr_of k) (m_cands n) = Ok ws /\ Forall2 (fun c x => sget k (c_ws c) = Some x) (m_cands n) ws.
Proof.
  intro K. pose proof (no_weights_cfg _ OK) as H. assert (forall c, In c (m_cands n) -> exists x, sget k (c_ws c) = Some x) as H' by (intros c C; apply (H c k C K)). clear H. induction (m_cands n) as [|c l IH]; [exists []; split; [reflexivity|constructor]|].
  destruct (H' c (or_introl eq_refl)) as [x E]. destruct IH as (ws & E1 & F); [intros d D; apply H'; right; exact D|]. exists (x :: ws). split; [|constructor; assumption]. cbn. unfold attr_of at 1. rewrite E. cbn. rewrite E1. reflexivity.
Qed.
Lemma conf_weight_total k : In k (m_weights n) -> exists b, conf_weight n k = Ok b /\ (b = true <-> w_choice n k).
Proof.
  intro K. destruct (attrs_total k K) as (ws & E & F). unfold conf_weight, weight_enabled. rewrite E. cbn.
  assert (forall c, In c (m_cands n) -> exists x, In x ws /\ sget k (c_ws c) = Some x) as F1.
  { clear - F. induction F as [|c x l ws H F IH]; [intros c []|]. intros d [<-|D]; [exists x; split; [left; reflexivity|exact H]|]. destruct (IH d D) as (y & Y & G). exists y. split; [right; exact Y|exact G]. }
  assert (forall x, In x ws -> exists c, In c (m_cands n) /\ sget k (c_ws c) = Some x) as F2.
  { clear - F. induction F as [|c x l ws H F IH]; [intros c []|]. intros d [<-|D]; [exists c; split; [left; reflexivity|exact H]|]. destruct (IH d D) as (y & Y & G). exists y. split; [right; exact Y|exact G]. }
  destruct (forallb w_on ws) eqn:W.
  - eexists. split; [reflexivity|]. rewrite forallb_forall in W. destruct ws as [|w r].
    + split; [discriminate|]. intros [_ (c & d & C & _)]. destruct (F1 c C) as (x & [] & _).
    + rewrite negb_true_iff, forallb_false. split.
      * intros (x & X & D). split.
        -- intros c C. destruct (F1 c C) as (y & Y & G). exists y. split; [exact G|apply W, Y].
        -- destruct (F2 w (or_introl eq_refl)) as (c & C & G). destruct (F2 x (or_intror X)) as (d & D' & G'). exists c, d. split; [exact C|]. split; [exact D'|]. rewrite G, G'. intro Q. injection Q as ->. rewrite (proj2 (wattr_eqb_spec x x) eq_refl) in D. discriminate.
      * intros [_ (c & d & C & D & N)]. destruct (F1 c C) as (x & X & G). destruct (F1 d D) as (y & Y & G'). rewrite G, G' in N.
        assert (forall z, In z (w :: r) -> wattr_eqb z w = true \/ In z r) as Q by (intros z [<-|Z]; [left; apply wattr_eqb_spec; reflexivity|right; exact Z]).
        destruct (wattr_eqb x w) eqn:Ex; [|destruct (Q x X) as [Q'|Q']; [congruence|exists x; split; assumption]]. destruct (wattr_eqb y w) eqn:Ey; [|destruct (Q y Y) as [Q'|Q']; [congruence|exists y; split; assumption]].
        apply wattr_eqb_spec in Ex, Ey. subst. congruence.
  - exists false. split; [reflexivity|]. split; [discriminate|]. intros [A _]. apply forallb_false in W. destruct W as (x & X & W). destruct (F2 x X) as (c & C & G). destruct (A c C) as (y & G' & O). rewrite G in G'. injection G' as ->. congruence.
Qed.
Lemma act_total : exists b, act_enabled n = Ok b /\ (b = true <-> forall c, In c (m_cands n) -> a_mode (c_act c) = AQuant).
Proof.
  unfold act_enabled. pose proof (no_some _ OK) as S. pose proof (no_modes _ OK) as M. destruct (m_cands n) as [|c r] eqn:E; [congruence|].
  assert (forallb (fun d => amode_eqb (a_mode (c_act d)) (a_mode (c_act c))) r = true) as ->. { apply forallb_forall. intros d D. apply amode_eqb_spec, M; [right; exact D|left; reflexivity]. }
  eexists. split; [reflexivity|]. rewrite amode_eqb_spec. split; [intros H d D; rewrite <- H; apply M; [exact D|left; reflexivity]|intro H; apply H; left; reflexivity].
Qed.
Lemma conf_act_total : exists b, conf_act n = Ok b /\ (b = true <-> a_choice n).
Proof.
  destruct act_total as (e & E & EI). unfold conf_act. rewrite E. cbn. destruct e.
  - pose proof (no_some _ OK) as S. unfold a_choice. destruct (m_cands n) as [|c r] eqn:Q; [congruence|]. eexists. split; [reflexivity|]. rewrite negb_true_iff, forallb_false. split.
    + intros (d & D & N). split; [apply EI; reflexivity|]. exists c, d. split; [left; reflexivity|]. split; [exact D|]. intro X. rewrite X in N. rewrite (proj2 (acfg_eqb_spec _ _) eq_refl) in N. discriminate.
    + intros [_ (x & y & X & Y & N)]. destruct (acfg_eqb (c_act x) (c_act c)) eqn:Ex; [|exists x; split; assumption]. destruct (acfg_eqb (c_act y) (c_act c)) eqn:Ey; [|exists y; split; assumption]. apply acfg_eqb_spec in Ex, Ey. congruence.
  - exists false. split; [reflexivity|]. split; [discriminate|]. intros [A _]. apply EI in A. discriminate.
Qed.
Lemma any_total : exists b, any_weight n (m_weights n) = Ok b /\ (b = true <-> exists k, In k (m_weights n) /\ w_choice n k).
Proof.
  assert (forall ks, incl ks (m_weights n) -> exists b, any_weight n ks = Ok b /\ (b = true <-> exists k, In k ks /\ w_choice n k)) as H; [|apply H, incl_refl].
  induction ks as [|k ks IH]; intro I; [exists false; split; [reflexivity|split; [discriminate|intros (? & [] & _)]]|].
  destruct (conf_weight_total k (I k (or_introl eq_refl))) as (b & E & EI). cbn. rewrite E. cbn. destruct b.
  - exists true. split; [reflexivity|]. split; [intros _; exists k; split; [left; reflexivity|apply EI; reflexivity]|reflexivity].
  - destruct IH as (b & E' & EI'); [intros x X; apply I; right; exact X|]. exists b. split; [exact E'|]. rewrite EI'. split; [intros (x & X & C); exists x; split; [right; exact X|exact C]|]. intros (x & [<-|X] & C); [apply EI in C; discriminate|exists x; auto].
Qed.
End Node.

(* ---- the decisions as booleans ---- *)
Definition okb (r : result bool) : bool := match r with Ok b => b | Err _ => false end.
Definition cwb (n : mnode) : bool := okb (any_weight n (m_weights n)).
Definition cab (da : bool) (n : mnode) : bool := negb da && okb (conf_act n).
Definition tr (cw ca : bool) (c : cand) : cand := (if cw then (fun x => x) else no_weights) ((if ca then (fun x => x) else no_act) c).
Definition eval_of (da : bool) (n : mnode) : mnode := with_cands n (map (tr (cwb n) (cab da n)) (m_cands n)).

Lemma no_act_ok n : node_ok n -> node_ok (with_cands n (map no_act (m_cands n))).
Proof.
  intros [A B C D E F]. constructor; cbn.
  - intro Q. apply map_eq_nil in Q. contradiction.
  - intros c d Ic Id. apply in_map_iff in Ic, Id. destruct Ic as (c' & <- & Ic), Id as (d' & <- & Id). cbn. apply B; assumption.
  - intros c k Ic K. apply in_map_iff in Ic. destruct Ic as (c' & <- & Ic). cbn. apply C; assumption.
  - exact D.
  - intros c d Ic Id. apply in_map_iff in Ic, Id. destruct Ic as (c' & <- & Ic), Id as (d' & <- & Id). reflexivity.
  - intros k K [W1 (c & d & Ic & Id & N)]. apply F; [exact K|]. cbn in *. apply in_map_iff in Ic, Id. destruct Ic as (c' & <- & Ic), Id as (d' & <- & Id). split; [|exists c', d'; repeat split; assumption]. intros x X. apply (W1 (no_act x)), in_map, X.
Qed.
Lemma any_no_act n : okb (any_weight (with_cands n (map no_act (m_cands n))) (m_weights n)) = cwb n.
Proof.
  unfold cwb. assert (forall ks, any_weight (with_cands n (map no_act (m_cands n))) ks = any_weight n ks) as H; [|rewrite H; reflexivity].
  induction ks as [|k ks IH]; [reflexivity|]. cbn. assert (conf_weight (with_cands n (map no_act (m_cands n))) k = conf_weight n k) as ->; [|destruct (conf_weight n k) as [[]|]; cbn; auto].
  assert (mapM (attr_of k) (map no_act (m_cands n)) = mapM (attr_of k) (m_cands n)) as Q. { clear. induction (m_cands n) as [|c l IHl]; [reflexivity|]. cbn. rewrite IHl. reflexivity. }
  unfold conf_weight, weight_enabled. cbn. rewrite Q. reflexivity.
Qed.
Lemma evaluation_total da n : node_ok n -> evaluation_node da n = Ok (eval_of da n).
Proof.
  intro OK. destruct (conf_act_total n OK) as (ca & Ea & _). unfold evaluation_node, eval_of, cab. rewrite Ea. cbn [okb].
  set (n1 := with_cands n (map no_act (m_cands n))).
  assert (forall b : bool, exists cw, any_weight (if b then n else n1) (m_weights n) = Ok cw /\ cw = cwb n) as ANY.
  { intros []; [destruct (any_total n OK) as (cw & E & _); exists cw; split; [exact E|unfold cwb; rewrite E; reflexivity]|].
    destruct (any_total n1 (no_act_ok n OK)) as (cw & E & _). exists cw. split; [exact E|]. rewrite <- (any_no_act n). fold n1. cbn [m_weights with_cands n1] in E. rewrite E. reflexivity. }
  assert ((let! b := (if da then Ok false else Ok ca) in let n2 := if b then n else n1 in let! cw := any_weight n2 (m_weights n) in Ok (if cw then n2 else with_cands n2 (map no_weights (m_cands n2))))
    = Ok (with_cands n (map (tr (cwb n) (negb da && ca)) (m_cands n)))) as H; [|exact H].
  assert ((if da then Ok false else Ok ca) = Ok (negb da && ca)) as -> by (destruct da; reflexivity). cbn [bind]. destruct (ANY (negb da && ca)) as (cw & -> & ->). cbn [bind]. f_equal.
  destruct (negb da && ca), (cwb n); unfold tr, n1; cbn [with_cands m_cands m_id m_name m_reuse m_owner m_func m_weights m_kernel m_outs].
  - rewrite map_id. destruct n; reflexivity.
  - reflexivity.
  - reflexivity.
  - unfold with_cands. cbn. f_equal. rewrite map_map. reflexivity.
Qed.
Lemma cwb_spec n : node_ok n -> (cwb n = true <-> exists k, m_kernel n = Some k /\ w_choice n k).
Proof.
  intro OK. unfold cwb. destruct (any_total n OK) as (b & -> & I). cbn. rewrite I. split.
  - intros (k & K & W). exists k. split; [apply (no_only _ OK k K W)|exact W].
  - intros (k & K & W). exists k. split; [apply (no_kernel _ OK k K)|exact W].
Qed.
Lemma cab_spec da n : node_ok n -> (cab da n = true <-> a_choice n /\ da = false).
Proof. intro OK. unfold cab. destruct (conf_act_total n OK) as (b & -> & I). cbn. rewrite andb_true_iff, negb_true_iff, I. tauto. Qed.

(* ---- the node of the evaluation graph ---- *)
Lemma tr_act cw ca c : c_act (tr cw ca c) = if ca then c_act c else AC (a_bits (c_act c)) ANoQuant (a_rest (c_act c)).
Proof. destruct cw, ca; reflexivity. Qed.
Lemma tr_ws_get cw ca c k : sget k (c_ws (tr cw ca c)) = if cw then sget k (c_ws c) else option_map (fun x => WA (w_bits x) false (w_rest x)) (sget k (c_ws c)).
Proof. destruct cw, ca; cbn; try reflexivity; rewrite <- sget_map; reflexivity. Qed.
Lemma tr_bits cw ca c : bits (tr cw ca c) = bits c.
Proof. destruct cw, ca; cbn; try reflexivity; unfold bits; cbn; f_equal; rewrite map_map; reflexivity. Qed.
Lemma tr_names cw ca c : map fst (c_ws (tr cw ca c)) = map fst (c_ws c).
Proof. destruct cw, ca; cbn; try reflexivity; rewrite map_map; reflexivity. Qed.
Lemma tr_more k cw ca c d : more_bits k c d -> more_bits k (tr cw ca c) (tr cw ca d).
Proof.
  destruct k as [k|]; cbn.
  - intros (x & y & X & Y & L). rewrite !tr_ws_get, X, Y. assert (forall e, a_bits (c_act (tr cw ca e)) = a_bits (c_act e)) as -> by (intro e; rewrite tr_act; destruct ca; reflexivity).
    assert (a_bits (c_act (tr cw ca c)) = a_bits (c_act c)) as -> by (rewrite tr_act; destruct ca; reflexivity).
    destruct cw; [exists x, y; auto|]. eexists _, _. split; [reflexivity|]. split; [reflexivity|]. exact L.
  - rewrite !tr_act. destruct ca; auto.
Qed.

Arguments tr : simpl never.

Section Eval.
Variables (da : bool) (n : mnode) (OK : node_ok n).
Let n' := eval_of da n.
Lemma eval_attrs k : In k (m_weights n) -> exists ws, mapM (attr_of k) (m_cands n') = Ok ws /\ Forall2 (fun c x => sget k (c_ws c) = Some x) (m_cands n') ws.
Proof.
  intro K. cbn. assert (forall c, In c (m_cands n) -> exists x, sget k (c_ws (tr (cwb n) (cab da n) c)) = Some x) as H.
  { intros c C. destruct (no_weights_cfg _ OK c k C K) as [x E]. rewrite tr_ws_get, E. destruct (cwb n); eexists; reflexivity. }
  induction (m_cands n) as [|c l IH]; [exists []; split; [reflexivity|constructor]|]. destruct (H c (or_introl eq_refl)) as [x E]. destruct IH as (ws & E1 & F); [intros d D; apply H; right; exact D|]. exists (x :: ws). split; [|constructor; assumption]. cbn. unfold attr_of at 1. rewrite E. cbn. rewrite E1. reflexivity.
Qed.
Lemma eval_weight k : m_kernel n = Some k -> weight_enabled n' k = Ok (cwb n) /\ conf_weight n' k = Ok (cwb n).
Proof.
  intro K. pose proof (no_kernel _ OK k K) as KW. destruct (cwb n) eqn:CW.
  - destruct (proj1 (cwb_spec n OK) CW) as (k' & K' & W). rewrite K in K'. injection K' as <-.
    assert (mapM (attr_of k) (m_cands n') = mapM (attr_of k) (m_cands n)) as Q.
    { unfold n', eval_of. cbn [m_cands with_cands]. rewrite CW. clear. induction (m_cands n) as [|c l IH]; [reflexivity|]. cbn [map mapM]. rewrite IH. assert (attr_of k (tr true (cab da n) c) = attr_of k c) as -> by (unfold attr_of; rewrite (tr_ws_get true); reflexivity). reflexivity. }
    destruct (conf_weight_total n OK k KW) as (b & E & I). rewrite (proj2 I W) in E.
    assert (weight_enabled n' k = weight_enabled n k) as -> by (unfold weight_enabled; rewrite Q; reflexivity).
    assert (conf_weight n' k = conf_weight n k) as -> by (unfold conf_weight, weight_enabled; rewrite Q; reflexivity).
    split; [|exact E]. unfold conf_weight in E. destruct (weight_enabled n k) as [[]|]; cbn in E; try discriminate. reflexivity.
  - destruct (eval_attrs k KW) as (ws & E & F). assert (weight_enabled n' k = Ok false) as W.
    { unfold weight_enabled. rewrite E. cbn. f_equal. pose proof (no_some _ OK) as S. unfold n', eval_of in F. cbn in F. rewrite CW in F. destruct (m_cands n) as [|c l]; [congruence|]. cbn [map] in F. inversion F as [|? x ? ws' Q _]; subst. rewrite (tr_ws_get false) in Q. cbn. destruct (sget k (c_ws c)); [|discriminate]. injection Q as <-. reflexivity. }
    split; [exact W|]. unfold conf_weight. rewrite W. reflexivity.
Qed.
Lemma eval_act : act_enabled n' = Ok (cab da n) /\ conf_act n' = Ok (cab da n).
Proof.
  pose proof (no_some _ OK) as S. destruct (cab da n) eqn:CA.
  - destruct (proj1 (cab_spec da n OK) CA) as [AC D]. destruct (conf_act_total n OK) as (b & E & I). rewrite (proj2 I AC) in E.
    assert (act_enabled n' = act_enabled n) as Q1.
    { unfold act_enabled, n', eval_of. cbn. rewrite CA. destruct (m_cands n) as [|c r]; [reflexivity|]. cbn [map]. rewrite !tr_act.
      assert (forallb (fun d => amode_eqb (a_mode (c_act d)) (a_mode (c_act c))) (map (tr (cwb n) true) r) = forallb (fun d => amode_eqb (a_mode (c_act d)) (a_mode (c_act c))) r) as ->; [|reflexivity].
      clear. induction r as [|d r IH]; [reflexivity|]. cbn. rewrite IH, tr_act. reflexivity. }
    assert (conf_act n' = conf_act n) as Q2.
    { unfold conf_act. rewrite Q1. unfold n', eval_of. cbn. rewrite CA. destruct (act_enabled n) as [[]|]; cbn [bind]; [|reflexivity|reflexivity]. destruct (m_cands n) as [|c r]; [reflexivity|]. cbn [map]. rewrite tr_act. do 2 f_equal.
      change (tr (cwb n) true c :: map (tr (cwb n) true) r) with (map (tr (cwb n) true) (c :: r)). generalize (c :: r). intro l. induction l as [|d l IH]; [reflexivity|]. cbn [map forallb]. rewrite IH, tr_act. reflexivity. }
    rewrite Q1, Q2. split; [|exact E]. unfold conf_act in E. destruct (act_enabled n) as [[]|]; cbn in E; try discriminate. reflexivity.
  - assert (act_enabled n' = Ok false) as W.
    { unfold act_enabled, n', eval_of. cbn. rewrite CA. destruct (m_cands n) as [|c r]; [congruence|]. cbn [map]. rewrite (tr_act _ false). cbn.
      assert (forallb (fun d => amode_eqb (a_mode (c_act d)) ANoQuant) (map (tr (cwb n) false) r) = true) as ->; [|reflexivity].
      apply forallb_forall. intros d D. apply in_map_iff in D. destruct D as (e & <- & _). rewrite tr_act. reflexivity. }
    split; [exact W|]. unfold conf_act. rewrite W. reflexivity.
Qed.
End Eval.

(* ---- sorting, order, maximum ---- *)
Lemma key_more k c d : more_bits k c d -> exists x y, key_of k c = Ok x /\ key_of k d = Ok y /\ key_lt y x = true.
Proof.
  destruct k as [k|]; cbn.
  - intros (x & y & X & Y & L). unfold attr_of. rewrite X, Y. cbn. eexists _, _. split; [reflexivity|]. split; [reflexivity|]. unfold key_lt. cbn. destruct L as [L|[E L]]; [rewrite (proj2 (Z.ltb_lt _ _) L); reflexivity|]. rewrite E, Z.eqb_refl, (proj2 (Z.ltb_lt _ _) L). apply orb_true_r.
  - intro L. eexists _, _. split; [reflexivity|]. split; [reflexivity|]. unfold key_lt. cbn. apply Z.ltb_lt, L.
Qed.
Lemma key_lt_asym x y : key_lt y x = true -> key_lt x y = false.
Proof. unfold key_lt. intro H. apply orb_true_iff in H. apply orb_false_iff. rewrite andb_true_iff, !Z.ltb_lt, Z.eqb_eq in H. split; [apply Z.ltb_ge; lia|]. destruct (Z.eqb_spec (fst x) (fst y)); cbn; [apply Z.ltb_ge; lia|reflexivity]. Qed.
Definition keyed (k : option string) (cs : list cand) : Prop := forall c, In c cs -> exists x, key_of k c = Ok x.
Lemma keys_ok k cs : keyed k cs -> StronglySorted (more_bits k) cs -> exists ks, mapM (key_of k) cs = Ok ks /\ mapM (fun c => let! x := key_of k c in Ok (x, c)) cs = Ok (combine ks cs) /\
  length ks = length cs /\ StronglySorted (fun x y => key_lt y x = true) ks.
Proof.
  intros K S. induction S as [|c cs S IH F]; [exists []; repeat split; constructor|].
  destruct (K c (or_introl eq_refl)) as [x E]. destruct IH as (ks & E1 & E2 & L & S'); [intros d D; apply K; right; exact D|]. exists (x :: ks). cbn. rewrite E. cbn. rewrite E1, E2. cbn. split; [reflexivity|]. split; [reflexivity|]. split; [congruence|]. constructor; [exact S'|].
  clear - E E1 F. revert ks E1. induction F as [|d cs H F IH]; intros ks E1; cbn in E1; [injection E1 as <-; constructor|].
  destruct (key_more k c d H) as (x' & y & X & Y & L). rewrite E in X. injection X as <-. rewrite Y in E1. cbn in E1. destruct (mapM (key_of k) cs) as [l|]; cbn in E1; [|discriminate]. injection E1 as <-. constructor; [exact L|apply IH; reflexivity].
Qed.
Lemma sort_id k cs : keyed k cs -> StronglySorted (more_bits k) cs -> sort_cands k cs = Ok cs /\ verify_order k cs = Ok tt.
Proof.
  intros K S. destruct (keys_ok k cs K S) as (ks & E1 & E2 & L & S'). split.
  - unfold sort_cands. rewrite E2. cbn. f_equal. assert (fold_right insert_desc [] (combine ks cs) = combine ks cs) as ->.
    { clear - L S'. revert cs L. induction S' as [|x ks S IH F]; intros [|c cs] L; try discriminate; [reflexivity|]. cbn. rewrite IH by (cbn in L; congruence). destruct F as [|y ks H F]; [destruct cs; reflexivity|]. destruct cs as [|d cs]; [discriminate|]. cbn. rewrite (key_lt_asym _ _ H). reflexivity. }
    clear - L. revert cs L. induction ks as [|x ks IH]; intros [|c cs] L; try discriminate; [reflexivity|]. cbn. f_equal. apply IH. cbn in L. congruence.
  - unfold verify_order. rewrite E1. cbn. assert (descending ks = true) as ->; [|reflexivity]. clear - S'. induction S' as [|x ks S IH F]; [reflexivity|]. cbn. destruct ks as [|y ks]; [reflexivity|]. inversion F; subst. rewrite H1. exact IH.
Qed.

Lemma row_eqb_spec a b : row_eqb a b = true <-> a = b.
Proof. revert b. induction a as [|x a IH]; intros [|y b]; cbn; try (split; congruence). rewrite andb_true_iff, Z.eqb_eq, IH. split; [intros [-> ->]; reflexivity|intro E; injection E; auto]. Qed.
Lemma row_le_lt a b : Forall2 Z.le a b -> row_lt b a = false.
Proof. induction 1 as [|x y a b H _ IH]; [reflexivity|]. cbn. rewrite IH, andb_false_r, orb_false_r. apply Z.ltb_ge, H. Qed.
Lemma row_le_neq a b : Forall2 Z.le a b -> a <> b -> row_lt a b = true.
Proof.
  induction 1 as [|x y a b H F IH]; intro N; [congruence|]. cbn. destruct (Z.ltb_spec x y) as [L|L]; [reflexivity|]. assert (x = y) as -> by lia. rewrite Z.eqb_refl. apply IH. congruence.
Qed.
Lemma exceeds_le a b : Forall2 Z.le a b -> exceeds a b = false.
Proof. unfold exceeds. induction 1 as [|x y a b H _ IH]; [reflexivity|]. cbn. rewrite IH, orb_false_r. apply Z.ltb_ge, H. Qed.
Lemma max_row best : forall rs r, (r = best \/ In best rs) -> Forall2 Z.le r best -> (forall x, In x rs -> Forall2 Z.le x best) -> fold_left (fun m x => if row_lt m x then x else m) rs r = best.
Proof.
  induction rs as [|x rs IH]; intros r I R A; cbn; [destruct I as [->|[]]; reflexivity|].
  assert (Forall2 Z.le x best) as X by (apply A; left; reflexivity). apply IH.
  - destruct (row_eqb r best) eqn:E.
    + apply row_eqb_spec in E. subst r. rewrite (row_le_lt _ _ X). left. reflexivity.
    + destruct I as [->|[->|I]]; [rewrite (proj2 (row_eqb_spec _ _) eq_refl) in E; discriminate| |right; exact I]. rewrite (row_le_neq _ _ R); [left; reflexivity|intros ->; rewrite (proj2 (row_eqb_spec _ _) eq_refl) in E; discriminate].
  - destruct (row_lt r x); assumption.
  - intros y Y. apply A. right. exact Y.
Qed.
Lemma index_one best : forall rs s, NoDup rs -> In best rs -> exists i, index_of (fun x => row_eqb best x) rs s = [i].
Proof.
  assert (forall rs s, ~ In best rs -> index_of (fun x => row_eqb best x) rs s = []) as Z0.
  { induction rs as [|x rs IH]; intros s N; [reflexivity|]. cbn. destruct (row_eqb best x) eqn:E; [apply row_eqb_spec in E; subst; exfalso; apply N; left; reflexivity|]. apply IH. intro I. apply N. right. exact I. }
  induction rs as [|x rs IH]; intros s N I; [destruct I|]. inversion N as [|? ? N1 N2]; subst. cbn. destruct (row_eqb best x) eqn:E.
  - apply row_eqb_spec in E. subst x. rewrite Z0 by exact N1. exists s. reflexivity.
  - destruct I as [->|I]; [rewrite (proj2 (row_eqb_spec _ _) eq_refl) in E; discriminate|]. apply IH; assumption.
Qed.
Lemma max_index_ok cs b : In b cs -> (forall c, In c cs -> Forall2 Z.le (bits c) (bits b)) -> NoDup (map bits cs) -> exists i, max_index cs = Ok i.
Proof.
  intros B A N. unfold max_index. change row with bits. destruct (map bits cs) as [|r rs] eqn:E; [apply map_eq_nil in E; subst; destruct B|].
  assert (forall x, In x (r :: rs) -> Forall2 Z.le x (bits b)) as A'. { intros x X. rewrite <- E in X. apply in_map_iff in X. destruct X as (c & <- & C). apply A, C. }
  assert (In (bits b) (r :: rs)) as B'. { rewrite <- E. apply in_map, B. }
  rewrite (max_row (bits b)); [|destruct B' as [->|B']; auto|apply A'; left; reflexivity|intros x X; apply A'; right; exact X].
  destruct (index_one (bits b) (r :: rs) 0 N B') as [i ->].
  assert (existsb (fun nb => exceeds nb (bits b)) (r :: rs) = false) as ->; [|exists i; reflexivity].
  destruct (existsb _ _) eqn:X; [|reflexivity]. apply existsb_exists in X. destruct X as (x & I & X). rewrite (exceeds_le _ _ (A' x I)) in X. discriminate.
Qed.
Lemma bits_more k c d : map fst (c_ws c) = map fst (c_ws d) -> bits c = bits d -> ~ more_bits k c d.
Proof.
  intros N B. injection B as B1 B2. destruct k as [k|]; cbn; [|lia]. intros (x & y & X & Y & L).
  assert (w_bits x = w_bits y) as E; [|lia]. revert X Y. clear L B1. generalize dependent (c_ws d). induction (c_ws c) as [|[k1 x1] l IH]; intros [|[k2 x2] m] N B2; try discriminate. cbn in *. injection N as -> N. injection B2 as B B2. destruct (String.eqb k k2); [intros E1 E2; injection E1 as <-; injection E2 as <-; exact B|apply IH; assumption].
Qed.
Lemma bits_nodup k cs : (forall c d, In c cs -> In d cs -> map fst (c_ws c) = map fst (c_ws d)) -> StronglySorted (more_bits k) cs -> NoDup (map bits cs).
Proof.
  intros N S. induction S as [|c cs S IH F]; [constructor|]. cbn. constructor; [|apply IH; intros x y X Y; apply N; right; assumption].
  intro I. apply in_map_iff in I. destruct I as (d & E & D). rewrite Forall_forall in F. apply (bits_more k c d); [apply N; [left; reflexivity|right; exact D]|symmetry; exact E|apply F, D].
Qed.

(* ---- the quantizers of a node with a choice ---- *)
Section Quantizers.
Variables (da : bool) (n : mnode) (OK : node_ok n).
Hypothesis CH : cwb n = true \/ cab da n = true -> choice_ok n.
Hypothesis OUT : cab da n = true -> m_outs n = None \/ m_outs n = Some 1%nat.
Definition cands_of : list cand := m_cands (eval_of da n).
Lemma cands_sorted : cwb n = true \/ cab da n = true -> sort_cands (m_kernel n) cands_of = Ok cands_of /\ verify_order (m_kernel n) cands_of = Ok tt /\ exists i, max_index cands_of = Ok i.
Proof using OK CH.
  intro C. destruct (CH C) as [SO (b & B & BB)]. assert (StronglySorted (more_bits (m_kernel n)) cands_of) as S1.
  { unfold cands_of, eval_of. cbn. clear - SO. induction SO as [|c l S IH F]; [constructor|]. cbn. constructor; [exact IH|]. rewrite Forall_forall in *. intros x X. apply in_map_iff in X. destruct X as (d & <- & D). apply tr_more, F, D. }
  assert (keyed (m_kernel n) cands_of) as K.
  { intros c I. unfold cands_of, eval_of in I. cbn in I. apply in_map_iff in I. destruct I as (d & <- & D). destruct (m_kernel n) as [k|] eqn:Q; [|eexists; reflexivity]. destruct (no_weights_cfg _ OK d k D (no_kernel _ OK k Q)) as [x E]. cbn. unfold attr_of. rewrite tr_ws_get, E. destruct (cwb n); eexists; reflexivity. }
  destruct (sort_id _ _ K S1) as [E1 E2]. split; [exact E1|]. split; [exact E2|]. apply (max_index_ok _ (tr (cwb n) (cab da n) b)).
  - unfold cands_of, eval_of. cbn. apply in_map, B.
  - intros c I. unfold cands_of, eval_of in I. cbn in I. apply in_map_iff in I. destruct I as (d & <- & D). rewrite !tr_bits. apply BB, D.
  - apply (bits_nodup (m_kernel n)); [|exact S1]. intros c d Ic Id. unfold cands_of, eval_of in Ic, Id. cbn in Ic, Id. apply in_map_iff in Ic, Id. destruct Ic as (c' & <- & Ic), Id as (d' & <- & Id). rewrite !tr_names. apply (no_same _ OK); assumption.
Qed.
Definition top_of : Z := match max_index cands_of with Ok i => i | Err _ => 0 end.
Definition op_m : modl := if cwb n then MWrap (2 * m_id n) cands_of top_of else MPlain (2 * m_id n).
Definition hold_m : list modl := if cab da n then [MHold (2 * m_id n + 1) cands_of top_of] else [].
Lemma op_ok : op_of (eval_of da n) = Ok op_m.
Proof using OK CH.
  pose proof cands_sorted as CS. unfold op_of, op_m. cbn [m_kernel eval_of with_cands m_id]. destruct (m_kernel n) as [k|] eqn:Q.
  - destruct (eval_weight da n OK k Q) as [-> ->]. cbn [bind]. destruct (cwb n) eqn:CW; cbn [negb bind]; [|reflexivity].
    destruct (CS (or_introl eq_refl)) as (E1 & E2 & i & E3). try rewrite Q in E1, E2. unfold cands_of in E1, E2, E3. rewrite E1. cbn [bind]. rewrite E3. cbn [bind]. rewrite E2. cbn [bind].
    destruct (eval_attrs da n OK k (no_kernel _ OK k Q)) as (ws & E & F). rewrite E. cbn [bind]. unfold top_of, cands_of. rewrite E3.
    destruct ws as [|w r]; [reflexivity|]. assert (forall x, In x (w :: r) -> w_on x = true) as W.
    { pose proof (proj1 (eval_weight da n OK k Q)) as G. rewrite CW in G. unfold weight_enabled in G. rewrite E in G. cbn [bind] in G. injection G as G. rewrite <- (forallb_forall w_on (w :: r)). exact G. }
    assert (forallb (fun x => Bool.eqb (w_on x) (w_on w)) r = true) as ->; [|reflexivity]. apply forallb_forall. intros x X. rewrite (W x (or_intror X)), (W w (or_introl eq_refl)). reflexivity.
  - destruct (cwb n) eqn:CW; [|reflexivity]. destruct (proj1 (cwb_spec n OK) CW) as (k & K & _). congruence.
Qed.
Lemma hold_ok : hold (eval_of da n) = Ok (match hold_m with h :: _ => Some h | [] => None end).
Proof using OK CH OUT.
  pose proof cands_sorted as CS. pose proof OUT as OUT'. unfold hold, hold_m. destruct (eval_act da n OK) as [E1 E2]. rewrite E1. cbn [bind]. destruct (cab da n) eqn:CA; [|reflexivity]. unfold holder_of. rewrite E2. cbn [bind negb].
  destruct (CS (or_intror eq_refl)) as (S1 & S2 & i & S3). unfold cands_of in *. cbn [m_kernel eval_of with_cands m_id m_outs] in *. rewrite S1. cbn [bind]. unfold top_of, cands_of. rewrite S3. cbn [bind]. rewrite S2. cbn [bind].
  assert (m_cands (eval_of da n) = map (tr (cwb n) (cab da n)) (m_cands n)) as -> by reflexivity. pose proof (no_some _ OK) as NS. pose proof (no_modes _ OK) as NM. destruct (m_cands n) as [|c r] eqn:Q; [congruence|]. cbn [map].
  match goal with |- context [forallb ?p ?l] => assert (forallb p l = true) as -> end.
  { apply forallb_forall. intros x X. apply in_map_iff in X. destruct X as (d & <- & D). apply amode_eqb_spec. rewrite !tr_act, CA. apply NM; [right; exact D|left; reflexivity]. }
  destruct (OUT' eq_refl) as [-> | ->]; cbn [bind]; reflexivity.
Qed.
End Quantizers.

Definition wsw (n : mnode) : bool := cwb n && negb (m_reuse n).
Lemma configurable_eval da n : node_ok n -> configurable (eval_of da n) = Ok (wsw n || cab da n).
Proof.
  intro OK. unfold configurable. rewrite (proj2 (eval_act da n OK)). cbn [m_kernel eval_of with_cands m_reuse]. unfold wsw. destruct (m_kernel n) as [k|] eqn:K.
  - rewrite (proj2 (eval_weight da n OK k K)). reflexivity.
  - assert (cwb n = false) as ->; [|reflexivity]. destruct (cwb n) eqn:C; [|reflexivity]. destruct (proj1 (cwb_spec n OK) C) as (k & K' & _). congruence.
Qed.
Lemma layers_eval da n ws acts : node_ok n -> wsw n || cab da n = true -> layers_of (eval_of da n) ws acts = Ok ((if cwb n then ws else []) ++ (if cab da n then acts else [])).
Proof.
  intros OK C. unfold layers_of. rewrite (proj1 (eval_act da n OK)). cbn [m_kernel eval_of with_cands]. 
  assert (match m_kernel n with Some k => weight_enabled (eval_of da n) k | None => Ok false end = Ok (cwb n)) as ->.
  { destruct (m_kernel n) as [k|] eqn:K; [apply (eval_weight da n OK k K)|]. destruct (cwb n) eqn:D; [|reflexivity]. destruct (proj1 (cwb_spec n OK) D) as (k & K' & _). congruence. }
  cbn [bind]. unfold wsw in C. destruct (cwb n), (cab da n); cbn in *; try rewrite app_nil_r; try reflexivity. discriminate.
Qed.

(* ---- from the layers that are switched to what requests do ---- *)
Section Serve.
Variables (da : bool) (g : list mnode) (G : graph_ok da g).
Definition lay (n : mnode) : list qlayer :=
  (if wsw n then [QL QWt (2 * m_id n) (Z.of_nat (length (m_cands n)))] else []) ++
  (if cab da n then [QL QAct (2 * m_id n + 1) (Z.of_nat (length (m_cands n)))] else []).
Definition conf_list : list (string * list qlayer) := map (fun n => (m_name n, lay n)) (filter (fun n => wsw n || cab da n) g).

Lemma name_inj n f : In n g -> In f g -> m_name n = m_name f -> n = f.
Proof using G.
  intros I J E. pose proof (go_names _ _ G) as N. clear G. induction g as [|x l IH]; [destruct I|]. cbn in N. inversion N as [|? ? N1 N2]; subst. destruct I as [<-|I], J as [<-|J]; auto; [exfalso; apply N1; rewrite E; apply in_map, J|exfalso; apply N1; rewrite <- E; apply in_map, I].
Qed.
Lemma id_inj n f : In n g -> In f g -> m_id n = m_id f -> n = f.
Proof using G.
  intros I J E. pose proof (go_ids _ _ G) as N. clear G. induction g as [|x l IH]; [destruct I|]. cbn in N. inversion N as [|? ? N1 N2]; subst. destruct I as [<-|I], J as [<-|J]; auto; [exfalso; apply N1; rewrite E; apply in_map, J|exfalso; apply N1; rewrite <- E; apply in_map, I].
Qed.
Lemma nodup_filter {A B} (f : A -> B) p l : NoDup (map f l) -> NoDup (map f (filter p l)).
Proof. clear G. induction l as [|x l IH]; cbn; intro N; [constructor|]. inversion N as [|? ? N1 N2]; subst. destruct (p x); cbn; auto. constructor; auto. intro I. apply N1. apply in_map_iff in I. destruct I as (y & <- & Y). apply filter_In in Y. apply in_map, Y. Qed.
Lemma conf_nodup : NoDup (skeys conf_list).
Proof using G. unfold conf_list, skeys. rewrite map_map. apply nodup_filter, (go_names _ _ G). Qed.
Lemma conf_get s ls : sget s conf_list = Some ls <-> exists n, In n g /\ m_name n = s /\ ls = lay n /\ wsw n || cab da n = true.
Proof using G.
  split.
  - intro H. apply sget_in in H. unfold conf_list in H. apply in_map_iff in H. destruct H as (n & E & I). injection E as <- <-. apply filter_In in I. exists n. tauto.
  - intros (n & I & <- & -> & C). apply in_sget; [apply conf_nodup|]. unfold conf_list. apply in_map_iff. exists n. split; [reflexivity|]. apply filter_In. auto.
Qed.
Lemma conf_proper : proper conf_list.
Proof using G.
  split; [apply conf_nodup|]. unfold conf_list. rewrite map_map. cbn [snd]. pose proof (nodup_filter m_id (fun n => wsw n || cab da n) g (go_ids _ _ G)) as N. revert N. generalize (filter (fun n => wsw n || cab da n) g). clear G. intros l N.
  induction l as [|n l IH]; [constructor|]. cbn [map concat]. rewrite map_app. inversion N as [|? ? N1 N2]; subst.
  assert (forall j, In j (map ql_id (concat (map lay l))) -> exists m, In m l /\ (j = 2 * m_id m \/ j = 2 * m_id m + 1)%nat) as Q.
  { clear. induction l as [|m l IH]; [intros j []|]. cbn [map concat]. intros j J. rewrite map_app in J. apply in_app_iff in J. destruct J as [J|J]; [|destruct (IH j J) as (x & X & E); exists x; split; [right; exact X|exact E]]. exists m. split; [left; reflexivity|]. unfold lay in J. destruct (wsw m), (cab da m); cbn in J; lia. }
  assert (forall j, In j (map ql_id (lay n)) -> (j = 2 * m_id n \/ j = 2 * m_id n + 1)%nat) as Q' by (intros j J; unfold lay in J; destruct (wsw n), (cab da n); cbn in J; lia).
  assert (NoDup (map ql_id (lay n))) as N3 by (unfold lay; destruct (wsw n), (cab da n); cbn; repeat constructor; cbn; intuition lia).
  specialize (IH N2). revert N3 Q'. generalize (map ql_id (lay n)). intros L N3 Q'. induction L as [|j L IHL]; [exact IH|]. inversion N3 as [|? ? N4 N5]; subst. cbn. constructor.
  - intro J. apply in_app_iff in J. destruct J as [J|J]; [contradiction|]. destruct (Q j J) as (m & M & E). destruct (Q' j (or_introl eq_refl)) as [E'|E']; apply N1; (assert (m_id n = m_id m) as -> by lia); apply in_map, M.
  - apply IHL; [exact N5|]. intros x X. apply Q'. right. exact X.
Qed.
Lemma lay_act n l : first_of QAct (lay n) = Some l <-> cab da n = true /\ l = QL QAct (2 * m_id n + 1) (Z.of_nat (length (m_cands n))).
Proof. unfold lay. destruct (wsw n), (cab da n); cbn; split; intuition congruence. Qed.
Lemma lay_wt n l : first_of QWt (lay n) = Some l <-> wsw n = true /\ l = QL QWt (2 * m_id n) (Z.of_nat (length (m_cands n))).
Proof. unfold lay. destruct (wsw n), (cab da n); cbn; split; intuition congruence. Qed.
Lemma asks_act a w n v : In n g -> (asks conf_list a w (2 * m_id n + 1) v <-> cab da n = true /\ sget (m_name n) a = Some v).
Proof using G.
  intro I. split.
  - intros (s & ls & l & E & K & [[F A]|[F A]]); apply conf_get in E; destruct E as (m & M & <- & -> & C).
    + apply lay_act in F. destruct F as [CA ->]. cbn in K. assert (m = n) as -> by (apply id_inj; [exact M|exact I|lia]). auto.
    + apply lay_wt in F. destruct F as [CA ->]. cbn in K. lia.
  - intros [C A]. exists (m_name n), (lay n). eexists. split; [apply conf_get; exists n; rewrite C, orb_true_r; auto|]. split; [|left; split; [apply lay_act; split; [exact C|reflexivity]|exact A]]. reflexivity.
Qed.
Lemma asks_wt a w n v : In n g -> (asks conf_list a w (2 * m_id n) v <-> wsw n = true /\ sget (m_name n) w = Some v).
Proof using G.
  intro I. split.
  - intros (s & ls & l & E & K & [[F A]|[F A]]); apply conf_get in E; destruct E as (m & M & <- & -> & C).
    + apply lay_act in F. destruct F as [CA ->]. cbn in K. lia.
    + apply lay_wt in F. destruct F as [CA ->]. cbn in K. assert (m = n) as -> by (apply id_inj; [exact M|exact I|lia]). auto.
  - intros [C A]. exists (m_name n), (lay n). eexists. split; [apply conf_get; exists n; rewrite C; auto|]. split; [|right; split; [apply lay_wt; split; [exact C|reflexivity]|exact A]]. reflexivity.
Qed.
Lemma request_act a w s v : request da g a w -> sget s a = Some v -> exists n, In n g /\ m_name n = s /\ cab da n = true /\ forall i, v = Some i -> 0 <= i < Z.of_nat (length (m_cands n)).
Proof using G.
  intros (_ & _ & A & _) E. destruct (A s v E) as (D & n & I & N & C & L). exists n. repeat split; try assumption; try apply L; auto. apply cab_spec; [apply (go_node _ _ G), I|auto].
Qed.
Lemma request_wt a w s v : request da g a w -> sget s w = Some v -> exists n, In n g /\ m_name n = s /\ wsw n = true /\ forall i, v = Some i -> 0 <= i < Z.of_nat (length (m_cands n)).
Proof using G.
  intros (_ & _ & _ & W & _) E. destruct (W s v E) as (n & k & I & N & R & K & C & L). exists n. repeat split; try assumption; try apply L; auto. unfold wsw. rewrite R. cbn. rewrite andb_true_r. apply cwb_spec; [apply (go_node _ _ G), I|exists k; auto].
Qed.
Lemma request_applicable a w : request da g a w -> applicable conf_list a w /\ some_value a || some_value w = true.
Proof using G.
  intro R. pose proof R as (NA & NW & _ & _ & s0 & i0 & SV). split; [split; [exact NA|split; [exact NW|split]]|].
  - intros s v E. destruct (request_act a w s v R E) as (n & I & <- & C & L). exists (lay n). eexists. split; [apply conf_get; exists n; rewrite C, orb_true_r; auto|]. split; [apply lay_act; split; [exact C|reflexivity]|]. destruct v as [i|]; cbn; [apply (L i eq_refl)|constructor].
  - intros s v E. destruct (request_wt a w s v R E) as (n & I & <- & C & L). exists (lay n). eexists. split; [apply conf_get; exists n; rewrite C; auto|]. split; [apply lay_wt; split; [exact C|reflexivity]|]. destruct v as [i|]; cbn; [right; apply (L i eq_refl)|constructor].
  - apply orb_true_iff. destruct SV as [E|E]; apply sget_in in E; [left|right]; apply existsb_exists; eexists; (split; [exact E|reflexivity]).
Qed.
Lemma disable_all_none conf s : exists s', disable_all conf s = Ok s' /\ (forall k, s k = None -> s' k = None) /\ (forall l, In l (concat (map snd conf)) -> s' (ql_id l) = None).
Proof.
  clear. unfold disable_all. revert s. induction (concat (map snd conf)) as [|l ls IH]; intro s; [exists s; split; [reflexivity|split; [auto|intros l []]]|].
  cbn [foldM]. assert (set_layer s l None = Ok (qset s (ql_id l) None)) as -> by (unfold set_layer; destruct (ql_kind l); reflexivity). cbn [bind].
  destruct (IH (qset s (ql_id l) None)) as (s' & E & N & A). exists s'. split; [exact E|]. split.
  - intros k K. apply N. unfold qset. destruct (Nat.eqb k (ql_id l)); [reflexivity|exact K].
  - intros x [<-|X]; [apply N; unfold qset; rewrite Nat.eqb_refl; reflexivity|apply A, X].
Qed.

Variable mp : mp_model.
Hypothesis CONF : mp_conf mp = conf_list.
Hypothesis ALL : forall m, In m (mp_all mp) -> is_wrap m || is_hold m = true -> exists l, In l (concat (map snd conf_list)) /\ ql_id l = obj m.
Hypothesis OPS : forall n f, In n g -> In f g -> m_name f = m_owner n -> m_reuse f = false /\ sget (m_name n) (mp_op mp) = Some (op_m da f).
Hypothesis HOLD : forall n, In n g -> sget (m_name n) (mp_hold mp) = hd_error (hold_m da n).

Lemma serve : serves_requests da g mp.
Proof using G CONF ALL OPS HOLD.
  unfold serves_requests, search_state. rewrite CONF. destruct (disable_all_none conf_list (start (mp_all mp))) as (s0 & E0 & N0 & A0). exists s0. split; [exact E0|].
  assert (disabled s0) as D0.
  { intro k. destruct (start (mp_all mp) k) as [i|] eqn:ST; [|apply N0, ST]. unfold start in ST. destruct (find _ (mp_all mp)) as [m|] eqn:F; [|discriminate]. apply find_some in F. destruct F as [I Q]. apply andb_true_iff in Q. destruct Q as [Q1 Q2]. apply Nat.eqb_eq in Q1. subst k. destruct (ALL m I Q2) as (l & L & <-). apply A0, L. }
  split; [exact D0|]. intros V ord metric a w O R. destruct (request_applicable a w R) as [AP SV].
  assert (exists s1 s2, compute_metric ord conf_list metric s0 a w = (s2, metric s1) /\ stands_for conf_list a w s1 /\ disabled s2) as (s1 & s2 & E & [F1 F2] & D2) by (apply evaluation_configures_and_restores; auto using conf_proper).
  exists s1, s2. split; [exact E|]. split; [exact D2|]. intros n f k In_n In_f OW. split.
  - unfold act_run. rewrite (HOLD n In_n). unfold hold_m, asked. destruct (cab da n) eqn:CA; cbn [hd_error].
    + cbn [active]. destruct (sget (m_name n) a) as [v|] eqn:Q.
      * rewrite (F1 _ v); [|apply asks_act; auto]. destruct v as [i|]; [|reflexivity]. destruct (request_act a w _ _ R Q) as (n2 & I2 & N2 & _ & L). apply name_inj in N2; [|exact I2|exact In_n]. subst n2. specialize (L i eq_refl).
        destruct (Z.ltb_spec i 0); [lia|]. unfold cands_of, eval_of. cbn. rewrite CA, nth_error_map. destruct (nth_error (m_cands n) (Z.to_nat i)); cbn; [|reflexivity]. rewrite tr_act. reflexivity.
      * rewrite F2; [reflexivity|]. intros v A. apply asks_act in A; [|exact In_n]. destruct A as [_ A]. congruence.
    + destruct (sget (m_name n) a) as [v|] eqn:Q; [|reflexivity]. destruct (request_act a w _ _ R Q) as (n2 & I2 & N2 & C & _). apply name_inj in N2; [|exact I2|exact In_n]. subst n2. congruence.
  - destruct (OPS n f In_n In_f OW) as [RF OP]. unfold kernel_run. rewrite OP. unfold op_m, asked. assert (wsw f = cwb f) as WF by (unfold wsw; rewrite RF, andb_true_r; reflexivity). destruct (cwb f) eqn:CW; cbn [active].
    + destruct (sget (m_name f) w) as [v|] eqn:Q.
      * rewrite (F1 _ v); [|apply asks_wt; auto]. destruct v as [i|]; [|reflexivity]. destruct (request_wt a w _ _ R Q) as (n2 & I2 & N2 & _ & L). apply name_inj in N2; [|exact I2|exact In_f]. subst n2. specialize (L i eq_refl).
        destruct (Z.ltb_spec i 0); [lia|]. unfold cands_of, eval_of. cbn. rewrite CW, nth_error_map. destruct (nth_error (m_cands f) (Z.to_nat i)); cbn; [|reflexivity]. rewrite tr_ws_get. reflexivity.
      * rewrite F2; [reflexivity|]. intros v A. apply asks_wt in A; [|exact In_f]. destruct A as [_ A]. congruence.
    + destruct (sget (m_name f) w) as [v|] eqn:Q; [|reflexivity]. destruct (request_wt a w _ _ R Q) as (n2 & I2 & N2 & C & _). apply name_inj in N2; [|exact I2|exact In_f]. subst n2. congruence.
Qed.
End Serve.
