(* StatsProofs.v -- proofs about statistics collection *)
From Coq Require Import Arith Permutation Lia.
From Verif Require Import Base RoundQ QuantModel SearchModel CollectModel CollectSpec CollectProofs StatsModel StatsSpec.
Local Open Scope nat_scope.

Lemma memn_In n l : memn n l = true <-> In n l.
Proof.
  unfold memn. rewrite existsb_exists. split; [intros (x & H & E); apply Nat.eqb_eq in E; subst; exact H|].
  intro H. exists n. split; [exact H|apply Nat.eqb_refl].
Qed.
Lemma memn_nIn n l : memn n l = false <-> ~ In n l.
Proof. rewrite <- memn_In. destruct (memn n l); split; congruence. Qed.

Definition cont (g : sgraph) (n : nat) (c : collector) : container :=
  if Nat.eqb (n_outputs (info g n)) 1 then One c else Many (repeat c (n_outputs (info g n))).
Definition own (g : sgraph) (n : nat) : bool := act_quantized (info g n) || fln_quantized (info g n).
Definition fed (g : sgraph) (bc : bool) (done : list nat) (n : nat) : bool :=
  bc && existsb (fun e => Nat.eqb (fst e) n && memn (snd e) done && kernel_quantized (info g (snd e))) (gedges g).
Definition col (g : sgraph) (bc : bool) (done : list nat) (n : nat) : collector :=
  if own g n then Stats (fst (prior_range (info g n))) (snd (prior_range (info g n)))
  else if fed g bc done n then Stats None None else NoStats.
Definition promote (c : collector) : collector := match c with NoStats => Stats None None | _ => c end.

Lemma filter_repeat_stats (k : nat) a b :
  length (filter (fun c => negb (is_nostats c)) (repeat (Stats a b) k)) = k.
Proof. induction k as [|k IH]; [reflexivity|]. cbn. f_equal. exact IH. Qed.
Lemma filter_repeat_nostats (k : nat) :
  length (filter (fun c => negb (is_nostats c)) (repeat NoStats k)) = 0.
Proof. induction k as [|k IH]; [reflexivity|]. cbn. exact IH. Qed.

Lemma create_one g (s : colls) x c : s x = Some (cont g x c) ->
  forall n, create_tensor2node g s x n = if Nat.eqb n x then Some (cont g x (promote c)) else s n.
Proof.
  intros H n. unfold create_tensor2node. rewrite H. unfold cont at 1.
  assert (forall c', set_out_stats_collector_to_node g s x c' n = if Nat.eqb n x then Some (cont g x c') else s n) as HS.
  { intro c'. unfold set_out_stats_collector_to_node, upd, cont. reflexivity. }
  assert (c <> NoStats -> s n = if Nat.eqb n x then Some (cont g x (promote c)) else s n) as HK.
  { intro Hc. destruct (Nat.eqb_spec n x) as [En|_]; [|reflexivity]. rewrite En, H. destruct c; [tauto|reflexivity]. }
  destruct (Nat.eqb_spec (n_outputs (info g x)) 1) as [E|E].
  - destruct c as [|a b]; cbn [is_nostats promote]; [apply HS|apply HK; discriminate].
  - destruct c as [|a b]; cbn [promote].
    + rewrite filter_repeat_nostats. apply HS.
    + rewrite filter_repeat_stats. destruct (Nat.eqb_spec (n_outputs (info g x)) 0) as [E0|E0].
      * cbn. rewrite HS. destruct (Nat.eqb_spec n x) as [En|_]; [|reflexivity]. unfold cont. rewrite E0. reflexivity.
      * apply HK. discriminate.
Qed.

Lemma create_fold g (L : list nat) : forall (s : colls) (c : nat -> collector),
  (forall x, In x L -> s x = Some (cont g x (c x))) ->
  forall n, fold_left (create_tensor2node g) L s n = if memn n L then Some (cont g n (promote (c n))) else s n.
Proof.
  induction L as [|x L IH]; intros s c H n; [reflexivity|]. cbn [fold_left].
  pose proof (create_one g s x (c x) (H x (or_introl eq_refl))) as H1.
  rewrite (IH _ (fun y => if Nat.eqb y x then promote (c y) else c y)).
  - cbn [memn existsb]. fold (memn n L). destruct (memn n L) eqn:EL; cbn.
    + rewrite orb_true_r. destruct (Nat.eqb_spec n x); [|reflexivity]. destruct (c n); reflexivity.
    + rewrite orb_false_r, H1. destruct (Nat.eqb_spec n x) as [-> | ?]; reflexivity.
  - intros y Hy. rewrite H1. destruct (Nat.eqb_spec y x) as [-> | ?]; [reflexivity|]. apply H. right. exact Hy.
Qed.

Lemma split_unique (x : nat) : forall (A C B D : list nat), NoDup (A ++ x :: B) -> A ++ x :: B = C ++ x :: D -> A = C /\ B = D.
Proof.
  induction A as [|a A IH]; intros C B D Hn E.
  - destruct C as [|c C]; cbn in E; [injection E; auto|]. injection E as <- ->. exfalso. inversion Hn as [|? ? Hx _]. apply Hx. apply in_or_app. right. left. reflexivity.
  - destruct C as [|c C]; cbn in E.
    + injection E as -> E. exfalso. inversion Hn as [|? ? Hx _]. apply Hx. apply in_or_app. right. left. reflexivity.
    + injection E as -> E. inversion Hn as [|? ? _ Hn']. destruct (IH C B D Hn' E) as [-> ->]. auto.
Qed.

Section Assign.
Variable g : sgraph.
Variable bc : bool.
Hypothesis Hok : graph_ok g.

Lemma topo_nodup : NoDup (topo g).
Proof. apply Permutation_NoDup with (l := order g); [apply Permutation_sym, go_topo, Hok|apply go_nodup, Hok]. Qed.

Lemma edge_source_before done m rest u : topo g = done ++ m :: rest -> In (u, m) (gedges g) -> In u done.
Proof.
  intros E He. destruct (go_edges _ Hok _ _ He) as (a & b & c & E'). pose proof topo_nodup as Hn.
  rewrite E' in Hn, E. rewrite app_comm_cons, app_assoc in Hn, E.
  destruct (split_unique _ _ _ _ _ Hn E) as [<- _]. apply in_or_app. right. left. reflexivity.
Qed.
Lemma edge_sink_after done m rest v : topo g = done ++ m :: rest -> In (m, v) (gedges g) -> ~ In v (done ++ [m]).
Proof.
  intros E He Hv. destruct (go_edges _ Hok _ _ He) as (a & b & c & E'). pose proof topo_nodup as Hn.
  rewrite E' in Hn, E. destruct (split_unique _ _ _ _ _ Hn E) as [<- _].
  replace (a ++ m :: b ++ v :: c) with (((a ++ [m]) ++ b) ++ v :: c) in Hn by (rewrite <- !app_assoc; reflexivity).
  apply NoDup_remove_2 in Hn. apply Hn. apply in_or_app. left. apply in_or_app. left. exact Hv.
Qed.

Lemma memn_app n a b : memn n (a ++ b) = memn n a || memn n b.
Proof. unfold memn. apply existsb_app. Qed.

Lemma col_step done m n : In n done -> ~ In m done ->
  col g bc (done ++ [m]) n =
    if bc && kernel_quantized (info g m) && memn n (map fst (filter (fun e => Nat.eqb (snd e) m) (gedges g)))
    then promote (col g bc done n) else col g bc done n.
Proof.
  intros Hn Hm. unfold col. destruct (own g n); [destruct (_ && _); reflexivity|].
  assert (fed g bc (done ++ [m]) n =
          fed g bc done n || (bc && kernel_quantized (info g m) && memn n (map fst (filter (fun e => Nat.eqb (snd e) m) (gedges g))))) as ->.
  { unfold fed. destruct bc; [|reflexivity]. cbn [andb]. induction (gedges g) as [|[u v] l IH]; cbn [existsb fst snd filter map].
    - rewrite andb_false_r. reflexivity.
    - rewrite IH, memn_app. cbn [memn existsb]. rewrite orb_false_r.
      destruct (Nat.eqb_spec v m) as [-> | Hv]; cbn [map fst memn existsb];
        destruct (Nat.eqb u n) eqn:E1; rewrite ?(Nat.eqb_sym n u), ?E1; cbn [andb orb].
      + destruct (memn m done) eqn:Emd; [apply memn_In in Emd; tauto|]. destruct (kernel_quantized (info g m)); cbn; rewrite ?orb_true_r, ?orb_false_r; reflexivity.
      + reflexivity.
      + rewrite orb_false_r. destruct (memn v done && kernel_quantized (info g v)); reflexivity.
      + reflexivity. }
  destruct (fed g bc done n); cbn [orb]; destruct (_ && _); reflexivity.
Qed.

Lemma assign_inv : forall rest done (s : colls), topo g = done ++ rest ->
  (forall n, s n = if memn n done then Some (cont g n (col g bc done n)) else None) ->
  forall n, fold_left (assign_node g bc) rest s n = if memn n (topo g) then Some (cont g n (col g bc (topo g) n)) else None.
Proof.
  induction rest as [|m rest IH]; intros done s E H n.
  - rewrite app_nil_r in E. rewrite E. apply H.
  - cbn [fold_left]. apply (IH (done ++ [m])); [rewrite <- app_assoc; exact E|]. clear n. intro n.
    pose proof topo_nodup as Hn. rewrite E in Hn. apply NoDup_remove_2 in Hn.
    assert (~ In m done) as Hm by (intro; apply Hn; apply in_or_app; left; assumption).
    assert (forall y, In y (map fst (filter (fun e => Nat.eqb (snd e) m) (gedges g))) -> In y done) as Hsrc.
    { intros y Hy. apply in_map_iff in Hy. destruct Hy as ([u v] & <- & Hy). apply filter_In in Hy. destruct Hy as [Hy Ev].
      apply Nat.eqb_eq in Ev. cbn in Ev. subst v. cbn. eapply edge_source_before; eauto. }
    unfold assign_node, set_out_stats_collector_to_node, upd. fold (cont g m (create_stats_collector_for_node (info g m))).
    rewrite memn_app. cbn [memn existsb]. rewrite orb_false_r. destruct (Nat.eqb_spec n m) as [-> | Hnm].
    + rewrite orb_true_r. f_equal. f_equal. unfold create_stats_collector_for_node, col, own.
      destruct (act_quantized (info g m) || fln_quantized (info g m)); [reflexivity|].
      assert (fed g bc (done ++ [m]) m = false) as ->; [|reflexivity].
      unfold fed. destruct bc; [|reflexivity]. cbn [andb]. apply Bool.not_true_iff_false. intro Hx. apply existsb_exists in Hx.
      destruct Hx as ([u v] & He & Hb). cbn in Hb. rewrite !andb_true_iff in Hb. destruct Hb as [[Hu Hv] _].
      apply Nat.eqb_eq in Hu. subst u. apply memn_In in Hv. exact (edge_sink_after _ _ _ _ E He Hv).
    + rewrite orb_false_r. destruct (memn n done) eqn:Ed.
      * pose proof (proj1 (memn_In _ _) Ed) as Hnd. rewrite (col_step done m n Hnd Hm).
        destruct (bc && kernel_quantized (info g m)); cbn [andb]; [|rewrite H, Ed; reflexivity].
        rewrite (create_fold g _ s (col g bc done)).
        -- destruct (memn n (map _ _)); [reflexivity|rewrite H, Ed; reflexivity].
        -- intros x Hx. rewrite H. rewrite (proj2 (memn_In x done) (Hsrc x Hx)). reflexivity.
      * destruct (bc && kernel_quantized (info g m)); [|rewrite H, Ed; reflexivity].
        rewrite (create_fold g _ s (col g bc done)).
        -- destruct (memn n (map _ _)) eqn:Es; [|rewrite H, Ed; reflexivity].
           apply memn_In in Es. apply Hsrc in Es. apply memn_In in Es. congruence.
        -- intros x Hx. rewrite H. rewrite (proj2 (memn_In x done) (Hsrc x Hx)). reflexivity.
Qed.

Lemma assign_eq n : In n (order g) -> assign_collectors g bc n = Some (cont g n (col g bc (topo g) n)).
Proof.
  intro H. unfold assign_collectors. rewrite (assign_inv (topo g) [] (fun _ => None)); [|reflexivity|reflexivity].
  rewrite (proj2 (memn_In n (topo g))); [reflexivity|]. eapply Permutation_in; [apply Permutation_sym, go_topo, Hok|exact H].
Qed.

Lemma fed_spec n : fed g bc (topo g) n = true <->
  bc = true /\ exists m, In (n, m) (gedges g) /\ In m (order g) /\ kernel_quantized (info g m) = true.
Proof.
  unfold fed. rewrite andb_true_iff, existsb_exists. split; intros [Hb H]; (split; [exact Hb|]).
  - destruct H as ([u v] & He & Hx). cbn in Hx. rewrite !andb_true_iff in Hx. destruct Hx as [[Hu Hv] Hk].
    apply Nat.eqb_eq in Hu. subst u. exists v. split; [exact He|]. split; [|exact Hk].
    eapply Permutation_in; [apply go_topo, Hok|]. apply memn_In. exact Hv.
  - destruct H as (m & He & Hm & Hk). exists (n, m). split; [exact He|]. cbn. rewrite Nat.eqb_refl, Hk, andb_true_r. cbn.
    apply memn_In. eapply Permutation_in; [apply Permutation_sym, go_topo, Hok|exact Hm].
Qed.
Lemma own_spec n : own g n = true <-> own_stats g n.
Proof. unfold own, own_stats. apply orb_true_iff. Qed.

Lemma collecting_spec n : In n (order g) -> 1 <= n_outputs (info g n) ->
  (collecting (assign_collectors g bc) n = true <-> needs_stats g bc n).
Proof.
  intros Hn Hk. unfold collecting. rewrite (assign_eq n Hn). unfold needs_stats. rewrite <- own_spec, <- fed_spec.
  unfold cont, col. destruct (Nat.eqb_spec (n_outputs (info g n)) 1) as [E|E].
  - destruct (own g n); cbn; [tauto|]. destruct (fed g bc (topo g) n); cbn; split; try tauto; intros; intuition congruence.
  - destruct (own g n).
    + rewrite filter_repeat_stats. split; [tauto|]. intros _. apply Nat.ltb_lt. lia.
    + destruct (fed g bc (topo g) n).
      * rewrite filter_repeat_stats. split; [tauto|]. intros _. apply Nat.ltb_lt. lia.
      * rewrite filter_repeat_nostats. cbn. split; intros; intuition congruence.
Qed.
End Assign.

(* ---- one batch ---- *)
Section Infer.
Context {T W : Type}.
Variable hess : list (value T) -> value T -> W.
Variable absw : W -> W.
Notation update_container := (@update_container T W absw).

Lemma combine_env {B} (env : nat -> B) : forall (nodes ex : list nat) (hs : list (option W)), length nodes <= length hs ->
  combine (map env (nodes ++ ex)) (combine hs nodes) = map (fun hn => (env (snd hn), hn)) (combine hs nodes).
Proof.
  induction nodes as [|n nodes IH]; intros ex hs H.
  - destruct hs; cbn; destruct (map env ex); reflexivity.
  - destruct hs as [|h hs]; cbn in H; [lia|]. cbn. f_equal. apply IH. lia.
Qed.

Lemma updates_of_app (a b : list (update T W)) n k : updates_of (a ++ b) n k = updates_of a n k ++ updates_of b n k.
Proof. unfold updates_of. rewrite filter_app, map_app. reflexivity. Qed.

Lemma filter_seq_combine : forall (ts : list T) a n k,
  map (fun u : update T W => (u_tensor u, u_weight u))
    (filter (fun u => Nat.eqb (u_node u) n && Nat.eqb (u_out u) (a + k))
       (map (fun kt => {| u_node := n; u_out := fst kt; u_tensor := snd kt; u_weight := None |})
          (combine (seq a (length ts)) ts))) =
  match nth_error ts k with Some t => [(t, None)] | None => [] end.
Proof.
  induction ts as [|t ts IH]; intros a n k; [destruct k; reflexivity|]. cbn [length seq combine map filter fst snd u_node u_out].
  rewrite Nat.eqb_refl. cbn [andb]. destruct k as [|k].
  - rewrite Nat.add_0_r, Nat.eqb_refl. cbn [map u_tensor u_weight nth_error]. f_equal.
    assert (forall ts b, a < b -> filter (fun u : update T W => Nat.eqb (u_node u) n && Nat.eqb (u_out u) a)
       (map (fun kt => {| u_node := n; u_out := fst kt; u_tensor := snd kt; u_weight := None |})
          (combine (seq b (length ts)) ts)) = []) as Hf.
    { clear. induction ts as [|t ts IH]; intros b Hb; [reflexivity|]. cbn. rewrite Nat.eqb_refl.
      destruct (Nat.eqb_spec b a); [lia|]. cbn. apply IH. lia. }
    rewrite Hf by lia. reflexivity.
  - destruct (Nat.eqb_spec a (a + S k)); [lia|]. rewrite Nat.add_succ_r, <- Nat.add_succ_l. apply IH.
Qed.

Lemma update_container_spec g (env : nat -> value T) n c h us : value_ok g env -> In n (order g) ->
  update_container n (cont g n c) (env n) h = Ok us ->
  (forall k, updates_of us n k = match tensor_of (env n) k with Some t => [(t, option_map absw h)] | None => [] end) /\
  (forall m k, m <> n -> updates_of us m k = []).
Proof.
  intros Hv Hn E. specialize (Hv n Hn). unfold cont in E. destruct (env n) as [t|l]; [rewrite Hv in E|destruct Hv as [H1 H2]].
  - cbn in E. injection E as <-. split.
    + intro k. unfold updates_of. cbn. rewrite Nat.eqb_refl. destruct k; reflexivity.
    + intros m k Hm. unfold updates_of. cbn. destruct (Nat.eqb_spec n m); [congruence|reflexivity].
  - destruct (Nat.eqb_spec (n_outputs (info g n)) 1); [congruence|]. cbn in E. destruct h; [discriminate|].
    rewrite repeat_length in E. destruct (Nat.eqb_spec (length l) (n_outputs (info g n))); [|congruence]. injection E as <-.
    rewrite <- H2. split.
    + intro k. unfold updates_of. exact (filter_seq_combine l 0 n k).
    + intros m k Hm. unfold updates_of. generalize (combine (seq 0 (length l)) l). induction l0 as [|x l0 IH]; [reflexivity|].
      cbn. destruct (Nat.eqb_spec n m); [congruence|]. exact IH.
Qed.

Lemma mapM_cons_ok {A B} (f : A -> result B) x l us : mapM f (x :: l) = Ok us ->
  exists y ys, f x = Ok y /\ mapM f l = Ok ys /\ us = y :: ys.
Proof. cbn. destruct (f x) as [y|]; [|discriminate]. cbn. destruct (mapM f l) as [ys|]; [|discriminate]. cbn. intro E. injection E as <-. eauto. Qed.

Definition step (s : colls) (x : value T * (option W * nat)) : result (list (update T W)) :=
  match x with (v, (h, n)) => match s n with Some c => update_container n c v h | None => Err E_attr end end.

Lemma run_spec g (s : colls) (cc : nat -> collector) (env : nat -> value T) : value_ok g env ->
  forall (nodes : list nat) (hs : list (option W)) us, NoDup nodes -> (forall n, In n nodes -> In n (order g) /\ s n = Some (cont g n (cc n))) ->
  length nodes <= length hs ->
  mapM (step s) (map (fun hn => (env (snd hn), hn)) (combine hs nodes)) = Ok us ->
  (forall n h, In (h, n) (combine hs nodes) -> forall k, updates_of (concat us) n k =
     match tensor_of (env n) k with Some t => [(t, option_map absw h)] | None => [] end) /\
  (forall n, ~ In n nodes -> forall k, updates_of (concat us) n k = []).
Proof.
  intro Hv. induction nodes as [|n nodes IH]; intros hs us Hnd Hs Hl E.
  - destruct hs; cbn in E; injection E as <-; split; cbn; try tauto; reflexivity.
  - destruct hs as [|h hs]; cbn in Hl; [lia|]. cbn [combine map] in E. apply mapM_cons_ok in E. destruct E as (y & ys & E1 & E2 & ->).
    inversion Hnd as [|? ? Hn0 Hnd']. subst.
    destruct (Hs n (or_introl eq_refl)) as [Ho Hc]. cbn in E1. rewrite Hc in E1.
    destruct (update_container_spec g env n (cc n) h y Hv Ho E1) as [U1 U2].
    destruct (IH hs ys Hnd' (fun x Hx => Hs x (or_intror Hx)) ltac:(lia) E2) as [I1 I2]. split.
    + intros m h' Hin k. cbn [concat]. rewrite updates_of_app. cbn [combine] in Hin. destruct Hin as [Hin|Hin].
      * injection Hin as -> ->. rewrite U1, I2 by exact Hn0. apply app_nil_r.
      * assert (m <> n) as Hm. { intros ->. apply in_combine_r in Hin. exact (Hn0 Hin). }
        rewrite U2 by exact Hm. cbn. apply I1. exact Hin.
    + intros m Hm k. cbn [concat]. rewrite updates_of_app, U2, I2; [reflexivity|..]; cbn in Hm; intuition congruence.
Qed.

Lemma step_total g s cc (env : nat -> value T) : value_ok g env ->
  forall (l : list (option W * nat)), (forall h n, In (h, n) l -> In n (order g) /\ s n = Some (cont g n (cc n)) /\ (h = None \/ n_outputs (info g n) = 1)) ->
  exists us, mapM (step s) (map (fun hn => (env (snd hn), hn)) l) = Ok us.
Proof.
  intro Hv. induction l as [|[h n] l IH]; intro H; [exists []; reflexivity|].
  destruct IH as [us Eu]; [intros; apply H; right; assumption|].
  destruct (H h n (or_introl eq_refl)) as (Ho & Hc & Hh). specialize (Hv n Ho). cbn [map mapM snd]. rewrite Eu.
  unfold step at 1. rewrite Hc. unfold cont. destruct (env n) as [t|ts].
  - rewrite Hv. cbn. eauto.
  - destruct Hv as [H1 H2]. destruct Hh as [-> | Hh]; [|congruence]. destruct (Nat.eqb_spec (n_outputs (info g n)) 1); [congruence|].
    cbn. rewrite repeat_length, H2, Nat.eqb_refl. cbn. eauto.
Qed.

Lemma pad_length {A} (l : list A) n : n <= length (pad_none l n).
Proof. unfold pad_none. rewrite app_length, map_length, repeat_length. lia. Qed.

Section Main.
Variable g : sgraph.
Variable bc : bool.
Hypothesis Hok : graph_ok g.
Hypothesis Hpos : forall n, In n (order g) -> 1 <= n_outputs (info g n).
Variable env : nat -> value T.
Hypothesis Hv : value_ok g env.
Notation st := (assign_collectors g bc).

Lemma out_nodes_ok n : In n (outputs_nodes g st) -> In n (order g) /\ st n = Some (cont g n (col g bc (topo g) n)).
Proof. unfold outputs_nodes. intro H. apply filter_In in H. destruct H as [H _]. split; [exact H|]. apply assign_eq; assumption. Qed.
Lemma out_nodes_nodup : NoDup (outputs_nodes g st).
Proof. apply NoDup_filter, go_nodup, Hok. Qed.
Lemma out_nodes_iff n : In n (outputs_nodes g st) <-> In n (order g) /\ needs_stats g bc n.
Proof.
  unfold outputs_nodes. rewrite filter_In. split; intros [H1 H2]; (split; [exact H1|]); apply (collecting_spec g bc Hok n H1 (Hpos n H1)); exact H2.
Qed.

Definition weights (hmse : bool) : list W :=
  if hmse then map snd (fetch_hessian hess g (intermediate g st) (map env (append2output g st))) else [].
Notation pads hmse := (pad_none (weights hmse) (length (map env (append2output g st)))).
Lemma pads_len hmse : length (outputs_nodes g st) <= length (pads hmse).
Proof. eapply Nat.le_trans; [|apply pad_length]. rewrite map_length. unfold append2output. rewrite app_length. lia. Qed.

Lemma infer_eq hmse : infer hess absw g bc hmse env =
  bind (mapM (step st) (map (fun hn => (env (snd hn), hn)) (combine (pads hmse) (outputs_nodes g st)))) (fun us => Ok (concat us)).
Proof.
  unfold infer. fold (weights hmse).
  assert (combine (map env (append2output g st)) (combine (pads hmse) (outputs_nodes g st)) =
          map (fun hn => (env (snd hn), hn)) (combine (pads hmse) (outputs_nodes g st))) as E.
  { apply combine_env. apply pads_len. }
  rewrite E. reflexivity.
Qed.

Lemma in_combine_pad (hs : list (option W)) : forall (l : list nat) n, length l <= length hs -> In n l -> exists h, In (h, n) (combine hs l).
Proof.
  revert hs. assert (forall (l : list nat) (hs : list (option W)) n, length l <= length hs -> In n l -> exists h, In (h, n) (combine hs l)) as H; [|eauto].
  induction l as [|x l IH]; intros hs n Hl Hn; [destruct Hn|]. destruct hs as [|h hs]; cbn in Hl; [lia|].
  destruct Hn as [-> | Hn]; [exists h; left; reflexivity|]. destruct (IH hs n ltac:(lia) Hn) as [h' H']. exists h'. right. exact H'.
Qed.

(* whenever a batch is processed, each node that needs statistics receives exactly its own tensors, once *)
Lemma infer_own hmse us : infer hess absw g bc hmse env = Ok us ->
  forall n, In n (order g) -> forall k,
    (needs_stats g bc n -> map fst (updates_of us n k) = match tensor_of (env n) k with Some t => [t] | None => [] end) /\
    (~ needs_stats g bc n -> updates_of us n k = []).
Proof.
  intros E n Hn k. rewrite infer_eq in E. destruct (mapM _ _) as [us'|] eqn:E'; [|discriminate]. cbn in E. injection E as <-.
  destruct (run_spec g st (col g bc (topo g)) env Hv _ _ _ out_nodes_nodup out_nodes_ok (pads_len hmse) E') as [R1 R2]. split.
  - intro Hs. destruct (in_combine_pad (pads hmse) (outputs_nodes g st) n (pads_len hmse)) as [h Hh].
    { apply out_nodes_iff. auto. }
    rewrite (R1 n h Hh k). destruct (tensor_of (env n) k); reflexivity.
  - intro Hs. apply R2. rewrite out_nodes_iff. tauto.
Qed.

Lemma in_combine_repeat_none (m : nat) : forall (l : list nat) (h : option W) n, In (h, n) (combine (repeat None m) l) -> h = None.
Proof.
  induction m as [|m IH]; intros l h n H; [destruct H|]. destruct l as [|x l]; [destruct H|]. cbn in H.
  destruct H as [H|H]; [injection H; auto|eauto].
Qed.

Lemma infer_plain : exists us, infer hess absw g bc false env = Ok us /\
  forall n k t w, In (t, w) (updates_of us n k) -> w = None.
Proof.
  destruct (step_total g st (col g bc (topo g)) env Hv (combine (pads false) (outputs_nodes g st))) as [us Eu].
  { intros h n Hin. pose proof (out_nodes_ok n (in_combine_r _ _ _ _ Hin)) as [H1 H2]. split; [exact H1|]. split; [exact H2|]. left.
    unfold pad_none in Hin. cbn in Hin. eapply in_combine_repeat_none; eauto. }
  exists (concat us). split; [rewrite infer_eq, Eu; reflexivity|].
  intros n k t w Hin.
  destruct (run_spec g st (col g bc (topo g)) env Hv _ _ _ out_nodes_nodup out_nodes_ok (pads_len false) Eu) as [R1 R2].
  destruct (in_dec Nat.eq_dec n (outputs_nodes g st)) as [Hn|Hn]; [|rewrite R2 in Hin by exact Hn; destruct Hin].
  destruct (in_combine_pad (pads false) (outputs_nodes g st) n (pads_len false) Hn) as [h Hh].
  rewrite (R1 n h Hh k) in Hin. destruct (tensor_of (env n) k); [|destruct Hin]. destruct Hin as [Hin|[]]. injection Hin as _ <-.
  unfold pad_none in Hh. cbn in Hh. apply in_combine_repeat_none in Hh. subst h. reflexivity.
Qed.
End Main.

(* ---- Hessian weights ---- *)
Lemma dset_fresh {B} (d : list (nat * B)) k b : ~ In k (map fst d) -> dset d k b = d ++ [(k, b)].
Proof.
  induction d as [|[k' b'] d IH]; intro H; [reflexivity|]. cbn in *. destruct (Nat.eqb_spec k k'); [subst; tauto|]. f_equal. apply IH. tauto.
Qed.
Lemma dict_of_nodup {B} (l : list (nat * B)) : NoDup (map fst l) -> dict_of l = l.
Proof.
  unfold dict_of. assert (forall l d, NoDup (map fst (d ++ l)) -> fold_left (fun d (kb : nat * B) => dset d (fst kb) (snd kb)) l d = d ++ l) as H.
  { clear l. induction l as [|[k b] l IH]; intros d H; [rewrite app_nil_r; reflexivity|]. cbn [fold_left fst snd]. rewrite dset_fresh.
    - rewrite IH; rewrite <- app_assoc; [reflexivity|exact H].
    - rewrite map_app in H. cbn in H. apply NoDup_remove_2 in H. intro Hx. apply H. apply in_or_app. left. exact Hx. }
  intro Hn. exact (H l [] Hn).
Qed.
Lemma combine_fst {A B} (a : list A) (b : list B) : length a = length b -> map fst (combine a b) = a.
Proof. revert b. induction a as [|x a IH]; intros [|y b] H; try reflexivity; try discriminate. cbn. f_equal. apply IH. cbn in H. lia. Qed.
Lemma combine_snd {A B} (a : list A) (b : list B) : length a = length b -> map snd (combine a b) = b.
Proof. revert b. induction a as [|x a IH]; intros [|y b] H; try reflexivity; try discriminate. cbn. f_equal. apply IH. cbn in H. lia. Qed.

Lemma filter_ext_none {A} (f : A -> bool) l : (forall x, In x l -> f x = false) -> filter f l = [].
Proof. induction l as [|x l IH]; intro H; [reflexivity|]. cbn. rewrite (H x (or_introl eq_refl)). apply IH. intros; apply H; right; assumption. Qed.

Section Weights.
Variable g : sgraph.
Variable bc : bool.
Hypothesis Hok : graph_ok g.
Hypothesis Hpos : forall n, In n (order g) -> 1 <= n_outputs (info g n).
Variable env : nat -> value T.
Hypothesis Hv : value_ok g env.
Notation st := (assign_collectors g bc).
Variables l1 l2 : list nat.
Hypothesis Hord : order g = l1 ++ l2.
Hypothesis Hl1 : forall n, In n l1 -> In n (outs g) -> ~ needs_stats g bc n.
Hypothesis Hl2 : forall n, In n l2 -> needs_stats g bc n -> In n (outs g).
Hypothesis Hprim : NoDup (map (fun n => primary (info g n)) (filter (collecting st) l1)).
Hypothesis Hone : forall n, In n l1 -> needs_stats g bc n -> n_outputs (info g n) = 1.
Hypothesis Houts : forall n, In n (outs g) -> In n (order g).

Notation a1 := (filter (collecting st) l1).
Notation a2 := (filter (collecting st) l2).
Notation ex := (filter (fun n => negb (memn n (outputs_nodes g st))) (outs g)).

Lemma outs_split : outputs_nodes g st = a1 ++ a2.
Proof. unfold outputs_nodes. rewrite Hord. apply filter_app. Qed.
Lemma a1_needs n : In n a1 -> In n l1 /\ In n (order g) /\ needs_stats g bc n.
Proof.
  intro H. pose proof H as H0. apply filter_In in H. destruct H as [H _]. split; [exact H|].
  apply (out_nodes_iff g bc Hok Hpos). rewrite outs_split. apply in_or_app. left. exact H0.
Qed.
Lemma a2_needs n : In n a2 -> In n l2 /\ In n (order g) /\ needs_stats g bc n.
Proof.
  intro H. pose proof H as H0. apply filter_In in H. destruct H as [H _]. split; [exact H|].
  apply (out_nodes_iff g bc Hok Hpos). rewrite outs_split. apply in_or_app. right. exact H0.
Qed.
Lemma inter_eq : intermediate g st = a1.
Proof.
  unfold intermediate. rewrite outs_split, filter_app.
  rewrite (filter_all _ a1), (filter_ext_none _ a2); [apply app_nil_r| |].
  - intros n Hn. apply a2_needs in Hn. destruct Hn as (H1 & H2 & H3). rewrite (proj2 (memn_In n _) (Hl2 n H1 H3)). reflexivity.
  - intros n Hn. apply a1_needs in Hn. destruct Hn as (H1 & H2 & H3). rewrite (proj2 (memn_nIn n (outs g))); [reflexivity|].
    intro Ho. exact (Hl1 n H1 Ho H3).
Qed.
Lemma outs_perm : Permutation (a2 ++ ex) (outs g).
Proof.
  apply NoDup_Permutation.
  - assert (NoDup a2) as N2. { pose proof (out_nodes_nodup g bc Hok) as N. rewrite outs_split in N. clear -N. induction a1; [exact N|]. inversion N; auto. }
    assert (NoDup ex) as N3 by (apply NoDup_filter, go_outs, Hok).
    assert (forall n, In n a2 -> ~ In n ex) as Hd.
    { intros n H1 H2. apply filter_In in H2. destruct H2 as [_ H2]. rewrite (proj2 (memn_In n (outputs_nodes g st))) in H2; [discriminate|].
      rewrite outs_split. apply in_or_app. right. exact H1. }
    clear -N2 N3 Hd. revert N2 N3 Hd. generalize a2 as p. generalize ex as q. intros q p. induction p as [|x p IH]; intros N2 N3 Hd; [exact N3|].
    inversion N2; subst. cbn. constructor.
    + intro Hx. apply in_app_or in Hx. destruct Hx as [Hx|Hx]; [tauto|]. exact (Hd x (or_introl eq_refl) Hx).
    + apply IH; auto. intros n Hn. apply Hd. right. exact Hn.
  - apply go_outs, Hok.
  - intro n. rewrite in_app_iff. split.
    + intros [H|H].
      * apply a2_needs in H. destruct H as (H1 & _ & H3). exact (Hl2 n H1 H3).
      * apply filter_In in H. tauto.
    + intro H. destruct (memn n (outputs_nodes g st)) eqn:Em.
      * left. apply memn_In in Em. rewrite outs_split in Em. apply in_app_or in Em. destruct Em as [Em|Em]; [|exact Em].
        exfalso. apply a1_needs in Em. destruct Em as (H1 & _ & H3). exact (Hl1 n H1 H H3).
      * right. apply filter_In. split; [exact H|]. rewrite Em. reflexivity.
Qed.

Definition O := map env (a2 ++ ex).
Lemma weights_eq : weights g bc env true = map (fun n => hess O (env n)) a1.
Proof.
  unfold weights, fetch_hessian. rewrite inter_eq. unfold append2output. rewrite outs_split at 1.
  rewrite <- app_assoc, map_app. rewrite map_length. unfold compute_scores.
  assert (length a1 = length (map env a1)) as L by (rewrite map_length; reflexivity).
  rewrite L at 1 2. rewrite firstn_app, skipn_app, firstn_all, skipn_all, Nat.sub_diag. cbn [firstn skipn]. rewrite app_nil_r. cbn [app].
  fold O. rewrite map_map.
  rewrite dict_of_nodup.
  - apply combine_snd. rewrite !map_length. reflexivity.
  - rewrite combine_fst by (rewrite !map_length; reflexivity). exact Hprim.
Qed.

Lemma combine_app_l {A B} (a a' : list A) (b b' : list B) : length a = length b -> combine (a ++ a') (b ++ b') = combine a b ++ combine a' b'.
Proof. revert b. induction a as [|x a IH]; intros [|y b] H; try discriminate; [reflexivity|]. cbn. f_equal. apply IH. cbn in H. lia. Qed.
Lemma in_combine_maps (f : nat -> W) l h n : In (h, n) (combine (map Some (map f l)) l) -> h = Some (f n).
Proof. induction l as [|x l IH]; intro H; [destruct H|]. cbn in H. destruct H as [H|H]; [injection H as <- <-; reflexivity|auto]. Qed.

Lemma infer_weights : exists us Os, infer hess absw g bc true env = Ok us /\ Permutation Os (outs g) /\
  (forall n, In n (order g) -> needs_stats g bc n -> ~ In n (outs g) -> forall k t, tensor_of (env n) k = Some t ->
     updates_of us n k = [(t, Some (absw (hess (map env Os) (env n))))]) /\
  (forall n, In n (order g) -> needs_stats g bc n -> In n (outs g) -> forall k t, tensor_of (env n) k = Some t ->
     updates_of us n k = [(t, None)]).
Proof.
  set (pads := pad_none (weights g bc env true) (length (map env (append2output g st)))).
  assert (combine pads (outputs_nodes g st) =
          combine (map Some (map (fun n => hess O (env n)) a1)) a1 ++
          combine (repeat None (length (map env (append2output g st)) - length a1)) a2) as EC.
  { unfold pads, pad_none. rewrite weights_eq, outs_split. rewrite combine_app_l by (rewrite !map_length; reflexivity). rewrite !map_length. reflexivity. }
  destruct (step_total g st (col g bc (topo g)) env Hv (combine pads (outputs_nodes g st))) as [us Eu].
  { intros h n Hin. pose proof (out_nodes_ok g bc Hok n (in_combine_r _ _ _ _ Hin)) as [H1 H2]. split; [exact H1|]. split; [exact H2|].
    rewrite EC in Hin. apply in_app_or in Hin. destruct Hin as [Hin|Hin].
    - right. apply in_combine_r in Hin. apply a1_needs in Hin. destruct Hin as (A & _ & B). auto.
    - left. eapply in_combine_repeat_none; eauto. }
  exists (concat us), (a2 ++ ex). split; [rewrite (infer_eq g bc env); unfold pads in Eu; rewrite Eu; reflexivity|]. split; [apply outs_perm|].
  pose proof (pads_len g bc env true) as PL.
  destruct (run_spec g st (col g bc (topo g)) env Hv _ _ _ (out_nodes_nodup g bc Hok) (out_nodes_ok g bc Hok) PL Eu) as [R1 R2].
  split; intros n Hn Hs Ho k t Ht.
  - destruct (in_combine_pad pads (outputs_nodes g st) n PL) as [h Hh]; [apply (out_nodes_iff g bc Hok Hpos); auto|].
    rewrite (R1 n h Hh k), Ht. rewrite EC in Hh. apply in_app_or in Hh. destruct Hh as [Hh|Hh].
    + apply in_combine_maps in Hh. subst h. reflexivity.
    + exfalso. apply in_combine_r in Hh. apply a2_needs in Hh. destruct Hh as (A & _ & B). auto.
  - destruct (in_combine_pad pads (outputs_nodes g st) n PL) as [h Hh]; [apply (out_nodes_iff g bc Hok Hpos); auto|].
    rewrite (R1 n h Hh k), Ht. rewrite EC in Hh. apply in_app_or in Hh. destruct Hh as [Hh|Hh].
    + exfalso. apply in_combine_r in Hh. apply a1_needs in Hh. destruct Hh as (A & _ & B). exact (Hl1 n A Ho B).
    + apply in_combine_repeat_none in Hh. subst h. reflexivity.
Qed.
End Weights.
End Infer.
