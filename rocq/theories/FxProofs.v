(* FxProofs.v -- lemmas for FxProps.v. *)
From Coq Require Import Permutation Sorted Lia.
From Verif Require Import Base GraphModel GraphSpec GraphProofs FxModel FxSpec.
Open Scope res_scope.
Local Open Scope nat_scope.

(* ---- lists ---- *)
Lemma firsts_id l : NoDup l -> firsts l = l.
Proof.
  induction 1 as [|x l N _ IH]; [reflexivity|]. cbn [firsts]. rewrite IH. f_equal. apply filter_all. intros y I.
  destruct (Nat.eqb_spec x y) as [->|_]; [contradiction|reflexivity].
Qed.
Lemma firsts_repeat z k : firsts (repeat z k) = match k with 0 => [] | _ => [z] end.
Proof.
  destruct k as [|k]; [reflexivity|]. cbn [repeat firsts]. f_equal. apply filter_nil. intros y I.
  apply (proj1 (firsts_in _ _)) in I. apply repeat_spec in I. subst. rewrite Nat.eqb_refl. reflexivity.
Qed.
Lemma firsts_app pre l : NoDup pre -> (forall x, In x pre -> ~ In x l) -> firsts (pre ++ l) = pre ++ firsts l.
Proof.
  induction 1 as [|x pre N _ IH]; intro H; [reflexivity|]. cbn [firsts app]. rewrite IH; [|intros y I; apply H; right; exact I].
  f_equal. apply filter_all. intros y I. destruct (Nat.eqb_spec x y) as [->|_]; [|reflexivity]. exfalso.
  apply in_app_or in I. destruct I as [I|I]; [contradiction|]. apply (proj1 (firsts_in _ _)) in I. apply (H y); [left; reflexivity|exact I].
Qed.
Lemma firsts_repeats z k l : repeats_last z k l -> exists pre, NoDup (z :: pre) /\ l = pre ++ repeat z k /\ firsts l = pre ++ match k with 0 => [] | _ => [z] end.
Proof.
  intros (pre & N & ->). exists pre. repeat split; [exact N|]. inversion N; subst. rewrite firsts_app, firsts_repeat; [reflexivity|assumption|].
  intros x I J. apply repeat_spec in J. congruence.
Qed.
Lemma group_ordered {A} z k (l : list (nat * A)) : repeats_last z k (map fst l) ->
  flat_map (fun n => filter (fun p => Nat.eqb (fst p) n) l) (firsts (map fst l)) = l.
Proof.
  intros (pre & N & E). revert l E. induction pre as [|x pre IH]; intros l E.
  - cbn [app] in E. rewrite E, firsts_repeat. destruct k as [|k]; [destruct l; [reflexivity|discriminate]|].
    cbn [flat_map]. rewrite app_nil_r. apply filter_all. intros p I. apply Nat.eqb_eq.
    apply (in_map fst) in I. rewrite E in I. apply repeat_spec in I. exact I.
  - destruct l as [|[y a] l]; [discriminate|]. cbn [map fst app] in E. injection E as -> E.
    inversion N as [|? ? N1 N2]; subst. inversion N2 as [|? ? N3 N4]; subst.
    assert (~ In x (map fst l)) as X. { rewrite E. intro I. apply in_app_or in I. destruct I as [I|I]; [contradiction|]. apply repeat_spec in I. apply N1. left. congruence. }
    cbn [map fst firsts flat_map]. rewrite (filter_all _ (firsts (map fst l))).
    2: { intros y I. apply (proj1 (firsts_in _ _)) in I. destruct (Nat.eqb_spec x y) as [->|_]; [contradiction|reflexivity]. }
    cbn [filter fst]. rewrite Nat.eqb_refl. rewrite (filter_nil _ l).
    2: { intros p I. apply Nat.eqb_neq. intro Q. apply X. rewrite <- Q. apply in_map, I. }
    cbn [app]. f_equal.
    transitivity (flat_map (fun n => filter (fun p => Nat.eqb (fst p) n) l) (firsts (map fst l))).
    + apply flat_map_ext_in. intros n I. apply (proj1 (firsts_in _ _)) in I. destruct (Nat.eqb_spec x n) as [->|_]; [contradiction|reflexivity].
    + apply IH; [|exact E]. constructor; [|exact N4]. intro I. apply N1. right. exact I.
Qed.
Lemma filter_map {A B} (f : A -> B) (p : B -> bool) l : filter p (map f l) = map f (filter (fun x => p (f x)) l).
Proof. induction l as [|x l IH]; [reflexivity|]. cbn [map filter]. destruct (p (f x)); cbn [map]; rewrite IH; reflexivity. Qed.
Lemma filter_flat_map {A B} (f : A -> list B) (p : B -> bool) l : filter p (flat_map f l) = flat_map (fun x => filter p (f x)) l.
Proof. induction l as [|x l IH]; [reflexivity|]. cbn [flat_map]. rewrite filter_app, IH. reflexivity. Qed.
Lemma map_flat_map {A B C} (f : A -> list B) (h : B -> C) l : map h (flat_map f l) = flat_map (fun x => map h (f x)) l.
Proof. induction l as [|x l IH]; [reflexivity|]. cbn [flat_map]. rewrite map_app, IH. reflexivity. Qed.
Lemma filter_repeat {A} (p : A -> bool) x k : filter p (repeat x k) = if p x then repeat x k else [].
Proof. destruct (p x) eqn:E; [apply filter_all|apply filter_nil]; intros y I; apply repeat_spec in I; subst; exact E. Qed.
Lemma sorted_unique {A} (key : A -> nat) l l' : Permutation l l' -> StronglySorted (fun a b => key a <= key b) l ->
  StronglySorted (fun a b => key a < key b) l' -> l = l'.
Proof.
  revert l'. induction l as [|x l IH]; intros l' P S1 S2; [apply Permutation_nil in P; subst; reflexivity|].
  destruct l' as [|y l']; [apply Permutation_sym, Permutation_nil in P; discriminate|].
  inversion S1 as [|? ? S3 F1]; subst. inversion S2 as [|? ? S4 F2]; subst. rewrite Forall_forall in F1, F2.
  assert (x = y) as ->.
  { assert (In x (y :: l')) as I by (apply (Permutation_in _ P); left; reflexivity).
    assert (In y (x :: l)) as J by (apply (Permutation_in _ (Permutation_sym P)); left; reflexivity).
    destruct I as [I|I]; [auto|]. destruct J as [J|J]; [auto|]. specialize (F1 _ J). specialize (F2 _ I). lia. }
  f_equal. apply IH; [eapply Permutation_cons_inv; exact P|exact S3|exact S4].
Qed.
Lemma insert_by_perm key e l : Permutation (insert_by key e l) (e :: l).
Proof. induction l as [|x l IH]; [reflexivity|]. cbn [insert_by]. destruct (Nat.leb _ _); [reflexivity|]. rewrite IH. apply perm_swap. Qed.
Lemma insert_by_sorted key e l : StronglySorted (fun a b => key a <= key b) l -> StronglySorted (fun a b => key a <= key b) (insert_by key e l).
Proof.
  induction l as [|x l IH]; intro S1; [constructor; constructor|]. inversion S1 as [|? ? S2 F]; subst. cbn [insert_by]. destruct (Nat.leb_spec (key e) (key x)) as [L|L].
  - constructor; [exact S1|]. constructor; [exact L|]. eapply Forall_impl; [|exact F]. cbn. intros; lia.
  - constructor; [exact (IH S2)|]. rewrite Forall_forall in *. intros y I. apply (Permutation_in _ (insert_by_perm _ _ _)) in I. destruct I as [<-|I]; [lia|exact (F _ I)].
Qed.
Lemma sort_by_perm key l : Permutation (sort_by key l) l.
Proof. unfold sort_by. induction l as [|x l IH]; [reflexivity|]. cbn [fold_right]. rewrite insert_by_perm, IH. reflexivity. Qed.
Lemma sort_by_sorted key l : StronglySorted (fun a b => key a <= key b) (sort_by key l).
Proof. unfold sort_by. induction l as [|x l IH]; [constructor|]. cbn [fold_right]. apply insert_by_sorted, IH. Qed.
Lemma insert_weight_perm p l : Permutation (insert_weight p l) (p :: l).
Proof. induction l as [|x l IH]; [reflexivity|]. cbn [insert_weight]. destruct (Nat.leb _ _); [reflexivity|]. rewrite IH. apply perm_swap. Qed.
Lemma insert_weight_sorted p l : StronglySorted (fun a b => fst a <= fst b) l -> StronglySorted (fun a b : nat * nat => fst a <= fst b) (insert_weight p l).
Proof.
  induction l as [|x l IH]; intro S1; [constructor; constructor|]. inversion S1 as [|? ? S2 F]; subst. cbn [insert_weight]. destruct (Nat.leb_spec (fst p) (fst x)) as [L|L].
  - constructor; [exact S1|]. constructor; [exact L|]. eapply Forall_impl; [|exact F]. cbn. intros; lia.
  - constructor; [exact (IH S2)|]. rewrite Forall_forall in *. intros y I. apply (Permutation_in _ (insert_weight_perm _ _)) in I. destruct I as [<-|I]; [lia|exact (F _ I)].
Qed.
Lemma weights_sorted ws ws' : Permutation ws ws' -> StronglySorted (fun a b => fst a < fst b) ws' -> fold_right insert_weight [] ws = ws'.
Proof.
  intros P S1. apply (sorted_unique fst); [|clear; induction ws as [|x l IH]; [constructor|]; cbn [fold_right]; apply insert_weight_sorted, IH|exact S1].
  rewrite <- P. clear. induction ws as [|x l IH]; [reflexivity|]. cbn [fold_right]. rewrite insert_weight_perm, IH. reflexivity.
Qed.
Lemma enumerate_ge {A} (l : list A) : forall i p, In p (enumerate_from i l) -> i <= fst p.
Proof. induction l as [|x l IH]; intros i p; [intros []|]. cbn [enumerate_from]. intros [<-|I]; [cbn; lia|]. specialize (IH _ _ I). lia. Qed.
Lemma enumerate_sorted {A} (p : nat * A -> bool) l : forall i, StronglySorted (fun a b => fst a < fst b) (filter p (enumerate_from i l)).
Proof.
  induction l as [|x l IH]; intro i; [constructor|]. cbn [enumerate_from filter]. destruct (p (i, x)); [|apply IH]. constructor; [apply IH|].
  apply Forall_forall. intros q I. apply filter_In in I. destruct I as [I _]. apply enumerate_ge in I. cbn. lia.
Qed.
Lemma index_of_app_r pre n l : ~ In n pre -> index_of n (pre ++ n :: l) = length pre.
Proof.
  induction pre as [|x pre IH]; intro H; cbn [index_of app length]; [rewrite Nat.eqb_refl; reflexivity|].
  destruct (Nat.eqb_spec x n) as [->|_]; [exfalso; apply H; left; reflexivity|]. f_equal. apply IH. intro I. apply H. right. exact I.
Qed.

(* ---- arguments ---- *)
Fixpoint arg_ind' (P : arg -> Prop) (HN : forall n, P (ANode n)) (HC : forall c, P (AConst c)) (HL : forall l, Forall P l -> P (AList l)) (a : arg) : P a :=
  match a with
  | ANode n => HN n | AConst c => HC c
  | AList l => HL l ((fix go (l : list arg) : Forall P l := match l with [] => Forall_nil P | x :: r => Forall_cons x (arg_ind' P HN HC HL x) (go r) end) l)
  end.
Lemma kept_value {V} (val : nat -> ores V) a : no_nodes a -> kept_arg a = value_of val a.
Proof.
  unfold no_nodes. induction a as [n|c|l IH] using arg_ind'; intro H; [discriminate|reflexivity|]. cbn [kept_arg value_of]. f_equal.
  cbn [arg_nodes] in H. induction IH as [|x r H1 H2 IH]; [reflexivity|]. cbn [flat_map] in H. apply app_eq_nil in H. destruct H as [Ha Hb].
  cbn [map]. rewrite (H1 Ha), (IH Hb). reflexivity.
Qed.
Lemma kept_values {V} (val : nat -> ores V) l : nodes_in l = [] -> map kept_arg l = map (value_of val) l.
Proof.
  unfold nodes_in. induction l as [|x r IH]; [reflexivity|]. cbn [flat_map map]. intro H. apply app_eq_nil in H. destruct H as [Ha Hb].
  rewrite (kept_value val x Ha), (IH Hb). reflexivity.
Qed.
Lemma nodes_in_nodes l : nodes_in (map ANode l) = l.
Proof. unfold nodes_in. induction l as [|x r IH]; [reflexivity|]. cbn [map flat_map arg_nodes app]. rewrite IH. reflexivity. Qed.
Lemma nodes_in_app a b : nodes_in (a ++ b) = nodes_in a ++ nodes_in b.
Proof. unfold nodes_in. apply flat_map_app. Qed.
Lemma ains_eq nd : all_input_nodes nd = firsts (nodes_in (f_args nd) ++ nodes_in (map snd (f_kwargs nd))).
Proof. unfold all_input_nodes, nodes_in. do 2 f_equal. rewrite !flat_map_concat_map, map_map. reflexivity. Qed.
Lemma positions_none n l : ~ In n (nodes_in l) -> positions_of n l = [].
Proof.
  unfold positions_of. intro H. rewrite filter_nil; [reflexivity|]. intros [i a] I. cbn [snd]. destruct a as [m| |]; try reflexivity. cbn [arg_is].
  apply Nat.eqb_neq. intros ->. apply H. unfold nodes_in. apply in_flat_map. exists (ANode n). split; [|left; reflexivity].
  clear H. revert I. generalize 0. induction l as [|x l IH]; intros j; [intros []|]. cbn [enumerate_from]. intros [E|I]; [left; congruence|right; exact (IH _ I)].
Qed.
(* the number of arguments which are the node n, for flat argument lists *)
Lemma positions_count n l : flat l -> length (positions_of n l) = length (filter (Nat.eqb n) (nodes_in l)).
Proof.
  unfold positions_of. rewrite map_length. generalize 0. unfold nodes_in. induction l as [|x l IH]; intros j F; [reflexivity|].
  cbn [enumerate_from filter flat_map snd]. rewrite filter_app, app_length.
  assert (flat l) as F' by (intros a I; apply F; right; exact I).
  destruct (F x (or_introl eq_refl)) as [E|E].
  - destruct x as [m| |]; try discriminate. cbn [arg_is arg_nodes filter]. rewrite (Nat.eqb_sym n m). destruct (Nat.eqb m n); cbn [length]; rewrite (IH (S j) F'); reflexivity.
  - rewrite E. destruct x as [m| |]; [discriminate| |]; cbn [arg_is filter length]; exact (IH (S j) F').
Qed.

(* ---- edges ---- *)
(* the entries of connectivity_dict for one node *)
Definition conn (prog : list fxnode) (nd : fxnode) : list (nat * (nat * nat)) :=
  flat_map (fun n => if mem n (graph_ids prog) then
      map (fun i => (n, (f_id nd, index_of n (all_input_nodes nd) + i))) (seq 0 (Nat.max (length (positions_of n (edge_args nd))) 1))
    else []) (all_input_nodes nd).
Lemma conn_snk prog nd c : In c (conn prog nd) -> fst (snd c) = f_id nd /\ In (fst c) (graph_ids prog).
Proof.
  unfold conn. intro I. apply in_flat_map in I. destruct I as (n & _ & I). destruct (mem n (graph_ids prog)) eqn:M; [|destruct I].
  apply in_map_iff in I. destruct I as (i & <- & _). split; [reflexivity|]. apply mem_spec, M.
Qed.
Lemma graph_ids_in prog n : In n (graph_ids prog) <-> exists nd, In nd prog /\ is_graph_node nd = true /\ f_id nd = n.
Proof. unfold graph_ids. rewrite in_map_iff. split; intros (nd & H); [destruct H as [E H]|]; [|exists nd]; rewrite ?filter_In in *; [exists nd|]; tauto. Qed.
Lemma const_ids_in prog n : In n (const_ids prog) <-> exists nd, In nd prog /\ f_op nd = FGetAttr /\ f_id nd = n.
Proof.
  unfold const_ids. rewrite in_map_iff. split.
  - intros (nd & E & H). apply filter_In in H. destruct H as [H J]. exists nd. repeat split; auto. unfold is_op in J. destruct (f_op nd); try discriminate; reflexivity.
  - intros (nd & H & J & E). exists nd. split; [exact E|]. apply filter_In. split; [exact H|]. unfold is_op. rewrite J. reflexivity.
Qed.
Lemma ids_unique prog a b : NoDup (map f_id prog) -> In a prog -> In b prog -> f_id a = f_id b -> a = b.
Proof.
  induction prog as [|x r IH]; [intros _ []|]. cbn [map]. intros N Ia Ib E. inversion N as [|? ? N1 N2]; subst.
  destruct Ia as [->|Ia], Ib as [->|Ib]; [reflexivity| | |exact (IH N2 Ia Ib E)]; exfalso; apply N1; [rewrite E|rewrite <- E]; apply in_map; assumption.
Qed.
Lemma const_not_graph prog n : NoDup (map f_id prog) -> In n (graph_ids prog) -> In n (const_ids prog) -> False.
Proof.
  intros N G C. apply graph_ids_in in G. apply const_ids_in in C. destruct G as (a & Ia & Ga & <-), C as (b & Ib & Cb & E).
  assert (b = a) as -> by (apply (ids_unique prog); auto). unfold is_graph_node, is_op in Ga. rewrite Cb in Ga. discriminate.
Qed.
Lemma connectivity_at prog nd : NoDup (map f_id prog) -> In nd prog -> f_op nd <> FOutput ->
  filter (fun c => Nat.eqb (fst (snd c)) (f_id nd)) (connectivity prog) = conn prog nd.
Proof.
  intros N I O. unfold connectivity. fold (conn prog).
  assert (forall l, incl l prog -> NoDup (map f_id l) ->
    filter (fun c => Nat.eqb (fst (snd c)) (f_id nd)) (flat_map (fun nd => if is_op FOutput nd then [] else conn prog nd) l) =
    if existsb (fun x => Nat.eqb (f_id x) (f_id nd)) l then conn prog nd else []) as K.
  { induction l as [|x l IH]; intros Q Nl; [reflexivity|]. cbn [map] in Nl. inversion Nl as [|? ? N1 N2]; subst. cbn [flat_map existsb]. rewrite filter_app, IH; [|intros y J; apply Q; right; exact J|exact N2].
    destruct (Nat.eqb_spec (f_id x) (f_id nd)) as [E|E].
    - assert (x = nd) as -> by (apply (ids_unique prog); auto; apply Q; left; reflexivity). cbn [orb].
      replace (existsb (fun x => Nat.eqb (f_id x) (f_id nd)) l) with false.
      2: { symmetry. apply not_true_iff_false. intro J. apply existsb_exists in J. destruct J as (y & J & F). apply Nat.eqb_eq in F. apply N1. rewrite <- F. apply in_map, J. }
      rewrite app_nil_r. replace (is_op FOutput nd) with false by (unfold is_op; destruct (f_op nd); congruence).
      apply filter_all. intros c J. apply conn_snk in J. destruct J as [J _]. rewrite J. apply Nat.eqb_refl.
    - cbn [orb]. rewrite filter_nil; [reflexivity|]. intros c J. destruct (is_op FOutput x); [destruct J|]. apply conn_snk in J. destruct J as [J _]. rewrite J. apply Nat.eqb_neq, E. }
  change (flat_map _ prog) with (flat_map (fun nd => if is_op FOutput nd then [] else conn prog nd) prog).
  rewrite K; [|intros y J; exact J|exact N]. replace (existsb _ prog) with true; [reflexivity|]. symmetry. apply existsb_exists. exists nd. split; [exact I|apply Nat.eqb_refl].
Qed.
Definition mk_edge (c : nat * (nat * nat)) : edge := Edge (fst c) (fst (snd c)) 0 (snd (snd c)).
Lemma edges_builder_perm prog : NoDup (map f_id prog) -> Permutation (edges_builder prog) (map mk_edge (connectivity prog)).
Proof.
  intro N. unfold edges_builder. rewrite (flat_map_ext _ (fun nd => map mk_edge (filter (fun c => Nat.eqb (fst c) (f_id nd)) (connectivity prog)))).
  2: { intro nd. rewrite (map_ext_in _ mk_edge); [reflexivity|]. intros c I. apply filter_In in I. destruct I as [_ I]. apply Nat.eqb_eq in I. unfold mk_edge. rewrite I. reflexivity. }
  rewrite <- map_flat_map. apply Permutation_map.
  eapply Permutation_trans; [|apply (group_perm fst (map f_id prog) N (connectivity prog))].
  - rewrite !flat_map_concat_map, map_map. reflexivity.
  - intros c I. unfold connectivity in I. apply in_flat_map in I. destruct I as (nd & _ & I). destruct (is_op FOutput nd); [destruct I|].
    apply (conn_snk prog nd) in I. destruct I as [_ I]. apply graph_ids_in in I. destruct I as (x & I & _ & <-). apply in_map, I.
Qed.
Lemma filter_perm {A} (p : A -> bool) l l' : Permutation l l' -> Permutation (filter p l) (filter p l').
Proof.
  induction 1 as [|x l l' _ IH|x y l|l l' l'' _ IH1 _ IH2]; [reflexivity| | |etransitivity; eassumption]; cbn [filter].
  - destruct (p x); [constructor|]; exact IH.
  - destruct (p x), (p y); try reflexivity. apply perm_swap.
Qed.
Lemma in_edges_conn prog nd ns ins outs : NoDup (map f_id prog) -> In nd prog -> f_op nd <> FOutput ->
  Permutation (in_edges (Graph ns (edges_builder prog) ins outs) (f_id nd)) (map mk_edge (conn prog nd)).
Proof.
  intros N I O. rewrite in_edges_perm. cbn [g_edges]. rewrite (filter_perm _ _ _ (edges_builder_perm prog N)). rewrite filter_map. cbn [snk mk_edge].
  rewrite (connectivity_at prog nd N I O). reflexivity.
Qed.

(* edges in the order of their index *)
Lemma spread_sorted (m : nat -> nat) (act : nat -> bool) ains : forall j,
  (forall a n b, ains = a ++ n :: b -> act n = true -> m n <= 1 \/ forall y, In y b -> act y = false) ->
  StronglySorted lt (flat_map (fun p => if act (snd p) then map (fun i => fst p + i) (seq 0 (m (snd p))) else []) (enumerate_from j ains)) /\
  Forall (fun t => j <= t) (flat_map (fun p => if act (snd p) then map (fun i => fst p + i) (seq 0 (m (snd p))) else []) (enumerate_from j ains)).
Proof.
  induction ains as [|n ains IH]; intros j H; [split; constructor|]. cbn [enumerate_from flat_map fst snd].
  destruct (IH (S j)) as [S1 F1]. { intros a x b E A. apply (H (n :: a) x b); [rewrite E; reflexivity|exact A]. }
  set (rest := flat_map _ (enumerate_from (S j) ains)) in *.
  destruct (act n) eqn:A; [|cbn [app]; split; [exact S1|eapply Forall_impl; [|exact F1]; cbn; intros; lia]].
  split; [|apply Forall_app; split; [|eapply Forall_impl; [|exact F1]; cbn; intros; lia]].
  2: { apply Forall_forall. intros t I. apply in_map_iff in I. destruct I as (i & <- & _). lia. }
  destruct (H [] n ains eq_refl A) as [L|L].
  - destruct (m n) as [|[|x]]; [exact S1| |lia]. cbn [seq map app]. constructor; [exact S1|]. eapply Forall_impl; [|exact F1]. cbn. intros; lia.
  - assert (rest = []) as ->.
    { unfold rest. clear - L. generalize (S j). induction ains as [|y r IH]; intro i; [reflexivity|]. cbn [enumerate_from flat_map snd]. rewrite (L y (or_introl eq_refl)). apply IH. intros z I. apply L. right. exact I. }
    rewrite app_nil_r. generalize 0 (m n). clear. intros s k. revert s. induction k as [|k IH]; intro s; [constructor|]. cbn [seq map]. constructor; [apply IH|].
    apply Forall_forall. intros t I. apply in_map_iff in I. destruct I as (i & <- & I). apply in_seq in I. lia.
Qed.
Lemma flat_enumerate {B} (l : list nat) (f : nat -> nat -> list B) : NoDup l ->
  flat_map (fun n => f (index_of n l) n) l = flat_map (fun p => f (fst p) (snd p)) (enumerate_from 0 l).
Proof.
  intro N. assert (forall pre r, l = pre ++ r -> flat_map (fun n => f (index_of n l) n) r = flat_map (fun p => f (fst p) (snd p)) (enumerate_from (length pre) r)) as K; [|apply (K [] l eq_refl)].
  intros pre r. revert pre. induction r as [|n r IH]; intros pre E; [reflexivity|]. cbn [flat_map enumerate_from fst snd].
  rewrite (IH (pre ++ [n])) by (rewrite <- app_assoc; exact E). rewrite app_length. cbn [length]. replace (length pre + 1) with (S (length pre)) by lia.
  do 2 f_equal. rewrite E. apply index_of_app_r. rewrite E in N. apply NoDup_remove_2 in N. intro I. apply N. apply in_or_app. left. exact I.
Qed.
Lemma sorted_map {A} (f : A -> nat) l : StronglySorted lt (map f l) -> StronglySorted (fun a b => f a < f b) l.
Proof.
  induction l as [|x l IH]; intro S1; [constructor|]. cbn [map] in S1. inversion S1 as [|? ? S2 F]; subst. constructor; [exact (IH S2)|].
  rewrite Forall_forall in *. intros y I. apply F, in_map, I.
Qed.
(* the nodes whose tensors a node receives *)
Lemma sources prog nd ns ins outs : NoDup (map f_id prog) -> In nd prog -> f_op nd <> FOutput ->
  let act n := mem n (graph_ids prog) in let m n := Nat.max (length (positions_of n (edge_args nd))) 1 in
  (forall a n b, all_input_nodes nd = a ++ n :: b -> act n = true -> m n <= 1 \/ forall y, In y b -> act y = false) ->
  map src (sort_by ti (in_edges (Graph ns (edges_builder prog) ins outs) (f_id nd))) = flat_map (fun n => if act n then repeat n (m n) else []) (all_input_nodes nd).
Proof.
  intros N I O act m H.
  assert (sort_by ti (in_edges (Graph ns (edges_builder prog) ins outs) (f_id nd)) = map mk_edge (conn prog nd)) as ->.
  { apply (sorted_unique ti); [rewrite sort_by_perm; apply in_edges_conn; assumption|apply sort_by_sorted|]. apply sorted_map. rewrite map_map. cbn [ti mk_edge].
    unfold conn. rewrite map_flat_map. rewrite (flat_map_ext _ (fun n => if act n then map (fun i => index_of n (all_input_nodes nd) + i) (seq 0 (m n)) else [])).
    2: { intro n. unfold act, m. destruct (mem n (graph_ids prog)); [rewrite map_map|]; reflexivity. }
    rewrite (flat_enumerate (all_input_nodes nd) (fun j n => if act n then map (fun i => j + i) (seq 0 (m n)) else [])) by apply firsts_nodup.
    apply (spread_sorted m act). exact H. }
  rewrite map_map. unfold conn. rewrite map_flat_map. apply flat_map_ext. intro n. unfold act, m. destruct (mem n (graph_ids prog)); [|reflexivity].
  rewrite map_map. cbn [src mk_edge fst]. generalize 0 (Nat.max (length (positions_of n (edge_args nd))) 1). clear. intros s k. revert s. induction k as [|k IH]; intro s; [reflexivity|]. cbn [seq map repeat]. f_equal. apply IH.
Qed.

(* ---- tensors received ---- *)
Definition count (n : nat) (l : list nat) : nat := length (filter (Nat.eqb n) l).
Lemma count_app n a b : count n (a ++ b) = count n a + count n b.
Proof. unfold count. rewrite filter_app, app_length. reflexivity. Qed.
Lemma count_repeat n z k : count n (repeat z k) = if Nat.eqb n z then k else 0.
Proof. unfold count. rewrite filter_repeat. destruct (Nat.eqb n z); [apply repeat_length|reflexivity]. Qed.
Lemma count_nodup n l : NoDup l -> count n l <= 1.
Proof.
  induction 1 as [|x l N _ IH]; [cbn; lia|]. unfold count in *. cbn [filter]. destruct (Nat.eqb_spec n x) as [->|_]; [|exact IH].
  rewrite (filter_nil _ l); [cbn; lia|]. intros y I. apply Nat.eqb_neq. intros ->. contradiction.
Qed.
Lemma count_in n l : In n l -> 1 <= count n l.
Proof. intro I. unfold count. assert (In n (filter (Nat.eqb n) l)) as J by (apply filter_In; split; [exact I|apply Nat.eqb_refl]). destruct (filter (Nat.eqb n) l); [destruct J|cbn; lia]. Qed.
Lemma count_repeats z k pre n : NoDup (z :: pre) -> In n pre -> count n (pre ++ repeat z k) = 1.
Proof.
  intros N I. inversion N; subst. rewrite count_app, count_repeat. destruct (Nat.eqb_spec n z) as [->|_]; [contradiction|].
  pose proof (count_in n pre I). pose proof (count_nodup n pre ltac:(assumption)). lia.
Qed.
Lemma count_last z k pre : NoDup (z :: pre) -> count z (pre ++ repeat z k) = k.
Proof.
  intro N. inversion N; subst. rewrite count_app, count_repeat, Nat.eqb_refl. unfold count. rewrite filter_nil; [reflexivity|].
  intros y I. apply Nat.eqb_neq. intros ->. contradiction.
Qed.
Lemma spread_repeats z k pre (act : nat -> bool) (m : nat -> nat) : (forall n, In n pre -> act n = true -> m n = 1) -> k = 0 \/ act z = false \/ m z = k ->
  flat_map (fun n => if act n then repeat n (m n) else []) (pre ++ match k with 0 => [] | _ => [z] end) = filter act (pre ++ repeat z k).
Proof.
  intros H K. rewrite flat_map_app, filter_app. f_equal.
  - induction pre as [|n pre IH]; [reflexivity|]. cbn [flat_map filter]. destruct (act n) eqn:A.
    + rewrite (H n (or_introl eq_refl) A). cbn [repeat app]. f_equal. apply IH. intros y I. apply H. right. exact I.
    + apply IH. intros y I. apply H. right. exact I.
  - rewrite filter_repeat. destruct k as [|k]; [destruct (act z); reflexivity|]. cbn [flat_map]. rewrite app_nil_r. destruct (act z) eqn:A; [|reflexivity].
    destruct K as [K|[K|K]]; [discriminate|discriminate|rewrite K; reflexivity].
Qed.
Lemma flat_nodes l : flat (map ANode l).
Proof. intros a I. apply in_map_iff in I. destruct I as (n & <- & _). left. reflexivity. Qed.
Lemma firsts_filter p l : firsts (filter p l) = filter p (firsts l).
Proof.
  induction l as [|x l IH]; [reflexivity|]. cbn [filter firsts]. destruct (p x) eqn:E; cbn [firsts filter]; rewrite ?E, IH.
  - f_equal. rewrite <- !filter_and. apply filter_ext. intro y. apply andb_comm.
  - rewrite <- filter_and. apply filter_ext. intro y. destruct (Nat.eqb_spec x y) as [<-|_]; [rewrite E|]; reflexivity.
Qed.
Lemma flat_map_filter {B} (act : nat -> bool) (f : nat -> list B) l : flat_map (fun n => if act n then f n else []) l = flat_map f (filter act l).
Proof. induction l as [|x l IH]; [reflexivity|]. cbn [flat_map filter]. destruct (act x); cbn [flat_map]; rewrite IH; reflexivity. Qed.

(* the nodes a call refers to *)
Definition occ (nd : fxnode) : list nat := nodes_in (f_args nd) ++ nodes_in (map snd (f_kwargs nd)).
Lemma ains_occ nd : all_input_nodes nd = firsts (occ nd).
Proof. apply ains_eq. Qed.

Lemma received prog nd ns ins outs : wf_prog prog -> In nd prog -> plain (const_ids prog) nd -> f_op nd = FFunction \/ f_op nd = FModule ->
  map src (sort_by ti (in_edges (Graph ns (edges_builder prog) ins outs) (f_id nd))) = filter (fun n => mem n (graph_ids prog)) (occ nd).
Proof.
  intros [N W] I P O. set (act := fun n => mem n (graph_ids prog)).
  assert (forall n, In n (occ nd) -> act n = negb (mem n (const_ids prog))) as AC.
  { intros n J. unfold act. destruct (W nd n I) as [G|C]; [rewrite ains_occ; apply firsts_in, J| |].
    - rewrite (proj2 (mem_spec _ _) G). destruct (mem n (const_ids prog)) eqn:M; [|reflexivity]. apply mem_spec in M. exfalso. exact (const_not_graph prog n N G M).
    - rewrite (proj2 (mem_spec _ _) C). apply mem_false. intro G. exact (const_not_graph prog n N G C). }
  assert (f_op nd <> FOutput) as NO by (destruct O as [-> | ->]; discriminate).
  set (m := fun n => Nat.max (length (positions_of n (edge_args nd))) 1).
  assert (exists pre z k, NoDup (z :: pre) /\ filter act (occ nd) = pre ++ repeat z k /\ (forall n, In n pre -> m n = 1) /\ (k = 0 \/ m z = k)) as (pre & z & k & Nz & E & M1 & M2).
  { assert (forall l l' z k, flat (edge_args nd) -> nodes_in (edge_args nd) = l -> occ nd = l ++ l' -> repeats_last z k (l ++ l') -> k <= 1 \/ l' = [] /\ ~ In z (const_ids prog) ->
      exists pre z k, NoDup (z :: pre) /\ filter act (occ nd) = pre ++ repeat z k /\ (forall n, In n pre -> m n = 1) /\ (k = 0 \/ m z = k)) as K.
    { intros l l' z k Fl El Eo (pre & Nz & Ep) Hk.
      assert (forall n, In n pre -> m n = 1) as M1. { intros n J. unfold m. rewrite (positions_count n _ Fl), El. pose proof (count_repeats z k pre n Nz J) as C. rewrite <- Ep, count_app in C. unfold count in C. lia. }
      inversion Nz as [|? ? Z1 Z2]; subst x l0.
      exists (filter act pre), z, (if act z then k else 0). rewrite Eo, Ep, filter_app, filter_repeat. repeat split.
      - constructor; [|apply NoDup_filter, Z2]. intro J. apply filter_In in J. apply Z1, J.
      - destruct (act z); reflexivity.
      - intros n J. apply filter_In in J. apply M1, J.
      - destruct (act z) eqn:A; [|left; reflexivity]. destruct k as [|k]; [left; reflexivity|]. right. unfold m. rewrite (positions_count z _ Fl), El. fold (count z l).
        pose proof (count_last z (S k) pre Nz) as C. rewrite <- Ep, count_app in C. destruct Hk as [Hk | [Hl Hk]]; [lia|]. rewrite Hl in C. change (count z []) with 0 in C. lia. }
    destruct P as [Ps|Ps|z k Po Fa Fk Nk Fl Rp Hk|z k l rest Po Ea Er Ek Rp|z k l Po Ea Ek Rp Hk].
    - destruct O as [O|O], Ps as [Ps|Ps]; congruence.
    - congruence.
    - assert (edge_args nd = f_args nd) as EE. { unfold edge_args, is_op, tensor_args. rewrite Po. destruct Fl as [-> | [Q _]]; [reflexivity|]. rewrite Q. destruct (first_list nd); reflexivity. }
      apply (K (nodes_in (f_args nd)) (nodes_in (map snd (f_kwargs nd))) z k); auto; rewrite EE; auto.
    - assert (edge_args nd = map ANode l) as EE.
      { unfold edge_args, is_op, tensor_args, inputs_as_list, first_list. rewrite Po, Ea. replace (forallb is_node (map ANode l)) with true; [reflexivity|]. clear. induction l; [reflexivity|assumption]. }
      assert (occ nd = l) as Eo. { unfold occ. rewrite Ea, Ek. unfold nodes_in in *. cbn [flat_map arg_nodes]. rewrite Er, !app_nil_r. apply nodes_in_nodes. }
      assert (filter act (occ nd) = filter (fun n => negb (mem n (const_ids prog))) l) as Ef. { rewrite <- Eo. apply filter_ext_in. exact AC. }
      destruct Rp as (pre & Nz & Ep). exists pre, z, k. rewrite Ef, Ep. repeat split; [exact Nz| |].
      + intros n J. assert (In n (occ nd) /\ act n = true) as [Jo Ja]. { apply filter_In. rewrite Ef, Ep. apply in_or_app. left. exact J. }
        unfold m. rewrite EE, (positions_count n _ (flat_nodes l)), nodes_in_nodes.
        pose proof (count_repeats z k pre n Nz J) as C. rewrite <- Ep, <- Ef in C. unfold count in C. rewrite <- filter_and in C.
        rewrite (filter_ext_in _ (Nat.eqb n)) in C; [rewrite Eo in C; lia|]. intros y Iy. destruct (Nat.eqb_spec n y) as [<-|_]; [rewrite Ja; reflexivity|apply andb_false_r].
      + destruct k as [|k]; [left; reflexivity|]. right. assert (In z (occ nd) /\ act z = true) as [Jo Ja]. { apply filter_In. rewrite Ef, Ep. apply in_or_app. right. left. reflexivity. }
        unfold m. rewrite EE, (positions_count z _ (flat_nodes l)), nodes_in_nodes.
        pose proof (count_last z (S k) pre Nz) as C. rewrite <- Ep, <- Ef in C. unfold count in C. rewrite <- filter_and in C.
        rewrite (filter_ext_in _ (Nat.eqb z)) in C; [rewrite Eo in C; lia|]. intros y Iy. destruct (Nat.eqb_spec z y) as [<-|_]; [rewrite Ja; reflexivity|apply andb_false_r].
    - assert (edge_args nd = f_args nd) as EE by (unfold edge_args, is_op; rewrite Po; reflexivity).
      apply (K l [] z k); rewrite ?EE, ?Ea, ?app_nil_r; auto using flat_nodes, nodes_in_nodes.
      + unfold occ. rewrite Ea, Ek, nodes_in_nodes. apply app_nil_r.
      + destruct Hk; auto. }
  assert (filter act (all_input_nodes nd) = pre ++ match k with 0 => [] | _ => [z] end) as EA.
  { rewrite ains_occ, <- firsts_filter, E. inversion Nz; subst. rewrite firsts_app, firsts_repeat; [reflexivity|assumption|]. intros x J Q. apply repeat_spec in Q. congruence. }
  rewrite (sources prog nd ns ins outs N I NO).
  - rewrite flat_map_filter. fold m act. rewrite EA. rewrite E.
    assert (forall n, In n pre -> true = true -> m n = 1) as Q by (intros n J _; apply M1, J).
    pose proof (spread_repeats z k pre (fun _ => true) m Q ltac:(destruct M2; auto)) as K. rewrite filter_all in K by reflexivity. exact K.
  - fold m act. intros a n b En An. destruct (le_lt_dec (m n) 1) as [L|L]; [left; exact L|]. right. intros y J.
    destruct (mem y (graph_ids prog)) eqn:Ay; [|reflexivity]. exfalso.
    rewrite En, filter_app in EA. cbn [filter] in EA. change (act n) with (mem n (graph_ids prog)) in EA. rewrite An in EA.
    assert (In n (pre ++ match k with 0 => [] | _ => [z] end)) as In1 by (rewrite <- EA; apply in_or_app; right; left; reflexivity).
    assert (n = z /\ k <> 0) as [-> K0]. { apply in_app_or in In1. destruct In1 as [Q|Q]; [rewrite (M1 n Q) in L; lia|]. destruct k; [destruct Q|]. destruct Q as [-> | []]. split; [reflexivity|discriminate]. }
    destruct k as [|k]; [contradiction|]. assert (In y (filter act b)) as Jb by (apply filter_In; split; assumption).
    assert (NoDup (filter act a ++ z :: filter act b)) as ND. { rewrite EA. apply (Permutation_NoDup (l := z :: pre)); [apply Permutation_cons_append|exact Nz]. }
    destruct (exists_last (l := filter act b)) as (b' & w & Eb); [intro Q; rewrite Q in Jb; destruct Jb|]. rewrite Eb in EA, ND.
    rewrite app_comm_cons, app_assoc in EA. apply app_inj_tail in EA. destruct EA as [_ ->].
    apply NoDup_remove_2 in ND. apply ND. apply in_or_app. right. apply in_or_app. right. left. reflexivity.
Qed.

(* ---- the arguments of the rebuilt call ---- *)
Lemma foldM_app {A S} (f : S -> A -> result S) a b s : foldM f (a ++ b) s = let! s' := foldM f a s in foldM f b s'.
Proof. revert s. induction a as [|x a IH]; intro s; [reflexivity|]. cbn [app foldM]. destruct (f s x) as [s'|e]; [apply IH|reflexivity]. Qed.
Lemma insert_at_app {A} (pre : list A) x l : insert_at (length pre) x (pre ++ l) = pre ++ x :: l.
Proof. induction pre as [|y pre IH]; [destruct l; reflexivity|]. cbn [length insert_at app]. f_equal. exact IH. Qed.
Lemma enumerate_app {A} (a b : list A) : forall j, enumerate_from j (a ++ b) = enumerate_from j a ++ enumerate_from (j + length a) b.
Proof.
  induction a as [|x a IH]; intro j; [cbn; rewrite Nat.add_0_r; reflexivity|]. cbn [app enumerate_from length]. f_equal. rewrite IH. f_equal. f_equal. lia.
Qed.
Lemma enumerate_in {A} (l : list A) : forall j p, In p (enumerate_from j l) -> In (snd p) l.
Proof. induction l as [|x l IH]; intros j p; [intros []|]. cbn [enumerate_from]. intros [<-|I]; [left; reflexivity|right; exact (IH _ _ I)]. Qed.

Section Call.
Context {V : Type} (cst tv : nat -> V) (consts : list nat).
Lemma weights_inserted act l ws : (forall n, In n l -> act n = negb (mem n consts)) -> (forall n, In n l -> In n consts -> tv n = cst n) ->
  Permutation ws (filter (fun p => mem (snd p) consts) (enumerate_from 0 l)) ->
  insert_positional_weights cst ws (map tv (filter act l)) = Ok (map tv l).
Proof.
  intros A C P. unfold insert_positional_weights. rewrite (weights_sorted _ _ P) by apply enumerate_sorted. clear P ws.
  assert (forall r pre, (forall n, In n r -> In n l) ->
    foldM (fun ts (p : nat * nat) => if Nat.ltb (length ts) (fst p) then Err E_critical else Ok (insert_at (fst p) (cst (snd p)) ts))
      (filter (fun p => mem (snd p) consts) (enumerate_from (length pre) r)) (pre ++ map tv (filter act r)) = Ok (pre ++ map tv r)) as K; [|apply (K l [] (fun n I => I))].
  induction r as [|n r IH]; intros pre H; [reflexivity|]. cbn [enumerate_from filter snd].
  rewrite (A n (H n (or_introl eq_refl))). assert (forall x, In x r -> In x l) as H' by (intros x I; apply H; right; exact I).
  destruct (mem n consts) eqn:M; cbn [negb foldM fst snd map].
  - replace (Nat.ltb _ _) with false by (symmetry; apply Nat.ltb_ge; rewrite app_length; lia). cbn [bind]. rewrite insert_at_app.
    rewrite <- (C n (H n (or_introl eq_refl))) by (apply mem_spec, M).
    specialize (IH (pre ++ [tv n]) H'). rewrite app_length, <- !app_assoc in IH. cbn [length app] in IH. rewrite Nat.add_1_r in IH. exact IH.
  - specialize (IH (pre ++ [tv n]) H'). rewrite app_length, <- !app_assoc in IH. cbn [length app] in IH. rewrite Nat.add_1_r in IH. exact IH.
Qed.

(* where the nodes are among the arguments *)
Definition tagged (j : nat) (args : list arg) : list (nat * alloc) :=
  flat_map (fun p => match snd p with ANode n => [(n, Pos (fst p))] | _ => [] end) (enumerate_from j args).
Definition ktagged (kw : list (name * arg)) : list (nat * alloc) :=
  flat_map (fun kv => match snd kv with ANode n => [(n, Key (fst kv))] | _ => [] end) kw.
Lemma flat_tl x l : flat (x :: l) -> flat l.
Proof. intros F a I. apply F. right. exact I. Qed.
Lemma tagged_nodes args : flat args -> forall j, map fst (tagged j args) = nodes_in args.
Proof.
  unfold tagged, nodes_in. induction args as [|a args IH]; intros F j; [reflexivity|]. cbn [enumerate_from flat_map snd fst]. rewrite map_app, IH by exact (flat_tl _ _ F). f_equal.
  destruct (F a (or_introl eq_refl)) as [E|E]; [destruct a; try discriminate; reflexivity|]. unfold no_nodes in E. rewrite E. destruct a; [discriminate| |]; reflexivity.
Qed.
Lemma ktagged_nodes kw : flat (map snd kw) -> map fst (ktagged kw) = nodes_in (map snd kw).
Proof.
  unfold ktagged, nodes_in. induction kw as [|[k a] kw IH]; intro F; [reflexivity|]. cbn [flat_map snd fst map] in *. rewrite map_app, IH by exact (flat_tl _ _ F). f_equal.
  destruct (F a (or_introl eq_refl)) as [E|E]; [destruct a; try discriminate; reflexivity|]. unfold no_nodes in E. rewrite E. destruct a; [discriminate| |]; reflexivity.
Qed.
Lemma tagged_positions n args : map snd (filter (fun p => Nat.eqb (fst p) n) (tagged 0 args)) = map Pos (positions_of n args).
Proof.
  unfold tagged, positions_of. generalize 0. induction args as [|a args IH]; intro j; [reflexivity|]. cbn [enumerate_from flat_map snd fst filter]. rewrite filter_app, map_app, IH.
  destruct a as [m| |]; [|reflexivity|reflexivity]. cbn [filter fst arg_is]. destruct (Nat.eqb m n); reflexivity.
Qed.
Lemma ktagged_positions n kw : map snd (filter (fun p => Nat.eqb (fst p) n) (ktagged kw)) = map (fun kv => Key (fst kv)) (filter (fun kv => arg_is n (snd kv)) kw).
Proof.
  unfold ktagged. induction kw as [|[k a] kw IH]; [reflexivity|]. cbn [flat_map snd fst filter]. rewrite filter_app, map_app, IH.
  destruct a as [m| |]; [|reflexivity|reflexivity]. cbn [filter fst arg_is]. destruct (Nat.eqb m n); reflexivity.
Qed.
Lemma alloc_tagged nd z k : tensor_args nd = f_args nd -> flat (f_args nd) -> flat (map snd (f_kwargs nd)) -> repeats_last z k (occ nd) ->
  tensor_input_alloc nd = map snd (tagged 0 (f_args nd) ++ ktagged (f_kwargs nd)).
Proof.
  intros T Fa Fk Rp. unfold tensor_input_alloc. rewrite T, ains_occ.
  assert (occ nd = map fst (tagged 0 (f_args nd) ++ ktagged (f_kwargs nd))) as E by (rewrite map_app, tagged_nodes, ktagged_nodes by assumption; reflexivity).
  rewrite E in *. rewrite <- (group_ordered z k _ Rp) at 2. rewrite map_flat_map. apply flat_map_ext. intro n.
  rewrite filter_app, map_app, tagged_positions, ktagged_positions. reflexivity.
Qed.

Context (val : nat -> ores V).
Definition merge_step : list (cval V) * list (name * cval V) -> alloc * V -> result (list (cval V) * list (name * cval V)) :=
  fun st p => match fst p with
    | Key k => if existsb (fun kv => String.eqb (fst kv) k) (snd st) then Err E_assert else Ok (fst st, snd st ++ [(k, CT (snd p))])
    | Pos i => Ok (insert_at i (CT (snd p)) (fst st), snd st) end.
Lemma merge_args args : flat args -> (forall n, In n (nodes_in args) -> val n = One (tv n)) -> forall pre kw,
  foldM merge_step (map (fun q => (snd q, tv (fst q))) (tagged (length pre) args)) (pre ++ map kept_arg (filter (fun a => negb (is_node a)) args), kw)
  = Ok (pre ++ map (value_of val) args, kw).
Proof.
  induction args as [|a args IH]; intros F H pre kw; [reflexivity|]. specialize (IH (flat_tl _ _ F)).
  unfold nodes_in in *. cbn [flat_map] in H. assert (forall n, In n (flat_map arg_nodes args) -> val n = One (tv n)) as H' by (intros n I; apply H, in_or_app; right; exact I).
  specialize (IH H' ). unfold tagged in *. cbn [enumerate_from flat_map snd fst filter map].
  destruct (F a (or_introl eq_refl)) as [E|E].
  - destruct a as [n| |]; try discriminate. cbn [is_node negb app map foldM fst snd]. unfold merge_step at 1. cbn [fst snd bind]. rewrite insert_at_app.
    specialize (IH (pre ++ [CT (tv n)]) kw). rewrite app_length, <- !app_assoc in IH. cbn [length app] in IH. rewrite Nat.add_1_r in IH.
    cbn [value_of]. rewrite (H n) by (apply in_or_app; left; left; reflexivity). exact IH.
  - rewrite <- (kept_value val a E). assert (is_node a = false) as -> by (destruct a; [discriminate| |]; reflexivity). cbn [negb map].
    specialize (IH (pre ++ [kept_arg a]) kw). rewrite app_length, <- !app_assoc in IH. cbn [length app] in IH. rewrite Nat.add_1_r in IH.
    destruct a as [n| |]; [discriminate| |]; exact IH.
Qed.
Lemma merge_kwargs kw : flat (map snd kw) -> (forall n, In n (nodes_in (map snd kw)) -> val n = One (tv n)) -> forall args done, NoDup (map fst done ++ map fst kw) ->
  exists kw', foldM merge_step (map (fun q => (snd q, tv (fst q))) (ktagged kw)) (args, done ++ map (fun kv => (fst kv, kept_arg (snd kv))) (filter (fun kv => negb (is_node (snd kv))) kw))
    = Ok (args, kw') /\ Permutation kw' (done ++ map (fun kv => (fst kv, value_of val (snd kv))) kw).
Proof.
  induction kw as [|[k a] kw IH]; intros F H args done N; [exists (done ++ []); split; reflexivity|]. cbn [map snd fst] in *. specialize (IH (flat_tl _ _ F)).
  unfold nodes_in in *. cbn [flat_map] in H. assert (forall n, In n (flat_map arg_nodes (map snd kw)) -> val n = One (tv n)) as H' by (intros n I; apply H, in_or_app; right; exact I).
  specialize (IH H' args). unfold ktagged in *. cbn [flat_map snd fst filter map].
  destruct (F a (or_introl eq_refl)) as [E|E].
  - destruct a as [n| |]; try discriminate. cbn [is_node negb app map foldM fst snd]. unfold merge_step at 1. cbn [fst snd].
    replace (existsb _ _) with false.
    2: { symmetry. apply not_true_iff_false. intro Q. apply existsb_exists in Q. destruct Q as ([k' v] & Q & Ek). cbn [fst] in Ek. apply String.eqb_eq in Ek. subst k'.
         apply NoDup_remove_2 in N. apply N. apply in_app_or in Q. destruct Q as [Q|Q]; apply in_or_app; [left|right].
         - apply (in_map fst) in Q. exact Q.
         - apply in_map_iff in Q. destruct Q as ([k2 b] & Eq & Q). apply filter_In in Q. destruct Q as [Q _]. injection Eq as -> _. apply (in_map fst) in Q. exact Q. }
    cbn [bind]. assert (Permutation ((done ++ map (fun kv => (fst kv, kept_arg (snd kv))) (filter (fun kv => negb (is_node (snd kv))) kw)) ++ [(k, CT (tv n))])
      ((done ++ [(k, CT (tv n))]) ++ map (fun kv => (fst kv, kept_arg (snd kv))) (filter (fun kv => negb (is_node (snd kv))) kw))) as P.
    { rewrite <- !app_assoc. apply Permutation_app_head. apply Permutation_app_comm. }
    cbn [value_of]. rewrite (H n) by (apply in_or_app; left; left; reflexivity).
    (* the step commutes with reordering of the keyword arguments *)
    assert (forall l st st' kws kws', Permutation kws kws' -> st = (args, kws) -> st' = (args, kws') ->
      forall r, foldM merge_step (map (fun q => (snd q, tv (fst q))) (flat_map (fun kv => match snd kv with ANode n => [(n, Key (fst kv))] | _ => [] end) l)) st' = Ok (args, r) ->
      exists r', foldM merge_step (map (fun q => (snd q, tv (fst q))) (flat_map (fun kv => match snd kv with ANode n => [(n, Key (fst kv))] | _ => [] end) l)) st = Ok (args, r') /\ Permutation r' r) as K.
    { induction l as [|[k1 a1] l IHl]; intros st st' kws kws' Pk -> -> r R.
      - cbn in R. injection R as <-. exists kws. split; [reflexivity|exact Pk].
      - cbn [flat_map snd fst] in *. destruct a1 as [n1| |]; [|apply (IHl _ _ kws kws' Pk eq_refl eq_refl _ R)|apply (IHl _ _ kws kws' Pk eq_refl eq_refl _ R)].
        cbn [app map foldM fst snd] in *. unfold merge_step at 1 in R. unfold merge_step at 1. cbn [fst snd] in *.
        assert (existsb (fun kv : name * cval V => String.eqb (fst kv) k1) kws = existsb (fun kv => String.eqb (fst kv) k1) kws') as Ex.
        { apply eq_true_iff_eq. rewrite !existsb_exists. split; intros (x & I1 & I2); exists x; (split; [|exact I2]); [apply (Permutation_in _ Pk)|apply (Permutation_in _ (Permutation_sym Pk))]; exact I1. }
        rewrite Ex. destruct (existsb _ kws'); [discriminate|]. cbn [bind] in *. exact (IHl _ _ _ _ (Permutation_app_tail _ Pk) eq_refl eq_refl r R). }
    destruct (IH (done ++ [(k, CT (tv n))])) as (kw' & E1 & E2).
    { rewrite map_app. cbn [map fst]. rewrite <- app_assoc. exact N. }
    destruct (K kw _ _ _ _ P eq_refl eq_refl kw' E1) as (r' & R1 & R2). exists r'. split; [exact R1|]. rewrite R2, E2, <- app_assoc. reflexivity.
  - rewrite <- (kept_value val a E). assert (is_node a = false) as -> by (destruct a; [discriminate| |]; reflexivity). cbn [negb map fst snd].
    destruct (IH (done ++ [(k, kept_arg a)])) as (kw' & E1 & E2).
    { rewrite map_app. cbn [map fst]. rewrite <- app_assoc. exact N. }
    exists kw'. rewrite <- !app_assoc in *. cbn [app] in *. split; [|exact E2]. destruct a as [n| |]; [discriminate| |]; exact E1.
Qed.
End Call.

(* ---- reading nodes ---- *)
Lemma NoDup_app_remove_r {A} (a b : list A) : NoDup (a ++ b) -> NoDup a.
Proof.
  induction a as [|x a IH]; intro N; [constructor|]. inversion N as [|? ? N1 N2]; subst. constructor; [|exact (IH N2)].
  intro I. apply N1, in_or_app. left. exact I.
Qed.
(* the node read for an fx node, without the marks of reuse *)
Definition matches (consts : list nat) (nd : fxnode) (r : rnode) : Prop :=
  r_id r = f_id nd /\ r_target r = f_target nd /\
  match f_op nd with
  | FFunction => r_kind r = KFunctional /\ r_args r = op_call_args nd /\ r_kwargs r = op_call_kwargs nd /\ r_aslist r = inputs_as_list nd /\
                 r_allocs r = tensor_input_alloc nd /\ r_weights r = const_weights consts nd
  | FModule => r_kind r = KModule /\ r_args r = [] /\ r_kwargs r = [] /\ r_weights r = const_weights consts nd
  | FPlaceholder => r_kind r = KPlaceholder /\ r_args r = [] /\ r_kwargs r = [] /\ r_weights r = []
  | _ => False end.

Lemma list_eqb_eq a b : list_eqb a b = true <-> a = b.
Proof.
  revert b. induction a as [|x a IH]; intros [|y b]; cbn [list_eqb]; try (split; congruence).
  rewrite andb_true_iff, Nat.eqb_eq, IH. split; [intros [-> ->]; reflexivity|intro E; injection E; auto].
Qed.
Lemma key_eqb_eq a b : key_eqb a b = true <-> a = b.
Proof. unfold key_eqb. destruct a, b. cbn [fst snd]. rewrite andb_true_iff, Nat.eqb_eq, list_eqb_eq. split; [intros [-> ->]; reflexivity|intro E; injection E; auto]. Qed.

Section ReadInv.
Context (lw : nat -> list nat) (consts : list nat).
(* the reuse key of a node that was read *)
Definition rkey (r : rnode) : nat * list nat :=
  (r_target r, fold_right insert_nat [] ((match r_kind r with KModule => lw (r_target r) | _ => [] end) ++ map snd (r_weights r))).
Lemma rkey_matches nd r : matches consts nd r -> reuse_key lw nd (match f_op nd with FPlaceholder => [] | _ => const_weights consts nd end) = rkey r.
Proof.
  unfold matches, rkey, reuse_key, is_op. intros (E1 & E2 & H). rewrite E2. destruct (f_op nd); try contradiction.
  - destruct H as (-> & _ & _ & ->). reflexivity.
  - destruct H as (-> & _ & _ & _ & _ & ->). reflexivity.
  - destruct H as (-> & _ & _ & ->). reflexivity.
Qed.
Record inv (prog : list fxnode) (rs : list rnode) (seen : list ((nat * list nat) * nat)) : Prop := {
  i_match : Forall2 (matches consts) (filter is_graph_node prog) rs;
  i_seen : forall k n, In (k, n) seen -> exists r, In r rs /\ r_id r = n /\ r_reuse r = false /\ rkey r = k;
  i_group : forall r k, In r rs -> r_group r = Some k -> k = rkey r;
  i_reuse : forall r, In r rs -> r_reuse r = true -> r_group r = Some (rkey r) /\
            exists b, In b rs /\ r_reuse b = false /\ r_group b = Some (rkey r)
}.
Lemma set_group_fields k n r : r_id (set_group k n r) = r_id r /\ r_reuse (set_group k n r) = r_reuse r /\ rkey (set_group k n r) = rkey r /\
  (forall nd, matches consts nd r -> matches consts nd (set_group k n r)) /\
  (r_group (set_group k n r) = if Nat.eqb (r_id r) n then Some k else r_group r).
Proof. unfold set_group. destruct (Nat.eqb (r_id r) n); (split; [reflexivity|]; split; [reflexivity|]; split; [reflexivity|]; split; [intros nd M; exact M|reflexivity]). Qed.
Lemma Forall2_snoc {A B} (P : A -> B -> Prop) l l' x y : Forall2 P l l' -> P x y -> Forall2 P (l ++ [x]) (l' ++ [y]).
Proof. intros H H1. apply Forall2_app; [exact H|constructor; [exact H1|constructor]]. Qed.
Lemma Forall2_map_r {A B} (P : A -> B -> Prop) f l l' : (forall x y, P x y -> P x (f y)) -> Forall2 P l l' -> Forall2 P l (map f l').
Proof. intros H. induction 1; constructor; auto. Qed.
Lemma inv_fresh prog rs seen nd r : inv prog rs seen -> is_graph_node nd = true -> matches consts nd r -> r_reuse r = false -> r_group r = None ->
  inv (prog ++ [nd]) (rs ++ [r]) ((rkey r, f_id nd) :: seen).
Proof.
  intros [I1 I2 I3 I4] G M R1 R2. constructor.
  - rewrite filter_app. cbn [filter]. rewrite G. apply Forall2_snoc; assumption.
  - intros k n [E|I]; [injection E as <- <-; exists r; repeat split; auto; [apply in_or_app; right; left; reflexivity|apply M]|].
    destruct (I2 k n I) as (q & Q & H). exists q. split; [apply in_or_app; left; exact Q|exact H].
  - intros q k I E. apply in_app_or in I. destruct I as [I|[<-|[]]]; [exact (I3 q k I E)|congruence].
  - intros q I E. apply in_app_or in I. destruct I as [I|[<-|[]]]; [|congruence]. destruct (I4 q I E) as (E1 & b & J & E2). split; [exact E1|]. exists b. split; [apply in_or_app; left; exact J|exact E2].
Qed.
Lemma inv_read prog rs seen nd : inv prog rs seen -> NoDup (map f_id (prog ++ [nd])) ->
  let st := read_node lw consts (rs, seen) nd in inv (prog ++ [nd]) (fst st) (snd st).
Proof.
  intros I N st.
  assert (forall r, matches consts nd r -> (r_reuse r = true -> r_group r = Some (rkey r)) -> (r_reuse r = false -> r_group r = None) -> is_graph_node nd = true -> forall base,
     In (rkey r, base) seen -> r_reuse r = true -> inv (prog ++ [nd]) (map (set_group (rkey r) base) rs ++ [r]) seen) as REUSE.
  { intros r M G1 G2 G base B RR. destruct I as [I1 I2 I3 I4]. destruct (I2 _ _ B) as (b & B1 & B2 & B3 & B4).
    assert (forall q, In q rs -> r_id q = base -> q = b) as U.
    { intros q Q E. assert (NoDup (map r_id rs)) as Nr.
      { replace (map r_id rs) with (map f_id (filter is_graph_node prog)).
        - clear - N. rewrite map_app in N. apply NoDup_app_remove_r in N. induction prog as [|x l IH]; [constructor|]. cbn [map filter] in *. inversion N; subst. destruct (is_graph_node x); [|auto]. cbn [map]. constructor; [|auto].
          intro J. apply in_map_iff in J. destruct J as (y & E & J). apply filter_In in J. apply H1. rewrite <- E. apply in_map, J.
        - clear - I1. induction I1 as [|x y l l' H1 _ IH]; [reflexivity|]. cbn [map]. rewrite IH. f_equal. symmetry. apply H1. }
      clear - Nr Q B1 E B2. induction rs as [|x l IH]; [destruct Q|]. cbn [map] in Nr. inversion Nr; subst. destruct Q as [->|Q], B1 as [->|B1]; auto; exfalso; apply H1.
      - rewrite E. apply in_map, B1.
      - rewrite <- E. apply in_map, Q. }
    constructor.
    - rewrite filter_app. cbn [filter]. rewrite G. apply Forall2_snoc; [|exact M]. apply Forall2_map_r; [|exact I1]. intros x y. apply set_group_fields.
    - intros k n J. destruct (I2 k n J) as (q & Q1 & Q2 & Q3 & Q4). exists (set_group (rkey r) base q). destruct (set_group_fields (rkey r) base q) as (F1 & F2 & F3 & _).
      rewrite F1, F2, F3. repeat split; auto. apply in_or_app. left. apply in_map, Q1.
    - intros q k J E. apply in_app_or in J. destruct J as [J|[<-|[]]].
      + apply in_map_iff in J. destruct J as (q0 & <- & J). destruct (set_group_fields (rkey r) base q0) as (F1 & F2 & F3 & _ & F5). rewrite F5 in E. rewrite F3.
        destruct (Nat.eqb_spec (r_id q0) base) as [Eb|_]; [|exact (I3 _ _ J E)]. injection E as <-. rewrite (U q0 J Eb). symmetry. exact B4.
      + specialize (G1 RR). congruence.
    - assert (forall q, In q rs -> r_reuse q = false -> r_group q = Some (rkey q) -> r_group (set_group (rkey r) base q) = Some (rkey q)) as KEEP.
      { intros q Q _ E. destruct (set_group_fields (rkey r) base q) as (_ & _ & _ & _ & F5). rewrite F5. destruct (Nat.eqb_spec (r_id q) base) as [Eb|_]; [|exact E]. rewrite (U q Q Eb), B4. reflexivity. }
      intros q J E. apply in_app_or in J. destruct J as [J|[<-|[]]].
      + apply in_map_iff in J. destruct J as (q0 & <- & J). destruct (set_group_fields (rkey r) base q0) as (F1 & F2 & F3 & _ & F5). rewrite F2 in E. rewrite F3.
        destruct (I4 q0 J E) as (E1 & c & C1 & C2 & C3). split.
        * rewrite F5. destruct (Nat.eqb_spec (r_id q0) base) as [Eb|_]; [|exact E1]. exfalso. rewrite (U q0 J Eb), B3 in E. discriminate.
        * exists (set_group (rkey r) base c). destruct (set_group_fields (rkey r) base c) as (_ & Fc2 & _). split; [apply in_or_app; left; apply in_map, C1|]. rewrite Fc2. split; [exact C2|].
          rewrite (I3 c _ C1 C3). apply KEEP; auto. rewrite <- (I3 c _ C1 C3). exact C3.
      + split; [exact (G1 RR)|]. exists (set_group (rkey r) base b). destruct (set_group_fields (rkey r) base b) as (_ & Fb2 & _ & _ & Fb5).
        split; [apply in_or_app; left; apply in_map, B1|]. rewrite Fb2, Fb5, B2, Nat.eqb_refl. split; [exact B3|reflexivity]. }
  assert (is_graph_node nd = false -> inv (prog ++ [nd]) rs seen) as SKIP.
  { intro G. destruct I as [I1 I2 I3 I4]. constructor; auto. rewrite filter_app. cbn [filter]. rewrite G, app_nil_r. exact I1. }
  unfold st, read_node. destruct (f_op nd) eqn:O; cbn [fst snd].
  2, 5: apply SKIP; unfold is_graph_node, is_op; rewrite O; reflexivity.
  all: assert (is_graph_node nd = true) as G by (unfold is_graph_node, is_op; rewrite O; reflexivity).
  all: match goal with |- context [find (fun p => key_eqb (fst p) ?k) _] => set (key := k) end.
  all: match goal with |- context [R _ ?kd _ ?a ?kw ?al ?tia ?ws] => set (mkr := fun (b : bool) => R (f_id nd) kd (f_target nd) a kw al tia ws b (if b then Some key else None)) end.
  all: assert (forall b, matches consts nd (mkr b)) as M by (intro b; unfold matches, mkr; cbn; rewrite O; repeat split; reflexivity).
  all: assert (forall b, rkey (mkr b) = key) as KK by (intro b; rewrite <- (rkey_matches nd _ (M b)), O; reflexivity).
  all: assert (forall b, r_reuse (mkr b) = b) as RB by reflexivity.
  all: assert (inv (prog ++ [nd]) (rs ++ [mkr false]) ((key, f_id nd) :: seen)) as FR by (rewrite <- (KK false); apply inv_fresh; auto).
  all: destruct (find _ seen) as [[k base]|] eqn:Fd; [|exact FR].
  all: match goal with |- context [if ?c then _ else _] => destruct c; [|exact FR] end.
  all: cbn [fst snd]; fold (mkr true); apply find_some in Fd; destruct Fd as [Fd1 Fd2]; cbn [fst] in Fd2; apply key_eqb_eq in Fd2; subst k;
       rewrite <- (KK true); apply REUSE; auto; [intros _; rewrite KK; reflexivity|discriminate|rewrite KK; exact Fd1].
Qed.
Lemma inv_fold prog : forall done rs seen, inv done rs seen -> NoDup (map f_id (done ++ prog)) ->
  let st := fold_left (read_node lw consts) prog (rs, seen) in inv (done ++ prog) (fst st) (snd st).
Proof.
  induction prog as [|nd prog IH]; intros done rs seen I N; [rewrite app_nil_r; exact I|]. cbn [fold_left].
  replace (done ++ nd :: prog) with ((done ++ [nd]) ++ prog) in * by (rewrite <- app_assoc; reflexivity).
  assert (NoDup (map f_id (done ++ [nd]))) as N1 by (rewrite map_app in N; apply NoDup_app_remove_r in N; exact N).
  pose proof (inv_read done rs seen nd I N1) as I2. destruct (read_node lw consts (rs, seen) nd) as [rs2 seen2]. exact (IH _ _ _ I2 N).
Qed.
End ReadInv.
Lemma read_inv lw prog : NoDup (map f_id prog) -> exists seen, inv lw (const_ids prog) prog (read_nodes lw prog) seen.
Proof.
  intro N. unfold read_nodes. eexists. apply (inv_fold lw (const_ids prog) prog [] [] []); [|exact N].
  constructor; [constructor|intros ? ? []|intros ? ? []|intros ? []].
Qed.

(* ---- the operations registered for the nodes ---- *)
Lemma dict_get_unique {A} (d : list (nat * A)) n a : In (n, a) d -> (forall b, In (n, b) d -> b = a) -> dict_get d n = Some a.
Proof.
  intros I U. unfold dict_get. destruct (find (fun p => Nat.eqb (fst p) n) d) as [[m b]|] eqn:F.
  - apply find_some in F. destruct F as [F1 F2]. cbn [fst] in F2. apply Nat.eqb_eq in F2. subst m. cbn. f_equal. apply U, F1.
  - exfalso. pose proof (find_none _ _ F _ I) as Q. cbn [fst] in Q. rewrite Nat.eqb_refl in Q. discriminate.
Qed.
Lemma modules_registered lw consts prog rs seen nodes : inv lw consts prog rs seen -> NoDup (map r_id rs) -> Permutation nodes rs ->
  exists ops, add_all_modules nodes = Ok ops /\ forall r, In r rs -> dict_get ops (r_id r) = Some (r_target r).
Proof.
  intros [I1 I2 I3 I4] N P. unfold add_all_modules.
  assert (forall l st, incl l rs -> (forall p, In p (fst st) -> exists r, In r rs /\ p = (r_id r, r_target r)) -> (forall k t, In (k, t) (snd st) -> fst k = t) ->
    let st' := fold_left add_new l st in
    (forall p, In p (fst st') -> exists r, In r rs /\ p = (r_id r, r_target r)) /\ (forall k t, In (k, t) (snd st') -> fst k = t) /\
    (forall p, In p (fst st) -> In p (fst st')) /\ (forall p, In p (snd st) -> In p (snd st')) /\
    (forall r, In r l -> r_reuse r = false -> In (r_id r, r_target r) (fst st') /\ forall k, r_group r = Some k -> In (k, r_target r) (snd st'))) as K.
  { induction l as [|r l IH]; intros st L H1 H2; [cbn [fold_left]; split; [exact H1|split; [exact H2|split; [auto|split; [auto|intros ? []]]]]|]. cbn [fold_left].
    assert (In r rs) as Ir by (apply L; left; reflexivity). assert (incl l rs) as L' by (intros x J; apply L; right; exact J).
    destruct (IH (add_new st r)) as (Q1 & Q2 & Q3 & Q4 & Q5); [exact L'| | |].
    - unfold add_new. destruct (r_reuse r); [exact H1|]. cbn [fst]. intros p [<-|J]; [exists r; auto|exact (H1 p J)].
    - unfold add_new. destruct (r_reuse r); [exact H2|]. cbn [snd]. destruct (r_group r) as [k0|] eqn:G; [|exact H2]. intros k t [E|J]; [|exact (H2 k t J)]. injection E as <- <-. rewrite (I3 r k0 Ir G). reflexivity.
    - split; [exact Q1|]. split; [exact Q2|].
      assert (forall p, In p (fst st) -> In p (fst (add_new st r))) as M1 by (intros p J; unfold add_new; destruct (r_reuse r); [exact J|right; exact J]).
      assert (forall p, In p (snd st) -> In p (snd (add_new st r))) as M2 by (intros p J; unfold add_new; destruct (r_reuse r); [exact J|cbn; destruct (r_group r); [right|]; exact J]).
      split; [auto|]. split; [auto|]. intros x [<-|J] E; [|exact (Q5 x J E)]. split.
      + apply Q3. unfold add_new. rewrite E. left. reflexivity.
      + intros k G. apply Q4. unfold add_new. rewrite E, G. left. reflexivity. }
  destruct (K nodes ([], [])) as (Q1 & Q2 & _ & _ & Q5); [intros x J; exact (Permutation_in _ P J)|intros ? []|intros ? ? []|].
  set (st := fold_left add_new nodes ([], [])) in *.
  assert (forall l ops, incl l rs -> (forall p, In p ops -> exists r, In r rs /\ p = (r_id r, r_target r)) -> exists ops', foldM (add_reused (snd st)) l ops = Ok ops' /\
    (forall p, In p ops' -> exists r, In r rs /\ p = (r_id r, r_target r)) /\ (forall p, In p ops -> In p ops') /\ (forall r, In r l -> r_reuse r = true -> In (r_id r, r_target r) ops')) as K2.
  { induction l as [|r l IH]; intros ops L H; [exists ops; split; [reflexivity|split; [exact H|split; [auto|intros ? []]]]|].
    assert (In r rs) as Ir by (apply L; left; reflexivity). assert (incl l rs) as L' by (intros x J; apply L; right; exact J).
    cbn [foldM]. unfold add_reused at 1. destruct (r_reuse r) eqn:E.
    - destruct (I4 r Ir E) as (G & b & B1 & B2 & B3). rewrite G.
      destruct (Q5 b (Permutation_in _ (Permutation_sym P) B1) B2) as [_ Q6]. specialize (Q6 _ B3).
      destruct (find (fun p => key_eqb (fst p) (rkey lw r)) (snd st)) as [[k t]|] eqn:F.
      + apply find_some in F. destruct F as [F1 F2]. cbn [fst] in F2. apply key_eqb_eq in F2. subst k. pose proof (Q2 _ _ F1) as T. cbn [rkey fst] in T. subst t. cbn [bind].
        destruct (IH ((r_id r, r_target r) :: ops) L') as (o & O1 & O2 & O3 & O4).
        { intros p [<-|J]; [exists r; auto|exact (H p J)]. }
        exists o. split; [exact O1|]. split; [exact O2|]. split; [intros p J; apply O3; right; exact J|]. intros x [<-|J] Ex; [apply O3; left; reflexivity|exact (O4 x J Ex)].
      + exfalso. pose proof (find_none _ _ F _ Q6) as Q. cbn [fst] in Q. rewrite (proj2 (key_eqb_eq _ _) eq_refl) in Q. discriminate.
    - cbn [bind]. destruct (IH ops L' H) as (o & O1 & O2 & O3 & O4). exists o. split; [exact O1|]. split; [exact O2|]. split; [exact O3|]. intros x [<-|J] Ex; [congruence|exact (O4 x J Ex)]. }
  destruct (K2 nodes (fst st)) as (ops & O1 & O2 & O3 & O4); [intros x J; exact (Permutation_in _ P J)|exact Q1|].
  exists ops. split; [exact O1|]. intros r Ir. pose proof (Permutation_in _ (Permutation_sym P) Ir) as Jn. apply dict_get_unique.
  - destruct (r_reuse r) eqn:E; [exact (O4 r Jn E)|]. apply O3. exact (proj1 (Q5 r Jn E)).
  - intros t J. destruct (O2 _ J) as (q & Iq & E). injection E as E1 E2. rewrite E2. f_equal.
    clear - N Ir Iq E1. induction rs as [|x l IH]; [destruct Ir|]. cbn [map] in N. inversion N; subst. destruct Ir as [->|Ir], Iq as [->|Iq]; auto; exfalso; apply H1.
    + rewrite E1. apply in_map, Iq.
    + rewrite <- E1. apply in_map, Ir.
Qed.

(* ---- one call ---- *)
Lemma const_weights_perm prog nd : wf_prog prog -> In nd prog -> plain (const_ids prog) nd -> f_op nd = FFunction \/ f_op nd = FModule ->
  Permutation (const_weights (const_ids prog) nd) (filter (fun p => mem (snd p) (const_ids prog)) (enumerate_from 0 (occ nd))).
Proof.
  intros W I P O. set (cs := const_ids prog).
  assert (first_list nd = None -> forall z k, repeats_last z k (occ nd) -> k <= 1 \/ ~ In z cs ->
    const_weights cs nd = filter (fun p => mem (snd p) cs) (enumerate_from 0 (occ nd))) as K.
  { intros F z k (pre & Nz & E) Hk. unfold const_weights. rewrite F, ains_occ. inversion Nz as [|? ? Z1 Z2]; subst x l.
    rewrite E, firsts_app, firsts_repeat; [|exact Z2|intros x J Q; apply repeat_spec in Q; congruence].
    destruct k as [|[|k]]; [reflexivity|reflexivity|]. rewrite !enumerate_app, !filter_app. f_equal. cbn [enumerate_from filter snd repeat].
    assert (mem z cs = false) as -> by (apply mem_false; destruct Hk as [Hk|Hk]; [lia|exact Hk]). symmetry. apply filter_nil. intros [i n] J.
    apply enumerate_in in J. cbn [snd] in *. apply repeat_spec in J. subst n. apply mem_false. destruct Hk as [Hk|Hk]; [lia|exact Hk]. }
  destruct P as [Ps|Ps|z k Po Fa Fk Nk Fl Rp Hk|z k l rest Po Ea Er Ek Rp|z k l Po Ea Ek Rp Hk].
  - destruct O as [O|O], Ps as [Ps|Ps]; congruence.
  - destruct O as [O|O]; congruence.
  - destruct Fl as [F|[F C]]; [rewrite (K F z k Rp) by (destruct Hk as [Hk|[_ Hk]]; auto); reflexivity|].
    rewrite (filter_nil _ (enumerate_from 0 (occ nd))) by (intros p J; apply mem_false, C, (enumerate_in _ 0), J).
    unfold const_weights. destruct (first_list nd) as [l|].
    + rewrite (flat_map_ext_in _ (fun _ => [])); [rewrite flat_map_empty; reflexivity|]. intros n J. rewrite ains_occ in J. apply (proj1 (firsts_in _ _)) in J.
      assert (mem n cs = false) as -> by (apply mem_false, C, J). reflexivity.
    + rewrite filter_nil; [reflexivity|]. intros p J. apply enumerate_in in J. rewrite ains_occ in J. apply (proj1 (firsts_in _ _)) in J. apply mem_false, C, J.
  - assert (occ nd = l) as Eo. { unfold occ. rewrite Ea, Ek. unfold nodes_in in *. cbn [flat_map arg_nodes]. rewrite Er, !app_nil_r. apply nodes_in_nodes. }
    unfold const_weights, first_list. rewrite ains_occ, Ea, Eo.
    assert (forall n, map (fun i => (i, n)) (positions_of n (map ANode l)) = filter (fun p => Nat.eqb (snd p) n) (enumerate_from 0 l)) as Q.
    { intro n. unfold positions_of. generalize 0. clear. induction l as [|x l IH]; intro j; [reflexivity|]. cbn [map enumerate_from filter snd arg_is]. destruct (Nat.eqb_spec x n) as [->|_]; [|apply IH]. cbn [map fst]. f_equal. apply IH. }
    rewrite (flat_map_ext _ (fun n => filter (fun p => Nat.eqb (snd p) n) (filter (fun p => mem (snd p) cs) (enumerate_from 0 l)))).
    + apply (group_perm snd); [apply firsts_nodup|]. intros p J. apply filter_In in J. destruct J as [J _]. apply firsts_in. apply (enumerate_in _ 0), J.
    + intro n. rewrite Q, <- filter_and. fold cs. destruct (mem n cs) eqn:M.
      * apply filter_ext. intro p. destruct (Nat.eqb_spec (snd p) n) as [->|_]; [rewrite M|rewrite andb_false_r]; reflexivity.
      * symmetry. apply filter_nil. intros p J. destruct (Nat.eqb_spec (snd p) n) as [->|_]; [rewrite M; reflexivity|apply andb_false_r].
  - assert (occ nd = l) as Eo. { unfold occ. rewrite Ea, Ek, nodes_in_nodes. apply app_nil_r. }
    assert (first_list nd = None) as F. { unfold first_list. rewrite Ea. destruct l; reflexivity. }
    rewrite (K F z k); [reflexivity|rewrite Eo; exact Rp|exact Hk].
Qed.
Lemma nodes_free_filter l : nodes_in l = [] -> filter (fun a => negb (is_node a)) l = l.
Proof.
  intro H. apply filter_all. intros a I. destruct a as [n| |]; [|reflexivity|reflexivity]. exfalso.
  assert (In n (nodes_in l)) as J by (unfold nodes_in; apply in_flat_map; exists (ANode n); split; [exact I|left; reflexivity]). rewrite H in J. exact J.
Qed.
Lemma kw_free_filter (kw : list (name * arg)) : nodes_in (map snd kw) = [] -> filter (fun kv => negb (is_node (snd kv))) kw = kw.
Proof.
  intro H. apply filter_all. intros [k a] I. cbn [snd]. destruct a as [n| |]; [|reflexivity|reflexivity]. exfalso.
  assert (In n (nodes_in (map snd kw))) as J by (unfold nodes_in; apply in_flat_map; exists (ANode n); split; [apply (in_map snd) in I; exact I|left; reflexivity]). rewrite H in J. exact J.
Qed.
Lemma kw_kept {V} (val : nat -> ores V) (kw : list (name * arg)) : nodes_in (map snd kw) = [] -> map (fun kv => (fst kv, kept_arg (snd kv))) kw = map (fun kv => (fst kv, value_of val (snd kv))) kw.
Proof.
  intro H. apply map_ext_in. intros [k a] I. cbn [fst snd]. f_equal. apply kept_value. unfold no_nodes. unfold nodes_in in H.
  destruct (arg_nodes a) as [|n r] eqn:E; [reflexivity|]. exfalso. assert (In n (flat_map arg_nodes (map snd kw))) as J; [|rewrite H in J; exact J].
  apply in_flat_map. exists a. split; [apply (in_map snd) in I; exact I|rewrite E; left; reflexivity].
Qed.
Section RunCall.
Context {V : Type} (op : nat -> list (cval V) -> list (name * cval V) -> ores V) (cst : nat -> V) (quant : nat -> option (V -> V)) (cat : list V -> V).
Lemma call_runs prog nd r (val : nat -> ores V) (tv : nat -> V) (rv : V) : keyword_order_free op -> wf_prog prog -> In nd prog -> plain (const_ids prog) nd ->
  f_op nd = FFunction \/ f_op nd = FModule -> matches (const_ids prog) nd r ->
  (forall n, In n (occ nd) -> val n = One (tv n)) -> (forall n, In n (const_ids prog) -> val n = One (cst n)) ->
  op (f_target nd) (map (value_of val) (f_args nd)) (map (fun kv => (fst kv, value_of val (snd kv))) (f_kwargs nd)) = One rv ->
  run_operation cst quant cat (op (f_target nd)) r (map tv (filter (fun n => mem n (graph_ids prog)) (occ nd)))
  = Ok ([match quant (f_id nd) with Some q => q rv | None => rv end], [rv]).
Proof.
  intros KF W I P O M Hv Hc Hr. unfold run_operation.
  assert (r_weights r = const_weights (const_ids prog) nd) as Ew by (unfold matches in M; destruct O as [O|O]; rewrite O in M; apply M).
  rewrite Ew, (weights_inserted cst tv (const_ids prog) _ (occ nd)).
  2: { intros n J. destruct W as [N W]. destruct (W nd n I) as [G|C]; [rewrite ains_occ; apply firsts_in, J| |].
       - rewrite (proj2 (mem_spec _ _) G). destruct (mem n (const_ids prog)) eqn:Q; [|reflexivity]. apply mem_spec in Q. exfalso. exact (const_not_graph prog n N G Q).
       - rewrite (proj2 (mem_spec _ _) C). apply mem_false. intro G. exact (const_not_graph prog n N G C). }
  2: { intros n J C. pose proof (Hv n J) as E1. rewrite (Hc n C) in E1. injection E1 as ->. reflexivity. }
  2: { apply const_weights_perm; assumption. }
  cbn [bind].
  assert (r_id r = f_id nd) as Ei by apply M. rewrite Ei.
  match goal with |- bind ?x _ = _ => assert (x = Ok (One rv)) as -> end; [|cbn [bind]; destruct (quant (f_id nd)); reflexivity].
  destruct P as [Ps|Ps|z k Po Fa Fk Nk Fl Rp Hk|z k l rest Po Ea Er Ek Rp|z k l Po Ea Ek Rp Hk].
  - destruct O as [O'|O'], Ps as [Ps|Ps]; congruence.
  - destruct O as [O'|O']; congruence.
  - unfold matches in M. rewrite Po in M. destruct M as (_ & _ & Mkd & Ma & Mk & Ml & Mt & _). rewrite Mkd.
    assert (inputs_as_list nd = false) as As by (destruct Fl as [F|[F _]]; [unfold inputs_as_list; rewrite F; reflexivity|exact F]).
    assert (tensor_args nd = f_args nd) as Ta by (unfold tensor_args; rewrite As; destruct (first_list nd); reflexivity).
    rewrite Ml, As. pose proof (alloc_tagged nd z k Ta Fa Fk Rp) as Al. unfold merge_inputs. rewrite Mkd, Mt, Al, Ma, Mk.
    assert (op_call_args nd = filter (fun a => negb (is_node a)) (f_args nd)) as Eoa by (unfold op_call_args; rewrite As; reflexivity).
    assert (combine (map snd (tagged 0 (f_args nd) ++ ktagged (f_kwargs nd))) (map tv (occ nd)) = map (fun q => (snd q, tv (fst q))) (tagged 0 (f_args nd) ++ ktagged (f_kwargs nd))) as Ec.
    { replace (occ nd) with (map fst (tagged 0 (f_args nd) ++ ktagged (f_kwargs nd))) by (rewrite map_app, tagged_nodes, ktagged_nodes by assumption; reflexivity).
      generalize (tagged 0 (f_args nd) ++ ktagged (f_kwargs nd)). clear. induction l as [|x l IH]; [reflexivity|]. cbn [map combine]. rewrite IH. reflexivity. }
    assert (exists kw', foldM (merge_step (V := V)) (map (fun q => (snd q, tv (fst q))) (tagged 0 (f_args nd) ++ ktagged (f_kwargs nd)))
      (map kept_arg (op_call_args nd), map (fun kv => (fst kv, kept_arg (snd kv))) (op_call_kwargs nd)) = Ok (map (value_of val) (f_args nd), kw') /\
      Permutation kw' (map (fun kv => (fst kv, value_of val (snd kv))) (f_kwargs nd))) as (kw' & F1 & F2).
    { rewrite map_app, foldM_app, Eoa. pose proof (merge_args tv val (f_args nd) Fa) as Q. specialize (Q ltac:(intros n J; apply Hv, in_or_app; left; exact J) [] (map (fun kv => (fst kv, kept_arg (snd kv))) (op_call_kwargs nd))).
      cbn [length app] in Q. rewrite Q. cbn [bind].
      destruct (merge_kwargs tv val (f_kwargs nd) Fk ltac:(intros n J; apply Hv, in_or_app; right; exact J) (map (value_of val) (f_args nd)) [] Nk) as (kw' & K1 & K2).
      exists kw'. split; [exact K1|exact K2]. }
    assert (NoDup (map fst kw')) as Nkw.
    { apply (Permutation_NoDup (l := map fst (map (fun kv => (fst kv, value_of val (snd kv))) (f_kwargs nd)))); [apply Permutation_map; symmetry; exact F2|]. rewrite map_map. exact Nk. }
    destruct (map snd (tagged 0 (f_args nd) ++ ktagged (f_kwargs nd))) as [|x xs] eqn:Et.
    + apply map_eq_nil in Et. rewrite Et in F1. cbn [map foldM] in F1. injection F1 as F1a F1b.
      assert (occ nd = []) as Eon.
      { transitivity (map fst (tagged 0 (f_args nd) ++ ktagged (f_kwargs nd))); [rewrite map_app, tagged_nodes, ktagged_nodes by assumption; reflexivity|]. rewrite Et. reflexivity. }
      rewrite Eon.
      cbn [map app bind fst snd]. f_equal. rewrite F1a, F1b. rewrite (KF _ _ _ _ F2 Nkw). exact Hr.
    + rewrite Ec. change (foldM _ _ _) with (foldM (merge_step (V := V)) (map (fun q => (snd q, tv (fst q))) (tagged 0 (f_args nd) ++ ktagged (f_kwargs nd)))
        (map kept_arg (op_call_args nd), map (fun kv => (fst kv, kept_arg (snd kv))) (op_call_kwargs nd))). rewrite F1. cbn [bind fst snd]. f_equal. rewrite (KF _ _ _ _ F2 Nkw). exact Hr.
  - assert (occ nd = l) as Eo. { unfold occ. rewrite Ea, Ek. unfold nodes_in in *. cbn [flat_map arg_nodes]. rewrite Er, !app_nil_r. apply nodes_in_nodes. }
    assert (inputs_as_list nd = true) as As. { unfold inputs_as_list, first_list. rewrite Ea. clear. induction l; [reflexivity|assumption]. }
    unfold matches in M. rewrite Po in M. destruct M as (_ & _ & -> & -> & -> & -> & _ & _). rewrite As. f_equal. rewrite <- Hr. f_equal.
    + rewrite Ea. cbn [map value_of]. f_equal.
      * f_equal. rewrite map_map, map_map, Eo. apply map_ext_in. intros n J. cbn [value_of]. rewrite (Hv n) by (rewrite Eo; exact J). reflexivity.
      * unfold op_call_args. rewrite As, Ea. cbn [tl]. rewrite (nodes_free_filter rest Er). apply kept_values, Er.
    + unfold op_call_kwargs. rewrite (kw_free_filter _ Ek). apply kw_kept, Ek.
  - assert (occ nd = l) as Eo. { unfold occ. rewrite Ea, Ek, nodes_in_nodes. apply app_nil_r. }
    unfold matches in M. rewrite Po in M. destruct M as (_ & _ & Mk & Ma & Mkw & _). rewrite Mk. unfold merge_inputs. rewrite Mk, Ma, Mkw. cbn [map bind fst snd]. f_equal.
    rewrite <- Hr, Ea, Ek, app_nil_r. cbn [map]. f_equal. rewrite map_map, map_map, Eo. apply map_ext_in. intros n J. cbn [value_of]. rewrite (Hv n) by (rewrite Eo; exact J). reflexivity.
Qed.
End RunCall.
