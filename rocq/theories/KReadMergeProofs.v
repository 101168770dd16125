(* KReadMergeProofs.v -- lists of edges with elements added and removed; the edges of merged graphs (for KReadProofs). *)
From Coq Require Import Permutation Sorted Lia.
From Verif Require Import Base GraphModel GraphSpec GraphProofs FxProofs KReadModel KReadSpec.
Open Scope res_scope.
Local Open Scope nat_scope.

Lemma foldM_flat_map {A B S} (f : S -> B -> result S) (h : A -> list B) l : forall s,
  foldM f (flat_map h l) s = foldM (fun s x => foldM f (h x) s) l s.
Proof. induction l as [|x l IH]; intro s; [reflexivity|]. cbn [flat_map foldM]. rewrite foldM_app. destruct (foldM f (h x) s); cbn [bind]; [apply IH|reflexivity]. Qed.
Lemma foldM_map {A B S} (f : S -> B -> result S) (h : A -> B) l : forall s,
  foldM f (map h l) s = foldM (fun s x => f s (h x)) l s.
Proof. induction l as [|x l IH]; intro s; [reflexivity|]. cbn [map foldM]. destruct (f s (h x)); cbn [bind]; [apply IH|reflexivity]. Qed.
Lemma foldM_ext2 {A S} (f h : S -> A -> result S) l : (forall s x, In x l -> f s x = h s x) -> forall s, foldM f l s = foldM h l s.
Proof. induction l as [|x l IH]; intros H s; [reflexivity|]. cbn [foldM]. rewrite (H s x (or_introl eq_refl)). destruct (h s x); cbn [bind]; [apply IH; intros; apply H; right; assumption|reflexivity]. Qed.
Lemma foldM_filter {A S} (f : S -> A -> result S) (p : A -> bool) l : forall s,
  foldM f (filter p l) s = foldM (fun s x => if p x then f s x else Ok s) l s.
Proof. induction l as [|x l IH]; intro s; [reflexivity|]. cbn [filter foldM]. destruct (p x); cbn [foldM bind]; [destruct (f s x); cbn [bind]; [apply IH|reflexivity]|apply IH]. Qed.

(* ---- adding and removing ---- *)
Record lop := LO { o_add : list edge; o_rem : edge; o_is : edge -> bool }.
Definition lstep (res : list edge) (o : lop) : result (list edge) := remove_by (o_is o) (res ++ o_add o).
Definition universe (ops : list lop) (res : list edge) := res ++ flat_map o_add ops.
Definition exact (ops : list lop) (U : list edge) : Prop := forall o y, In o ops -> In y U -> o_is o y = true -> y = o_rem o.

Lemma lstep_perm o res res' : lstep res o = Ok res' -> (forall y, In y (res ++ o_add o) -> o_is o y = true -> y = o_rem o) ->
  Permutation (res ++ o_add o) (o_rem o :: res').
Proof.
  unfold lstep, remove_by. destruct (remove_first _ _) as [r|] eqn:E; [|discriminate]. intro X. injection X as <-. intro H.
  apply remove_first_spec in E. destruct E as (a & x & b & E1 & -> & E3 & _).
  assert (x = o_rem o) as -> by (apply H; [rewrite E1; apply in_or_app; right; left; reflexivity|exact E3]).
  rewrite E1. symmetry. apply Permutation_middle.
Qed.
Lemma universe_step o ops res res' : Permutation (res ++ o_add o) (o_rem o :: res') -> incl (universe ops res') (universe (o :: ops) res).
Proof.
  intros P y I. unfold universe in *. cbn [flat_map]. rewrite app_assoc. apply in_app_or in I. apply in_or_app. destruct I as [I|I]; [left|right; exact I].
  apply (Permutation_in _ (Permutation_sym P)). right. exact I.
Qed.
Lemma run_perm ops : forall res res', exact ops (universe ops res) -> foldM lstep ops res = Ok res' ->
  Permutation (res ++ flat_map o_add ops) (map o_rem ops ++ res').
Proof.
  induction ops as [|o ops IH]; intros res res' X H; [cbn in *; injection H as <-; rewrite app_nil_r; reflexivity|].
  cbn [foldM] in H. destruct (lstep res o) as [r1|] eqn:E; cbn [bind] in H; [|discriminate].
  pose proof (lstep_perm _ _ _ E) as P. assert (Permutation (res ++ o_add o) (o_rem o :: r1)) as P1.
  { apply P. intros y I. apply X; [left; reflexivity|]. unfold universe. cbn [flat_map]. rewrite app_assoc. apply in_or_app. left. exact I. }
  cbn [flat_map map app]. rewrite app_assoc. rewrite P1. cbn [app]. constructor. apply IH; [|exact H].
  intros o' y I J. apply X; [right; exact I|]. apply (universe_step _ _ _ _ P1), J.
Qed.
Lemma run_total ops : forall res rest, exact ops (universe ops res) -> (forall o, In o ops -> o_is o (o_rem o) = true) ->
  Permutation res (map o_rem ops ++ rest) -> exists res', foldM lstep ops res = Ok res'.
Proof.
  induction ops as [|o ops IH]; intros res rest X S0 P; [eexists; reflexivity|]. cbn [foldM].
  destruct (lstep res o) as [r1|] eqn:E.
  - cbn [bind]. assert (Permutation (res ++ o_add o) (o_rem o :: r1)) as P1.
    { apply lstep_perm; [exact E|]. intros y I. apply X; [left; reflexivity|]. unfold universe. cbn [flat_map]. rewrite app_assoc. apply in_or_app. left. exact I. }
    apply (IH r1 (rest ++ o_add o)).
    + intros o' y I J. apply X; [right; exact I|]. apply (universe_step _ _ _ _ P1), J.
    + intros; apply S0; right; assumption.
    + apply (Permutation_cons_inv (a := o_rem o)). rewrite <- P1, P. cbn [map app]. rewrite <- app_assoc. reflexivity.
  - exfalso. unfold lstep, remove_by in E. destruct (remove_first _ _) eqn:F; [discriminate|]. apply (proj1 (remove_first_none _ _)) with (x := o_rem o) in F.
    + rewrite S0 in F; [discriminate|left; reflexivity].
    + apply in_or_app. left. apply (Permutation_in _ (Permutation_sym P)). left. reflexivity.
Qed.
Lemma run_fails ops : forall res, (exists o, In o ops /\ forall y, In y (universe ops res) -> o_is o y = false) -> foldM lstep ops res = Err E_value.
Proof.
  induction ops as [|o ops IH]; intros res (o' & I & F); [destruct I|]. cbn [foldM]. unfold lstep at 1, remove_by. destruct (remove_first (o_is o) (res ++ o_add o)) as [r|] eqn:E; [|reflexivity].
  cbn [bind]. apply IH. pose proof (remove_first_spec _ _ _ E) as (a & x & b & E1 & E2 & E3 & _). exists o'. destruct I as [<-|I].
  - exfalso. rewrite F in E3; [discriminate|]. unfold universe. cbn [flat_map]. rewrite app_assoc, E1. apply in_or_app. left. apply in_or_app. right. left. reflexivity.
  - split; [exact I|]. intros y J. apply F. unfold universe in *. cbn [flat_map]. rewrite app_assoc, E1. apply in_app_or in J. apply in_or_app. destruct J as [J|J]; [left|right; exact J].
    subst r. apply in_app_or in J. apply in_or_app. destruct J; [left|right; right]; assumption.
Qed.

(* ---- the edges into a node ---- *)
Definition eds (n : nat) (ss : list (nat * nat)) : list edge :=
  map (fun x => Edge (fst (snd x)) n (snd (snd x)) (fst x)) (enumerate_from 0 ss).
Definition lift (f : nat * nat -> nat * nat) (e : edge) : edge :=
  let s := f (src e, si e) in Edge (fst s) (snk e) (snd s) (ti e).
Definition wires (ns : list nat) (feed : nat -> list (nat * nat)) : list edge := flat_map (fun n => eds n (feed n)) ns.

Lemma eds_gen n ss : forall i, map (fun x : nat * (nat * nat) => Edge (fst (snd x)) n (snd (snd x)) (fst x)) (enumerate_from i ss)
  = map (fun j => Edge (fst (nth (j - i) ss (0,0))) n (snd (nth (j - i) ss (0,0))) j) (seq i (length ss)).
Proof.
  induction ss as [|s ss IH]; intro i; [reflexivity|]. cbn [enumerate_from map length seq]. rewrite Nat.sub_diag. f_equal. rewrite IH. apply map_ext_in. intros j J. apply in_seq in J.
  replace (j - i) with (S (j - S i)) by lia. reflexivity.
Qed.
Lemma eds_in n ss e : In e (eds n ss) <-> snk e = n /\ nth_error ss (ti e) = Some (src e, si e).
Proof.
  unfold eds. rewrite eds_gen, in_map_iff. split.
  - intros (j & <- & J). cbn. split; [reflexivity|]. apply in_seq in J. rewrite Nat.sub_0_r. rewrite (nth_error_nth' ss (0,0)) by lia. rewrite <- surjective_pairing. reflexivity.
  - intros (<- & E). exists (ti e). rewrite Nat.sub_0_r. rewrite (nth_error_nth _ _ (0,0) E). split; [destruct e; reflexivity|]. apply in_seq. pose proof (proj1 (nth_error_Some ss (ti e))) as L. rewrite E in L. specialize (L ltac:(discriminate)). lia.
Qed.
Lemma eds_sorted n ss : StronglySorted (fun a b => ti a < ti b) (eds n ss).
Proof. apply sorted_map. unfold eds. rewrite map_map. cbn. pose proof (@enumerate_sorted (nat*nat) (fun _ => true) ss 0) as S1. rewrite filter_all in S1 by reflexivity.
  induction S1 as [|a l S1 IH F]; cbn; constructor; [exact IH|]. rewrite Forall_forall in *. intros y Y. apply in_map_iff in Y. destruct Y as (x & <- & X). apply F, X. Qed.
Lemma eds_map f n ss : eds n (map f ss) = map (lift f) (eds n ss).
Proof. unfold eds. rewrite map_map. generalize 0. induction ss as [|s ss IH]; intro i; [reflexivity|]. cbn. rewrite IH. destruct s. reflexivity. Qed.
Lemma eds_nodup n ss : NoDup (eds n ss).
Proof. generalize (eds_sorted n ss). induction 1 as [|a l S1 IH F]; constructor; [|exact IH]. rewrite Forall_forall in F. intro I. specialize (F _ I). lia. Qed.
Lemma eds_values {V} (val : nat -> nat -> V) n ss : map (fun e => val (src e) (si e)) (eds n ss) = map (fun s => val (fst s) (snd s)) ss.
Proof. unfold eds. rewrite map_map. cbn. generalize 0. induction ss as [|s ss IH]; intro i; [reflexivity|]. cbn. rewrite IH. reflexivity. Qed.
Lemma wires_filter ns feed n : NoDup ns -> In n ns -> filter (fun e => Nat.eqb (snk e) n) (wires ns feed) = eds n (feed n).
Proof.
  intros N I. unfold wires. assert (forall m, In m ns -> m <> n -> filter (fun e => Nat.eqb (snk e) n) (eds m (feed m)) = []) as H0.
  { intros m _ M. apply filter_nil. intros e J. apply eds_in in J. destruct J as [<- _]. apply Nat.eqb_neq. exact M. }
  assert (filter (fun e => Nat.eqb (snk e) n) (eds n (feed n)) = eds n (feed n)) as H1.
  { apply filter_all. intros e J. apply eds_in in J. destruct J as [-> _]. apply Nat.eqb_refl. }
  induction N as [|m ns N1 N2 IH]; [destruct I|]. cbn [flat_map]. rewrite filter_app. destruct (Nat.eq_dec m n) as [->|D].
  - rewrite H1. rewrite (flat_map_concat_map _ ns). rewrite <- app_nil_r. f_equal.
    assert (forall l, ~ In n l -> (forall m, In m l -> m <> n -> filter (fun e => Nat.eqb (snk e) n) (eds m (feed m)) = []) -> filter (fun e => Nat.eqb (snk e) n) (concat (map (fun n => eds n (feed n)) l)) = []) as G.
    { clear. induction l as [|m l IH]; intros H J; [reflexivity|]. cbn. rewrite filter_app, J, IH; [reflexivity| | |left; reflexivity|]; [intro; apply H; right; assumption|intros; apply J; [right|]; assumption|intros ->; apply H; left; reflexivity]. }
    apply G; [exact N1|]. intros; apply H0; [right|]; assumption.
  - rewrite H0 by (try (left; reflexivity); assumption). cbn [app]. apply IH; [destruct I; [contradiction|assumption]|]. intros; apply H0; [right|]; assumption.
Qed.
Lemma wires_in ns feed e : In e (wires ns feed) <-> In (snk e) ns /\ nth_error (feed (snk e)) (ti e) = Some (src e, si e).
Proof. unfold wires. rewrite in_flat_map. split; [intros (n & I & J); apply eds_in in J; destruct J as [<- J]; split; assumption|intros [I J]; exists (snk e); split; [exact I|apply eds_in; split; [reflexivity|exact J]]]. Qed.
Lemma wires_key ns feed : (forall n, In n ns -> NoDup (feed n)) -> forall a b, In a (wires ns feed) -> In b (wires ns feed) ->
  src a = src b -> snk a = snk b -> si a = si b -> a = b.
Proof.
  intros N a b A B E1 E2 E3. apply wires_in in A. apply wires_in in B. destruct A as [A1 A2], B as [B1 B2]. rewrite <- E2 in B2. rewrite <- E1, <- E3 in B2.
  assert (ti a = ti b). { apply (proj1 (NoDup_nth_error _) (N _ A1)); [apply nth_error_Some; congruence|congruence]. }
  destruct a, b; cbn in *; congruence.
Qed.
Lemma perm_wires ns ns' feed : Permutation ns ns' -> Permutation (wires ns feed) (wires ns' feed).
Proof. intro P. unfold wires. apply Permutation_flat_map. exact P. Qed.

(* what a node reads *)
Lemma reads_wired {V} (val : nat -> nat -> V) g feed n l : NoDup (g_nodes g) -> Permutation (g_edges g) (wires (g_nodes g) feed) -> In n (g_nodes g) ->
  (reads g val n l <-> l = map (fun s => val (fst s) (snd s)) (feed n)).
Proof.
  intros N P I. pose proof (filter_perm (fun e => Nat.eqb (snk e) n) _ _ P) as Q. rewrite (wires_filter _ _ _ N I) in Q. unfold reads. rewrite <- (eds_values val n). split.
  - intros (es & P1 & S1 & ->). f_equal. rewrite Q in P1. apply (sorted_unique ti); [exact P1|exact S1|]. apply eds_sorted.
  - intros ->. exists (eds n (feed n)). split; [symmetry; exact Q|]. split; [|reflexivity].
    generalize (eds_sorted n (feed n)). clear. induction 1 as [|a l S1 IH F]; constructor; [exact IH|]. eapply Forall_impl; [|exact F]. cbn. intros; lia.
Qed.

(* ---- making a graph ---- *)
Lemma add_nodes_spec ns : forall g, NoDup (g_nodes g ++ ns) -> fold_left add_node_nx ns g = Graph (g_nodes g ++ ns) (g_edges g) (g_in g) (g_out g).
Proof.
  induction ns as [|n ns IH]; intros g N; [cbn; rewrite app_nil_r; destruct g; reflexivity|]. cbn [fold_left].
  assert (add_node_nx g n = set_nodes g (g_nodes g ++ [n])) as ->.
  { unfold add_node_nx. replace (mem n (g_nodes g)) with false; [reflexivity|]. symmetry. apply mem_false. intro I. apply NoDup_remove_2 in N. apply N. apply in_or_app. left. exact I. }
  rewrite IH; cbn; rewrite <- app_assoc; [reflexivity|exact N].
Qed.
Lemma add_edges_spec es : forall g, (forall e, In e es -> In (src e) (g_nodes g) /\ In (snk e) (g_nodes g)) ->
  fold_left add_edge_nx es g = Graph (g_nodes g) (g_edges g ++ es) (g_in g) (g_out g).
Proof.
  induction es as [|e es IH]; intros g H; [cbn; rewrite app_nil_r; destruct g; reflexivity|]. cbn [fold_left].
  destruct (H e (or_introl eq_refl)) as [H1 H2]. unfold add_edge_nx at 2. rewrite (add_node_known g (src e)) by exact H1. rewrite (add_node_known g (snk e)) by exact H2.
  rewrite IH; cbn; [rewrite <- app_assoc; reflexivity|]. intros; apply H; right; assumption.
Qed.
Lemma make_graph_spec ns es i o : NoDup ns -> (forall e, In e es -> In (src e) ns /\ In (snk e) ns) -> make_graph ns es i o = Graph ns es i o.
Proof. intros N H. unfold make_graph. rewrite add_nodes_spec by exact N. rewrite add_edges_spec by exact H. reflexivity. Qed.
Lemma all_edges_perm g : NoDup (g_nodes g) -> (forall e, In e (g_edges g) -> In (src e) (g_nodes g)) -> Permutation (all_edges g) (g_edges g).
Proof.
  intros N H. unfold all_edges. eapply Permutation_trans; [|apply (group_perm src (g_nodes g) N (g_edges g) H)].
  generalize (g_nodes g). induction l as [|n l IH]; [constructor|]. cbn. apply Permutation_app; [apply out_edges_perm|exact IH].
Qed.

(* ---- merging ---- *)
Record flat (g : graph) (feed : nat -> list (nat * nat)) : Prop := {
  f_nodes : NoDup (g_nodes g);
  f_edges : Permutation (g_edges g) (wires (g_nodes g) feed);
  f_src : forall n s, In n (g_nodes g) -> In s (feed n) -> In (fst s) (g_nodes g) /\ fst s <> n;
  f_once : forall n, In n (g_nodes g) -> NoDup (feed n);
  f_ins : NoDup (g_in g);
  f_ins_in : incl (g_in g) (g_nodes g);
  f_ins_feed : forall n, In n (g_in g) -> feed n = [];
  f_zero : forall n s, In n (g_nodes g) -> In s (feed n) -> In (fst s) (g_in g) -> snd s = 0;
  f_outs : forall o, In o (g_out g) -> In (fst o) (g_nodes g)
}.
Fixpoint pos (x : nat) (l : list nat) : option nat :=
  match l with [] => None | y :: r => if Nat.eqb y x then Some 0 else option_map S (pos x r) end.
Definition out_of (u : nat) (outs : list (nat * nat)) (s : nat * nat) : nat * nat :=
  if Nat.eqb (fst s) u then nth (snd s) outs s else s.
Definition in_of (ins : list nat) (us : list (nat * nat)) (s : nat * nat) : nat * nat :=
  match pos (fst s) ins with Some i => nth i us s | None => s end.

Lemma pos_some x l i : pos x l = Some i -> nth_error l i = Some x.
Proof. revert i. induction l as [|y l IH]; cbn; intros i H; [discriminate|]. destruct (Nat.eqb_spec y x) as [->|]; [injection H as <-; reflexivity|]. destruct (pos x l); [|discriminate]. injection H as <-. apply IH. reflexivity. Qed.
Lemma pos_none x l : pos x l = None <-> ~ In x l.
Proof. induction l as [|y l IH]; cbn; [split; [intros _ []|reflexivity]|]. destruct (Nat.eqb_spec y x) as [->|D]; [split; [discriminate|intro H; exfalso; apply H; left; reflexivity]|].
  assert (option_map S (pos x l) = None <-> pos x l = None) as -> by (destruct (pos x l); split; [discriminate|discriminate|reflexivity|reflexivity]). rewrite IH. split; intros H K; apply H; [destruct K; [congruence|assumption]|right; exact K]. Qed.
Lemma pos_nth l i x : NoDup l -> nth_error l i = Some x -> pos x l = Some i.
Proof.
  intros N E. destruct (pos x l) as [j|] eqn:P.
  - f_equal. apply pos_some in P. apply (proj1 (NoDup_nth_error l) N); [apply nth_error_Some; congruence|congruence].
  - apply pos_none in P. exfalso. apply P. apply nth_error_In with (1 := E).
Qed.
Lemma enumerate_nth {A} (l : list A) : forall i j x, In (j, x) (enumerate_from i l) <-> i <= j /\ nth_error l (j - i) = Some x.
Proof.
  induction l as [|y l IH]; intros i j x; [cbn; split; [intros []|intros [_ H]; destruct (j - i); discriminate]|]. cbn [enumerate_from In]. rewrite IH. split.
  - intros [E|[L E]]; [injection E as <- <-; rewrite Nat.sub_diag; split; [lia|reflexivity]|]. split; [lia|]. replace (j - i) with (S (j - S i)) by lia. exact E.
  - intros [L E]. destruct (Nat.eq_dec i j) as [->|D]; [left; rewrite Nat.sub_diag in E; cbn in E; congruence|right]. split; [lia|]. replace (j - i) with (S (j - S i)) in E by lia. exact E.
Qed.
Lemma filter_split {A} (p : A -> bool) l : Permutation l (filter p l ++ filter (fun x => negb (p x)) l).
Proof. induction l as [|x l IH]; [constructor|]. cbn. destruct (p x); cbn; [constructor; exact IH|]. apply Permutation_cons_app. exact IH. Qed.
Lemma Permutation_flat_map2 {A B} (f g : A -> list B) l : (forall x, In x l -> Permutation (f x) (g x)) -> Permutation (flat_map f l) (flat_map g l).
Proof. induction l as [|x l IH]; intro H; [constructor|]. cbn. apply Permutation_app; [apply H; left; reflexivity|apply IH; intros; apply H; right; assumption]. Qed.
Lemma flat_map_app2 {A B} (f g : A -> list B) l : Permutation (flat_map (fun x => f x ++ g x) l) (flat_map f l ++ flat_map g l).
Proof. induction l as [|x l IH]; [constructor|]. cbn. rewrite IH, <- !app_assoc. apply Permutation_app_head. rewrite !app_assoc. apply Permutation_app_tail, Permutation_app_comm. Qed.
Lemma flat_map_single {A B} (f : A -> B) l : flat_map (fun x => [f x]) l = map f l.
Proof. induction l as [|x l IH]; [reflexivity|]. cbn. rewrite IH. reflexivity. Qed.
Lemma flat_map_flat_map {A B C} (f : A -> list B) (g : B -> list C) l : flat_map g (flat_map f l) = flat_map (fun x => flat_map g (f x)) l.
Proof. induction l as [|x l IH]; [reflexivity|]. cbn. rewrite flat_map_app, IH. reflexivity. Qed.
Lemma map_flat_map {A B C} (f : A -> list B) (g : B -> C) l : map g (flat_map f l) = flat_map (fun x => map g (f x)) l.
Proof. induction l as [|x l IH]; [reflexivity|]. cbn. rewrite map_app, IH. reflexivity. Qed.

Lemma remove_first_nodup (x : nat) l : NoDup l -> In x l -> remove_first (Nat.eqb x) l = Some (filter (fun y => negb (Nat.eqb x y)) l).
Proof.
  induction 1 as [|y l N1 N2 IH]; intro I; [destruct I|]. cbn. destruct (Nat.eqb_spec x y) as [->|D]; cbn.
  - f_equal. symmetry. apply filter_all. intros z Z. apply negb_true_iff, Nat.eqb_neq. intros ->. contradiction.
  - rewrite IH by (destruct I; [congruence|assumption]). reflexivity.
Qed.
Lemma remove_nodes_spec xs : forall l, NoDup l -> NoDup xs -> incl xs l -> foldM remove_node_of xs l = Ok (filter (fun y => negb (mem y xs)) l).
Proof.
  induction xs as [|x xs IH]; intros l N M I; [cbn; f_equal; symmetry; apply filter_all; reflexivity|]. cbn [foldM]. unfold remove_node_of at 1. rewrite remove_first_nodup by (try exact N; apply I; left; reflexivity). cbn [bind].
  inversion M as [|? ? M1 M2]; subst. rewrite IH.
  - f_equal. rewrite <- filter_and. apply filter_ext. intro y. unfold mem. cbn [existsb]. rewrite negb_orb. rewrite (Nat.eqb_sym x y). reflexivity.
  - apply NoDup_filter, N.
  - exact M2.
  - intros y Y. apply filter_In. split; [apply I; right; exact Y|]. apply negb_true_iff, Nat.eqb_neq. intros ->. contradiction.
Qed.
Lemma wires_sub (p : nat -> bool) ns feed : filter (fun e => p (snk e)) (wires ns feed) = wires (filter p ns) feed.
Proof.
  induction ns as [|n ns IH]; [reflexivity|]. unfold wires in *. cbn [flat_map filter]. rewrite filter_app, IH. destruct (p n) eqn:E; cbn [flat_map].
  - f_equal. apply filter_all. intros e I. apply eds_in in I. destruct I as [-> _]. exact E.
  - rewrite filter_nil; [reflexivity|]. intros e I. apply eds_in in I. destruct I as [-> _]. exact E.
Qed.
Lemma wires_lift f feed ns : wires ns (fun n => map f (feed n)) = map (lift f) (wires ns feed).
Proof. unfold wires. rewrite map_flat_map. apply flat_map_ext. intro n. apply eds_map. Qed.
Lemma wires_ext ns f f' : (forall n, In n ns -> f n = f' n) -> wires ns f = wires ns f'.
Proof. intro H. unfold wires. apply flat_map_ext_in. intros n I. rewrite H by exact I. reflexivity. Qed.
Lemma wires_app a b f : wires (a ++ b) f = wires a f ++ wires b f.
Proof. unfold wires. apply flat_map_app. Qed.

Lemma NoDup_app_dis (a b : list nat) : NoDup a -> NoDup b -> disjoint a b -> NoDup (a ++ b).
Proof.
  intros N M. induction N as [|x l N1 N2 IH]; intro D; [exact M|]. cbn. constructor.
  - intro I. apply in_app_or in I. destruct I as [I|I]; [contradiction|]. apply (D x); [left; reflexivity|exact I].
  - apply IH. intros y Y. apply D. right. exact Y.
Qed.

Lemma nth_error_ext' {A} (a : list A) : forall b, (forall i, nth_error a i = nth_error b i) -> a = b.
Proof. induction a as [|x a IH]; intros [|y b] H; [reflexivity|discriminate (H 0)|discriminate (H 0)|]. pose proof (H 0) as E. cbn in E. injection E as ->. f_equal. apply IH. intro i. apply (H (S i)). Qed.

Section Merge.
Variables (u : nat) (g h : graph) (fg fh : nat -> list (nat * nat)).
Hypothesis FG : flat g fg.
Hypothesis FH : flat h fh.
Hypothesis U : In u (g_nodes g).
Hypothesis UI : ~ In u (g_in g).
Hypothesis DIS : disjoint (g_nodes g) (g_nodes h).
Hypothesis LEN : length (fg u) = length (g_in h).
Hypothesis OUT1 : NoDup (g_out h).
Hypothesis OUT2 : forall o, In o (g_out h) -> ~ In (fst o) (g_in h).
Hypothesis PORT : forall n s, In n (g_nodes g) -> In s (fg n) -> fst s = u -> snd s < length (g_out h).
Hypothesis PORT2 : forall s, In s (g_out g) -> fst s = u -> snd s < length (g_out h).

Let RG := out_of u (g_out h).
Let RH := in_of (g_in h) (fg u).
Let EG := all_edges g.
Let EH := all_edges h.
Definition merged_feed (n : nat) : list (nat * nat) := if mem n (g_nodes h) then map RH (fh n) else map RG (fg n).

Lemma EGw : Permutation EG (wires (g_nodes g) fg).
Proof. unfold EG. rewrite all_edges_perm; [apply (f_edges _ _ FG)|apply (f_nodes _ _ FG)|]. intros e I. apply (Permutation_in _ (f_edges _ _ FG)) in I. apply wires_in in I. destruct I as [I J]. apply nth_error_In in J. apply (f_src _ _ FG _ _ I J). Qed.
Lemma EHw : Permutation EH (wires (g_nodes h) fh).
Proof. unfold EH. rewrite all_edges_perm; [apply (f_edges _ _ FH)|apply (f_nodes _ _ FH)|]. intros e I. apply (Permutation_in _ (f_edges _ _ FH)) in I. apply wires_in in I. destruct I as [I J]. apply nth_error_In in J. apply (f_src _ _ FH _ _ I J). Qed.
Lemma EG_in e : In e EG <-> In (snk e) (g_nodes g) /\ nth_error (fg (snk e)) (ti e) = Some (src e, si e).
Proof. rewrite (Permutation_in' eq_refl EGw). apply wires_in. Qed.
Lemma EH_in e : In e EH <-> In (snk e) (g_nodes h) /\ nth_error (fh (snk e)) (ti e) = Some (src e, si e).
Proof. rewrite (Permutation_in' eq_refl EHw). apply wires_in. Qed.
Lemma EG_ends e : In e EG -> In (src e) (g_nodes g) /\ In (snk e) (g_nodes g) /\ src e <> snk e.
Proof. intro I. apply EG_in in I. destruct I as [I J]. apply nth_error_In in J. destruct (f_src _ _ FG _ _ I J) as [K1 K2]. repeat split; assumption. Qed.
Lemma EH_ends e : In e EH -> In (src e) (g_nodes h) /\ In (snk e) (g_nodes h) /\ src e <> snk e.
Proof. intro I. apply EH_in in I. destruct I as [I J]. apply nth_error_In in J. destruct (f_src _ _ FH _ _ I J) as [K1 K2]. repeat split; assumption. Qed.
Lemma EG_key a b : In a EG -> In b EG -> src a = src b -> snk a = snk b -> si a = si b -> a = b.
Proof. intros A B. apply (Permutation_in _ EGw) in A. apply (Permutation_in _ EGw) in B. revert A B. apply wires_key, (f_once _ _ FG). Qed.
Lemma EH_key a b : In a EH -> In b EH -> src a = src b -> snk a = snk b -> si a = si b -> a = b.
Proof. intros A B. apply (Permutation_in _ EHw) in A. apply (Permutation_in _ EHw) in B. revert A B. apply wires_key, (f_once _ _ FH). Qed.
Lemma EH_zero e : In e EH -> In (src e) (g_in h) -> si e = 0.
Proof. intros I J. apply EH_in in I. destruct I as [I K]. apply nth_error_In in K. apply (f_zero _ _ FH _ _ I K J). Qed.

(* the changes made for the incoming edges, one after another *)
Definition INS := filter (fun e => Nat.eqb (snk e) u) EG.
Definition OUTS := filter (fun e => Nat.eqb (src e) u) EG.
Definition in_op (e o : edge) : lop := LO [Edge (src e) (snk o) (si e) (ti o)] o (fun y => edge_eq y o).
Definition obj_op (e : edge) (add : list edge) : lop := LO add e (fun y => same_edge y e || edge_eq y e).
Definition leaving (i : nat) := filter (fun o => Nat.eqb (src o) i) EH.
Definition in_ops : list lop :=
  flat_map (fun e => flat_map (fun i => if Nat.eqb (ti e) (fst i) then map (in_op e) (leaving (snd i)) else []) (enumerate_from 0 (g_in h)) ++ [obj_op e []]) INS.
Definition out_ops : list lop :=
  flat_map (fun o : nat * (nat * nat) => map (fun e => obj_op e [Edge (fst (snd o)) (snk e) (snd (snd o)) (ti e)]) (filter (fun e => Nat.eqb (si e) (fst o)) OUTS)) (enumerate_from 0 (g_out h)).

Lemma remove_copy_step e o res : remove_copy o (res ++ [Edge (src e) (snk o) (si e) (ti o)]) = lstep res (in_op e o).
Proof using. reflexivity. Qed.
Lemma rewire_in_ops res : rewire_incoming h INS res = foldM lstep in_ops res.
Proof using.
  unfold rewire_incoming, in_ops. rewrite foldM_flat_map. apply foldM_ext2. intros s e _. rewrite foldM_app, foldM_flat_map.
  replace (foldM (fun s x => foldM lstep (if Nat.eqb (ti e) (fst x) then map (in_op e) (leaving (snd x)) else []) s) (enumerate_from 0 (g_in h)) s) with
    (foldM (fun res i => if Nat.eqb (ti e) (fst i) then foldM (fun res o => remove_copy o (res ++ [Edge (src e) (snk o) (si e) (ti o)])) (filter (fun o => Nat.eqb (src o) (snd i)) (all_edges h)) res else Ok res) (enumerate_from 0 (g_in h)) s).
  - destruct (foldM _ (enumerate_from 0 (g_in h)) s) as [r|]; cbn [bind]; [|reflexivity]. cbn [foldM]. unfold lstep, obj_op, o_add, o_is, remove_object. rewrite app_nil_r. destruct (remove_by _ r); reflexivity.
  - apply foldM_ext2. intros r i _. destruct (Nat.eqb (ti e) (fst i)); [|reflexivity]. rewrite foldM_map. apply foldM_ext2. intros; apply remove_copy_step.
Qed.
Lemma rewire_out_ops res : rewire_outgoing (g_out h) OUTS res = foldM lstep out_ops res.
Proof using.
  unfold rewire_outgoing, out_ops. rewrite foldM_flat_map. apply foldM_ext2. intros s o _. rewrite foldM_map, foldM_filter. apply foldM_ext2. intros r e _.
  destruct (Nat.eqb (si e) (fst o)); reflexivity.
Qed.

Lemma INS_in e : In e INS <-> In e EG /\ snk e = u.
Proof using. unfold INS. rewrite filter_In, Nat.eqb_eq. reflexivity. Qed.
Lemma OUTS_in e : In e OUTS <-> In e EG /\ src e = u.
Proof using. unfold OUTS. rewrite filter_In, Nat.eqb_eq. reflexivity. Qed.
Lemma INS_perm : Permutation INS (eds u (fg u)).
Proof. unfold INS. rewrite (filter_perm _ _ _ EGw), wires_filter; [reflexivity|apply (f_nodes _ _ FG)|exact U]. Qed.

Lemma in_op_in o : In o in_ops -> (exists e i x, In e INS /\ nth_error (g_in h) (ti e) = Some i /\ In x EH /\ src x = i /\ o = in_op e x) \/ (exists e, In e INS /\ o = obj_op e []).
Proof using.
  unfold in_ops. rewrite in_flat_map. intros (e & I & J). apply in_app_or in J. destruct J as [J|[<-|[]]]; [left|right; exists e; split; [exact I|reflexivity]].
  apply in_flat_map in J. destruct J as ((j & i) & J & K). apply enumerate_nth in J. destruct J as [_ J]. rewrite Nat.sub_0_r in J. cbn [fst snd] in K. destruct (Nat.eqb_spec (ti e) j) as [E|]; [|destruct K]. subst j.
  apply in_map_iff in K. destruct K as (x & <- & K). unfold leaving in K. apply filter_In in K. destruct K as [K L]. apply Nat.eqb_eq in L. exists e, i, x. repeat split; assumption.
Qed.
Lemma out_op_in o : In o out_ops -> exists e x, In e OUTS /\ nth_error (g_out h) (si e) = Some x /\ o = obj_op e [Edge (fst x) (snk e) (snd x) (ti e)].
Proof using.
  unfold out_ops. rewrite in_flat_map. intros ((j & x) & I & J). apply enumerate_nth in I. destruct I as [_ I]. rewrite Nat.sub_0_r in I. cbn [fst snd] in J.
  apply in_map_iff in J. destruct J as (e & <- & J). apply filter_In in J. destruct J as [J K]. apply Nat.eqb_eq in K. subst j. exists e, x. repeat split; assumption.
Qed.
(* the edges that ever are in the list *)
Definition known (e : edge) : Prop := In e EG \/ In e EH \/
  (exists i x, In i INS /\ In x EH /\ In (src x) (g_in h) /\ e = Edge (src i) (snk x) (si i) (ti x)) \/
  (exists i x, In i OUTS /\ In x (g_out h) /\ e = Edge (fst x) (snk i) (snd x) (ti i)).
Definition all_ops := in_ops ++ out_ops.
Lemma universe_known e : In e (universe all_ops (EG ++ EH)) -> known e.
Proof using.
  unfold universe, all_ops, known. rewrite flat_map_app, !in_app_iff. intros [[I|I]|[I|I]]; [left; exact I|right; left; exact I| |].
  - apply in_flat_map in I. destruct I as (o & I & J). apply in_op_in in I. destruct I as [(e' & i & x & I1 & I2 & I3 & I4 & ->)|(e' & I1 & ->)]; [|destruct J]. destruct J as [<-|[]]. right. right. left.
    exists e', x. repeat split; [exact I1|exact I3|]. rewrite I4. apply nth_error_In with (1 := I2).
  - apply in_flat_map in I. destruct I as (o & I & J). apply out_op_in in I. destruct I as (e' & x & I1 & I2 & ->). destruct J as [<-|[]]. right. right. right. exists e', x. repeat split; [exact I1|]. apply nth_error_In with (1 := I2).
Qed.
Lemma known_from_input e : known e -> In (src e) (g_in h) -> In e EH.
Proof.
  intros [I|[I|[(i & x & I1 & I2 & I3 & ->)|(i & x & I1 & I2 & ->)]]] J; [exfalso|exact I|exfalso|exfalso]; cbn [src] in J.
  - apply (DIS (src e)); [apply EG_ends, I|apply (f_ins_in _ _ FH), J].
  - apply INS_in in I1. apply (DIS (src i)); [apply EG_ends, I1|apply (f_ins_in _ _ FH), J].
  - exact (OUT2 _ I2 J).
Qed.
Lemma known_to_u e : known e -> snk e = u -> In e EG.
Proof.
  intros [I|[I|[(i & x & I1 & I2 & I3 & ->)|(i & x & I1 & I2 & ->)]]] J; [exact I|exfalso|exfalso|exfalso]; cbn [snk] in J.
  - apply (DIS u U). rewrite <- J. apply EH_ends, I.
  - apply (DIS u U). rewrite <- J. apply EH_ends, I2.
  - apply OUTS_in in I1. destruct I1 as [I1 E]. apply EG_ends in I1. destruct I1 as (_ & _ & D). congruence.
Qed.
Lemma known_from_u e : known e -> src e = u -> In e EG.
Proof.
  intros [I|[I|[(i & x & I1 & I2 & I3 & ->)|(i & x & I1 & I2 & ->)]]] J; [exact I|exfalso|exfalso|exfalso]; cbn [src] in J.
  - apply (DIS u U). rewrite <- J. apply EH_ends, I.
  - apply INS_in in I1. destruct I1 as [I1 E]. apply EG_ends in I1. destruct I1 as (_ & _ & D). congruence.
  - apply (DIS u U). rewrite <- J. apply (f_outs _ _ FH), I2.
Qed.
Lemma edge_eq_spec y x : edge_eq y x = true -> src y = src x /\ snk y = snk x /\ si y = si x /\ ti x = si x.
Proof using. unfold edge_eq. rewrite !andb_true_iff, !Nat.eqb_eq. intros (((A & B) & C) & D). repeat split; congruence. Qed.
Lemma same_edge_spec y x : same_edge y x = true <-> y = x.
Proof using. unfold same_edge. rewrite !andb_true_iff, !Nat.eqb_eq. split; [intros (((A & B) & C) & D); destruct y, x; cbn in *; congruence|intros ->; repeat split; reflexivity]. Qed.
Lemma all_exact : exact all_ops (universe all_ops (EG ++ EH)).
Proof.
  intros o y I J K. apply universe_known in J. unfold all_ops in I. apply in_app_or in I. destruct I as [I|I].
  - apply in_op_in in I. destruct I as [(e & i & x & I1 & I2 & I3 & I4 & ->)|(e & I1 & ->)].
    + cbn [in_op o_is o_rem] in *. apply edge_eq_spec in K. destruct K as (K1 & K2 & K3 & K4). apply EH_key; try assumption. apply known_from_input; [exact J|]. rewrite K1, I4. apply nth_error_In with (1 := I2).
    + cbn [obj_op o_is o_rem] in *. apply orb_true_iff in K. destruct K as [K|K]; [apply same_edge_spec, K|]. apply edge_eq_spec in K. destruct K as (K1 & K2 & K3 & K4).
      apply INS_in in I1. destruct I1 as [I1 I2]. apply EG_key; try assumption. apply known_to_u; [exact J|congruence].
  - apply out_op_in in I. destruct I as (e & x & I1 & I2 & ->). cbn [obj_op o_is o_rem] in *. apply orb_true_iff in K. destruct K as [K|K]; [apply same_edge_spec, K|]. apply edge_eq_spec in K. destruct K as (K1 & K2 & K3 & K4).
    apply OUTS_in in I1. destruct I1 as [I1 I3]. apply EG_key; try assumption. apply known_from_u; [exact J|congruence].
Qed.

(* what is removed and what is added in all *)
Definition FED := filter (fun e => mem (src e) (g_in h)) EH.
Lemma ins_flat (F : edge -> nat -> list edge) :
  flat_map (fun e => flat_map (fun i : nat * nat => if Nat.eqb (ti e) (fst i) then F e (snd i) else []) (enumerate_from 0 (g_in h))) (eds u (fg u))
  = flat_map (fun j => F (Edge (fst (nth j (fg u) (0,0))) u (snd (nth j (fg u) (0,0))) j) (nth j (g_in h) 0)) (seq 0 (length (g_in h))).
Proof.
  unfold eds. rewrite eds_gen. rewrite LEN. rewrite (flat_map_concat_map _ (map _ _)), map_map, <- flat_map_concat_map. apply flat_map_ext_in. intros j J. apply in_seq in J.
  cbn [ti]. rewrite Nat.sub_0_r. set (e := Edge _ _ _ _). clearbody e.
  assert (forall l a, a <= j -> j < a + length l -> flat_map (fun i : nat * nat => if Nat.eqb j (fst i) then F e (snd i) else []) (enumerate_from a l) = F e (nth (j - a) l 0)) as G.
  { clear. intro l. assert (forall a, j < a -> flat_map (fun i : nat * nat => if Nat.eqb j (fst i) then F e (snd i) else []) (enumerate_from a l) = []) as Z.
    { induction l as [|x l IH]; intros a L; [reflexivity|]. cbn. destruct (Nat.eqb_spec j a); [lia|]. apply IH. lia. }
    clear Z. induction l as [|x l IH]; intros a A B; [cbn in B; lia|]. cbn [enumerate_from flat_map fst snd]. destruct (Nat.eqb_spec j a) as [->|D].
    - rewrite Nat.sub_diag. cbn [nth]. rewrite <- app_nil_r. f_equal. assert (forall l b, a < b -> flat_map (fun i : nat * nat => if Nat.eqb a (fst i) then F e (snd i) else []) (enumerate_from b l) = []) as Z.
      { clear. induction l as [|x l IH]; intros b L; [reflexivity|]. cbn. destruct (Nat.eqb_spec a b); [lia|]. apply IH. lia. }
      apply Z. lia.
    - cbn [app]. cbn [length] in B. rewrite IH by lia. replace (j - a) with (S (j - S a)) by lia. reflexivity. }
  rewrite G by lia. rewrite Nat.sub_0_r. reflexivity.
Qed.
Lemma group_ins : Permutation (flat_map (fun j => leaving (nth j (g_in h) 0)) (seq 0 (length (g_in h)))) FED.
Proof.
  replace (flat_map (fun j => leaving (nth j (g_in h) 0)) (seq 0 (length (g_in h)))) with (flat_map leaving (g_in h)).
  - unfold FED. rewrite (flat_map_ext_in leaving (fun i => filter (fun x => Nat.eqb (src x) i) (filter (fun e => mem (src e) (g_in h)) EH))).
    + apply group_perm; [apply (f_ins _ _ FH)|]. intros x I. apply filter_In in I. destruct I as [_ I]. apply mem_spec, I.
    + intros i I. unfold leaving. rewrite <- filter_and. apply filter_ext. intro e. destruct (Nat.eqb_spec (src e) i) as [->|]; [|rewrite andb_comm; reflexivity]. rewrite (proj2 (mem_spec i _) I). reflexivity.
  - clear. generalize (g_in h). intro l. rewrite flat_map_concat_map, (flat_map_concat_map _ (seq _ _)). f_equal. rewrite <- (map_map (fun j => nth j l 0) leaving). f_equal. induction l as [|x l IH]; [reflexivity|]. cbn. f_equal. rewrite <- seq_shift, map_map. exact IH.
Qed.
Lemma in_removed : Permutation (map o_rem in_ops) (FED ++ INS).
Proof.
  unfold in_ops. rewrite map_flat_map. eapply Permutation_trans.
  { apply (Permutation_flat_map2 _ (fun e => flat_map (fun i : nat * nat => if Nat.eqb (ti e) (fst i) then leaving (snd i) else []) (enumerate_from 0 (g_in h)) ++ [e])). intros e _. rewrite map_app, map_flat_map. cbn [map obj_op o_rem].
    apply Permutation_app_tail. apply Permutation_flat_map2. intros i _. destruct (Nat.eqb (ti e) (fst i)); [|constructor]. rewrite map_map. cbn [in_op o_rem]. rewrite map_id. reflexivity. }
  rewrite flat_map_app2. rewrite flat_map_single, map_id. apply Permutation_app_tail.
  eapply Permutation_trans; [apply Permutation_flat_map, INS_perm|]. rewrite (ins_flat (fun _ i => leaving i)). apply group_ins.
Qed.
Lemma in_added : Permutation (flat_map o_add in_ops) (map (lift RH) FED).
Proof.
  unfold in_ops. rewrite flat_map_flat_map. eapply Permutation_trans.
  { apply (Permutation_flat_map2 _ (fun e => flat_map (fun i : nat * nat => if Nat.eqb (ti e) (fst i) then map (fun o => Edge (src e) (snk o) (si e) (ti o)) (leaving (snd i)) else []) (enumerate_from 0 (g_in h)))). intros e _. rewrite flat_map_app, flat_map_flat_map. cbn [flat_map obj_op o_add app]. rewrite app_nil_r.
    apply Permutation_flat_map2. intros i _. destruct (Nat.eqb (ti e) (fst i)); [|constructor]. rewrite (flat_map_concat_map _ (map _ _)), map_map, <- flat_map_concat_map. cbn [in_op o_add]. rewrite flat_map_single. reflexivity. }
  eapply Permutation_trans; [apply Permutation_flat_map, INS_perm|]. rewrite (ins_flat (fun e i => map (fun o => Edge (src e) (snk o) (si e) (ti o)) (leaving i))). cbn [src si].
  rewrite <- (Permutation_map (lift RH) group_ins). rewrite map_flat_map. apply Permutation_flat_map2. intros j J. apply in_seq in J.
  rewrite (map_ext_in (lift RH) (fun o => Edge (fst (nth j (fg u) (0,0))) (snk o) (snd (nth j (fg u) (0,0))) (ti o))); [reflexivity|].
  intros o O. unfold leaving in O. apply filter_In in O. destruct O as [O1 O2]. apply Nat.eqb_eq in O2. unfold lift, RH, in_of. cbn [fst snd]. rewrite O2.
  rewrite (pos_nth (g_in h) j); [|apply (f_ins _ _ FH)|apply nth_error_nth'; lia]. rewrite (nth_indep _ _ (0,0)) by lia. reflexivity.
Qed.
Lemma out_removed : Permutation (map o_rem out_ops) OUTS.
Proof.
  unfold out_ops. rewrite map_flat_map. rewrite (flat_map_ext_in _ (fun o : nat * (nat * nat) => filter (fun e => Nat.eqb (si e) (fst o)) OUTS)).
  2:{ intros o _. rewrite map_map. cbn [obj_op o_rem]. apply map_id. }
  replace (flat_map (fun o : nat * (nat * nat) => filter (fun e => Nat.eqb (si e) (fst o)) OUTS) (enumerate_from 0 (g_out h))) with (flat_map (fun k => filter (fun e => Nat.eqb (si e) k) OUTS) (seq 0 (length (g_out h)))).
  - apply group_perm; [apply seq_NoDup|]. intros e E. apply OUTS_in in E. destruct E as [E1 E2]. apply EG_in in E1. destruct E1 as [E1 E3]. apply nth_error_In in E3. apply in_seq. split; [lia|]. cbn. apply (PORT _ _ E1 E3). exact E2.
  - clear. generalize 0. induction (g_out h) as [|o l IH]; intro a; [reflexivity|]. cbn. f_equal. apply IH.
Qed.
Lemma out_added : Permutation (flat_map o_add out_ops) (map (lift RG) OUTS).
Proof.
  rewrite <- (Permutation_map (lift RG) out_removed). unfold out_ops. rewrite flat_map_flat_map, map_flat_map, map_flat_map. apply Permutation_flat_map2. intros (j & x) I. apply enumerate_nth in I. destruct I as [_ I]. rewrite Nat.sub_0_r in I. cbn [fst snd].
  rewrite (flat_map_concat_map _ (map _ _)), map_map, <- flat_map_concat_map. cbn [obj_op o_add]. rewrite flat_map_single. rewrite !map_map. cbn [obj_op o_rem].
  rewrite (map_ext_in _ (fun e => lift RG e)); [reflexivity|]. intros e E. apply filter_In in E. destruct E as [E1 E2]. apply Nat.eqb_eq in E2. apply OUTS_in in E1. destruct E1 as [E1 E3].
  unfold lift, RG, out_of. cbn [fst snd]. rewrite E3, Nat.eqb_refl. rewrite E2. rewrite (nth_error_nth _ _ _ I). reflexivity.
Qed.

Lemma merge_edges_ops : merge_edges u g h = foldM lstep all_ops (EG ++ EH).
Proof using.
  unfold merge_edges, all_ops. rewrite foldM_app. fold EG EH. fold INS OUTS. rewrite rewire_in_ops. destruct (foldM lstep in_ops (EG ++ EH)); cbn [bind]; [apply rewire_out_ops|reflexivity].
Qed.
Definition GREST := filter (fun e => negb (Nat.eqb (src e) u)) (filter (fun e => negb (Nat.eqb (snk e) u)) EG).
Lemma EG_split : Permutation EG (INS ++ OUTS ++ GREST).
Proof.
  rewrite (filter_split (fun e => Nat.eqb (snk e) u) EG) at 1. fold INS. apply Permutation_app_head. rewrite (filter_split (fun e => Nat.eqb (src e) u)) at 1. fold GREST. apply Permutation_app_tail.
  unfold OUTS. rewrite <- filter_and. rewrite (filter_ext_in _ (fun e => Nat.eqb (src e) u)); [reflexivity|]. intros e E. apply EG_ends in E. destruct E as (_ & _ & D). destruct (Nat.eqb_spec (src e) u); [|rewrite andb_comm; reflexivity]. destruct (Nat.eqb_spec (snk e) u); [congruence|reflexivity].
Qed.
Lemma removed_in : Permutation (EG ++ EH) (map o_rem all_ops ++ GREST ++ filter (fun e => negb (mem (src e) (g_in h))) EH).
Proof.
  unfold all_ops. rewrite map_app, in_removed, out_removed. rewrite EG_split at 1. rewrite (filter_split (fun e => mem (src e) (g_in h)) EH) at 1. fold FED.
  set (K := filter (fun e => negb (mem (src e) (g_in h))) EH). clearbody K. generalize FED INS OUTS GREST. clear. intros A B C D.
  rewrite <- !app_assoc. rewrite (Permutation_app_comm A (B ++ _)). rewrite <- !app_assoc. apply Permutation_app_head, Permutation_app_head, Permutation_app_head. apply Permutation_app_comm.
Qed.
Lemma merge_edges_perm es : merge_edges u g h = Ok es ->
  Permutation es (map (lift RG) (filter (fun e => negb (Nat.eqb (snk e) u)) EG) ++ map (lift RH) EH).
Proof.
  rewrite merge_edges_ops. intro H. apply run_perm in H; [|apply all_exact]. rewrite removed_in in H. rewrite <- app_assoc in H. apply Permutation_app_inv_l in H. symmetry in H.
  rewrite H. unfold all_ops. rewrite flat_map_app, in_added, out_added.
  assert (Permutation (map (lift RG) (filter (fun e => negb (Nat.eqb (snk e) u)) EG)) (map (lift RG) OUTS ++ GREST)) as P1.
  { rewrite (filter_perm _ _ _ EG_split). rewrite !filter_app. rewrite (filter_nil _ INS), (filter_all _ OUTS), (filter_all _ GREST).
    - cbn [app]. rewrite map_app. apply Permutation_app_head. rewrite (map_ext_in (lift RG) (fun e => e)); [rewrite map_id; reflexivity|]. intros e E. unfold GREST in E. apply filter_In in E. destruct E as [_ E]. unfold lift, RG, out_of. cbn [fst snd]. destruct (Nat.eqb (src e) u); [discriminate|]. destruct e; reflexivity.
    - intros e E. unfold GREST in E. apply filter_In in E. destruct E as [E _]. apply filter_In in E. apply E.
    - intros e E. apply OUTS_in in E. destruct E as [E1 E2]. apply EG_ends in E1. destruct E1 as (_ & _ & D). destruct (Nat.eqb_spec (snk e) u); [congruence|reflexivity].
    - intros e E. apply INS_in in E. destruct E as [_ ->]. rewrite Nat.eqb_refl. reflexivity. }
  assert (Permutation (map (lift RH) EH) (map (lift RH) FED ++ filter (fun e => negb (mem (src e) (g_in h))) EH)) as P2.
  { rewrite (filter_split (fun e => mem (src e) (g_in h)) EH) at 1. fold FED. rewrite map_app. apply Permutation_app_head. rewrite (map_ext_in (lift RH) (fun e => e)); [rewrite map_id; reflexivity|]. intros e E. apply filter_In in E. destruct E as [_ E].
    unfold lift, RH, in_of. cbn [fst snd]. rewrite (proj2 (pos_none (src e) (g_in h))); [destruct e; reflexivity|]. apply mem_false. destruct (mem (src e) (g_in h)); [discriminate|reflexivity]. }
  rewrite P1, P2. generalize (map (lift RG) OUTS) (map (lift RH) FED) GREST (filter (fun e => negb (mem (src e) (g_in h))) EH). clear. intros A B C D.
  rewrite (Permutation_app_comm (C ++ D) (B ++ A)). rewrite <- !app_assoc. rewrite (app_assoc A C D). rewrite Permutation_app_swap_app. rewrite <- !app_assoc. reflexivity.
Qed.
(* the removals succeed iff the inputs are read at the first position *)
Definition read_first : Prop := forall n i s, In n (g_nodes h) -> nth_error (fh n) i = Some s -> In (fst s) (g_in h) -> i = 0.
Lemma merge_edges_total : read_first -> exists es, merge_edges u g h = Ok es.
Proof.
  intro RF. rewrite merge_edges_ops. eapply run_total; [apply all_exact| |apply removed_in]. intros o I. unfold all_ops in I. apply in_app_or in I. destruct I as [I|I].
  - apply in_op_in in I. destruct I as [(e & i & x & I1 & I2 & I3 & I4 & ->)|(e & I1 & ->)]; cbn [in_op obj_op o_is o_rem]; [|rewrite (proj2 (same_edge_spec e e) eq_refl); reflexivity].
    unfold edge_eq. rewrite !Nat.eqb_refl. cbn [andb]. assert (In (src x) (g_in h)) as J by (rewrite I4; apply nth_error_In with (1 := I2)). rewrite (EH_zero x I3 J). apply EH_in in I3. destruct I3 as [I3 I5].
    rewrite (RF _ _ _ I3 I5 J). reflexivity.
  - apply out_op_in in I. destruct I as (e & x & I1 & I2 & ->). cbn [obj_op o_is o_rem]. rewrite (proj2 (same_edge_spec e e) eq_refl). reflexivity.
Qed.
Lemma merge_edges_fails n i s : In n (g_nodes h) -> nth_error (fh n) i = Some s -> In (fst s) (g_in h) -> i <> 0 -> merge_edges u g h = Err E_value.
Proof.
  intros N E J D. rewrite merge_edges_ops. apply run_fails. set (x := Edge (fst s) n (snd s) i).
  assert (In x EH) as X by (apply EH_in; cbn; rewrite <- surjective_pairing; split; assumption).
  apply In_nth_error in J. destruct J as [j J]. assert (exists p, nth_error (fg u) j = Some p) as [p P].
  { destruct (nth_error (fg u) j) eqn:Q; [eexists; reflexivity|]. apply nth_error_None in Q. rewrite LEN in Q. apply nth_error_None in Q. congruence. }
  set (e := Edge (fst p) u (snd p) j). assert (In e INS) as I. { apply INS_in. split; [|reflexivity]. apply EG_in. cbn. rewrite <- surjective_pairing. split; assumption. }
  exists (in_op e x). split.
  - unfold all_ops. apply in_or_app. left. unfold in_ops. apply in_flat_map. exists e. split; [exact I|]. apply in_or_app. left. apply in_flat_map. exists (j, fst s). split; [apply enumerate_nth; rewrite Nat.sub_0_r; split; [lia|exact J]|]. cbn [fst snd ti e]. rewrite Nat.eqb_refl. apply in_map. unfold leaving. apply filter_In. split; [exact X|]. cbn. apply Nat.eqb_refl.
  - intros y _. cbn [in_op o_is]. destruct (edge_eq y x) eqn:Q; [|reflexivity]. apply edge_eq_spec in Q. destruct Q as (_ & _ & _ & Q). cbn in Q. exfalso. apply D. rewrite Q. apply (EH_zero x X). cbn. apply nth_error_In with (1 := J).
Qed.

Definition merged_nodes := filter (fun n => negb (Nat.eqb u n)) (g_nodes g) ++ filter (fun n => negb (mem n (g_in h))) (g_nodes h).
Lemma NoDup_both : NoDup (g_nodes g ++ g_nodes h).
Proof. apply NoDup_app_dis; [apply (f_nodes _ _ FG)|apply (f_nodes _ _ FH)|exact DIS]. Qed.
Lemma merge_nodes_spec : merge_nodes u g h = Ok merged_nodes.
Proof.
  unfold merge_nodes. rewrite remove_nodes_spec; [|apply NoDup_both|apply (f_ins _ _ FH)|].
  2:{ intros x I. apply in_or_app. right. apply (f_ins_in _ _ FH), I. }
  cbn [bind]. unfold remove_node_of. rewrite remove_first_nodup; [|apply NoDup_filter, NoDup_both|].
  2:{ apply filter_In. split; [apply in_or_app; left; exact U|]. apply negb_true_iff, mem_false. intro I. apply (DIS u U), (f_ins_in _ _ FH), I. }
  f_equal. unfold merged_nodes. rewrite !filter_app. f_equal.
  - rewrite (filter_all (fun y => negb (mem y (g_in h)))); [reflexivity|]. intros x I. apply negb_true_iff, mem_false. intro J. apply (DIS x I), (f_ins_in _ _ FH), J.
  - apply filter_all. intros x I. apply filter_In in I. destruct I as [I _]. apply negb_true_iff, Nat.eqb_neq. intros ->. exact (DIS x U I).
Qed.
Lemma merge_outputs_spec : merge_outputs u g h = Ok (map RG (g_out g)).
Proof.
  unfold merge_outputs. revert PORT2. generalize (g_out g). clear. induction l as [|o l IH]; intro P; [reflexivity|]. cbn [mapM map].
  assert ((if Nat.eqb u (fst o) then match nth_error (g_out h) (snd o) with Some o' => Ok o' | None => Err E_index end else Ok o) = Ok (RG o)) as ->.
  { unfold RG, out_of. rewrite Nat.eqb_sym. destruct (Nat.eqb_spec (fst o) u) as [E|]; [|reflexivity]. rewrite (nth_error_nth' _ o) by (apply P; [left; reflexivity|exact E]). reflexivity. }
  cbn [bind]. rewrite IH by (intros; apply P; [right|]; assumption). reflexivity.
Qed.
Lemma merged_in n : In n merged_nodes <-> (In n (g_nodes g) /\ n <> u) \/ (In n (g_nodes h) /\ ~ In n (g_in h)).
Proof using. unfold merged_nodes. rewrite in_app_iff, !filter_In, !negb_true_iff, Nat.eqb_neq, mem_false. split; (intros [[A B]|[A B]]; [left|right]; split; try assumption; apply not_eq_sym; assumption). Qed.
Lemma merged_nodup : NoDup merged_nodes.
Proof. rewrite <- (f_equal (@NoDup nat) (f_equal (fun r => match r with Ok x => x | Err _ => [] end) merge_nodes_spec)).
  assert (forall A (l m : list A) p q, NoDup (l ++ m) -> NoDup (filter p l ++ filter q m)) as G.
  { clear. induction l as [|x l IH]; intros m p q N; [apply NoDup_filter, N|]. cbn in *. inversion N as [|? ? N1 N2]; subst. destruct (p x); cbn; [constructor|]; [|apply IH, N2|apply IH, N2].
    intro I. apply N1. apply in_app_or in I. apply in_or_app. destruct I as [I|I]; apply filter_In in I; [left|right]; apply I. }
  rewrite merge_nodes_spec. unfold merged_nodes. apply G, NoDup_both. Qed.
Lemma merged_g n : In n (g_nodes g) -> merged_feed n = map RG (fg n).
Proof. intro I. unfold merged_feed. rewrite (proj2 (mem_false n _) (DIS n I)). reflexivity. Qed.
Lemma merged_h n : In n (g_nodes h) -> merged_feed n = map RH (fh n).
Proof using. intro I. unfold merged_feed. rewrite (proj2 (mem_spec n _) I). reflexivity. Qed.
Lemma merged_wires : Permutation (map (lift RG) (filter (fun e => negb (Nat.eqb (snk e) u)) EG) ++ map (lift RH) EH) (wires merged_nodes merged_feed).
Proof.
  unfold merged_nodes. rewrite wires_app. apply Permutation_app.
  - rewrite (wires_ext _ _ (fun n => map RG (fg n))). 2:{ intros n I. apply filter_In in I. apply merged_g, I. }
    rewrite wires_lift. apply Permutation_map. rewrite (filter_perm _ _ _ EGw). rewrite (filter_ext _ (fun e => negb (Nat.eqb u (snk e)))) by (intro; rewrite Nat.eqb_sym; reflexivity).
    rewrite (wires_sub (fun n => negb (Nat.eqb u n))). reflexivity.
  - rewrite (wires_ext _ _ (fun n => map RH (fh n))). 2:{ intros n I. apply filter_In in I. apply merged_h, I. }
    rewrite wires_lift. apply Permutation_map. rewrite EHw. pose proof (f_ins_feed _ _ FH) as Z. clear - Z. unfold wires. induction (g_nodes h) as [|n l IH]; [constructor|]. cbn. destruct (mem n (g_in h)) eqn:M; cbn; [|apply Permutation_app_head, IH].
    rewrite (Z n) by (apply mem_spec, M). exact IH.
Qed.
Lemma RG_in s : (fst s = u -> snd s < length (g_out h)) -> (fst s = u /\ In (RG s) (g_out h)) \/ (fst s <> u /\ RG s = s).
Proof using. intro P. unfold RG, out_of. destruct (Nat.eqb_spec (fst s) u) as [E|E]; [left; split; [exact E|]; apply nth_In, P, E|right; split; [exact E|reflexivity]]. Qed.
Lemma RH_in s : (In (fst s) (g_in h) /\ In (RH s) (fg u)) \/ (~ In (fst s) (g_in h) /\ RH s = s).
Proof using LEN. clear - LEN. unfold RH, in_of. destruct (pos (fst s) (g_in h)) as [i|] eqn:P.
  - left. apply pos_some in P. split; [apply nth_error_In with (1 := P)|]. apply nth_In. rewrite LEN. apply nth_error_Some. congruence.
  - right. split; [apply pos_none, P|reflexivity]. Qed.
Lemma NoDup_map_in {A B} (f : A -> B) l : (forall x y, In x l -> In y l -> f x = f y -> x = y) -> NoDup l -> NoDup (map f l).
Proof using. clear. intros H N. induction N as [|x l N1 N2 IH]; [constructor|]. cbn. constructor; [|apply IH; intros; apply H; try (right; assumption); assumption]. intro I. apply in_map_iff in I. destruct I as (y & E & I). apply N1. rewrite (H x y); [exact I|left; reflexivity|right; exact I|symmetry; exact E]. Qed.
Lemma RG_inj0 a b : (fst a = u -> snd a < length (g_out h)) -> (fst b = u -> snd b < length (g_out h)) -> In (fst a) (g_nodes g) -> In (fst b) (g_nodes g) -> RG a = RG b -> a = b.
Proof.
  intros PA PB NA NB E. destruct (RG_in a PA) as [[A1 A2]|[A1 A2]], (RG_in b PB) as [[B1 B2]|[B1 B2]].
  - unfold RG, out_of in E. rewrite A1, B1, Nat.eqb_refl in E. rewrite (nth_indep _ a b) in E by (apply PA, A1). assert (snd a = snd b) by (apply (proj1 (NoDup_nth _ b) OUT1); [apply PA, A1|apply PB, B1|exact E]). destruct a, b; cbn in *; congruence.
  - exfalso. rewrite E, B2 in A2. apply (DIS (fst b)); [exact NB|apply (f_outs _ _ FH), A2].
  - exfalso. rewrite <- E, A2 in B2. apply (DIS (fst a)); [exact NA|apply (f_outs _ _ FH), B2].
  - congruence.
Qed.
Lemma RG_inj n a b : In n (g_nodes g) -> In a (fg n) -> In b (fg n) -> RG a = RG b -> a = b.
Proof. intros N A B. apply RG_inj0; [apply (PORT n a N A)|apply (PORT n b N B)|apply (f_src _ _ FG n a N A)|apply (f_src _ _ FG n b N B)]. Qed.
Lemma RH_inj n a b : In n (g_nodes h) -> In a (fh n) -> In b (fh n) -> RH a = RH b -> a = b.
Proof.
  intros N A B E. destruct (RH_in a) as [[A1 A2]|[A1 A2]], (RH_in b) as [[B1 B2]|[B1 B2]].
  - assert (snd a = 0) as ZA by (apply (f_zero _ _ FH n a N A A1)). assert (snd b = 0) as ZB by (apply (f_zero _ _ FH n b N B B1)). unfold RH, in_of in E.
    destruct (pos (fst a) (g_in h)) as [i|] eqn:PA; [|apply pos_none in PA; contradiction]. destruct (pos (fst b) (g_in h)) as [j|] eqn:PB; [|apply pos_none in PB; contradiction].
    apply pos_some in PA. apply pos_some in PB. assert (i < length (fg u)) as LI by (rewrite LEN; apply nth_error_Some; congruence). assert (j < length (fg u)) as LJ by (rewrite LEN; apply nth_error_Some; congruence).
    rewrite (nth_indep _ a b) in E by exact LI. assert (i = j) as -> by (apply (proj1 (NoDup_nth _ b) (f_once _ _ FG u U)); [exact LI|exact LJ|exact E]). destruct a, b; cbn in *; congruence.
  - exfalso. rewrite E, B2 in A2. apply (DIS (fst b)); [apply (f_src _ _ FG u b U A2)|apply (f_src _ _ FH n b N B)].
  - exfalso. rewrite <- E, A2 in B2. apply (DIS (fst a)); [apply (f_src _ _ FG u a U B2)|apply (f_src _ _ FH n a N A)].
  - congruence.
Qed.
Lemma merged_src n s : In n merged_nodes -> In s (merged_feed n) -> In (fst s) merged_nodes /\ fst s <> n.
Proof.
  intros N I. apply merged_in in N. destruct N as [[N N']|[N N']].
  - rewrite merged_g in I by exact N. apply in_map_iff in I. destruct I as (a & <- & I). destruct (RG_in a (PORT n a N I)) as [[A1 A2]|[A1 ->]].
    + pose proof (f_outs _ _ FH _ A2) as K. split; [apply merged_in; right; split; [exact K|exact (OUT2 _ A2)]|]. intros E. apply (DIS n N). rewrite <- E. exact K.
    + destruct (f_src _ _ FG n a N I) as [K1 K2]. split; [apply merged_in; left; split; assumption|exact K2].
  - rewrite merged_h in I by exact N. apply in_map_iff in I. destruct I as (a & <- & I). destruct (RH_in a) as [[A1 A2]|[A1 ->]].
    + destruct (f_src _ _ FG u _ U A2) as [K1 K2]. split; [apply merged_in; left; split; assumption|]. intros E. rewrite <- E in N. exact (DIS _ K1 N).
    + destruct (f_src _ _ FH n a N I) as [K1 K2]. split; [apply merged_in; right; split; assumption|exact K2].
Qed.
Lemma merge_spec es : merge_edges u g h = Ok es -> exists r, merge_graphs u g h = Ok r /\ flat r merged_feed /\
  g_nodes r = merged_nodes /\ g_in r = g_in g /\ g_out r = map RG (g_out g).
Proof.
  intro H. unfold merge_graphs. rewrite merge_nodes_spec. cbn [bind]. rewrite merge_outputs_spec. cbn [bind]. rewrite H. cbn [bind].
  apply merge_edges_perm in H. rewrite merged_wires in H.
  rewrite make_graph_spec; [|apply merged_nodup|].
  2:{ intros e E. apply (Permutation_in _ H), wires_in in E. destruct E as [E1 E2]. apply nth_error_In in E2. split; [apply (merged_src _ _ E1 E2)|exact E1]. }
  eexists. split; [reflexivity|]. split; [|repeat split]. constructor; cbn [g_nodes g_edges g_in g_out].
  - apply merged_nodup.
  - exact H.
  - apply merged_src.
  - intros n N. apply merged_in in N. destruct N as [[N N']|[N N']].
    + rewrite merged_g by exact N. apply NoDup_map_in; [intros; eapply RG_inj; eassumption|apply (f_once _ _ FG _ N)].
    + rewrite merged_h by exact N. apply NoDup_map_in; [intros; eapply RH_inj; eassumption|apply (f_once _ _ FH _ N)].
  - apply (f_ins _ _ FG).
  - intros x I. apply merged_in. left. split; [apply (f_ins_in _ _ FG), I|intros ->; contradiction].
  - intros n I. rewrite merged_g by (apply (f_ins_in _ _ FG), I). rewrite (f_ins_feed _ _ FG n I). reflexivity.
  - intros n s N I J. apply merged_in in N. destruct N as [[N N']|[N N']].
    + rewrite merged_g in I by exact N. apply in_map_iff in I. destruct I as (a & <- & I). destruct (RG_in a (PORT n a N I)) as [[A1 A2]|[A1 E]].
      * exfalso. apply (DIS _ (f_ins_in _ _ FG _ J)). apply (f_outs _ _ FH), A2.
      * rewrite E in *. apply (f_zero _ _ FG n a N I J).
    + rewrite merged_h in I by exact N. apply in_map_iff in I. destruct I as (a & <- & I). destruct (RH_in a) as [[A1 A2]|[A1 E]].
      * apply (f_zero _ _ FG u _ U A2 J).
      * rewrite E in *. exfalso. apply (DIS _ (f_ins_in _ _ FG _ J)). apply (f_src _ _ FH n a N I).
  - intros o O. apply in_map_iff in O. destruct O as (a & <- & O). destruct (RG_in a (PORT2 a O)) as [[A1 A2]|[A1 ->]]; apply merged_in.
    + right. split; [apply (f_outs _ _ FH), A2|exact (OUT2 _ A2)].
    + left. split; [apply (f_outs _ _ FG), O|exact A1].
Qed.

Lemma merge_edges_err e : merge_edges u g h = Err e -> e = E_value.
Proof using. rewrite merge_edges_ops. generalize (EG ++ EH). induction all_ops as [|o l IH]; intros res H; [discriminate|]. cbn [foldM] in H. unfold lstep at 1, remove_by in H. destruct (remove_first _ _); cbn [bind] in H; [apply IH in H; exact H|congruence]. Qed.
Lemma merge_err e : merge_edges u g h = Err e -> merge_graphs u g h = Err e.
Proof. intro H. unfold merge_graphs. rewrite merge_nodes_spec. cbn [bind]. rewrite merge_outputs_spec. cbn [bind]. rewrite H. reflexivity. Qed.

(* ---- what the merged graph computes ---- *)
Section Sem.
Context {V : Type}.
Variables (rel1 rel2 : nat -> list V -> (nat -> V) -> Prop).
Definition rgives (rel : nat -> list V -> (nat -> V) -> Prop) (k : graph) (xs ys : list V) : Prop :=
  exists val, (forall n, In n (g_nodes k) -> ~ In n (g_in k) -> forall l, reads k val n l -> rel n l (val n)) /\
              map (fun n => val n 0) (g_in k) = xs /\ outputs k val = ys.
Definition value (val : nat -> nat -> V) (s : nat * nat) : V := val (fst s) (snd s).
Lemma rgives_flat rel k feed xs ys : flat k feed -> (rgives rel k xs ys <->
  exists val, (forall n, In n (g_nodes k) -> ~ In n (g_in k) -> rel n (map (value val) (feed n)) (val n)) /\
              map (fun n => val n 0) (g_in k) = xs /\ map (value val) (g_out k) = ys).
Proof using.
  clear. intro F. unfold rgives, outputs. split; intros (val & A & B & C); exists val; (split; [|split; assumption]).
  - intros n I J. apply A; try assumption. apply (reads_wired _ _ feed); [apply (f_nodes _ _ F)|apply (f_edges _ _ F)|exact I|reflexivity].
  - intros n I J l L. apply (reads_wired _ _ feed) in L; [|apply (f_nodes _ _ F)|apply (f_edges _ _ F)|exact I]. subst l. apply A; assumption.
Qed.
Hypothesis REL_g : forall n l f, In n (g_nodes g) -> n <> u -> (rel1 n l f <-> rel2 n l f).
Hypothesis REL_u : forall l f, rel1 u l f <-> rgives rel2 h l (map f (seq 0 (length (g_out h)))).
Lemma merge_sem r xs ys : flat r merged_feed -> g_nodes r = merged_nodes -> g_in r = g_in g -> g_out r = map RG (g_out g) ->
  (rgives rel1 g xs ys <-> rgives rel2 r xs ys).
Proof.
  intros FR NR IR OR. rewrite (rgives_flat rel1 g fg) by exact FG. rewrite (rgives_flat rel2 r merged_feed) by exact FR. rewrite NR, IR, OR. split.
  - intros (val & A & B & C). pose proof (A u U UI) as Au. rewrite REL_u in Au. rewrite (rgives_flat rel2 h fh) in Au by exact FH. destruct Au as (hv & HA & HB & HC).
    pose (val' := fun n => if mem n (g_nodes h) then hv n else val n).
    assert (forall n, In n (g_nodes h) -> val' n = hv n) as Vh by (intros n I; unfold val'; rewrite (proj2 (mem_spec n _) I); reflexivity).
    assert (forall n, In n (g_nodes g) -> val' n = val n) as Vg by (intros n I; unfold val'; rewrite (proj2 (mem_false n _) (DIS n I)); reflexivity).
    assert (forall s, In (fst s) (g_nodes g) -> (fst s = u -> snd s < length (g_out h)) -> value val' (RG s) = value val s) as VR.
    { intros s S1 S2. destruct (RG_in s S2) as [[E1 E2]|[E1 E2]].
      - unfold value at 1. rewrite Vh by (apply (f_outs _ _ FH), E2). change (hv (fst (RG s)) (snd (RG s))) with (value hv (RG s)). unfold RG, out_of. rewrite E1, Nat.eqb_refl.
        pose proof (f_equal (fun l => nth_error l (snd s)) HC) as Q. cbn beta in Q. rewrite !nth_error_map in Q. rewrite (nth_error_nth' _ s (S2 E1)) in Q. rewrite (nth_error_nth' _ 0) in Q by (rewrite seq_length; apply S2, E1). rewrite seq_nth in Q by (apply S2, E1). cbn in Q. injection Q as Q. rewrite Q. unfold value. rewrite E1. reflexivity.
      - rewrite E2. unfold value. rewrite Vg by exact S1. reflexivity. }
    exists val'. split; [|split].
    + intros n I J. apply merged_in in I. destruct I as [[I I']|[I I']].
      * rewrite merged_g, Vg by exact I. rewrite map_map. rewrite (map_ext_in _ (value val)).
        -- apply REL_g; [exact I|exact I'|]. apply A; assumption.
        -- intros s S1. apply VR; [apply (f_src _ _ FG n s I S1)|apply (PORT n s I S1)].
      * rewrite merged_h, Vh by exact I. rewrite map_map. rewrite (map_ext_in _ (value hv)); [apply HA; assumption|].
        intros s S1. destruct (RH_in s) as [[E1 E2]|[E1 E2]].
        -- pose proof (f_zero _ _ FH n s I S1 E1) as Z. unfold RH, in_of. destruct (pos (fst s) (g_in h)) as [i|] eqn:P; [|apply pos_none in P; contradiction]. apply pos_some in P.
           assert (i < length (fg u)) as L by (rewrite LEN; apply nth_error_Some; congruence).
           pose proof (f_equal (fun l => nth_error l i) HB) as Q. cbn beta in Q. rewrite !nth_error_map, P in Q. rewrite (nth_error_nth' _ s L) in Q. cbn in Q. injection Q as Q. unfold value at 2. rewrite Z, Q. unfold value. rewrite Vg; [reflexivity|]. apply (f_src _ _ FG u _ U). apply nth_In, L.
        -- rewrite E2. unfold value. rewrite Vh; [reflexivity|]. apply (f_src _ _ FH n s I S1).
    + rewrite <- B. apply map_ext_in. intros n I. rewrite Vg; [reflexivity|]. apply (f_ins_in _ _ FG), I.
    + rewrite <- C. rewrite map_map. apply map_ext_in. intros s S1. apply VR; [apply (f_outs _ _ FG), S1|apply (PORT2 s S1)].
  - intros (val & A & B & C).
    pose (hv := fun n => match pos n (g_in h) with Some i => fun _ : nat => value val (nth i (fg u) (0,0)) | None => val n end).
    pose (val' := fun n => if Nat.eqb n u then fun k => value val (nth k (g_out h) (u,k)) else val n).
    assert (forall s, fst s <> u -> value val' s = value val s) as Vn by (intros s S1; unfold value, val'; rewrite (proj2 (Nat.eqb_neq _ _) S1); reflexivity).
    assert (forall s, value val' s = value val (RG s)) as VR.
    { intro s. unfold RG, out_of. destruct (Nat.eqb_spec (fst s) u) as [E|E]; [|apply Vn, E]. unfold value at 1, val'. rewrite E, Nat.eqb_refl. f_equal. f_equal. rewrite <- E. destruct s; reflexivity. }
    assert (map (value val') (fg u) = map (value val) (fg u)) as Vu by (apply map_ext_in; intros s S1; apply Vn, (f_src _ _ FG u s U S1)).
    assert (forall n s, In n (g_nodes h) -> In s (fh n) -> value hv s = value val (RH s)) as VH.
    { intros n s N S1. unfold value at 1, hv, RH, in_of. destruct (pos (fst s) (g_in h)) as [i|] eqn:P; [|reflexivity]. f_equal. apply nth_indep. apply pos_some in P. rewrite LEN. apply nth_error_Some. congruence. }
    exists val'. split; [|split].
    + intros n I J. destruct (Nat.eq_dec n u) as [->|D].
      * rewrite REL_u, (rgives_flat rel2 h fh) by exact FH. exists hv. split; [|split].
        -- intros m M1 M2. assert (hv m = val m) as -> by (unfold hv; rewrite (proj2 (pos_none m _) M2); reflexivity). rewrite (map_ext_in _ (fun s => value val (RH s))) by (intros s S1; apply (VH m s M1 S1)). rewrite <- map_map, <- merged_h by exact M1.
           apply A; [apply merged_in; right; split; assumption|]. intro K. exact (DIS m (f_ins_in _ _ FG _ K) M1).
        -- rewrite Vu. apply nth_error_ext'. intro i. rewrite !nth_error_map. destruct (nth_error (g_in h) i) as [m|] eqn:E; cbn.
           ++ unfold hv. rewrite (pos_nth _ _ _ (f_ins _ _ FH) E). rewrite (nth_error_nth' _ (0,0)); [reflexivity|]. rewrite LEN. apply nth_error_Some. congruence.
           ++ replace (nth_error (fg u) i) with (@None (nat * nat)); [reflexivity|]. symmetry. apply nth_error_None. rewrite LEN. apply nth_error_None, E.
        -- apply nth_error_ext'. intro k. rewrite !nth_error_map. destruct (nth_error (g_out h) k) as [o|] eqn:E; cbn.
           ++ assert (k < length (g_out h)) as L by (apply nth_error_Some; congruence). rewrite (nth_error_nth' _ 0) by (rewrite seq_length; exact L). rewrite seq_nth by exact L. cbn. f_equal. unfold val'. rewrite Nat.eqb_refl. rewrite (nth_error_nth _ _ _ E).
              unfold value, hv. rewrite (proj2 (pos_none (fst o) _)); [reflexivity|]. apply OUT2, nth_error_In with (1 := E).
           ++ replace (nth_error (seq 0 (length (g_out h))) k) with (@None nat); [reflexivity|]. symmetry. apply nth_error_None. rewrite seq_length. apply nth_error_None, E.
      * apply REL_g; [exact I|exact D|]. assert (val' n = val n) as -> by (unfold val'; rewrite (proj2 (Nat.eqb_neq _ _) D); reflexivity). rewrite (map_ext _ _ VR), <- map_map, <- merged_g by exact I. apply A; [apply merged_in; left; split; assumption|exact J].
    + rewrite <- B. apply map_ext_in. intros n I. unfold val'. rewrite (proj2 (Nat.eqb_neq n u)); [reflexivity|]. intros ->. contradiction.
    + rewrite <- C. rewrite map_map. apply map_ext, VR.
Qed.
End Sem.
End Merge.
