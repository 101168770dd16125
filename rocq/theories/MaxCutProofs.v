(* MaxCutProofs.v -- the search facts for a well-formed model graph, and the link with execution orders. *)
From Coq Require Import Permutation Lqa.
From Verif Require Import Base RoundQ RoundQFacts MaxCutModel MaxCutSpec MaxCutSearch MaxCutLoop.
Open Scope nat_scope.

Lemma op_children_in b o t : In t (op_children b o) <-> In (o, t) (b_ab b).
Proof.
  unfold op_children. rewrite in_map_iff. split.
  - intros ([o' t'] & <- & H). apply filter_In in H. cbn in H. destruct H as [H E]. destruct (opn_eq_dec o' o); [subst; auto|discriminate].
  - intros H. exists (o, t). split; auto. apply filter_In. split; auto. cbn. destruct (opn_eq_dec o o); congruence.
Qed.
Lemma op_parents_in b o t : In t (op_parents b o) <-> In (t, o) (b_ba b).
Proof.
  unfold op_parents. rewrite in_map_iff. split.
  - intros ([t' o'] & <- & H). apply filter_In in H. cbn in H. destruct H as [H E]. destruct (opn_eq_dec o' o); [subst; auto|discriminate].
  - intros H. exists (t, o). split; auto. apply filter_In. split; auto. cbn. destruct (opn_eq_dec o o); congruence.
Qed.
Lemma ten_children_in b o t : In o (ten_children b t) <-> In (t, o) (b_ba b).
Proof.
  unfold ten_children. rewrite in_map_iff. split.
  - intros ([t' o'] & <- & H). apply filter_In in H. cbn in H. destruct H as [H E]. destruct (ten_eq_dec t' t); [subst; auto|discriminate].
  - intros H. exists (t, o). split; auto. apply filter_In. split; auto. cbn. destruct (ten_eq_dec t t); congruence.
Qed.
Lemma ten_parents_in b o t : In o (ten_parents b t) <-> In (o, t) (b_ab b).
Proof.
  unfold ten_parents. rewrite in_map_iff. split.
  - intros ([o' t'] & <- & H). apply filter_In in H. cbn in H. destruct H as [H E]. destruct (ten_eq_dec t' t); [subst; auto|discriminate].
  - intros H. exists (o, t). split; auto. apply filter_In. split; auto. cbn. destruct (ten_eq_dec t t); congruence.
Qed.
Lemma op_children_nodup b o : NoDup (b_ab b) -> NoDup (op_children b o).
Proof.
  intros H. unfold op_children. induction H; cbn; [constructor|].
  destruct (opn_eq_dec (fst x) o) as [E|E]; cbn; auto. constructor; auto.
  rewrite in_map_iff. intros (y & E1 & E2). apply filter_In in E2. destruct E2 as [E2 E3].
  destruct (opn_eq_dec (fst y) o); [|discriminate]. destruct x, y; cbn in *; subst. auto.
Qed.
Lemma op_parents_nodup b o : NoDup (b_ba b) -> NoDup (op_parents b o).
Proof.
  intros H. unfold op_parents. induction H; cbn; [constructor|].
  destruct (opn_eq_dec (snd x) o) as [E|E]; cbn; auto. constructor; auto.
  rewrite in_map_iff. intros (y & E1 & E2). apply filter_In in E2. destruct E2 as [E2 E3].
  destruct (opn_eq_dec (snd y) o); [|discriminate]. destruct x, y; cbn in *; subst. auto.
Qed.
Lemma ten_children_nodup b t : NoDup (b_ba b) -> NoDup (ten_children b t).
Proof.
  intros H. unfold ten_children. induction H; cbn; [constructor|].
  destruct (ten_eq_dec (fst x) t) as [E|E]; cbn; auto. constructor; auto.
  rewrite in_map_iff. intros (y & E1 & E2). apply filter_In in E2. destruct E2 as [E2 E3].
  destruct (ten_eq_dec (fst y) t); [|discriminate]. destruct x, y; cbn in *; subst. auto.
Qed.
Lemma ten_parents_nodup b t : NoDup (b_ab b) -> NoDup (ten_parents b t).
Proof.
  intros H. unfold ten_parents. induction H; cbn; [constructor|].
  destruct (ten_eq_dec (snd x) t) as [E|E]; cbn; auto. constructor; auto.
  rewrite in_map_iff. intros (y & E1 & E2). apply filter_In in E2. destruct E2 as [E2 E3].
  destruct (ten_eq_dec (snd y) t); [|discriminate]. destruct x, y; cbn in *; subst. auto.
Qed.
Lemma NoDup_single {A} (l : list A) x : NoDup l -> (forall y, In y l <-> y = x) -> l = [x].
Proof.
  intros N H. destruct l as [|a l]; [destruct (proj2 (H x) eq_refl)|].
  assert (a = x) by (apply H; left; auto). subst. destruct l as [|c l]; auto.
  assert (c = x) by (apply H; right; left; auto). subst. inversion N; subst. exfalso; apply H2; left; auto.
Qed.

Lemma NoDup_app_l {A} (l l' : list A) : NoDup (l ++ l') -> NoDup l.
Proof. induction l; cbn; [constructor|]. inversion 1; subst. constructor; auto. intros X; apply H2, in_app_iff; auto. Qed.

Section Concrete.
Variable g : mgraph.
Hypothesis W : wf_graph g.
Notation b := (astar_graph g).
Notation b0 := (memory_graph g).
Notation outs := (op_children b).
Notation ins := (op_parents b).
Notation kids := (ten_children b).

Lemma W_ne : g_ops g <> []. Proof. apply W. Qed.
Lemma W_nodup : NoDup (g_ops g). Proof. apply W. Qed.
Lemma W_out n : In n (g_ops g) -> 1 <= g_nout g n. Proof. apply W. Qed.
Lemma W_edge s i d : In (s, i, d) (g_edges g) -> In s (g_ops g) /\ i < g_nout g s /\ In d (g_ops g). Proof. apply W. Qed.

Lemma tensors_in n i : In (n, i) (tensors g) <-> In n (g_ops g) /\ i < g_nout g n.
Proof.
  unfold tensors. rewrite in_flat_map. split.
  - intros (m & Hm & H). apply in_map_iff in H. destruct H as (j & E & Hj). inversion E; subst. apply in_seq in Hj. split; auto. lia.
  - intros [A B]. exists n. split; auto. apply in_map_iff. exists i. split; auto. apply in_seq. lia.
Qed.
Lemma tensors_nodup : NoDup (tensors g).
Proof.
  unfold tensors. pose proof W_nodup as H. induction H; cbn; [constructor|]. apply NoDup_app'; auto.
  - apply FinFun.Injective_map_NoDup; [intros a c E; congruence|apply seq_NoDup].
  - intros y H1 H2. apply in_map_iff in H1. destruct H1 as (i & <- & _). apply in_flat_map in H2.
    destruct H2 as (m & Hm & H2). apply in_map_iff in H2. destruct H2 as (j & E & _). inversion E; subst. auto.
Qed.

Lemma ba0_in t o : In (t, o) (b_ba b0) <-> exists n i d, t = Ten n i /\ o = Op d /\ In (n, i, d) (g_edges g).
Proof.
  cbn. rewrite nodup_In, in_flat_map. split.
  - intros ([n i] & Hni & H). apply in_map_iff in H. destruct H as ([[s j] d] & E & H). apply filter_In in H. cbn in *.
    inversion E; subst. destruct H as [H H']. apply andb_true_iff in H'. rewrite !Nat.eqb_eq in H'. destruct H' as [-> ->]. eauto 6.
  - intros (n & i & d & -> & -> & H). exists (n, i). split; [apply tensors_in; apply W_edge in H; tauto|].
    apply in_map_iff. exists (n, i, d). split; auto. apply filter_In. cbn. rewrite !Nat.eqb_refl. auto.
Qed.
Lemma par0_nil o : op_parents b0 o = [] <-> forall t, ~ In (t, o) (b_ba b0).
Proof.
  split.
  - intros E t H. apply op_parents_in in H. rewrite E in H. destruct H.
  - intros H. destruct (op_parents b0 o) as [|t l] eqn:E; auto. exfalso. apply (H t). apply op_parents_in. rewrite E; left; auto.
Qed.
Lemma kid0_nil t : ten_children b0 t = [] <-> forall o, ~ In (t, o) (b_ba b0).
Proof.
  split.
  - intros E o H. apply ten_children_in in H. rewrite E in H. destruct H.
  - intros H. destruct (ten_children b0 t) as [|o l] eqn:E; auto. exfalso. apply (H o). apply ten_children_in. rewrite E; left; auto.
Qed.
Definition source (n : nat) := forall s i, ~ In (s, i, n) (g_edges g).
Definition sink (n i : nat) := forall d, ~ In (n, i, d) (g_edges g).
Lemma sources_in o : In o (sources_a g b0) <-> exists n, o = Op n /\ In n (g_ops g) /\ source n.
Proof.
  unfold sources_a. rewrite filter_In, in_map_iff. split.
  - intros [(n & <- & Hn) H]. exists n. repeat split; auto. destruct (op_parents b0 (Op n)) eqn:E; [|discriminate].
    rewrite par0_nil in E. intros s i Hs. apply (E (Ten s i)). apply ba0_in. eauto 6.
  - intros (n & -> & Hn & H). split; eauto. assert (E : op_parents b0 (Op n) = []).
    { apply par0_nil. intros t Ht. apply ba0_in in Ht. destruct Ht as (m & i & d & -> & E & Ht). inversion E; subst. eapply H; eauto. }
    rewrite E. auto.
Qed.
Lemma sinks_in t : In t (sinks_b g b0) <-> exists n i, t = Ten n i /\ In n (g_ops g) /\ i < g_nout g n /\ sink n i.
Proof.
  unfold sinks_b. rewrite filter_In, in_map_iff. split.
  - intros [([n i] & <- & Hn) H]. apply tensors_in in Hn. cbn [fst snd] in H. exists n, i. split; [reflexivity|]. split; [tauto|]. split; [tauto|].
    destruct (ten_children b0 (Ten n i)) eqn:E; [|discriminate].
    rewrite kid0_nil in E. intros d Hs. apply (E (Op d)). apply ba0_in. eauto 6.
  - intros (n & i & -> & Hn & Hi & H). split; [exists (n, i); split; auto; apply tensors_in; auto|]. assert (E : ten_children b0 (Ten n i) = []).
    { apply kid0_nil. intros t Ht. apply ba0_in in Ht. destruct Ht as (m & j & d & E & -> & Ht). inversion E; subst. eapply H; eauto. }
    rewrite E. auto.
Qed.
Lemma ab_in o t : In (o, t) (b_ab b) <->
  (exists n i, o = Op n /\ t = Ten n i /\ In n (g_ops g) /\ i < g_nout g n) \/ (o = SrcA /\ t = SrcB) \/ (o = TgtA /\ t = TgtB) \/ (o = TgtA2 /\ t = TgtB2).
Proof.
  cbn [astar_graph b_ab]. rewrite in_app_iff. cbn [memory_graph b_ab]. rewrite in_map_iff. split.
  - intros [([n i] & E & H)|[E|[E|[E|[]]]]]; inversion E; subst; try tauto. apply tensors_in in H. left. exists n, i. cbn in *. tauto.
  - intros [(n & i & -> & -> & H)|[[-> ->]|[[-> ->]|[-> ->]]]]; cbn; try tauto. left. exists (n, i). split; auto. apply tensors_in; auto.
Qed.
Lemma ba_in t o : In (t, o) (b_ba b) <->
  (exists n i d, t = Ten n i /\ o = Op d /\ In (n, i, d) (g_edges g)) \/ (exists n, t = SrcB /\ o = Op n /\ In n (g_ops g) /\ source n) \/
  (exists n i, t = Ten n i /\ o = TgtA /\ In n (g_ops g) /\ i < g_nout g n /\ sink n i) \/ (t = TgtB /\ o = TgtA2).
Proof.
  cbn [astar_graph b_ba]. rewrite !in_app_iff, ba0_in, !in_map_iff. split.
  - intros [H|[(x & E & H)|[(x & E & H)|[E|[]]]]]; auto.
    + inversion E; subst. apply sources_in in H. destruct H as (n & -> & H). right; left. exists n; tauto.
    + inversion E; subst. apply sinks_in in H. destruct H as (n & i & -> & H). right; right; left. exists n, i; tauto.
    + inversion E; subst. auto.
  - intros [H|[(n & -> & -> & H)|[(n & i & -> & -> & H)|[-> ->]]]]; auto.
    + right; left. exists (Op n). split; auto. apply sources_in. exists n; tauto.
    + right; right; left. exists (Ten n i). split; auto. apply sinks_in. exists n, i; tauto.
    + cbn; auto.
Qed.
Lemma map_inj_nodup {A B} (f : A -> B) l : (forall x y, f x = f y -> x = y) -> NoDup l -> NoDup (map f l).
Proof. intros H. apply FinFun.Injective_map_NoDup. exact H. Qed.
Lemma ab_nodup : NoDup (b_ab b).
Proof.
  cbn [astar_graph b_ab memory_graph]. apply NoDup_app'.
  - apply map_inj_nodup; [|apply tensors_nodup]. intros [n i] [m j] E; cbn in E; congruence.
  - repeat constructor; cbn; intuition discriminate.
  - intros x Hx Hy. apply in_map_iff in Hx. destruct Hx as (ni & <- & _). cbn in Hy. intuition discriminate.
Qed.
Lemma ba_nodup : NoDup (b_ba b).
Proof.
  cbn [astar_graph b_ba]. apply NoDup_app'; [apply NoDup_nodup| |].
  - apply NoDup_app'; [|apply NoDup_app'|].
    + apply map_inj_nodup; [congruence|]. apply NoDup_filter', map_inj_nodup; [congruence|apply W_nodup].
    + apply map_inj_nodup; [congruence|]. apply NoDup_filter', map_inj_nodup; [|apply tensors_nodup]. intros [n i] [m j] E; cbn in E; congruence.
    + repeat constructor; cbn; tauto.
    + intros x Hx Hy. apply in_map_iff in Hx. destruct Hx as (t & <- & _). cbn in Hy. intuition discriminate.
    + intros x Hx Hy. apply in_map_iff in Hx. destruct Hx as (t & <- & Ht). apply in_app_iff in Hy. destruct Hy as [Hy|[Hy|[]]].
      * apply in_map_iff in Hy. destruct Hy as (t' & E & Ht'). inversion E; subst. apply sources_in in Ht. destruct Ht as (n & ? & _). discriminate.
      * discriminate.
  - intros [t o] Hx Hy. apply ba0_in in Hx. destruct Hx as (n & i & d & -> & -> & _). rewrite !in_app_iff, !in_map_iff in Hy.
    destruct Hy as [(x & E & _)|[(x & E & _)|[E|[]]]]; discriminate.
Qed.

Definition allops : list opn := SrcA :: map Op (g_ops g) ++ [TgtA; TgtA2].
Lemma allops_in o : In o allops <-> o = SrcA \/ (exists n, o = Op n /\ In n (g_ops g)) \/ o = TgtA \/ o = TgtA2.
Proof.
  unfold allops. cbn [In]. rewrite in_app_iff, in_map_iff. cbn [In]. split.
  - intros [<-|[(n & <- & H)|[<-|[<-|[]]]]]; eauto 6.
  - intros [->|[(n & -> & H)|[->| ->]]]; eauto 6.
Qed.
Lemma allops_length : length allops = length (g_ops g) + 3.
Proof. unfold allops. cbn [length]. rewrite app_length, map_length. cbn. lia. Qed.

Section Rank.
Variable rk : nat -> nat.
Hypothesis Hrk : forall s i d, In (s, i, d) (g_edges g) -> rk s < rk d.
Definition mx : nat := fold_right Nat.max 0 (map rk (g_ops g)).
Lemma fold_max_ge l x : In x l -> x <= fold_right Nat.max 0 l.
Proof. induction l; cbn; intros []; subst; [lia|]. specialize (IHl H). lia. Qed.
Lemma fold_max_in l : l <> [] -> In (fold_right Nat.max 0 l) l.
Proof.
  induction l as [|x l IH]; [congruence|]. intros _. cbn. destruct l as [|y l]; [cbn; rewrite Nat.max_0_r; auto|].
  destruct (Nat.max_spec x (fold_right Nat.max 0 (y :: l))) as [[_ ->]|[_ ->]]; auto. right. apply IH. discriminate.
Qed.
Lemma mx_ge n : In n (g_ops g) -> rk n <= mx.
Proof. intros H. apply fold_max_ge, in_map; auto. Qed.
Definition rank (o : opn) : nat := match o with SrcA => 0 | Op n => 1 + rk n | TgtA => 2 + mx | TgtA2 => 3 + mx end.
Lemma some_sink : exists n i, In n (g_ops g) /\ i < g_nout g n /\ sink n i.
Proof.
  assert (H : In mx (map rk (g_ops g))). { apply fold_max_in. pose proof W_ne. destruct (g_ops g); [congruence|discriminate]. }
  apply in_map_iff in H. destruct H as (n & E & Hn). exists n, 0. split; auto. split; [pose proof (W_out n Hn); lia|].
  intros d Hd. pose proof (Hrk _ _ _ Hd). apply W_edge in Hd. pose proof (mx_ge d). intuition lia.
Qed.
Lemma edge_dec n i : (exists d, In (n, i, d) (g_edges g)) \/ sink n i.
Proof.
  destruct (Exists_dec (fun e => fst e = (n, i)) (g_edges g)) as [H|H].
  - intros e. decide equality; apply Nat.eq_dec.
  - left. apply Exists_exists in H. destruct H as ([[n' i'] d] & H & E). cbn in E. inversion E; subst. eauto.
  - right. intros d Hd. apply H. apply Exists_exists. eexists; split; eauto.
Qed.
Lemma src_dec n : (exists s i, In (s, i, n) (g_edges g)) \/ source n.
Proof.
  destruct (Exists_dec (fun e => snd e = n) (g_edges g)) as [H|H].
  - intros e. apply Nat.eq_dec.
  - left. apply Exists_exists in H. destruct H as ([[s i] d] & H & E). cbn in E. subst. eauto.
  - right. intros s i Hd. apply H. apply Exists_exists. eexists; split; eauto.
Qed.

Lemma list_eq_single {A} (l : list A) x : NoDup l -> (forall y, In y l <-> y = x) -> l = [x].
Proof. apply NoDup_single. Qed.
Lemma facts : gfacts g allops rank (4 + mx).
Proof.
  constructor.
  - intros o t H. apply op_children_in in H. apply NoDup_single; [apply ten_parents_nodup, ab_nodup|].
    intros y. rewrite ten_parents_in. split; [|intros ->; auto]. intros Hy. rewrite ab_in in H, Hy.
    destruct H as [(n & i & -> & -> & _)|[[-> ->]|[[-> ->]|[-> ->]]]];
    destruct Hy as [(n' & i' & -> & E & _)|[[-> E]|[[-> E]|[-> E]]]]; congruence.
  - intros o t. rewrite op_parents_in, ten_children_in. tauto.
  - intros o t o' H H'. rewrite op_children_in, ab_in in H. rewrite ten_children_in, ba_in in H'.
    destruct H as [(n & i & -> & -> & H)|[[-> ->]|[[-> ->]|[-> ->]]]];
    destruct H' as [(n' & i' & d & E & -> & H')|[(n' & E & -> & H')|[(n' & i' & E & -> & H')|[E ->]]]]; inversion E; subst; cbn; try lia.
    + apply Hrk in H'. lia.
    + pose proof (mx_ge n'). intuition lia.
  - intros o H. apply allops_in in H. destruct H as [->|[(n & -> & H)|[->| ->]]]; cbn; try lia. pose proof (mx_ge n H). lia.
  - intros o t H. rewrite op_parents_in, ba_in in H.
    destruct H as [(n & i & d & -> & -> & H)|[(n & -> & -> & H)|[(n & i & -> & -> & H)|[-> ->]]]].
    + exists (Op n). apply W_edge in H. rewrite allops_in, op_children_in, ab_in. split; [right; left; exists n; tauto|]. left. exists n, i. tauto.
    + exists SrcA. rewrite allops_in, op_children_in, ab_in. tauto.
    + exists (Op n). rewrite allops_in, op_children_in, ab_in. split; [right; left; exists n; tauto|]. left. exists n, i. tauto.
    + exists TgtA. rewrite allops_in, op_children_in, ab_in. tauto.
  - intros o H Hne. apply allops_in in H. destruct H as [->|[(n & -> & H)|[->| ->]]]; [| | |congruence].
    + exists SrcB. assert (X : exists n, In n (g_ops g) /\ source n).
      { assert (Hm : exists n, In n (g_ops g) /\ forall m, In m (g_ops g) -> rk n <= rk m).
        { pose proof W_ne as Hn. clear Hrk. induction (g_ops g) as [|x l IH]; [congruence|]. destruct l as [|y l].
          - exists x. split; [left; auto|]. intros m [<-|[]]; auto.
          - destruct IH as (m & Hm & Lm); [discriminate|]. destruct (le_lt_dec (rk x) (rk m)).
            + exists x. split; [left; auto|]. intros m' [<-|H']; auto. specialize (Lm m' H'). lia.
            + exists m. split; [right; auto|]. intros m' [<-|H']; auto. lia. }
        destruct Hm as (n & Hn & Lm). exists n. split; auto. intros s i Hs. pose proof (Hrk _ _ _ Hs). apply W_edge in Hs.
        specialize (Lm s). intuition lia. }
      destruct X as (n & Hn & Hs). exists (Op n). rewrite op_children_in, ab_in, ten_children_in, ba_in. split; [tauto|]. right; left. exists n. tauto.
    + pose proof (W_out n H). exists (Ten n 0). destruct (edge_dec n 0) as [(d & Hd)|Hs].
      * exists (Op d). rewrite op_children_in, ab_in, ten_children_in, ba_in. split; left; [exists n, 0|exists n, 0, d]; repeat split; auto.
      * exists TgtA. rewrite op_children_in, ab_in, ten_children_in, ba_in. split; [left|right; right; left]; exists n, 0; repeat split; auto.
    + exists TgtB, TgtA2. rewrite op_children_in, ab_in, ten_children_in, ba_in. tauto.
  - intros o. apply op_children_nodup, ab_nodup.
  - intros o H E. assert (X : forall t, ~ In (t, o) (b_ba b)) by (intros t Ht; apply op_parents_in in Ht; rewrite E in Ht; destruct Ht).
    apply allops_in in H. destruct H as [->|[(n & -> & H)|[->| ->]]]; auto; exfalso.
    + destruct (src_dec n) as [(s & i & Hs)|Hs].
      * apply (X (Ten s i)). rewrite ba_in. left. eauto 6.
      * apply (X SrcB). rewrite ba_in. right; left. eauto 6.
    + destruct some_sink as (n & i & Hn & Hi & Hs). apply (X (Ten n i)). rewrite ba_in. right; right; left. eauto 8.
    + apply (X TgtB). rewrite ba_in. tauto.
  - intros t k H. rewrite ten_children_in, ba_in in H. rewrite allops_in.
    destruct H as [(n & i & d & -> & -> & H)|[(n & -> & -> & H)|[(n & i & -> & -> & H)|[-> ->]]]]; auto.
    + apply W_edge in H. right; left. exists d; tauto.
    + right; left. exists n; tauto.
  - destruct (ins SrcA) as [|t l] eqn:E; auto. exfalso. assert (H : In t (ins SrcA)) by (rewrite E; left; auto).
    rewrite op_parents_in, ba_in in H. destruct H as [(n & i & d & _ & H & _)|[(n & _ & H & _)|[(n & i & _ & H & _)|[_ H]]]]; discriminate.
  - apply NoDup_single; [apply op_children_nodup, ab_nodup|]. intros t. rewrite op_children_in, ab_in. split; [|tauto].
    intros [(n & i & H & _)|[[_ H]|[[H _]|[H _]]]]; congruence.
  - apply NoDup_single; [apply op_children_nodup, ab_nodup|]. intros t. rewrite op_children_in, ab_in. split; [|tauto].
    intros [(n & i & H & _)|[[H _]|[[_ H]|[H _]]]]; congruence.
  - apply NoDup_single; [apply op_children_nodup, ab_nodup|]. intros t. rewrite op_children_in, ab_in. split; [|tauto].
    intros [(n & i & H & _)|[[H _]|[[H _]|[_ H]]]]; congruence.
  - destruct (kids TgtB2) as [|o l] eqn:E; auto. exfalso. assert (H : In o (kids TgtB2)) by (rewrite E; left; auto).
    rewrite ten_children_in, ba_in in H. destruct H as [(n & i & d & H & _)|[(n & H & _)|[(n & i & H & _)|[H _]]]]; discriminate.
  - apply NoDup_single; [apply ten_children_nodup, ba_nodup|]. intros o. rewrite ten_children_in, ba_in. split; [|tauto].
    intros [(n & i & d & H & _)|[(n & H & _)|[(n & i & H & _)|[_ H]]]]; congruence.
  - apply NoDup_single; [apply op_parents_nodup, ba_nodup|]. intros o. rewrite op_parents_in, ba_in. split; [|tauto].
    intros [(n & i & d & _ & H & _)|[(n & _ & H & _)|[(n & i & _ & H & _)|[H _]]]]; congruence.
  - apply allops_in; tauto.
  - apply allops_in; tauto.
  - apply allops_in; tauto.
  - unfold allops. constructor.
    + rewrite in_app_iff, in_map_iff. intros [(n & H & _)|[H|[H|[]]]]; discriminate.
    + apply NoDup_app'; [apply map_inj_nodup; [congruence|apply W_nodup]|repeat constructor; cbn; intuition discriminate|].
      intros x H1 H2. apply in_map_iff in H1. destruct H1 as (n & <- & _). cbn in H2. intuition discriminate.
Qed.
End Rank.
Lemma facts_ex : exists rank M, gfacts g allops rank M.
Proof. destruct W as (_ & _ & _ & _ & rk & H). exists (rank rk), (4 + mx rk). apply facts; auto. Qed.
Lemma kids_nodup t : NoDup (kids t).
Proof. apply ten_children_nodup, ba_nodup. Qed.

(* ---- execution orders and search orders ---- *)
Definition ordR (past : list nat) : list opn := rev (map Op past) ++ [SrcA].
Definition fullR (sigma : list nat) : list opn := TgtA2 :: TgtA :: ordR sigma.
Notation sched := (sched g allops).
Notation complete := (complete g allops).

Lemma ordR_snoc past o : ordR (past ++ [o]) = Op o :: ordR past.
Proof. unfold ordR. rewrite map_app, rev_app_distr. reflexivity. Qed.
Lemma ordR_in past o : In o (ordR past) <-> o = SrcA \/ exists n, o = Op n /\ In n past.
Proof.
  unfold ordR. rewrite in_app_iff, <- in_rev, in_map_iff. cbn. split.
  - intros [(n & <- & H)|[<-|[]]]; eauto.
  - intros [->|(n & -> & H)]; eauto.
Qed.
Lemma before_in sigma s d : before sigma s d -> In s sigma /\ In d sigma.
Proof. intros (a & c & e & ->). split; apply in_app_iff; right; [left; auto|right; apply in_app_iff; right; left; auto]. Qed.
Lemma before_past past o future s : NoDup (past ++ o :: future) -> before (past ++ o :: future) s o -> In s past.
Proof.
  intros N (a & c & e & E).
  assert (E' : past ++ o :: future = (a ++ s :: c) ++ o :: e) by (rewrite E, <- app_assoc; reflexivity).
  assert (past = a ++ s :: c) as ->; [|apply in_app_iff; right; left; auto].
  clear E. revert N E'. generalize (a ++ s :: c). revert future e. induction past as [|x past IH]; intros future e l N E; destruct l as [|y l]; auto.
  - cbn in *. inversion E; subst. inversion N; subst. exfalso. apply H1, in_app_iff. right; left; auto.
  - cbn in *. inversion E; subst. inversion N; subst. exfalso. apply H1, in_app_iff. right; left; auto.
  - cbn in *. inversion E; subst. f_equal. inversion N; subst. eapply IH; eauto.
Qed.

Lemma sched_prefix sigma : valid_order g sigma -> forall past future, sigma = past ++ future -> sched (ordR past).
Proof.
  intros [P V]. assert (ND : NoDup sigma) by (eapply Permutation_NoDup; [symmetry; eauto|apply W_nodup]).
  induction past as [|o past IH] using rev_ind; intros future E; [constructor|].
  rewrite ordR_snoc. rewrite <- app_assoc in E. cbn in E.
  assert (Ho : In o (g_ops g)) by (eapply Permutation_in; eauto; subst; apply in_app_iff; right; left; auto).
  constructor.
  - eapply IH; eauto.
  - intros H. apply ordR_in in H. destruct H as [|(n & E' & H)]; [discriminate|]. inversion E'; subst n. subst sigma.
    apply NoDup_remove_2 in ND. apply ND, in_app_iff; auto.
  - apply allops_in. eauto.
  - intros E'. assert (X : forall t, ~ In (t, Op o) (b_ba b)) by (intros t Ht; apply op_parents_in in Ht; rewrite E' in Ht; destruct Ht).
    destruct (src_dec o) as [(s & i & Hs)|Hs].
    + apply (X (Ten s i)). rewrite ba_in. left. eauto 6.
    + apply (X SrcB). rewrite ba_in. right; left. eauto 6.
  - intros t Ht. rewrite op_parents_in, ba_in in Ht.
    destruct Ht as [(n & i & d & -> & E' & H)|[(n & -> & E' & H)|[(n & i & -> & E' & H)|[-> E']]]]; try discriminate; inversion E'; subst.
    + exists (Op n). split.
      * apply ordR_in. right. exists n. split; auto. eapply before_past; [exact ND|]. eapply V; eauto.
      * rewrite op_children_in, ab_in. left. exists n, i. apply W_edge in H. tauto.
    + exists SrcA. split; [apply ordR_in; auto|]. rewrite op_children_in, ab_in. tauto.
Qed.
Lemma valid_complete sigma : valid_order g sigma -> complete (fullR sigma).
Proof.
  intros V. assert (S := sched_prefix sigma V sigma [] (eq_sym (app_nil_r _))). destruct facts_ex as (rank & M & F).
  destruct V as [P V]. split; [|left; auto]. constructor; [constructor; auto| | | |].
  - intros H. apply ordR_in in H. destruct H as [|(n & H & _)]; discriminate.
  - apply allops_in; auto.
  - intros E. destruct W as (_ & _ & _ & _ & rk & Hr). destruct (some_sink rk Hr) as (n & i & Hn & Hi & Hs).
    assert (X : In (Ten n i) (ins TgtA)) by (rewrite op_parents_in, ba_in; right; right; left; eauto 8). rewrite E in X. destruct X.
  - intros t Ht. rewrite op_parents_in, ba_in in Ht.
    destruct Ht as [(n & i & d & -> & E' & H)|[(n & -> & E' & H)|[(n & i & -> & E' & H)|[-> E']]]]; try discriminate.
    exists (Op n). split; [apply ordR_in; right; exists n; split; auto; eapply Permutation_in; [symmetry; eauto|tauto]|].
    rewrite op_children_in, ab_in. left. exists n, i. tauto.
  - intros [H|H]; [discriminate|]. apply ordR_in in H. destruct H as [|(n & H & _)]; discriminate.
  - apply allops_in; auto.
  - rewrite (gf_insA2 _ _ _ _ F). discriminate.
  - rewrite (gf_insA2 _ _ _ _ F). intros t [<-|[]]. exists TgtA. split; [left; auto|]. rewrite (gf_outA _ _ _ _ F). left; auto.
Qed.

Lemma tgt_all r : sched r -> In TgtA r -> forall o, In o allops -> o <> TgtA2 -> In o r.
Proof.
  intros S HT. destruct facts_ex as (rank & M & F).
  assert (H : forall n o, M - rank o <= n -> In o allops -> o <> TgtA2 -> In o r).
  { induction n; intros o Hn Ho Hne.
    - pose proof (gf_bound _ _ _ _ F o Ho). lia.
    - destruct (opn_eq_dec o TgtA) as [->|Hne']; auto.
      destruct (gf_next _ _ _ _ F o Ho Hne) as (t & k & Ht & Hk).
      pose proof (gf_rank _ _ _ _ F _ _ _ Ht Hk). pose proof (gf_kidsN _ _ _ _ F _ _ Hk) as HkN. pose proof (gf_bound _ _ _ _ F _ HkN).
      assert (Hk2 : k <> TgtA2).
      { intros ->. apply (gf_kids _ _ _ _ F) in Hk. rewrite (gf_insA2 _ _ _ _ F) in Hk. destruct Hk as [<-|[]].
        apply Hne'. eapply (prod_unique g allops rank M F TgtB); eauto. rewrite (gf_outA _ _ _ _ F). left; auto. }
      assert (In k r) by (apply IHn; auto; lia).
      eapply (sched_closed g allops rank M F r S k t o); auto. apply (gf_kids _ _ _ _ F); auto. }
  intros o. apply (H (M - rank o)); auto.
Qed.
Lemma real_ops_ordR past : real_ops (rev (ordR past)) = past.
Proof.
  unfold ordR. rewrite rev_app_distr, rev_involutive. cbn. induction past; cbn; auto. f_equal; auto.
Qed.
Lemma sched_ordR r : sched r -> ~ In TgtA r -> ~ In TgtA2 r -> exists past, r = ordR past.
Proof.
  induction 1; intros H1' H2'.
  - exists []. reflexivity.
  - destruct IHsched as (past & ->); [intros A; apply H1'; right; exact A|intros A; apply H2'; right; exact A|].
    destruct o as [n| | |].
    + exists (past ++ [n]). rewrite ordR_snoc; auto.
    + exfalso. apply H0. apply ordR_in; auto.
    + exfalso. apply H1'. left; auto.
    + exfalso. apply H2'. left; auto.
Qed.
Lemma complete_fullR r : complete r -> exists sigma, r = fullR sigma.
Proof.
  intros [S HT]. destruct facts_ex as (rank & M & F).
  destruct (complete_head g allops rank M F r S HT) as (r1 & ->).
  assert (HA : In TgtA r1).
  { eapply (sched_before g allops rank M F TgtA2 r1 TgtB); eauto. rewrite (gf_insA2 _ _ _ _ F); left; auto. rewrite (gf_outA _ _ _ _ F); left; auto. }
  assert (S1 : sched r1) by (eapply sched_tail; eauto; intros ->; destruct HA).
  assert (ND := sched_nodup _ _ _ S). inversion ND as [|? ? Hn2 ND1]; subst.
  apply in_split in HA. destruct HA as (a & r2 & ->). destruct a as [|x a].
  - cbn in *. assert (S2 : sched r2).
    { eapply sched_tail; [exact S1|]. intros ->. inversion S1; subst. inversion H1. }
    assert (X1 : ~ In TgtA r2) by (inversion ND1; auto).
    assert (X2 : ~ In TgtA2 r2) by (intros A; apply Hn2; right; auto).
    destruct (sched_ordR r2 S2 X1 X2) as (past & ->). exists past. reflexivity.
  - exfalso. cbn in *. assert (S2 : sched (TgtA :: r2)) by (eapply (sched_app g allops (x :: a)); eauto; discriminate).
    inversion ND1; subst. apply H1. apply in_app_iff. right. apply (tgt_all _ S2); [left; reflexivity| |].
    + eapply sched_N; [exact F|exact S1|left; auto].
    + intros ->. apply Hn2. left; auto.
Qed.
Lemma complete_valid sigma : complete (fullR sigma) -> valid_order g sigma.
Proof.
  intros [S HT]. destruct facts_ex as (rank & M & F). assert (ND := sched_nodup _ _ _ S).
  assert (A : forall n, In n sigma <-> In n (g_ops g)).
  { intros n. split; intros H.
    - assert (X : In (Op n) allops).
      { eapply sched_N; [exact F|exact S|]. right; right. apply ordR_in. eauto. }
      apply allops_in in X. destruct X as [X|[(m & X & Hm)|[X|X]]]; try discriminate. inversion X; subst; auto.
    - assert (X : In (Op n) (fullR sigma)) by (eapply complete_all; eauto; apply allops_in; eauto).
      destruct X as [X|[X|X]]; try discriminate. apply ordR_in in X. destruct X as [X|(m & X & Hm)]; [discriminate|]. inversion X; subst; auto. }
  assert (NDs : NoDup sigma).
  { inversion ND; subst. inversion H2; subst. unfold ordR in H4. apply NoDup_remove_1 in H4. rewrite app_nil_r in H4.
    apply NoDup_rev in H4. rewrite rev_involutive in H4. apply NoDup_map_inv in H4. auto. }
  split; [apply NoDup_Permutation; auto; apply W_nodup|].
  intros s i d H. pose proof (W_edge _ _ _ H) as (Hs & Hi & Hd). apply A in Hd. apply in_split in Hd. destruct Hd as (p & q & ->).
  assert (Sp : sched (Op d :: ordR p)).
  { rewrite <- ordR_snoc. eapply (sched_app g allops (TgtA2 :: TgtA :: rev (map Op q))).
    - rewrite ordR_snoc. discriminate.
    - cbn [app]. unfold fullR in S. replace (rev (map Op q) ++ ordR (p ++ [d])) with (ordR (p ++ d :: q)); auto.
      unfold ordR. rewrite app_assoc. f_equal. rewrite <- rev_app_distr, <- map_app, <- app_assoc. reflexivity. }
  assert (X : In (Op s) (ordR p)).
  { eapply (sched_before g allops rank M F (Op d) (ordR p) (Ten s i)); auto.
    - rewrite op_parents_in, ba_in. left. eauto 6.
    - rewrite op_children_in, ab_in. left. exists s, i. tauto. }
  apply ordR_in in X. destruct X as [X|(m & X & Hm)]; [discriminate|]. inversion X; subst m.
  apply in_split in Hm. destruct Hm as (u & v & ->). exists u, v, q. rewrite <- app_assoc. reflexivity.
Qed.

(* ---- memory ---- *)
Lemma real_tens_in l n i : In (n, i) (real_tens l) <-> In (Ten n i) l.
Proof.
  unfold real_tens. rewrite in_flat_map. split.
  - intros ([m j| | |] & H & E); cbn in E; try tauto. destruct E as [E|[]]. inversion E; subst; auto.
  - intros H. exists (Ten n i). split; auto. left; auto.
Qed.
Lemma real_tens_nodup l : NoDup l -> NoDup (real_tens l).
Proof.
  induction 1; [constructor|]. unfold real_tens in *. cbn [flat_map]. destruct x; cbn [app]; auto.
  constructor; auto. intros A. apply H. apply real_tens_in; auto.
Qed.
Lemma mem_real_tens l : sum_nat (map (ten_size g) l) = mem g (real_tens l).
Proof.
  unfold mem, sum_nat, real_tens. induction l as [|t l IH]; auto. cbn [map fold_right flat_map]. rewrite IH, map_app, fold_right_app.
  destruct t; cbn; auto.
Qed.
Lemma readers_in t d : In d (readers g t) <-> In (fst t, snd t, d) (g_edges g).
Proof.
  unfold readers. rewrite in_map_iff. split.
  - intros ([[s i] d'] & <- & H). apply filter_In in H. cbn in *. destruct H as [H E]. apply andb_true_iff in E. rewrite !Nat.eqb_eq in E. destruct E as [<- <-]. auto.
  - intros H. eexists. split; [|apply filter_In; split; [exact H|]]; auto. cbn. rewrite !Nat.eqb_refl. auto.
Qed.
Lemma needed_iff later t : needed g later t = true <-> sink (fst t) (snd t) \/ exists d, In (fst t, snd t, d) (g_edges g) /\ In d later.
Proof.
  unfold needed. destruct (readers g t) as [|d l] eqn:E.
  - split; auto. intros _. left. intros d H. apply (proj2 (readers_in t d)) in H. rewrite E in H. destruct H.
  - rewrite <- E, existsb_exists. split.
    + intros (x & Hx & H). right. exists x. split; [apply readers_in; auto|]. apply existsb_exists in H. destruct H as (y & Hy & Ey). apply Nat.eqb_eq in Ey. subst; auto.
    + intros [H|(x & Hx & H)].
      * exfalso. apply (H d). apply readers_in. rewrite E; left; auto.
      * exists x. split; [apply readers_in; auto|]. apply existsb_exists. exists x. rewrite Nat.eqb_refl; auto.
Qed.
Lemma outputs_in n m i : In (m, i) (outputs g n) <-> m = n /\ i < g_nout g n.
Proof. unfold outputs. rewrite in_map_iff. split; [intros (j & E & H); apply in_seq in H; inversion E; subst; split; auto; lia|intros [-> H]; exists i; split; auto; apply in_seq; lia]. Qed.
Lemma flat_outputs_in l m i : In (m, i) (flat_map (outputs g) l) <-> In m l /\ i < g_nout g m.
Proof.
  rewrite in_flat_map. split.
  - intros (n & Hn & H). apply outputs_in in H. destruct H as [-> H]; auto.
  - intros [A B]. exists m. split; auto. apply outputs_in; auto.
Qed.
Lemma flat_outputs_nodup l : NoDup l -> NoDup (flat_map (outputs g) l).
Proof.
  induction 1; cbn; [constructor|]. apply NoDup_app'; auto.
  - unfold outputs. apply map_inj_nodup; [congruence|apply seq_NoDup].
  - intros [m i] A B. apply outputs_in in A. apply flat_outputs_in in B. destruct A as [-> _]. tauto.
Qed.
Lemma live_elems sigma past o future : valid_order g sigma -> sigma = past ++ o :: future ->
  Permutation (real_tens (elemsR g (Op o :: ordR past))) (live g past o future).
Proof.
  intros V E. assert (S : sched (Op o :: ordR past)).
  { rewrite <- ordR_snoc. apply (sched_prefix sigma V (past ++ [o]) future). rewrite <- app_assoc; auto. }
  destruct facts_ex as (rank & M & F).
  destruct V as [P V]. assert (ND : NoDup sigma) by (eapply Permutation_NoDup; [symmetry; eauto|apply W_nodup]).
  assert (Hin : forall n, In n (past ++ o :: future) <-> In n (g_ops g)).
  { intros n. subst. split; intros H; [eapply Permutation_in; eauto|eapply Permutation_in; [symmetry; eauto|auto]]. }
  subst sigma.
  apply NoDup_Permutation.
  - apply real_tens_nodup. eapply elems_nodup; eauto.
  - unfold live. apply NoDup_app'.
    + apply NoDup_filter', flat_outputs_nodup. eapply NoDup_app_l; eauto.
    + unfold outputs. apply map_inj_nodup; [congruence|apply seq_NoDup].
    + intros [m i] A B. apply filter_In in A. destruct A as [A _]. apply flat_outputs_in in A. apply outputs_in in B. destruct B as [-> _].
      apply NoDup_remove_2 in ND. apply ND, in_app_iff; tauto.
  - intros [n i]. rewrite real_tens_in, (elems_cons g allops) by auto. unfold live. rewrite in_app_iff, filter_In, outputs_in, flat_outputs_in, needed_iff. cbn [fst snd].
    rewrite op_children_in, ab_in. split.
    + intros [[(n' & i' & E1 & E2 & H)|[[_ H]|[[_ H]|[_ H]]]]|(p & Hp & Ht & Hpe)]; try discriminate.
      * inversion E1; inversion E2; subst. right; tauto.
      * left. rewrite op_children_in, ab_in in Ht. destruct Ht as [(n' & i' & -> & E2 & H)|[[_ H]|[[_ H]|[_ H]]]]; try discriminate.
        inversion E2; subst n' i'. apply ordR_in in Hp. destruct Hp as [Hp|(m & Em & Hm)]; [discriminate|]. inversion Em; subst m.
        split; [tauto|]. apply pend_iff in Hpe. destruct Hpe as (k & Hk & Hnk). rewrite ten_children_in, ba_in in Hk.
        destruct Hk as [(n' & i' & d & Ea & -> & Hd)|[(n' & Ea & _)|[(n' & i' & Ea & -> & Hd)|[Ea _]]]]; try discriminate; inversion Ea; subst n' i'.
        -- right. exists d. split; auto. pose proof (W_edge _ _ _ Hd) as (_ & _ & Hdo). apply Hin, in_app_iff in Hdo. destruct Hdo as [Hdo|Hdo]; auto.
           exfalso. apply Hnk. apply ordR_in. eauto.
        -- left. tauto.
    + intros [[[Hn Hi] H]|[-> Hi]].
      * right. exists (Op n). split; [apply ordR_in; eauto|]. rewrite op_children_in, ab_in.
        assert (Hno : In n (g_ops g)) by (apply Hin, in_app_iff; auto).
        split; [left; exists n, i; auto|]. apply pend_iff. destruct H as [H|(d & Hd & Hl)].
        -- exists TgtA. split; [rewrite ten_children_in, ba_in; right; right; left; exists n, i; auto|]. intros X. apply ordR_in in X. destruct X as [|(m & X & _)]; discriminate.
        -- exists (Op d). split; [rewrite ten_children_in, ba_in; left; eauto 6|]. intros X. apply ordR_in in X. destruct X as [|(m & X & Hm)]; [discriminate|]. inversion X; subst m.
           destruct Hl as [<-|Hl]; [apply NoDup_remove_2 in ND; apply ND, in_app_iff; auto|].
           clear - ND Hm Hl. induction past as [|x past IH]; [destruct Hm|]. cbn in ND. inversion ND; subst. destruct Hm as [->|Hm]; auto.
           apply H1. apply in_app_iff. right; right; auto.
      * left. left. exists o, i. assert (Hno : In o (g_ops g)) by (apply Hin, in_app_iff; right; left; auto). auto.
Qed.
Lemma mem_perm l l' : Permutation l l' -> mem g l = mem g l'.
Proof. intros P. unfold mem. change (sum_nat (map (fun t => g_size g (fst t) (snd t)) l) = sum_nat (map (fun t => g_size g (fst t) (snd t)) l')). apply sum_nat_perm, Permutation_map; auto. Qed.
Lemma memR_live sigma past o future : valid_order g sigma -> sigma = past ++ o :: future ->
  memR g (Op o :: ordR past) = mem g (live g past o future).
Proof. intros V E. unfold memR. rewrite mem_real_tens. apply mem_perm. eapply live_elems; eauto. Qed.
Lemma costR_peak sigma : valid_order g sigma -> forall future past, sigma = past ++ future ->
  Nat.max (costR g (ordR past)) (peak_from g past future) = costR g (ordR sigma).
Proof.
  intros V. induction future as [|o future IH]; intros past E.
  - rewrite app_nil_r in E. subst. cbn. lia.
  - specialize (IH (past ++ [o])). rewrite <- app_assoc in IH. specialize (IH E). rewrite <- IH, ordR_snoc. cbn [costR peak_from].
    rewrite (memR_live sigma past o future V E). lia.
Qed.
Lemma sum_filter_le {A} (h : A -> nat) f l : sum_nat (map h (filter f l)) <= sum_nat (map h l).
Proof. induction l; cbn; auto. destruct (f a); cbn; unfold sum_nat in *; lia. Qed.
Lemma memR_zero o r : sum_nat (map (ten_size g) (outs o)) = 0 -> memR g (o :: r) <= memR g r.
Proof. intros H. unfold memR. cbn [elemsR]. rewrite map_app, sum_nat_app, H, Nat.add_0_r. apply sum_filter_le. Qed.
Lemma memR_cost r : memR g r <= costR g r.
Proof. destruct r; cbn [costR]; [cbn; lia|lia]. Qed.
Lemma cost_full sigma : valid_order g sigma -> costR g (fullR sigma) = peak g sigma.
Proof.
  intros V. destruct facts_ex as (rank & M & F). unfold fullR. cbn [costR].
  assert (A : memR g (TgtA :: ordR sigma) <= memR g (ordR sigma)) by (apply memR_zero; rewrite (gf_outA _ _ _ _ F); reflexivity).
  assert (B : memR g (TgtA2 :: TgtA :: ordR sigma) <= memR g (TgtA :: ordR sigma)) by (apply memR_zero; rewrite (gf_outA2 _ _ _ _ F); reflexivity).
  pose proof (memR_cost (ordR sigma)).
  pose proof (costR_peak sigma V sigma [] eq_refl) as E. unfold peak.
  assert (costR g (ordR []) = 0). { unfold ordR. cbn [map rev app costR]. unfold memR. cbn [elemsR filter app]. rewrite (gf_outsrc _ _ _ _ F). reflexivity. }
  lia.
Qed.
Lemma routeR_max r : fold_right Nat.max 0 (map (mem g) (map (fun c => real_tens (c_elems c)) (routeR g r))) = costR g r.
Proof.
  induction r as [|o r IH]; auto. cbn [routeR map fold_right costR]. rewrite IH. unfold cutR at 1. cbn [c_elems].
  rewrite <- mem_real_tens. fold (memR g (o :: r)). lia.
Qed.
Lemma routeR_app s r : exists l, routeR g (s ++ r) = l ++ routeR g r.
Proof. induction s as [|o s IH]; [exists []; auto|]. destruct IH as (l & E). cbn [app routeR]. rewrite E. eexists (_ :: l). reflexivity. Qed.
Lemma routeR_in r c : In c (routeR g r) -> exists s o r', r = s ++ o :: r' /\ c = cutR g (o :: r').
Proof.
  induction r as [|o r IH]; [intros []|]. intros [<-|H]; [exists [], o, r; auto|]. destruct (IH H) as (s & o' & r' & -> & ->).
  exists (o :: s), o', r'. auto.
Qed.
End Concrete.
