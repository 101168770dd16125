(* KReadProofs.v -- proofs for KReadProps.v: the graph of one level, and the nesting. *)
From Coq Require Import Permutation Sorted Lia.
From Verif Require Import Base GraphModel GraphSpec GraphProofs FxProofs KReadModel KReadSpec KReadMergeProofs.
Open Scope res_scope.
Local Open Scope nat_scope.

Lemma kmodel_nest (P : kmodel -> Prop) :
  (forall ns i o, (forall n inner, In n ns -> layer n = LModel inner -> P inner) -> P (KModel ns i o)) -> forall m, P m.
Proof.
  intro H. fix IH 1. intros [ns i o]. apply H. induction ns as [|x ns IHns]; [intros n inner []|]. intros n inner [<-|I]; [|exact (IHns n inner I)].
  destruct x as [u nm lay a b]. destruct lay as [| |m]; cbn; intro E; try discriminate. injection E as <-. exact (IH m).
Qed.
Lemma mapM_ok {A B} (f : A -> result B) (h : A -> B) l : (forall x, In x l -> f x = Ok (h x)) -> mapM f l = Ok (map h l).
Proof. induction l as [|x l IH]; intro H; [reflexivity|]. cbn [mapM map]. rewrite H by (left; reflexivity). cbn [bind]. rewrite IH by (intros; apply H; right; assumption). reflexivity. Qed.
Lemma filter_single {A} (p : A -> bool) l x : NoDup l -> In x l -> p x = true -> (forall y, In y l -> p y = true -> y = x) -> filter p l = [x].
Proof.
  induction 1 as [|y l N1 N2 IH]; intros I P Q; [destruct I|]. cbn. destruct (p y) eqn:E.
  - assert (y = x) as -> by (apply Q; [left; reflexivity|exact E]). f_equal. apply filter_nil. intros z Z. destruct (p z) eqn:F; [|reflexivity]. exfalso. apply N1. rewrite <- (Q z); [exact Z|right; exact Z|exact F].
  - apply IH; [destruct I as [<-|I]; [congruence|exact I]|exact P|]. intros z Z. apply Q. right. exact Z.
Qed.
Lemma NoDup_flat_map {A B} (f : A -> list B) l : NoDup l -> (forall x, In x l -> NoDup (f x)) -> (forall x y z, In x l -> In y l -> In z (f x) -> In z (f y) -> x = y) -> NoDup (flat_map f l).
Proof.
  induction 1 as [|x l N1 N2 IH]; intros H K; [constructor|]. cbn.
  assert (NoDup (flat_map f l)) as M by (apply IH; [intros; apply H; right; assumption|intros a b z A1 B1; apply K; right; assumption]).
  assert (forall z, In z (f x) -> ~ In z (flat_map f l)) as D. { intros z Z I. apply in_flat_map in I. destruct I as (y & Y & J). apply N1. rewrite (K x y z); [exact Y|left; reflexivity|right; exact Y|exact Z|exact J]. }
  pose proof (H x (or_introl eq_refl)) as Nx. revert D. induction Nx as [|z fx Z1 Z2 IHx]; intro D; [exact M|]. cbn. constructor.
  - intro I. apply in_app_or in I. destruct I as [I|I]; [contradiction|]. apply (D z); [left; reflexivity|exact I].
  - apply IHx. intros w W. apply D. right. exact W.
Qed.
Lemma NoDup_flat_map_inv {A B} (f : A -> list B) l : NoDup (flat_map f l) -> (forall x, In x l -> NoDup (f x)) /\
  (forall x y z, In x l -> In y l -> In z (f x) -> In z (f y) -> NoDup l -> x = y).
Proof.
  induction l as [|a l IH]; intro N; [split; [intros x []|intros x y z []]|]. cbn in N.
  assert (NoDup (f a) /\ NoDup (flat_map f l) /\ forall z, In z (f a) -> ~ In z (flat_map f l)) as (N1 & N2 & N3).
  { clear IH. induction (f a) as [|x fa IHa]; [split; [constructor|split; [exact N|intros z []]]|]. cbn in N. inversion N as [|? ? M1 M2]; subst. destruct (IHa M2) as (K1 & K2 & K3). split; [constructor; [intro; apply M1, in_or_app; left; assumption|exact K1]|]. split; [exact K2|].
    intros z [<-|Z]; [intro; apply M1, in_or_app; right; assumption|apply K3, Z]. }
  destruct (IH N2) as [I1 I2]. split.
  - intros x [<-|X]; [exact N1|apply I1, X].
  - intros x y z [<-|X] [<-|Y] Zx Zy ND; [reflexivity| | |].
    + exfalso. apply (N3 z Zx). apply in_flat_map. exists y. split; assumption.
    + exfalso. apply (N3 z Zy). apply in_flat_map. exists x. split; assumption.
    + inversion ND; subst. apply (I2 x y z); assumption.
Qed.
Lemma index_spec t l : In t l -> exists i, index_of t l = Ok i /\ nth_error l i = Some t.
Proof. induction l as [|y l IH]; intro I; [destruct I|]. cbn. destruct (Nat.eqb_spec y t) as [->|D]; [exists 0; split; reflexivity|]. destruct I as [->|I]; [congruence|]. destruct (IH I) as (i & -> & E). exists (S i). split; [reflexivity|exact E]. Qed.
Definition idx (t : nat) (l : list nat) : nat := match index_of t l with Ok i => i | _ => 0 end.
Lemma idx_spec t l : In t l -> index_of t l = Ok (idx t l) /\ nth_error l (idx t l) = Some t.
Proof. intro I. unfold idx. destruct (index_spec t l I) as (i & -> & E). split; [reflexivity|exact E]. Qed.
Lemma idx_nth t l i : NoDup l -> nth_error l i = Some t -> idx t l = i.
Proof. intros N E. destruct (idx_spec t l (nth_error_In _ _ E)) as [_ F]. symmetry. apply (proj1 (NoDup_nth_error l) N); [apply nth_error_Some; congruence|congruence]. Qed.

(* ---- one level ---- *)
Section Level.
Variables (ns : list knode) (ins outs : list nat).
Hypothesis LV : level_ok ns ins outs.
Hypothesis ND : NoDup (map uid ns).

Lemma ns_nodup : NoDup ns.
Proof. apply NoDup_map_inv with (1 := ND). Qed.
Lemma uid_inj a b : In a ns -> In b ns -> uid a = uid b -> a = b.
Proof.
  clear LV. intros A B E. revert ND A B. induction ns as [|x l IH]; intros N A B; [destruct A|]. cbn in N. inversion N as [|? ? N1 N2]; subst. destruct A as [<-|A], B as [<-|B]; [reflexivity| | |apply IH; assumption].
  - exfalso. apply N1. rewrite E. apply in_map, B.
  - exfalso. apply N1. rewrite <- E. apply in_map, A.
Qed.
Definition node_at (u : nat) : option knode := find (fun n => Nat.eqb (uid n) u) ns.
Lemma node_at_spec n : In n ns -> node_at (uid n) = Some n.
Proof.
  intro I. unfold node_at. destruct (find _ ns) as [m|] eqn:E.
  - apply find_some in E. destruct E as [E1 E2]. apply Nat.eqb_eq in E2. f_equal. apply uid_inj; assumption.
  - exfalso. apply find_none with (x := n) in E; [|exact I]. rewrite Nat.eqb_refl in E. discriminate.
Qed.
Lemma kout_nodup n : In n ns -> NoDup (kout n).
Proof. intro I. apply (proj1 (NoDup_flat_map_inv kout ns (made_once _ _ _ LV))), I. Qed.
Lemma producer_spec p t : In p ns -> In t (kout p) -> producer ns t = Some p.
Proof.
  intros I J. unfold producer. destruct (find _ (rev ns)) as [q|] eqn:E.
  - apply find_some in E. destruct E as [E1 E2]. apply in_rev in E1. apply mem_spec in E2. f_equal. apply (proj2 (NoDup_flat_map_inv kout ns (made_once _ _ _ LV)) q p t); try assumption. apply ns_nodup.
  - exfalso. apply find_none with (x := p) in E; [|rewrite <- in_rev; exact I]. rewrite (proj2 (mem_spec t _) J) in E. discriminate.
Qed.
Definition port (t : nat) : nat * nat := match producer ns t with Some p => (uid p, idx t (kout p)) | None => (0, 0) end.
Lemma port_spec p t : In p ns -> In t (kout p) -> port t = (uid p, idx t (kout p)).
Proof. intros I J. unfold port. rewrite (producer_spec p t I J). reflexivity. Qed.
Lemma port_inj s t p q : In p ns -> In s (kout p) -> In q ns -> In t (kout q) -> port s = port t -> s = t.
Proof.
  intros P S1 Q T E. rewrite (port_spec p s P S1), (port_spec q t Q T) in E. injection E as E1 E2. apply uid_inj in E1; [|assumption|assumption]. subst q. destruct (idx_spec s _ S1) as [_ F1]. destruct (idx_spec t _ T) as [_ F2]. congruence.
Qed.
Definition feed0 (u : nat) : list (nat * nat) :=
  match node_at u with Some n => if is_input n then [] else map port (kin n) | None => [] end.
Lemma readers_spec t : readers ns t = filter (fun n => mem t (kin n)) ns.
Proof.
  unfold readers. pose proof (read_once _ _ _ LV) as R1. clear - R1. induction ns as [|n l IH]; [reflexivity|]. cbn. rewrite IH by (intros; apply R1; right; assumption).
  destruct (mem t (kin n)) eqn:M.
  - rewrite (filter_single (Nat.eqb t) (kin n) t); [reflexivity|apply R1; left; reflexivity|apply mem_spec, M|apply Nat.eqb_refl|]. intros y _ E. apply Nat.eqb_eq in E. congruence.
  - rewrite filter_nil; [reflexivity|]. intros y I. apply Nat.eqb_neq. intros ->. apply mem_spec in I. congruence.
Qed.
(* the input layer of a tensor *)
Definition inp (t : nat) : nat := fst (port t).
Lemma inp_node t : In t ins -> exists n, In n ns /\ is_input n = true /\ kout n = [t] /\ kin n = [t] /\ inp t = uid n /\ port t = (uid n, 0).
Proof.
  intro I. destruct (ins_are _ _ _ LV t I) as (n & N1 & N2 & N3). exists n. repeat split; try assumption.
  - destruct (inputs_listed _ _ _ LV n N1 N2) as (t' & K1 & K2 & _). congruence.
  - unfold inp. rewrite (port_spec n t N1) by (rewrite N3; left; reflexivity). reflexivity.
  - rewrite (port_spec n t N1) by (rewrite N3; left; reflexivity). rewrite N3. unfold idx. cbn. rewrite Nat.eqb_refl. reflexivity.
Qed.
Lemma build_inputs_spec : build_inputs ns ins = Ok (map inp ins).
Proof.
  unfold build_inputs. rewrite (mapM_ok _ (fun t => [inp t])).
  - cbn [bind]. f_equal. rewrite <- flat_map_concat_map. apply flat_map_single.
  - intros t I. destruct (inp_node t I) as (n & N1 & N2 & N3 & N4 & N5 & _). rewrite readers_spec.
    assert (filter is_input (filter (fun n => mem t (kin n)) ns) = [n]) as F.
    { rewrite <- filter_and. apply filter_single; [apply ns_nodup|exact N1|rewrite N4, N2; cbn; rewrite Nat.eqb_refl; reflexivity|]. intros y Y E. apply andb_true_iff in E. destruct E as [E1 E2]. destruct (inputs_listed _ _ _ LV y Y E2) as (t' & K1 & K2 & _).
      apply mem_spec in E1. rewrite K1 in E1. destruct E1 as [->|[]]. apply (proj2 (NoDup_flat_map_inv kout ns (made_once _ _ _ LV)) y n t); [exact Y|exact N1|rewrite K2; left; reflexivity|rewrite N3; left; reflexivity|apply ns_nodup]. }
    destruct (filter (fun n => mem t (kin n)) ns) as [|a l] eqn:E; [cbn in F; discriminate|]. rewrite F. cbn. rewrite N5. reflexivity.
Qed.
Lemma build_outputs_spec : build_outputs ns outs = Ok (map port outs).
Proof.
  unfold build_outputs. apply mapM_ok. intros t I. destruct (outs_made _ _ _ LV t I) as (p & P1 & P2). rewrite (port_spec p t P1 P2), (producer_spec p t P1 P2). destruct (idx_spec t _ P2) as [-> _]. reflexivity.
Qed.
Definition edges0 : list edge :=
  flat_map (fun s => flat_map (fun t => map (fun d => Edge (uid s) (uid d) (idx t (kout s)) (idx t (kin d)))
     (filter (fun d => negb (Nat.eqb (uid s) (uid d))) (readers ns t))) (kout s)) ns.
Lemma get_edges_spec : get_edges ns = Ok edges0.
Proof.
  unfold get_edges. rewrite (mapM_ok _ (fun s => flat_map (fun t => map (fun d => Edge (uid s) (uid d) (idx t (kout s)) (idx t (kin d)))
     (filter (fun d => negb (Nat.eqb (uid s) (uid d))) (readers ns t))) (kout s))).
  - cbn [bind]. unfold edges0. rewrite flat_map_concat_map. reflexivity.
  - intros s I. unfold edges_from. rewrite (mapM_ok _ (fun t => map (fun d => Edge (uid s) (uid d) (idx t (kout s)) (idx t (kin d)))
     (filter (fun d => negb (Nat.eqb (uid s) (uid d))) (readers ns t)))); [cbn [bind]; rewrite flat_map_concat_map; reflexivity|].
    intros t T. apply mapM_ok. intros d D. apply filter_In in D. destruct D as [D _]. rewrite readers_spec in D. apply filter_In in D. destruct D as [_ D]. apply mem_spec in D.
    destruct (idx_spec t _ T) as [-> _]. destruct (idx_spec t _ D) as [-> _]. reflexivity.
Qed.
Lemma edges0_in e : In e edges0 <-> exists s t d, In s ns /\ In t (kout s) /\ In d ns /\ In t (kin d) /\ uid s <> uid d /\ e = Edge (uid s) (uid d) (idx t (kout s)) (idx t (kin d)).
Proof.
  unfold edges0. rewrite in_flat_map. split.
  - intros (s & S1 & I). apply in_flat_map in I. destruct I as (t & T & I). apply in_map_iff in I. destruct I as (d & <- & D). apply filter_In in D. destruct D as [D1 D2]. rewrite readers_spec in D1. apply filter_In in D1. destruct D1 as [D1 D3]. apply mem_spec in D3.
    apply negb_true_iff, Nat.eqb_neq in D2. exists s, t, d. repeat split; assumption.
  - intros (s & t & d & S1 & T & D1 & D3 & D2 & ->). exists s. split; [exact S1|]. apply in_flat_map. exists t. split; [exact T|]. apply in_map_iff. exists d. split; [reflexivity|]. apply filter_In. split; [|apply negb_true_iff, Nat.eqb_neq, D2]. rewrite readers_spec. apply filter_In. split; [exact D1|apply mem_spec, D3].
Qed.
Lemma edges0_nodup : NoDup edges0.
Proof.
  unfold edges0. apply NoDup_flat_map; [apply ns_nodup| |].
  - intros s S1. apply NoDup_flat_map; [apply kout_nodup, S1| |].
    + intros t T. apply NoDup_map_in.
      * intros x y X Y E. injection E as E _. apply filter_In in X. apply filter_In in Y. rewrite readers_spec in X, Y. destruct X as [X _], Y as [Y _]. apply filter_In in X. apply filter_In in Y. apply uid_inj; [apply X|apply Y|exact E].
      * apply NoDup_filter. rewrite readers_spec. apply NoDup_filter, ns_nodup.
    + intros a b z A B Za Zb. apply in_map_iff in Za. apply in_map_iff in Zb. destruct Za as (d1 & <- & _). destruct Zb as (d2 & E & _). injection E as _ E _. destruct (idx_spec a _ A) as [_ F1]. destruct (idx_spec b _ B) as [_ F2]. congruence.
  - intros a b z A B Za Zb. apply in_flat_map in Za. apply in_flat_map in Zb. destruct Za as (t1 & _ & Za). destruct Zb as (t2 & _ & Zb). apply in_map_iff in Za. apply in_map_iff in Zb. destruct Za as (d1 & <- & _). destruct Zb as (d2 & E & _). injection E as E _ _. apply uid_inj; [exact A|exact B|congruence].
Qed.
Lemma wires_nodup l feed : NoDup l -> NoDup (wires l feed).
Proof using. clear. intro N. apply NoDup_flat_map; [exact N|intros; apply eds_nodup|]. intros x y z _ _ X Y. apply eds_in in X. apply eds_in in Y. destruct X as [<- _], Y as [<- _]. reflexivity. Qed.
Lemma feed0_node n : In n ns -> feed0 (uid n) = if is_input n then [] else map port (kin n).
Proof. intro I. unfold feed0. rewrite node_at_spec by exact I. reflexivity. Qed.
Lemma edges0_wires : Permutation edges0 (wires (map uid ns) feed0).
Proof.
  apply NoDup_Permutation; [apply edges0_nodup|apply wires_nodup, ND|]. intro e. rewrite edges0_in, wires_in. split.
  - intros (s & t & d & S1 & T & D1 & D2 & D3 & ->). cbn [snk src si ti]. split; [apply in_map, D1|]. rewrite feed0_node by exact D1.
    destruct (is_input d) eqn:I.
    + exfalso. destruct (inputs_listed _ _ _ LV d D1 I) as (t' & K1 & K2 & _). rewrite K1 in D2. destruct D2 as [->|[]]. apply D3. f_equal. apply (proj2 (NoDup_flat_map_inv kout ns (made_once _ _ _ LV)) s d t); [exact S1|exact D1|exact T|rewrite K2; left; reflexivity|apply ns_nodup].
    + destruct (idx_spec t _ D2) as [_ F]. rewrite nth_error_map, F. cbn. rewrite (port_spec s t S1 T). reflexivity.
  - intros [I E]. apply in_map_iff in I. destruct I as (d & D0 & D1). rewrite <- D0, feed0_node in E by exact D1. destruct (is_input d) eqn:Id; [destruct (ti e); discriminate|].
    rewrite nth_error_map in E. destruct (nth_error (kin d) (ti e)) as [t|] eqn:F; [|discriminate]. cbn in E. injection E as E. pose proof (nth_error_In _ _ F) as T. destruct (made_here _ _ _ LV d t D1 T) as (s & S1 & S2). rewrite (port_spec s t S1 S2) in E.
    exists s, t, d. repeat split; try assumption.
    + intro X. apply uid_inj in X; [|assumption|assumption]. subst s. exact (not_own _ _ _ LV d D1 Id t T S2).
    + rewrite (idx_nth t (kin d) (ti e)); [|apply (read_once _ _ _ LV d D1)|exact F]. destruct e; cbn in *. congruence.
Qed.
Definition graph0 := Graph (map uid ns) edges0 (map inp ins) (map port outs).
Lemma build_graph_spec : build_graph ns ins outs = Ok graph0.
Proof.
  unfold build_graph. rewrite build_inputs_spec. cbn [bind]. rewrite build_outputs_spec. cbn [bind]. rewrite get_edges_spec. cbn [bind]. f_equal. apply make_graph_spec; [exact ND|].
  intros e E. apply edges0_in in E. destruct E as (s & t & d & S1 & T & D1 & D2 & D3 & ->). cbn. split; apply in_map; assumption.
Qed.
Lemma in_ins n : In n ns -> (In (uid n) (map inp ins) <-> is_input n = true).
Proof.
  intro N. split.
  - intro I. apply in_map_iff in I. destruct I as (t & E & I). destruct (inp_node t I) as (m & M1 & M2 & _ & _ & M3 & _). rewrite M3 in E. apply uid_inj in E; [|assumption|assumption]. subst m. exact M2.
  - intro I. destruct (inputs_listed _ _ _ LV n N I) as (t & K1 & K2 & K3). apply in_map_iff. exists t. split; [|exact K3]. unfold inp. rewrite (port_spec n t N) by (rewrite K2; left; reflexivity). reflexivity.
Qed.
Lemma graph0_flat : flat graph0 feed0.
Proof.
  constructor; cbn [graph0 g_nodes g_edges g_in g_out].
  - exact ND.
  - apply edges0_wires.
  - intros u s I J. apply in_map_iff in I. destruct I as (n & <- & N). rewrite feed0_node in J by exact N. destruct (is_input n) eqn:E; [destruct J|]. apply in_map_iff in J. destruct J as (t & <- & T). destruct (made_here _ _ _ LV n t N T) as (p & P1 & P2). rewrite (port_spec p t P1 P2). cbn. split; [apply in_map, P1|].
    intro X. apply uid_inj in X; [|assumption|assumption]. subst p. exact (not_own _ _ _ LV n N E t T P2).
  - intros u I. apply in_map_iff in I. destruct I as (n & <- & N). rewrite feed0_node by exact N. destruct (is_input n) eqn:E; [constructor|]. apply NoDup_map_in; [|apply (read_once _ _ _ LV n N)]. intros a b A B. destruct (made_here _ _ _ LV n a N A) as (p & P1 & P2). destruct (made_here _ _ _ LV n b N B) as (q & Q1 & Q2). apply (port_inj a b p q); assumption.
  - apply NoDup_map_in; [|apply (ins_once _ _ _ LV)]. intros a b A B E. destruct (inp_node a A) as (p & _ & _ & P3 & _ & _ & P4). destruct (inp_node b B) as (q & _ & _ & Q3 & _ & _ & Q4).
    destruct (ins_are _ _ _ LV a A) as (p' & P1 & _ & P2). destruct (ins_are _ _ _ LV b B) as (q' & Q1 & _ & Q2). apply (port_inj a b p' q'); [exact P1|rewrite P2; left; reflexivity|exact Q1|rewrite Q2; left; reflexivity|]. unfold inp in E. rewrite P4, Q4 in E |- *. cbn in E. congruence.
  - intros x I. apply in_map_iff in I. destruct I as (t & <- & I). destruct (inp_node t I) as (m & M1 & _ & _ & _ & -> & _). apply in_map, M1.
  - intros x I. pose proof I as I'. apply in_map_iff in I. destruct I as (t & <- & I). destruct (inp_node t I) as (m & M1 & M2 & _ & _ & E & _). rewrite E. rewrite feed0_node, M2 by exact M1. reflexivity.
  - intros u s I J K. apply in_map_iff in I. destruct I as (n & <- & N). rewrite feed0_node in J by exact N. destruct (is_input n) eqn:E; [destruct J|]. apply in_map_iff in J. destruct J as (t & <- & T). destruct (made_here _ _ _ LV n t N T) as (p & P1 & P2). rewrite (port_spec p t P1 P2) in *. cbn in *. apply (in_ins p P1) in K. destruct (inputs_listed _ _ _ LV p P1 K) as (t' & K1 & K2 & _). rewrite K2 in *. destruct P2 as [->|[]]. unfold idx. cbn. rewrite Nat.eqb_refl. reflexivity.
  - intros o O. apply in_map_iff in O. destruct O as (t & <- & T). destruct (outs_made _ _ _ LV t T) as (p & P1 & P2). rewrite (port_spec p t P1 P2). cbn [fst]. apply in_map, P1.
Qed.
End Level.
