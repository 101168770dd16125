(* KBuildReadProofs.v -- the names of the nodes of a Keras model with nested models, and the way from the model
   through its graph to the built model. *)
From Coq Require Import Permutation Sorted Lia String.
From Verif Require Import Base GraphModel GraphSpec GraphProofs FxModel FxSpec FxProofs KReadModel KReadSpec KReadMergeProofs KReadProofs KReadNestProofs KReadProps KBuildModel KBuildSpec KBuildProofs.
Open Scope res_scope.
Local Open Scope nat_scope.

Section Names.
Variables (nm : nat -> string) (lay : nat -> nat).
Definition part (top : bool) (level : list bnode) (n : knode) : list bnode :=
  match layer n with LModel inner => read_names nm lay false inner | _ => if kept_node top n then filter (fun b => Nat.eqb (b_id b) (uid n)) level else [] end.
Definition level_of (ns : list knode) : list bnode := name_level (map (fun n => (uid n, (nm (kname n), lay (uid n)))) ns).
Lemma read_names_unfold top ns i o : read_names nm lay top (KModel ns i o) = flat_map (part top (level_of ns)) ns.
Proof. cbn [read_names]. apply flat_map_ext. intros [u k [| |inner] a b]; reflexivity. Qed.
Lemma same_unfold ns i o : same_layers lay (KModel ns i o) <-> (forall a b, In a ns -> In b ns -> kname a = kname b -> lay (uid a) = lay (uid b) /\ is_input a = is_input b) /\ forall n inner, In n ns -> layer n = LModel inner -> same_layers lay inner.
Proof.
  cbn [same_layers]. assert (forall l, ((fix all (l : list knode) : Prop := match l with [] => True | KNode _ _ (LModel inner) _ _ :: r => same_layers lay inner /\ all r | _ :: r => all r end) l) <-> forall n inner, In n l -> layer n = LModel inner -> same_layers lay inner) as H.
  { induction l as [|[u k [| |inn] a b] l IH]; [split; [intros _ n inner []|reflexivity]| | |]; rewrite ?IH; split.
    - intros H n inner [<-|I] L; [discriminate|apply (H n inner I L)].
    - intros H n inner I. apply H. right. exact I.
    - intros H n inner [<-|I] L; [discriminate|apply (H n inner I L)].
    - intros H n inner I. apply H. right. exact I.
    - intros [H1 H2] n inner [<-|I] L; [cbn in L; injection L as <-; exact H1|apply (H2 n inner I L)].
    - intro H. split; [apply (H _ inn (or_introl eq_refl) eq_refl)|]. intros n inner I. apply H. right. exact I. }
  rewrite H. reflexivity.
Qed.
Definition nested_names (n : knode) : list nat := match layer n with LModel inner => layer_names false inner | _ => [] end.
Lemma layer_names_unfold top ns i o : layer_names top (KModel ns i o) = nodup Nat.eq_dec (map kname (filter (kept_node top) ns)) ++ flat_map nested_names ns.
Proof. cbn [layer_names]. f_equal. apply flat_map_ext. intros [u k [| |inner] a b]; reflexivity. Qed.
Lemma all_names_unfold ns i o : all_names (KModel ns i o) = flat_map (fun n => kname n :: match layer n with LModel inner => all_names inner | _ => [] end) ns.
Proof. cbn [all_names]. apply flat_map_ext. intros [u k [| |inner] a b]; reflexivity. Qed.
Hypothesis NMI : forall a b, nm a = nm b -> a = b.

(* what is known of the nodes of a model *)
Definition leafs (top : bool) (m : kmodel) : list nat := if top then flat_map leaf (nodes_of m) else op_ids m.
Record names_ok (top : bool) (m : kmodel) (bs : list bnode) : Prop := {
  n_ids : map b_id bs = leafs top m;
  n_names : NoDup (map b_name bs);
  n_named : forall b, In b bs -> b_layer b = lay (b_id b) /\ exists a, In a (layer_names top m) /\
    if b_reuse b then exists k i, In k bs /\ b_reuse k = false /\ b_name k = nm a /\ b_name b = reused_name (nm a) i /\ b_layer k = b_layer b else b_name b = nm a
}.
Section Level.
Variables (ns : list knode) (ins outs : list nat) (top : bool).
Hypothesis NDi : NoDup (flat_map nid ns).
Hypothesis CALL : forall n inner, In n ns -> layer n = LModel inner -> call_ok ns n inner.
Hypothesis SL : forall a b, In a ns -> In b ns -> kname a = kname b -> lay (uid a) = lay (uid b) /\ is_input a = is_input b.
Hypothesis PN : forall a b i, In a ns -> In b ns -> nm (kname a) <> reused_name (nm (kname b)) i.
Lemma level_spec : Forall2 (fun n b => named (level_of ns) (uid n, (nm (kname n), lay (uid n))) b) ns (level_of ns) /\ NoDup (map b_name (level_of ns)).
Proof.
  unfold level_of. destruct (name_level_spec (map (fun n => (uid n, (nm (kname n), lay (uid n)))) ns)) as [F N].
  - intros x y X Y E. apply in_map_iff in X. apply in_map_iff in Y. destruct X as (a & <- & A), Y as (b & <- & B). cbn in *. apply (SL a b A B), NMI, E.
  - intros x y i X Y. apply in_map_iff in X. apply in_map_iff in Y. destruct X as (a & <- & A), Y as (b & <- & B). cbn. apply (PN a b i A B).
  - split; [|exact N]. revert F. generalize (name_level (map (fun n => (uid n, (nm (kname n), lay (uid n)))) ns)) at 1 3. intros st F. revert F. generalize (name_level (map (fun n => (uid n, (nm (kname n), lay (uid n)))) ns)). clear. induction ns as [|n l IH]; intros k F; cbn in F; inversion F; subst; constructor; [assumption|apply IH; assumption].
Qed.
Lemma level_find n b : In n ns -> In b (level_of ns) -> b_id b = uid n -> filter (fun b => Nat.eqb (b_id b) (uid n)) (level_of ns) = [b].
Proof.
  intros N B E. destruct level_spec as [F NN]. assert (map b_id (level_of ns) = map uid ns) as M by (clear - F; induction F as [|x y l k H _ IH]; [reflexivity|]; cbn; rewrite IH; f_equal; apply H).
  assert (NoDup (map b_id (level_of ns))) as ND0 by (rewrite M; apply (ND ns NDi)).
  apply filter_single; [apply NoDup_map_inv with (f := b_id), ND0|exact B|apply Nat.eqb_eq, E|]. intros y Y K. apply Nat.eqb_eq in K. clear - ND0 B Y E K. assert (b_id y = b_id b) as Q by congruence. clear E K. revert ND0 B Y Q. induction (level_of ns) as [|x l IH]; [intros _ []|]. cbn. intros D B Y Q. inversion D as [|? ? D1 D2]; subst.
  destruct B as [->|B], Y as [->|Y]; [reflexivity| | |apply (IH D2 B Y Q)]; exfalso; apply D1; [rewrite <- Q|rewrite Q]; apply in_map; assumption.
Qed.
Lemma level_node n : In n ns -> exists b, In b (level_of ns) /\ named (level_of ns) (uid n, (nm (kname n), lay (uid n))) b /\ filter (fun b => Nat.eqb (b_id b) (uid n)) (level_of ns) = [b].
Proof.
  intro N. destruct level_spec as [F _]. assert (exists b, In b (level_of ns) /\ named (level_of ns) (uid n, (nm (kname n), lay (uid n))) b) as (b & B & H).
  { set (st := level_of ns) in F at 1. set (st' := level_of ns) at 2. change st' with st. clear st'. clearbody st. revert F. generalize (level_of ns). clear - N. induction ns as [|x l IH]; [destruct N|]. intros k F. inversion F as [|? b ? k' F1 F2]; subst. destruct N as [->|N]; [exists b; split; [left; reflexivity|exact F1]|]. destruct (IH N k' F2) as (b' & B1 & B2). exists b'. split; [right; exact B1|exact B2]. }
  exists b. split; [exact B|]. split; [exact H|]. apply level_find; [exact N|exact B|apply H].
Qed.
Lemma level_base n k : In n ns -> In k (level_of ns) -> b_reuse k = false -> b_name k = nm (kname n) -> exists p, In p ns /\ b_id k = uid p /\ kname p = kname n.
Proof.
  intros N K R E. destruct level_spec as [F _]. destruct (Forall2_in_r _ _ _ _ F K) as (p & P & P1 & P2 & P3). exists p. split; [exact P|]. split; [exact P1|]. rewrite R in P3. cbn in P3. apply NMI. congruence.
Qed.
Hypothesis NL : NoDup (layer_names top (KModel ns ins outs)).
Hypothesis PA : forall a b i, In a (all_names (KModel ns ins outs)) -> In b (all_names (KModel ns ins outs)) -> nm a <> reused_name (nm b) i.
Hypothesis LA : forall n inner, In n ns -> layer n = LModel inner -> incl (layer_names false inner) (all_names inner).
Hypothesis IH : forall n inner, In n ns -> layer n = LModel inner -> names_ok false inner (read_names nm lay false inner).

Lemma part_leaf n : In n ns -> (forall inner, layer n <> LModel inner) -> exists b, In b (level_of ns) /\ named (level_of ns) (uid n, (nm (kname n), lay (uid n))) b /\ part top (level_of ns) n = if kept_node top n then [b] else [].
Proof. intros N L. destruct (level_node n N) as (b & B1 & B2 & B3). exists b. split; [exact B1|]. split; [exact B2|]. unfold part. rewrite B3. destruct (layer n) as [| |inner] eqn:Q; [reflexivity|reflexivity|exfalso; exact (L inner eq_refl)]. Qed.
(* the base name of a node of a part *)
Definition base_of (b : bnode) (a : nat) : Prop := if b_reuse b then exists i, b_name b = reused_name (nm a) i else b_name b = nm a.
Lemma part_base n b : In n ns -> In b (part top (level_of ns) n) -> exists a, base_of b a /\ match layer n with LModel inner => In a (layer_names false inner) | _ => a = kname n /\ kept_node top n = true end.
Proof.
  intros N B. destruct (layer n) as [| |inner] eqn:L.
  3:{ unfold part in B. rewrite L in B. destruct (n_named _ _ _ (IH n inner N L) b B) as [_ (a & A & K)]. exists a. split; [|exact A]. unfold base_of. destruct (b_reuse b); [destruct K as (_ & i & _ & _ & _ & K & _); exists i; exact K|exact K]. }
  1, 2: destruct (part_leaf n N ltac:(intros inner; congruence)) as (b' & _ & H & E); rewrite E in B; destruct (kept_node top n); [|destruct B]; destruct B as [->|[]]; exists (kname n); (split; [|split; reflexivity]); destruct H as (_ & _ & H); unfold base_of; destruct (b_reuse b); [destruct H as (_ & i & _ & _ & _ & H & _); exists i; exact H|exact H].
Qed.
Lemma base_in n a : In n ns -> match layer n with LModel inner => In a (layer_names false inner) | _ => a = kname n /\ kept_node top n = true end -> In a (all_names (KModel ns ins outs)).
Proof.
  intros N A. rewrite all_names_unfold. apply in_flat_map. exists n. split; [exact N|]. destruct (layer n) as [| |inner] eqn:L; [left; symmetry; apply A|left; symmetry; apply A|]. right. apply (LA n inner N L), A.
Qed.
Lemma base_eq b c a a' : base_of b a -> base_of c a' -> b_name b = b_name c -> In a (all_names (KModel ns ins outs)) -> In a' (all_names (KModel ns ins outs)) -> a = a'.
Proof.
  unfold base_of. intros B C E I J. destruct (b_reuse b), (b_reuse c).
  - destruct B as (i & B), C as (j & C). rewrite B, C in E. apply reused_inj in E. apply NMI, E.
  - destruct B as (i & B). exfalso. apply (PA a' a i J I). congruence.
  - destruct C as (i & C). exfalso. apply (PA a a' i I J). congruence.
  - apply NMI. congruence.
Qed.
Lemma in_level_names n : In n ns -> kept_node top n = true -> In (kname n) (nodup Nat.eq_dec (map kname (filter (kept_node top) ns))).
Proof. intros N K. apply nodup_In, in_map, filter_In. split; assumption. Qed.
Lemma level_ok_names : names_ok top (KModel ns ins outs) (read_names nm lay top (KModel ns ins outs)).
Proof.
  rewrite read_names_unfold. pose proof NL as NL0. rewrite layer_names_unfold in NL0.
  assert (forall n, In n ns -> map b_id (part top (level_of ns) n) = if top then leaf n else match layer n with LModel inner => op_ids inner | LOp => [uid n] | LInput => [] end) as IDS.
  { intros n N. destruct (layer n) as [| |inner] eqn:L.
    - destruct (part_leaf n N ltac:(congruence)) as (b & _ & H & ->). unfold kept_node, leaf. rewrite L. destruct top; [|reflexivity]. cbn. f_equal. apply H.
    - destruct (part_leaf n N ltac:(congruence)) as (b & _ & H & ->). unfold kept_node, leaf. rewrite L. destruct top; cbn; f_equal; apply H.
    - unfold part. rewrite L, (n_ids _ _ _ (IH n inner N L)). unfold leaf. rewrite L. destruct top; reflexivity. }
  constructor.
  - rewrite map_flat_map. unfold leafs. cbn [nodes_of op_ids]. destruct top.
    + revert IDS. clear. intro IDS. generalize (part true (level_of ns)) IDS. clear. intros f. induction ns as [|n l IHl]; intro H; [reflexivity|]. cbn. rewrite (H n (or_introl eq_refl)), IHl; [reflexivity|]. intros x X. apply H. right. exact X.
    + revert IDS. generalize (part false (level_of ns)). clear. intros f. induction ns as [|[u k la a b] l IHl]; intro H; [reflexivity|]. cbn. rewrite (H _ (or_introl eq_refl)), IHl; [destruct la; reflexivity|]. intros x X. apply H. right. exact X.
  - rewrite map_flat_map. apply NoDup_flat_map; [apply (ns_nodup ns (ND ns NDi))| |].
    + intros n N. destruct (layer n) as [| |inner] eqn:L.
      1, 2: destruct (part_leaf n N ltac:(congruence)) as (b & _ & _ & ->); destruct (kept_node top n); repeat constructor; intros [].
      unfold part. rewrite L. apply (n_names _ _ _ (IH n inner N L)).
    + intros n n' z N N' Z Z'. apply in_map_iff in Z. apply in_map_iff in Z'. destruct Z as (b & E & B), Z' as (b' & E' & B'). destruct (part_base n b N B) as (a & A1 & A2). destruct (part_base n' b' N' B') as (a' & A1' & A2').
      assert (a = a') as <- by (apply (base_eq b b' a a' A1 A1'); [congruence|apply (base_in n a N A2)|apply (base_in n' a' N' A2')]).
      assert (forall p q, In p ns -> In q ns -> (forall inner, layer p <> LModel inner) -> match layer p with LModel inner => In a (layer_names false inner) | _ => a = kname p /\ kept_node top p = true end -> match layer q with LModel inner => In a (layer_names false inner) | _ => a = kname q /\ kept_node top q = true end -> (exists inner, layer q = LModel inner) -> False) as MIX.
      { intros p q P Q Lp Ap Aq [inner Lq]. rewrite Lq in Aq. assert (a = kname p /\ kept_node top p = true) as [-> Kp] by (destruct (layer p); [exact Ap|exact Ap|exfalso; exact (Lp m eq_refl)]).
        pose proof (in_level_names p P Kp) as I1. assert (In (kname p) (flat_map nested_names ns)) as I2 by (apply in_flat_map; exists q; split; [exact Q|unfold nested_names; rewrite Lq; exact Aq]).
        clear - NL0 I1 I2. revert NL0 I1. generalize (nodup Nat.eq_dec (map kname (filter (kept_node top) ns))). induction l as [|x l IHl]; [intros _ []|]. cbn. intros D [->|I1]; inversion D as [|? ? D1 D2]; subst; [apply D1, in_or_app; right; exact I2|exact (IHl D2 I1)]. }
      destruct (layer n) as [| |inner] eqn:L, (layer n') as [| |inner'] eqn:L'.
      3, 6: exfalso; apply (MIX n n' N N'); [congruence|rewrite L; exact A2|rewrite L'; exact A2'|exists inner'; exact L'].
      5, 6: exfalso; apply (MIX n' n N' N); [congruence|rewrite L'; exact A2'|rewrite L; exact A2|exists inner; exact L].
      5:{ assert (NoDup (flat_map nested_names ns)) as D by (clear - NL0; revert NL0; generalize (nodup Nat.eq_dec (map kname (filter (kept_node top) ns))); induction l as [|x l IHl]; cbn; intro D; [exact D|inversion D; auto]).
          apply (proj2 (NoDup_flat_map_inv nested_names ns D) n n' a N N'); [unfold nested_names; rewrite L; exact A2|unfold nested_names; rewrite L'; exact A2'|apply (ns_nodup ns (ND ns NDi))]. }
      all: destruct (part_leaf n N ltac:(congruence)) as (c & C1 & C2 & C3); destruct (part_leaf n' N' ltac:(congruence)) as (c' & C1' & C2' & C3'); rewrite C3 in B; rewrite C3' in B'; destruct (kept_node top n); [|destruct B]; destruct (kept_node top n'); [|destruct B']; destruct B as [->|[]]; destruct B' as [->|[]];
        apply (uid_inj ns (ND ns NDi) n n' N N'); destruct C2 as [Q1 _]; destruct C2' as [Q2 _]; cbn in Q1, Q2; rewrite <- Q1, <- Q2; f_equal; apply (names_inj (level_of ns)); [apply level_spec|exact C1|exact C1'|congruence].
  - intros b B. apply in_flat_map in B. destruct B as (n & N & B). rewrite layer_names_unfold. destruct (layer n) as [| |inner] eqn:L.
    3:{ unfold part in B. rewrite L in B. destruct (n_named _ _ _ (IH n inner N L) b B) as [Bl (a & A & K)]. split; [exact Bl|]. exists a. split; [apply in_or_app; right; apply in_flat_map; exists n; split; [exact N|unfold nested_names; rewrite L; exact A]|].
        destruct (b_reuse b); [|exact K]. destruct K as (k & i & K1 & K2). exists k, i. split; [|exact K2]. apply in_flat_map. exists n. split; [exact N|]. unfold part. rewrite L. exact K1. }
    all: assert (forall inner, layer n <> LModel inner) as LN by (intro; congruence); destruct (part_leaf n N LN) as (c & C1 & C2 & C3); rewrite C3 in B; destruct (kept_node top n) eqn:KN; [|destruct B]; destruct B as [->|[]]; destruct C2 as (D1 & D2 & D3); cbn in D1, D2, D3; split; [rewrite D2, D1; reflexivity|]; exists (kname n); split; [apply in_or_app; left; apply in_level_names; assumption|]; destruct (b_reuse b) eqn:R; [|exact D3];
      destruct D3 as (k & i & K1 & K2 & K3 & K4 & K5); exists k, i; (split; [|repeat split; assumption]); apply in_flat_map; destruct (level_base n k N K1 K2 K3) as (p & P1 & P2 & P3); exists p; (split; [exact P1|]).
    all: assert (forall inner, layer p <> LModel inner) as LP by (intros inner Lp; destruct (CALL p inner P1 Lp) as (_ & _ & _ & _ & Q); apply (LN inner); rewrite (Q n N (eq_sym P3)); exact Lp); destruct (part_leaf p P1 LP) as (c & E1 & E2 & E3); rewrite E3;
      assert (kept_node top p = true) as KP by (destruct (SL p n P1 N P3) as [_ Q]; unfold kept_node, is_input in *; destruct (layer p); [destruct (layer n); congruence|reflexivity|exfalso; exact (LP m eq_refl)]); rewrite KP; left;
      pose proof (level_find p k P1 K1 P2) as W1; pose proof (level_find p c P1 E1 (proj1 E2)) as W2; rewrite W1 in W2; congruence.
Qed.
End Level.

Lemma layer_in_all top m : incl (layer_names top m) (all_names m).
Proof.
  revert top. induction m as [ns ins outs IH] using kmodel_nest. intros top a A. rewrite layer_names_unfold in A. rewrite all_names_unfold. apply in_flat_map. apply in_app_or in A. destruct A as [A|A].
  - apply nodup_In, in_map_iff in A. destruct A as (n & <- & A). apply filter_In in A. exists n. split; [apply A|left; reflexivity].
  - apply in_flat_map in A. destruct A as (n & N & A). exists n. split; [exact N|]. unfold nested_names in A. destruct (layer n) as [| |inner] eqn:L; [destruct A|destruct A|]. right. apply (IH n inner N L false), A.
Qed.
Lemma names_main m : forall top, levels_ok m -> NoDup (ids m) -> same_layers lay m -> NoDup (layer_names top m) -> (forall a b i, In a (all_names m) -> In b (all_names m) -> nm a <> reused_name (nm b) i) -> names_ok top m (read_names nm lay top m).
Proof.
  induction m as [ns ins outs IH] using kmodel_nest. intros top LO NI SL NL PA. rewrite levels_unfold in LO. destruct LO as [LV CALL]. rewrite ids_unfold in NI. rewrite same_unfold in SL. destruct SL as [SL1 SL2].
  apply level_ok_names; try assumption.
  - intros n inner N L. apply (CALL n inner N L).
  - intros a b i A B. apply PA; rewrite all_names_unfold; apply in_flat_map; [exists a|exists b]; (split; [assumption|left; reflexivity]).
  - intros n inner N L. apply layer_in_all.
  - intros n inner N L. apply (IH n inner N L false).
    + apply (CALL n inner N L).
    + pose proof (proj1 (NoDup_flat_map_inv nid ns NI) n N) as Nn'. unfold nid in Nn'. rewrite L in Nn'. inversion Nn'; assumption.
    + apply (SL2 n inner N L).
    + rewrite layer_names_unfold in NL. assert (NoDup (flat_map nested_names ns)) as D by (clear - NL; revert NL; generalize (nodup Nat.eq_dec (map kname (filter (kept_node top) ns))); induction l as [|x l IHl]; cbn; intro D; [exact D|inversion D; auto]).
      pose proof (proj1 (NoDup_flat_map_inv nested_names ns D) n N) as Q. unfold nested_names in Q. rewrite L in Q. exact Q.
    + intros a b i A B. apply PA; rewrite all_names_unfold; apply in_flat_map; exists n; (split; [exact N|]); right; rewrite L; assumption.
Qed.
End Names.
