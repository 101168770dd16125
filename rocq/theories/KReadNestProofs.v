(* KReadNestProofs.v -- proofs for KReadProps.v: what a level computes, and the loop over the nested models. *)
From Coq Require Import Permutation Sorted Lia.
From Verif Require Import Base GraphModel GraphSpec GraphProofs FxProofs KReadModel KReadSpec KReadMergeProofs KReadProofs.
Open Scope res_scope.
Local Open Scope nat_scope.

Section Nest.
Context {V : Type} (op : nat -> list V -> nat -> V).
Definition node_run (n : knode) (val : nat -> V) : Prop :=
  match layer n with
  | LInput => True
  | LOp => forall k t, nth_error (kout n) k = Some t -> val t = op (uid n) (map val (kin n)) k
  | LModel inner => exists val', model_run op inner val' /\ map val' (ins_of inner) = map val (kin n) /\ map val' (outs_of inner) = map val (kout n)
  end.
Lemma model_run_nodes ns i o val : model_run op (KModel ns i o) val <-> forall n, In n ns -> node_run n val.
Proof.
  cbn [model_run]. induction ns as [|x ns IH]; [split; [intros _ n []|intros _; exact I]|]. destruct x as [u nm lay a b]. rewrite IH. split.
  - intros [A B] n [<-|J]; [|apply B, J]. unfold node_run. cbn [layer uid kin kout]. destruct lay; exact A.
  - intro H. split; [|intros n J; apply H; right; exact J]. specialize (H _ (or_introl eq_refl)). unfold node_run in H. cbn [layer uid kin kout] in H. destruct lay; exact H.
Qed.
Definition rop (n : nat) (l : list V) (f : nat -> V) : Prop := forall k, f k = op n l k.
Definition mrel (inner : kmodel) (l : list V) (f : nat -> V) : Prop := model_gives op inner l (map f (seq 0 (length (outs_of inner)))).
Definition rel_of (rest : list knode) (u : nat) : list V -> (nat -> V) -> Prop :=
  match find (fun n => Nat.eqb (uid n) u) rest with
  | Some n => match layer n with LModel inner => mrel inner | _ => rop u end
  | None => rop u end.
Lemma rgives_rop g xs ys : rgives rop g xs ys <-> graph_gives op g xs ys.
Proof. reflexivity. Qed.
Lemma rgives_ext (r1 r2 : nat -> list V -> (nat -> V) -> Prop) g xs ys : (forall n l f, In n (g_nodes g) -> (r1 n l f <-> r2 n l f)) -> (rgives r1 g xs ys <-> rgives r2 g xs ys).
Proof. intro H. split; intros (val & A & B); exists val; (split; [|exact B]); intros n I J l L; apply (H n _ _ I); apply A; assumption. Qed.

Section Level.
Variables (ns : list knode) (ins outs : list nat).
Hypothesis LV : level_ok ns ins outs.
Hypothesis ND : NoDup (map uid ns).
Hypothesis CALL : forall n inner, In n ns -> layer n = LModel inner -> length (kout n) = length (outs_of inner).

Lemma list_nth_seq {A} (l : list A) (f : nat -> A) : (forall k x, nth_error l k = Some x -> f k = x) -> map f (seq 0 (length l)) = l.
Proof.
  intro H. apply nth_error_ext'. intro k. rewrite nth_error_map. destruct (nth_error l k) as [x|] eqn:E.
  - assert (k < length l) as L by (apply nth_error_Some; congruence). rewrite (nth_error_nth' _ 0) by (rewrite seq_length; exact L). rewrite seq_nth by exact L. cbn. rewrite (H k x E). reflexivity.
  - replace (nth_error (seq 0 (length l)) k) with (@None nat); [reflexivity|]. symmetry. apply nth_error_None. rewrite seq_length. apply nth_error_None, E.
Qed.
Lemma rel_of_node n : In n ns -> rel_of ns (uid n) = match layer n with LModel inner => mrel inner | _ => rop (uid n) end.
Proof. intro I. unfold rel_of. pose proof (node_at_spec ns ND n I) as E. unfold node_at in E. rewrite E. reflexivity. Qed.
Lemma level_sem xs ys : model_gives op (KModel ns ins outs) xs ys <-> rgives (rel_of ns) (graph0 ns ins outs) xs ys.
Proof.
  rewrite (rgives_flat _ _ (feed0 ns)) by (apply graph0_flat; assumption). unfold model_gives. cbn [graph0 g_nodes g_in g_out ins_of outs_of]. split.
  - intros (val & A & B & C). rewrite model_run_nodes in A.
    pose (gv := fun u => match node_at ns u with
                         | Some n => match layer n with LOp => fun k => op u (map val (kin n)) k | _ => fun k => nth k (map val (kout n)) (val 0) end
                         | None => fun _ : nat => val 0 end).
    assert (forall p t, In p ns -> In t (kout p) -> value gv (port ns t) = val t) as K.
    { intros p t P T. rewrite (port_spec ns ins outs LV ND p t P T). unfold value, gv. cbn [fst snd]. rewrite (node_at_spec ns ND p P). destruct (idx_spec t _ T) as [_ E]. specialize (A p P). unfold node_run in A.
      destruct (layer p); [|symmetry; apply A, E|]; apply nth_error_nth; rewrite nth_error_map, E; reflexivity. }
    assert (forall n, In n ns -> map (value gv) (map (port ns) (kin n)) = map val (kin n)) as Kin.
    { intros n N. rewrite map_map. apply map_ext_in. intros t T. destruct (made_here _ _ _ LV n t N T) as (p & P1 & P2). apply (K p t P1 P2). }
    exists gv. split; [|split].
    + intros u I J. apply in_map_iff in I. destruct I as (n & <- & N). rewrite (in_ins ns ins outs LV ND n N) in J. rewrite rel_of_node, (feed0_node ns ND) by exact N. apply not_true_is_false in J. rewrite J, Kin by exact N.
      specialize (A n N). unfold node_run in A. unfold is_input in J. destruct (layer n) as [| |inner] eqn:L; [discriminate| |].
      * intro k. unfold gv. rewrite (node_at_spec ns ND n N), L. reflexivity.
      * destruct A as (val' & A1 & A2 & A3). exists val'. split; [exact A1|]. split; [exact A2|]. rewrite A3. rewrite <- (CALL n inner N L). symmetry.
        rewrite <- (map_length val). apply list_nth_seq. intros k x E. unfold gv. rewrite (node_at_spec ns ND n N), L. apply nth_error_nth, E.
    + rewrite <- B. rewrite map_map. apply map_ext_in. intros t T. destruct (inp_node ns ins outs LV ND t T) as (n & N1 & _ & N3 & _ & E1 & E2). rewrite <- (K n t N1) by (rewrite N3; left; reflexivity). rewrite E1, E2. reflexivity.
    + rewrite <- C. rewrite map_map. apply map_ext_in. intros t T. destruct (outs_made _ _ _ LV t T) as (p & P1 & P2). apply (K p t P1 P2).
  - intros (gv & A & B & C). exists (fun t => value gv (port ns t)). split; [|split].
    + apply model_run_nodes. intros n N. unfold node_run. destruct (layer n) as [| |inner] eqn:L; [exact I| |].
      * intros k t E. pose proof (nth_error_In _ _ E) as T. rewrite (port_spec ns ins outs LV ND n t N T). rewrite (idx_nth t (kout n) k) by (try exact E; apply (kout_nodup ns ins outs LV), N).
        assert (is_input n = false) as J by (unfold is_input; rewrite L; reflexivity). pose proof (A (uid n) (in_map uid _ _ N)) as An. rewrite (in_ins ns ins outs LV ND n N), J in An. specialize (An ltac:(discriminate)).
        rewrite rel_of_node, L, (feed0_node ns ND), J, map_map in An by exact N. unfold value at 1. cbn [fst snd]. apply An.
      * assert (is_input n = false) as J by (unfold is_input; rewrite L; reflexivity). pose proof (A (uid n) (in_map uid _ _ N)) as An. rewrite (in_ins ns ins outs LV ND n N), J in An. specialize (An ltac:(discriminate)).
        rewrite rel_of_node, L, (feed0_node ns ND), J, map_map in An by exact N. destruct An as (val' & A1 & A2 & A3). exists val'. split; [exact A1|]. split; [exact A2|]. rewrite A3. rewrite <- (CALL n inner N L).
        rewrite <- (map_length (fun t => value gv (port ns t))). apply list_nth_seq. intros k x E. rewrite nth_error_map in E. destruct (nth_error (kout n) k) as [t|] eqn:F; [|discriminate]. cbn in E. injection E as <-.
        rewrite (port_spec ns ins outs LV ND n t N (nth_error_In _ _ F)). rewrite (idx_nth t (kout n) k) by (try exact F; apply (kout_nodup ns ins outs LV), N). reflexivity.
    + rewrite <- B. rewrite map_map. apply map_ext_in. intros t T. destruct (inp_node ns ins outs LV ND t T) as (n & N1 & _ & N3 & _ & E1 & E2). rewrite E1, E2. reflexivity.
    + rewrite <- C. rewrite map_map. reflexivity.
Qed.
End Level.

(* ---- nesting ---- *)
Fixpoint flatten (ns l : list knode) (g : graph) : result graph :=
  match l with
  | [] => Ok g
  | n :: r => match layer n with
              | LModel inner => if called_before ns n then Err E_value else
                  let! h := parse_model inner in let! g := merge_graphs (uid n) g h in flatten ns r g
              | _ => flatten ns r g end
  end.
Lemma parse_unfold ns ins outs : parse_model (KModel ns ins outs) = let! g := build_graph ns ins outs in flatten ns ns g.
Proof.
  cbn [parse_model]. destruct (build_graph ns ins outs) as [g|e]; cbn [bind]; [|reflexivity]. match goal with |- ?F ns g = _ => assert (forall l g, F l g = flatten ns l g) as H; [|apply H] end. clear g. intro l. induction l as [|n l IH]; intro g; [reflexivity|].
  destruct n as [u nm lay a b]. cbn [flatten layer uid]. destruct lay as [| |inner]; [apply IH|apply IH|]. destruct (called_before ns _); [reflexivity|]. destruct (parse_model inner) as [h|e]; cbn [bind]; [|reflexivity]. destruct (merge_graphs u g h) as [r|e]; cbn [bind]; [apply IH|reflexivity].
Qed.
Lemma levels_unfold ns ins outs : levels_ok (KModel ns ins outs) <-> level_ok ns ins outs /\ forall n inner, In n ns -> layer n = LModel inner -> call_ok ns n inner /\ levels_ok inner.
Proof.
  cbn [levels_ok]. apply and_iff_compat_l.
  match goal with |- ?F ns <-> _ => assert (forall l, F l <-> forall n inner, In n l -> layer n = LModel inner -> call_ok ns n inner /\ levels_ok inner) as H; [|apply H] end. intro l. induction l as [|n l IH]; [split; [intros _ n inner []|intros _; exact I]|]. rewrite IH. destruct n as [u nm lay a b]. split.
  - intros [A B] n inner [<-|J] E; [|apply (B n inner J E)]. cbn in E. subst lay. exact A.
  - intro H. split; [|intros n inner J; apply H; right; exact J]. specialize (fun inner => H _ inner (or_introl eq_refl)). cbn [layer] in H. destruct lay; [exact I|exact I|]. apply H. reflexivity.
Qed.
Lemma nested_unfold ns ins outs : nested_read_first (KModel ns ins outs) <-> forall n inner, In n ns -> layer n = LModel inner -> inputs_read_first inner /\ nested_read_first inner.
Proof.
  cbn [nested_read_first]. induction ns as [|n l IH]; [split; [intros _ n inner []|intros _; exact I]|]. destruct n as [u nm lay a b]. split.
  - intros H n inner [<-|J] E; [cbn in E; subst lay; apply H|]. apply (proj1 IH) with (n := n); [destruct lay; try exact H; apply H|exact J|exact E].
  - intro H. assert (forall n inner, In n l -> layer n = LModel inner -> inputs_read_first inner /\ nested_read_first inner) as T by (intros n inner J; apply H; right; exact J). apply IH in T. destruct lay; try exact T. split; [|exact T]. apply (H _ m (or_introl eq_refl) eq_refl).
Qed.
Definition nid (n : knode) : list nat := uid n :: match layer n with LModel inner => ids inner | _ => [] end.
Definition leaf (n : knode) : list nat := match layer n with LModel inner => op_ids inner | _ => [uid n] end.
Lemma ids_unfold ns ins outs : ids (KModel ns ins outs) = flat_map nid ns.
Proof. cbn [ids]. apply flat_map_ext. intros [u nm lay a b]. reflexivity. Qed.
Lemma op_ids_in m : incl (op_ids m) (ids m).
Proof.
  induction m as [ns i o IH] using kmodel_nest. intros x I. cbn [op_ids ids] in *. apply in_flat_map in I. destruct I as (n & N & I). apply in_flat_map. exists n. split; [exact N|]. specialize (IH n). destruct n as [u nm lay a b]. destruct lay; [destruct I|destruct I as [<-|[]]; left; reflexivity|]. right. apply (IH m N eq_refl), I.
Qed.
Lemma input_ids_in m : incl (input_ids m) (ids m).
Proof. destruct m as [ns i o]. intros x I. unfold input_ids in I. apply in_map_iff in I. destruct I as (n & <- & I). apply filter_In in I. destruct I as [I _]. rewrite ids_unfold. apply in_flat_map. exists n. split; [exact I|left; reflexivity]. Qed.
Lemma leaf_perm ns i o : Permutation (flat_map leaf ns) (input_ids (KModel ns i o) ++ op_ids (KModel ns i o)).
Proof.
  unfold input_ids. cbn [nodes_of op_ids]. induction ns as [|n l IH]; [constructor|]. destruct n as [u nm lay a b]. cbn [flat_map filter]. unfold leaf at 1, is_input at 1. cbn [layer uid]. destruct lay as [| |m]; cbn [map app uid].
  - constructor. exact IH.
  - apply Permutation_cons_app. exact IH.
  - rewrite IH. rewrite Permutation_app_swap_app. reflexivity.
Qed.

(* what reading a model gives *)
Lemma calls_unfold ns ins outs : calls (KModel ns ins outs) = flat_map (fun n => (uid n, (length (kin n), length (kout n))) :: match layer n with LModel inner => calls inner | _ => [] end) ns.
Proof. cbn [calls]. apply flat_map_ext. intros []. reflexivity. Qed.
Lemma shaped_level ai ao ns ins outs : shaped ai ao (KModel ns ins outs) <-> forall n, In n ns -> (ai (uid n) = length (kin n) /\ ao (uid n) = length (kout n)) /\ forall inner, layer n = LModel inner -> shaped ai ao inner.
Proof.
  unfold shaped. rewrite calls_unfold. split.
  - intros H n N. split; [apply H, in_flat_map; exists n; split; [exact N|left; reflexivity]|]. intros inner L u i o I. apply H, in_flat_map. exists n. split; [exact N|]. right. rewrite L. exact I.
  - intros H u i o I. apply in_flat_map in I. destruct I as (n & N & [I|I]); [injection I as <- <- <-; apply (H n N)|]. destruct (layer n) as [| |inner] eqn:L; [destruct I|destruct I|]. apply (proj2 (H n N) inner L u i o I).
Qed.
(* the nodes read existing outputs, as many as their calls take *)
Record ports_ok (ai ao : nat -> nat) (h : graph) (fh : nat -> list (nat * nat)) : Prop := {
  p_read : forall n s, In n (g_nodes h) -> In s (fh n) -> snd s < ao (fst s);
  p_out : forall o, In o (g_out h) -> snd o < ao (fst o);
  p_fed : forall n, In n (g_nodes h) -> ~ In n (g_in h) -> length (fh n) = ai n
}.
Record read_ok (m : kmodel) (h : graph) (fh : nat -> list (nat * nat)) : Prop := {
  r_flat : flat h fh;
  r_nodes : Permutation (g_nodes h) (input_ids m ++ op_ids m);
  r_inputs : forall x, In x (g_in h) <-> In x (input_ids m);
  r_ins : length (g_in h) = length (ins_of m);
  r_outs : length (g_out h) = length (outs_of m);
  r_out1 : NoDup (outs_of m) -> NoDup (g_out h);
  r_out2 : disjoint (outs_of m) (ins_of m) -> forall o, In o (g_out h) -> ~ In (fst o) (g_in h);
  r_sem : forall xs ys, model_gives op m xs ys <-> graph_gives op h xs ys;
  r_first : read_first h fh <-> inputs_read_first m;
  r_ports : forall ai ao, shaped ai ao m -> ports_ok ai ao h fh
}.

Section Loop.
Variables (ns : list knode) (ins outs : list nat).
Hypothesis LV : level_ok ns ins outs.
Hypothesis NDi : NoDup (flat_map nid ns).
Hypothesis CALL : forall n inner, In n ns -> layer n = LModel inner -> call_ok ns n inner /\ levels_ok inner.
Hypothesis IH : forall n inner, In n ns -> layer n = LModel inner -> 
  match parse_model inner with Ok h => nested_read_first inner /\ exists fh, read_ok inner h fh | Err e => e = E_value /\ ~ nested_read_first inner end.

Lemma ND : NoDup (map uid ns).
Proof using NDi. clear - NDi. induction ns as [|n l IHl]; [constructor|]. cbn in *. inversion NDi as [|? ? N1 N2]; subst. constructor.
  - intro I. apply N1. apply in_or_app. right. apply in_map_iff in I. destruct I as (m & <- & M). apply in_flat_map. exists m. split; [exact M|left; reflexivity].
  - apply IHl. clear - N2. induction (match layer n with LModel inner => ids inner | _ => [] end) as [|x k IHk]; [exact N2|]. inversion N2; subst. apply IHk. assumption. Qed.
Record inv (done rest : list knode) (g : graph) (feed : nat -> list (nat * nat)) : Prop := {
  i_flat : flat g feed;
  i_nodes : Permutation (g_nodes g) (flat_map leaf done ++ map uid rest);
  i_in : g_in g = map (inp ns) ins;
  i_len : length (g_out g) = length outs;
  i_calls : forall n inner, In n rest -> layer n = LModel inner -> length (feed (uid n)) = length (ins_of inner) /\
     (forall m s, In m (g_nodes g) -> In s (feed m) -> fst s = uid n -> snd s < length (outs_of inner)) /\
     (forall s, In s (g_out g) -> fst s = uid n -> snd s < length (outs_of inner));
  i_out1 : NoDup outs -> NoDup (g_out g);
  i_out2 : disjoint outs ins -> forall o, In o (g_out g) -> ~ In (fst o) (g_in g);
  i_ports : forall ai ao, shaped ai ao (KModel ns ins outs) -> ports_ok ai ao g feed
}.
(* the nodes that are no nested models read the inputs of the model at the first position *)
Definition reads_first (rest : list knode) (g : graph) (feed : nat -> list (nat * nat)) : Prop :=
  forall m, In m (g_nodes g) -> (forall n inner, In n rest -> layer n = LModel inner -> uid n <> m) ->
  forall i s, nth_error (feed m) i = Some s -> In (fst s) (g_in g) -> i = 0.
Definition ok_nested (l : list knode) : Prop := forall n inner, In n l -> layer n = LModel inner -> inputs_read_first inner /\ nested_read_first inner.

Lemma inv0 : inv [] ns (graph0 ns ins outs) (feed0 ns).
Proof.
  constructor; cbn [graph0 g_nodes g_edges g_in g_out flat_map app].
  - apply graph0_flat; [exact LV|apply ND].
  - reflexivity.
  - reflexivity.
  - apply map_length.
  - intros n inner N L. destruct (CALL n inner N L) as [(C1 & C2 & _) _]. split; [|split].
    + rewrite (feed0_node ns ND) by exact N. unfold is_input. rewrite L, map_length. exact C1.
    + intros m s M S1 E. apply in_map_iff in M. destruct M as (d & <- & D). rewrite (feed0_node ns ND) in S1 by exact D. destruct (is_input d); [destruct S1|]. apply in_map_iff in S1. destruct S1 as (t & <- & T). destruct (made_here _ _ _ LV d t D T) as (p & P1 & P2). rewrite (port_spec ns ins outs LV ND p t P1 P2) in E |- *. cbn in E |- *.
      apply (uid_inj ns ND) in E; [|assumption|assumption]. subst p. rewrite <- C2. apply nth_error_Some. destruct (idx_spec t _ P2) as [_ ->]. discriminate.
    + intros s S1 E. apply in_map_iff in S1. destruct S1 as (t & <- & T). destruct (outs_made _ _ _ LV t T) as (p & P1 & P2). rewrite (port_spec ns ins outs LV ND p t P1 P2) in E |- *. cbn in E |- *.
      apply (uid_inj ns ND) in E; [|assumption|assumption]. subst p. rewrite <- C2. apply nth_error_Some. destruct (idx_spec t _ P2) as [_ ->]. discriminate.
  - intro N. apply NoDup_map_in; [|exact N]. intros a b A B. destruct (outs_made _ _ _ LV a A) as (p & P1 & P2). destruct (outs_made _ _ _ LV b B) as (q & Q1 & Q2). apply (port_inj ns ins outs LV ND a b p q); assumption.
  - intros D o O I. apply in_map_iff in O. destruct O as (t & <- & T). destruct (outs_made _ _ _ LV t T) as (p & P1 & P2). rewrite (port_spec ns ins outs LV ND p t P1 P2) in I. cbn in I. apply (in_ins ns ins outs LV ND p P1) in I. destruct (inputs_listed _ _ _ LV p P1 I) as (t' & _ & K2 & K3). rewrite K2 in P2. destruct P2 as [->|[]]. exact (D t T K3).
  - intros ai ao SH. rewrite shaped_level in SH. constructor; cbn [graph0 g_nodes g_edges g_in g_out].
    + intros m s M S1. apply in_map_iff in M. destruct M as (d & <- & D). rewrite (feed0_node ns ND) in S1 by exact D. destruct (is_input d); [destruct S1|]. apply in_map_iff in S1. destruct S1 as (t & <- & T). destruct (made_here _ _ _ LV d t D T) as (p & P1 & P2). rewrite (port_spec ns ins outs LV ND p t P1 P2). cbn.
      rewrite (proj2 (proj1 (SH p P1))). apply nth_error_Some. destruct (idx_spec t _ P2) as [_ ->]. discriminate.
    + intros s S1. apply in_map_iff in S1. destruct S1 as (t & <- & T). destruct (outs_made _ _ _ LV t T) as (p & P1 & P2). rewrite (port_spec ns ins outs LV ND p t P1 P2). cbn.
      rewrite (proj2 (proj1 (SH p P1))). apply nth_error_Some. destruct (idx_spec t _ P2) as [_ ->]. discriminate.
    + intros m M NI. apply in_map_iff in M. destruct M as (d & <- & D). rewrite (feed0_node ns ND) by exact D. destruct (is_input d) eqn:Id; [exfalso; apply NI, (in_ins ns ins outs LV ND d D), Id|]. rewrite map_length. symmetry. apply (SH d D).
Qed.
Lemma reads_first0 : reads_first ns (graph0 ns ins outs) (feed0 ns) <-> inputs_read_first (KModel ns ins outs).
Proof.
  unfold reads_first, inputs_read_first. cbn [graph0 g_nodes g_in nodes_of ins_of]. split.
  - intros H n i t N L E T. apply (H (uid n) (in_map uid _ _ N)) with (i := i) (s := port ns t).
    + intros m inner M1 M2 X. apply (uid_inj ns ND) in X; [|assumption|assumption]. subst m. congruence.
    + rewrite (feed0_node ns ND) by exact N. unfold is_input. rewrite L, nth_error_map, E. reflexivity.
    + apply in_map_iff. exists t. split; [reflexivity|exact T].
  - intros H m M K i s E I. apply in_map_iff in M. destruct M as (n & <- & N). rewrite (feed0_node ns ND) in E by exact N. destruct (layer n) as [| |inner] eqn:L.
    + unfold is_input in E. rewrite L in E. destruct i; discriminate.
    + unfold is_input in E. rewrite L, nth_error_map in E. destruct (nth_error (kin n) i) as [t|] eqn:F; [|discriminate]. cbn in E. injection E as <-. apply (H n i t N L F). destruct (made_here _ _ _ LV n t N (nth_error_In _ _ F)) as (p & P1 & P2). rewrite (port_spec ns ins outs LV ND p t P1 P2) in I. cbn in I.
      apply (in_ins ns ins outs LV ND p P1) in I. destruct (inputs_listed _ _ _ LV p P1 I) as (t' & _ & K2 & K3). rewrite K2 in P2. destruct P2 as [->|[]]. exact K3.
    + exfalso. exact (K n inner N L eq_refl).
Qed.
Lemma not_called n inner : In n ns -> layer n = LModel inner -> called_before ns n = false.
Proof.
  intros N L. destruct (CALL n inner N L) as [(_ & _ & _ & _ & C) _]. unfold called_before. destruct (find _ ns) as [p|] eqn:E; [|reflexivity]. apply find_some in E. destruct E as [E1 E2]. apply Nat.eqb_eq in E2. rewrite (C p E1 E2), Nat.eqb_refl. reflexivity.
Qed.

Section Step.
Variables (done rest : list knode) (n : knode) (inner : kmodel) (g h : graph) (fg fh : nat -> list (nat * nat)).
Hypothesis NS : ns = done ++ n :: rest.
Hypothesis L : layer n = LModel inner.
Hypothesis IV : inv done (n :: rest) g fg.
Hypothesis RO : read_ok inner h fh.
Lemma N_in : In n ns. Proof using NS. rewrite NS. apply in_or_app. right. left. reflexivity. Qed.
Lemma h_ids x : In x (g_nodes h) -> In x (ids inner).
Proof. intro I. apply (Permutation_in _ (r_nodes _ _ _ RO)), in_app_or in I. destruct I as [I|I]; [apply input_ids_in, I|apply op_ids_in, I]. Qed.
Lemma leaf_nid d x : In x (leaf d) -> In x (nid d).
Proof using. clear. unfold leaf, nid. destruct (layer d); cbn; [tauto|tauto|]. intro I. right. apply op_ids_in, I. Qed.
Lemma nid_once a b x : In a ns -> In b ns -> In x (nid a) -> In x (nid b) -> a = b.
Proof using NDi. clear - NDi. intros A B X Y. apply (proj2 (NoDup_flat_map_inv nid ns NDi) a b x A B X Y). apply NoDup_map_inv with (f := uid), ND. Qed.
Lemma h_not x : In x (g_nodes h) -> x <> uid n /\ (forall d, In d ns -> d <> n -> ~ In x (nid d)).
Proof.
  intro I. apply h_ids in I. split.
  - intros ->. pose proof (proj1 (NoDup_flat_map_inv nid ns NDi) n N_in) as Nn. unfold nid in Nn. rewrite L in Nn. inversion Nn; subst. contradiction.
  - intros d D DN J. apply DN. apply (nid_once d n x D N_in J). unfold nid. rewrite L. right. exact I.
Qed.
Lemma other_not d : In d done \/ In d rest -> In d ns /\ d <> n.
Proof.
  intro I. split; [rewrite NS; apply in_or_app; destruct I; [left|right; right]; assumption|]. intros ->. pose proof (ns_nodup ns ND) as M. rewrite NS in M. apply NoDup_remove_2 in M. apply M. apply in_or_app. exact I.
Qed.
Lemma DISJ : disjoint (g_nodes g) (g_nodes h).
Proof.
  intros x I J. destruct (h_not x J) as [H1 H2]. apply (Permutation_in _ (i_nodes _ _ _ _ IV)), in_app_or in I. destruct I as [I|[I|I]].
  - apply in_flat_map in I. destruct I as (d & D & I). destruct (other_not d (or_introl D)) as [D1 D2]. exact (H2 d D1 D2 (leaf_nid d x I)).
  - congruence.
  - apply in_map_iff in I. destruct I as (d & <- & D). destruct (other_not d (or_intror D)) as [D1 D2]. apply (H2 d D1 D2). left. reflexivity.
Qed.
Lemma U_in : In (uid n) (g_nodes g).
Proof. apply (Permutation_in _ (Permutation_sym (i_nodes _ _ _ _ IV))). apply in_or_app. right. left. reflexivity. Qed.
Lemma U_not : ~ In (uid n) (g_in g).
Proof. rewrite (i_in _ _ _ _ IV). rewrite (in_ins ns ins outs LV ND n N_in). unfold is_input. rewrite L. discriminate. Qed.
Lemma CL : call_ok ns n inner. Proof. apply (CALL n inner N_in L). Qed.
Lemma LENu : length (fg (uid n)) = length (g_in h).
Proof. rewrite (r_ins _ _ _ RO). apply (i_calls _ _ _ _ IV n inner (or_introl eq_refl) L). Qed.
Lemma O1 : NoDup (g_out h). Proof. apply (r_out1 _ _ _ RO). apply CL. Qed.
Lemma O2 : forall o, In o (g_out h) -> ~ In (fst o) (g_in h). Proof. apply (r_out2 _ _ _ RO). apply CL. Qed.
Lemma P1 : forall m s, In m (g_nodes g) -> In s (fg m) -> fst s = uid n -> snd s < length (g_out h).
Proof. rewrite (r_outs _ _ _ RO). apply (i_calls _ _ _ _ IV n inner (or_introl eq_refl) L). Qed.
Lemma P2 : forall s, In s (g_out g) -> fst s = uid n -> snd s < length (g_out h).
Proof. rewrite (r_outs _ _ _ RO). apply (i_calls _ _ _ _ IV n inner (or_introl eq_refl) L). Qed.
Let FG := i_flat _ _ _ _ IV.
Let FH := r_flat _ _ _ RO.

Lemma rest_not_h m : In m (g_nodes h) -> forall l f, rel_of rest m l f <-> rop m l f.
Proof.
  intros M l f. unfold rel_of. destruct (find _ rest) as [d|] eqn:E; [|reflexivity]. apply find_some in E. destruct E as [E1 E2]. apply Nat.eqb_eq in E2. exfalso. destruct (other_not d (or_intror E1)) as [D1 D2]. apply (proj2 (h_not m M) d D1 D2). left. exact E2.
Qed.
Lemma step_ok r : merge_graphs (uid n) g h = Ok r -> read_first h fh /\ exists fr, inv (done ++ [n]) rest r fr /\
  (forall xs ys, rgives (rel_of (n :: rest)) g xs ys <-> rgives (rel_of rest) r xs ys) /\
  (reads_first (n :: rest) g fg <-> reads_first rest r fr).
Proof.
  intro H. destruct (merge_edges (uid n) g h) as [es|e] eqn:E; [|rewrite (merge_err (uid n) g h fg fh FG FH U_in U_not DISJ LENu P1 P2 e E) in H; discriminate].
  assert (read_first h fh) as RF. { intros m i s M Q J. destruct (Nat.eq_dec i 0) as [Z|Z]; [exact Z|]. rewrite (merge_edges_fails (uid n) g h fg fh FG FH U_in LENu m i s M Q J Z) in E. discriminate. }
  split; [exact RF|]. destruct (merge_spec (uid n) g h fg fh FG FH U_in U_not DISJ LENu O1 O2 P1 P2 es E) as (r' & H' & FR & NR & IR & OR). rewrite H in H'. injection H' as <-.
  exists (merged_feed (uid n) h fg fh). split; [|split].
  - constructor.
    + exact FR.
    + rewrite NR. unfold merged_nodes. rewrite flat_map_app. cbn [flat_map]. rewrite app_nil_r. unfold leaf at 2. rewrite L.
      assert (Permutation (filter (fun m => negb (Nat.eqb (uid n) m)) (g_nodes g)) (flat_map leaf done ++ map uid rest)) as Q1.
      { rewrite (filter_perm _ _ _ (i_nodes _ _ _ _ IV)). rewrite filter_app. cbn [map filter]. rewrite Nat.eqb_refl. cbn [negb].
        pose proof (f_nodes _ _ FG) as NN. rewrite (i_nodes _ _ _ _ IV) in NN. cbn [map] in NN. pose proof (NoDup_remove_2 _ _ _ NN) as NM.
        rewrite !filter_all; [reflexivity| |]; intros x X; apply negb_true_iff, Nat.eqb_neq; intros <-; apply NM, in_or_app; [right|left]; exact X. }
      assert (Permutation (filter (fun m => negb (mem m (g_in h))) (g_nodes h)) (op_ids inner)) as Q2.
      { pose proof (f_nodes _ _ FH) as NN. rewrite (r_nodes _ _ _ RO) in NN.
        rewrite (filter_perm _ _ _ (r_nodes _ _ _ RO)), filter_app.
        assert (forall x, In x (input_ids inner) <-> In x (g_in h)) as EQ.
        { intro x. symmetry. apply (r_inputs _ _ _ RO). }
        rewrite filter_nil, filter_all; [reflexivity| |].
        - intros x X. apply negb_true_iff, mem_false. intro J. apply EQ in J. clear - NN X J. induction (input_ids inner) as [|y l IHl]; [destruct J|]. cbn in NN. inversion NN as [|? ? M1 M2]; subst. destruct J as [->|J]; [apply M1, in_or_app; right; exact X|apply IHl; assumption].
        - intros x X. apply negb_false_iff, mem_spec, EQ, X. }
      rewrite Q1, Q2. rewrite <- !app_assoc. apply Permutation_app_head, Permutation_app_comm.
    + rewrite IR. apply (i_in _ _ _ _ IV).
    + rewrite OR, map_length. apply (i_len _ _ _ _ IV).
    + intros d di D LD. destruct (i_calls _ _ _ _ IV d di (or_intror D) LD) as (K1 & K2 & K3). destruct (other_not d (or_intror D)) as [D1 D2].
      assert (In (uid d) (g_nodes g)) as Dg by (apply (Permutation_in _ (Permutation_sym (i_nodes _ _ _ _ IV))); apply in_or_app; right; right; apply in_map, D).
      assert (uid d <> uid n) as DU by (intro X; apply D2, (uid_inj ns ND); [exact D1|exact N_in|exact X]).
      assert (forall x, In x (g_nodes h) -> x <> uid d) as DH by (intros x X Y; apply (proj2 (h_not x X) d D1 D2); left; symmetry; exact Y).
      split; [|split].
      * rewrite (merged_g _ g _ _ _ DISJ) by exact Dg. rewrite map_length. exact K1.
      * intros m s M S1 X. rewrite NR in M. apply merged_in in M. destruct M as [[M M']|[M M']].
        -- rewrite (merged_g _ g _ _ _ DISJ) in S1 by exact M. apply in_map_iff in S1. destruct S1 as (a & <- & A). destruct (RG_in (uid n) h a (P1 m a M A)) as [[A1 A2]|[A1 A2]]; [exfalso; exact (DH _ (f_outs _ _ FH _ A2) X)|rewrite A2 in *; apply (K2 m a M A X)].
        -- rewrite merged_h in S1 by exact M. apply in_map_iff in S1. destruct S1 as (a & <- & A). destruct (RH_in (uid n) h fg LENu a) as [[A1 A2]|[A1 A2]]; [apply (K2 _ _ U_in A2 X)|]. rewrite A2 in *. exfalso. apply (DH (fst a)); [apply (f_src _ _ FH m a M A)|exact X].
      * intros s S1 X. rewrite OR in S1. apply in_map_iff in S1. destruct S1 as (a & <- & A). destruct (RG_in (uid n) h a (P2 a A)) as [[A1 A2]|[A1 A2]]; [exfalso; exact (DH _ (f_outs _ _ FH _ A2) X)|rewrite A2 in *; apply (K3 a A X)].
    + intro N0. rewrite OR. apply NoDup_map_in; [|apply (i_out1 _ _ _ _ IV N0)]. intros a b A B. apply (RG_inj0 (uid n) g h fh FH DISJ O1); [apply P2, A|apply P2, B|apply (f_outs _ _ FG), A|apply (f_outs _ _ FG), B].
    + intros D0 o O. rewrite IR. rewrite OR in O. apply in_map_iff in O. destruct O as (a & <- & A). destruct (RG_in (uid n) h a (P2 a A)) as [[A1 A2]|[A1 A2]].
      * intro J. exact (DISJ _ (f_ins_in _ _ FG _ J) (f_outs _ _ FH _ A2)).
      * rewrite A2. apply (i_out2 _ _ _ _ IV D0 a A).
    + intros ai ao SH. pose proof (i_ports _ _ _ _ IV ai ao SH) as PG. rewrite shaped_level in SH. pose proof (r_ports _ _ _ RO ai ao (proj2 (SH n N_in) inner L)) as PH. constructor.
      * intros m s M S1. rewrite NR in M. apply merged_in in M. destruct M as [[M M']|[M M']].
        -- rewrite (merged_g _ g _ _ _ DISJ) in S1 by exact M. apply in_map_iff in S1. destruct S1 as (a & <- & A). destruct (RG_in (uid n) h a (P1 m a M A)) as [[A1 A2]|[A1 A2]]; [exact (p_out _ _ _ _ PH _ A2)|rewrite A2; apply (p_read _ _ _ _ PG m a M A)].
        -- rewrite merged_h in S1 by exact M. apply in_map_iff in S1. destruct S1 as (a & <- & A). destruct (RH_in (uid n) h fg LENu a) as [[A1 A2]|[A1 A2]]; [apply (p_read _ _ _ _ PG _ _ U_in A2)|]. rewrite A2. apply (p_read _ _ _ _ PH m a M A).
      * intros s S1. rewrite OR in S1. apply in_map_iff in S1. destruct S1 as (a & <- & A). destruct (RG_in (uid n) h a (P2 a A)) as [[A1 A2]|[A1 A2]]; [exact (p_out _ _ _ _ PH _ A2)|rewrite A2; apply (p_out _ _ _ _ PG a A)].
      * intros m M NI. rewrite IR in NI. rewrite NR in M. apply merged_in in M. destruct M as [[M M']|[M M']].
        -- rewrite (merged_g _ g _ _ _ DISJ), map_length by exact M. apply (p_fed _ _ _ _ PG m M NI).
        -- rewrite merged_h, map_length by exact M. apply (p_fed _ _ _ _ PH m M M').
  - intros xs ys. apply (merge_sem (uid n) g h fg fh FG FH U_in U_not DISJ LENu O2 P1 P2); try assumption.
    + intros m l f M D. unfold rel_of. cbn [find]. rewrite (proj2 (Nat.eqb_neq (uid n) m)) by congruence. reflexivity.
    + intros l f. unfold rel_of at 1. cbn [find]. rewrite Nat.eqb_refl, L. unfold mrel. rewrite (r_sem _ _ _ RO), <- (r_outs _ _ _ RO). rewrite <- rgives_rop. symmetry. apply rgives_ext. intros m l' f' M. apply rest_not_h, M.
  - split.
    + intros Q m M K i s E1 J. rewrite IR in J. rewrite NR in M. apply merged_in in M. destruct M as [[M M']|[M M']].
      * rewrite (merged_g _ g _ _ _ DISJ), nth_error_map in E1 by exact M. destruct (nth_error (fg m) i) as [a|] eqn:F; [|discriminate]. cbn in E1. injection E1 as <-.
        destruct (RG_in (uid n) h a (P1 m a M (nth_error_In _ _ F))) as [[A1 A2]|[A1 A2]]; [exfalso; exact (DISJ _ (f_ins_in _ _ FG _ J) (f_outs _ _ FH _ A2))|]. rewrite A2 in J. apply (Q m M) with (i := i) (s := a); [|exact F|exact J]. intros d di [<-|D] LD; [congruence|apply (K d di D LD)].
      * rewrite merged_h, nth_error_map in E1 by exact M. destruct (nth_error (fh m) i) as [a|] eqn:F; [|discriminate]. cbn in E1. injection E1 as <-. destruct (RH_in (uid n) h fg LENu a) as [[A1 A2]|[A1 A2]]; [apply (RF m i a M F A1)|]. rewrite A2 in J. exfalso. apply (DISJ (fst a)); [apply (f_ins_in _ _ FG), J|apply (f_src _ _ FH m a M (nth_error_In _ _ F))].
    + intros Q m M K i s F J. assert (m <> uid n) as D by (intros ->; exact (K n inner (or_introl eq_refl) L eq_refl)). apply (Q m) with (i := i) (s := s).
      * rewrite NR. apply merged_in. left. split; assumption.
      * intros d di D' LD. apply (K d di (or_intror D') LD).
      * rewrite (merged_g _ g _ _ _ DISJ), nth_error_map, F by exact M. cbn. f_equal. unfold out_of. destruct (Nat.eqb_spec (fst s) (uid n)) as [X|X]; [|reflexivity]. exfalso. apply U_not. rewrite <- X. exact J.
      * rewrite IR. exact J.
Qed.
Lemma step_err e : merge_graphs (uid n) g h = Err e -> e = E_value /\ ~ inputs_read_first inner.
Proof.
  intro H. destruct (merge_edges (uid n) g h) as [es|e'] eqn:E.
  - destruct (merge_spec (uid n) g h fg fh FG FH U_in U_not DISJ LENu O1 O2 P1 P2 es E) as (r' & H' & _). congruence.
  - rewrite (merge_err (uid n) g h fg fh FG FH U_in U_not DISJ LENu P1 P2 e' E) in H. injection H as ->. split.
    + apply (merge_edges_err (uid n) g h e), E.
    + intro RF. apply (r_first _ _ _ RO) in RF. destruct (merge_edges_total (uid n) g h fg fh FG FH U_in DISJ LENu O2 P1 RF) as [es E']. congruence.
Qed.
End Step.

Lemma loop rest : forall done g fg, ns = done ++ rest -> inv done rest g fg ->
  match flatten ns rest g with
  | Ok r => exists fr, inv ns [] r fr /\ (forall xs ys, rgives (rel_of rest) g xs ys <-> rgives rop r xs ys) /\ (reads_first rest g fg <-> reads_first [] r fr) /\ ok_nested rest
  | Err e => e = E_value /\ ~ ok_nested rest
  end.
Proof.
  induction rest as [|n rest IHr]; intros done g fg NS IV.
  - cbn [flatten]. rewrite app_nil_r in NS. subst done. exists fg. split; [exact IV|]. split; [intros; reflexivity|]. split; [reflexivity|]. intros n inner [].
  - assert (ns = (done ++ [n]) ++ rest) as NS' by (rewrite <- app_assoc; exact NS). cbn [flatten]. assert (In n ns) as Nn by (rewrite NS; apply in_or_app; right; left; reflexivity).
    assert (layer n = LInput \/ layer n = LOp -> match flatten ns rest g with
      | Ok r => exists fr, inv ns [] r fr /\ (forall xs ys, rgives (rel_of (n :: rest)) g xs ys <-> rgives rop r xs ys) /\ (reads_first (n :: rest) g fg <-> reads_first [] r fr) /\ ok_nested (n :: rest)
      | Err e => e = E_value /\ ~ ok_nested (n :: rest) end) as PLAIN.
    { intro LP. assert (forall inner, layer n <> LModel inner) as LN by (intros inner; destruct LP; congruence).
      assert (inv (done ++ [n]) rest g fg) as IV'.
      { destruct IV as [A B C D E F G PP]. constructor; try assumption.
        - rewrite B. rewrite flat_map_app. cbn [flat_map map]. rewrite app_nil_r, <- app_assoc. apply Permutation_app_head. unfold leaf. destruct LP as [-> | ->]; reflexivity.
        - intros d di D'. apply E. right. exact D'. }
      specialize (IHr _ g fg NS' IV'). destruct (flatten ns rest g) as [r|e].
      - destruct IHr as (fr & R1 & R2 & R3 & R4). exists fr. split; [exact R1|]. split; [|split].
        + intros xs ys. rewrite <- R2. apply rgives_ext. intros m l f _. unfold rel_of. cbn [find]. destruct (Nat.eqb_spec (uid n) m) as [X|X]; [|reflexivity].
          replace (match layer n with LModel inner => mrel inner | _ => rop m end) with (rop m) by (destruct LP as [-> | ->]; reflexivity).
          destruct (find _ rest) as [d|] eqn:Fd; [|reflexivity]. apply find_some in Fd. destruct Fd as [F1 F2]. apply Nat.eqb_eq in F2. exfalso.
          assert (d = n) as Y. { apply (uid_inj ns ND); [rewrite NS; apply in_or_app; right; right; exact F1|exact Nn|congruence]. } subst d. pose proof (ns_nodup ns ND) as M. rewrite NS in M. apply NoDup_remove_2 in M. apply M, in_or_app. right. exact F1.
        + rewrite <- R3. unfold reads_first. split; intros H m M K; apply (H m M).
          * intros d di [<-|D] LD; [exfalso; exact (LN di LD)|apply (K d di D LD)].
          * intros d di D. apply K. right. exact D.
        + intros d di [<-|D] LD; [exfalso; exact (LN di LD)|apply (R4 d di D LD)].
      - destruct IHr as [-> R]. split; [reflexivity|]. intro K. apply R. intros d di D. apply K. right. exact D. }
    destruct (layer n) as [| |inner] eqn:L; [apply PLAIN; left; reflexivity|apply PLAIN; right; reflexivity|]. clear PLAIN.
    rewrite (not_called n inner Nn L). pose proof (IH n inner Nn L) as I0. destruct (parse_model inner) as [h|e]; cbn [bind].
    + destruct I0 as (NR & fh & RO). destruct (merge_graphs (uid n) g h) as [r1|e] eqn:M; cbn [bind].
      * destruct (step_ok done rest n inner g h fg fh NS L IV RO r1 M) as (RF & f1 & IV1 & S1 & S2). specialize (IHr _ r1 f1 NS' IV1). destruct (flatten ns rest r1) as [r|e].
        -- destruct IHr as (fr & R1 & R2 & R3 & R4). exists fr. split; [exact R1|]. split; [intros xs ys; rewrite S1; apply R2|]. split; [rewrite S2; exact R3|].
           intros d di [<-|D] LD; [|apply (R4 d di D LD)]. rewrite L in LD. injection LD as <-. split; [apply (r_first _ _ _ RO), RF|exact NR].
        -- destruct IHr as [-> R]. split; [reflexivity|]. intro K. apply R. intros d di D. apply K. right. exact D.
      * destruct (step_err done rest n inner g h fg fh NS L IV RO e M) as [-> F]. split; [reflexivity|]. intro K. apply F. apply (K n inner (or_introl eq_refl) L).
    + destruct I0 as [-> F]. split; [reflexivity|]. intro K. apply F. apply (K n inner (or_introl eq_refl) L).
Qed.
End Loop.

Lemma read_main m : levels_ok m -> NoDup (ids m) ->
  match parse_model m with Ok h => nested_read_first m /\ exists fh, read_ok m h fh | Err e => e = E_value /\ ~ nested_read_first m end.
Proof.
  induction m as [ns ins outs IH] using kmodel_nest. intros LO N. rewrite levels_unfold in LO. destruct LO as [LV CALL]. rewrite ids_unfold in N.
  assert (forall n inner, In n ns -> layer n = LModel inner -> match parse_model inner with Ok h => nested_read_first inner /\ exists fh, read_ok inner h fh | Err e => e = E_value /\ ~ nested_read_first inner end) as IH'.
  { intros n inner Nn L. apply (IH n inner Nn L); [apply (CALL n inner Nn L)|]. pose proof (proj1 (NoDup_flat_map_inv nid ns N) n Nn) as Nn'. unfold nid in Nn'. rewrite L in Nn'. inversion Nn'; assumption. }
  rewrite parse_unfold, (build_graph_spec ns ins outs LV (ND ns N)). cbn [bind]. pose proof (nested_unfold ns ins outs) as NU.
  pose proof (loop ns ins outs LV N CALL IH' ns [] _ _ eq_refl (inv0 ns ins outs LV N CALL)) as H. destruct (flatten ns ns _) as [r|e]; [|destruct H as [-> H]; split; [reflexivity|rewrite NU; exact H]].
  destruct H as (fr & R1 & R2 & R3 & R4). split; [apply NU; exact R4|]. exists fr. destruct R1 as [A B C D E F G PP]. constructor.
  - exact A.
  - rewrite B. cbn [map]. rewrite app_nil_r. apply leaf_perm.
  - intro x. rewrite C. unfold input_ids. cbn [nodes_of]. split.
    + intro I. apply in_map_iff in I. destruct I as (t & <- & T). destruct (inp_node ns ins outs LV (ND ns N) t T) as (n & N1 & N2 & _ & _ & -> & _). apply in_map, filter_In. split; assumption.
    + intro I. apply in_map_iff in I. destruct I as (n & <- & I). apply filter_In in I. destruct I as [I1 I2]. apply (in_ins ns ins outs LV (ND ns N) n I1), I2.
  - rewrite C. apply map_length.
  - exact D.
  - exact F.
  - exact G.
  - intros xs ys. change (graph_gives op r xs ys) with (rgives rop r xs ys). rewrite <- R2. apply level_sem; [exact LV|apply (ND ns N)|]. intros n inner Nn L. apply (CALL n inner Nn L).
  - rewrite <- (reads_first0 ns ins outs LV N). rewrite R3. unfold reads_first, read_first. split; [intros H m M _ i s; apply (H m i s M)|intros H m i s M; apply (H m M); intros n inner []].
  - exact PP.
Qed.
End Nest.
