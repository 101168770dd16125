(* KReadExProps.v -- a model meeting the hypotheses of KReadProps.v, and models that are read wrongly (C80). *)
From Coq Require Import Permutation Sorted Lia.
From Verif Require Import Base GraphModel GraphSpec GraphProofs KReadModel KReadSpec KReadMergeProofs KReadProofs KReadNestProofs KReadProps.
Local Open Scope nat_scope.

(* ---- checking a level by computation ---- *)
Fixpoint nodupb (l : list nat) : bool := match l with [] => true | x :: r => negb (mem x r) && nodupb r end.
Lemma nodupb_ok l : nodupb l = true -> NoDup l.
Proof. induction l as [|x l IH]; intro H; [constructor|]. cbn in H. apply andb_true_iff in H. destruct H as [H1 H2]. constructor; [apply mem_false; destruct (mem x l); [discriminate|reflexivity]|apply IH, H2]. Qed.
Definition subb (a b : list nat) : bool := forallb (fun x => mem x b) a.
Lemma subb_ok a b : subb a b = true -> incl a b.
Proof. unfold subb. rewrite forallb_forall. intros H x I. apply mem_spec, H, I. Qed.
Definition disjb (a b : list nat) : bool := forallb (fun x => negb (mem x b)) a.
Lemma disjb_ok a b : disjb a b = true -> disjoint a b.
Proof. unfold disjb. rewrite forallb_forall. intros H x I. specialize (H x I). apply mem_false. destruct (mem x b); [discriminate|reflexivity]. Qed.
Definition node_okb (ins : list nat) (n : knode) : bool :=
  nodupb (kin n) && (if is_input n then match kin n, kout n with [a], [b] => Nat.eqb a b && mem a ins | _, _ => false end else disjb (kin n) (kout n)).
Definition levelb (ns : list knode) (ins outs : list nat) : bool :=
  nodupb (flat_map kout ns) && subb (flat_map kin ns) (flat_map kout ns) && subb outs (flat_map kout ns) && nodupb ins &&
  forallb (fun t => existsb (fun n => is_input n && match kout n with [b] => Nat.eqb b t | _ => false end) ns) ins && forallb (node_okb ins) ns.
Lemma levelb_ok ns ins outs : levelb ns ins outs = true -> level_ok ns ins outs.
Proof.
  unfold levelb. rewrite !andb_true_iff. intros (((((A & B) & C) & D) & E) & F). rewrite forallb_forall in F.
  assert (forall n, In n ns -> NoDup (kin n) /\ if is_input n then exists t, kin n = [t] /\ kout n = [t] /\ In t ins else disjoint (kin n) (kout n)) as G.
  { intros n N. specialize (F n N). unfold node_okb in F. apply andb_true_iff in F. destruct F as [F1 F2]. split; [apply nodupb_ok, F1|]. destruct (is_input n); [|apply disjb_ok, F2].
    destruct (kin n) as [|a [|? ?]]; try discriminate. destruct (kout n) as [|b [|? ?]]; try discriminate. apply andb_true_iff in F2. destruct F2 as [F2 F3]. apply Nat.eqb_eq in F2. subst b. exists a. repeat split. apply mem_spec, F3. }
  constructor.
  - apply nodupb_ok, A.
  - intros n t N T. apply in_flat_map. apply (subb_ok _ _ B). apply in_flat_map. exists n. split; assumption.
  - intros t T. apply in_flat_map. apply (subb_ok _ _ C), T.
  - intros n N J. destruct (G n N) as [_ K]. rewrite J in K. exact K.
  - apply nodupb_ok, D.
  - rewrite forallb_forall in E. intros t T. specialize (E t T). apply existsb_exists in E. destruct E as (n & N & K). apply andb_true_iff in K. destruct K as [K1 K2]. exists n. split; [exact N|]. split; [exact K1|]. destruct (kout n) as [|b [|? ?]]; try discriminate. apply Nat.eqb_eq in K2. congruence.
  - intros n N J. destruct (G n N) as [_ K]. rewrite J in K. exact K.
  - intros n N. apply (G n N).
Qed.

(* op 2 on x; nested (2, x): op 12 on the first input, op 13 on the second, op 14 on both, outputs 14 and 13; op 4 on the outputs, swapped *)
Definition ex_inner : kmodel :=
  KModel [KNode 10 110 LInput [50] [50]; KNode 11 111 LInput [51] [51]; KNode 12 112 LOp [50] [52]; KNode 13 113 LOp [51] [53]; KNode 14 114 LOp [52; 53] [54]] [50; 51] [54; 53].
Definition ex_outer : kmodel :=
  KModel [KNode 1 101 LInput [20] [20]; KNode 2 102 LOp [20] [21]; KNode 3 103 (LModel ex_inner) [21; 20] [22; 23]; KNode 4 104 LOp [23; 22] [24]] [20] [24].
Lemma one_call u nm inner i o ns : length i = length (ins_of inner) -> length o = length (outs_of inner) -> nodupb (outs_of inner) = true -> disjb (outs_of inner) (ins_of inner) = true ->
  (forall p, In p ns -> kname p = nm -> p = KNode u nm (LModel inner) i o) -> call_ok ns (KNode u nm (LModel inner) i o) inner.
Proof. intros A B C D E. split; [exact A|]. split; [exact B|]. split; [apply nodupb_ok, C|]. split; [apply disjb_ok, D|exact E]. Qed.
Example ex_keras : keras_model ex_outer.
Proof.
  split; [|apply nodupb_ok; reflexivity]. apply levels_unfold. split; [apply levelb_ok; reflexivity|]. intros n inner [<-|[<-|[<-|[<-|[]]]]] E; try discriminate. injection E as <-. split.
  - apply one_call; try reflexivity. intros p [<-|[<-|[<-|[<-|[]]]]] K; try discriminate. reflexivity.
  - apply levels_unfold. split; [apply levelb_ok; reflexivity|]. intros n inner [<-|[<-|[<-|[<-|[<-|[]]]]]] E; discriminate.
Qed.
Example ex_read : match parse_model ex_outer with
  | Ok g => (g_nodes g, g_in g, g_out g, map (fun e => (src e, si e, snk e, ti e)) (g_edges g)) =
      ([1; 2; 4; 12; 13; 14], [1], [(4, 0)],
       [(1,0,2,0); (12,0,14,0); (13,0,14,1); (1,0,13,0); (2,0,12,0); (14,0,4,1); (13,0,4,0)])
  | Err _ => False end.
Proof. cbv. reflexivity. Qed.

(* FINDING (core/common/graph/edge.py L73, core/keras/reader/nested_model/edges_merger.py L125): equality of edges
   compares the sink index of one edge with the source index of the other, and the edges leaving the inputs of a
   nested model are removed by equality.  An edge of sink index 1 is equal to no edge leaving an input: a nested model
   with a skip connection from its input, Add()([Conv()(x), x]), cannot be read -- ValueError. *)
Definition skip_inner : kmodel :=
  KModel [KNode 10 110 LInput [50] [50]; KNode 11 111 LOp [50] [51]; KNode 12 112 LOp [51; 50] [52]] [50] [52].
Definition skip_outer : kmodel :=
  KModel [KNode 1 101 LInput [20] [20]; KNode 2 102 (LModel skip_inner) [20] [21]] [20] [21].
Theorem nested_skip_connection_refuted : exists m, keras_model m /\ parse_model m = Err E_value.
Proof.
  exists skip_outer. split; [|cbv; reflexivity]. split; [|apply nodupb_ok; reflexivity]. apply levels_unfold. split; [apply levelb_ok; reflexivity|]. intros n inner [<-|[<-|[]]] E; try discriminate. injection E as <-. split.
  - apply one_call; try reflexivity. intros p [<-|[<-|[]]] K; try discriminate. reflexivity.
  - apply levels_unfold. split; [apply levelb_ok; reflexivity|]. intros n inner [<-|[<-|[<-|[]]]] E; discriminate.
Qed.
Print Assumptions nested_skip_connection_refuted.

(* FINDING (core/keras/reader/connectivity_handler.py L198-199): the position of a tensor among the inputs of a layer is
   looked up by list.index, which gives the first position for every occurrence: a layer called on [x, y, x] reads
   [x, x, y] in the graph. *)
Definition repeated : kmodel :=
  KModel [KNode 1 101 LInput [20] [20]; KNode 2 102 LInput [21] [21]; KNode 3 103 LOp [20; 21; 20] [22]] [20; 21] [22].
Definition reread : graph := Graph [1; 2; 3] [Edge 1 3 0 0; Edge 1 3 0 0; Edge 2 3 0 1] [1; 2] [(3, 0)].
Theorem repeated_tensor_refuted : exists (op : nat -> list nat -> nat -> nat) m g xs,
  parse_model m = Ok g /\ model_gives op m xs [5] /\ graph_gives op g xs [3] /\ ~ graph_gives op g xs [5].
Proof.
  exists (fun _ l _ => match l with [a; b; c] => a + 2 * b + 4 * c | _ => 0 end), repeated, reread, [1; 0]. split; [cbv; reflexivity|].
  assert (forall (val : nat -> nat -> nat) l, reads reread val 3 l -> l = [val 1 0; val 1 0; val 2 0]) as RD.
  { intros val l (es & P & S1 & ->). cbn in P. assert (es = [Edge 1 3 0 0; Edge 1 3 0 0; Edge 2 3 0 1]) as ->; [|reflexivity].
    pose proof (Permutation_length P) as L. destruct es as [|a [|b [|c [|? ?]]]]; try discriminate. 
    assert (forall e, In e [a; b; c] -> e = Edge 1 3 0 0 \/ e = Edge 2 3 0 1) as M by (intros e E; apply (Permutation_in _ P) in E; destruct E as [<-|[<-|[<-|[]]]]; tauto).
    assert (length (filter (fun e => Nat.eqb (src e) 2) [a; b; c]) = 1) as CN by (rewrite (Permutation_length (filter_perm _ _ _ P)); reflexivity).
    inversion S1 as [|? ? S2 F1]; subst. inversion S2 as [|? ? S3 F2]; subst. inversion F1 as [|? ? G1 G2]; subst. inversion G2 as [|? ? G3 _]; subst. inversion F2 as [|? ? G4 _]; subst.
    destruct (M a ltac:(cbn; tauto)) as [-> | ->], (M b ltac:(cbn; tauto)) as [-> | ->], (M c ltac:(cbn; tauto)) as [-> | ->]; cbn in *; try lia; reflexivity. }
  split; [|split].
  - exists (fun t => match t with 20 => 1 | 21 => 0 | _ => 5 end). split; [|split; reflexivity]. apply model_run_nodes. intros n [<-|[<-|[<-|[]]]]; cbn; try exact I. intros k t E. destruct k as [|k]; cbn in E; [injection E as <-; reflexivity|destruct k; discriminate].
  - exists (fun n _ => match n with 1 => 1 | 2 => 0 | _ => 3 end). split; [|split; [reflexivity|]].
    + intros n [<-|[<-|[<-|[]]]] J l RL k; cbn in J; try tauto. rewrite (RD _ _ RL). reflexivity.
    + cbn. reflexivity.
  - intros (val & A & B & C). cbn in B, C. injection B as B1 B2. injection C as C. specialize (A 3 ltac:(cbn; tauto) ltac:(cbn; lia) [val 1 0; val 1 0; val 2 0]).
    assert (reads reread val 3 [val 1 0; val 1 0; val 2 0]) as RL by (exists [Edge 1 3 0 0; Edge 1 3 0 0; Edge 2 3 0 1]; split; [reflexivity|]; split; [repeat constructor|reflexivity]). specialize (A RL 0). cbn in A. lia.
Qed.
Print Assumptions repeated_tensor_refuted.

(* FINDING (edges_merger.py L109-126): when a nested model is called on one tensor at two positions, both incoming
   edges carry the first position; the edges of the first input are then to be removed twice -- ValueError. *)
Definition twice_inner : kmodel :=
  KModel [KNode 10 110 LInput [50] [50]; KNode 11 111 LInput [51] [51]; KNode 12 112 LOp [50] [52]; KNode 13 113 LOp [51] [53]] [50; 51] [52; 53].
Theorem nested_same_tensor_twice_refuted : exists u i o inner outer, keras_model inner /\ inputs_read_first inner /\
  outer = KModel [KNode 1 101 LInput [20] [20]; KNode u 102 (LModel inner) i o] [20] o /\ length i = length (ins_of inner) /\ length o = length (outs_of inner) /\
  parse_model outer = Err E_value.
Proof.
  exists 2, [20; 20], [21; 22], twice_inner, (KModel [KNode 1 101 LInput [20] [20]; KNode 2 102 (LModel twice_inner) [20; 20] [21; 22]] [20] [21; 22]). split; [|split; [|repeat split; cbv; reflexivity]].
  - split; [|apply nodupb_ok; reflexivity]. apply levels_unfold. split; [apply levelb_ok; reflexivity|]. intros n inner [<-|[<-|[<-|[<-|[]]]]] E; discriminate.
  - intros n i t [<-|[<-|[<-|[<-|[]]]]] E F _; try discriminate; destruct i as [|[|i]]; try reflexivity; discriminate.
Qed.
Print Assumptions nested_same_tensor_twice_refuted.

(* FINDING (reader.py L163): a nested model called twice: the node of the second call is named <name>_reused_1 and the
   model is looked up under that name -- ValueError. *)
Definition plain_inner (u : nat) : kmodel := KModel [KNode u 110 LInput [50] [50]; KNode (S u) 111 LOp [50] [51]] [50] [51].
Theorem nested_model_called_twice_refuted : exists m, level_ok (nodes_of m) (ins_of m) (outs_of m) /\ NoDup (ids m) /\ nested_read_first m /\ parse_model m = Err E_value.
Proof.
  exists (KModel [KNode 1 101 LInput [20] [20]; KNode 2 102 (LModel (plain_inner 10)) [20] [21]; KNode 3 102 (LModel (plain_inner 20)) [21] [22]] [20] [22]).
  split; [apply levelb_ok; reflexivity|]. split; [apply nodupb_ok; reflexivity|]. split; [|cbv; reflexivity].
  apply nested_unfold. intros n inner [<-|[<-|[<-|[]]]] E; try discriminate; injection E as <-; (split; [|apply nested_unfold; intros n inner [<-|[<-|[]]] E; discriminate]); intros n i t [<-|[<-|[]]] E F _; try discriminate; destruct i as [|[|i]]; try reflexivity; discriminate.
Qed.
Print Assumptions nested_model_called_twice_refuted.

(* FINDING (outputs_merger.py L47-51, nodes_merger.py L42-43): a nested model that returns one of its inputs: the input
   layer is removed from the nodes, and the output of the whole model refers to it. *)
Definition pass_inner : kmodel := KModel [KNode 10 110 LInput [50] [50]; KNode 11 111 LOp [50] [51]] [50] [51; 50].
Theorem nested_pass_through_refuted : exists m g o, level_ok (nodes_of m) (ins_of m) (outs_of m) /\ nested_read_first m /\
  parse_model m = Ok g /\ In o (g_out g) /\ ~ In (fst o) (g_nodes g).
Proof.
  exists (KModel [KNode 1 101 LInput [20] [20]; KNode 2 102 (LModel pass_inner) [20] [21; 22]] [20] [21; 22]), (Graph [1; 11] [Edge 1 11 0 0] [1] [(11, 0); (10, 0)]), (10, 0).
  split; [apply levelb_ok; reflexivity|]. split; [|split; [cbv; reflexivity|split; [right; left; reflexivity|cbn; lia]]].
  apply nested_unfold. intros n inner [<-|[<-|[]]] E; try discriminate; injection E as <-; (split; [|apply nested_unfold; intros n inner [<-|[<-|[]]] E; discriminate]); intros n i t [<-|[<-|[]]] E F _; try discriminate; destruct i as [|[|i]]; try reflexivity; discriminate.
Qed.
Print Assumptions nested_pass_through_refuted.
