(* DeadProps.v -- C69: nodes that do not contribute to the outputs are removed, and nothing else changes. *)
From Coq Require Import Permutation Sorted Lia.
From Verif Require Import Base GraphModel GraphSpec GraphProofs GraphProps FxProofs DeadModel DeadSpec DeadProofs.
Open Scope res_scope.
Local Open Scope nat_scope.

(* Exactly the nodes which contribute to no output are gone, with their edges; all other nodes and edges keep their
   order, and the inputs and outputs of the graph are the same. *)
Theorem unused_nodes_removed : forall g g', wf g -> acyclic g -> remove_broken_nodes no_check g = Ok g' ->
  exists keep, (forall n, In n (g_nodes g) -> (keep n = true <-> used g n)) /\ g' = part keep g.
Proof.
  intros g g' W A H. destruct (broken_runs g W) as [(keep & g1 & E & I)|[E _]]; rewrite E in H; [|discriminate]. injection H as <-.
  exists keep. split; [|exact (i_part _ _ _ _ I)]. intros n N. split; [exact (kept_used g W keep g1 A I n N)|]. intro U. exact (gone_unused g W keep g1 [] I n U N).
Qed.
Print Assumptions unused_nodes_removed.

(* The removal succeeds exactly if every input contributes to an output and every output which feeds other nodes feeds
   one that contributes to an output; otherwise it stops with a critical error. *)
Theorem unused_removal_succeeds_iff : forall g, wf g -> acyclic g ->
  ((exists g', remove_broken_nodes no_check g = Ok g') <->
     (forall n, In n (g_nodes g) -> In n (g_in g) -> used g n) /\
     (forall n, In n (g_nodes g) -> In n (map fst (g_out g)) -> ~ feeds_nothing g n -> exists e, In e (g_edges g) /\ src e = n /\ used g (snk e))) /\
  (forall e, remove_broken_nodes no_check g = Err e -> e = E_critical).
Proof.
  intros g W A. destruct (broken_runs g W) as [(keep & g1 & E & I)|[E B]].
  - rewrite E. split; [|discriminate]. split; [intros _|intros _; exists g1; reflexivity]. split.
    + intros n N J. apply (kept_used g W keep g1 A I n N). destruct (keep n) eqn:K; [reflexivity|]. destruct (i_gone _ _ _ _ I n N K) as (_ & C & _). contradiction.
    + intros n N O F. assert (keep n = true) as K by (destruct (keep n) eqn:K; [reflexivity|]; destruct (i_gone _ _ _ _ I n N K) as (C & _); contradiction).
      assert (degree g1 n <> 0) as Z.
      { intro Z. destruct (i_all _ _ _ _ I n) as [[]|[_ C]]; [|exact Z|contradiction]. rewrite (i_part _ _ _ _ I). apply part_node; auto. }
      apply degree_pos in Z. destruct Z as (e & J & S). rewrite (i_part _ _ _ _ I) in J. apply part_edge in J. destruct J as (J & _ & K'). exists e. split; [exact J|]. split; [exact S|].
      apply (kept_used g W keep g1 A I); [apply (wf_ends _ W e J)|exact K'].
  - rewrite E. split; [|congruence]. split; [intros [g' Q]; discriminate|]. intros [H1 H2]. exfalso. destruct B as (n & N & [(J & U)|(O & F & U)]); [exact (U (H1 n N J))|destruct (H2 n N O F) as (e & I & S & Ue); exact (U e I S Ue)].
Qed.
Print Assumptions unused_removal_succeeds_iff.

(* Whatever the operations compute, the outputs are the same. *)
Theorem unused_removal_preserves : forall (V : Type) (op : nat -> list V -> nat -> V) g g' val val', wf g -> acyclic g ->
  (forall o, In o (g_out g) -> In (fst o) (g_nodes g)) -> remove_broken_nodes no_check g = Ok g' ->
  computes op g val -> computes op g' val' -> outputs g val = outputs g' val'.
Proof.
  intros V op g g' val val' W A O H C C'. destruct (unused_nodes_removed g g' W A H) as (keep & K & ->). destruct A as (rank & A).
  assert (forall d n, rank n < d -> In n (g_nodes g) -> used g n -> forall k, val n k = val' n k) as E.
  { induction d as [|d IH]; intros n R N U k; [lia|].
    set (es := sort_by ti (filter (fun e => Nat.eqb (snk e) n) (g_edges g))).
    assert (Permutation es (filter (fun e => Nat.eqb (snk e) n) (g_edges g))) as P by apply sort_by_perm.
    assert (StronglySorted (fun a b => ti a <= ti b) es) as S by apply sort_by_sorted.
    assert (filter (fun e => Nat.eqb (snk e) n) (g_edges (part keep g)) = filter (fun e => Nat.eqb (snk e) n) (g_edges g)) as F.
    { cbn [g_edges part]. rewrite filter_filter. apply filter_ext_eq. intros e I. destruct (Nat.eqb_spec (snk e) n) as [Q|Q]; [|rewrite andb_false_r; reflexivity]. rewrite andb_true_r.
      destruct (wf_ends _ W e I) as [Ns Nt]. rewrite (proj2 (K _ Nt)) by (rewrite Q; exact U). rewrite (proj2 (K _ Ns)); [reflexivity|]. apply used_by; [exact I|]. rewrite Q. exact U. }
    rewrite (C n N (map (fun e => val (src e) (si e)) es)) by (exists es; auto).
    rewrite (C' n) with (l := map (fun e => val' (src e) (si e)) es).
    - f_equal. apply map_ext_in. intros e I. apply (Permutation_in _ P) in I. apply filter_In in I. destruct I as [I Q]. apply Nat.eqb_eq in Q. pose proof (A e I). rewrite Q in *.
      apply IH; [lia|apply (wf_ends _ W e I)|apply used_by; [exact I|rewrite Q; exact U]].
    - cbn. apply filter_In. split; [exact N|apply K; assumption].
    - exists es. rewrite F. auto. }
  unfold outputs. cbn [g_out part]. apply map_ext_in. intros [n i] I. cbn [fst snd]. apply (E (S (rank n))); [lia|exact (O _ I)|exact (used_output g n i I)].
Qed.
Print Assumptions unused_removal_preserves.

(* A branch of three nodes, one of them fed twice, ending in a node without output. *)
Example unused_ex : let g := Graph [0; 1; 2; 3; 4; 5] [Edge 0 1 0 0; Edge 0 2 0 0; Edge 1 3 0 0; Edge 2 4 0 0; Edge 2 4 0 1; Edge 4 5 0 0; Edge 0 5 0 1] [0] [(3, 0); (1, 0)] in
  wf g /\ acyclic g /\ remove_broken_nodes no_check g = Ok (Graph [0; 1; 3] [Edge 0 1 0 0; Edge 1 3 0 0] [0] [(3, 0); (1, 0)]).
Proof.
  split; [|split; [|reflexivity]].
  - constructor; [cbn; repeat (constructor; [cbn; lia|]); constructor|]. cbn. intros e H. decompose [or] H; subst; cbn; try lia; tauto.
  - exists (fun n => n). cbn. intros e H. decompose [or] H; subst; cbn; try lia; tauto.
Qed.

(* FINDING (reader.py L146): an output is treated like any other node once its consumers are removed, and then it cannot
   be removed: a model which returns x and also passes x to a node without output, such as an assertion, is refused. *)
Theorem output_with_unused_consumer_refuted : exists g, wf g /\ acyclic g /\ (forall n, In n (g_in g) -> used g n) /\ remove_broken_nodes no_check g = Err E_critical.
Proof.
  exists (Graph [0; 1; 2] [Edge 0 1 0 0; Edge 1 2 0 0] [0] [(1, 0)]). split; [|split; [|split; [|reflexivity]]].
  - constructor; [cbn; repeat (constructor; [cbn; lia|]); constructor|]. cbn. intros e H. decompose [or] H; subst; cbn; try lia; tauto.
  - exists (fun n => n). cbn. intros e H. decompose [or] H; subst; cbn; try lia; tauto.
  - intros n [<-|[]]. change 0 with (src (Edge 0 1 0 0)). apply used_by; [left; reflexivity|]. apply (used_output _ 1 0). left. reflexivity.
Qed.
Print Assumptions output_with_unused_consumer_refuted.
(* FINDING (reader.py L150): an input that only feeds nodes without effect on the outputs stops the reader. *)
Theorem input_of_unused_refuted : exists g, wf g /\ acyclic g /\ (forall n, In n (map fst (g_out g)) -> feeds_nothing g n) /\ remove_broken_nodes no_check g = Err E_critical.
Proof.
  exists (Graph [0; 1; 2; 3] [Edge 0 2 0 0; Edge 1 3 0 0] [0; 1] [(2, 0)]). split; [|split; [|split; [|reflexivity]]].
  - constructor; [cbn; repeat (constructor; [cbn; lia|]); constructor|]. cbn. intros e H. decompose [or] H; subst; cbn; try lia; tauto.
  - exists (fun n => n). cbn. intros e H. decompose [or] H; subst; cbn; try lia; tauto.
  - intros n [<-|[]] e I. cbn in I. decompose [or] I; subst; cbn; try lia; tauto.
Qed.
Print Assumptions input_of_unused_refuted.
