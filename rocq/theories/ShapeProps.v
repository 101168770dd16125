(* ShapeProps.v -- C77: a PyTorch reshape or view gets its sizes from the traced shape instead of from the graph, and the
   nodes that only computed sizes are removed. *)
From Coq Require Import Permutation Sorted Lia ZArith String.
From Verif Require Import Base GraphModel GraphSpec GraphProofs GraphProps FxModel FxProofs DeadModel DeadSpec DeadProofs ShapeModel ShapeSpec ShapeProofs.
Open Scope res_scope.
Local Open Scope nat_scope.

Lemma sizes_off g n : one_tensor g n ->
  foldM (fun g p => remove_edge no_check g p n) (map src (filter (fun e => Nat.ltb 0 (ti e)) (in_edges g n))) g = Ok (without_sizes g n).
Proof.
  intros (e0 & E0 & H0). set (B := fun s => negb (Nat.eqb s (src e0))).
  assert (forall e, In e (g_edges g) -> (Nat.eqb (snk e) n && B (src e))%bool = (Nat.eqb (snk e) n && Nat.ltb 0 (ti e))%bool) as Q.
  { intros e I. destruct (Nat.eqb_spec (snk e) n) as [T|T]; [|reflexivity]. cbn [andb]. unfold B. destruct (Nat.eqb_spec (src e) (src e0)) as [S|S]; cbn [negb].
    - rewrite (H0 e I T S). reflexivity.
    - symmetry. apply Nat.ltb_lt. destruct (ti e) eqn:Z; [exfalso|lia]. assert (In e [e0]) as K; [|destruct K as [<-|[]]; congruence]. rewrite <- E0. apply filter_In. split; [exact I|]. rewrite T, Z, Nat.eqb_refl. reflexivity. }
  rewrite (remove_all n B).
  - f_equal. unfold without_sizes. f_equal. apply filter_ext_eq. intros e I. rewrite (Q e I). reflexivity.
  - apply Permutation_map. eapply Permutation_trans; [apply filter_perm, in_edges_perm|]. rewrite filter_filter. erewrite filter_ext_eq; [apply Permutation_refl|]. intros e I. symmetry. apply Q, I.
Qed.
Lemma without_edge g n e : In e (g_edges (without_sizes g n)) <-> In e (g_edges g) /\ ~ (snk e = n /\ 0 < ti e).
Proof.
  unfold without_sizes. cbn [g_edges set_edges]. rewrite filter_In, negb_true_iff, andb_false_iff, Nat.eqb_neq, Nat.ltb_ge. split; intros [A B]; (split; [exact A|]); [lia|]. destruct (Nat.eq_dec (snk e) n); [right; lia|left; assumption].
Qed.
Lemma without_wf g n : wf g -> wf (without_sizes g n).
Proof. intro W. constructor; [apply W|]. intros e I. apply without_edge in I. apply (wf_ends _ W e), I. Qed.
Lemma start g n : cinv (without_sizes g n) (fun m => In m (g_nodes g) /\ feeds_nothing (without_sizes g n) m /\ ~ In m (map fst (g_out g)) /\ ~ In m (map src (filter (fun e => Nat.ltb 0 (ti e)) (in_edges g n))))
  (fun _ => true) (without_sizes g n) (map src (filter (fun e => Nat.ltb 0 (ti e)) (in_edges g n))).
Proof.
  constructor; [|discriminate|].
  - unfold part. rewrite !filter_all by reflexivity. destruct (without_sizes g n); reflexivity.
  - intros m N F O. destruct (in_dec Nat.eq_dec m (map src (filter (fun e => Nat.ltb 0 (ti e)) (in_edges g n)))); [left; assumption|right; auto].
Qed.
Lemma static_parts g n r g' r' : rs_in r <> [] -> static_shapes no_check g n r = Ok (g', r') -> static_node r = Ok r' /\ drop_sizes no_check g n = Ok g'.
Proof.
  unfold static_shapes. destruct (rs_in r) eqn:E; [congruence|]. intros _. cbn [is_nil]. destruct (static_node r) as [r1|]; [|discriminate]. cbn [bind]. destruct (drop_sizes no_check g n); [|discriminate]. cbn [bind]. intro H. injection H as -> ->. auto.
Qed.

(* The edges which brought sizes are gone, with nodes that now contribute to no output; every node that still contributes
   is kept, and everything kept is in its place.  If all nodes contributed before, exactly those which still do are kept. *)
Theorem sizes_removed : forall g n r g' r', wf g -> acyclic g -> one_tensor g n -> rs_in r <> [] -> static_shapes no_check g n r = Ok (g', r') ->
  exists keep, g' = part keep (without_sizes g n) /\
    (forall m, In m (g_nodes g) -> used (without_sizes g n) m -> keep m = true) /\
    ((forall m, In m (g_nodes g) -> used g m) -> forall m, In m (g_nodes g) -> (keep m = true <-> used (without_sizes g n) m)).
Proof.
  intros g n r g' r' W (rank & A) T NE H. apply (static_parts _ _ _ _ _ NE) in H. destruct H as [_ H]. unfold drop_sizes in H. rewrite (sizes_off g n T) in H. cbn [bind] in H.
  destruct (clean_all _ (without_wf g n W) _ _ _ _ _ _ (start g n) H) as (keep & I). exists keep. split; [exact (c_part _ _ _ _ _ I)|]. split.
  - intros m N U. exact (c_used _ (without_wf g n W) _ _ _ _ I m U N).
  - intros U m N. split; [|intro Um; exact (c_used _ (without_wf g n W) _ _ _ _ I m Um N)]. intro K.
    refine (c_kept _ (without_wf g n W) _ keep g' _ _ I m N K).
    + intros x (Nx & F & O & P). specialize (U x Nx). inversion U as [y i J|e J Ue]; subst; [apply O; apply (in_map fst) in J; exact J|].
      destruct (Nat.eq_dec (snk e) n) as [Q|Q]; [|apply (F e); [apply without_edge; tauto|reflexivity]].
      destruct (Nat.eq_dec (ti e) 0) as [Z|Z]; [apply (F e); [apply without_edge; split; [exact J|lia]|reflexivity]|].
      apply P. apply in_map_iff. exists e. split; [reflexivity|]. apply filter_In. split; [apply in_edges_in; auto|]. apply Nat.ltb_lt. lia.
    + exists rank. intros e J. apply A. apply without_edge in J. apply J.
Qed.
Print Assumptions sizes_removed.

(* It succeeds if the node has one output with at least one axis, no input of the graph was only used for sizes, and two
   nodes reading the same removed node are not connected (in particular no node reads it twice). *)
Theorem static_shapes_succeed : forall g n r o rest i irest more, wf g -> NoDup (g_edges g) -> one_tensor g n ->
  rs_out r = [o :: rest] -> rs_in r = (i :: irest) :: more ->
  (forall m, In m (g_nodes g) -> In m (g_in g) -> used (without_sizes g n) m) ->
  (forall e1 e2, In e1 (g_edges g) -> In e2 (g_edges g) -> e1 <> e2 -> src e1 = src e2 -> ~ used (without_sizes g n) (src e1) -> ~ leads g (snk e1) (snk e2)) ->
  exists g' r', static_shapes no_check g n r = Ok (g', r').
Proof.
  intros g n r o rest i irest more W ND T Ro Ri NI NT. unfold static_shapes. rewrite Ri. cbn [is_nil]. unfold static_node. rewrite Ro, Ri. cbn [batch_minus_one bind].
  unfold drop_sizes. rewrite (sizes_off g n T). cbn [bind].
  destruct (clean_all_total g (without_sizes g n) (without_wf g n W)) with (ps := map src (filter (fun e => Nat.ltb 0 (ti e)) (in_edges g n))) (fuel := S (List.length (g_nodes g))) (keep := fun _ : nat => true) (h := without_sizes g n)
    (extra := fun m => In m (g_nodes g) /\ feeds_nothing (without_sizes g n) m /\ ~ In m (map fst (g_out g)) /\ ~ In m (map src (filter (fun e => Nat.ltb 0 (ti e)) (in_edges g n)))) as (g' & E).
  - intros e I. apply without_edge in I. apply I.
  - apply NoDup_filter, ND.
  - exact NT.
  - exact NI.
  - apply start.
  - assert (forall e, In e (filter (fun e => Nat.ltb 0 (ti e)) (in_edges g n)) -> In e (g_edges g) /\ snk e = n /\ 0 < ti e) as K.
    { intros e I. apply filter_In in I. destruct I as [I L]. apply in_edges_in in I. apply Nat.ltb_lt in L. tauto. }
    constructor.
    + intros p I. apply in_map_iff in I. destruct I as (e & <- & I). apply K in I. apply (wf_ends _ W e), I.
    + apply (fop_map src (fun x y => x <> y /\ In x (filter (fun e => Nat.ltb 0 (ti e)) (in_edges g n)) /\ In y (filter (fun e => Nat.ltb 0 (ti e)) (in_edges g n)))).
      * intros x y (Q & Ix & Iy) U. apply K in Ix, Iy. destruct Ix as (Ix & Tx & Lx), Iy as (Iy & Ty & Ly). split.
        -- intro Qs. apply (NT x y Ix Iy Q Qs); [rewrite Qs; exact U|]. rewrite Tx, Ty. apply L_here.
        -- exists y. split; [exact Iy|]. split; [rewrite without_edge; tauto|]. split; [reflexivity|]. apply L_step; [exact Ix|]. rewrite Tx, Ty. apply L_here.
      * apply fop_nodup, NoDup_filter. apply (Permutation_NoDup (Permutation_sym (in_edges_perm g n))), NoDup_filter, ND.
  - cbn. lia.
  - rewrite E. cbn [bind]. eauto.
Qed.
Print Assumptions static_shapes_succeed.

(* Whatever the operations compute, if the reshape with static sizes gives on its tensor what the original gave on its
   tensor and sizes, the outputs are the same. *)
Theorem static_shapes_preserve : forall (V : Type) (op op' : nat -> list V -> nat -> V) g n r g' r' val val', wf g -> acyclic g -> one_tensor g n -> rs_in r <> [] ->
  (forall o, In o (g_out g) -> In (fst o) (g_nodes g)) -> static_shapes no_check g n r = Ok (g', r') ->
  (forall m, m <> n -> op' m = op m) -> (forall l k, reads g val n l -> op' n (firstn 1 l) k = op n l k) ->
  computes op g val -> computes op' g' val' -> outputs g val = outputs g' val'.
Proof.
  intros V op op' g n r g' r' val val' W A T NE O H Ho Hn C C'. destruct (sizes_removed g n r g' r' W A T NE H) as (keep & -> & K & _). destruct A as (rank & A).
  set (g1 := without_sizes g n) in *.
  assert (forall d m, rank m < d -> In m (g_nodes g) -> used g1 m -> forall k, val m k = val' m k) as E.
  { induction d as [|d IH]; intros m R N U k; [lia|].
    set (es := sort_by ti (filter (fun e => Nat.eqb (snk e) m) (g_edges g))).
    assert (Permutation es (filter (fun e => Nat.eqb (snk e) m) (g_edges g))) as P by apply sort_by_perm.
    assert (StronglySorted (fun a b => ti a <= ti b) es) as S by apply sort_by_sorted.
    assert (filter (fun e => Nat.eqb (snk e) m) (g_edges (part keep g1)) = filter (fun e => Nat.eqb (snk e) m) (g_edges g1)) as F.
    { cbn [g_edges part]. rewrite filter_filter. apply filter_ext_eq. intros e I. destruct (Nat.eqb_spec (snk e) m) as [Q|Q]; [|rewrite andb_false_r; reflexivity]. rewrite andb_true_r.
      destruct (wf_ends _ (without_wf g n W) e I) as [Ns Nt]. rewrite (K _ Nt) by (rewrite Q; exact U). rewrite (K _ Ns); [reflexivity|]. apply used_by; [exact I|]. rewrite Q. exact U. }
    assert (forall e, In e (g_edges g1) -> snk e = m -> val (src e) (si e) = val' (src e) (si e)) as IHe.
    { intros e I Q. pose proof (proj1 (proj1 (without_edge g n e) I)) as Ig. pose proof (A e Ig). rewrite Q in *. apply IH; [lia|apply (wf_ends _ W e Ig)|apply used_by; [exact I|rewrite Q; exact U]]. }
    assert (In m (g_nodes (part keep g1))) as Nm by (cbn; apply filter_In; split; [exact N|apply K; assumption]).
    destruct (Nat.eq_dec m n) as [->|Q].
    - destruct T as (e0 & T & _).
      assert (filter (fun e => Nat.eqb (snk e) n) (g_edges g1) = [e0]) as F1.
      { unfold g1, without_sizes. cbn [g_edges set_edges]. rewrite filter_filter, <- T. apply filter_ext_eq. intros e _. destruct (Nat.eqb_spec (snk e) n); cbn [andb negb]; [|reflexivity]. rewrite andb_true_r. destruct (ti e); reflexivity. }
      assert (In e0 (g_edges g1) /\ snk e0 = n) as [I0 T0].
      { assert (In e0 [e0]) as J by (left; reflexivity). rewrite <- F1 in J. apply filter_In in J. destruct J as [J J']. apply Nat.eqb_eq in J'. auto. }
      assert (exists es', es = e0 :: es') as (es' & Ees).
      { assert (In e0 es) as J. { apply (Permutation_in _ (Permutation_sym P)). apply filter_In. split; [apply (without_edge g n e0), I0|apply Nat.eqb_eq, T0]. }
        destruct es as [|x es'] eqn:Ees; [destruct J|]. assert (In x es) as Ix by (rewrite Ees; left; reflexivity).
        assert (ti e0 = 0) as Z0. { assert (In e0 [e0]) as J0 by (left; reflexivity). rewrite <- T in J0. apply filter_In in J0. destruct J0 as [_ J0]. apply andb_prop in J0. apply Nat.eqb_eq, J0. }
        assert (ti x = 0) as Zx. { destruct J as [->|J]; [exact Z0|]. inversion S as [|? ? _ Fx]; subst. rewrite Forall_forall in Fx. specialize (Fx e0 J). lia. }
        assert (In x [e0]) as Jx.
        { rewrite <- T. apply filter_In. assert (In x (x :: es')) as Ix' by (left; reflexivity). apply (Permutation_in _ P), filter_In in Ix'. destruct Ix' as [Ix1 Ix2]. rewrite Ix2, Zx. auto. }
        destruct Jx as [<-|[]]. exists es'. reflexivity. }
      rewrite (C n N (map (fun e => val (src e) (si e)) es)) by (exists es; auto).
      rewrite <- Hn by (exists es; auto). rewrite (C' n Nm [val' (src e0) (si e0)]).
      + rewrite Ees. cbn [map firstn]. rewrite (IHe e0 I0 T0). reflexivity.
      + exists [e0]. rewrite F, F1. split; [apply Permutation_refl|]. split; [repeat constructor|reflexivity].
    - assert (filter (fun e => Nat.eqb (snk e) m) (g_edges g1) = filter (fun e => Nat.eqb (snk e) m) (g_edges g)) as F1.
      { unfold g1, without_sizes. cbn [g_edges set_edges]. rewrite filter_filter. apply filter_ext_eq. intros e _. destruct (Nat.eqb_spec (snk e) m) as [->|]; [|apply andb_false_r]. apply Nat.eqb_neq in Q. rewrite Q. reflexivity. }
      rewrite (C m N (map (fun e => val (src e) (si e)) es)) by (exists es; auto).
      rewrite (C' m Nm (map (fun e => val' (src e) (si e)) es)).
      + rewrite (Ho m Q). f_equal. apply map_ext_in. intros e I. apply (Permutation_in _ P) in I. rewrite <- F1 in I. apply filter_In in I. destruct I as [I T']. apply Nat.eqb_eq in T'. apply IHe; assumption.
      + exists es. rewrite F, F1. auto. }
  unfold outputs. cbn [g_out part]. apply map_ext_in. intros [m i] I. cbn [fst snd]. apply (E (S (rank m))); [lia|exact (O _ I)|exact (used_output g1 m i I)].
Qed.
Print Assumptions static_shapes_preserve.

(* ---- the static shape ---- *)
Lemma zprod_app a b : zprod (a ++ b) = (zprod a * zprod b)%Z.
Proof. induction a as [|x a IH]; cbn [app zprod]; [lia|]. rewrite IH. lia. Qed.
(* The call afterwards is reshape(x, [-1, d1, d2, ...]) with the traced sizes d1, d2, ... of all axes but the first,
   provided the tensor was the first positional argument and no keyword was used. *)
Theorem static_call : forall g n r g' r' (T : Type) (x : T), rs_in r <> [] -> rs_kwargs r = [] -> (forall a, nth_error (rs_allocs r) 0 = Some a -> a = Pos 0) ->
  static_shapes no_check g n r = Ok (g', r') ->
  exists o rest, rs_out r = [o :: rest] /\ call_of r' x = ([CTensor x; CArg (RShape ((-1)%Z :: rest))], []).
Proof.
  intros g n r g' r' T x NE KW AL H. apply (static_parts _ _ _ _ _ NE) in H. destruct H as [H _]. unfold static_node in H.
  destruct (rs_out r) as [|[|o rest] [|? ?]]; try discriminate. cbn [batch_minus_one bind] in H. destruct (rs_in r) as [|[|i ir] more]; try discriminate. cbn [batch_minus_one bind] in H. injection H as <-.
  exists o, rest. split; [reflexivity|]. unfold call_of. cbn [rs_allocs rs_args rs_kwargs]. rewrite KW. cbn [map].
  destruct (rs_allocs r) as [|a al]; [rewrite firstn_nil; reflexivity|]. rewrite (AL a eq_refl). match goal with |- context [firstn ?k _] => destruct k end; reflexivity.
Qed.
Print Assumptions static_call.

(* At run time this call gives a tensor of the same number of elements the intended shape exactly if that shape agrees
   with the traced one on all axes but the first; and it gives no other shape. *)
Theorem static_shape_correct_iff : forall count rest s, Forall (fun d => 0 < d)%Z rest -> Forall (fun d => 0 <= d)%Z s -> zprod s = count ->
  (reshaped count ((-1)%Z :: rest) s <-> exists d, s = d :: rest) /\
  (forall s', reshaped count ((-1)%Z :: rest) s' -> reshaped count ((-1)%Z :: rest) s -> s' = s).
Proof.
  intros count rest s P Ps C.
  assert (Forall (fun d => 0 <= d)%Z rest) as P0 by (eapply Forall_impl; [|exact P]; cbn; intros; lia).
  assert (0 < zprod rest)%Z as Z by (clear - P; induction P; cbn [zprod]; lia).
  assert (forall s', reshaped count ((-1)%Z :: rest) s' -> exists d, s' = d :: rest /\ (d * zprod rest = count)%Z) as K.
  { intros s' R. inversion R as [? F _ E|a b d Fa Fb Nz Dz E Q]; subst.
    - inversion F; subst. lia.
    - destruct a as [|x a]; cbn [app] in *.
      + injection Q as ->. exists d. split; [reflexivity|]. rewrite <- E. reflexivity.
      + injection Q as -> Q. inversion Fa; subst. lia. }
  split; [split|].
  - intro R. destruct (K s R) as (d & -> & _). exists d. reflexivity.
  - intros (d & ->). apply (R_infer count [] rest d); [constructor|exact P0|cbn [zprod]; lia|inversion Ps; assumption|exact C].
  - intros s' R' R. destruct (K _ R') as (d' & -> & E'), (K _ R) as (d & -> & E). f_equal. nia.
Qed.
Print Assumptions static_shape_correct_iff.
