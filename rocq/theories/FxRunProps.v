(* FxRunProps.v -- C68, continued: running the traced program defines the values of FxSpec.traced, which are unique;
   the order of the program is an order in which the rebuilt model can run. *)
From Coq Require Import Permutation Sorted Lia.
From Verif Require Import Base GraphModel GraphSpec GraphProofs FxModel FxSpec FxProofs FxProps.
Open Scope res_scope.
Local Open Scope nat_scope.

Section Interp.
Context {V : Type} (op : nat -> list (cval V) -> list (name * cval V) -> ores V) (cst : nat -> V) (quant : nat -> option (V -> V)).
(* the program runs from its first node to its last, taking the inputs in order *)
Definition upd {A} (f : nat -> A) (n : nat) (a : A) : nat -> A := fun m => if Nat.eqb m n then a else f m.
Definition fx_step (st : list V * (nat -> ores V) * (nat -> ores V)) (nd : fxnode) : list V * (nat -> ores V) * (nat -> ores V) :=
  let '(ins, raw, val) := st in
  match f_op nd with
  | FPlaceholder => match ins with v :: r => (r, upd raw (f_id nd) (One v), upd val (f_id nd) (quantized quant (f_id nd) (One v))) | [] => st end
  | FGetAttr => (ins, raw, upd val (f_id nd) (One (cst (f_id nd))))
  | FOutput => st
  | _ => let o := op (f_target nd) (map (value_of val) (f_args nd)) (map (fun kv => (fst kv, value_of val (snd kv))) (f_kwargs nd)) in
         (ins, upd raw (f_id nd) o, upd val (f_id nd) (quantized quant (f_id nd) o))
  end.
Definition fx_run (prog : list fxnode) (inputs : list V) := fold_left fx_step prog (inputs, fun _ => Many [], fun _ => Many []).
Definition fx_raw prog inputs := snd (fst (fx_run prog inputs)).
Definition fx_val prog inputs := snd (fx_run prog inputs).

Lemma value_of_ext (v w : nat -> ores V) a : (forall n, In n (arg_nodes a) -> v n = w n) -> value_of v a = value_of w a.
Proof.
  induction a as [n|c|l IH] using arg_ind'; intro H; cbn [value_of]; [rewrite (H n) by (left; reflexivity); reflexivity|reflexivity|]. f_equal.
  cbn [arg_nodes] in H. induction IH as [|x r H1 _ IH]; [reflexivity|]. cbn [flat_map map] in *. rewrite H1, IH; [reflexivity| |]; intros n I; apply H, in_or_app; auto.
Qed.
Lemma call_ext (v w : nat -> ores V) nd : (forall n, In n (all_input_nodes nd) -> v n = w n) ->
  map (value_of v) (f_args nd) = map (value_of w) (f_args nd) /\ map (fun kv => (fst kv, value_of v (snd kv))) (f_kwargs nd) = map (fun kv => (fst kv, value_of w (snd kv))) (f_kwargs nd).
Proof.
  intro H. assert (forall n, In n (occ nd) -> v n = w n) as K by (intros n I; apply H; rewrite ains_occ; apply firsts_in, I). unfold occ, nodes_in in K. split.
  - apply map_ext_in. intros a I. apply value_of_ext. intros n J. apply K, in_or_app. left. apply in_flat_map. exists a. split; assumption.
  - apply map_ext_in. intros [k a] I. cbn [fst snd]. f_equal. apply value_of_ext. intros n J. apply K, in_or_app. right. apply in_flat_map. exists a. split; [apply (in_map snd) in I; exact I|exact J].
Qed.
Lemma has_id prog n : In n (graph_ids prog) \/ In n (const_ids prog) -> In n (map f_id prog).
Proof. intros [I|I]; [apply graph_ids_in in I; destruct I as (nd & I & _ & <-)|apply const_ids_in in I; destruct I as (nd & I & _ & <-)]; apply in_map, I. Qed.

(* Running the program gives values as FxSpec.traced describes them. *)
Theorem running_the_program_is_traced prog inputs : NoDup (map f_id prog) -> in_order prog -> length inputs = length (filter (is_op FPlaceholder) prog) ->
  traced op cst quant prog inputs (fx_raw prog inputs) (fx_val prog inputs).
Proof.
  intros N O L.
  assert (forall done rest used ins raw val, prog = done ++ rest -> inputs = used ++ ins -> traced op cst quant done used raw val ->
    length ins = length (filter (is_op FPlaceholder) rest) ->
    let st := fold_left fx_step rest (ins, raw, val) in traced op cst quant prog inputs (snd (fst st)) (snd st)) as K.
  2: { apply (K [] prog [] inputs (fun _ => Many []) (fun _ => Many [])); auto. constructor; [constructor|intros ? []|intros ? []|intros ? []]. }
  intros done rest. revert done. induction rest as [|nd rest IH]; intros done used ins raw val E1 E2 T Ln.
  { cbn [filter length] in Ln. destruct ins; [|discriminate]. rewrite app_nil_r in *. subst done used. exact T. }
  cbn [fold_left]. assert (prog = (done ++ [nd]) ++ rest) as E1' by (rewrite <- app_assoc; exact E1).
  assert (~ In (f_id nd) (map f_id done)) as Fr. { rewrite E1, map_app in N. cbn [map] in N. apply NoDup_remove_2 in N. intro I. apply N, in_or_app. left. exact I. }
  assert (forall n, In n (all_input_nodes nd) -> In n (map f_id done)) as Ar by (intros n I; apply has_id, (O done nd rest n E1 I)).
  assert (forall {A} (f : nat -> A) a m, In m (map f_id done) -> upd f (f_id nd) a m = f m) as Up.
  { intros A f a m I. unfold upd. destruct (Nat.eqb_spec m (f_id nd)) as [->|_]; [contradiction|reflexivity]. }
  assert (forall A (f : nat -> A) a, upd f (f_id nd) a (f_id nd) = a) as Us by (intros; unfold upd; rewrite Nat.eqb_refl; reflexivity).
  assert (forall x, In x done -> In (f_id x) (map f_id done)) as Id by (intros x I; apply in_map, I).
  assert (forall x, In x done -> forall n, In n (all_input_nodes x) -> In n (map f_id done)) as Ad.
  { intros x I n J. destruct (in_split _ _ I) as (a & b & Es). assert (prog = a ++ x :: (b ++ nd :: rest)) as Q by (rewrite E1, Es, <- app_assoc; reflexivity).
    rewrite Es, map_app. apply in_or_app. left. apply has_id, (O a x _ n Q J). }
  assert (forall raw' val' used', (forall m, In m (map f_id done) -> raw' m = raw m /\ val' m = val m) ->
     Forall2 (fun nd v => raw' (f_id nd) = One v) (filter (is_op FPlaceholder) (done ++ [nd])) used' ->
     (f_op nd = FGetAttr -> val' (f_id nd) = One (cst (f_id nd))) ->
     (f_op nd = FFunction \/ f_op nd = FModule -> raw' (f_id nd) = op (f_target nd) (map (value_of val) (f_args nd)) (map (fun kv => (fst kv, value_of val (snd kv))) (f_kwargs nd))) ->
     (is_graph_node nd = true -> val' (f_id nd) = quantized quant (f_id nd) (raw' (f_id nd))) -> traced op cst quant (done ++ [nd]) used' raw' val') as EXT.
  { intros raw' val' used' Hs Hi Hc Hf Hq. constructor; [exact Hi| | |].
    - intros x I Ox. apply in_app_or in I. destruct I as [I|[<-|[]]]; [|exact (Hc Ox)]. rewrite (proj2 (Hs _ (Id x I))). exact (tr_const _ _ _ _ _ _ _ T x I Ox).
    - intros x I Ox. apply in_app_or in I. destruct I as [I|[<-|[]]].
      + rewrite (proj1 (Hs _ (Id x I))), (tr_call _ _ _ _ _ _ _ T x I Ox). destruct (call_ext val val' x) as [-> ->]; [|reflexivity]. intros n J. symmetry. exact (proj2 (Hs n (Ad x I n J))).
      + rewrite (Hf Ox). destruct (call_ext val val' nd) as [-> ->]; [|reflexivity]. intros n J. symmetry. exact (proj2 (Hs n (Ar n J))).
    - intros x I Gx. apply in_app_or in I. destruct I as [I|[<-|[]]]; [|exact (Hq Gx)]. destruct (Hs _ (Id x I)) as [-> ->]. exact (tr_quant _ _ _ _ _ _ _ T x I Gx). }
  assert (forall raw', (forall m, In m (map f_id done) -> raw' m = raw m) -> Forall2 (fun nd v => raw' (f_id nd) = One v) (filter (is_op FPlaceholder) done) used) as KEEP.
  { intros raw' Hs. pose proof (tr_input _ _ _ _ _ _ _ T) as TI. assert (forall l, incl l done -> forall u, Forall2 (fun nd v => raw (f_id nd) = One v) l u -> Forall2 (fun nd v => raw' (f_id nd) = One v) l u) as Q.
    { induction l as [|x l IHl]; intros H u F; inversion F; subst; [constructor|]. constructor; [rewrite Hs; [assumption|apply Id, H; left; reflexivity]|apply IHl; [intros w J; apply H; right; exact J|assumption]]. }
    apply Q; [intros w J; apply filter_In in J; apply J|exact TI]. }
  cbv zeta. remember (fx_step (ins, raw, val) nd) as st1 eqn:Est. unfold fx_step in Est. destruct (f_op nd) eqn:Op.
  - cbn [filter] in Ln. unfold is_op in Ln at 1. rewrite Op in Ln. cbn [length] in Ln. destruct ins as [|v ins]; [discriminate|]. injection Ln as Ln. subst st1.
    apply (IH (done ++ [nd]) (used ++ [v])); auto; [rewrite <- app_assoc; exact E2|]. apply EXT; [intros m I; split; apply Up, I| |congruence|intros [Q|Q]; congruence|intros _; rewrite !Us; reflexivity].
    rewrite filter_app. cbn [filter]. unfold is_op at 2. rewrite Op. apply Forall2_snoc; [apply KEEP; intros m I; apply Up, I|apply Us].
  - cbn [filter] in Ln. unfold is_op in Ln at 1. rewrite Op in Ln. subst st1.
    apply (IH (done ++ [nd]) used); auto. apply EXT; [intros m I; split; [reflexivity|apply Up, I]| |intros _; apply Us|intros [Q|Q]; congruence|unfold is_graph_node, is_op; rewrite Op; discriminate].
    rewrite filter_app. cbn [filter]. unfold is_op at 2. rewrite Op, app_nil_r. apply KEEP. reflexivity.
  - cbn [filter] in Ln. unfold is_op in Ln at 1. rewrite Op in Ln. subst st1.
    apply (IH (done ++ [nd]) used); auto. apply EXT; [intros m I; split; apply Up, I| |congruence|intros _; apply Us|intros _; rewrite !Us; reflexivity].
    rewrite filter_app. cbn [filter]. unfold is_op at 2. rewrite Op, app_nil_r. apply KEEP. intros m I. apply Up, I.
  - cbn [filter] in Ln. unfold is_op in Ln at 1. rewrite Op in Ln. subst st1.
    apply (IH (done ++ [nd]) used); auto. apply EXT; [intros m I; split; apply Up, I| |congruence|intros _; apply Us|intros _; rewrite !Us; reflexivity].
    rewrite filter_app. cbn [filter]. unfold is_op at 2. rewrite Op, app_nil_r. apply KEEP. intros m I. apply Up, I.
  - cbn [filter] in Ln. unfold is_op in Ln at 1. rewrite Op in Ln. subst st1.
    apply (IH (done ++ [nd]) used); auto. apply EXT; [intros m I; split; reflexivity| |congruence|intros [Q|Q]; congruence|unfold is_graph_node, is_op; rewrite Op; discriminate].
    rewrite filter_app. cbn [filter]. unfold is_op at 2. rewrite Op, app_nil_r. apply KEEP. reflexivity.
Qed.

(* The values are determined by the inputs. *)
Theorem traced_values_unique prog inputs raw val raw' val' : in_order prog ->
  traced op cst quant prog inputs raw val -> traced op cst quant prog inputs raw' val' ->
  forall n, In n (graph_ids prog) -> raw n = raw' n /\ val n = val' n.
Proof.
  intros O T T'.
  assert (forall done rest, prog = done ++ rest -> forall nd, In nd done -> (is_graph_node nd = true -> raw (f_id nd) = raw' (f_id nd)) /\ (is_graph_node nd = true \/ f_op nd = FGetAttr -> val (f_id nd) = val' (f_id nd))) as K.
  { intro done. induction done as [|nd done IH] using rev_ind; intros rest E x I; [destruct I|]. rewrite <- app_assoc in E. cbn [app] in E. specialize (IH (nd :: rest) E).
    apply in_app_or in I. destruct I as [I|[<-|[]]]; [exact (IH x I)|].
    assert (In nd prog) as J by (rewrite E; apply in_or_app; right; left; reflexivity).
    assert (is_graph_node nd = true -> raw (f_id nd) = raw' (f_id nd)) as Rr.
    { intro G. destruct (f_op nd) eqn:Op; try (unfold is_graph_node, is_op in G; rewrite Op in G; discriminate).
      - pose proof (tr_input _ _ _ _ _ _ _ T) as F. pose proof (tr_input _ _ _ _ _ _ _ T') as F'.
        assert (In nd (filter (is_op FPlaceholder) prog)) as Ip by (apply filter_In; split; [exact J|unfold is_op; rewrite Op; reflexivity]).
        revert F F' Ip. clear. generalize inputs. induction (filter (is_op FPlaceholder) prog) as [|y l IH]; intros u F F' I; [destruct I|].
        inversion F; subst. inversion F'; subst. destruct I as [->|I]; [congruence|eapply IH; eassumption].
      - rewrite (tr_call _ _ _ _ _ _ _ T nd J (or_introl Op)), (tr_call _ _ _ _ _ _ _ T' nd J (or_introl Op)). destruct (call_ext val val' nd) as [-> ->]; [|reflexivity].
        intros n A. destruct (O done nd rest n E A) as [Q|Q]; [apply graph_ids_in in Q|apply const_ids_in in Q]; destruct Q as (y & Iy & Gy & <-); apply (IH y Iy); auto.
      - rewrite (tr_call _ _ _ _ _ _ _ T nd J (or_intror Op)), (tr_call _ _ _ _ _ _ _ T' nd J (or_intror Op)). destruct (call_ext val val' nd) as [-> ->]; [|reflexivity].
        intros n A. destruct (O done nd rest n E A) as [Q|Q]; [apply graph_ids_in in Q|apply const_ids_in in Q]; destruct Q as (y & Iy & Gy & <-); apply (IH y Iy); auto. }
    split; [exact Rr|]. intros [G|C].
    - rewrite (tr_quant _ _ _ _ _ _ _ T nd J G), (tr_quant _ _ _ _ _ _ _ T' nd J G), (Rr G). reflexivity.
    - rewrite (tr_const _ _ _ _ _ _ _ T nd J C), (tr_const _ _ _ _ _ _ _ T' nd J C). reflexivity. }
  intros n I. apply graph_ids_in in I. destruct I as (nd & I & G & <-). destruct (K prog [] (eq_sym (app_nil_r _)) nd I) as [K1 K2]. split; auto.
Qed.
End Interp.

Lemma graph_ids_app a b : graph_ids (a ++ b) = graph_ids a ++ graph_ids b.
Proof. unfold graph_ids. rewrite filter_app, map_app. reflexivity. Qed.
(* The nodes can be run in the order of the program. *)
Theorem program_order_is_topological lw prog g rs : NoDup (map f_id prog) -> in_order prog -> build_graph lw prog = Ok (g, rs) -> topological g (graph_ids prog).
Proof.
  intros N O B. unfold build_graph in B. destruct (negb _); [discriminate|]. destruct (negb _); [discriminate|]. injection B as <- <-. split; [reflexivity|]. cbn [g_edges].
  intros a n b e E I S1. apply (Permutation_in _ (edges_builder_perm prog N)) in I. apply in_map_iff in I. destruct I as (c & <- & I). unfold mk_edge in *. cbn [src snk] in *.
  unfold connectivity in I. apply in_flat_map in I. destruct I as (nd & J & I). destruct (is_op FOutput nd) eqn:Oo; [destruct I|].
  assert (f_id nd = n) as En by (rewrite <- S1; symmetry; apply (conn_snk prog nd c I)).
  apply in_flat_map in I. destruct I as (m & Im & I). destruct (mem m (graph_ids prog)) eqn:Gm; [|destruct I]. apply in_map_iff in I. destruct I as (i & <- & _). cbn [fst].
  destruct (in_split _ _ J) as (p & q & Ep).
  assert (is_graph_node nd = true) as Gn.
  { assert (In n (graph_ids prog)) as Q by (rewrite E; apply in_or_app; right; left; reflexivity). apply graph_ids_in in Q. destruct Q as (x & Ix & Gx & Ex). rewrite <- (ids_unique prog x nd N Ix J) by congruence. exact Gx. }
  assert (graph_ids p = a) as <-.
  { assert (graph_ids prog = graph_ids p ++ n :: graph_ids q) as Q. { rewrite Ep, graph_ids_app. f_equal. unfold graph_ids at 1. cbn [filter]. rewrite Gn. cbn [map]. rewrite En. reflexivity. }
    rewrite E in Q. assert (NoDup (a ++ n :: b)) as ND by (rewrite <- E; apply nodup_filter_ids, N). clear - Q ND. revert Q ND. generalize (graph_ids p) (graph_ids q). intros l. revert a. induction l as [|x l IH]; intros [|y a] r Q ND; [reflexivity| | |].
    - cbn [app] in *. injection Q as -> Q. inversion ND; subst. exfalso. apply H1. apply in_or_app. right. left. reflexivity.
    - cbn [app] in *. injection Q as <- Q. inversion ND; subst. exfalso. apply H1. apply in_or_app. right. left. reflexivity.
    - cbn [app] in *. injection Q as <- Q. inversion ND; subst. f_equal. exact (IH _ _ Q H2). }
  destruct (O p nd q m Ep Im) as [Q|Q]; [exact Q|]. exfalso. apply (const_not_graph prog m N); [apply mem_spec, Gm|]. rewrite Ep. unfold const_ids in *. rewrite filter_app, map_app. apply in_or_app. left. exact Q.
Qed.
Print Assumptions running_the_program_is_traced.
Print Assumptions traced_values_unique.
Print Assumptions program_order_is_topological.
