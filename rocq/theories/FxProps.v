(* FxProps.v -- C68: the model rebuilt from the graph of a traced PyTorch model computes what the traced model
   computes. *)
From Coq Require Import Permutation Sorted Lia.
From Verif Require Import Base GraphModel GraphSpec GraphProofs FxModel FxSpec FxProofs.
Open Scope res_scope.
Local Open Scope nat_scope.

Lemma mapM_perm {A B} (f : A -> result B) l k : Permutation l k -> forall l', mapM f l = Ok l' -> exists k', mapM f k = Ok k' /\ Permutation l' k'.
Proof.
  induction 1 as [|x l k _ IH|x y l|l k m _ IH1 _ IH2]; intros l' H.
  - exists l'. split; [exact H|reflexivity].
  - cbn [mapM] in *. destruct (f x) as [b|]; [|discriminate]. cbn [bind] in *. destruct (mapM f l) as [bs|]; [|discriminate]. cbn [bind] in H. injection H as <-.
    destruct (IH bs eq_refl) as (k' & -> & P). cbn [bind]. exists (b :: k'). split; [reflexivity|constructor; exact P].
  - cbn [mapM] in *. destruct (f y) as [b|]; [|discriminate]. cbn [bind] in *. destruct (f x) as [c|]; [|discriminate]. cbn [bind] in *.
    destruct (mapM f l) as [bs|]; [|discriminate]. cbn [bind] in *. injection H as <-. exists (c :: b :: bs). split; [reflexivity|apply perm_swap].
  - destruct (IH1 l' H) as (k' & K & P1). destruct (IH2 k' K) as (m' & M & P2). exists m'. split; [exact M|etransitivity; eassumption].
Qed.
Lemma mapM_ok {A B} (f : A -> result B) (h : A -> B) l : (forall x, In x l -> f x = Ok (h x)) -> mapM f l = Ok (map h l).
Proof. induction l as [|x l IH]; intro H; [reflexivity|]. cbn [mapM map]. rewrite (H x (or_introl eq_refl)). cbn [bind]. rewrite IH; [reflexivity|]. intros y I. apply H. right. exact I. Qed.
Lemma Forall2_split {A B} (P : A -> B -> Prop) a x b l : Forall2 P (a ++ x :: b) l -> exists v, nth_error l (length a) = Some v /\ P x v.
Proof.
  revert l. induction a as [|y a IH]; intros l H; inversion H; subst; [eexists; split; [reflexivity|assumption]|]. cbn [length nth_error]. apply IH. assumption.
Qed.
Lemma Forall2_in_l {A B} (P : A -> B -> Prop) l l' x : Forall2 P l l' -> In x l -> exists y, In y l' /\ P x y.
Proof. induction 1 as [|a b l l' H _ IH]; intro I; [destruct I|]; destruct I as [->|I]; [exists b; split; [left; reflexivity|exact H]|]. destruct (IH I) as (y & J & Q). exists y. split; [right; exact J|exact Q]. Qed.
Lemma nodup_filter_ids (p : fxnode -> bool) prog : NoDup (map f_id prog) -> NoDup (map f_id (filter p prog)).
Proof.
  induction prog as [|x l IH]; intro N; [constructor|]. cbn [map filter] in *. inversion N as [|? ? N1 N2]; subst. destruct (p x); [|auto]. cbn [map]. constructor; [|auto].
  intro J. apply in_map_iff in J. destruct J as (y & E & J). apply filter_In in J. apply N1. rewrite <- E. apply in_map, J.
Qed.
Lemma lookup_self rs r : NoDup (map r_id rs) -> In r rs -> lookup_node rs (r_id r) = Some r.
Proof.
  unfold lookup_node. induction rs as [|x l IH]; [intros _ []|]. cbn [map find]. intros N I. inversion N as [|? ? N1 N2]; subst.
  destruct I as [->|I]; [rewrite Nat.eqb_refl; reflexivity|]. destruct (Nat.eqb_spec (r_id x) (r_id r)) as [E|_]; [exfalso; apply N1; rewrite E; apply in_map, I|exact (IH N2 I)].
Qed.

Section Main.
Context {V : Type} (op : nat -> list (cval V) -> list (name * cval V) -> ores V) (cst : nat -> V) (quant : nat -> option (V -> V)) (cat : list V -> V).

Definition graph_of (prog : list fxnode) : graph :=
  Graph (graph_ids prog) (edges_builder prog) (map f_id (filter (is_op FPlaceholder) prog)) (map (fun n => (n, index_of n (output_nodes prog))) (output_nodes prog)).
Lemma rebuilt_runs lw prog rs seen order inputs raw val (float_out : bool) :
  keyword_order_free op -> wf_prog prog -> (forall nd, In nd prog -> plain (const_ids prog) nd) ->
  inv lw (const_ids prog) prog rs seen -> negb (forallb (fun n => mem n (graph_ids prog)) (output_nodes prog)) = false -> topological (graph_of prog) order ->
  traced op cst quant prog inputs raw val -> (forall n, In n (graph_ids prog) -> exists v, raw n = One v) ->
  NoDup (returned prog) ->
  exists outs, forward op cst quant cat (graph_of prog) rs order float_out inputs = Ok outs /\
    Forall2 (fun n o => exists v, o = OTensor v /\ (if float_out then raw n else val n) = One v) (returned prog) outs.
Proof.
  intros KF W PL INV Out TP TR SV NR. pose proof (wp_ids _ W) as N. unfold graph_of in *.
  assert (map r_id rs = graph_ids prog) as Ids.
  { unfold graph_ids. pose proof (i_match _ _ _ _ _ INV) as M. revert M. clear. generalize (filter is_graph_node prog) rs. induction 1 as [|x y l l' H1 _ IH]; [reflexivity|]. cbn [map]. rewrite IH. f_equal. apply H1. }
  assert (NoDup (map r_id rs)) as Nr by (rewrite Ids; apply nodup_filter_ids, N).
  set (g := Graph _ _ _ _) in *. destruct TP as [TP1 TP2]. cbn [g_nodes] in TP1.
  (* the modules *)
  assert (mapM (fun n => match lookup_node rs n with Some r => Ok r | None => Err E_key end) (graph_ids prog) = Ok rs) as L1.
  { rewrite <- Ids. clear - Nr. assert (forall l, incl l rs -> mapM (fun n => match lookup_node rs n with Some r => Ok r | None => Err E_key end) (map r_id l) = Ok l) as K; [|apply K, incl_refl].
    induction l as [|r l IH]; intro H; [reflexivity|]. cbn [map mapM]. rewrite (lookup_self rs r Nr) by (apply H; left; reflexivity). cbn [bind]. rewrite IH; [reflexivity|]. intros x J. apply H. right. exact J. }
  destruct (mapM_perm _ _ _ (Permutation_sym TP1) _ L1) as (nodes & L2 & PN).
  destruct (modules_registered lw _ prog rs seen nodes INV Nr (Permutation_sym PN)) as (ops & M1 & M2).
  (* one value per node *)
  assert (exists rv : nat -> V, forall n, In n (graph_ids prog) -> raw n = One (rv n)) as (rv & RV).
  { exists (fun n => match raw n with One v => v | Many _ => cst 0 end). intros n I. destruct (SV n I) as (v & Ev). rewrite Ev. reflexivity. }
  set (tv := fun n => if mem n (const_ids prog) then cst n else match quant n with Some q => q (rv n) | None => rv n end).
  assert (forall n, In n (const_ids prog) -> val n = One (cst n)) as CV by (intros n I; apply const_ids_in in I; destruct I as (nd & I & O & <-); apply (tr_const _ _ _ _ _ _ _ TR); assumption).
  assert (forall n, In n (graph_ids prog) -> val n = One (tv n)) as GV.
  { intros n I. pose proof I as J. apply graph_ids_in in J. destruct J as (nd & J & G & <-). rewrite (tr_quant _ _ _ _ _ _ _ TR nd J G), (RV _ I). unfold quantized, tv.
    replace (mem (f_id nd) (const_ids prog)) with false; [destruct (quant (f_id nd)); reflexivity|]. symmetry. apply mem_false. intro C. exact (const_not_graph prog _ N I C). }
  assert (forall nd n, In nd prog -> In n (occ nd) -> val n = One (tv n)) as OV.
  { intros nd n I J. destruct (wp_args _ W nd n I) as [G|C]; [rewrite ains_occ; apply firsts_in, J|exact (GV n G)|]. unfold tv. rewrite (proj2 (mem_spec _ _) C). exact (CV n C). }
  (* one step *)
  assert (forall done n env, In n (graph_ids prog) -> (forall e, In e (g_edges g) -> snk e = n -> In (src e) done) -> (forall m, In m done -> dict_get (fst env) m = Some [tv m]) ->
    step op cst quant cat g rs ops inputs env n = Ok ((n, [tv n]) :: fst env, (n, [rv n]) :: snd env)) as STEP.
  { intros done n env I Hd He. pose proof I as J. apply graph_ids_in in J. destruct J as (nd & J & G & <-).
    assert (In nd (filter is_graph_node prog)) as J' by (apply filter_In; split; assumption).
    destruct (Forall2_in_l _ _ _ _ (i_match _ _ _ _ _ INV) J') as (r & Ir & Mr). assert (r_id r = f_id nd) as Er by apply Mr.
    assert (tv (f_id nd) = match quant (f_id nd) with Some q => q (rv (f_id nd)) | None => rv (f_id nd) end) as Tn.
    { unfold tv. replace (mem (f_id nd) (const_ids prog)) with false; [reflexivity|]. symmetry. apply mem_false. intro C. exact (const_not_graph prog _ N I C). }
    assert (dict_get ops (f_id nd) = Some (f_target nd)) as Mo by (rewrite <- Er, (M2 r Ir); f_equal; apply Mr).
    unfold step. rewrite <- Er, (lookup_self rs r Nr Ir), Er. unfold input_tensors. destruct (f_op nd) eqn:O.
    2, 5: unfold is_graph_node, is_op in G; rewrite O in G; discriminate.
    - assert (r_kind r = KPlaceholder /\ r_args r = [] /\ r_kwargs r = [] /\ r_weights r = []) as (K1 & K2 & K3 & K4) by (unfold matches in Mr; rewrite O in Mr; apply Mr).
      rewrite K1. assert (In nd (filter (is_op FPlaceholder) prog)) as Ip by (apply filter_In; split; [exact J|unfold is_op; rewrite O; reflexivity]).
      destruct (in_split _ _ Ip) as (a & b & Es).
      pose proof (tr_input _ _ _ _ _ _ _ TR) as TI. rewrite Es in TI. destruct (Forall2_split _ _ _ _ _ TI) as (v & Nv & Rv). cbn beta in Rv.
      cbn [g_in g]. rewrite Es, map_app. cbn [map]. rewrite Er, index_of_app_r, map_length, Nv.
      2: { pose proof (nodup_filter_ids (is_op FPlaceholder) prog N) as Q. rewrite Es, map_app in Q. cbn [map] in Q. apply NoDup_remove_2 in Q. intro C. apply Q, in_or_app. left. exact C. }
      cbn [bind]. unfold run_operation, merge_inputs. rewrite K1, K2, K3, K4. unfold insert_positional_weights. cbn [fold_right foldM bind map app fst snd]. rewrite Er.
      rewrite (RV _ I) in Rv. injection Rv as Rv. rewrite Tn, Rv. destruct (quant (f_id nd)); reflexivity.
    - assert (r_kind r = KFunctional) as K1 by (unfold matches in Mr; rewrite O in Mr; apply Mr). rewrite K1.
      rewrite (mapM_ok _ (fun e => [tv (src e)])).
      2: { intros e Ie. assert (In e (in_edges g (r_id r))) as Ie' by (apply (Permutation_in _ (sort_by_perm ti _)), Ie). apply in_edges_in in Ie'. rewrite (He (src e)); [reflexivity|]. apply Hd; [apply Ie'|rewrite <- Er; apply Ie']. }
      cbn [bind]. rewrite Mo. cbn [bind]. rewrite <- (map_map src (fun m => [tv m])).
      rewrite Er. unfold g at 1. rewrite (received prog nd _ _ _ W J (PL nd J) (or_introl O)).
      replace (concat (map (fun m => [tv m]) (filter (fun n => mem n (graph_ids prog)) (occ nd)))) with (map tv (filter (fun n => mem n (graph_ids prog)) (occ nd))).
      2: { generalize (filter (fun n => mem n (graph_ids prog)) (occ nd)). clear. induction l as [|x l IH]; [reflexivity|]. cbn [map concat app]. rewrite IH. reflexivity. }
      rewrite (call_runs op cst quant cat prog nd r val tv (rv (f_id nd)) KF W J (PL nd J) (or_introl O) Mr).
      + cbn [bind fst snd]. rewrite Tn. reflexivity.
      + intros m Im. exact (OV nd m J Im).
      + exact CV.
      + rewrite <- (tr_call _ _ _ _ _ _ _ TR nd J (or_introl O)). apply RV, I.
    - assert (r_kind r = KModule) as K1 by (unfold matches in Mr; rewrite O in Mr; apply Mr). rewrite K1.
      rewrite (mapM_ok _ (fun e => [tv (src e)])).
      2: { intros e Ie. assert (In e (in_edges g (r_id r))) as Ie' by (apply (Permutation_in _ (sort_by_perm ti _)), Ie). apply in_edges_in in Ie'. rewrite (He (src e)); [reflexivity|]. apply Hd; [apply Ie'|rewrite <- Er; apply Ie']. }
      cbn [bind]. rewrite Mo. cbn [bind]. rewrite <- (map_map src (fun m => [tv m])).
      rewrite Er. unfold g at 1. rewrite (received prog nd _ _ _ W J (PL nd J) (or_intror O)).
      replace (concat (map (fun m => [tv m]) (filter (fun n => mem n (graph_ids prog)) (occ nd)))) with (map tv (filter (fun n => mem n (graph_ids prog)) (occ nd))).
      2: { generalize (filter (fun n => mem n (graph_ids prog)) (occ nd)). clear. induction l as [|x l IH]; [reflexivity|]. cbn [map concat app]. rewrite IH. reflexivity. }
      rewrite (call_runs op cst quant cat prog nd r val tv (rv (f_id nd)) KF W J (PL nd J) (or_intror O) Mr).
      + cbn [bind fst snd]. rewrite Tn. reflexivity.
      + intros m Im. exact (OV nd m J Im).
      + exact CV.
      + rewrite <- (tr_call _ _ _ _ _ _ _ TR nd J (or_intror O)). apply RV, I. }
  (* all steps *)
  assert (forall rest done env, order = done ++ rest -> (forall m, In m done -> dict_get (fst env) m = Some [tv m] /\ dict_get (snd env) m = Some [rv m]) ->
    exists env', foldM (step op cst quant cat g rs ops inputs) rest env = Ok env' /\ forall m, In m order -> dict_get (fst env') m = Some [tv m] /\ dict_get (snd env') m = Some [rv m]) as RUN.
  { induction rest as [|n rest IH]; intros done env E H; [exists env; rewrite app_nil_r in E; subst done; split; [reflexivity|exact H]|].
    cbn [foldM]. rewrite (STEP done n env).
    - cbn [bind]. apply (IH (done ++ [n])); [rewrite <- app_assoc; exact E|]. intros m I. unfold dict_get. cbn [fst snd find].
      destruct (Nat.eqb_spec n m) as [->|Q]; [split; reflexivity|]. apply in_app_or in I. destruct I as [I|[I|[]]]; [exact (H m I)|congruence].
    - apply (Permutation_in _ TP1). rewrite E. apply in_or_app. right. left. reflexivity.
    - intros e I Q. exact (TP2 done n rest e E I Q).
    - intros m I. apply H, I. }
  destruct (RUN order [] ([], []) eq_refl) as (env & R1 & R2); [intros ? []|].
  unfold forward. rewrite L2. cbn [bind]. rewrite M1. cbn [bind]. rewrite R1. cbn [bind g_out g].
  assert (output_nodes prog = returned prog) as Eo.
  { unfold output_nodes, returned in *. clear - NR. revert NR. induction (filter (is_op FOutput) prog) as [|nd l IH]; intro NR; [reflexivity|]. cbn [flat_map] in *.
    assert (forall (a b : list nat), NoDup (a ++ b) -> NoDup a /\ NoDup b) as ND by (clear; intros a b; induction a as [|x a IH]; cbn; intro N; [split; [constructor|exact N]|]; inversion N; subst; destruct (IH H2); split; [constructor; [intro Q; apply H1, in_or_app; left; exact Q|assumption]|assumption]).
    destruct (ND _ _ NR) as [N1 N2]. rewrite (IH N2), ains_eq, nodes_in_app in *. rewrite firsts_id by exact N1. reflexivity. }
  rewrite map_map. cbn [fst]. rewrite map_id, Eo. unfold generate_outputs.
  assert (forall n, In n (returned prog) -> In n order) as RO.
  { intros n I. apply (Permutation_in _ (Permutation_sym TP1)). rewrite Eo in Out. apply negb_false_iff in Out. rewrite forallb_forall in Out. apply mem_spec, Out, I. }
  rewrite (mapM_ok _ (fun n => [OTensor (if float_out then rv n else tv n)])).
  2: { intros n I. destruct (R2 n (RO n I)) as [Q1 Q2]. destruct float_out; [rewrite Q2|rewrite Q1]; reflexivity. }
  cbn [bind]. eexists. split; [reflexivity|].
  assert (forall n, In n (returned prog) -> In n (graph_ids prog)) as RG by (intros n I; apply (Permutation_in _ TP1), RO, I).
  clear - RG RV GV. induction (returned prog) as [|n l IH]; [constructor|]. cbn [map concat app]. constructor.
  - eexists. split; [reflexivity|]. destruct float_out; [apply RV|apply GV]; apply RG; left; reflexivity.
  - apply IH. intros m I. apply RG. right. exact I.
Qed.

(* The rebuilt model.  Let prog be a traced model in which every call is plain (FxSpec.v), let g and rs be the graph
   and the nodes the toolkit reads from it, and let the rebuilt model run the nodes in any order compatible with the
   edges.  Then, whenever every operation returns one value, the rebuilt model returns the values of the nodes in the
   return statement, in that order -- the quantized values or, on request, the values before quantization. *)
Theorem rebuilt_model_computes_traced lw prog g rs order inputs raw val (float_out : bool) :
  keyword_order_free op -> wf_prog prog -> (forall nd, In nd prog -> plain (const_ids prog) nd) ->
  build_graph lw prog = Ok (g, rs) -> topological g order ->
  traced op cst quant prog inputs raw val -> (forall n, In n (graph_ids prog) -> exists v, raw n = One v) ->
  NoDup (returned prog) ->
  exists outs, forward op cst quant cat g rs order float_out inputs = Ok outs /\
    Forall2 (fun n o => exists v, o = OTensor v /\ (if float_out then raw n else val n) = One v) (returned prog) outs.
Proof.
  intros KF W PL B TP TR SV NR. unfold build_graph in B. destruct (negb (forallb _ (const_ids prog))); [discriminate|]. destruct (negb (forallb _ (output_nodes prog))) eqn:Out; [discriminate|]. injection B as <- <-.
  destruct (read_inv lw prog (wp_ids _ W)) as (seen & INV). exact (rebuilt_runs lw prog _ seen order inputs raw val float_out KF W PL INV Out TP TR SV NR).
Qed.
End Main.
Print Assumptions rebuilt_model_computes_traced.
