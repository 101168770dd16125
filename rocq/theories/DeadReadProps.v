(* DeadReadProps.v -- C69: reading a PyTorch model with unused nodes, and running the rebuilt model. *)
From Coq Require Import Permutation Lia.
From Verif Require Import Base GraphModel GraphSpec GraphProofs GraphProps FxModel FxSpec FxProofs FxProps FxRunProps DeadModel DeadSpec DeadProofs DeadProps.
Open Scope res_scope.
Local Open Scope nat_scope.

Lemma flat_map_filtered {A B} (p : A -> bool) (f : A -> list B) l : flat_map f (filter p l) = flat_map (fun x => if p x then f x else []) l.
Proof. induction l as [|x l IH]; [reflexivity|]. cbn [filter flat_map]. destruct (p x); cbn [flat_map]; rewrite IH; reflexivity. Qed.
Lemma Forall2_filter {A B} (P : A -> B -> Prop) (p : A -> bool) (q : B -> bool) l l' : Forall2 P l l' -> (forall x y, In x l -> P x y -> p x = q y) -> Forall2 P (filter p l) (filter q l').
Proof.
  induction 1 as [|x y l l' H F IH]; intro E; [constructor|]. cbn [filter]. rewrite (E x y (or_introl eq_refl) H).
  assert (Forall2 P (filter p l) (filter q l')) as K by (apply IH; intros a b I; apply E; right; exact I). destruct (q y); [constructor; assumption|exact K].
Qed.
Lemma Forall2_right {A B} (P : A -> B -> Prop) l l' y : Forall2 P l l' -> In y l' -> exists x, In x l /\ P x y.
Proof. induction 1 as [|a b l l' H _ IH]; intro I; [destruct I|]. destruct I as [->|I]; [exists a; split; [left; reflexivity|exact H]|]. destruct (IH I) as (x & J & Q). exists x. split; [right; exact J|exact Q]. Qed.
Lemma Forall2_change {A B} (P Q : A -> B -> Prop) l l' : Forall2 P l l' -> (forall x y, In x l -> P x y -> Q x y) -> Forall2 Q l l'.
Proof. induction 1 as [|a b l l' H _ IH]; intro E; constructor; [apply E; [left; reflexivity|exact H]|]. apply IH. intros x y I. apply E. right. exact I. Qed.

(* what decides whether two calls share one operation: the target and the weights *)
Definition call_key (lw : nat -> list nat) (consts : list nat) (nd : fxnode) : nat * list nat :=
  reuse_key lw nd (match f_op nd with FPlaceholder => [] | _ => const_weights consts nd end).
(* calls that share an operation with weights are kept together *)
Definition shared_kept (lw : nat -> list nat) (prog : list fxnode) (g : graph) : Prop :=
  forall a b, In a prog -> In b prog -> is_graph_node a = true -> is_graph_node b = true ->
    call_key lw (const_ids prog) a = call_key lw (const_ids prog) b -> snd (call_key lw (const_ids prog) a) <> [] ->
    In (f_id a) (g_nodes g) -> In (f_id b) (g_nodes g).

Lemma reuse_weights lw consts : forall prog rs seen, (forall r, In r rs -> r_reuse r = true -> exists k, r_group r = Some k /\ snd k <> []) ->
  forall r, In r (fst (fold_left (read_node lw consts) prog (rs, seen))) -> r_reuse r = true -> exists k, r_group r = Some k /\ snd k <> [].
Proof.
  induction prog as [|nd prog IH]; intros rs seen H; [exact H|]. cbn [fold_left].
  destruct (read_node lw consts (rs, seen) nd) as [rs' seen'] eqn:E. apply IH. clear IH. intros r I R.
  unfold read_node in E.
  set (key := reuse_key lw nd (match f_op nd with FPlaceholder => [] | _ => const_weights consts nd end)) in *.
  assert (forall fr, r_reuse fr = false -> rs' = rs ++ [fr] -> exists k, r_group r = Some k /\ snd k <> []) as K1.
  { intros fr F ->. apply in_app_or in I. destruct I as [I|[<-|[]]]; [exact (H r I R)|congruence]. }
  assert (forall fr, snd key <> [] -> (r_reuse fr = true -> r_group fr = Some key) -> (forall base, rs' = map (set_group key base) rs ++ [fr] -> exists k, r_group r = Some k /\ snd k <> [])) as K2.
  { intros fr Nk F base ->. apply in_app_or in I. destruct I as [I|[<-|[]]]; [|exists key; auto]. apply in_map_iff in I. destruct I as (x & <- & I). unfold set_group in *.
    destruct (Nat.eqb (r_id x) base); [exists key; split; [reflexivity|exact Nk]|exact (H x I R)]. }
  destruct (f_op nd) eqn:O.
  2, 5: injection E as <- <-; exact (H r I R).
  all: unfold key in *; destruct (find _ seen) as [[k0 base]|]; [|injection E as <- <-; eapply K1; [|reflexivity]; reflexivity].
  all: destruct (snd (reuse_key _ _ _)) as [|w ws] eqn:Sk; cbn [negb] in E; injection E as <- <-; [eapply K1; [|reflexivity]; reflexivity|].
  all: eapply K2; [discriminate| |reflexivity]; intros _; reflexivity.
Qed.

Section Read.
Variables (lw : nat -> list nat) (prog : list fxnode) (keep : nat -> bool).
Hypothesis W : wf_prog prog.
Hypothesis O : in_order prog.
Hypothesis K : forall n, In n (graph_ids prog) -> (keep n = true <-> used (graph_of prog) n).
Hypothesis KI : forall nd, In nd prog -> f_op nd = FPlaceholder -> keep (f_id nd) = true.
Hypothesis PL : forall nd, In nd prog -> (is_graph_node nd = true -> keep (f_id nd) = true) -> plain (const_ids prog) nd.
Hypothesis OUT : negb (forallb (fun n => mem n (graph_ids prog)) (output_nodes prog)) = false.

Definition live (nd : fxnode) : bool :=
  match f_op nd with
  | FOutput => true
  | FGetAttr => existsb (fun c => is_graph_node c && keep (f_id c) && mem (f_id nd) (all_input_nodes c)) prog
  | _ => keep (f_id nd)
  end.
Notation prog' := (filter live prog).

Lemma live_graph nd : is_graph_node nd = true -> live nd = keep (f_id nd).
Proof. unfold is_graph_node, live, is_op. destruct (f_op nd); try discriminate; reflexivity. Qed.
Lemma graph_cases nd : is_graph_node nd = true \/ f_op nd = FGetAttr \/ f_op nd = FOutput.
Proof. unfold is_graph_node, is_op. destruct (f_op nd); auto. Qed.
Lemma graph_not_output nd : is_graph_node nd = true -> is_op FOutput nd = false /\ f_op nd <> FOutput /\ f_op nd <> FGetAttr.
Proof. unfold is_graph_node, is_op. destruct (f_op nd); cbn; intro; try discriminate; repeat split; discriminate. Qed.
Lemma getattr_inputs nd : In nd prog -> f_op nd = FGetAttr -> all_input_nodes nd = [].
Proof.
  intros I E. assert (plain (const_ids prog) nd) as P by (apply PL; [exact I|]; unfold is_graph_node, is_op; rewrite E; discriminate).
  rewrite ains_eq. destruct P; try congruence. rewrite H0, H1. reflexivity.
Qed.
Lemma ids' : graph_ids prog' = filter keep (graph_ids prog).
Proof.
  unfold graph_ids. rewrite filter_filter, filter_map, filter_filter. f_equal. apply filter_ext_eq. intros nd _.
  destruct (is_graph_node nd) eqn:G; [rewrite live_graph by exact G; rewrite andb_true_r; reflexivity|rewrite andb_false_r; reflexivity].
Qed.
Lemma edge_of nd n : In nd prog -> is_graph_node nd = true -> In n (all_input_nodes nd) -> In n (graph_ids prog) -> linked (graph_of prog) n (f_id nd).
Proof.
  intros I G J N. set (c := (n, (f_id nd, index_of n (all_input_nodes nd) + 0))). exists (mk_edge c). split; [|split; reflexivity].
  cbn [g_edges graph_of]. apply (Permutation_in _ (Permutation_sym (edges_builder_perm prog (wp_ids _ W)))). apply in_map. unfold connectivity. apply in_flat_map. exists nd. split; [exact I|].
  destruct (graph_not_output nd G) as [-> _]. apply in_flat_map. exists n. split; [exact J|]. rewrite (proj2 (mem_spec _ _) N). apply in_map_iff. exists 0. split; [reflexivity|]. apply in_seq. lia.
Qed.
Lemma input_kept nd n : In nd prog -> is_graph_node nd = true -> keep (f_id nd) = true -> In n (all_input_nodes nd) -> In n (graph_ids prog) -> keep n = true.
Proof.
  intros I G Kn J N. destruct (edge_of nd n I G J N) as (e & Ie & <- & Te). apply K; [exact N|]. apply used_by; [exact Ie|]. rewrite Te. apply K; [|exact Kn].
  apply graph_ids_in. exists nd. auto.
Qed.
Lemma mem_ids' nd n : In nd prog -> is_graph_node nd = true -> keep (f_id nd) = true -> In n (all_input_nodes nd) -> mem n (graph_ids prog') = mem n (graph_ids prog).
Proof.
  intros I G Kn J. rewrite ids'. destruct (mem n (graph_ids prog)) eqn:M.
  - apply mem_spec. apply mem_spec in M. apply filter_In. split; [exact M|]. exact (input_kept nd n I G Kn J M).
  - apply mem_false. apply mem_false in M. intro C. apply filter_In in C. tauto.
Qed.
Lemma mem_consts' nd n : In nd prog -> is_graph_node nd = true -> keep (f_id nd) = true -> In n (all_input_nodes nd) -> mem n (const_ids prog') = mem n (const_ids prog).
Proof.
  intros I G Kn J. destruct (mem n (const_ids prog)) eqn:M.
  - apply mem_spec. apply mem_spec, const_ids_in in M. destruct M as (c & Ic & Oc & Ec). apply const_ids_in. exists c. split; [|auto]. apply filter_In. split; [exact Ic|]. unfold live. rewrite Oc.
    apply existsb_exists. exists nd. split; [exact I|]. rewrite G, Kn, Ec. apply mem_spec. exact J.
  - apply mem_false. apply mem_false in M. intro C. apply M. apply const_ids_in in C. destruct C as (c & Ic & Oc & Ec). apply filter_In in Ic. apply const_ids_in. exists c. tauto.
Qed.
Lemma conn' nd : In nd prog -> live nd = true -> is_op FOutput nd = false -> conn prog' nd = conn prog nd.
Proof.
  intros I L Oo. unfold conn. destruct (graph_cases nd) as [G|[E|E]].
  - apply flat_map_ext_in. intros n J. rewrite (mem_ids' nd n I G); [reflexivity| |exact J]. rewrite <- live_graph; assumption.
  - rewrite (getattr_inputs nd I E). reflexivity.
  - unfold is_op in Oo. rewrite E in Oo. discriminate.
Qed.
Lemma connectivity' : connectivity prog' = filter (fun c => keep (fst (snd c))) (connectivity prog).
Proof.
  unfold connectivity. rewrite flat_map_filtered, filter_flat_map. apply flat_map_ext_in. intros nd I. destruct (is_op FOutput nd) eqn:Oo; [destruct (live nd); reflexivity|].
  cut ((if live nd then conn prog' nd else []) = filter (fun c => keep (fst (snd c))) (conn prog nd)); [intro Q; exact Q|].
  destruct (graph_cases nd) as [G|[E|E]].
  - destruct (live nd) eqn:L.
    + rewrite (conn' nd I L Oo). symmetry. apply filter_all. intros c J. rewrite (proj1 (conn_snk prog nd c J)). rewrite <- live_graph; assumption.
    + symmetry. apply filter_nil. intros c J. rewrite (proj1 (conn_snk prog nd c J)). rewrite <- live_graph; assumption.
  - unfold conn. rewrite (getattr_inputs nd I E). destruct (live nd); reflexivity.
  - unfold is_op in Oo. rewrite E in Oo. discriminate.
Qed.
Lemma edges' : edges_builder prog' = filter (fun e => keep (src e) && keep (snk e)) (edges_builder prog).
Proof.
  unfold edges_builder. rewrite flat_map_filtered, filter_flat_map. apply flat_map_ext_in. intros nd I. rewrite connectivity'. rewrite filter_map. cbn [src snk].
  assert (forall c, In c (connectivity prog) -> Nat.eqb (fst c) (f_id nd) = true -> is_graph_node nd = true) as GN.
  { intros c J E. apply Nat.eqb_eq in E. unfold connectivity in J. apply in_flat_map in J. destruct J as (x & Ix & J). destruct (is_op FOutput x); [destruct J|].
    destruct (conn_snk prog x c J) as [_ G]. apply graph_ids_in in G. destruct G as (y & Iy & Gy & Ey). rewrite (ids_unique prog nd y (wp_ids _ W) I Iy) by congruence. exact Gy. }
  destruct (live nd) eqn:L.
  - f_equal. rewrite !filter_filter. apply filter_ext_eq. intros c J. destruct (Nat.eqb (fst c) (f_id nd)) eqn:E; [|rewrite andb_false_r; reflexivity].
    rewrite <- live_graph, L by exact (GN c J E). rewrite andb_true_r. reflexivity.
  - rewrite filter_filter. rewrite filter_nil; [reflexivity|]. intros c J. destruct (Nat.eqb (fst c) (f_id nd)) eqn:E; [|reflexivity].
    rewrite <- live_graph, L by exact (GN c J E). reflexivity.
Qed.
Lemma placeholders' : filter (is_op FPlaceholder) prog' = filter (is_op FPlaceholder) prog.
Proof.
  rewrite filter_filter. apply filter_ext_eq. intros nd I. unfold live, is_op. destruct (f_op nd) eqn:E; rewrite ?andb_false_r; try reflexivity. rewrite (KI nd I E). reflexivity.
Qed.
Lemma outputs' : filter (is_op FOutput) prog' = filter (is_op FOutput) prog.
Proof. rewrite filter_filter. apply filter_ext_eq. intros nd I. unfold live, is_op. destruct (f_op nd); rewrite ?andb_false_r; reflexivity. Qed.
Lemma graph' : graph_of prog' = part keep (graph_of prog).
Proof. unfold graph_of, part. cbn [g_nodes g_edges g_in g_out]. unfold output_nodes. rewrite ids', edges', placeholders', outputs'. reflexivity. Qed.

Lemma out_used n : In n (output_nodes prog) -> In n (graph_ids prog) /\ keep n = true.
Proof.
  intro I. apply negb_false_iff in OUT. rewrite forallb_forall in OUT. specialize (OUT n I). apply mem_spec in OUT. split; [exact OUT|]. apply K; [exact OUT|].
  apply (used_output _ n (index_of n (output_nodes prog))). cbn [g_out graph_of]. apply in_map_iff. exists n. auto.
Qed.
Lemma wf' : wf_prog prog'.
Proof.
  constructor; [apply nodup_filter_ids, W|]. intros nd n I J. apply filter_In in I. destruct I as [I L]. destruct (graph_cases nd) as [G|[E|E]].
  - assert (keep (f_id nd) = true) as Kn by (rewrite <- live_graph; assumption).
    destruct (wp_args _ W nd n I J) as [N|N]; [left|right]; apply mem_spec.
    + rewrite (mem_ids' nd n I G Kn J). apply mem_spec, N.
    + rewrite (mem_consts' nd n I G Kn J). apply mem_spec, N.
  - rewrite (getattr_inputs nd I E) in J. destruct J.
  - left. rewrite ids'. apply filter_In. apply out_used. unfold output_nodes. apply in_flat_map. exists nd. split; [|exact J]. apply filter_In. split; [exact I|]. unfold is_op. rewrite E. reflexivity.
Qed.
Lemma occ_input nd n : In n (nodes_in (f_args nd) ++ nodes_in (map snd (f_kwargs nd))) -> In n (all_input_nodes nd).
Proof. intro I. rewrite ains_eq. apply firsts_in. exact I. Qed.
Lemma plain' nd : In nd prog -> live nd = true -> plain (const_ids prog') nd.
Proof.
  intros I L. assert (is_graph_node nd = true -> keep (f_id nd) = true) as Kn by (intro G; rewrite <- live_graph; assumption).
  assert (forall n, In n (const_ids prog') -> In n (const_ids prog)) as Sub.
  { intros n C. apply const_ids_in in C. destruct C as (c & Ic & Oc & Ec). apply filter_In in Ic. apply const_ids_in. exists c. tauto. }
  destruct (PL nd I Kn) as [A B C|A|z k A B C D E F G|z k l rest A B C D E|z k l A B C D E].
  - apply plain_source; assumption.
  - apply plain_output; assumption.
  - apply (plain_function _ _ z k); try assumption.
    + destruct E as [E|[E1 E2]]; [left; exact E|right; split; [exact E1|]]. intros n J Cn. exact (E2 n J (Sub n Cn)).
    + destruct G as [G|[G1 G2]]; [left; exact G|right; split; [exact G1|]]. intro Cn. exact (G2 (Sub _ Cn)).
  - assert (is_graph_node nd = true) as Gn by (unfold is_graph_node, is_op; rewrite A; reflexivity).
    apply (plain_list _ _ z k l rest); try assumption. replace (filter (fun n => negb (mem n (const_ids prog'))) l) with (filter (fun n => negb (mem n (const_ids prog))) l); [exact E|].
    apply filter_ext_eq. intros n J. rewrite (mem_consts' nd n I Gn (Kn Gn)); [reflexivity|]. apply occ_input. rewrite B. unfold nodes_in at 1. cbn [flat_map]. apply in_or_app. left. apply in_or_app. left.
    cbn [arg_nodes]. change (flat_map arg_nodes (map ANode l)) with (nodes_in (map ANode l)). rewrite nodes_in_nodes. exact J.
  - apply (plain_module _ _ z k l); try assumption. destruct E as [E|E]; [left; exact E|right]. intro Cn. exact (E (Sub _ Cn)).
Qed.
Lemma const_weights' nd : In nd prog -> is_graph_node nd = true -> keep (f_id nd) = true -> const_weights (const_ids prog') nd = const_weights (const_ids prog) nd.
Proof.
  intros I G Kn. unfold const_weights. destruct (first_list nd).
  - apply flat_map_ext_in. intros n J. rewrite (mem_consts' nd n I G Kn J). reflexivity.
  - apply filter_ext_eq. intros p J. apply (mem_consts' nd _ I G Kn). apply enumerate_in in J. exact J.
Qed.
Lemma inv' (g : graph) rs seen : g = part keep (graph_of prog) -> shared_kept lw prog g -> FxProofs.inv lw (const_ids prog) prog rs seen ->
  (forall r, In r rs -> r_reuse r = true -> exists k, r_group r = Some k /\ snd k <> []) ->
  FxProofs.inv lw (const_ids prog') prog' (filter (fun r => mem (r_id r) (g_nodes g)) rs) [].
Proof.
  intros Eg SK H RW.
  assert (forall r, In r rs -> exists nd, In nd prog /\ is_graph_node nd = true /\ matches (const_ids prog) nd r) as Src.
  { intros r I. destruct (Forall2_right _ _ _ r (i_match _ _ _ _ _ H) I) as (nd & J & M). apply filter_In in J. exists nd. tauto. }
  assert (forall nd, In nd prog -> is_graph_node nd = true -> mem (f_id nd) (g_nodes g) = keep (f_id nd)) as MK.
  { intros nd I G. rewrite Eg. cbn [g_nodes part graph_of]. destruct (keep (f_id nd)) eqn:Kn.
    - apply mem_spec, filter_In. split; [|exact Kn]. apply graph_ids_in. exists nd. auto.
    - apply mem_false. intro C. apply filter_In in C. destruct C. congruence. }
  constructor.
  - replace (filter is_graph_node prog') with (filter (fun nd => keep (f_id nd)) (filter is_graph_node prog)).
    2: { rewrite !filter_filter. apply filter_ext_eq. intros nd _. destruct (is_graph_node nd) eqn:G; [rewrite (live_graph nd G), andb_true_r; reflexivity|rewrite andb_false_r; reflexivity]. }
    apply (Forall2_change (matches (const_ids prog))).
    + apply Forall2_filter; [exact (i_match _ _ _ _ _ H)|]. intros nd r J M. apply filter_In in J. destruct J as [J G]. rewrite (proj1 M). symmetry. apply MK; assumption.
    + intros nd r J M. apply filter_In in J. destruct J as [J Kn]. apply filter_In in J. destruct J as [J G]. unfold matches in *. rewrite (const_weights' nd J G Kn). exact M.
  - intros k n [].
  - intros r k I. apply filter_In in I. exact (i_group _ _ _ _ _ H r k (proj1 I)).
  - intros r I R. apply filter_In in I. destruct I as [I Mr]. destruct (i_reuse _ _ _ _ _ H r I R) as [Gr (b & Ib & Rb & Gb)]. split; [exact Gr|]. exists b. split; [|auto]. apply filter_In. split; [exact Ib|].
    destruct (Src r I) as (nr & Ir & Gnr & Mnr). destruct (Src b Ib) as (nb & Inb & Gnb & Mnb). rewrite (proj1 Mnb). apply mem_spec.
    assert (call_key lw (const_ids prog) nr = rkey lw r) as Kr by (apply rkey_matches, Mnr). assert (call_key lw (const_ids prog) nb = rkey lw b) as Kb by (apply rkey_matches, Mnb).
    apply (SK nr nb Ir Inb Gnr Gnb).
    + rewrite Kr, Kb. exact (i_group _ _ _ _ _ H b _ Ib Gb).
    + rewrite Kr. destruct (RW r I R) as (k & Qk & Nk). rewrite Gr in Qk. injection Qk as <-. exact Nk.
    + rewrite <- (proj1 Mnr). apply mem_spec, Mr.
Qed.
End Read.

Lemma graph_of_wf prog : wf_prog prog -> in_order prog -> (forall nd, In nd prog -> f_op nd = FGetAttr -> all_input_nodes nd = []) -> wf (graph_of prog) /\ acyclic (graph_of prog).
Proof.
  intros W O GA.
  assert (forall e, In e (edges_builder prog) -> exists nd, In nd prog /\ is_graph_node nd = true /\ snk e = f_id nd /\ In (src e) (all_input_nodes nd) /\ In (src e) (graph_ids prog)) as E.
  { intros e I. apply (Permutation_in _ (edges_builder_perm prog (wp_ids _ W))) in I. apply in_map_iff in I. destruct I as (c & <- & I). unfold connectivity in I. apply in_flat_map in I. destruct I as (nd & J & I).
    destruct (is_op FOutput nd) eqn:Oo; [destruct I|]. destruct (conn_snk prog nd c I) as [Es G]. apply in_flat_map in I. destruct I as (m & Im & I). destruct (mem m (graph_ids prog)) eqn:Gm; [|destruct I].
    apply in_map_iff in I. destruct I as (i & <- & _). cbn in *. exists nd. repeat split; try assumption. unfold is_graph_node, is_op in *. destruct (f_op nd) eqn:F; try reflexivity; try discriminate.
    rewrite (GA nd J F) in Im. destruct Im. }
  split.
  - constructor; [apply nodup_filter_ids, W|]. cbn [g_edges g_nodes graph_of]. intros e I. destruct (E e I) as (nd & J & G & -> & _ & S). split; [exact S|]. apply graph_ids_in. exists nd. auto.
  - exists (fun n => index_of n (graph_ids prog)). cbn [g_edges graph_of]. intros e I. destruct (E e I) as (nd & J & G & -> & Ia & S). destruct (in_split _ _ J) as (a & b & Ep).
    assert (In (src e) (graph_ids a)) as Ga.
    { destruct (O a nd b (src e) Ep Ia) as [Q|Q]; [exact Q|exfalso]. apply (const_not_graph prog (src e) (wp_ids _ W) S). apply const_ids_in in Q. destruct Q as (c & Ic & Q). apply const_ids_in. exists c. split; [rewrite Ep; apply in_or_app; left; exact Ic|exact Q]. }
    assert (graph_ids prog = graph_ids a ++ f_id nd :: graph_ids b) as Eg by (rewrite Ep; unfold graph_ids; rewrite filter_app, map_app; cbn [filter]; rewrite G; reflexivity).
    assert (~ In (f_id nd) (graph_ids a)) as Na.
    { pose proof (nodup_filter_ids is_graph_node prog (wp_ids _ W)) as ND. change (NoDup (graph_ids prog)) in ND. rewrite Eg in ND. apply NoDup_remove_2 in ND. intro C. apply ND, in_or_app. left. exact C. }
    rewrite Eg, (index_of_app_r _ _ _ Na). clear - Ga. induction (graph_ids a) as [|x l IH]; [destruct Ga|]. cbn [app index_of length]. destruct (Nat.eqb_spec x (src e)); [lia|]. destruct Ga as [Ga|Ga]; [contradiction|]. specialize (IH Ga). lia.
Qed.

(* Reading a model removes what is not used; the model rebuilt from the rest returns what the traced model returns.
   The calls which are removed may have any form; the conditions on the calls that are kept are those of C68. *)
Theorem read_model_computes_traced : forall (V : Type) op (cst : nat -> V) quant cat lw prog g rs order inputs raw val (float_out : bool),
  keyword_order_free op -> wf_prog prog -> in_order prog -> model_reader no_check lw prog = Ok (g, rs) ->
  (forall nd, In nd prog -> (is_graph_node nd = true -> In (f_id nd) (g_nodes g)) -> plain (const_ids prog) nd) ->
  shared_kept lw prog g -> topological g order ->
  traced op cst quant prog inputs raw val -> (forall n, In n (g_nodes g) -> exists v, raw n = One v) ->
  NoDup (returned prog) ->
  exists outs, forward op cst quant cat g rs order float_out inputs = Ok outs /\
    Forall2 (fun n o => exists v, o = OTensor v /\ (if float_out then raw n else val n) = One v) (returned prog) outs.
Proof.
  intros V op cst quant cat lw prog g rs order inputs raw val float_out KF W O MR PL SK TP TR SV NR.
  unfold model_reader in MR. destruct (build_graph lw prog) as [[g0 rs0]|] eqn:B; [|discriminate]. cbn [bind fst snd] in MR. destruct (existsb _ _); [discriminate|].
  destruct (remove_broken_nodes no_check g0) as [g1|] eqn:RB; [|discriminate]. cbn [bind] in MR. injection MR as -> <-.
  unfold build_graph in B. destruct (negb (forallb _ (const_ids prog))); [discriminate|]. destruct (negb (forallb _ (output_nodes prog))) eqn:Out; [discriminate|]. injection B as <- <-. change (Graph _ _ _ _) with (graph_of prog) in *.
  assert (forall nd, In nd prog -> f_op nd = FGetAttr -> all_input_nodes nd = []) as GA.
  { intros nd I E. assert (plain (const_ids prog) nd) as P by (apply PL; [exact I|]; unfold is_graph_node, is_op; rewrite E; discriminate). rewrite ains_eq. destruct P; try congruence. rewrite H0, H1. reflexivity. }
  destruct (graph_of_wf prog W O GA) as [Wg Ag]. destruct (unused_nodes_removed _ _ Wg Ag RB) as (keep & K & Eg).
  destruct (proj1 (proj1 (unused_removal_succeeds_iff _ Wg Ag)) (ex_intro _ g RB)) as [KI _].
  assert (forall n, In n (graph_ids prog) -> keep n = true <-> used (graph_of prog) n) as K' by exact K.
  assert (forall nd, In nd prog -> is_graph_node nd = true -> In (f_id nd) (graph_ids prog)) as GI by (intros nd I G; apply graph_ids_in; exists nd; auto).
  assert (forall nd, In nd prog -> f_op nd = FPlaceholder -> keep (f_id nd) = true) as KI'.
  { intros nd I E. assert (is_graph_node nd = true) as G by (unfold is_graph_node, is_op; rewrite E; reflexivity). apply K; [exact (GI nd I G)|]. apply KI; [exact (GI nd I G)|].
    cbn [g_in graph_of]. apply in_map, filter_In. split; [exact I|]. unfold is_op. rewrite E. reflexivity. }
  assert (forall nd, In nd prog -> (is_graph_node nd = true -> keep (f_id nd) = true) -> plain (const_ids prog) nd) as PL'.
  { intros nd I H. apply PL; [exact I|]. intro G. rewrite Eg. cbn. apply filter_In. split; [exact (GI nd I G)|exact (H G)]. }
  assert (graph_of (filter (live prog keep) prog) = g) as Eg' by (rewrite Eg; apply graph'; assumption).
  destruct (read_inv lw prog (wp_ids _ W)) as (seen & INV).
  assert (FxProofs.inv lw (const_ids (filter (live prog keep) prog)) (filter (live prog keep) prog) (filter (fun r => mem (r_id r) (g_nodes g)) (read_nodes lw prog)) []) as INV'.
  { apply (inv' lw prog keep) with (seen := seen); try assumption. apply reuse_weights. intros r []. }
  assert (returned (filter (live prog keep) prog) = returned prog) as Er by (unfold returned; rewrite outputs'; reflexivity).
  destruct (rebuilt_runs op cst quant cat lw (filter (live prog keep) prog) (filter (fun r => mem (r_id r) (g_nodes g)) (read_nodes lw prog)) [] order inputs raw val float_out KF) as (outs & F & R); try assumption.
  - apply wf'; assumption.
  - intros nd I. apply filter_In in I. destruct I as [I L]. apply plain'; assumption.
  - apply negb_false_iff, forallb_forall. intros n I. unfold output_nodes in I. rewrite outputs' in I. destruct (out_used prog keep K' Out n I) as [I1 I2]. apply mem_spec. rewrite ids'. apply filter_In. auto.
  - rewrite Eg'. exact TP.
  - destruct TR as [T1 T2 T3 T4]. constructor.
    + rewrite placeholders' by assumption. exact T1.
    + intros nd I. apply filter_In in I. exact (T2 nd (proj1 I)).
    + intros nd I. apply filter_In in I. exact (T3 nd (proj1 I)).
    + intros nd I. apply filter_In in I. exact (T4 nd (proj1 I)).
  - intros n I. apply SV. rewrite <- Eg'. exact I.
  - rewrite Er. exact NR.
  - rewrite Eg' in F. rewrite Er in R. exists outs. split; [exact F|exact R].
Qed.
Print Assumptions read_model_computes_traced.
