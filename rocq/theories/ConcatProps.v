(* ConcatProps.v -- C95: inputs of a concatenation get its threshold. *)
From Coq Require Import List Arith Lia QArith Bool String.
From Verif Require Import Base ConcatModel ConcatSpec ConcatProofs.
Import ListNotations.
Open Scope nat_scope.

(* In every graph in which nothing but the two operations is taken for a concatenation, the substitution succeeds; a node that is no
   concatenation and feeds one concatenation, once, and nothing else, gets the threshold of this concatenation in its first candidate; every
   other node, every other candidate and the edges are kept.  Nothing depends on the order in which the concatenations are visited. *)
Theorem concat_thresholds : forall a b g, graph_ok g -> unambiguous a b g ->
  exists g', concat_update a b g = Ok g' /\ g_edges g' = g_edges g /\
    Forall2 (fun n n' => (forall t, gets a b g n t -> with_threshold t n n') /\ ((forall t, ~ gets a b g n t) -> n' = n)) (g_nodes g) (g_nodes g').
Proof.
  intros a b g G U. eexists. split; [apply (result a b g G U)|]. split; [reflexivity|]. cbn [g_nodes].
  set (d := _ ++ []). assert (H : forall l, (forall n, In n l -> In n (g_nodes g)) -> Forall2 (fun n n' => (forall t, gets a b g n t -> with_threshold t n n') /\ ((forall t, ~ gets a b g n t) -> n' = n)) l (map (upd a b g d) l)).
  { induction l as [|n l IH]; intro I; [constructor|]. cbn [map]. constructor; [|apply IH; intros m Im; apply I; right; exact Im]. assert (In' : In n (g_nodes g)) by (apply I; left; reflexivity). split.
    - intros t T. unfold d. rewrite (upd_yes a b g G U n t In' T). split; [reflexivity|]. split; [reflexivity|]. destruct G as (_ & _ & C). pose proof (proj1 (Forall_forall _ _) C n In') as Cn. cbn beta in Cn.
      unfold set_thr. cbn [n_cands]. destruct (n_cands n) as [|c r]; [congruence|]. exists c, r, (mk_cand (c_method c) (Some t) (c_rest c)). repeat split.
    - intro T. exact (upd_no a b g G U n In' T). }
  apply H. intros n I. exact I.
Qed.
Print Assumptions concat_thresholds.

(* no node can be given two thresholds *)
Theorem one_threshold : forall a b g n t t', graph_ok g -> gets a b g n t -> gets a b g n t' -> t = t'.
Proof.
  intros a b g n t t' G (_ & m & I & _ & F & c & Ec & Et) (_ & m' & I' & _ & F' & c' & Ec' & Et'). unfold feeds_only in *. rewrite F in F'. injection F' as E.
  pose proof (id_inj g G m m' I I' E) as <-. congruence.
Qed.
Print Assumptions one_threshold.

Definition concat_op : ty := mk_ty true "concat" 1.
Definition cat_layer : ty := mk_ty false "Concatenate" 2.
Definition conv : ty := mk_ty false "Conv2D" 3.
Definition one (m : method) (t : Q) : list cand := [mk_cand m (Some t) 0].
(* two convolutions and a concatenation; the second convolution has a second consumer *)
Definition graph1 : graph := mk_graph [mk_node 0 conv (one Pot 1); mk_node 1 conv (one Pot 2); mk_node 2 concat_op (one Pot 4); mk_node 3 conv (one Pot 8)] [(0, 2); (1, 2); (1, 3)].
Example graph1_ok : graph_ok graph1 /\ unambiguous cat_layer concat_op graph1 /\ gets cat_layer concat_op graph1 (mk_node 0 conv (one Pot 1)) 4.
Proof.
  split; [|split].
  - split; [repeat constructor; cbn; lia|]. split; [|apply Forall_forall; intros n I; cbn in I; repeat (destruct I as [<-|I]; [discriminate|]); contradiction]. intros s d [E|[E|[E|[]]]]; injection E as <- <-; cbn; lia.
  - apply Forall_forall. intros n I M. cbn in I. repeat (destruct I as [<-|I]); try contradiction; try discriminate M; right; reflexivity.
  - split; [intros [E|E]; discriminate|]. exists (mk_node 2 concat_op (one Pot 4)). split; [cbn; tauto|]. split; [right; reflexivity|]. split; [reflexivity|]. exists (mk_cand Pot (Some 4%Q) 0). split; reflexivity.
Qed.
Example graph1_result : concat_update cat_layer concat_op graph1 =
  Ok (mk_graph [mk_node 0 conv (one Pot 4); mk_node 1 conv (one Pot 2); mk_node 2 concat_op (one Pot 4); mk_node 3 conv (one Pot 8)] [(0, 2); (1, 2); (1, 3)]).
Proof. reflexivity. Qed.

(* FINDING (core/keras/graph_substitutions/substitutions/concat_threshold_update.py L63-64, core/pytorch/.../concat_threshold_update.py L62-63):
   the quantization method of the previous node is not looked at; a power-of-two node whose concatenation is symmetric gets a threshold that
   is no power of two, which a power-of-two quantizer refuses. *)
Theorem pot_input_refuted : exists g g', graph_ok g /\ unambiguous cat_layer concat_op g /\ concat_update cat_layer concat_op g = Ok g' /\
  Forall (fun n => Forall (fun c => c_method c = Pot -> exists k, c_thr c = Some (inject_Z (2 ^ k))) (n_cands n)) (g_nodes g) /\
  exists n c, In n (g_nodes g') /\ In c (n_cands n) /\ c_method c = Pot /\ c_thr c = Some 3%Q.
Proof.
  exists (mk_graph [mk_node 0 conv (one Pot 1); mk_node 1 concat_op (one Sym 3)] [(0, 1)]), (mk_graph [mk_node 0 conv (one Pot 3); mk_node 1 concat_op (one Sym 3)] [(0, 1)]).
  split; [|split; [|split; [reflexivity|split]]].
  - split; [repeat constructor; cbn; lia|]. split; [|apply Forall_forall; intros n I; cbn in I; repeat (destruct I as [<-|I]; [discriminate|]); contradiction]. intros s d [E|[]]; injection E as <- <-; cbn; lia.
  - apply Forall_forall. intros n I M. cbn in I. repeat (destruct I as [<-|I]); try contradiction; try discriminate M; right; reflexivity.
  - apply Forall_forall. intros n I. apply Forall_forall. intros c Ic M. cbn in I. repeat (destruct I as [<-|I]); try contradiction; destruct Ic as [<-|[]]; [exists 0%Z; reflexivity|discriminate M].
  - exists (mk_node 0 conv (one Pot 3)), (mk_cand Pot (Some 3%Q) 0). cbn. tauto.
Qed.
Print Assumptions pot_input_refuted.

(* FINDING (concat_threshold_update.py, Keras L63-64, PyTorch L62-63): contrary to the description (no change for several candidates, no change
   for uniform quantization) a previous node with several candidates gets the threshold in its first candidate only, and a previous node with
   uniform quantization gets a threshold besides its range. *)
Theorem several_candidates_refuted : exists g g' n n' u u', graph_ok g /\ unambiguous cat_layer concat_op g /\ concat_update cat_layer concat_op g = Ok g' /\
  In n (g_nodes g) /\ In n' (g_nodes g') /\ n_id n' = n_id n /\ (exists c1 c2 c1', n_cands n = [c1; c2] /\ c_thr c1 = c_thr c2 /\ n_cands n' = [c1'; c2] /\ c_thr c1' <> c_thr c2) /\
  In u (g_nodes g) /\ In u' (g_nodes g') /\ n_id u' = n_id u /\ n_cands u = [mk_cand Uni None 0] /\ n_cands u' = [mk_cand Uni (Some 4%Q) 0].
Proof.
  set (c := mk_cand Pot (Some 1%Q) 0). set (c2 := mk_cand Pot (Some 1%Q) 1).
  exists (mk_graph [mk_node 0 conv [c; c2]; mk_node 1 conv [mk_cand Uni None 0]; mk_node 2 concat_op (one Pot 4)] [(0, 2); (1, 2)]),
    (mk_graph [mk_node 0 conv [mk_cand Pot (Some 4%Q) 0; c2]; mk_node 1 conv [mk_cand Uni (Some 4%Q) 0]; mk_node 2 concat_op (one Pot 4)] [(0, 2); (1, 2)]),
    (mk_node 0 conv [c; c2]), (mk_node 0 conv [mk_cand Pot (Some 4%Q) 0; c2]), (mk_node 1 conv [mk_cand Uni None 0]), (mk_node 1 conv [mk_cand Uni (Some 4%Q) 0]).
  split; [|split; [|split; [reflexivity|]]].
  - split; [repeat constructor; cbn; lia|]. split; [|apply Forall_forall; intros n I; cbn in I; repeat (destruct I as [<-|I]; [discriminate|]); contradiction]. intros s d [E|[E|[]]]; injection E as <- <-; cbn; lia.
  - apply Forall_forall. intros n I M. cbn in I. repeat (destruct I as [<-|I]); try contradiction; try discriminate M; right; reflexivity.
  - split; [cbn; tauto|]. split; [cbn; tauto|]. split; [reflexivity|]. split; [exists c, c2, (mk_cand Pot (Some 4%Q) 0); repeat split; discriminate|]. cbn. tauto.
Qed.
Print Assumptions several_candidates_refuted.

(* FINDING (concat_threshold_update.py L63, functional_node.py L105-106): a node is taken for a concatenation by the name of its function, but a
   previous node is left alone only if its type is the very object; with another function object of this name the threshold of a concatenation that
   feeds a concatenation is overwritten, and its inputs are left with a threshold that is not its own any more. *)
Theorem nested_concat_refuted : exists g g', graph_ok g /\ concat_update cat_layer concat_op g = Ok g' /\
  g_nodes g = [mk_node 0 conv (one Pot 1); mk_node 1 (mk_ty true "concat" 7) (one Pot 2); mk_node 2 (mk_ty true "concat" 7) (one Pot 4)] /\ g_edges g = [(0, 1); (1, 2)] /\
  g_nodes g' = [mk_node 0 conv (one Pot 2); mk_node 1 (mk_ty true "concat" 7) (one Pot 4); mk_node 2 (mk_ty true "concat" 7) (one Pot 4)].
Proof.
  exists (mk_graph [mk_node 0 conv (one Pot 1); mk_node 1 (mk_ty true "concat" 7) (one Pot 2); mk_node 2 (mk_ty true "concat" 7) (one Pot 4)] [(0, 1); (1, 2)]),
    (mk_graph [mk_node 0 conv (one Pot 2); mk_node 1 (mk_ty true "concat" 7) (one Pot 4); mk_node 2 (mk_ty true "concat" 7) (one Pot 4)] [(0, 1); (1, 2)]). split; [|split; [reflexivity|split; [reflexivity|split; reflexivity]]].
  split; [repeat constructor; cbn; lia|]. split; [|apply Forall_forall; intros n I; cbn in I; repeat (destruct I as [<-|I]; [discriminate|]); contradiction]. intros s d [E|[E|[]]]; injection E as <- <-; cbn; lia.
Qed.
Print Assumptions nested_concat_refuted.
