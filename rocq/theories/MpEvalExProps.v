(* MpEvalExProps.v -- C83 on an example, and models of the search that cannot be built or do not do what is asked. *)
From Coq Require Import Sorted Lia String.
From Verif Require Import Base SDict SensModel SensSpec SensProps MpEvalModel MpEvalSpec MpEvalProofs MpEvalBuildProofs MpEvalProps.
Open Scope res_scope.
Local Open Scope list_scope.
Local Open Scope Z_scope.
Local Open Scope string_scope.

Definition ac b := AC b AQuant 0.
Definition wa b := WA b true 0.
Definition kcand wb ab := Cand [("k", wa wb)] (ac ab).
Definition four := [kcand 8 8; kcand 8 4; kcand 4 8; kcand 4 4].
(* a convolution called twice, and a function *)
Definition conv := MN 0 "conv" false "conv" false ["k"] (Some "k") None four.
Definition conv2 := MN 1 "conv_reuse_1" true "conv" false ["k"] (Some "k") None four.
Definition relu := MN 2 "relu" false "relu" true [] None (Some 1%nat) [Cand [] (ac 8); Cand [] (ac 2)].
Definition ex_g := [conv; conv2; relu].

Ltac each := cbn in *; intuition (subst; try discriminate; try reflexivity; cbn in *; try congruence).
Ltac node := constructor; [discriminate|each|each; subst; eexists; reflexivity|each|each|each].
Lemma four_ok i nm r o : node_ok (MN i nm r o false ["k"] (Some "k") None four) /\ choice_ok (MN i nm r o false ["k"] (Some "k") None four).
Proof.
  split; [node|]. constructor.
  - cbn. unfold four. repeat constructor; cbn; eexists _, _; (split; [reflexivity|]); (split; [reflexivity|]); cbn; lia.
  - exists (kcand 8 8). split; [left; reflexivity|]. cbn. intros c [<-|[<-|[<-|[<-|[]]]]]; repeat constructor; cbn; lia.
Qed.
Lemma relu_ok : node_ok relu /\ choice_ok relu.
Proof.
  split; [node|]. constructor; [cbn; repeat constructor; cbn; lia|]. exists (Cand [] (ac 8)). split; [left; reflexivity|]. cbn. intros c [<-|[<-|[]]]; repeat constructor; cbn; lia.
Qed.
Lemma ex_ok : graph_ok false ex_g.
Proof.
  constructor.
  - cbn. repeat constructor; each.
  - cbn. repeat constructor; each.
  - each.
  - intros n I R. exists conv. each.
  - intros n [<-|[<-|[<-|[]]]]; [apply four_ok|apply four_ok|apply relu_ok].
  - intros n [<-|[<-|[<-|[]]]] _; [apply four_ok|apply four_ok|apply relu_ok].
  - intros n [<-|[<-|[<-|[]]]] _ _; cbn; auto.
Qed.
Lemma ex_names n : In n ex_g -> ~ contains holder_suffix (m_name n).
Proof.
  intros I (a & b & E). assert (String.length (m_name n) < 20)%nat as L by (destruct I as [<-|[<-|[<-|[]]]]; cbn; lia). rewrite E, !length_app in L. cbn in L. lia.
Qed.
Example ex_torch : exists mp, torch_model false ex_g = Ok mp /\ serves_requests false ex_g mp.
Proof. destruct (torch_search_serves false ex_g ex_ok ex_names) as (mp & E & _ & S). exists mp. auto. Qed.
(* the second candidate for the first call, the last one for the second call, the third one for the kernel *)
Definition ex_a : cfg := [("conv", Some 1); ("conv_reuse_1", Some 3); ("relu", None)].
Definition ex_w : cfg := [("conv", Some 2)].
Lemma a_choice_four n : m_cands n = four -> a_choice n.
Proof. intro E. split; rewrite E; [cbn; intros c [<-|[<-|[<-|[<-|[]]]]]; reflexivity|]. exists (kcand 8 8), (kcand 8 4). split; [left; reflexivity|]. split; [right; left; reflexivity|discriminate]. Qed.
Example ex_request : request false ex_g ex_a ex_w.
Proof.
  split; [cbn; repeat constructor; each|]. split; [cbn; repeat constructor; each|]. split; [|split].
  - intros s v E. apply sget_in in E. split; [reflexivity|]. cbn in E. destruct E as [E|[E|[E|[]]]]; injection E as <- <-.
    + exists conv. split; [left; reflexivity|]. split; [reflexivity|]. split; [apply a_choice_four; reflexivity|]. intros i E. injection E as <-. cbn. lia.
    + exists conv2. split; [right; left; reflexivity|]. split; [reflexivity|]. split; [apply a_choice_four; reflexivity|]. intros i E. injection E as <-. cbn. lia.
    + exists relu. split; [right; right; left; reflexivity|]. split; [reflexivity|]. split; [|discriminate]. split; [cbn; intros c [<-|[<-|[]]]; reflexivity|]. exists (Cand [] (ac 8)), (Cand [] (ac 2)). cbn. split; [auto|]. split; [auto|discriminate].
  - intros s v E. apply sget_in in E. destruct E as [E|[]]. injection E as <- <-. exists conv, "k". split; [left; reflexivity|]. split; [reflexivity|]. split; [reflexivity|]. split; [reflexivity|]. split.
    + split; [cbn; intros c [<-|[<-|[<-|[<-|[]]]]]; eexists; split; reflexivity|]. exists (kcand 8 8), (kcand 4 4). cbn. split; [auto|]. split; [auto|discriminate].
    + intros i E. injection E as <-. cbn. lia.
  - exists "conv", 1. left. reflexivity.
Qed.
Example ex_asked : map (asked ex_a) ex_g = [Some (kcand 8 4); Some (kcand 4 4); None] /\ asked ex_w conv = Some (kcand 4 8).
Proof. split; reflexivity. Qed.

(* with activations not searched, Keras builds the same graph *)
Example ex_keras : exists mp, keras_search_model (fun s => "quant_" ++ s) (fun s => s) (fun _ => true) true ex_g = Ok mp /\ serves_requests true ex_g mp.
Proof.
  destruct (keras_search_serves (fun s => "quant_" ++ s) (fun s => s) (fun _ => true) true ex_g) as (mp & E & _ & S); [| | | | |exists mp; auto].
  - constructor; [| | | | | |discriminate]; try apply ex_ok. intros n [<-|[<-|[<-|[]]]] _; [apply four_ok|apply four_ok|apply relu_ok].
  - reflexivity.
  - intros n f [<-|[<-|[<-|[]]]] [<-|[<-|[<-|[]]]]; discriminate.
  - reflexivity.
  - reflexivity.
Qed.

(* FINDING (core/keras/back2framework/mixed_precision_model_builder.py L193-196): the activation holders of a node are
   found by the name of the layer before them. All calls of a layer have the same layer before their holders, and
   a further call has a name that no layer has: the search cannot set the activation bit-width of a further call of
   a layer, and asking for it raises a ValueError. *)
Theorem keras_further_call_refuted :
  ~ (forall (wname fname : string -> string) (used : string -> bool) (g : list mnode),
       graph_ok false g ->
       (forall n f, In n g -> In f g -> wname (m_name n) <> m_name f) ->
       (forall n, In n g -> m_func n = true -> offers false n -> fname (m_name n) = m_name n) ->
       (forall n, In n g -> offers false n -> used (m_name n) = true) ->
       exists mp, keras_search_model wname fname used false g = Ok mp /\ serves_requests false g mp).
Proof.
  intro H. destruct (H (fun s => "quant_" ++ s) (fun s => s) (fun _ => true) ex_g ex_ok) as (mp & E & s0 & E0 & _ & S).
  - intros n f [<-|[<-|[<-|[]]]] [<-|[<-|[<-|[]]]]; discriminate.
  - reflexivity.
  - reflexivity.
  - cbv in E. injection E as <-. cbv in E0. injection E0 as <-. destruct (S Z dedup (fun _ => Ok 0) [("conv_reuse_1", Some 3)] [] dedup_order) as (s1 & s2 & Q & _).
    + split; [repeat constructor; each|]. split; [constructor|]. split; [|split; [discriminate|]].
      * intros s v E. apply sget_in in E. destruct E as [E|[]]. injection E as <- <-. split; [reflexivity|]. exists conv2. split; [right; left; reflexivity|]. split; [reflexivity|]. split; [apply a_choice_four; reflexivity|]. intros i E. injection E as <-. cbn. lia.
      * exists "conv_reuse_1", 3. left. reflexivity.
    + cbv in Q. discriminate.
Qed.
Print Assumptions keras_further_call_refuted.

(* one node alone in a graph, its layer called once *)
Definition alone (n : mnode) : Prop := m_reuse n = false /\ m_owner n = m_name n /\ ~ contains holder_suffix (m_name n).
Lemma alone_a (n : mnode) : m_reuse n = false -> m_owner n = m_name n -> m_name n = "a" -> alone n.
Proof. intros R O E. split; [exact R|]. split; [exact O|]. rewrite E. intros (x & y & Q). apply (f_equal String.length) in Q. rewrite !length_app in Q. cbn in Q. lia. Qed.

(* FINDING (core/common/mixed_precision/configurable_quantizer_utils.py L48-57): a node whose candidates have the same
   bit-widths but are otherwise different counts as configurable, and then fails the check that bit-widths decrease. *)
Definition same_bits := MN 0 "a" false "a" false ["k"] (Some "k") None [Cand [("k", WA 8 true 0)] (ac 8); Cand [("k", WA 8 true 1)] (ac 8)].
Theorem same_bits_candidates_refuted :
  ~ (forall n, alone n -> node_ok n -> m_outs n = None -> exists mp, torch_model true [n] = Ok mp).
Proof.
  intro H. destruct (H same_bits) as (mp & E); [apply alone_a; reflexivity|node|reflexivity|]. cbv in E. discriminate.
Qed.
Print Assumptions same_bits_candidates_refuted.

(* FINDING (core/common/graph/base_node.py L565-578): if no candidate has the most bits for the weights and for the
   activation, the model of the search cannot be built, even when only the weights are searched. *)
Definition crossed := MN 0 "a" false "a" false ["k"] (Some "k") None [kcand 8 4; kcand 4 8].
Theorem crossed_bits_refuted :
  ~ (forall n, alone n -> node_ok n -> m_outs n = None -> StronglySorted (more_bits (m_kernel n)) (m_cands n) -> exists mp, torch_model true [n] = Ok mp).
Proof.
  intro H. destruct (H crossed) as (mp & E); [apply alone_a; reflexivity|node|reflexivity| |cbv in E; discriminate].
  cbn. repeat constructor. cbn. eexists _, _. split; [reflexivity|]. split; [reflexivity|]. cbn. lia.
Qed.
Print Assumptions crossed_bits_refuted.

(* FINDING (core/common/mixed_precision/sensitivity_eval/sensitivity_evaluation.py L101-105): quantization of the weights
   of a node is kept if any of them offers a choice, but only the kernel can be configured: with a choice for another
   weight and a kernel that is quantized in one way the model of the search cannot be built. *)
Definition bias_choice := MN 0 "a" false "a" false ["k"; "b"] (Some "k") None [Cand [("k", wa 8); ("b", wa 8)] (ac 8); Cand [("k", wa 8); ("b", wa 4)] (ac 8)].
Theorem other_weight_choice_refuted :
  ~ (forall n, alone n -> m_cands n <> [] -> m_outs n = None ->
       (forall c k, In c (m_cands n) -> In k (m_weights n) -> exists x, sget k (c_ws c) = Some x /\ w_on x = true) ->
       (forall c, In c (m_cands n) -> c_act c = ac 8) ->
       exists mp, torch_model false [n] = Ok mp).
Proof.
  intro H. destruct (H bias_choice) as (mp & E); [apply alone_a; reflexivity|discriminate|reflexivity| |each|cbv in E; discriminate].
  intros c k [<-|[<-|[]]] [<-|[<-|[]]]; eexists; split; reflexivity.
Qed.
Print Assumptions other_weight_choice_refuted.

(* FINDING (core/pytorch/back2framework/mixed_precision_model_builder.py L126-170, same in Keras): a node with several
   outputs and a choice for its activation cannot be in the model of the search. *)
Definition two_outs := MN 0 "a" false "a" true [] None (Some 2%nat) [Cand [] (ac 8); Cand [] (ac 4)].
Theorem several_outputs_refuted :
  ~ (forall n, alone n -> node_ok n -> choice_ok n -> exists mp, torch_model false [n] = Ok mp).
Proof.
  intro H. destruct (H two_outs) as (mp & E); [apply alone_a; reflexivity|node| |cbv in E; discriminate].
  constructor; [cbn; repeat constructor; cbn; lia|]. exists (Cand [] (ac 8)). split; [left; reflexivity|]. cbn. intros c [<-|[<-|[]]]; repeat constructor; cbn; lia.
Qed.
Print Assumptions several_outputs_refuted.

(* FINDING (core/keras/back2framework/mixed_precision_model_builder.py L161-163): only layers on the way to an output are
   layers of the Keras model; a configurable node elsewhere has no quantizer, and asking for it raises a ValueError. *)
Theorem keras_unused_refuted :
  ~ (forall (used : string -> bool) (g : list mnode), graph_ok true g ->
       exists mp, keras_search_model (fun s => "quant_" ++ s) (fun s => s) used true g = Ok mp /\ serves_requests true g mp).
Proof.
  intro H. destruct (H (fun _ => false) ex_g) as (mp & E & s0 & E0 & _ & S).
  - constructor; [| | | | | |discriminate]; try apply ex_ok. intros n [<-|[<-|[<-|[]]]] _; [apply four_ok|apply four_ok|apply relu_ok].
  - cbv in E. injection E as <-. cbv in E0. injection E0 as <-. destruct (S Z dedup (fun _ => Ok 0) [] ex_w dedup_order) as (s1 & s2 & Q & _); [|cbv in Q; discriminate].
    split; [constructor|]. split; [repeat constructor; each|]. split; [discriminate|]. split; [apply ex_request|]. exists "conv", 2. right. reflexivity.
Qed.
Print Assumptions keras_unused_refuted.
