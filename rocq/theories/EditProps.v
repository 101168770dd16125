(* EditProps.v -- C50: network-edit rules. *)
From Coq Require Import String.
From Verif Require Import Base SDict EditModel EditSpec EditProofs EditTwice.
Local Open Scope list_scope.

Definition wf_graph (g : list node) : Prop := forall n, In n g -> wf_node n.

(* A filter selects exactly the nodes its logical meaning says. *)
Theorem filter_selects m n : truthy (match_node m n) = true <-> matches m n.
Proof. apply match_node_spec. Qed.
Print Assumptions filter_selects.

(* Editing a graph is running the rules, in order, on every node by itself: a rule acts on the nodes its filter matches
   when the rule is reached.  The edit goes through exactly when it does on every node. *)
Theorem edit_is_rules_in_order T rules g g' :
  edit_network_graph T rules g = Ok g' <-> Forall2 (runs T rules) g g'.
Proof. apply edit_nodes. Qed.
Print Assumptions edit_is_rules_in_order.

Theorem edit_of_two_lists T r1 r2 g g' :
  edit_network_graph T (r1 ++ r2) g = Ok g' <->
  exists g1, edit_network_graph T r1 g = Ok g1 /\ edit_network_graph T r2 g1 = Ok g'.
Proof.
  rewrite edit_nodes. transitivity (exists g1, Forall2 (runs T r1) g g1 /\ Forall2 (runs T r2) g1 g').
  - rewrite Forall2_comp. split; (apply Forall2_mono; intros a b; apply runs_app).
  - split; intros (g1 & H1 & H2); exists g1; (split; apply edit_nodes; assumption).
Qed.
Print Assumptions edit_of_two_lists.

(* A node that no rule matches is left alone. *)
Theorem unmatched_unchanged T rules g g' i n :
  edit_network_graph T rules g = Ok g' -> nth_error g i = Some n ->
  (forall r, In r rules -> ~ matches (r_filter r) n) -> nth_error g' i = Some n.
Proof.
  rewrite edit_nodes. intro F. revert i. induction F as [|a b g g' R F IH]; intros [|i] E N; cbn in *; try discriminate.
  - inversion E; subst. f_equal. clear -R N. induction R as [|r rs n n' M R IH|r rs n n1 n' M A R IH]; [reflexivity| |].
    + apply IH. intros x I. apply N. right. exact I.
    + exfalso. apply (N r); [left; reflexivity|exact M].
  - eauto.
Qed.
Print Assumptions unmatched_unchanged.

(* What an action does to a node: the fields it writes hold the value it gives, every other field is unchanged. *)
Theorem action_writes T a n n' : wf_node n -> wf_action a -> apply_action T a n = Ok n' ->
  (forall s v, writes T a n s v -> read n' s = Some v) /\
  (forall s, (forall v, ~ writes T a n s v) -> read n' s = read n s) /\
  n_name n' = n_name n.
Proof. intros W Wa A. destruct (action_effect T a n n' W Wa A) as (F & H1 & H2). split; [exact H1|]. split; [exact H2|apply F]. Qed.
Print Assumptions action_writes.

(* It goes through exactly when its arguments make sense for the node. *)
Theorem action_goes_through T a n : wf_node n -> wf_action a ->
  (exists n', apply_action T a n = Ok n') <-> applicable T a n.
Proof. apply action_total. Qed.
Print Assumptions action_goes_through.

Lemma Forall2_nth {A B} (P : A -> B -> Prop) l l' i b : Forall2 P l l' -> nth_error l' i = Some b ->
  exists a, nth_error l i = Some a /\ P a b.
Proof.
  intro F. revert i. induction F as [|x y l l' H F IH]; intros [|i] E; cbn in *; try discriminate; [inversion E; subst; eauto|auto].
Qed.
Lemma Forall2_nth' {A B} (P : A -> B -> Prop) l l' i a : Forall2 P l l' -> nth_error l i = Some a ->
  exists b, nth_error l' i = Some b /\ P a b.
Proof.
  intro F. revert i. induction F as [|x y l l' H F IH]; intros [|i] E; cbn in *; try discriminate; [inversion E; subst; eauto|auto].
Qed.
Lemma Forall2_exists {A B} (P : A -> B -> Prop) l : (forall a, In a l -> exists b, P a b) -> exists l', Forall2 P l l'.
Proof.
  induction l as [|a l IH]; intro H; [exists []; constructor|]. destruct (H a (or_introl eq_refl)) as [b Hb].
  destruct IH as [l' Hl]; [intros x I; apply H; right; exact I|]. exists (b :: l'). constructor; assumption.
Qed.

(* The last rule that writes a field of a matching node decides its value. *)
Theorem last_rule_wins T r1 r r2 g g1 g' i n1 n' s v :
  wf_graph g -> wf_rules (r1 ++ r :: r2) ->
  edit_network_graph T r1 g = Ok g1 -> edit_network_graph T (r1 ++ r :: r2) g = Ok g' ->
  nth_error g1 i = Some n1 -> nth_error g' i = Some n' ->
  matches (r_filter r) n1 -> writes T (r_action r) n1 s v ->
  (forall p r' q gm nm, r2 = p ++ r' :: q -> edit_network_graph T (r1 ++ r :: p) g = Ok gm -> nth_error gm i = Some nm ->
     matches (r_filter r') nm -> forall v', ~ writes T (r_action r') nm s v') ->
  read n' s = Some v.
Proof.
  intros Wg Wr E1 E N1 N' M Hw Later. rewrite edit_nodes in E1, E.
  destruct (Forall2_nth _ _ _ i n1 E1 N1) as (n & Nn & R1).
  destruct (Forall2_nth _ _ _ i n' E N') as (n0 & Nn0 & R). assert (n0 = n) by congruence. subst n0.
  apply runs_app in R. destruct R as (m & R1' & R). assert (m = n1) by (eapply runs_fun; eauto). subst m. clear R1'.
  apply runs_cons in R. destruct R as (m & S & R).
  assert (Wn : wf_node n) by (apply Wg; eapply nth_error_In; exact Nn).
  assert (W1 : wf_rules r1) by (intros x I; apply Wr, in_or_app; left; exact I).
  assert (W2 : wf_rules r2) by (intros x I; apply Wr, in_or_app; right; right; exact I).
  assert (Wn1 : wf_node n1) by (eapply frame_wf; [apply (runs_frame T r1 n n1 Wn W1 R1)|exact Wn]).
  eapply (writes_last T r2 r s v n1 m m n'); auto.
  - apply Wr, in_or_app. right. left. reflexivity.
  - intro Sw. apply swrites_split in Sw. destruct Sw as (p & r' & q & mm & v' & -> & Rp & Mm & Hw').
    assert (exists gm, Forall2 (runs T (r1 ++ r :: p)) g gm) as [gm Fm].
    { apply Forall2_exists. intros a Ia. apply In_nth_error in Ia. destruct Ia as [j Ej].
      destruct (Forall2_nth' _ _ _ j a E Ej) as (b & _ & Rb). rewrite app_comm_cons, app_assoc in Rb.
      apply runs_app in Rb. destruct Rb as (x & Rx & _). eauto. }
    destruct (Forall2_nth' _ _ _ i n Fm Nn) as (nm & Enm & Rnm).
    assert (nm = mm) as ->.
    { eapply runs_fun; [exact Rnm|]. apply runs_app. exists n1. split; [exact R1|]. apply runs_cons. exists m. auto. }
    eapply Later; eauto. apply edit_nodes. exact Fm.
Qed.
Print Assumptions last_rule_wins.

(* A field no rule writes keeps its value. *)
Theorem unwritten_unchanged T rules g g' i n n' s :
  wf_graph g -> wf_rules rules -> edit_network_graph T rules g = Ok g' ->
  nth_error g i = Some n -> nth_error g' i = Some n' ->
  (forall p r q gm nm, rules = p ++ r :: q -> edit_network_graph T p g = Ok gm -> nth_error gm i = Some nm ->
     matches (r_filter r) nm -> forall v, ~ writes T (r_action r) nm s v) ->
  read n' s = read n s.
Proof.
  intros Wg Wr E N N' Later. rewrite edit_nodes in E.
  destruct (Forall2_nth _ _ _ i n' E N') as (n0 & Nn0 & R). assert (n0 = n) by congruence. subst n0.
  apply (not_swrites T rules s n n'); auto; [apply Wg; eapply nth_error_In; exact N|].
  intro Sw. apply swrites_split in Sw. destruct Sw as (p & r' & q & mm & v' & -> & Rp & Mm & Hw').
  assert (exists gm, Forall2 (runs T p) g gm) as [gm Fm].
  { apply Forall2_exists. intros a Ia. apply In_nth_error in Ia. destruct Ia as [j Ej].
    destruct (Forall2_nth' _ _ _ j a E Ej) as (b & _ & Rb). apply runs_app in Rb. destruct Rb as (x & Rx & _). eauto. }
  destruct (Forall2_nth' _ _ _ i n Fm N) as (nm & Enm & Rnm).
  assert (nm = mm) as -> by (eapply runs_fun; eauto).
  eapply Later; eauto. apply edit_nodes. exact Fm.
Qed.
Print Assumptions unwritten_unchanged.

(* The pipeline runs the editor twice with the same rules.  If no rule replaces a layer, a second run right after the
   first one goes through and changes no field. *)
Theorem edit_twice T rules g g1 : wf_graph g -> wf_rules rules -> (forall r, In r rules -> not_replace (r_action r)) ->
  edit_network_graph T rules g = Ok g1 ->
  exists g2, edit_network_graph T rules g1 = Ok g2 /\
    Forall2 (fun a b => n_name b = n_name a /\ n_class b = n_class a /\ forall s, read b s = read a s) g1 g2.
Proof.
  intros Wg Wr NR E. rewrite edit_nodes in E. revert Wg. induction E as [|n n1 g g1 R F IH]; intro Wg.
  - exists []. split; [apply edit_nodes; constructor|constructor].
  - destruct IH as (g2 & E2 & F2); [intros x I; apply Wg; right; exact I|].
    assert (W : wf_node n) by (apply Wg; left; reflexivity).
    destruct (run_twice T rules n n1 W Wr NR R) as (n2 & R2 & S2 & C2).
    exists (n2 :: g2). split; [apply edit_nodes; constructor; [exact R2|apply edit_nodes; exact E2]|].
    constructor; [|exact F2]. split; [|auto].
    assert (W1 : wf_node n1) by (eapply frame_wf; [apply (runs_frame T rules n n1 W Wr R)|exact W]).
    apply (runs_frame T rules n1 n2 W1 Wr R2).
Qed.
Print Assumptions edit_twice.

(* ---- cases ---- *)
Local Open Scope string_scope.
Definition ex_tables : tables := Tables (fun m => if Nat.eqb m 3 then None else Some (10 + m)%nat) (fun m => Some (20 + m)%nat)
                                        (fun m => Some (30 + m)%nat) (fun m => Some (40 + m)%nat).
Definition ex_act (bits : nat) : cfg :=
  [("activation_n_bits", Some bits); ("activation_quantization_params", None)].
Definition ex_w (bits : nat) : wcfg :=
  WCfg [("min_threshold", Some 1%nat)] [(A_name "conv/kernel:0", [("weights_n_bits", Some bits)]); (A_name "conv/bias:0", [("weights_n_bits", Some 32%nat)])].
Definition ex_node (name cls : string) : node :=
  Node name cls None (Some 5%nat) (Some 6%nat) [Cand (ex_act 8) (ex_w 8); Cand (ex_act 4) (ex_w 8)] None None.
Definition ex_graph := [ex_node "conv1" "Conv2D"; ex_node "relu1" "ReLU"; ex_node "conv2" "Conv2D"].

Lemma names_prefix p q : contains (p ++ q)%string p.
Proof. exists ""%string, q. reflexivity. Qed.

(* non-vacuity: two rules with an overlap, the second one wins on conv2 *)
Definition ex_rules := [Rule (M_type "Conv2D") (Change_cand_w (Some (A_name "kernel")) [("weights_n_bits", Some 9%nat)]);
                        Rule (M_and (M_scope "conv") (M_not (M_name "conv1"))) (Change_cand_w (Some (A_name "kernel")) [("weights_n_bits", Some 7%nat)])].
Example ex_edit :
  match edit_network_graph ex_tables ex_rules ex_graph with
  | Ok [a; b; c] => read a (S_attr (Some 1%nat) (A_name "conv/kernel:0") "weights_n_bits") = Some (Some 9%nat) /\
                    b = ex_node "relu1" "ReLU" /\
                    read c (S_attr (Some 0%nat) (A_name "conv/kernel:0") "weights_n_bits") = Some (Some 7%nat) /\
                    read c (S_attr (Some 0%nat) (A_name "conv/bias:0") "weights_n_bits") = Some (Some 32%nat)
  | _ => False
  end.
Proof. repeat split. Qed.
Lemma ex_wf : wf_graph ex_graph.
Proof.
  assert (X : forall a b, wf_node (ex_node a b)).
  { intros a b [i|] w E; [|discriminate]. cbn in E. destruct i as [|[|i]]; cbn in E; [| |destruct i; discriminate];
      inversion E; subst; unfold wf_w; cbn; repeat constructor; cbn; intuition discriminate. }
  intros n [<-|[<-|[<-|[]]]]; apply X.
Qed.
Example ex_rules_wf : wf_rules ex_rules /\ forall r, In r ex_rules -> not_replace (r_action r).
Proof. split; intros r [<-|[<-|[]]]; cbn; repeat constructor; cbn; tauto. Qed.
Example ex_writes : writes ex_tables (r_action (nth 0 ex_rules (Rule M_any (Change_cand_act [])))) (ex_node "conv1" "Conv2D")
                           (S_attr (Some 1%nat) (A_name "conv/kernel:0") "weights_n_bits") (Some 9%nat).
Proof.
  cbn. exists (Some 1%nat), (ex_w 8), (A_name "conv/kernel:0"), "weights_n_bits".
  split; [reflexivity|]. split; [discriminate|]. split; [reflexivity|]. split; [|split; [left; reflexivity|discriminate]].
  split; [discriminate|]. split; [exists "conv/"%string, ":0"%string; reflexivity|].
  right. intros t' P C. apply aget_in in P. cbn in P. destruct P as [P|[P|[]]]; inversion P; subst; [reflexivity|].
  apply FilterProps.str_contains_spec in C. discriminate.
Qed.

(* ---- findings ---- *)
(* A rule that sets enable_activation_quantization or quantization_preserving of the candidates fails on every node that has
   candidates: both are properties without a setter, and hasattr does not tell them from fields. *)
Theorem property_field_refuted T n v f : n_cands n <> [] -> In f act_props ->
  exists e, edit_network_graph T [Rule M_any (Change_cand_act [(f, v)])] [n] = Err e.
Proof.
  intros N I. destruct (edit_network_graph T [Rule M_any (Change_cand_act [(f, v)])] [n]) as [g'|e] eqn:E; [exfalso|eauto].
  apply edit_nodes in E. inversion E as [|? n' ? l' R _]; subst. apply runs_cons in R.
  destruct R as (m & [[_ A]|[H _]] & _); [|apply H; exact Logic.I]. cbn [r_action apply_action] in A. rewrite each_a in A.
  assert (Wa : NoDup (map fst [(f, v)])) by (repeat constructor; cbn; tauto).
  destruct (n_cands n) as [|c cs] eqn:Ec; [congruence|].
  destruct (proj1 (proj1 (each_cand_total _ _ n) (ex_intro _ m A)) (Some 0%nat) (c_act c)) as [c' E'];
    [discriminate|cbn; rewrite Ec; reflexivity|].
  assert (P : plain act_props [(f, v)]) by (apply (af_ok _ _ _ (af_kw [(f, v)] Wa) (c_act c)); eauto).
  exact (P f v (or_introl eq_refl) I).
Qed.
Print Assumptions property_field_refuted.

(* An attribute name that is part of the names of two weights is an error, even when the rule is meant for nodes of one
   layer type: 'kernel' of a separable convolution. *)
Theorem partial_weight_name_refuted :
  let n := Node "sep" "SeparableConv2D" None None None
             [Cand (ex_act 8) (WCfg [] [(A_name "sep/depthwise_kernel:0", [("weights_n_bits", Some 8%nat)]);
                                        (A_name "sep/pointwise_kernel:0", [("weights_n_bits", Some 8%nat)])])] None None in
  edit_network_graph ex_tables [Rule (M_type "SeparableConv2D") (Change_cand_w (Some (A_name "kernel")) [("weights_n_bits", Some 4%nat)])] [n] = Err E_critical.
Proof. reflexivity. Qed.
Print Assumptions partial_weight_name_refuted.

(* Because the editor runs twice, a replacement whose node still matches is applied twice: weights 5 become 7, not 6. *)
Theorem replaced_twice_refuted :
  let rules := [Rule (M_name "conv1") (Replace_layer "Conv2D" (fun w _ fa => Ok (option_map S w, fa)))] in
  exists g1 g2, edit_network_graph ex_tables rules [ex_node "conv1" "Conv2D"] = Ok g1 /\
    edit_network_graph ex_tables rules g1 = Ok g2 /\
    map (fun n => read n S_weights) g1 = [Some (Some 6%nat)] /\ map (fun n => read n S_weights) g2 = [Some (Some 7%nat)].
Proof. do 2 eexists. repeat split; reflexivity. Qed.
Print Assumptions replaced_twice_refuted.

(* A rule on candidates, applied after the bit widths were chosen, changes the final configuration of a configurable node of a
   mixed-precision run, because that configuration is the candidate itself, but not of the same node outside of mixed
   precision, where it is a copy. *)
Theorem late_candidate_edit_refuted :
  let rules := [Rule M_any (Change_cand_act [("activation_n_bits", Some 9%nat)])] in
  let with_final f := Node "relu" "ReLU" None None None [Cand (ex_act 8) (ex_w 8)] (Some f) None in
  let copied := with_final (Own (ex_act 8)) in
  let shared := with_final (Shared 0%nat) in
  final_act copied = final_act shared /\
  exists c' s', edit_network_graph ex_tables rules [copied] = Ok [c'] /\ edit_network_graph ex_tables rules [shared] = Ok [s'] /\
    option_map (sget "activation_n_bits") (final_act c') = Some (Some (Some 8%nat)) /\
    option_map (sget "activation_n_bits") (final_act s') = Some (Some (Some 9%nat)).
Proof. split; [reflexivity|]. do 2 eexists. repeat split; reflexivity. Qed.
Print Assumptions late_candidate_edit_refuted.

(* Replacing a functional layer leaves its type: later rules for the new type do not see it, rules for the old one do. *)
Theorem replaced_function_type_refuted :
  let n := Node "add" "TFOpLambda" (Some "tf.add") None None [Cand (ex_act 8) (WCfg [] [])] None None in
  exists n', edit_network_graph ex_tables [Rule (M_type "tf.add") (Replace_layer "Concatenate" (fun w _ fa => Ok (w, fa)))] [n] = Ok [n'] /\
    n_class n' = "Concatenate"%string /\ ~ matches (M_type "Concatenate") n' /\ matches (M_type "tf.add") n'.
Proof. eexists. split; [reflexivity|]. split; [reflexivity|]. split; [discriminate|reflexivity]. Qed.
Print Assumptions replaced_function_type_refuted.
