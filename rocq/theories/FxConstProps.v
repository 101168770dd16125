(* FxConstProps.v -- C68: a constant of the model that no operation reads is reported. *)
From Verif Require Import Base GraphModel GraphProofs FxModel.
Local Open Scope nat_scope.

Lemma snd_enumerate {A} (l : list A) n p : In p (enumerate_from n l) -> In (snd p) l.
Proof. revert n. induction l as [|x l IH]; intros n I; [contradiction|]. destruct I as [<-|I]; [left; reflexivity|right; apply (IH _ I)]. Qed.
Lemma const_weights_read consts nd p : In p (const_weights consts nd) -> In (snd p) (all_input_nodes nd).
Proof.
  unfold const_weights. destruct (first_list nd) as [l|].
  - intro I. apply in_flat_map in I. destruct I as [n [In_ I]]. destruct (mem n consts); [|contradiction]. apply in_map_iff in I. destruct I as [i [<- _]]. exact In_.
  - intro I. apply filter_In in I. apply (snd_enumerate _ 0), I.
Qed.
Definition reads (prog : list fxnode) (rs : list rnode) : Prop := forall r p, In r rs -> In p (r_weights r) -> exists nd, In nd prog /\ is_graph_node nd = true /\ In (snd p) (all_input_nodes nd).
Lemma set_group_reads prog k b rs : reads prog rs -> reads prog (map (set_group k b) rs).
Proof.
  intros H r p I J. apply in_map_iff in I. destruct I as [r0 [<- I]]. apply (H r0); [exact I|]. unfold set_group in J. destruct (Nat.eqb (r_id r0) b); exact J.
Qed.
Lemma read_node_reads lw prog consts rs seen nd : In nd prog -> reads prog rs -> reads prog (fst (read_node lw consts (rs, seen) nd)).
Proof.
  intros In_ H. unfold read_node.
  assert (forall rs r, reads prog rs -> (forall p, In p (r_weights r) -> is_graph_node nd = true /\ In (snd p) (all_input_nodes nd)) -> reads prog (rs ++ [r])) as K.
  { intros rs' r H' J x p I P. apply in_app_iff in I. destruct I as [I|[<-|[]]]; [apply (H' x p I P)|]. destruct (J p P). exists nd. auto. }
  destruct (f_op nd) eqn:O; try exact H; destruct (find _ _) as [[k b]|]; try (destruct (negb _)); cbn [fst]; apply K; try (apply set_group_reads); try exact H; cbn [r_weights];
    intros p P; try contradiction; (split; [unfold is_graph_node, is_op; rewrite O; reflexivity|apply (const_weights_read _ _ _ P)]).
Qed.
Lemma read_nodes_reads lw prog : reads prog (read_nodes lw prog).
Proof.
  unfold read_nodes. generalize (const_ids prog) as cs. intro cs. assert (forall l st, incl l prog -> reads prog (fst st) -> reads prog (fst (fold_left (read_node lw cs) l st))) as K.
  { induction l as [|nd l IH]; intros [rs seen] Hi H; [exact H|]. cbn [fold_left]. apply IH; [intros x X; apply Hi; right; exact X|]. apply read_node_reads; [apply Hi; left; reflexivity|exact H]. }
  apply K; [apply incl_refl|]. intros r p [].
Qed.

(* a parameter or buffer fetched by the traced code but passed to no operation *)
Theorem unread_constant_refused lw prog c : In c (const_ids prog) ->
  (forall nd, In nd prog -> is_graph_node nd = true -> ~ In c (all_input_nodes nd)) -> build_graph lw prog = Err E_critical.
Proof.
  intros Hc H. unfold build_graph. destruct (forallb (fun c => mem c (used_consts (read_nodes lw prog))) (const_ids prog)) eqn:F; [|reflexivity]. exfalso.
  rewrite forallb_forall in F. specialize (F c Hc). apply mem_spec in F. unfold used_consts in F. apply in_flat_map in F. destruct F as [r [I J]]. apply in_map_iff in J. destruct J as [p [<- P]].
  destruct (read_nodes_reads lw prog r p I P) as [nd [Q1 [Q2 Q3]]]. exact (H nd Q1 Q2 Q3).
Qed.
Print Assumptions unread_constant_refused.
Example unread_constant_example : build_graph (fun _ => []) [Fx 0 FPlaceholder 0 [] []; Fx 1 FGetAttr 0 [] []; Fx 2 FFunction 1 [ANode 0] []; Fx 3 FOutput 0 [ANode 2] []] = Err E_critical.
Proof. apply (unread_constant_refused _ _ 1); [left; reflexivity|]. intros nd I. repeat (destruct I as [<-|I]; [cbn; try discriminate; intuition discriminate|]); contradiction. Qed.
