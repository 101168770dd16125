(* DeadExProps.v -- C69: a model with unused nodes to which the theorems apply, and models read wrongly. *)
From Coq Require Import Permutation Lia.
From Verif Require Import Base GraphModel GraphSpec GraphProofs GraphProps FxModel FxSpec FxProofs FxProps FxRunProps FxExProps DeadModel DeadSpec DeadProofs DeadProps DeadReadProps.
Open Scope res_scope.
Local Open Scope nat_scope.
Notation X := (ANode 0). Notation Y := (ANode 1). Notation C5 := (ANode 5).
Ltac mod_call x := apply (plain_module _ _ x 1 [x]); try reflexivity; [exists []; split; [nodup|reflexivity]|left; lia].

(* two branches without effect: g(x, [c, x]) followed by h, with a nested list that could not be rebuilt; the layer is
   used twice, both times with effect *)
Definition with_unused : list fxnode :=
  [x_in; c_attr; Fx 9 FModule 3 [X] []; Fx 10 FFunction 1 [X; AList [C5; AList [X]]] []; Fx 11 FFunction 2 [ANode 10] []; Fx 12 FModule 3 [ANode 9] []; ret [ANode 12]].
Definition kept_graph : graph := Graph [0; 9; 12] [Edge 0 9 0 0; Edge 9 12 0 0] [0] [(12, 0)].
Example with_unused_meets_the_conditions :
  good with_unused /\ (exists rs, model_reader no_check (fun _ => [8]) with_unused = Ok (kept_graph, rs)) /\
  (forall nd, In nd with_unused -> (is_graph_node nd = true -> In (f_id nd) (g_nodes kept_graph)) -> plain (const_ids with_unused) nd) /\
  shared_kept (fun _ => [8]) with_unused kept_graph /\ NoDup (returned with_unused) /\
  (forall n, In n (g_nodes kept_graph) -> exists v, fx_raw demo (fun n => [100 + n]) quant_9 with_unused [[1]] n = One v).
Proof.
  split; [apply good_spec; reflexivity|]. split; [eexists; reflexivity|]. split; [|split; [|split; [nodup|]]].
  - intros nd I H. cbn in I. decompose [or] I; subst; clear I; cbn in H; try tauto.
    + apply plain_source; auto.
    + apply plain_source; auto.
    + mod_call 0.
    + exfalso. destruct (H eq_refl) as [Q|[Q|[Q|[]]]]; discriminate.
    + exfalso. destruct (H eq_refl) as [Q|[Q|[Q|[]]]]; discriminate.
    + mod_call 9.
    + apply plain_output. reflexivity.
  - intros a b I J. cbn in I, J. decompose [or] I; subst; try tauto; decompose [or] J; subst; cbn; try tauto; intros; try discriminate; try tauto; intuition discriminate.
  - intros n [<-|[<-|[<-|[]]]]; eexists; reflexivity.
Qed.
Example with_unused_result :
  (let! gr := model_reader no_check (fun _ => [8]) with_unused in
   forward demo (fun n => [100 + n]) quant_9 (fun l => concat l) (fst gr) (snd gr) [0; 9; 12] false [[1]]) = Ok [OTensor [1; 0]].
Proof. reflexivity. Qed.

(* FINDING (reader.py L130-154, pytorch_model_builder.py L311-313): of two uses of one layer the second refers to the
   first for the operation to run.  When the first has no effect on the outputs it is removed, the second is still
   marked as reused, and building the model from the graph fails. *)
Theorem unused_first_use_refuted : exists lw prog g rs, good prog /\ (forall nd, In nd prog -> plain (const_ids prog) nd) /\
  model_reader no_check lw prog = Ok (g, rs) /\ In 10 (g_nodes g) /\
  (forall order inputs, Permutation order (g_nodes g) -> forward demo (fun n => [100 + n]) no_quant (fun l => concat l) g rs order false inputs = Err E_runtime) /\
  (* with the first use the same model can be run *)
  (let! gr := build_graph lw prog in forward demo (fun n => [100 + n]) no_quant (fun l => concat l) (fst gr) (snd gr) (graph_ids prog) false [[1]]) = Ok [OTensor [1]].
Proof.
  exists (fun _ => [8]), [x_in; Fx 9 FModule 3 [X] []; Fx 10 FModule 3 [X] []; ret [ANode 10]]. do 2 eexists. split; [apply good_spec; reflexivity|]. split; [|split; [reflexivity|split; [cbn; tauto|split; [|reflexivity]]]].
  2: { intros order inputs P. apply Permutation_sym in P. destruct (Permutation_length_2_inv P) as [-> | ->]; reflexivity. }
  intros nd I. cbn in I. decompose [or] I; subst; clear I; try tauto.
  - apply plain_source; auto.
  - mod_call 0.
  - mod_call 0.
  - apply plain_output. reflexivity.
Qed.
Print Assumptions unused_first_use_refuted.

(* FINDING (reader.py L176-178): a model that returns one of its inputs unchanged, without using it elsewhere, is refused
   as having a disconnected input. *)
Theorem returned_input_refuted : exists prog, good prog /\ (forall nd, In nd prog -> plain (const_ids prog) nd) /\
  (exists gr, build_graph (fun _ => []) prog = Ok gr /\ forall n, In n (g_nodes (fst gr)) -> used (fst gr) n) /\
  model_reader no_check (fun _ => []) prog = Err E_value.
Proof.
  exists [x_in; y_in; Fx 9 FModule 3 [X] []; ret [ANode 9; Y]]. split; [apply good_spec; reflexivity|]. split; [|split; [|reflexivity]].
  - intros nd I. cbn in I. decompose [or] I; subst; clear I; try tauto.
    + apply plain_source; auto.
    + apply plain_source; auto.
    + mod_call 0.
    + apply plain_output. reflexivity.
  - eexists. split; [reflexivity|]. cbn [fst]. intros n [<-|[<-|[<-|[]]]].
    + refine (used_by _ (Edge 0 9 0 0) _ _); [left; reflexivity|]. apply (used_output _ 9 0). left. reflexivity.
    + apply (used_output _ 1 1). right. left. reflexivity.
    + apply (used_output _ 9 0). left. reflexivity.
Qed.
Print Assumptions returned_input_refuted.
