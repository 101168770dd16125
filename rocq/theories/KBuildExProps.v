(* KBuildExProps.v -- a model meeting the hypotheses of KBuildProps.v, and models that are built wrongly (C82). *)
From Coq Require Import Permutation Sorted Lia String.
From Verif Require Import Base GraphModel GraphSpec GraphProofs FxModel FxSpec FxProofs KReadModel KReadSpec KReadMergeProofs KReadProofs KReadNestProofs KReadProps KReadExProps KBuildModel KBuildSpec KBuildProofs KBuildReadProofs KBuildProps.
Open Scope res_scope.
Local Open Scope nat_scope.

(* names without underscores are plain *)
Definition name_l (a : nat) : string := ("l" ++ dec a)%string.
Lemma split_name_l a : split_ (name_l a) = [name_l a].
Proof. unfold name_l. cbn [append split_ Ascii.eqb]. unfold dec. rewrite split_uint. reflexivity. Qed.
Lemma name_l_inj a b : name_l a = name_l b -> a = b.
Proof. intro E. assert (reused_name ""%string a = reused_name ""%string b) as F by (unfold reused_name; unfold name_l in E; injection E as E; rewrite E; reflexivity). apply reused_inj in F. apply F. Qed.
Lemma name_l_plain a b i : name_l a <> reused_name (name_l b) i.
Proof. intro E. apply (f_equal split_) in E. rewrite split_reused, !split_name_l in E. discriminate. Qed.

(* x -> layer 102 -> layer 102 again -> nested model (one layer, on two outputs of it: split) *)
Definition rb_inner : kmodel := KModel [KNode 10 110 LInput [50] [50]; KNode 12 112 LOp [50] [52; 53]] [50] [53; 52].
Definition rb_model : kmodel :=
  KModel [KNode 1 101 LInput [1] [1]; KNode 2 102 LOp [1] [2]; KNode 3 102 LOp [2; 1] [3]; KNode 4 104 (LModel rb_inner) [3] [4; 5]; KNode 6 106 LOp [4; 2; 5] [6]] [1] [6; 5].
Definition rb_lay (u : nat) : nat := match u with 3 => 2 | _ => u end.
(* the layer objects: 2 adds its inputs and 1, 12 returns the halves, 6 weighs its inputs *)
Definition rb_op (l n : nat) (xs : list nat) : ores nat :=
  match l with 2 => One (S (fold_right Nat.add 0 xs)) | 12 => Many [Nat.div2 (hd 0 xs); hd 0 xs - Nat.div2 (hd 0 xs)] | _ => One (hd 0 xs + 2 * nth 1 xs 0 + 4 * nth 2 xs 0) end.
Definition rb_ai (u : nat) : nat := match u with 3 => 2 | 6 => 3 | _ => 1 end.
Definition rb_ao (u : nat) : nat := match u with 12 | 4 => 2 | _ => 1 end.
Definition rb_graph : graph := Graph [1; 2; 3; 6; 12] [Edge 1 2 0 0; Edge 1 3 0 1; Edge 2 3 0 0; Edge 2 6 0 1; Edge 3 12 0 0; Edge 12 6 1 0; Edge 12 6 0 2] [1] [(6, 0); (12, 0)].
Example rb_read : parse_model rb_model = Ok rb_graph.
Proof. cbv. reflexivity. Qed.
Lemma rb_keras : keras_model rb_model.
Proof.
  split; [|apply nodupb_ok; reflexivity]. apply levels_unfold. split; [apply levelb_ok; reflexivity|]. intros n inner N L.
  destruct N as [<-|[<-|[<-|[<-|[<-|[]]]]]]; try discriminate. cbn in L. injection L as <-. split.
  - split; [reflexivity|]. split; [reflexivity|]. split; [apply nodupb_ok; reflexivity|]. split; [apply disjb_ok; reflexivity|]. intros p P E. destruct P as [<-|[<-|[<-|[<-|[<-|[]]]]]]; try discriminate; reflexivity.
  - apply levels_unfold. split; [apply levelb_ok; reflexivity|]. intros n inner N L. destruct N as [<-|[<-|[]]]; discriminate.
Qed.
Lemma rb_topological : topological rb_graph [1; 2; 3; 12; 6].
Proof.
  split; [cbn; do 3 constructor; constructor|]. intros a n b e E I Q.
  assert (forall l : list nat, [1; 2; 3; 12; 6] = l ++ n :: b -> In (src e) l) as H; [|apply H, E].
  clear a E. intros l E. cbn in I.
  repeat (destruct I as [<-|I]; [cbn in Q |- *; subst n; destruct l as [|? [|? [|? [|? [|? [|? l]]]]]]; cbn in E; injection E as ?; subst; try discriminate; cbn; tauto|]). destruct I.
Qed.
(* the theorem applies: the Keras model gives 28 and 4 on 3, and so does the model built from its graph *)
Example rb_rebuilt : model_gives (op_at rb_op rb_lay 0) rb_model [3] [28; 4] /\
  build_model rb_op (fun _ => None) (fun _ => 0) rb_graph (read_names name_l rb_lay true rb_model) [1; 2; 3; 12; 6] None false [3] = Ok [OTensor 28; OTensor 4].
Proof.
  assert (build_model rb_op (fun _ => None) (fun _ => 0) rb_graph (read_names name_l rb_lay true rb_model) [1; 2; 3; 12; 6] None false [3] = Ok [OTensor 28; OTensor 4]) as B by (cbv; reflexivity).
  split; [|exact B]. apply (keras_model_rebuilt rb_op (fun _ => 0) 0 name_l rb_lay rb_model rb_graph [1; 2; 3; 12; 6] rb_ai rb_ao [3] [28; 4]).
  - exact rb_keras.
  - exact rb_read.
  - exact rb_topological.
  - split; [exact name_l_inj|]. split; [apply nodupb_ok; reflexivity|]. intros a b i _ _. apply name_l_plain.
  - apply same_unfold. split; [intros a b A B0 E; destruct A as [<-|[<-|[<-|[<-|[<-|[]]]]]], B0 as [<-|[<-|[<-|[<-|[<-|[]]]]]]; try discriminate; split; reflexivity|].
    intros n inner N L. destruct N as [<-|[<-|[<-|[<-|[<-|[]]]]]]; try discriminate. cbn in L. injection L as <-. apply same_unfold. split; [intros a b A B0 E; destruct A as [<-|[<-|[]]], B0 as [<-|[<-|[]]]; try discriminate; split; reflexivity|]. intros n inner N L. destruct N as [<-|[<-|[]]]; discriminate.
  - intros u i o I. cbn in I. repeat (destruct I as [I|I]; [injection I as <- <- <-; split; reflexivity|]). destruct I.
  - clear B. intros n l N L. cbn in N. repeat (destruct N as [<-|N]; [cbn in *; repeat split; lia|]). destruct N.
  - reflexivity.
  - exact B.
Qed.
(* the hypotheses of level_names_found: a layer called three times *)
Example level_ex : map b_name (name_level [(1, ("a", 1)); (2, ("b", 2)); (3, ("a", 1)); (4, ("a", 1))]%string) = ["a"; "b"; "a_reused_1"; "a_reused_2"]%string.
Proof. cbv. reflexivity. Qed.

(* FINDING (node_builder.py L231-239, instance_builder.py L66-67): a layer that the user named "a_reused_1", called
   after the second call of a layer "a", is taken for a further call of a layer of its own name, and building the model
   stops with an IndexError. *)
Definition clash_level : list bnode := name_level [(1, ("a", 1)); (2, ("a", 1)); (3, ("a_reused_1", 3))]%string.
Theorem reused_name_taken_refuted : ~ (forall xs, (forall x y, In x xs -> In y xs -> fst (snd x) = fst (snd y) -> snd (snd x) = snd (snd y)) ->
  Forall2 (fun x b => op_function (name_level xs) b = Ok (snd (snd x))) xs (name_level xs)).
Proof.
  intro H. specialize (H [(1, ("a", 1)); (2, ("a", 1)); (3, ("a_reused_1", 3))]%string).
  assert (op_function clash_level (BNode 3 "a_reused_1_reused_1"%string true 3) = Err E_index) as E by (cbv; reflexivity).
  assert (clash_level = [BNode 1 "a"%string false 1; BNode 2 "a_reused_1"%string true 1; BNode 3 "a_reused_1_reused_1"%string true 3]) as EL by (cbv; reflexivity).
  fold clash_level in H. specialize (H ltac:(intros x y X Y; cbn in X, Y; destruct X as [<-|[<-|[<-|[]]]], Y as [<-|[<-|[<-|[]]]]; cbn; intro; congruence)).
  rewrite EL in H, E. inversion H as [|? ? ? ? _ H1]; subst. inversion H1 as [|? ? ? ? _ H2]; subst. inversion H2 as [|? ? ? ? H3 _]; subst. rewrite E in H3. discriminate.
Qed.
Print Assumptions reused_name_taken_refuted.

(* FINDING (keras_model_builder.py L183-187): the outputs are looked up by the names of the nodes.  With a layer named
   "a_reused_1" inside a nested model and a layer "a" called twice outside, two nodes have one name, no error is raised,
   and the model built returns the nested layer's tensor in place of the output of the second call of "a". *)
Definition cl_inner : kmodel := KModel [KNode 10 110 LInput [50] [50]; KNode 12 112 LOp [50] [52]] [50] [52].
Definition cl_model : kmodel := KModel [KNode 1 101 LInput [1] [1]; KNode 2 102 LOp [1] [2]; KNode 3 102 LOp [2] [3]; KNode 4 104 (LModel cl_inner) [3] [4]] [1] [3; 4].
Definition cl_nm (a : nat) : string := match a with 102 => "a"%string | 112 => "a_reused_1"%string | _ => name_l a end.
Definition cl_op (l n : nat) (xs : list nat) : ores nat := match l with 2 => One (S (hd 0 xs)) | _ => One (10 * hd 0 xs) end.
Theorem output_names_clash_refuted : exists g, parse_model cl_model = Ok g /\ model_gives (op_at cl_op rb_lay 0) cl_model [0] [2; 20] /\
  build_model cl_op (fun _ => None) (fun _ => 0) g (read_names cl_nm rb_lay true cl_model) [1; 2; 3; 12] None false [0] = Ok [OTensor 20; OTensor 20].
Proof.
  eexists. split; [cbv; reflexivity|]. split; [|cbv; reflexivity].
  exists (fun t => match t with 2 => 1 | 3 => 2 | 4 => 20 | _ => 0 end). split; [|split; reflexivity]. apply model_run_nodes. intros n [<-|[<-|[<-|[<-|[]]]]]; cbn.
  - exact I.
  - intros [|[|k]] t E; cbn in E; try discriminate. injection E as <-. reflexivity.
  - intros [|[|k]] t E; cbn in E; try discriminate. injection E as <-. reflexivity.
  - exists (fun t => match t with 50 => 2 | 52 => 20 | _ => 0 end). split; [|split; reflexivity]. split; [exact I|]. split; [|exact I]. intros [|[|k]] t E; cbn in E; try discriminate. injection E as <-. reflexivity.
Qed.
Print Assumptions output_names_clash_refuted.

(* FINDING (connectivity_handler.py L232, node_builder.py L231): further calls of a layer are recognised within one
   level only.  A layer called both in a model and in a model nested in it becomes two nodes of one name, two layers of
   one name are built, and Keras refuses them. *)
Definition sh_inner : kmodel := KModel [KNode 10 110 LInput [50] [50]; KNode 12 102 LOp [50] [52]] [50] [52].
Definition sh_model : kmodel := KModel [KNode 1 101 LInput [1] [1]; KNode 2 102 LOp [1] [2]; KNode 4 104 (LModel sh_inner) [2] [4]] [1] [4].
Definition sh_lay (u : nat) : nat := match u with 12 => 2 | _ => u end.
Theorem shared_between_levels_refuted : exists g, parse_model sh_model = Ok g /\
  build_model cl_op (fun _ => None) (fun _ => 0) g (read_names name_l sh_lay true sh_model) [1; 2; 12] None false [0] = Err E_value.
Proof. eexists. split; cbv; reflexivity. Qed.
Print Assumptions shared_between_levels_refuted.

(* FINDING (keras_model_builder.py L299-326, L152-157): an activation quantizer is called on all the tensors of a node at
   once and gives one tensor; a layer that reads the second output of a quantized node then fails with an IndexError. *)
Definition q_graph : graph := Graph [1; 2; 3] [Edge 1 2 0 0; Edge 2 3 1 0] [1] [(3, 0)].
Theorem quantized_outputs_refuted :
  (exists y, build_model rb_op (fun _ => None) (fun _ => 0) q_graph [BNode 1 "x"%string false 1; BNode 2 "s"%string false 12; BNode 3 "r"%string false 6] [1; 2; 3] None false [3] = Ok [OTensor y]) /\
  build_model rb_op (fun n => if Nat.eqb n 2 then Some (fun v => v) else None) (fun _ => 0) q_graph [BNode 1 "x"%string false 1; BNode 2 "s"%string false 12; BNode 3 "r"%string false 6] [1; 2; 3] None false [3] = Err E_index.
Proof. split; [eexists|]; cbv; reflexivity. Qed.
Print Assumptions quantized_outputs_refuted.

(* FINDING (keras_model_builder.py L233-234): a node without incoming edges is taken for an input; a call on constants
   only is a KeyError. *)
Theorem constant_call_refuted :
  build_model rb_op (fun _ => None) (fun _ => 0) (Graph [1; 2; 3] [Edge 1 3 0 0; Edge 2 3 0 1] [1] [(3, 0)]) [BNode 1 "x"%string false 1; BNode 2 "c"%string false 2; BNode 3 "r"%string false 6] [1; 2; 3] None false [3] = Err E_key.
Proof. cbv. reflexivity. Qed.
Print Assumptions constant_call_refuted.
