(* FxExProps.v -- C68: a traced model to which the theorems apply, and calls which are rebuilt wrongly. *)
From Coq Require Import Permutation Lia.
From Coq Require String.
From Verif Require Import Base GraphModel GraphSpec GraphProofs FxModel FxSpec FxProofs FxProps FxRunProps.
Open Scope res_scope.
Local Open Scope nat_scope.

(* values are lists of numbers.  An operation lists the contents of its arguments in order: a tensor as it is, a plain
   value c as [c], a list with a leading 500, an fx node as [999]; it ends with 1000 + k if there are k > 0 keyword
   arguments.  Operation 7 returns a Python list of two tensors. *)
Fixpoint content (c : cval (list nat)) : list nat :=
  match c with CT v => v | CC c => [c] | CL l => 500 :: flat_map content l | CFx _ => [999] end.
Definition demo (t : nat) (args : list (cval (list nat))) (kw : list (name * cval (list nat))) : ores (list nat) :=
  if Nat.eqb t 7 then Many [[10]; [20]]
  else One (flat_map content args ++ match kw with [] => [] | _ => [1000 + length kw] end).
Definition no_quant : nat -> option (list nat -> list nat) := fun _ => None.
Definition quant_9 : nat -> option (list nat -> list nat) := fun n => if Nat.eqb n 9 then Some (fun v => v ++ [0]) else None.
Definition rebuilt quant prog inputs : result (list (@out (list nat))) :=
  let! gr := build_graph (fun _ => []) prog in
  forward demo (fun n => [100 + n]) quant (fun l => concat l) (fst gr) (snd gr) (graph_ids prog) false inputs.
Definition expected quant prog inputs : list (ores (list nat)) := map (fx_val demo (fun n => [100 + n]) quant prog inputs) (returned prog).

Lemma demo_keywords : keyword_order_free demo.
Proof. intros t args kw kw' P _. unfold demo. pose proof (Permutation_length P) as L. destruct kw, kw'; try reflexivity; try discriminate. rewrite L. reflexivity. Qed.

Fixpoint ordered (seen : list nat) (prog : list fxnode) : bool :=
  match prog with [] => true | nd :: r => forallb (fun n => mem n seen) (all_input_nodes nd) && negb (mem (f_id nd) seen) &&
    ordered (if is_op FOutput nd then seen else f_id nd :: seen) r end.
Lemma ordered_spec prog : ordered [] prog = true -> in_order prog.
Proof.
  assert (forall l done seen, (forall n, In n seen -> In n (graph_ids done) \/ In n (const_ids done)) -> ordered seen l = true ->
    forall a nd b n, l = a ++ nd :: b -> In n (all_input_nodes nd) -> In n (graph_ids (done ++ a)) \/ In n (const_ids (done ++ a))) as K.
  2: { intros H a nd b n E I. apply (K prog [] [] ltac:(intros ? []) H a nd b n E I). }
  induction l as [|x l IH]; intros done seen Hs H a nd b n E I; [destruct a; discriminate|]. cbn [ordered] in H. apply andb_prop in H. destruct H as [H H2]. apply andb_prop in H. destruct H as [H1 _].
  destruct a as [|y a]; cbn [app] in E; injection E as -> E.
  - rewrite app_nil_r. apply Hs. rewrite forallb_forall in H1. apply mem_spec, H1, I.
  - replace (done ++ y :: a) with ((done ++ [y]) ++ a) by (rewrite <- app_assoc; reflexivity). refine (IH (done ++ [y]) _ _ H2 a nd b n E I).
    intros m Q. unfold graph_ids, const_ids in *. rewrite !filter_app, !map_app. cbn [filter]. destruct (is_op FOutput y) eqn:Oy.
    + destruct (Hs m Q) as [G|G]; [left|right]; apply in_or_app; left; exact G.
    + destruct Q as [<-|Q]; [|destruct (Hs m Q) as [G|G]; [left|right]; apply in_or_app; left; exact G].
      destruct (is_op FGetAttr y) eqn:Gy; [right|left]; apply in_or_app; right; [left; reflexivity|]. unfold is_graph_node. rewrite Gy, Oy. left. reflexivity.
Qed.
Lemma in_order_args prog nd n : in_order prog -> In nd prog -> In n (all_input_nodes nd) -> In n (graph_ids prog) \/ In n (const_ids prog).
Proof.
  intros O I J. destruct (in_split _ _ I) as (a & b & E). rewrite E. unfold graph_ids, const_ids. rewrite !filter_app, !map_app.
  destruct (O a nd b n E J) as [Q|Q]; [left|right]; apply in_or_app; left; exact Q.
Qed.
Definition distinct (l : list nat) : bool := list_eqb (firsts l) l.
Lemma distinct_spec l : distinct l = true -> NoDup l.
Proof. intro H. apply list_eqb_eq in H. rewrite <- H. apply firsts_nodup. Qed.
(* a well formed program: what torch.fx produces *)
Definition good (prog : list fxnode) : Prop := wf_prog prog /\ in_order prog.
Lemma good_spec prog : ordered [] prog = true -> distinct (map f_id prog) = true -> good prog.
Proof. intros H D. pose proof (ordered_spec prog H) as O. split; [|exact O]. constructor; [apply distinct_spec, D|]. intros nd n I J. exact (in_order_args prog nd n O I J). Qed.

Definition x_in := Fx 0 FPlaceholder 90 [] [].
Definition y_in := Fx 1 FPlaceholder 91 [] [].
Definition c_attr := Fx 5 FGetAttr 92 [] [].
Definition ret (l : list arg) := Fx 20 FOutput 93 l [].
Notation X := (ANode 0). Notation Y := (ANode 1). Notation C5 := (ANode 5).
Definition key_dim : name := String.String Ascii.zero String.EmptyString.
Definition key_other : name := String.String Ascii.one String.EmptyString.

(* The theorem applies: f(x, 3, c, d=y), then cat([z, c, x, x]), then a layer used twice. *)
Definition sample : list fxnode :=
  [x_in; y_in; c_attr; Fx 9 FFunction 1 [X; AConst 3; C5] [(key_dim, Y); (key_other, AConst 4)];
   Fx 10 FFunction 2 [AList [ANode 9; C5; X; X]; AConst 1] []; Fx 11 FModule 3 [ANode 10] []; Fx 12 FModule 3 [ANode 11; X] []; ret [ANode 12; ANode 9]].
Lemma nodup_cons_b x l : mem x l = false -> NoDup l -> NoDup (x :: l).
Proof. intros M N. constructor; [apply mem_false, M|exact N]. Qed.
Ltac nodup := repeat (apply nodup_cons_b; [reflexivity|]); apply NoDup_nil.
Example sample_meets_the_conditions :
  good sample /\ (forall nd, In nd sample -> plain (const_ids sample) nd) /\ NoDup (returned sample) /\ is_ok (build_graph (fun _ => [8]) sample) = true /\
  (forall n, In n (graph_ids sample) -> exists v, fx_raw demo (fun n => [100 + n]) quant_9 sample [[1]; [2]] n = One v).
Proof.
  split; [apply good_spec; reflexivity|]. split; [|split; [nodup|split; [reflexivity|]]].
  - intros nd [<-|[<-|[<-|[<-|[<-|[<-|[<-|[<-|[]]]]]]]]].
    1, 2: apply plain_source; [left| |]; reflexivity.
    + apply plain_source; [right| |]; reflexivity.
    + apply (plain_function _ _ 99 0).
      * reflexivity.
      * intros a [<-|[<-|[<-|[]]]]; [left|right|left]; reflexivity.
      * intros a [<-|[<-|[]]]; [left|right]; reflexivity.
      * cbn. constructor; [intros [E|[]]; discriminate|]. constructor; [intros []|constructor].
      * left. reflexivity.
      * exists [0; 5; 1]. split; [nodup|reflexivity].
      * left. lia.
    + apply (plain_list _ _ 0 2 [9; 5; 0; 0] [AConst 1]); try reflexivity. exists [9]. split; [nodup|reflexivity].
    + apply (plain_module _ _ 10 1 [10]); try reflexivity; [|left; lia]. exists []. split; [nodup|reflexivity].
    + apply (plain_module _ _ 0 1 [11; 0]); try reflexivity; [|left; lia]. exists [11]. split; [nodup|reflexivity].
    + apply plain_output. reflexivity.
  - intros n [<-|[<-|[<-|[<-|[<-|[<-|[]]]]]]]; eexists; reflexivity.
Qed.
Example sample_result : rebuilt quant_9 sample [[1]; [2]] = Ok [OTensor [500; 1; 3; 105; 1002; 0; 105; 1; 1; 1; 1]; OTensor [1; 3; 105; 1002; 0]].
Proof. reflexivity. Qed.

(* ---- calls which are rebuilt wrongly ---- *)
(* FINDING (graph_builders.py L381-390): a tensor that occurs twice gets consecutive input indices, which clash with
   the index of the tensor in between: cat([x, y, x]) is rebuilt as cat([x, x, y]). *)
Theorem repeated_tensor_in_list_refuted : exists prog inputs, good prog /\ prog = [x_in; y_in; Fx 9 FFunction 1 [AList [X; Y; X]] []; ret [ANode 9]] /\
  expected no_quant prog inputs = [One [500; 1; 2; 1]] /\ rebuilt no_quant prog inputs = Ok [OTensor [500; 1; 1; 2]].
Proof. eexists. exists [[1]; [2]]. split; [|split; [reflexivity|split; reflexivity]]. apply good_spec; reflexivity. Qed.
(* FINDING (graph_builders.py L381-390): the outcome depends on which tensor was computed first: cat([x, x, y]) is
   rebuilt as cat([x, y, x]) if y was computed before x. *)
Theorem repeated_tensor_order_refuted : exists prog inputs, good prog /\ prog = [y_in; x_in; Fx 9 FFunction 1 [AList [X; X; Y]] []; ret [ANode 9]] /\
  expected no_quant prog inputs = [One [500; 1; 1; 2]] /\ rebuilt no_quant prog inputs = Ok [OTensor [500; 1; 2; 1]].
Proof. eexists. exists [[2]; [1]]. split; [|split; [reflexivity|split; reflexivity]]. apply good_spec; reflexivity. Qed.
(* FINDING (graph_builders.py L87-94, L248-251): where(x, c, x) with a constant c is rebuilt as where(x, x, c). *)
Theorem repeated_tensor_around_constant_refuted : exists prog inputs, good prog /\ prog = [x_in; c_attr; Fx 9 FFunction 1 [X; C5; X] []; ret [ANode 9]] /\
  expected no_quant prog inputs = [One [1; 105; 1]] /\ rebuilt no_quant prog inputs = Ok [OTensor [1; 1; 105]].
Proof. eexists. exists [[1]]. split; [|split; [reflexivity|split; reflexivity]]. apply good_spec; reflexivity. Qed.
(* FINDING (graph_builders.py L248-251): a constant used twice in a call is recorded once; the call loses an argument
   (the mismatch is only logged, pytorch_model_builder.py L88). *)
Theorem repeated_constant_refuted : exists prog inputs, good prog /\ prog = [x_in; c_attr; Fx 9 FFunction 1 [C5; X; C5] []; ret [ANode 9]] /\
  expected no_quant prog inputs = [One [105; 1; 105]] /\ rebuilt no_quant prog inputs = Ok [OTensor [105; 1]].
Proof. eexists. exists [[1]]. split; [|split; [reflexivity|split; reflexivity]]. apply good_spec; reflexivity. Qed.
(* FINDING (graph_builders.py L381): edges are counted over the positional arguments only: f(x, o=x) loses the
   keyword argument. *)
Theorem repeated_keyword_tensor_refuted : exists prog inputs, good prog /\ prog = [x_in; Fx 9 FFunction 1 [X] [(key_other, X)]; ret [ANode 9]] /\
  expected no_quant prog inputs = [One [1; 1001]] /\ rebuilt no_quant prog inputs = Ok [OTensor [1]].
Proof. eexists. exists [[1]]. split; [|split; [reflexivity|split; reflexivity]]. apply good_spec; reflexivity. Qed.
(* FINDING (graph_builders.py L308): a node inside a tuple argument, as in reshape(x, (n, 3)), is left in place: the
   rebuilt call receives the fx node itself. *)
Theorem nested_node_refuted : exists prog inputs, good prog /\ prog = [x_in; y_in; Fx 9 FFunction 1 [X; AList [Y; AConst 3]] []; ret [ANode 9]] /\
  expected no_quant prog inputs = [One [1; 500; 2; 3]] /\ rebuilt no_quant prog inputs = Ok [OTensor [1; 500; 999; 3]].
Proof. eexists. exists [[1]; [2]]. split; [|split; [reflexivity|split; reflexivity]]. apply good_spec; reflexivity. Qed.
(* FINDING (graph_builders.py L290-294): a list of tensors passed by keyword, as in cat(tensors=[x, y]), is passed
   twice, as tensors in front and as fx nodes by keyword. *)
Theorem keyword_list_refuted : exists prog inputs, good prog /\ prog = [x_in; y_in; Fx 9 FFunction 1 [] [(key_other, AList [X; Y])]; ret [ANode 9]] /\
  expected no_quant prog inputs = [One [1001]] /\ rebuilt no_quant prog inputs = Ok [OTensor [1; 2; 1001]].
Proof. eexists. exists [[1]; [2]]. split; [|split; [reflexivity|split; reflexivity]]. apply good_spec; reflexivity. Qed.
(* FINDING (graph_builders.py L322-323): the arguments of a layer which are not tensors, positional or by keyword, are
   dropped. *)
Theorem layer_arguments_refuted : exists prog inputs, good prog /\ prog = [x_in; Fx 9 FModule 1 [X; AConst 3] [(key_other, AConst 4)]; ret [ANode 9]] /\
  expected no_quant prog inputs = [One [1; 3; 1001]] /\ rebuilt no_quant prog inputs = Ok [OTensor [1]].
Proof. eexists. exists [[1]]. split; [|split; [reflexivity|split; reflexivity]]. apply good_spec; reflexivity. Qed.
(* FINDING (graph_builders.py L214): a tensor returned twice is returned once by the rebuilt model. *)
Theorem returned_twice_refuted : exists prog inputs, good prog /\ prog = [x_in; Fx 9 FFunction 1 [X] []; ret [ANode 9; ANode 9]] /\
  expected no_quant prog inputs = [One [1]; One [1]] /\ rebuilt no_quant prog inputs = Ok [OTensor [1]].
Proof. eexists. exists [[1]]. split; [|split; [reflexivity|split; reflexivity]]. apply good_spec; reflexivity. Qed.
(* FINDING (pytorch_model_builder.py L63-66): a Python list returned by a node is passed on element by element: g(f(x))
   is rebuilt as g(a, b) when f returns [a, b]. *)
Theorem list_output_refuted : exists prog inputs, good prog /\ prog = [x_in; Fx 8 FModule 7 [X] []; Fx 9 FModule 1 [ANode 8] []; ret [ANode 9]] /\
  expected no_quant prog inputs = [One [500; 10; 20]] /\ rebuilt no_quant prog inputs = Ok [OTensor [10; 20]].
Proof. eexists. exists [[1]]. split; [|split; [reflexivity|split; reflexivity]]. apply good_spec; reflexivity. Qed.
(* FINDING (pytorch_model_builder.py L158-159): quantizing the outputs of a node that returns a list joins them into
   one tensor. *)
Theorem quantized_list_refuted : exists prog inputs, good prog /\ prog = [x_in; Fx 9 FModule 7 [X] []; ret [ANode 9]] /\
  expected quant_9 prog inputs = [Many [[10; 0]; [20; 0]]] /\ rebuilt quant_9 prog inputs = Ok [OTensor [10; 20; 0]].
Proof. eexists. exists [[1]]. split; [|split; [reflexivity|split; reflexivity]]. apply good_spec; reflexivity. Qed.
Print Assumptions quantized_list_refuted.
