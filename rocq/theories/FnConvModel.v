(* FnConvModel.v -- C97: PyTorch functions replaced by layers, and the padding of transposed convolutions.
   Model of core/pytorch/graph_substitutions/substitutions/const_holder_conv.py (FunctionalConvSubstitution L27-91),
   functional_linear.py (FunctionalLinear L25-83), convtranspose_dynamic_padding.py (L25-77), of the reading of a function call
   (core/pytorch/reader/graph_builders.py L63-96, L237-251, L285-317) and of core/pytorch/back2framework/instance_builder.py (node_builder
   L23-39).  torch.nn.Conv2d, ConvTranspose2d, Linear, their functions and load_state_dict are written from the PyTorch documentation:
   the layer and the function compute the same function of their parameters, which is arbitrary here. *)
From Coq Require Import List Arith ZArith String Bool.
From Verif Require Import Base.
Import ListNotations.
Open Scope res_scope.
Open Scope string_scope.
Open Scope nat_scope.

(* values of parameters that are no tensors *)
Inductive val := VNone | VInt (n : nat) | VList (l : list nat) | VStr (s : string).
Definition truthy (v : val) : bool := match v with VNone => false | VInt n => negb (Nat.eqb n 0) | VList l => negb (Nat.eqb (List.length l) 0) | VStr s => negb (String.eqb s "") end.
(* an argument: the output of another node, a constant of the model (both by the number of their fx node), a value *)
Inductive arg := AVar (i : nat) | AConst (i : nat) | AVal (v : val).
Record call := mk_call { c_args : list arg; c_kwargs : list (string * arg) }.
Inductive fn := FConv | FConvT | FLinear.
(* the parameters of the functions, in order *)
Definition sig (f : fn) : list string :=
  match f with
  | FConv => ["input"; "weight"; "bias"; "stride"; "padding"; "dilation"; "groups"]
  | FConvT => ["input"; "weight"; "bias"; "stride"; "padding"; "output_padding"; "groups"; "dilation"]
  | FLinear => ["input"; "weight"; "bias"]
  end.
(* defaults of the parameters, the same for the functions and the layers *)
Definition default (p : string) : val := if String.eqb p "padding" || String.eqb p "output_padding" then VInt 0 else VInt 1.

Section M.
  Variable W : Type.                      (* tensors *)
  Variable wshape : W -> list nat.
  Variable const : nat -> W.              (* the constants of the model *)
  Fixpoint kw {A} (l : list (string * A)) (k : string) : option A := match l with [] => None | (k', v) :: r => if String.eqb k' k then Some v else kw r k end.

  (* ---- reading the call: graph_builders.py ---- *)
  Definition tensor_id (a : arg) : option nat := match a with AVar i | AConst i => Some i | AVal _ => None end.
  (* slots of the tensors: a position or a keyword *)
  Inductive slot := Pos (i : nat) | Key (k : string).
  Definition slots (c : call) : list (slot * arg) := (combine (map Pos (seq 0 (List.length (c_args c)))) (c_args c) ++ map (fun ka => (Key (fst ka), snd ka)) (c_kwargs c))%list.
  Definition tensors (c : call) : list (slot * nat) := flat_map (fun sa => match tensor_id (snd sa) with Some i => [(fst sa, i)] | None => [] end) (slots c).
  (* node.all_input_nodes: without repetitions, in order *)
  Fixpoint uniq (l : list nat) : list nat := match l with [] => [] | x :: r => x :: filter (fun y => negb (Nat.eqb y x)) (uniq r) end.
  Definition all_inputs (c : call) : list nat := uniq (map snd (tensors c)).
  Definition is_const (c : call) (i : nat) : bool := existsb (fun sa => match snd sa with AConst j => Nat.eqb i j | _ => false end) (slots c).
  (* weights: position among the inputs (L248-251) *)
  Definition weights (c : call) : list (nat * W) :=
    flat_map (fun ji => if is_const c (snd ji) then [(fst ji, const (snd ji))] else []) (combine (seq 0 (List.length (all_inputs c))) (all_inputs c)).
  (* tensor_input_alloc (L87-94) *)
  Definition allocs (c : call) : list slot := flat_map (fun i => map fst (filter (fun si => Nat.eqb (snd si) i) (tensors c))) (all_inputs c).
  (* op_call_kwargs (L289-294) *)
  Definition value_kwargs (c : call) : list (string * val) := flat_map (fun ka => match snd ka with AVal v => [(fst ka, v)] | _ => [] end) (c_kwargs c).

  (* ---- the substitutions ---- *)
  Record layer := mk_layer { l_fn : fn; l_attr : list (string * val); l_bias_flag : option bool (* BIAS set by the substitution *); l_weight : W; l_bias : option W;
                             l_in : nat; l_out : nat; l_kernel : list nat }.
  Fixpoint index_of (k : string) (l : list slot) : option nat :=
    match l with [] => None | Key k' :: r => if String.eqb k' k then Some 0 else option_map S (index_of k r) | Pos _ :: r => option_map S (index_of k r) end.
  Definition wget (c : call) (j : nat) : option W := match find (fun p => Nat.eqb (fst p) j) (weights c) with Some p => Some (snd p) | None => None end.
  (* const_holder_conv.py L61-70, functional_linear.py L51-60 *)
  Definition kernel_and_bias (c : call) : result (W * option W) :=
    match wget c 1 with
    | None => Err E_critical
    | Some _ =>
        let wi := match index_of "weight" (allocs c) with Some j => j | None => 1 end in
        let bi := match index_of "bias" (allocs c) with Some j => j | None => 2 end in
        match wget c wi with None => Err E_critical | Some w => Ok (w, wget c bi) end
    end.
  (* const_holder_conv.py L38-91; the axes of the channels are those of default_framework_info.py L50-52 *)
  Definition subst_conv (f : fn) (c : call) : result layer :=
    let! wb := kernel_and_bias c in
    let s := wshape (fst wb) in
    let out_axis := match f with FConvT => 1 | _ => 0 end in
    Ok (mk_layer f (value_kwargs c) None (fst wb) (snd wb) (nth (1 - out_axis) s 0) (nth out_axis s 0) (skipn 2 s)).
  (* functional_linear.py L37-83; d and e are the last dimensions of the input and the output *)
  Definition subst_linear (c : call) (d e : nat) : result layer :=
    let! wb := kernel_and_bias c in
    Ok (mk_layer FLinear [] (Some (match snd wb with Some _ => true | None => false end)) (fst wb) (snd wb) d e []).

  (* ---- building the layer: instance_builder.py L34-38 ---- *)
  Definition attr (l : list (string * val)) (p : string) : val := match kw l p with Some v => v | None => default p end.
  Definition groups_of (v : val) : result nat := match v with VInt (S g) => Ok (S g) | _ => Err E_value end.
  (* the shape of the weight of a layer that was built with these channels and groups *)
  Definition weight_shape (l : layer) (g : nat) : list nat :=
    match l_fn l with FConv => l_out l :: l_in l / g :: l_kernel l | FConvT => l_in l :: l_out l / g :: l_kernel l | FLinear => [l_out l; l_in l] end.
  (* a built layer: its parameters, its weight and its bias *)
  Record built := mk_built { b_params : string -> val; b_weight : W; b_bias : option W }.
  Definition same_shape (a b : list nat) : bool := if list_eq_dec Nat.eq_dec a b then true else false.
  (* init is the value a new layer gives to its bias *)
  Definition build (init : W) (l : layer) : result built :=
    let! g := match l_fn l with FLinear => Ok 1 | _ => groups_of (attr (l_attr l) "groups") end in
    if negb (Nat.eqb (l_in l mod g) 0 && Nat.eqb (l_out l mod g) 0) then Err E_value else
    if negb (same_shape (wshape (l_weight l)) (weight_shape l g)) then Err E_runtime else
    let has_bias := match l_bias_flag l with Some b => b | None => match kw (l_attr l) "bias" with Some v => truthy v | None => true end end in
    let! b := (if has_bias then match l_bias l with
                 | Some b => if same_shape (wshape b) [l_out l] then Ok (Some b) else Err E_runtime
                 | None => Ok (Some init) end       (* strict=False: a missing entry leaves the value of the new layer *)
               else Ok None) in
    Ok (mk_built (fun p => attr (l_attr l) p) (l_weight l) b).
End M.

(* ---- convtranspose_dynamic_padding.py L40-58: the output padding of one spatial dimension ---- *)
Record tconv := mk_tconv { t_stride : Z; t_pad : Z; t_kernel : Z; t_dil : Z }.
(* the size of the output of a transposed convolution *)
Definition tconv_out (t : tconv) (op n : Z) : Z := ((n - 1) * t_stride t - 2 * t_pad t + t_dil t * (t_kernel t - 1) + op + 1)%Z.
(* torch.nn.modules.conv._ConvTransposeNd._output_padding, for one dimension: input size n, output size m *)
Definition output_padding (t : tconv) (n m : Z) : result Z :=
  let least := ((n - 1) * t_stride t - 2 * t_pad t + t_dil t * (t_kernel t - 1) + 1)%Z in
  if (m <? least)%Z || (least + t_stride t - 1 <? m)%Z then Err E_value else Ok (m - least)%Z.
(* what PyTorch accepts as output padding *)
Definition padding_accepted (t : tconv) (op : Z) : bool := (0 <=? op)%Z && ((op <? t_stride t)%Z || (op <? t_dil t)%Z).
(* L61-77, for the uses of one layer in order: the first use has reuse = False and sets the padding of the layer *)
Definition dynamic_padding (t : tconv) (uses : list (Z * Z)) : result Z :=
  match uses with [] => Err E_value | (n, m) :: _ => output_padding t n m end.
