(* FuncSubSpec.v -- what torch.nn.functional.batch_norm, layer_norm and scaled_dot_product_attention compute. *)
From Coq Require Import String.
From Verif Require Import Base GraphModel FxModel FxSpec FuncSubModel.
From Coq Require Import Reals.
Local Open Scope nat_scope.

(* the argument given for a parameter: by position in the signature, else by keyword *)
Fixpoint param_index (k : name) (sig : list name) : nat :=
  match sig with [] => 0 | k' :: r => if String.eqb k k' then 0 else S (param_index k r) end.
Fixpoint keyword (k : name) (kw : list (name * arg)) : option arg :=
  match kw with [] => None | (k', a) :: r => if String.eqb k k' then Some a else keyword k r end.
Definition arg_for (sig : list name) (nd : fxnode) (k : name) : option arg :=
  match nth_error (f_args nd) (param_index k sig) with Some a => Some a | None => keyword k (f_kwargs nd) end.
Definition bn_sig : list name := ["input"; "running_mean"; "running_var"; "weight"; "bias"; "training"; "momentum"; "eps"]%string.
Definition ln_sig : list name := ["input"; "normalized_shape"; "weight"; "bias"; "eps"]%string.
(* scale and enable_gqa can only be given by keyword *)
Definition sdpa_sig : list name := ["query"; "key"; "value"; "attn_mask"; "dropout_p"; "is_causal"]%string.

Section Reference.
Variable dec : nat -> pv.
Local Open Scope R_scope.
Definition number (default : R) (a : option arg) : R :=
  match a with Some (AConst c) => match dec c with PNum e => e | _ => default end | _ => default end.
Definition flag (a : option arg) : bool := match a with Some (AConst c) => match dec c with PBool b => b | _ => false end | _ => false end.
Definition vector (cv : nat -> nat -> R) (default : R) (a : option arg) (i : nat) : R :=
  match a with Some (ANode n) => cv n i | _ => default end.
Definition average (l : list R) : R := fold_right Rplus 0 l / INR (length l).

(* xs: the positions of the batch, each a vector over the channels *)
Definition torch_batch_norm (cv : nat -> nat -> R) (nd : fxnode) (xs : list (nat -> R)) : list (nat -> R) :=
  let a := arg_for bn_sig nd in
  let training := flag (a "training"%string) in
  let mu c := if training then average (map (fun x => x c) xs) else vector cv 0 (a "running_mean"%string) c in
  let var c := if training then average (map (fun x => (x c - mu c) * (x c - mu c)) xs) else vector cv 1 (a "running_var"%string) c in
  map (fun x c => (x c - mu c) / sqrt (var c + number (1 / 100000) (a "eps"%string)) * vector cv 1 (a "weight"%string) c + vector cv 0 (a "bias"%string) c) xs.

(* the dimensions given as normalized_shape *)
Definition dims_of (dim : nat -> nat) (a : option arg) : list nat :=
  match a with
  | Some (AConst c) => [dim c]
  | Some (AList l) => flat_map (fun x => match x with AConst c => [dim c] | _ => [] end) l
  | _ => []
  end.
(* x: the elements of the tensor in row-major order; every block of the size of the normalized shape is normalized *)
Definition torch_layer_norm (cv : nat -> nat -> R) (dim : nat -> nat) (nd : fxnode) (x : list R) (y : list R) : Prop :=
  let a := arg_for ln_sig nd in
  let n := fold_right Nat.mul 1%nat (dims_of dim (a "normalized_shape"%string)) in
  let eps := number (1 / 100000) (a "eps"%string) in
  length y = length x /\
  forall b i, (i < n)%nat -> (b * n + i < length x)%nat ->
    let block := firstn n (skipn (b * n) x) in
    let mu := average block in
    let var := average (map (fun t => (t - mu) * (t - mu)) block) in
    nth (b * n + i) y 0 = (nth (b * n + i) x 0 - mu) / sqrt (var + eps) * vector cv 1 (a "weight"%string) i + vector cv 0 (a "bias"%string) i.

Definition total (n : nat) (f : nat -> R) : R := fold_right Rplus 0 (map f (seq 0 n)).
(* keep i j: whether weight (i, j) survives the dropout *)
Definition torch_attention (cm : nat -> nat -> nat -> R) (keep : nat -> nat -> bool) (nd : fxnode) (q k v : mat) (y : mat) : Prop :=
  let a := arg_for sdpa_sig nd in
  let scale := number (1 / sqrt (INR (cols q))) (keyword "scale" (f_kwargs nd)) in
  let p := number 0 (a "dropout_p"%string) in
  let mask i j := match a "attn_mask"%string with Some (ANode c) => cm c i j | _ => 0 end in
  let score i j := if flag (a "is_causal"%string) && Nat.ltb i j then 0
                   else exp (total (cols q) (fun l => el q i l * el k j l) * scale + mask i j) in
  let weight i j := score i j / total (rows k) (score i) in
  let kept i j := if Req_EM_T p 0 then weight i j else if keep i j then weight i j / (1 - p) else 0 in
  rows y = rows q /\ cols y = cols v /\
  forall i j, el y i j = total (rows k) (fun l => kept i l * el v l j).
End Reference.

(* calls whose tensors are given in the order of the signature, each once *)
Record batch_norm_call (consts : list nat) (nd : fxnode) (x m v : nat) (affine : list nat) : Prop := {
  bc_args : f_args nd = map ANode (x :: m :: v :: affine);
  bc_affine : length affine <= 2;
  bc_input : ~ In x consts;
  bc_keys : NoDup (map fst (f_kwargs nd));
  bc_once : forall k, In k (firstn (3 + length affine) bn_sig) -> ~ In k (map fst (f_kwargs nd));
  bc_flat : flat (map snd (f_kwargs nd));
  bc_distinct : NoDup (nodes_in (f_args nd) ++ nodes_in (map snd (f_kwargs nd)));
  bc_consts : forall n, In n (nodes_in (f_args nd) ++ nodes_in (map snd (f_kwargs nd))) -> n = x \/ In n consts;
  bc_tensors : forall k n, In (k, ANode n) (f_kwargs nd) -> (k = "weight" \/ k = "bias")%string;
  (* weight and bias are given, possibly as None *)
  bc_given : arg_for bn_sig nd "weight" <> None /\ arg_for bn_sig nd "bias" <> None
}.
Record layer_norm_call (consts : list nat) (nd : fxnode) (x : nat) (shape : list arg) (affine : list nat) : Prop := {
  lc_args : f_args nd = ANode x :: shape ++ map ANode affine;
  lc_shape : nodes_in shape = [] /\ (length shape = 1 \/ shape = [] /\ affine = []);
  lc_affine : length affine <= 2;
  lc_input : ~ In x consts;
  lc_keys : NoDup (map fst (f_kwargs nd));
  lc_once : forall k, In k (firstn (1 + length shape + length affine) ln_sig) -> ~ In k (map fst (f_kwargs nd));
  lc_flat : flat (map snd (f_kwargs nd));
  lc_distinct : NoDup (nodes_in (f_args nd) ++ nodes_in (map snd (f_kwargs nd)));
  lc_consts : forall n, In n (nodes_in (f_args nd) ++ nodes_in (map snd (f_kwargs nd))) -> n = x \/ In n consts;
  lc_tensors : forall k n, In (k, ANode n) (f_kwargs nd) -> (k = "weight" \/ k = "bias")%string;
  lc_given : arg_for ln_sig nd "weight" <> None /\ arg_for ln_sig nd "bias" <> None
}.
(* query, key and value are given by position and are not constants; a tensor mask is constant *)
Record attention_call (prog : list fxnode) (nd : fxnode) (q k v : nat) (rest : list arg) (mask : list nat) : Prop := {
  ac_op : f_op nd = FFunction;
  ac_args : f_args nd = map ANode [q; k; v] ++ rest;
  ac_rest : length rest <= 3;
  ac_keys : NoDup (map fst (f_kwargs nd));
  ac_once : forall n, In n (firstn (3 + length rest) sdpa_sig) -> ~ In n (map fst (f_kwargs nd));
  ac_mask : nodes_in rest ++ nodes_in (map snd (f_kwargs nd)) = mask /\ mask = match arg_for sdpa_sig nd "attn_mask" with Some (ANode c) => [c] | _ => [] end;
  ac_inputs : In q (graph_ids prog) /\ In k (graph_ids prog) /\ In v (graph_ids prog);
  ac_consts : forall c, In c mask -> In c (const_ids prog);
  (* the same tensor may be used as key and value, or for all three *)
  ac_same : (q = k -> k = v) /\ (q = v -> k = v)
}.
