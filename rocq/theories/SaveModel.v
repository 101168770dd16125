(* SaveModel.v -- C102: writing a quantized model to a file.
   Model of exporter/model_exporter/pytorch/base_pytorch_exporter.py, fakely_quant_onnx_pytorch_exporter.py L68-172,
   fakely_quant_torchscript_pytorch_exporter.py L49-75, exporter/model_wrapper/pytorch/validate_layer.py, and of
   exporter/model_exporter/keras/fakely_quant_keras_exporter.py L64-219, mctq_keras_exporter.py, fakely_quant_tflite_exporter.py L54-64
   and the facades of both frameworks.
   A PyTorch model is a tree of modules; a block calls its children by name, in any way (forward).  Wrappers and holders are those of the package
   mct_quantizers, written from its documentation: a wrapper quantizes its weights, puts them into the layer or among the arguments, and calls the
   layer.  Tracing and the file formats are not part of the model: the file is taken to compute what the module computes that is handed to
   torch.onnx.export, torch.jit or keras save_model.  Not modelled: modules registered under two names, nested Keras models, the
   copying of Keras weights that are not kernel or bias, devices. *)
From Coq Require Import String List Bool Arith.
From Verif Require Import Base.
Import ListNotations.
Open Scope nat_scope.
Open Scope res_scope.

(* an attribute of the layer, or the position of an argument *)
Inductive key := Named (s : string) | At (i : nat).
Definition key_eqb (a b : key) : bool :=
  match a, b with Named s, Named t => String.eqb s t | At i, At j => Nat.eqb i j | _, _ => false end.
Section Assoc.
  Context {K V : Type} (eqb : K -> K -> bool).
  Fixpoint assoc (k : K) (l : list (K * V)) : option V :=
    match l with [] => None | (k', v) :: r => if eqb k k' then Some v else assoc k r end.
  (* assignment in a dictionary: the value read for the key is the new one *)
  Definition put (k : K) (v : V) (l : list (K * V)) : list (K * V) := (k, v) :: l.
End Assoc.
Fixpoint insert_at {A} (p : nat) (a : A) (l : list A) : list A :=
  match p, l with 0, _ => a :: l | S p', x :: r => x :: insert_at p' a r | S _, [] => [a] end.

(* PytorchQuantizationWrapper: whether the layer inside is a module or a function, the layer (given its attributes and arguments), the float
   weights, their quantizers, the attributes quantized_pos_weight_i of the wrapper, and the positions of weights among the arguments *)
Record wrapper (T : Type) := Wrapper {
  w_module : bool; w_layer : (string -> option T) -> list T -> result T; w_attrs : list (string * T);
  w_vars : list (key * T); w_quantizers : list (key * (T -> T)); w_slots : list (nat * T); w_positions : list nat }.
Arguments Wrapper {T}. Arguments w_module {T}. Arguments w_layer {T}. Arguments w_attrs {T}. Arguments w_vars {T}.
Arguments w_quantizers {T}. Arguments w_slots {T}. Arguments w_positions {T}.

Inductive module (T : Type) :=
| Layer (f : list T -> result T)
| Holder (bits : nat) (q : T -> T)
| Wrapped (w : wrapper T)
| Block (children : list (string * module T)) (forward : (string -> list T -> result T) -> list T -> result T).
Arguments Layer {T}. Arguments Holder {T}. Arguments Wrapped {T}. Arguments Block {T}.

(* the wrapper: quantized weights go to the attributes of the layer or to the slots ... *)
Definition quantized_weight {T} (w : wrapper T) (k : key) : result T :=
  match assoc key_eqb k (w_quantizers w), assoc key_eqb k (w_vars w) with Some q, Some v => Ok (q v) | _, _ => Err E_key end.
Definition store {T} (kv : key * T) (st : list (string * T) * list (nat * T)) : list (string * T) * list (nat * T) :=
  match fst kv with Named s => (put s (snd kv) (fst st), snd st) | At i => (fst st, put i (snd kv) (snd st)) end.
(* ... and the layer is called with the slots among its arguments *)
Definition call_layer {T} (w : wrapper T) (attrs : list (string * T)) (slots : list (nat * T)) (args : list T) : result T :=
  let! args' := foldM (fun a p => match assoc Nat.eqb p slots with Some t => Ok (insert_at p t a) | None => Err E_attr end) (w_positions w) args in
  w_layer w (fun s => assoc String.eqb s attrs) args'.
Definition wrapper_call {T} (w : wrapper T) (args : list T) : result T :=
  let! kvs := mapM (fun kq => let! v := quantized_weight w (fst kq) in Ok (fst kq, v)) (w_quantizers w) in
  let st := fold_left (fun st kv => store kv st) kvs (w_attrs w, w_slots w) in
  call_layer w (fst st) (snd st) args.

(* what a module computes *)
Definition first_arg {T} (args : list T) : result T := match args with x :: _ => Ok x | [] => Err E_type end.
Fixpoint run {T} (m : module T) (args : list T) : result T :=
  match m with
  | Layer f => f args
  | Holder _ q => let! x := first_arg args in Ok (q x)
  | Wrapped w => wrapper_call w args
  | Block ch fw => fw (fun name a => (fix go l := match l with
                                                  | [] => Err E_attr
                                                  | (n, c) :: r => if String.eqb name n then run c a else go r end) ch) args
  end.
Definition identity {T} (args : list T) : result T := first_arg args.

(* validate_layer.py (PyTorch): wrappers must have a quantizer *)
Definition exportable {T} (m : module T) : result unit :=
  match m with Wrapped w => if Nat.eqb (length (w_quantizers w)) 0 then Err E_critical else Ok tt | _ => Ok tt end.
Definition children {T} (m : module T) : list (string * module T) := match m with Block ch _ => ch | _ => [] end.
Definition check_children {T} (m : module T) : result unit :=
  let! _ := mapM (fun nc => exportable (snd nc)) (children m) in Ok tt.

(* base_pytorch_exporter.py L59-99 *)
Definition set_step {T} (w : wrapper T) (st : list (string * T) * list (nat * T)) (kq : key * (T -> T)) : result (list (string * T) * list (nat * T)) :=
  let! v := quantized_weight w (fst kq) in
  match fst kq with
  | Named s => match assoc String.eqb s (fst st) with Some _ => Ok (store (fst kq, v) st) | None => Err E_attr end
  | At i => Ok (store (fst kq, v) st)
  end.
Definition set_quantized_weights {T} (w : wrapper T) : result (wrapper T) :=
  let! st := foldM (set_step w) (w_quantizers w) (w_attrs w, w_slots w) in
  Ok (Wrapper (w_module w) (w_layer w) (fst st) (w_vars w) [] (snd st) (w_positions w)).
(* L134-137: all modules of the tree *)
Fixpoint set_all {T} (m : module T) : result (module T) :=
  match m with
  | Wrapped w => let! w' := set_quantized_weights w in Ok (Wrapped w')
  | Block ch fw =>
      let! ch' := (fix go l := match l with
                               | [] => Ok []
                               | (n, c) :: r => let! c' := set_all c in let! r' := go r in Ok ((n, c') :: r') end) ch in
      Ok (Block ch' fw)
  | _ => Ok m
  end.
(* L143-151: children of the model only; a child that is a module can only be replaced by a module (torch.nn.Module.__setattr__) *)
Definition unwrap_child {T} (m : module T) : result (module T) :=
  match m with
  | Wrapped w => if w_module w then Ok (Layer (fun args => w_layer w (fun s => assoc String.eqb s (w_attrs w)) args)) else Err E_type
  | _ => Ok m
  end.
Definition unwrap {T} (m : module T) : result (module T) :=
  match m with
  | Block ch fw => let! ch' := mapM (fun nc => let! c' := unwrap_child (snd nc) in Ok (fst nc, c')) ch in Ok (Block ch' fw)
  | _ => Ok m
  end.
(* fakely_quant_onnx_pytorch_exporter.py L76-94: holders of more than eight bits, wherever they are in the model *)
Definition max_bits : nat := 8.
Fixpoint drop_wide {T} (m : module T) : module T :=
  match m with
  | Block ch fw => Block ((fix go l := match l with
                                       | [] => []
                                       | (n, c) :: r => (n, match c with Holder b _ => if max_bits <? b then Layer identity else c | _ => drop_wide c end) :: go r end) ch) fw
  | _ => m
  end.

(* the formats (pytorch_export_facade.py) *)
Inductive torch_format := Onnx_fq | Onnx_mctq | Torchscript_fq.
Definition torch_export {T} (f : torch_format) (m : module T) : result (module T) :=
  match f with
  | Onnx_fq => let m1 := drop_wide m in let! _ := check_children m1 in set_all m1
  | Onnx_mctq => let! _ := check_children m in Ok m
  | Torchscript_fq => let! _ := check_children m in let! m1 := set_all m in unwrap m1
  end.

(* names of inputs and outputs in the ONNX file, L119-141 *)
Inductive io_name := Plain (s : string) | Indexed (s : string) (i : nat).
(* what the representative dataset gives: a list (or tuple) of n tensors, or one tensor whose first dimension is n *)
Inductive sample := Tensors (n : nat) | Tensor (n : nat).
Definition len (x : sample) : nat := match x with Tensors n => n | Tensor n => n end.
Definition inputs_of (x : sample) : nat := match x with Tensors n => n | Tensor _ => 1 end.
Definition input_names (x : sample) : list io_name :=
  if 1 <? len x then map (Indexed "input") (seq 0 (len x)) else [Plain "input"].
(* outputs: a list of tensors, or one *)
Definition output_names (outs : option nat) (asked : option (list io_name)) : result (list io_name) :=
  match asked with
  | None => Ok match outs with Some n => map (Indexed "output") (seq 0 n) | None => [Plain "output"] end
  | Some l => if Nat.eqb (length l) (match outs with Some n => n | None => 1 end) then Ok l else Err E_assert
  end.

(* base_pytorch_exporter.py L25-56: metadata of the model and its modules *)
Inductive mtree (M : Type) := MT (meta : option M) (subs : list (mtree M)).
Arguments MT {M}.
Fixpoint search {M} (t : mtree M) : list M :=
  match t with MT m subs => (match m with Some x => [x] | None => [] end) ++ flat_map search subs end.
Definition assign_metadata {M} (t : mtree M) : mtree M :=
  match t, search t with MT m subs, x :: _ => MT (Some x) subs | _, [] => t end.

(* ---- Keras ---- *)
Inductive kkind := Depthwise | Conv_like | Other_kind.
Section Keras.
  Context {T : Type}.
  (* an activation quantizer as mct_quantizers has them: with a range and bits, or a lookup table (without a range) *)
  Inductive kquantizer := Ranged (lo hi : list T) (bits : nat) | Lut.
  Inductive klayer :=
  | KWrapped (kind : kkind) (quantizes : bool) (float_weights : list (string * T)) (quantized : list (string * T)) (bias : option T)
  | KHolder (q : kquantizer)
  | KLayer (kind : kkind) (weights : list T)
  | KFakeQuant (lo hi : T) (bits : nat)
  | KOther (id : nat).
  Record kmodel := KModel { k_layers : list klayer; k_metadata : bool }.
  Definition need {A} (o : option A) (e : err) : result A := match o with Some a => Ok a | None => Err e end.
  (* fakely_quant_keras_exporter.py L71-122 *)
  Definition unwrap_layer (l : klayer) : result klayer :=
    match l with
    | KWrapped kind true _ qw bias =>
        let! kernel := match kind with
                       | Depthwise => need (assoc String.eqb "depthwise_kernel"%string qw) E_key
                       | Conv_like => need (assoc String.eqb "kernel"%string qw) E_key
                       | Other_kind => Err E_critical
                       end in
        Ok (KLayer kind (kernel :: match bias with Some b => [b] | None => [] end))
    | _ => Ok l
    end.
  (* L165-219 *)
  Definition fake_quant (l : klayer) : result klayer :=
    match l with
    | KHolder (Ranged [lo] [hi] n) => Ok (KFakeQuant lo hi n)
    | KHolder (Ranged _ _ _) => Err E_assert
    | KHolder Lut => Err E_attr
    | _ => Ok l
    end.
  (* the formats; what is written, and the model of the caller afterwards (L124-127: the metadata layer is deleted) *)
  Inductive keras_format := Keras_fq | Tflite_fq | Keras_mctq.
  Definition keras_export (f : keras_format) (m : kmodel) : result kmodel * kmodel :=
    match f with
    | Keras_mctq => (Ok m, m)
    | _ => let m' := KModel (k_layers m) false in
           ((let! l1 := mapM unwrap_layer (k_layers m') in let! l2 := mapM fake_quant l1 in Ok (KModel l2 false)), m')
    end.
End Keras.
