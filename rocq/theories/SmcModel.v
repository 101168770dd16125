(* SmcModel.v -- C98: the statistics second moment correction collects.
   Model of core/pytorch/statistics_correction/apply_second_moment_correction.py (L27-73) and core/keras/statistics_correction/
   apply_second_moment_correction.py (L26-66).  Creating the batch normalizations and fusing them again is in ReconModel.v (C36); new
   thresholds of the activations (apply_second_moment_correction_to_graph.py L32-59) are not part of this model.
   Real arithmetic; a tensor is the list of its positions (samples and pixels), each with a number for every channel.  Batch
   normalization is written from the documentation of PyTorch and Keras: PyTorch refuses a batch of one position and takes n/(n-1) times
   the variance of the batch into the moving variance, Keras takes the variance of the batch. *)
From Coq Require Import List Arith Reals String Bool.
From Verif Require Import Base.
Import ListNotations.
Open Scope R_scope.
Open Scope res_scope.

Definition tensor := list (nat -> R).
Fixpoint sumR (l : list R) : R := match l with [] => 0 | x :: r => x + sumR r end.
Definition chan_mean (x : tensor) (c : nat) : R := sumR (map (fun p => p c) x) / INR (List.length x).
Definition chan_var (x : tensor) (c : nat) : R := sumR (map (fun p => (p c - chan_mean x c) ^ 2) x) / INR (List.length x).
Inductive framework := Torch | Keras.
Record bn := mk_bn { gamma : nat -> R; beta : nat -> R; mmean : nat -> R; mvar : nat -> R; eps : R; decay : R (* what is kept of the old value: 1 - momentum in PyTorch, momentum in Keras *) }.
(* a layer of the model, its inputs are the outputs of earlier layers (the first ones are the inputs of the model); an operation can
   compute something else in training mode *)
Inductive body := Op (f g : list tensor -> tensor) | Bn (b : bn).
Record layer := mk_layer { l_name : string; l_in : list nat; l_body : body }.
(* the nodes of the graph: name, whether weights_second_moment_correction is set, weights of a batch normalization *)
Record gnode := mk_gnode { g_name : string; g_flag : bool; g_bn : option bn }.

Definition normalize (b : bn) (mean var : nat -> R) (x : tensor) : tensor :=
  map (fun p c => beta b c + (p c - mean c) * (gamma b c / sqrt (var c + eps b))) x.
Definition bn_eval (b : bn) (x : tensor) : tensor := normalize b (mmean b) (mvar b) x.
(* what goes into the moving variance *)
Definition run_var (fw : framework) (x : tensor) (c : nat) : R :=
  match fw with Torch => chan_var x c * (INR (List.length x) / (INR (List.length x) - 1)) | Keras => chan_var x c end.
Definition moved (fw : framework) (b : bn) (x : tensor) : bn :=
  mk_bn (gamma b) (beta b) (fun c => decay b * mmean b c + (1 - decay b) * chan_mean x c) (fun c => decay b * mvar b c + (1 - decay b) * run_var fw x c) (eps b) (decay b).
Definition bn_train (fw : framework) (b : bn) (x : tensor) : result (tensor * bn) :=
  match fw with
  | Torch => if Nat.leb (List.length x) 1 then Err E_value else Ok (normalize b (chan_mean x) (chan_var x) x, moved fw b x)
  | Keras => Ok (normalize b (chan_mean x) (chan_var x) x, moved fw b x)
  end.

Section Graph.
  Variable fw : framework.
  Variable nodes : list gnode.
  (* graph.find_node_by_name(name)[0] *)
  Definition node_of (name : string) : option gnode := find (fun n => String.eqb (g_name n) name) nodes.
  (* PyTorch L47-52: the flagged batch normalizations are in training mode; Keras L44-52: the call is in training mode for every layer
     and every batch normalization is trainable, as it is when it is built *)
  Definition in_training (l : layer) : bool :=
    match fw with Keras => true | Torch => match node_of (l_name l), l_body l with Some n, Bn _ => g_flag n | _, _ => false end end.
  (* one layer on the outputs so far *)
  Definition call_layer (env : list tensor) (l : layer) : result (tensor * layer) :=
    let xs := map (fun i => nth i env []) (l_in l) in
    match l_body l with
    | Op f g => Ok (if in_training l then g xs else f xs, l)
    | Bn b => let x := hd [] xs in
              if in_training l then let! r := bn_train fw b x in Ok (fst r, mk_layer (l_name l) (l_in l) (Bn (snd r))) else Ok (bn_eval b x, l)
    end.
  Fixpoint forward (env : list tensor) (ls : list layer) : result (list tensor * list layer) :=
    match ls with
    | [] => Ok (env, [])
    | l :: r => let! ol := call_layer env l in
                let! er := forward (env ++ [fst ol]) r in Ok (fst er, snd ol :: snd er)
    end.
  (* the loop over the representative data: PyTorch L54-56, Keras L51-52 *)
  Definition run (ls : list layer) (data : list (list tensor)) : result (list layer) :=
    foldM (fun ls x => let! r := forward x ls in Ok (snd r)) data ls.
  (* PyTorch L61-71, Keras L55-65: the weights of the flagged batch normalizations are written into the first node with this name *)
  Fixpoint write (name : string) (b : bn) (ns : list gnode) : list gnode :=
    match ns with [] => [] | n :: r => if String.eqb (g_name n) name then mk_gnode (g_name n) (g_flag n) (Some b) :: r else n :: write name b r end.
  Definition store (ls : list layer) : list gnode :=
    fold_left (fun ns l => match node_of (l_name l), l_body l with Some n, Bn b => if g_flag n then write (l_name l) b ns else ns | _, _ => ns end) ls nodes.
  Definition second_moment_correction (ls : list layer) (data : list (list tensor)) : result (list gnode) :=
    let! ls := run ls data in Ok (store ls).
End Graph.
