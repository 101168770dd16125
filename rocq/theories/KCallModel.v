(* KCallModel.v -- what the Keras reader keeps of one call of a function or a layer, and the call the model builder makes
   of it.
   Sources (under model_compression_toolkit/core): keras/reader/node_builder.py L48-50, L65-202, L247-303, L309-343;
     keras/tf_tensor_numpy.py (tf_tensor_to_numpy with is_single_tensor); common/graph/functional_node.py L78-81;
     common/graph/base_node.py L357-373; keras/back2framework/keras_model_builder.py L213-280 for an operation that is
     not wrapped.
   The parameters of the function (tf_inspect.getfullargspec(function).args) are a list of names; names are numbers, in
   the order of the alphabet.  The weights of a node are its positional constants (a functional node has no others,
   L261-262); they are used as they were read. *)
From Verif Require Import Base GraphModel HessianModel.
Open Scope res_scope.
Local Open Scope nat_scope.

(* a value in a call: a tensor of the model, a constant (tf.Variable, tf.Tensor, numpy array), an int or a dictionary,
   any other single value, a list or tuple, the numpy array made of a value *)
Inductive val := VT (t : nat) | VC (c : nat) | VI (i : nat) | VO (o : nat) | VSeq (is_list : bool) (l : list val) | VA (v : val).
(* node_builder L48-49: x[0] of an empty sequence raises *)
Definition is_const (v : val) : result bool :=
  match v with
  | VC _ | VA _ => Ok true
  | VSeq _ [] => Err E_index
  | VSeq _ (VI _ :: _) => Ok false
  | VSeq _ _ => Ok true
  | _ => Ok false
  end.
(* L50 *)
Definition is_tensor (v : val) : bool := match v with VT _ => true | _ => false end.
(* tf.nest.flatten: the tensors in a value, in order *)
Fixpoint tensors_in (v : val) : list nat :=
  match v with VT t => [t] | VSeq _ l => flat_map tensors_in l | _ => [] end.
(* tf_tensor_numpy.py; numpy refuses a sequence with a tensor of the model in it *)
Definition to_numpy (v : val) : result val :=
  match v with
  | VC _ => Ok (VA v)
  | VA _ => Ok v
  | VSeq _ _ => match tensors_in v with [] => Ok (VA v) | _ => Err E_type end
  | _ => Err E_type
  end.

Definition params := list nat.
(* the position of a name among the parameters (L79) *)
Fixpoint position (k : nat) (ps : params) : option nat :=
  match ps with [] => None | p :: r => if Nat.eqb p k then Some 0 else option_map S (position k r) end.
Definition kwargs := list (nat * val).
Definition has_key {V} (k : nat) (d : list (nat * V)) : bool := match dict_get k d with Some _ => true | None => false end.

(* the node made of the call: positional constants, remaining arguments, tensor_input_allocs, inputs_as_list *)
Record fnode := FNode { f_weights : list (nat * val); f_args : list val; f_kw : kwargs; f_allocs : list nat; f_aslist : bool }.

(* L309-325; list_fn: the function is concat, stack or add_n *)
Definition inputs_as_list (list_fn : bool) (args : list val) : bool :=
  list_fn && match args with VSeq true _ :: _ => true | _ => false end.
Definition elems (v : option val) : list val := match v with Some (VSeq _ l) => l | _ => [] end.
(* L185-202 *)
Definition has_const (args : list val) (kw : kwargs) (aslist : bool) : result bool :=
  if aslist then let! l := mapM is_const (elems (hd_error args)) in Ok (existsb id l)
  else let! a := mapM is_const args in
       let! b := mapM (fun kv => is_const (snd kv)) kw in
       Ok (existsb id a || existsb id b).
(* L112-139 *)
Definition arguments_alloc (ps : params) (args : list val) (kw : kwargs) (aslist : bool) : list nat :=
  if aslist then [] else firstn (length args) ps ++ filter (fun k => has_key k kw) (skipn (length args) ps).
Definition nonempty {A} (l : list A) : bool := match l with [] => false | _ => true end.
(* L162-172: constants go to the weights, the other arguments to the keywords when there is an allocation *)
Definition extract_step (aslist : bool) (allocs : list nat) (st : list (nat * val) * kwargs) (p : nat * val) : result (list (nat * val) * kwargs) :=
  let! c := is_const (snd p) in
  if c then let! w := to_numpy (snd p) in Ok (dict_set (fst p) w (fst st), snd st)
  else if negb aslist && nonempty allocs
       then match nth_error allocs (fst p) with
            | Some k => Ok (fst st, dict_set k (snd p) (snd st))
            | None => Err E_index
            end
       else Ok st.
(* L174-182 *)
Definition kept_args (aslist : bool) (allocs : list nat) (ws : list (nat * val)) (kw : kwargs) (args : list val) : result (list val) :=
  if aslist then Ok (tl args)
  else let! keep := mapM (fun p => if has_key (fst p) ws || is_tensor (snd p) then Ok false
                                   else if nonempty allocs
                                        then match nth_error allocs (fst p) with
                                             | Some k => Ok (negb (has_key k kw))
                                             | None => Err E_index
                                             end
                                        else Ok true) (enumerate_from 0 args) in
       Ok (map snd (filter fst (combine keep args))).
(* L82-109 *)
Definition extract_kw (ps : params) (ws : list (nat * val)) (kw : kwargs) : result (list (nat * val) * kwargs) :=
  let! ws := foldM (fun ws kv => let! c := is_const (snd kv) in
                                 if c then match position (fst kv) ps with
                                           | Some i => let! w := to_numpy (snd kv) in Ok (dict_set i w ws)
                                           | None => Err E_key
                                           end
                                 else Ok ws) kw ws in
  Ok (ws, filter (fun kv => negb (match position (fst kv) ps with Some i => has_key i ws | None => false end || is_tensor (snd kv))) kw).
(* L247-285 *)
Definition read_function (ps : params) (list_fn : bool) (args : list val) (kw : kwargs) : result fnode :=
  let aslist := inputs_as_list list_fn args in
  let! c := has_const args kw aslist in
  let allocs := if c then arguments_alloc ps args kw aslist else [] in
  let! st := foldM (extract_step aslist allocs) (enumerate_from 0 (if aslist then elems (hd_error args) else args)) ([], kw) in
  let! args' := kept_args aslist allocs (fst st) (snd st) args in
  let! wk := extract_kw ps (fst st) (snd st) in
  Ok (FNode (fst wk) args' (snd wk) allocs aslist).

(* Keras Node.keras_inputs: the tensors of the call, arguments first, keywords in the order of their names *)
Fixpoint insert_key (p : nat * val) (l : kwargs) : kwargs :=
  match l with [] => [p] | q :: r => if Nat.leb (fst p) (fst q) then p :: l else q :: insert_key p r end.
Definition keras_inputs (args : list val) (kw : kwargs) : list nat :=
  flat_map tensors_in args ++ flat_map (fun kv => tensors_in (snd kv)) (fold_right insert_key [] kw).

(* list.insert *)
Fixpoint insert_at {A} (i : nat) (x : A) (l : list A) : list A :=
  match i, l with 0, _ => x :: l | S _, [] => [x] | S i, y :: r => y :: insert_at i x r end.
(* base_node.py L367-373 *)
Definition insert_weights (ws : list (nat * val)) (ts : list val) : result (list val) :=
  foldM (fun ts (p : nat * val) => if Nat.ltb (length ts) (fst p) then Err E_critical else Ok (insert_at (fst p) (snd p) ts))
        (fold_right insert_key [] ws) ts.
(* keras_model_builder.py L250-260 *)
Definition alloc_step (ws : list (nat * val)) (st : kwargs * list val) (p : nat * nat) : result (kwargs * list val) :=
  if has_key (snd p) (fst st) then Ok st else
  match dict_get (fst p) ws with
  | Some w => Ok (dict_set (snd p) w (fst st), snd st)
  | None => match snd st with
            | [] => Err E_critical
            | t :: r => Ok (dict_set (snd p) t (fst st), r)
            end
  end.
(* L233-274: the arguments and keywords of the new call on the tensors ts; no tensor at all is taken for an input of the
   model *)
Definition build_function (n : fnode) (ts : list nat) : result (list val * kwargs) :=
  if negb (nonempty ts) then Err E_key else
  if f_aslist n
  then let! l := insert_weights (f_weights n) (map VT ts) in Ok (VSeq true l :: f_args n, f_kw n)
  else let! st := foldM (alloc_step (f_weights n)) (enumerate_from 0 (f_allocs n)) (f_kw n, map VT ts) in
       Ok (snd st ++ f_args n, fst st).

(* L286-303 (merge: the layer is a _Merge layer) and builder L261-280: the single argument of the new call *)
Definition read_layer (merge : bool) (args : list val) : result (list (nat * val) * bool) :=
  let first_is_seq := match args with VSeq _ _ :: _ => true | _ => false end in
  let! ws := foldM (fun ws p => let! c := is_const (snd p) in
                                if c then let! w := to_numpy (snd p) in Ok (dict_set (fst p) w ws) else Ok ws)
                   (enumerate_from 0 (elems (hd_error args))) [] in
  Ok (ws, merge && first_is_seq).
Definition build_layer (n : list (nat * val) * bool) (ts : list nat) : result val :=
  if negb (nonempty ts) then Err E_key else
  let! l := insert_weights (fst n) (map VT ts) in
  match l with [x] => if snd n then Ok (VSeq true l) else Ok x | _ => Ok (VSeq true l) end.
