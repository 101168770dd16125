(* KBuildModel.v -- the names of the nodes of a Keras graph, and the Keras model built back from the graph.
   Sources (under model_compression_toolkit/core/keras):
     reader/node_builder.py L205-306 (names and reuse), reader/connectivity_handler.py L225-237,
     back2framework/instance_builder.py L30-125, back2framework/keras_model_builder.py L111-326,
     graph_substitutions/substitutions/separableconv_decomposition.py L114-132 (names of decomposed nodes).
   A tensor is a value of V, and building the model and calling it on the inputs are one step.  op l n gives
   what the layer object l returns when it is called with the arguments of node n (KCallModel.v has the
   arguments); quant n is the activation quantizer attached after n, if there is one.
   Simplifications: tf.keras.Model is taken to raise ValueError when two of the built layers have one name
   (Keras checks those between the inputs and the outputs); a quantizer called on a list of tensors packs
   them into one tensor; wrappers of layers are part of op. *)
From Coq Require Import String Ascii DecimalString.
From Verif Require Import Base GraphModel FxModel KReadModel.
Open Scope res_scope.
Local Open Scope nat_scope.

(* ---- names ---- *)
Record bnode := BNode { b_id : nat; b_name : string; b_reuse : bool; b_layer : nat }.
Definition dec (i : nat) : string := NilEmpty.string_of_uint (Nat.to_uint i).
Open Scope string_scope.
(* node_builder.py L46, L239 *)
Definition reused_name (s : string) (i : nat) : string := s ++ "_reused_" ++ dec i.
Definition taken (st : list bnode) (s : string) : bool := existsb (fun b => String.eqb (b_name b) s) st.
(* L235-237; the loop ends within the given number of rounds *)
Fixpoint next_index (st : list bnode) (s : string) (rounds i : nat) : nat :=
  match rounds with
  | 0 => i
  | S r => if taken st (reused_name s i) then next_index st s r (S i) else i
  end.
(* L231-245, L305, for a node of the layer object l, named s *)
Definition name_node (st : list bnode) (x : nat * (string * nat)) : list bnode :=
  let '(u, (s, l)) := x in
  st ++ [if taken st s then BNode u (reused_name s (next_index st s (S (length st)) 1)) true l else BNode u s false l].
(* connectivity_handler.py L232-237: one dictionary of names for each level *)
Definition name_level (xs : list (nat * (string * nat))) : list bnode := fold_left name_node xs [].
(* the nodes of the flat graph of a model with nested models: the input layers of nested models are dropped when
   the graphs are merged (nodes_merger.py L24-46).  nm: the names; lay: the layer object of a node *)
Definition kept_node (top : bool) (n : knode) : bool := match layer n with LInput => top | LOp => true | LModel _ => false end.
Fixpoint read_names (nm : nat -> string) (lay : nat -> nat) (top : bool) (m : kmodel) : list bnode :=
  match m with KModel ns _ _ =>
    let level := name_level (map (fun n => (uid n, (nm (kname n), lay (uid n)))) ns) in
    flat_map (fun n => match n with
                       | KNode _ _ (LModel inner) _ _ => read_names nm lay false inner
                       | _ => if kept_node top n then filter (fun b => Nat.eqb (b_id b) (uid n)) level else [] end) ns
  end.

(* str.split('_') and '_'.join *)
Fixpoint split_ (s : string) : list string :=
  match s with
  | EmptyString => [EmptyString]
  | String c r => if Ascii.eqb c "_" then EmptyString :: split_ r
                  else match split_ r with x :: l => String c x :: l | [] => [String c EmptyString] end
  end.
Fixpoint join_ (l : list string) : string :=
  match l with [] => "" | [x] => x | x :: r => x ++ "_" ++ join_ r end.
(* l[:-2] and l[-2:] *)
Definition but_two {A} (l : list A) : list A := firstn (length l - 2) l.
Definition last_two {A} (l : list A) : list A := skipn (length l - 2) l.
(* instance_builder.py L66 *)
Definition original_name (s : string) : string := join_ (but_two (split_ s)).
(* separableconv_decomposition.py L116, L132 with part = "dw" or "pw" *)
Definition part_name (part s : string) (reuse : bool) : string :=
  if reuse then join_ (but_two (split_ s)) ++ "_" ++ part ++ "_" ++ join_ (last_two (split_ s)) else s ++ "_" ++ part.
Close Scope string_scope.

(* instance_builder.py L52-72, L103-125: sorted are the nodes in the order of node_sort *)
Definition op_function (sorted : list bnode) (b : bnode) : result nat :=
  if b_reuse b then match find (fun k => negb (b_reuse k) && String.eqb (b_name k) (original_name (b_name b))) sorted with
                    | Some k => Ok (b_layer k) | None => Err E_index end
  else Ok (b_layer b).
Definition node_of (bs : list bnode) (n : nat) : option bnode := find (fun b => Nat.eqb (b_id b) n) bs.
Fixpoint distinct_names (l : list string) : bool :=
  match l with [] => true | x :: r => negb (existsb (String.eqb x) r) && distinct_names r end.

(* ---- the built model ---- *)
Section Build.
Context {V : Type} (op : nat -> nat -> list V -> ores V) (quant : nat -> option (V -> V)) (pack : list V -> V).

(* keras_model_builder.py L189-211 *)
Definition build_inputs_list (g : graph) (env : list (nat * list V)) (n : nat) : result (list V) :=
  mapM (fun e => match dict_get env (src e) with
                 | Some l => match nth_error l (si e) with Some v => Ok v | None => Err E_index end
                 | None => Err E_key end) (sort_by ti (in_edges g n)).
(* L233-297; ins is input_nodes_to_input_tensors *)
Definition run_node (ins : list (nat * V)) (l : nat) (b : bnode) (ts : list V) : result (ores V) :=
  let! o := match ts with
            | [] => match dict_get ins (b_id b) with Some v => Ok (One v) | None => Err E_key end
            | _ => Ok (op l (b_id b) ts) end in
  match b_reuse b, o with false, Many [] => Err E_index | _, _ => Ok o end.
(* L152-157, L299-326: the tensors kept for a node, and those before the activation quantizer *)
Definition kept (n : nat) (o : ores V) : list V * list (@out V) :=
  match quant n, o with
  | Some q, One v => ([q v], [OTensor v])
  | Some q, Many l => ([q (pack l)], [OList l])
  | None, One v => ([v], [OTensor v])
  | None, Many l => (l, map OTensor l)
  end.
(* L142-157 *)
Definition build_step (g : graph) (bs : list bnode) (sorted : list bnode) (ins : list (nat * V))
    (st : list (nat * list V) * list (nat * list (@out V))) (n : nat) : result (list (nat * list V) * list (nat * list (@out V))) :=
  match node_of bs n with
  | None => Err E_key
  | Some b =>
      let! l := op_function sorted b in
      let! ts := build_inputs_list g (fst st) n in
      let! o := run_node ins l b ts in
      Ok ((n, fst (kept n o)) :: fst st, (n, snd (kept n o)) :: snd st)
  end.
(* L183-187: a later node replaces an earlier one of the same name; the states list the latest node first *)
Definition by_name {A} (bs : list bnode) (env : list (nat * A)) (s : string) : option A :=
  option_map snd (find (fun p => match node_of bs (fst p) with Some b => String.eqb (b_name b) s | None => false end) env).
Definition flat_out (o : @out V) : list V := match o with OTensor v => [v] | OList l => l end.
(* L164-176 *)
Definition pick (bs : list bnode) (all float_out : bool) (st : list (nat * list V) * list (nat * list (@out V))) (o : nat * nat) : result (@out V) :=
  match node_of bs (fst o) with
  | None => Err E_key
  | Some b => match by_name bs (fst st) (b_name b), by_name bs (snd st) (b_name b) with
    | Some l, Some lf =>
        if Nat.eqb (length l) 1 || negb all
        then match (if float_out then nth_error lf (snd o) else option_map OTensor (nth_error l (snd o))) with Some x => Ok x | None => Err E_index end
        else Ok (OList (if float_out then flat_map flat_out lf else l))
    | _, _ => Err E_key end
  end.
(* build_model L111-181, the model called on xs; order is node_sort, append is append2output *)
Definition build_model (g : graph) (bs : list bnode) (order : list nat) (append : option (list nat)) (float_out : bool) (xs : list V) : result (list (@out V)) :=
  if negb (Nat.eqb (length xs) (length (g_in g))) then Err E_value else
  let! sorted := mapM (fun n => match node_of bs n with Some b => Ok b | None => Err E_key end) order in
  let ins := rev (combine (g_in g) xs) in
  let! st := foldM (build_step g bs sorted ins) order ([], []) in
  let outs := match append with Some l => map (fun n => (n, 0)) l | None => g_out g end in
  let! ys := mapM (pick bs (match append with Some _ => true | None => false end) float_out st) outs in
  if distinct_names (map b_name (filter (fun b => negb (b_reuse b)) sorted)) then Ok ys else Err E_value.
End Build.
