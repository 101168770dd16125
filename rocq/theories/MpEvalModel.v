(* MpEvalModel.v -- the model that the mixed-precision search evaluates: which quantizers it contains, which
   candidates they hold, and which layers are switched for a node.
   Sources (under model_compression_toolkit/core): common/mixed_precision/sensitivity_eval/sensitivity_evaluation.py
   L75-119, common/mixed_precision/configurable_quantizer_utils.py L24-110,
   {keras,pytorch}/mixed_precision/configurable_{weights,activation}_quantizer.py,
   {keras,pytorch}/back2framework/mixed_precision_model_builder.py, common/graph/base_node.py L182-274, L475-502, L565-578,
   L632-644, L712-729, common/graph/base_graph.py L554-630, pytorch/back2framework/pytorch_model_builder.py L270-354, L421-429.
   Simplifications: the attribute of a weight is looked up by its exact name (names that contain each other are C71);
   the fields that the configurations' __eq__ compares, other than the bit-width and the switch, are one number; objects
   are numbered by the node they are built for; a further call names the node of the first call of its layer (finding it
   is C68 for PyTorch and C82 for Keras); node names are distinct, so that dictionaries keyed by names are lists. *)
From Coq Require Import String.
From Verif Require Import Base SDict SensModel.
Open Scope res_scope.
Local Open Scope list_scope.
Local Open Scope Z_scope.

Inductive amode : Set := AQuant | ANoQuant | APreserve | AFlnQuant | AFlnNoQuant.
Definition amode_eqb (a b : amode) : bool :=
  match a, b with AQuant, AQuant | ANoQuant, ANoQuant | APreserve, APreserve | AFlnQuant, AFlnQuant | AFlnNoQuant, AFlnNoQuant => true | _, _ => false end.
(* the configuration of one weight, the activation configuration, a candidate *)
Record wattr : Set := WA { w_bits : Z; w_on : bool; w_rest : nat }.
Record acfg : Set := AC { a_bits : Z; a_mode : amode; a_rest : nat }.
Record cand : Set := Cand { c_ws : list (string * wattr); c_act : acfg }.
Definition wattr_eqb (a b : wattr) : bool := Z.eqb (w_bits a) (w_bits b) && Bool.eqb (w_on a) (w_on b) && Nat.eqb (w_rest a) (w_rest b).
Definition acfg_eqb (a b : acfg) : bool := Z.eqb (a_bits a) (a_bits b) && amode_eqb (a_mode a) (a_mode b) && Nat.eqb (a_rest a) (a_rest b).

(* a node: m_owner is the node of the first call of its layer, m_func a call of a function, m_weights its weights,
   m_kernel its kernel, m_outs the number of output shapes if output_shape is a list *)
Record mnode : Set := MN { m_id : nat; m_name : string; m_reuse : bool; m_owner : string; m_func : bool;
  m_weights : list string; m_kernel : option string; m_outs : option nat; m_cands : list cand }.
Definition with_cands (n : mnode) (cs : list cand) : mnode :=
  MN (m_id n) (m_name n) (m_reuse n) (m_owner n) (m_func n) (m_weights n) (m_kernel n) (m_outs n) cs.

(* ---- what a node's candidates allow: base_node.py ---- *)
(* get_attr_config *)
Definition attr_of (k : string) (c : cand) : result wattr := match sget k (c_ws c) with Some w => Ok w | None => Err E_critical end.
(* is_weights_quantization_enabled, L223-245 *)
Definition weight_enabled (n : mnode) (k : string) : result bool :=
  let! l := mapM (attr_of k) (m_cands n) in Ok (forallb w_on l).
(* is_activation_quantization_enabled, L182-197 *)
Definition act_enabled (n : mnode) : result bool :=
  match m_cands n with
  | [] => Err E_assert
  | c :: r => if forallb (fun d => amode_eqb (a_mode (c_act d)) (a_mode (c_act c))) r then Ok (amode_eqb (a_mode (c_act c)) AQuant) else Err E_assert
  end.
(* is_configurable_weight, L247-257 with is_all_weights_candidates_equal *)
Definition conf_weight (n : mnode) (k : string) : result bool :=
  let! e := weight_enabled n k in
  if e then let! l := mapM (attr_of k) (m_cands n) in
            Ok (negb (match l with [] => true | w :: r => forallb (fun x => wattr_eqb x w) r end))
  else Ok false.
(* has_any_configurable_weight, L259-265: any() stops at the first *)
Fixpoint any_weight (n : mnode) (ks : list string) : result bool :=
  match ks with [] => Ok false | k :: r => let! b := conf_weight n k in if b then Ok true else any_weight n r end.
(* has_configurable_activation, L267-274 with is_all_activation_candidates_equal *)
Definition conf_act (n : mnode) : result bool :=
  let! e := act_enabled n in
  if e then match m_cands n with [] => Err E_index | c :: _ => Ok (negb (forallb (fun d => acfg_eqb (c_act d) (c_act c)) (m_cands n))) end
  else Ok false.

(* ---- the evaluation graph: sensitivity_evaluation.py L96-106 ---- *)
Definition no_act (c : cand) : cand := Cand (c_ws c) (AC (a_bits (c_act c)) ANoQuant (a_rest (c_act c))).
Definition no_weights (c : cand) : cand := Cand (map (fun kw => (fst kw, WA (w_bits (snd kw)) false (w_rest (snd kw)))) (c_ws c)) (c_act c).
Definition evaluation_node (disable_activations : bool) (n : mnode) : result mnode :=
  let! ca := (if disable_activations then Ok false else conf_act n) in
  let n1 := if ca then n else with_cands n (map no_act (m_cands n)) in
  let! cw := any_weight n1 (m_weights n) in
  Ok (if cw then n1 else with_cands n1 (map no_weights (m_cands n1))).

(* ---- sorting and checking candidates ---- *)
(* (weights_n_bits of the kernel, activation_n_bits); without a kernel only the latter counts *)
Definition key_of (k : option string) (c : cand) : result (Z * Z) :=
  match k with
  | Some k => let! w := attr_of k c in Ok (w_bits w, a_bits (c_act c))
  | None => Ok (0, a_bits (c_act c))
  end.
(* tuples compare lexicographically *)
Definition key_lt (a b : Z * Z) : bool := Z.ltb (fst a) (fst b) || (Z.eqb (fst a) (fst b) && Z.ltb (snd a) (snd b)).
(* list.sort(reverse=True) keeps the order of equal keys *)
Fixpoint insert_desc (x : (Z * Z) * cand) (l : list ((Z * Z) * cand)) : list ((Z * Z) * cand) :=
  match l with [] => [x] | y :: r => if key_lt (fst x) (fst y) then y :: insert_desc x r else x :: l end.
Definition sort_cands (k : option string) (cs : list cand) : result (list cand) :=
  let! ks := mapM (fun c => let! x := key_of k c in Ok (x, c)) cs in
  Ok (map snd (fold_right insert_desc [] ks)).
(* verify_candidates_descending_order, configurable_quantizer_utils.py L24-57 *)
Fixpoint descending (l : list (Z * Z)) : bool :=
  match l with a :: (b :: _) as r => key_lt b a && descending r | _ => true end.
Definition verify_order (k : option string) (cs : list cand) : result unit :=
  let! ks := mapM (key_of k) cs in if descending ks then Ok tt else Err E_assert.
(* find_max_candidate_index, base_node.py L565-578; all candidates have the same weights *)
Definition row (c : cand) : list Z := a_bits (c_act c) :: map (fun kw => w_bits (snd kw)) (c_ws c).
Fixpoint row_lt (a b : list Z) : bool :=
  match a, b with
  | x :: a', y :: b' => Z.ltb x y || (Z.eqb x y && row_lt a' b')
  | [], _ :: _ => true
  | _, [] => false
  end.
Fixpoint row_eqb (a b : list Z) : bool := match a, b with [], [] => true | x :: a', y :: b' => Z.eqb x y && row_eqb a' b' | _, _ => false end.
Definition exceeds (nb mx : list Z) : bool := existsb (fun p => Z.ltb (snd p) (fst p)) (combine nb mx).
Fixpoint index_of (p : list Z -> bool) (l : list (list Z)) (i : Z) : list Z := match l with [] => [] | x :: r => if p x then i :: index_of p r (i + 1) else index_of p r (i + 1) end.
Definition max_index (cs : list cand) : result Z :=
  match map row cs with
  | [] => Err E_value
  | r :: rs =>
      let mx := fold_left (fun m x => if row_lt m x then x else m) rs r in
      match index_of (fun x => row_eqb mx x) (r :: rs) 0 with
      | [i] => if existsb (fun nb => exceeds nb mx) (r :: rs) then Err E_value else Ok i
      | _ => Err E_value
      end
  end.

(* ---- the quantizers: a plain layer, a wrapper with a weights quantizer, a holder with an activation quantizer;
        the candidates of a quantizer and the index it starts with ---- *)
Inductive modl : Set := MPlain (o : nat) | MWrap (o : nat) (cs : list cand) (active : Z) | MHold (o : nat) (cs : list cand) (active : Z).
Definition obj (m : modl) : nat := match m with MPlain o | MWrap o _ _ | MHold o _ _ => o end.
(* mixed_precision_wrapper with ConfigurableWeightsQuantizer.__init__ *)
Definition op_of (n : mnode) : result modl :=
  let plain := MPlain (2 * m_id n) in
  match m_kernel n with
  | None => Ok plain
  | Some k =>
      let! e := weight_enabled n k in
      if negb e then Ok plain
      else let! c := conf_weight n k in
           if negb c then Err E_value
           else let! cs := sort_cands (Some k) (m_cands n) in
                let! i := max_index cs in
                let! _ := verify_order (Some k) cs in
                let! ws := mapM (attr_of k) cs in
                match ws with
                | [] => Ok (MWrap (2 * m_id n) cs i)
                | w :: r => if forallb (fun x => Bool.eqb (w_on x) (w_on w)) r then Ok (MWrap (2 * m_id n) cs i) else Err E_critical
                end
  end.
(* mixed_precision_activation_holder with ConfigurableActivationQuantizer.__init__ *)
Definition holder_of (n : mnode) : result modl :=
  let! c := conf_act n in
  if negb c then Err E_value
  else let! cs := sort_cands (m_kernel n) (m_cands n) in
       let! i := max_index cs in
       let! _ := verify_order (m_kernel n) cs in
       match cs with
       | [] => Err E_critical
       | d :: r => if forallb (fun x => amode_eqb (a_mode (c_act x)) (a_mode (c_act d))) r
                   then match m_outs n with None | Some 1%nat => Ok (MHold (2 * m_id n + 1) cs i) | _ => Err E_critical end
                   else Err E_critical
       end.
(* the holder of a node, if its activation is quantized *)
Definition hold (n : mnode) : result (option modl) :=
  let! e := act_enabled n in if e then let! h := holder_of n in Ok (Some h) else Ok None.

(* get_configurable_sorted_nodes, base_graph.py L554-630 *)
Definition configurable (n : mnode) : result bool :=
  let! w := match m_kernel n with
            | Some k => let! c := conf_weight n k in Ok (c && negb (m_reuse n))
            | None => Ok false
            end in
  let! a := conf_act n in Ok (w || a).
Fixpoint filterM {A} (p : A -> result bool) (l : list A) : result (list A) :=
  match l with [] => Ok [] | x :: r => let! b := p x in let! k := filterM p r in Ok (if b then x :: k else k) end.
(* _find_layers_in_model_by_node, given the weights layers and the activation layers of the node *)
Definition layers_of (n : mnode) (ws acts : list modl) : result (list modl) :=
  let! wq := match m_kernel n with Some k => weight_enabled n k | None => Ok false end in
  let! aq := act_enabled n in
  match wq, aq with
  | true, false => Ok ws
  | false, true => Ok acts
  | true, true => Ok (ws ++ acts)
  | false, false => Err E_critical
  end.
(* a quantization layer as the evaluation sees it (SensModel.v) *)
Definition qlayer_of (m : modl) : list qlayer :=
  match m with
  | MPlain _ => []
  | MWrap o cs _ => [QL QWt o (Z.of_nat (length cs))]
  | MHold o cs _ => [QL QAct o (Z.of_nat (length cs))]
  end.
Definition is_wrap (m : modl) : bool := match m with MWrap _ _ _ => true | _ => false end.
Definition is_hold (m : modl) : bool := match m with MHold _ _ _ => true | _ => false end.

(* the model: the operation and the holder that run for a node, the layers switched for a name, and all quantizers *)
Record mp_model : Set := MP { mp_op : list (string * modl); mp_hold : list (string * modl); mp_conf : list (string * list qlayer); mp_all : list modl }.

(* ---- PyTorch ---- *)
(* ACTIVATION_HOLDER_QUANTIZER of mct_quantizers *)
Definition holder_suffix : string := "_activation_holder_quantizer".
(* str.replace(p, ''), from left to right *)
Fixpoint cut_all (fuel : nat) (p s : string) : string :=
  match fuel with
  | O => s
  | S f => if prefix p s then cut_all f p (substring (String.length p) (String.length s - String.length p) s)
           else match s with EmptyString => EmptyString | String a r => String a (cut_all f p r) end
  end.
Definition py_remove (p s : string) : string := cut_all (S (String.length s)) p s.

(* _add_modules, pytorch_model_builder.py L300-354: the operations by the names of first calls, and the modules by name *)
Definition add_holder (n : mnode) (d : list (string * modl)) : result (list (string * modl)) :=
  let! h := hold n in Ok (match h with Some m => sset (m_name n ++ holder_suffix) m d | None => d end).
Definition add_first (st : list (string * modl) * list (string * modl)) (n : mnode) : result (list (string * modl) * list (string * modl)) :=
  if m_reuse n then Ok st
  else let! op := op_of n in
       let! d := add_holder n (sset (m_name n) op (snd st)) in
       Ok (sset (m_name n) op (fst st), d).
Definition add_again (st : list (string * modl) * list (string * modl)) (n : mnode) : result (list (string * modl) * list (string * modl)) :=
  if m_reuse n
  then match sget (m_owner n) (fst st) with
       | None => Err E_runtime
       | Some op => let! d := add_holder n (sset (m_name n) op (snd st)) in Ok (fst st, d)
       end
  else Ok st.
(* named_children gives every module once, under its first name; functions are no modules and have no quantizers *)
Fixpoint named_children (seen : list nat) (d : list (string * modl)) : list (string * modl) :=
  match d with
  | [] => []
  | (k, m) :: r => if existsb (Nat.eqb (obj m)) seen then named_children seen r else (k, m) :: named_children (obj m :: seen) r
  end.
Definition torch_conf (ch : list (string * modl)) (n : mnode) : result (string * list qlayer) :=
  let ws := map snd (filter (fun km => is_wrap (snd km) && String.eqb (fst km) (m_name n)) ch) in
  let acts := map snd (filter (fun km => is_hold (snd km) && String.eqb (py_remove holder_suffix (fst km)) (m_name n)) ch) in
  let! l := layers_of n ws acts in Ok (m_name n, concat (map qlayer_of l)).
Definition torch_model (disable_activations : bool) (g : list mnode) : result mp_model :=
  let! eg := mapM (evaluation_node disable_activations) g in
  let! st := foldM add_first eg ([], []) in
  let! st := foldM add_again eg st in
  let d := snd st in
  let ch := named_children [] d in
  let! cn := filterM configurable eg in
  let! conf := mapM (torch_conf ch) cn in
  (* getattr(self, node.name) and node_to_activation_quantization_holder *)
  Ok (MP d (concat (map (fun n => match sget (m_name n ++ holder_suffix) d with Some m => [(m_name n, m)] | None => [] end) eg)) conf (map snd ch)).

(* ---- Keras ---- *)
(* a layer of the model: its name, for a wrapper the name of the layer in it, for a holder the names (outer and inner) of
   the layer before it *)
Record klayer : Set := KL { k_mod : modl; k_name : string; k_inner : option string; k_from : option (string * option string) }.
Section Keras.
(* names that Keras gives to wrappers and to the layers of functions; which nodes reach an output of the model built *)
Variables (wname fname : string -> string) (used : string -> bool).
(* the layer that a node calls: node_builder gives it the name of the node *)
Definition keras_op (n : mnode) : result klayer :=
  let! m := op_of n in
  Ok (match m with
      | MWrap _ _ _ => KL m (wname (m_name n)) (Some (m_name n)) None
      | _ => KL m (if m_func n then fname (m_name n) else m_name n) None None
      end).
Definition keras_first (st : list (string * klayer)) (n : mnode) : result (list (string * klayer)) :=
  if m_reuse n then Ok st else let! l := keras_op n in Ok (sset (m_name n) l st).
(* the holder is called on the tensor of the layer; for further calls this is the layer of the first call *)
Definition keras_holder (ops : list (string * klayer)) (n : mnode) : result (list (string * klayer)) :=
  match sget (m_owner n) ops with
  | None => Err E_index
  | Some l => let! h := hold n in
              Ok (match h with Some m => [(m_name n, KL m (m_name n) None (Some (k_name l, k_inner l)))] | None => [] end)
  end.
(* _get_weights_quant_layers and _get_activation_quant_layers *)
Definition named_layer (n : mnode) (l : klayer) : bool := match k_inner l with Some i => String.eqb i (m_name n) | None => false end.
Definition held_layer (n : mnode) (l : klayer) : bool :=
  match k_from l with
  | Some (nm, inner) => String.eqb nm (m_name n) || match inner with Some i => String.eqb i (m_name n) | None => false end
  | None => false
  end.
Definition keras_conf (ls : list klayer) (n : mnode) : result (string * list qlayer) :=
  let ws := map k_mod (filter (fun l => is_wrap (k_mod l) && named_layer n l) ls) in
  let acts := map k_mod (filter (fun l => is_hold (k_mod l) && held_layer n l) ls) in
  let! l := layers_of n ws acts in Ok (m_name n, concat (map qlayer_of l)).
Definition keras_search_model (disable_activations : bool) (g : list mnode) : result mp_model :=
  let! eg := mapM (evaluation_node disable_activations) g in
  let! ops := foldM keras_first eg [] in
  let! hs := mapM (keras_holder ops) eg in
  (* model.layers: the layers on the way to an output *)
  let ls := map snd (filter (fun x => used (fst x)) (ops ++ concat hs)) in
  let! cn := filterM configurable eg in
  let! conf := mapM (keras_conf ls) cn in
  let op := concat (map (fun n => match sget (m_owner n) ops with Some l => [(m_name n, k_mod l)] | None => [] end) eg) in
  Ok (MP op (map (fun x => (fst x, k_mod (snd x))) (concat hs)) conf (map k_mod ls)).
End Keras.

(* ---- running it ---- *)
(* the index every quantizer starts with, and _build_mp_model's last loop (SensModel.disable_all) *)
Definition start (ms : list modl) : qstate := fun o =>
  match find (fun m => Nat.eqb (obj m) o && (is_wrap m || is_hold m)) ms with Some (MWrap _ _ i) | Some (MHold _ _ i) => Some i | _ => None end.
Definition search_state (m : mp_model) : result qstate := disable_all (mp_conf m) (start (mp_all m)).
(* __call__ of the quantizers: the candidate in use, None when the tensor stays as it is (indices are not negative) *)
Definition active (s : qstate) (m : modl) : option cand :=
  match m with
  | MPlain _ => None
  | MWrap o cs _ | MHold o cs _ => match s o with Some i => if Z.ltb i 0 then None else nth_error cs (Z.to_nat i) | None => None end
  end.
(* the configuration by which the kernel k and the activation of a node are quantized when the model runs *)
Definition kernel_run (mp : mp_model) (s : qstate) (n : mnode) (k : string) : option wattr :=
  match sget (m_name n) (mp_op mp) with
  | Some m => match active s m with Some c => sget k (c_ws c) | None => None end
  | None => None
  end.
Definition act_run (mp : mp_model) (s : qstate) (n : mnode) : option acfg :=
  match sget (m_name n) (mp_hold mp) with
  | Some m => option_map c_act (active s m)
  | None => None
  end.
