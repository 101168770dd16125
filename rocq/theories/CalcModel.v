(* CalcModel.v -- the loop that gives every node, candidate and weights attribute its quantization parameters.
   Sources (model_compression_toolkit/core/common/):
     quantization/quantization_params_generation/qparams_computation.py L34-139
     quantization/quantization_params_generation/qparams_weights_computation.py get_weights_qparams L28-70
     graph/base_node.py is_weights_quantization_enabled L223-245, _get_weight_name L292-304,
       get_weights_by_keys L306-322, get_node_weights_attributes L349-355, get_all_weights_attr_candidates L632-644
     quantization/node_quantization_config.py get_attr_config L452-485, _extract_config_for_attributes_with_name L544-560
   Simplifications: T is the type of tensors, P of weights parameters, X of the remaining fields of an attribute's
   configuration, C of an activation configuration and R of activation parameters; the parameter functions are
   arbitrary ([wfn]: get_weights_qparams, [afn]: get_activations_qparams on the node's own statistics; ActParamModel
   models the latter).  No final configuration is set yet (L233).  Fetching Hessian scores is the list of nodes
   they are requested for. *)
From Coq Require Import String.
From Verif Require Import Base SDict FilterModel.
Local Open Scope list_scope.
Local Open Scope nat_scope.

Inductive akey := KN (s : string) | KP (i : Z).   (* a name, or the position of a constant input *)
Inductive werr := WE_hmse | WE_mse | WE_other (k : nat).

Section Calc.
  Context {T P X C R : Type}.

  Record wattr := { wa_enabled : bool; wa_err : werr; wa_axis : option (Z * Z); wa_rest : X; wa_params : option P }.
  Record cand := { cd_named : list (string * wattr); cd_pos : list (Z * wattr); cd_min_th : Q;
                   cd_act : C; cd_act_params : option R }.
  Record cnode := { kn_weights : list (akey * T); kn_kernel : option string; kn_act : bool; kn_cands : list cand }.

  Variable wfn : option T -> Q -> werr -> X -> option Z -> result (P * option Z).
  Variable afn : cnode -> C -> result R.

  Fixpoint zget (k : Z) (d : list (Z * wattr)) : option wattr :=
    match d with [] => None | (k', v) :: r => if Z.eqb k k' then Some v else zget k r end.
  Fixpoint zset (k : Z) (v : wattr) (d : list (Z * wattr)) : list (Z * wattr) :=
    match d with [] => [(k, v)] | (k', v') :: r => if Z.eqb k k' then (k', v) :: r else (k', v') :: zset k v r end.

  (* node_quantization_config.py L452-485: the entry found for an attribute, as a key *)
  Definition attr_key (c : cand) (a : akey) : result akey :=
    match a with
    | KP i => match zget i (cd_pos c) with Some _ => Ok (KP i) | None => Err E_critical end
    | KN s => match filter (fun kv => str_contains (fst kv) s) (cd_named c) with
              | [(k, _)] => Ok (KN k)
              | [] => Err E_critical
              | _ => match sget s (cd_named c) with Some _ => Ok (KN s) | None => Err E_critical end
              end
    end.
  Definition key_get (c : cand) (a : akey) : result wattr :=
    match (match a with KP i => zget i (cd_pos c) | KN s => sget s (cd_named c) end) with
    | Some v => Ok v | None => Err E_critical end.
  Definition attr_config (c : cand) (a : akey) : result wattr := let! k := attr_key c a in key_get c k.
  (* in-place update of the configuration object found under a key *)
  Definition key_set (c : cand) (a : akey) (v : wattr) : cand :=
    match a with
    | KP i => {| cd_named := cd_named c; cd_pos := zset i v (cd_pos c); cd_min_th := cd_min_th c;
                 cd_act := cd_act c; cd_act_params := cd_act_params c |}
    | KN s => {| cd_named := sset s v (cd_named c); cd_pos := cd_pos c; cd_min_th := cd_min_th c;
                 cd_act := cd_act c; cd_act_params := cd_act_params c |}
    end.

  (* base_node.py L302-304: a string key compared with an integer name is a TypeError ("in" on a string) *)
  Fixpoint weight_names (name : akey) (ws : list (akey * T)) : result (list T) :=
    match ws with
    | [] => Ok []
    | (k, t) :: r =>
        let! hit := match k, name with
                    | KP i, KP j => Ok (Z.eqb j i)
                    | KP _, KN _ => Ok false
                    | KN k, KN s => Ok (str_contains k s)
                    | KN _, KP _ => Err E_type
                    end in
        let! rest := weight_names name r in
        Ok (if hit : bool then t :: rest else rest)
    end.
  (* L306-322 *)
  Definition weight_by_key (name : akey) (ws : list (akey * T)) : result (option T) :=
    let! l := weight_names name ws in
    Ok (match l with [t] => Some t | _ => None end).

  (* L223-245, no final configuration *)
  Definition attr_enabled (n : cnode) (a : akey) : result bool :=
    let! cfgs := mapM (fun c => attr_config c a) (kn_cands n) in
    Ok (forallb wa_enabled cfgs).

  (* qparams_computation.py L112-120: HMSE only for attributes whose name contains the kernel's name; for the
     position of a constant, "kernel_attr not in attr" is a TypeError when the node has a kernel *)
  Definition effective_err (n : cnode) (a : akey) (e : werr) : result werr :=
    match e with
    | WE_hmse =>
        match kn_kernel n, a with
        | None, _ => Ok WE_mse
        | Some k, KN s => Ok (if str_contains s k then WE_hmse else WE_mse)
        | Some _, KP _ => Err E_type
        end
    | _ => Ok e
    end.

  (* L100-130, one attribute of one candidate *)
  Definition calc_attr (n : cnode) (c : cand) (a : akey) : result cand :=
    let! en := attr_enabled n a in
    if negb en then Ok c else
    let! k := attr_key c a in
    let! cfg := key_get c k in
    let! e := effective_err n a (wa_err cfg) in
    let! w := weight_by_key a (kn_weights n) in
    let! (p, ax) := wfn w (cd_min_th c) e (wa_rest cfg) (option_map fst (wa_axis cfg)) in
    match wa_axis cfg, ax with
    | Some (_, inp), Some o =>
        Ok (key_set c k {| wa_enabled := wa_enabled cfg; wa_err := wa_err cfg; wa_axis := Some (o, inp);
                           wa_rest := wa_rest cfg; wa_params := Some p |})
    | Some (_, inp), None => Err E_type   (* an axis always comes back when one is given *)
    | None, _ => Err E_attr               (* L129: None.input *)
    end.

  (* L98-139, one candidate *)
  Definition calc_cand (n : cnode) (c : cand) : result cand :=
    let! c := foldM (calc_attr n) (map fst (kn_weights n)) c in
    if kn_act n then
      let! r := afn n (cd_act c) in
      Ok {| cd_named := cd_named c; cd_pos := cd_pos c; cd_min_th := cd_min_th c;
            cd_act := cd_act c; cd_act_params := Some r |}
    else Ok c.
  Definition calc_node (n : cnode) : result cnode :=
    let! cs := mapM (calc_cand n) (kn_cands n) in
    Ok {| kn_weights := kn_weights n; kn_kernel := kn_kernel n; kn_act := kn_act n; kn_cands := cs |}.

  (* L83-98: the nodes asked for, "nodes or graph.nodes()"; nodes are given by their index in the graph *)
  Definition calc_graph (nodes : list nat) (g : list cnode) : result (list cnode) :=
    let todo := match nodes with [] => seq 0 (length g) | _ => nodes end in
    mapM (fun p => if existsb (Nat.eqb (fst p)) todo then calc_node (snd p) else Ok (snd p)) (combine (seq 0 (length g)) g).

  (* L46-53: the nodes Hessian scores are requested for *)
  Definition hmse_node (n : cnode) : result bool :=
    match kn_kernel n with
    | None => Ok false
    | Some k =>
        let! en := attr_enabled n (KN k) in
        if negb en then Ok false else
        let! cfgs := mapM (fun c => attr_config c (KN k)) (kn_cands n) in
        Ok (forallb (fun cfg => match wa_err cfg with WE_hmse => true | _ => false end) cfgs)
    end.
End Calc.
Arguments wattr : clear implicits.
Arguments cand : clear implicits.
Arguments cnode : clear implicits.
