(* ManualModel.v -- manually requested bit-widths.

   Modelled (under model_compression_toolkit/core/common/quantization/):
     bit_width_config.py               BitWidthConfig L51-245
     set_node_quantization_config.py   set_manual_bitwidth_config L105-120, _set_manual_activation_bitwidths L124-151,
                                       _set_manual_weights_bitwidths L155-199
   A node matcher is any predicate on nodes; Graph.filter lists the nodes it accepts.  Nodes are dictionary keys by identity,
   here their number.  Logging is not modelled. *)
From Coq Require Import String Ascii.
From Verif Require Import Base SDict MPModel HessianModel FilterModel PlatModel LookupModel CandModel.
Local Open Scope list_scope.

(* an argument given as one value or as a list *)
Inductive arg (A : Type) := One (a : A) | Many (l : list A).
Arguments One {A}. Arguments Many {A}.
Definition to_list {A} (x : arg A) : list A := match x with One a => [a] | Many l => l end.

Record mnode := MNode { mn_id : nat; mn_attrs : list wname; mn_cfg : nodecfg }.
Definition matcher := mnode -> bool.
Record areq := AReq { ar_filter : matcher; ar_bits : Z }.
Record wreq := WReq { wr_filter : matcher; wr_bits : Z; wr_attr : wname }.
Record bwconfig := BW { bw_act : list areq; bw_weights : list wreq }.

(* _expand_to_list_core L124-145 *)
Definition expand {A B} (filters : list A) (vals : arg B) : result (list B) :=
  let v := to_list vals in
  if Nat.ltb 1 (length v) && negb (Nat.eqb (length v) (length filters)) then Err E_critical
  else match v with
       | [x] => if Nat.ltb 1 (length filters) then Ok (map (fun _ => x) filters) else Ok v
       | _ => Ok v
       end.
(* set_manual_activation_bit_width L62-77; set_manual_weights_bit_width L79-96 *)
Definition request_activation (filters : option (arg matcher)) (bits : arg Z) (c : bwconfig) : result bwconfig :=
  match filters with
  | None => Err E_critical
  | Some f => let! b := expand (to_list f) bits in
              Ok (BW (bw_act c ++ map (fun p => AReq (snd p) (fst p)) (combine b (to_list f))) (bw_weights c))
  end.
Definition request_weights (filters : option (arg matcher)) (bits : arg Z) (attrs : arg wname) (c : bwconfig) : result bwconfig :=
  match filters with
  | None => Err E_critical
  | Some f => let! b := expand (to_list f) bits in
              let! a := expand (to_list f) attrs in
              Ok (BW (bw_act c) (bw_weights c ++ map (fun p => WReq (snd p) (snd (fst p)) (fst (fst p))) (combine (combine a b) (to_list f))))
  end.

(* _construct_node_to_new_activation_bit_mapping L169-193 *)
Definition act_mapping (c : bwconfig) (g : list mnode) : result (list (nat * Z)) :=
  foldM (fun d r =>
           match filter (ar_filter r) g with
           | [] => Err E_critical
           | ns => Ok (fold_left (fun d n => dict_set (mn_id n) (ar_bits r) d) ns d)
           end) (bw_act c) [].

(* the attributes of a node that a request refers to, L221-229 *)
Fixpoint requested_attrs (attr : wname) (l : list wname) : result (list wname) :=
  match l with
  | [] => Ok []
  | x :: r =>
      let! hit := match x, attr with
                  | W_name s, W_name a => Ok (if str_contains s a then [W_name s] else [])
                  | W_pos _, W_name a => Ok (if str_contains a pos_attr then [W_name pos_attr] else [])
                  | W_pos _, W_pos _ => Err E_type
                  | W_name _, W_pos _ => Ok []
                  end in
      let! t := requested_attrs attr r in Ok (hit ++ t)
  end.
(* the loop L235-240 over the keys of the dictionary: attr_to_bitwidth[1] is the second character of a key *)
Fixpoint scan_keys (attr : string) (keys : list string) : result unit :=
  match keys with
  | [] => Ok tt
  | k :: r =>
      match k with
      | String _ (String ch _) => if String.eqb (String ch EmptyString) attr then Err E_key else scan_keys attr r
      | _ => Err E_index
      end
  end.
(* one node of the loop L214-243 *)
Definition weights_step (r : wreq) (d : list (nat * list (string * Z))) (n : mnode) : result (list (nat * list (string * Z))) :=
  match mn_attrs n with
  | [] => Err E_critical
  | attrs =>
      let! hits := requested_attrs (wr_attr r) attrs in
      match hits with
      | [] => Err E_critical
      | _ =>
          match wr_attr r with
          | W_pos _ => Err E_type
          | W_name a =>
              let! old := match dict_get (mn_id n) d with
                          | None => Ok []
                          | Some m => let! _ := scan_keys a (skeys m) in Ok m
                          end in
              Ok (dict_set (mn_id n) (sset a (wr_bits r) old) d)
          end
      end
  end.
(* _construct_node_to_new_weights_bit_mapping L195-245 *)
Definition weights_mapping (c : bwconfig) (g : list mnode) : result (list (nat * list (string * Z))) :=
  foldM (fun d r =>
           match filter (wr_filter r) g with
           | [] => Err E_critical
           | ns => foldM (weights_step r) ns d
           end) (bw_weights c) [].

Definition set_bits (b : Z) (c : cand) : cand :=
  Cand (cd_method c) b (cd_mode c) (cd_signed c) (cd_simd c) (cd_pos c) (cd_named c).
(* the body of the loop L136-151 *)
Definition apply_activation (b : Z) (nc : nodecfg) : result nodecfg :=
  let! m := node_mode nc in
  if negb (amode_eqb m M_quant) then Err E_value else
  match filter (fun c => Z.eqb (cd_bits c) b) (nc_cands nc) with
  | [] => Err E_value
  | cs => Ok (NodeCfg (set_bits b (nc_base nc)) cs)
  end.

(* qc_attr_nbits L168-184; [attrs] are names only, see weights_step *)
Definition attr_bits (c : cand) (a : string) : result Z :=
  if String.eqb a pos_attr then
    match cd_pos c with
    | [] => Err E_value
    | (_, w) :: r =>
        if existsb (fun kv => negb (wc_enable (snd kv))) (cd_pos c) then Err E_value
        else if forallb (fun kv => Z.eqb (wc_bits (snd kv)) (wc_bits w)) r then Ok (wc_bits w) else Err E_assert
    end
  else if negb (existsb (String.eqb a) (skeys (cd_named c))) then Err E_value
  else let! w := get_attr_config c a in
       if wc_enable w then Ok (wc_bits w) else Err E_value.
(* all(... for attr, w_nbits in manual_wbits.items()) *)
Fixpoint attrs_match (c : cand) (m : list (string * Z)) : result bool :=
  match m with
  | [] => Ok true
  | (a, b) :: r => let! x := attr_bits c a in if Z.eqb x b then attrs_match c r else Ok false
  end.
(* weights_n_bits of an attribute of the base configuration, L193-199 *)
Definition wset (b : Z) (w : wcfg) : wcfg := WCfg (wc_method w) b (wc_per_channel w) (wc_enable w).
Definition set_base_bits (c : cand) (a : string) (b : Z) : result cand :=
  if String.eqb a pos_attr then
    Ok (Cand (cd_method c) (cd_bits c) (cd_mode c) (cd_signed c) (cd_simd c) (map (fun kv => (fst kv, wset b (snd kv))) (cd_pos c)) (cd_named c))
  else
    let! key := attr_key c a in
    match sget key (cd_named c) with
    | None => Err E_key
    | Some w => Ok (Cand (cd_method c) (cd_bits c) (cd_mode c) (cd_signed c) (cd_simd c) (cd_pos c) (sset key (wset b w) (cd_named c)))
    end.
(* the body of the loop L186-199 *)
Definition apply_weights (m : list (string * Z)) (nc : nodecfg) : result nodecfg :=
  let! cs := filterM (fun c => attrs_match c m) (nc_cands nc) in
  match cs with
  | [] => Err E_value
  | _ => let! base := foldM (fun c ab => set_base_bits c (fst ab) (snd ab)) m (nc_base nc) in
         Ok (NodeCfg base cs)
  end.

(* set_manual_bitwidth_config L105-120: every node that has an entry is updated (the loops go over the entries; they touch
   different nodes, so the order is immaterial unless one of them raises) *)
Definition apply_entry {V} (f : V -> nodecfg -> result nodecfg) (d : list (nat * V)) (n : mnode) : result mnode :=
  match dict_get (mn_id n) d with
  | None => Ok n
  | Some v => let! nc := f v (mn_cfg n) in Ok (MNode (mn_id n) (mn_attrs n) nc)
  end.
Definition set_manual (c : bwconfig) (g : list mnode) : result (list mnode) :=
  let! a := act_mapping c g in
  let! w := weights_mapping c g in
  let! g1 := mapM (apply_entry apply_activation a) g in
  mapM (apply_entry apply_weights w) g1.
