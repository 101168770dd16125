(* PlatModel.v -- the platform description (TPC) schema: configurations, editing, fusing patterns, upgrading.

   Modelled (under model_compression_toolkit/target_platform_capabilities/):
     schema/v1.py  AttributeQuantizationConfig L104-139, OpQuantizationConfig L142-226,
                   QuantizationConfigOptions L229-395 (validation, clone_and_edit, clone_and_edit_weight_attribute,
                   clone_and_map_weights_attr_keys), OperatorsSet L422-447, OperatorSetGroup L450-502,
                   Fusing.contains L557-581 (v2.py L157-181 is the same code)
     schema/v2.py  Fusing L102-114, TargetPlatformCapabilities L205-264
     schema/schema_compatability.py  _schema_v1_to_v2 L44-86, tpc_to_current_schema_version L102-124
     schema/schema_functions.py L22-51

   Simplifications: quantization methods, signedness and the fixed scale are opaque numbers; pydantic's own
   type coercion is not modelled; objects are values, since every one of these classes is frozen. *)
From Coq Require Import String.
From Verif Require Import Base SDict.
Local Open Scope list_scope.

Definition opt_eqb {A} (e : A -> A -> bool) (a b : option A) : bool :=
  match a, b with Some x, Some y => e x y | None, None => true | _, _ => false end.
Fixpoint list_eqb {A} (e : A -> A -> bool) (a b : list A) : bool :=
  match a, b with [], [] => true | x :: a', y :: b' => e x y && list_eqb e a' b' | _, _ => false end.

(* AttributeQuantizationConfig, v1.py L104-120 *)
Record attrcfg := AttrCfg { ac_method : nat; ac_bits : Z; ac_per_channel : bool; ac_enable : bool; ac_lut : option Z }.
Definition attrcfg_eqb (a b : attrcfg) : bool :=
  Nat.eqb (ac_method a) (ac_method b) && Z.eqb (ac_bits a) (ac_bits b) &&
  Bool.eqb (ac_per_channel a) (ac_per_channel b) && Bool.eqb (ac_enable a) (ac_enable b) &&
  opt_eqb Z.eqb (ac_lut a) (ac_lut b).

(* supported_input_activation_n_bits, v1.py L163: an int or a tuple *)
Inductive ibits := I_int (z : Z) | I_tuple (l : list Z).
Definition ibits_eqb (a b : ibits) : bool :=
  match a, b with I_int x, I_int y => Z.eqb x y | I_tuple x, I_tuple y => list_eqb Z.eqb x y | _, _ => false end.
(* the before-validator L173-188: an int becomes a one-element tuple (construction only) *)
Definition norm_ibits (b : ibits) : ibits := match b with I_int z => I_tuple [z] | _ => b end.

(* OpQuantizationConfig, v1.py L142-169 *)
Record opcfg := OpCfg {
  oc_default : attrcfg; oc_attrs : list (string * attrcfg); oc_method : nat; oc_bits : Z; oc_inputs : ibits;
  oc_enable : bool; oc_preserve : bool; oc_signed : nat; oc_scale : option Z; oc_zero : option Z; oc_simd : option Z }.
Definition new_opcfg d at_ m b i e p s fs z k : opcfg := OpCfg d at_ m b (norm_ibits i) e p s fs z k.

(* == (pydantic: field-wise; the attribute dictionary order-insensitively) *)
Definition opcfg_eqb (a b : opcfg) : bool :=
  attrcfg_eqb (oc_default a) (oc_default b) && sdict_eqb attrcfg_eqb (oc_attrs a) (oc_attrs b) &&
  Nat.eqb (oc_method a) (oc_method b) && Z.eqb (oc_bits a) (oc_bits b) && ibits_eqb (oc_inputs a) (oc_inputs b) &&
  Bool.eqb (oc_enable a) (oc_enable b) && Bool.eqb (oc_preserve a) (oc_preserve b) &&
  Nat.eqb (oc_signed a) (oc_signed b) && opt_eqb Z.eqb (oc_scale a) (oc_scale b) &&
  opt_eqb Z.eqb (oc_zero a) (oc_zero b) && opt_eqb Z.eqb (oc_simd a) (oc_simd b).

(* keyword arguments of clone_and_edit: the fields to replace *)
Record attr_edit := AttrEdit {
  ae_method : option nat; ae_bits : option Z; ae_per_channel : option bool; ae_enable : option bool; ae_lut : option (option Z) }.
Record op_edit := OpEdit {
  oe_default : option attrcfg; oe_attrs : option (list (string * attrcfg)); oe_method : option nat; oe_bits : option Z;
  oe_inputs : option ibits; oe_enable : option bool; oe_preserve : option bool; oe_signed : option nat;
  oe_scale : option (option Z); oe_zero : option (option Z); oe_simd : option (option Z) }.
Definition or_old {A} (o : option A) (x : A) : A := match o with Some y => y | None => x end.

(* AttributeQuantizationConfig.clone_and_edit, v1.py L129-139 (model_copy(update=..) does not re-validate) *)
Definition attr_clone (e : attr_edit) (a : attrcfg) : attrcfg :=
  AttrCfg (or_old (ae_method e) (ac_method a)) (or_old (ae_bits e) (ac_bits a))
          (or_old (ae_per_channel e) (ac_per_channel a)) (or_old (ae_enable e) (ac_enable a)) (or_old (ae_lut e) (ac_lut a)).

(* OpQuantizationConfig.clone_and_edit, v1.py L199-226 *)
Definition op_update (e : op_edit) (c : opcfg) : opcfg :=
  OpCfg (or_old (oe_default e) (oc_default c)) (or_old (oe_attrs e) (oc_attrs c)) (or_old (oe_method e) (oc_method c))
        (or_old (oe_bits e) (oc_bits c)) (or_old (oe_inputs e) (oc_inputs c)) (or_old (oe_enable e) (oc_enable c))
        (or_old (oe_preserve e) (oc_preserve c)) (or_old (oe_signed e) (oc_signed c)) (or_old (oe_scale e) (oc_scale c))
        (or_old (oe_zero e) (oc_zero c)) (or_old (oe_simd e) (oc_simd c)).
Definition with_attrs (at_ : list (string * attrcfg)) (c : opcfg) : opcfg :=
  OpCfg (oc_default c) at_ (oc_method c) (oc_bits c) (oc_inputs c) (oc_enable c) (oc_preserve c) (oc_signed c)
        (oc_scale c) (oc_zero c) (oc_simd c).
Definition op_clone (attr_to_edit : list (string * attr_edit)) (e : op_edit) (c : opcfg) : opcfg :=
  let u := op_update e c in
  with_attrs (map (fun kv => (fst kv, match sget (fst kv) attr_to_edit with
                                      | Some ae => attr_clone ae (snd kv)
                                      | None => snd kv end)) (oc_attrs u)) u.
Definition no_edit : op_edit := OpEdit None None None None None None None None None None None.
Definition edit_attrs (m : list (string * attrcfg)) : op_edit := OpEdit None (Some m) None None None None None None None None None.

(* QuantizationConfigOptions, v1.py L229-288; base_config is set by the validator *)
Record qco := Qco { qo_base : opcfg; qo_cfgs : list opcfg }.
Definition qco_eqb (a b : qco) : bool := opcfg_eqb (qo_base a) (qo_base b) && list_eqb opcfg_eqb (qo_cfgs a) (qo_cfgs b).

(* validate_and_set_base_config L242-288 *)
Definition new_qco (base : option opcfg) (cfgs : list opcfg) : result qco :=
  match cfgs with
  | [] => Err E_critical
  | c :: r =>
      let! b := match base with
                | Some b => Ok b
                | None => match r with [] => Ok c | _ => Err E_critical end
                end in
      if existsb (opcfg_eqb b) cfgs then Ok (Qco b cfgs) else Err E_critical
  end.

(* clone_and_edit L290-309 *)
Definition qco_clone (attr_to_edit : list (string * attr_edit)) (e : op_edit) (q : qco) : qco :=
  Qco (op_clone attr_to_edit e (qo_base q)) (map (op_clone attr_to_edit e) (qo_cfgs q)).

(* clone_and_edit_weight_attribute L311-357; [attrs = None] means all the attributes of each configuration *)
Definition edited_mapping (attrs : option (list string)) (e : attr_edit) (c : opcfg) : result (list (string * attrcfg)) :=
  let to_update := match attrs with None => skeys (oc_attrs c) | Some l => l end in
  let! pairs := mapM (fun a => match sget a (oc_attrs c) with
                               | Some cfg => Ok (a, attr_clone e cfg)
                               | None => Err E_critical end) to_update in
  Ok (fold_left (fun d kv => sset (fst kv) (snd kv) d) pairs []).
Fixpoint weight_edit_loop (attrs : option (list string)) (e : attr_edit) (base : opcfg) (new_base : opcfg) (l : list opcfg)
  : result (opcfg * list opcfg) :=
  match l with
  | [] => Ok (new_base, [])
  | c :: r =>
      let! m := edited_mapping attrs e c in
      let u := op_clone [] (edit_attrs m) c in
      let! (b, us) := weight_edit_loop attrs e base (if opcfg_eqb c base then u else new_base) r in
      Ok (b, u :: us)
  end.
Definition qco_edit_weights (attrs : option (list string)) (e : attr_edit) (q : qco) : result qco :=
  let! (b, us) := weight_edit_loop attrs e (qo_base q) (qo_base q) (qo_cfgs q) in Ok (Qco b us).

(* clone_and_map_weights_attr_keys L359-395 *)
Definition renamed (m : option (list (string * string))) (c : opcfg) : list (string * attrcfg) :=
  match m with
  | None => oc_attrs c
  | Some d => fold_left (fun acc kv => sset (match sget (fst kv) d with Some k => k | None => fst kv end) (snd kv) acc) (oc_attrs c) []
  end.
Fixpoint map_keys_loop (m : option (list (string * string))) (base new_base : opcfg) (l : list opcfg) : opcfg * list opcfg :=
  match l with
  | [] => (new_base, [])
  | c :: r =>
      let u := op_clone [] (edit_attrs (renamed m c)) c in
      let '(b, us) := map_keys_loop m base (if opcfg_eqb c base then u else new_base) r in (b, u :: us)
  end.
Definition qco_map_keys (m : option (list (string * string))) (q : qco) : qco :=
  let '(b, us) := map_keys_loop m (qo_base q) (qo_base q) (qo_cfgs q) in Qco b us.

(* max_input_activation_n_bits, schema_functions.py L22-32: max() of an int is a TypeError, of () a ValueError *)
Definition max_input_bits (c : opcfg) : result Z :=
  match oc_inputs c with
  | I_int _ => Err E_type
  | I_tuple [] => Err E_value
  | I_tuple (z :: l) => Ok (fold_left Z.max l z)
  end.

(* OperatorsSet L422-434 and OperatorSetGroup L450-459 *)
Record opset := OpSet { os_name : string; os_qco : option qco }.
Definition opset_eqb (a b : opset) : bool := String.eqb (os_name a) (os_name b) && opt_eqb qco_eqb (os_qco a) (os_qco b).
Inductive opgroup := G_set (s : opset) | G_group (name : string) (l : list opset).
Definition opgroup_eqb (a b : opgroup) : bool :=
  match a, b with
  | G_set s, G_set t => opset_eqb s t
  | G_group n l, G_group m k => String.eqb n m && list_eqb opset_eqb l k
  | _, _ => false
  end.

(* Fusing, v2.py L102-115 ([fu_cfg] does not exist in v1) *)
Record fusing := Fusing { fu_groups : list opgroup; fu_cfg : option opcfg; fu_name : string }.

(* one position of Fusing.contains, L573-575 *)
Definition covers_b (a b : opgroup) : bool :=
  opgroup_eqb a b ||
  match a, b with
  | G_group _ l, G_set s => existsb (opset_eqb s) l
  | _, _ => false
  end.
(* the inner loop over j for a fixed i: all of [other] covered by the groups from position i on *)
Fixpoint covers_from (self other : list opgroup) : bool :=
  match other with
  | [] => true
  | b :: r => match self with [] => false | a :: s => covers_b a b && covers_from s r end
  end.
(* Fusing.contains L557-581 *)
Definition fusing_contains (self other : fusing) : bool :=
  let n := length (fu_groups self) in let m := length (fu_groups other) in
  existsb (fun i => covers_from (skipn i (fu_groups self)) (fu_groups other)) (seq 0 (n + 1 - m)).

(* TargetPlatformCapabilities of schema v1 (v1.py L605-633) and v2 (v2.py L205-236) *)
Record tpc1 := Tpc1 {
  t1_default : qco; t1_opsets : option (list opset); t1_fusing : option (list (list opgroup * string));
  t1_minor : option Z; t1_patch : option Z; t1_platform : option string; t1_metadata : bool; t1_name : option string;
  t1_simd_padding : bool }.
Record tpc2 := Tpc2 {
  t2_default : qco; t2_opsets : option (list opset); t2_fusing : option (list fusing);
  t2_minor : option Z; t2_patch : option Z; t2_platform : option string; t2_metadata : bool; t2_name : option string;
  t2_simd_padding : bool; t2_insert_preserving : bool }.
Inductive tpc := T_v1 (t : tpc1) | T_v2 (t : tpc2) | T_other.

(* validate_after_initialization (v2.py L238-264) and Fusing's (L146-155) *)
Definition names_unique (l : option (list opset)) : bool :=
  match l with
  | None => true
  | Some l => Nat.eqb (length (nodup string_dec (map os_name l))) (length l)
  end.
Definition new_fusing (groups : list opgroup) (cfg : option opcfg) (name : string) : result fusing :=
  if Nat.ltb (length groups) 2 then Err E_critical else Ok (Fusing groups cfg name).
Definition new_tpc2 d ops f mi pa pl me na si ins : result tpc2 :=
  if negb (Nat.eqb (length (qo_cfgs d)) 1) then Err E_critical else
  if negb (names_unique ops) then Err E_critical else Ok (Tpc2 d ops f mi pa pl me na si ins).
Definition default_name : option string := Some "default_tpc"%string.

(* _schema_v1_to_v2, schema_compatability.py L44-86 (iterating over None raises TypeError) *)
Definition v1_to_v2 (t : tpc1) : result tpc2 :=
  let b := qo_base (t1_default t) in
  let c := new_opcfg (oc_default b) (oc_attrs b) (oc_method b) (oc_bits b) (oc_inputs b) false (oc_preserve b)
                     (oc_signed b) (oc_scale b) (oc_zero b) (oc_simd b) in
  let! fs := match t1_fusing t with
             | None => Err E_type
             | Some l => mapM (fun p => new_fusing (fst p) (Some c) (snd p)) l
             end in
  new_tpc2 (t1_default t) (t1_opsets t) (Some fs) (t1_minor t) (t1_patch t) (t1_platform t) (t1_metadata t)
           default_name false false.

(* tpc_to_current_schema_version L102-124; [fuel] bounds the while loop *)
Fixpoint to_current (fuel : nat) (t : tpc) : result tpc2 :=
  match fuel with
  | O => Err E_fuel
  | S f =>
      match t with
      | T_v2 t2 => Ok t2
      | T_v1 t1 => let! t2 := v1_to_v2 t1 in to_current f (T_v2 t2)
      | T_other => Err E_key
      end
  end.

(* load_target_platform_capabilities, tpc_io_handler.py L65-93, for an object (a path to JSON is parsed by pydantic) *)
Definition load_tpc (t : tpc) : result tpc2 := match t with T_v2 t2 => Ok t2 | _ => to_current 3 t end.

(* get_config_options_by_operators_set, schema_functions.py L35-51; None is an operator set without options *)
Definition options_of_opset (t : tpc2) (name : string) : result (option qco) :=
  match t2_opsets t with
  | None => Err E_type
  | Some l => Ok (match find (fun s => String.eqb name (os_name s)) l with
                  | Some s => os_qco s
                  | None => Some (t2_default t) end)
  end.
