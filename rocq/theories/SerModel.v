(* SerModel.v -- training quantizers of Keras written to a file and read back, and layers whose training is finished.

   Modelled (under model_compression_toolkit/trainable_infrastructure/):
     common/trainable_quantizer_config.py  TrainableQuantizerActivationConfig L40-65, TrainableQuantizerWeightsConfig L68-98
     common/base_trainable_quantizer.py  BaseTrainableQuantizer.__init__ L54-88, validate_weights L150-151,
                                         validate_activation L158-159
     keras/config_serialization.py  transform_enum L40-42, config_serialization L54-57, config_deserialization L69-89
     keras/base_keras_quantizer.py  get_config L42, from_config L54-57
     keras/load_model.py  the dictionary of classes L45-57
     keras/quantize_wrapper.py  _weight_name L39, convert_to_inferable_quantizers L77-96
   Outside the library, and assumed: the constants of mct_quantizers used as keys are the names of the attributes; the members
   of QuantizationMethod have different values; a file of Keras keeps None, booleans, numbers, strings, lists and dictionaries
   as they are, keeps an array either as nested lists or as {"config": {"value": nested lists}}, and refuses other objects.
   Numbers are rational; weights parameters are numbers and arrays of numbers (V_zero is only what the code would make of others); an array is its shape and its elements.  Left out: the variables a quantizer creates, the building of
   the layer by Keras. *)
From Coq Require Import String Ascii.
From Verif Require Import Base SDict.
Local Open Scope list_scope.
Local Open Scope string_scope.

(* mct_quantizers.QuantizationMethod, its values, and QuantizationMethod(value), which raises ValueError for other values *)
Inductive method := M_pot | M_lut_pot | M_sym | M_uni | M_lut_sym.
Definition m_value (m : method) : Z := match m with M_pot => 0 | M_lut_pot => 1 | M_sym => 2 | M_uni => 3 | M_lut_sym => 4 end.
Definition m_eqb (a b : method) : bool := Z.eqb (m_value a) (m_value b).
Definition method_of (z : Z) : result method :=
  match find (fun m => Z.eqb (m_value m) z) [M_pot; M_lut_pot; M_sym; M_uni; M_lut_sym] with Some m => Ok m | None => Err E_value end.

(* what a dictionary of quantization parameters holds.  V_list: nested lists.  V_packed: {"config": {"value": nested lists}}.
   V_zero v: an array without axes around something that is not a number *)
Inductive value :=
| V_none | V_bool (b : bool) | V_num (q : Q) | V_nd (shape : list nat) (data : list Q)
| V_list (shape : list nat) (data : list Q) | V_packed (shape : list nat) (data : list Q) | V_zero (v : value).
Definition params := list (string * value).
(* TrainableQuantizerCandidateConfig L36-37 *)
Record cand := Cand { cn_bits : Z; cn_params : params }.
Record wconfig := WConfig { w_method : method; w_bits : Z; w_params : params; w_enable : bool; w_axis : Z; w_channel : bool;
                            w_min : Q; w_cands : option (list cand) }.
Record aconfig := AConfig { a_method : method; a_bits : Z; a_params : params; a_enable : bool; a_min : Q;
                            a_cands : option (list cand) }.
Inductive config := CW (w : wconfig) | CA (a : aconfig).

(* the values of an attribute dictionary *)
Inductive field := F_method (m : method) | F_int (z : Z) | F_params (p : params) | F_bool (b : bool) | F_num (q : Q)
                 | F_cands (c : option (list cand)).
(* __dict__, in the order of the assignments of the constructors L60-65, L91-98 *)
Definition attributes (c : config) : list (string * field) :=
  match c with
  | CW w => [("weights_quantization_method", F_method (w_method w)); ("weights_n_bits", F_int (w_bits w));
             ("weights_quantization_params", F_params (w_params w)); ("enable_weights_quantization", F_bool (w_enable w));
             ("weights_channels_axis", F_int (w_axis w)); ("weights_per_channel_threshold", F_bool (w_channel w));
             ("min_threshold", F_num (w_min w)); ("weights_bits_candidates", F_cands (w_cands w))]
  | CA a => [("activation_quantization_method", F_method (a_method a)); ("activation_n_bits", F_int (a_bits a));
             ("activation_quantization_params", F_params (a_params a)); ("enable_activation_quantization", F_bool (a_enable a));
             ("min_threshold", F_num (a_min a)); ("activation_bits_candidates", F_cands (a_cands a))]
  end.
Definition is_weights (c : config) : bool := match c with CW _ => true | CA _ => false end.
Definition transform_enum (f : field) : field := match f with F_method m => F_int (m_value m) | _ => f end.
Definition serialization (c : config) : list (string * field) :=
  sset "is_activations" (F_bool (negb (is_weights c)))
    (sset "is_weights" (F_bool (is_weights c)) (map (fun kv => (fst kv, transform_enum (snd kv))) (attributes c))).

(* reading an entry of the dictionary; a missing key is a KeyError *)
Definition entry (k : string) (d : list (string * field)) : result field := match sget k d with Some f => Ok f | None => Err E_key end.
Definition get_int k d : result Z := let! f := entry k d in match f with F_int z => Ok z | _ => Err E_type end.
Definition get_bool k d : result bool := let! f := entry k d in match f with F_bool b => Ok b | _ => Err E_type end.
Definition get_num k d : result Q := let! f := entry k d in match f with F_num q => Ok q | _ => Err E_type end.
Definition get_params k d : result params := let! f := entry k d in match f with F_params p => Ok p | _ => Err E_attr end.
(* np.array(v), and L74 *)
Definition np_array (v : value) : value :=
  match v with
  | V_nd s x => V_nd s x | V_list s x => V_nd s x | V_num q => V_nd [] [q] | V_zero u => V_zero u | u => V_zero u
  end.
Definition unpack (v : value) : value := np_array (match v with V_packed [] [q] => V_num q | V_packed s x => V_list s x | u => u end).
(* config_deserialization L69-89; raise NotImplemented, which is not an exception, is a TypeError *)
Definition deserialization (d : list (string * field)) : result config :=
  let! w := get_bool "is_weights" d in
  if w then
    let! p := get_params "weights_quantization_params" d in
    let! z := get_int "weights_quantization_method" d in
    let! m := method_of z in
    let! b := get_int "weights_n_bits" d in
    let! e := get_bool "enable_weights_quantization" d in
    let! x := get_int "weights_channels_axis" d in
    let! c := get_bool "weights_per_channel_threshold" d in
    let! t := get_num "min_threshold" d in
    Ok (CW (WConfig m b (map (fun kv => (fst kv, unpack (snd kv))) p) e x c t None))
  else
    let! a := get_bool "is_activations" d in
    if a then
      let! z := get_int "activation_quantization_method" d in
      let! m := method_of z in
      let! b := get_int "activation_n_bits" d in
      let! p := get_params "activation_quantization_params" d in
      let! e := get_bool "enable_activation_quantization" d in
      let! t := get_num "min_threshold" d in
      Ok (CA (AConfig m b p e t None))
    else Err E_type.

(* a file of Keras: arrays as nested lists (a number if there is no axis), or packed; other objects refused *)
Definition write_value (packed : bool) (v : value) : result value :=
  match v with
  | V_nd s x => Ok (if packed then V_packed s x else match s, x with [], [q] => V_num q | _, _ => V_list s x end)
  | V_zero _ => Err E_type
  | u => Ok u
  end.
Definition write_field (packed : bool) (f : field) : result field :=
  match f with
  | F_params p => let! p' := mapM (fun kv => let! v := write_value packed (snd kv) in Ok (fst kv, v)) p in Ok (F_params p')
  | F_cands (Some (_ :: _)) => Err E_type
  | F_method _ => Err E_type
  | g => Ok g
  end.
Definition write (packed : bool) (d : list (string * field)) : result (list (string * field)) :=
  mapM (fun kv => let! f := write_field packed (snd kv) in Ok (fst kv, f)) d.

(* a class of quantizers: what @mark_quantizer declares, and the keyword arguments of its constructor with their defaults *)
Record qclass := QClass { k_name : string; k_weights : bool; k_methods : list method; k_options : list (string * value) }.
Record quantizer := Quantizer { q_class : qclass; q_config : config; q_options : list (string * value) }.
Definition c_method (c : config) : method := match c with CW w => w_method w | CA a => a_method a end.
(* the constructor with keyword arguments; an argument the class does not have is a TypeError *)
Definition construct (k : qclass) (c : config) (args : list (string * value)) : result quantizer :=
  if negb (forallb (fun kv => match sget (fst kv) (k_options k) with Some _ => true | None => false end) args) then Err E_type else
  if negb (Bool.eqb (k_weights k) (is_weights c)) then Err E_critical else
  if negb (existsb (m_eqb (c_method c)) (k_methods k)) then Err E_critical else
  Ok (Quantizer k c (map (fun kv => (fst kv, match sget (fst kv) args with Some v => v | None => snd kv end)) (k_options k))).
(* get_config, from_config *)
Definition get_config (q : quantizer) : list (string * field) := serialization (q_config q).
Definition from_config (k : qclass) (d : list (string * field)) : result quantizer :=
  let! c := deserialization d in construct k c [].

(* keras_load_quantized_model L45-57: a dictionary comprehension over the classes, the wrapper, the check, the objects of the
   caller *)
Definition load_objects {C} (classes : list (string * C)) (wrapper : C) (custom : option (list (string * C))) : result (list (string * C)) :=
  let d := fold_left (fun d kv => sset (fst kv) (snd kv) d) classes [] in
  let d := sset "KerasTrainableQuantizationWrapper" wrapper d in
  if Nat.ltb (length (nodup string_dec (skeys d))) (length (skeys d)) then Err E_critical else
  Ok (match custom with Some c => fold_left (fun d kv => sset (fst kv) (snd kv) d) c d | None => d end).

(* name.split(':')[0].split('/')[-1] *)
Fixpoint before_colon (s : string) : string :=
  match s with EmptyString => "" | String c r => if Ascii.eqb c ":"%char then "" else String c (before_colon r) end.
Fixpoint last_part (acc s : string) : string :=
  match s with EmptyString => acc | String c r => if Ascii.eqb c "/"%char then last_part "" r else last_part (acc ++ String c "") r end.
Definition weight_name (s : string) : string := last_part "" (before_colon s).

Section Finalize.
Variables T QZ I : Type.
(* list.index: the first position *)
Fixpoint index (s : string) (l : list string) : option nat :=
  match l with [] => None | x :: r => if String.eqb s x then Some 0%nat else option_map S (index s r) end.
Fixpoint set_nth (i : nat) (v : T) (l : list (option T)) : list (option T) :=
  match l, i with [], _ => [] | _ :: r, 0%nat => Some v :: r | x :: r, S j => x :: set_nth j v r end.
Fixpoint all_some (l : list (option T)) : option (list T) :=
  match l with [] => Some [] | None :: _ => None | Some x :: r => option_map (cons x) (all_some r) end.
(* L77-95: [convert] is convert2inferable, None for a quantizer that has no such method; [own]: the names of the weights of the
   layer built anew, [vars]: the variables of the wrapper *)
Definition finalize (convert : QZ -> option (result I)) (quantizers : list (string * QZ)) (own : list string) (vars : list (string * T))
    : result (list (string * I) * list T) :=
  let! qs := foldM (fun d kv => match convert (snd kv) with None => Ok d | Some r => let! i := r in Ok (sset (fst kv) i d) end) quantizers [] in
  let keys := map weight_name own in
  let l := fold_left (fun l w => match index (weight_name (fst w)) keys with Some i => set_nth i (snd w) l | None => l end)
             vars (repeat None (length keys)) in
  match all_some l with Some ws => Ok (qs, ws) | None => Err E_critical end.
End Finalize.
Arguments index _ _ : assert. Arguments set_nth {T}. Arguments all_some {T}. Arguments finalize {T QZ I}.
