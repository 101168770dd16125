(* ExportModel.v -- the quantizers put into the exported model: built from the final configurations of the nodes, with the
   weights the layers then compute with, beside the weights the toolkit itself quantizes.
   Sources (model_compression_toolkit/):
     exporter/model_wrapper/pytorch/builder/node_to_quantizer.py L31-170, keras/builder/node_to_quantizer.py L29-160,
     exporter/model_wrapper/fw_agnostic/get_inferable_quantizers.py L19-50,
     exporter/model_wrapper/{pytorch,keras}/builder/fully_quantized_model_builder.py (the wrappers and the activation holder),
     core/keras/keras_implementation.py L579-612, core/pytorch/pytorch_implementation.py L555-570,
     core/common/quantization/node_quantization_config.py L452-485 (get_attr_config), core/common/graph/base_node.py L223-245,
     core/common/quantization/quantize_graph_weights.py L38-56, quantize_node.py L22-58,
     core/common/quantization/quantizers/uniform_quantizers.py, lut_kmeans_quantizer.py.
   Simplifications: exact rationals for floats; the final configurations are set; the axis of the channels is not negative.
   The package mct_quantizers, which holds the classes of the exported quantizers, is not in the repository: what its
   classes check and compute is written down from their documented behaviour, over the two library functions of
   FakeQModel.v (and torch.fake_quantize_per_channel_affine, tf.quantization.fake_quant_with_min_max_vars_per_channel,
   which apply them with the parameters of the channel; TensorFlow's takes the channels from the last axis). *)
From Coq Require Import String Ascii.
From Verif Require Import Nd.
From Verif Require Import Base RoundQ QuantModel LutModel FakeQModel FilterModel.
From Coq Require Import Qround Qpower.
Open Scope Q_scope.

(* a tensor: its shape and its entries *)
Record qt := QT { q_shape : list nat; q_at : list nat -> Q }.
(* t.flatten().tolist() *)
Definition flatten_list (t : qt) : list Q := map (fun k => q_at t (unflat (q_shape t) k)) (seq 0 (prod (q_shape t))).

(* ---- configurations ---- *)
Inductive wmethod := W_pot | W_sym | W_uniform | W_lut_pot | W_lut_sym.
(* WeightsAttrQuantizationConfig; ac_axis is weights_channels_axis[0], the other fields the entries of
   weights_quantization_params *)
Record acfg := ACfg { ac_enable : bool; ac_method : wmethod; ac_bits : Z; ac_per_channel : bool; ac_axis : option nat;
  ac_threshold : option qt; ac_min : option qt; ac_max : option qt; ac_lut : option qt; ac_scale : option qt }.
(* names of weights: positions for constants given as arguments, strings otherwise *)
Inductive ekey := KP (i : nat) | KN (s : string).
Definition ekey_eqb (a b : ekey) : bool :=
  match a, b with KP i, KP j => Nat.eqb i j | KN s, KN t => String.eqb s t | _, _ => false end.
Fixpoint kget {V} (k : ekey) (d : list (ekey * V)) : option V :=
  match d with [] => None | (k', v) :: r => if ekey_eqb k k' then Some v else kget k r end.
Fixpoint kset {V} (k : ekey) (v : V) (d : list (ekey * V)) : list (ekey * V) :=
  match d with [] => [(k, v)] | (k', v') :: r => if ekey_eqb k k' then (k', v) :: r else (k', v') :: kset k v r end.
(* a node: its weights and its final weights configuration *)
Record enode := ENode { en_weights : list (ekey * qt); en_cfgs : list (ekey * acfg) }.

(* get_attr_config, node_quantization_config.py L452-485 *)
Definition named_with (s : string) (d : list (ekey * acfg)) : list (ekey * acfg) :=
  filter (fun kc => match fst kc with KN t => str_contains t s | KP _ => false end) d.
Definition get_attr_config (d : list (ekey * acfg)) (k : ekey) : result acfg :=
  match k with
  | KP _ => match kget k d with Some c => Ok c | None => Err E_critical end
  | KN s =>
      match named_with s d with
      | [] => Err E_critical
      | [(_, c)] => Ok c
      | _ => match kget k d with Some c => Ok c | None => Err E_critical end
      end
  end.
(* base_node.py L223-235 *)
Definition is_weights_quantization_enabled (n : enode) (k : ekey) : result bool :=
  let! c := get_attr_config (en_cfgs n) k in Ok (ac_enable c).

(* ---- the toolkit's own quantization of weights ---- *)
(* numpy broadcasting of a parameter over a tensor of the given shape *)
Fixpoint dims_fit (ps ws : list nat) : bool :=
  match ps, ws with
  | [], [] => true
  | p :: ps', w :: ws' => (Nat.eqb p 1 || Nat.eqb p w) && dims_fit ps' ws'
  | _, _ => false
  end.
Definition fits (p : qt) (ws : list nat) : bool :=
  Nat.leb (length (q_shape p)) (length ws) && dims_fit (q_shape p) (skipn (length ws - length (q_shape p)) ws).
Definition bget (p : qt) (idx : list nat) : Q := q_at p (mask (q_shape p) (skipn (length idx - length (q_shape p)) idx)).
Definition need {A} (o : option A) (e : err) : result A := match o with Some a => Ok a | None => Err e end.
(* parameters that do not broadcast to the shape of the tensor are an error here (numpy may also enlarge the tensor) *)
Definition guard (b : bool) (e : err) : result unit := if b then Ok tt else Err e.
(* uniform_quantizers.py threshold_is_power_of_two L24-29, without per_channel int() takes one number only *)
Definition pot_ok (per_channel : bool) (t : qt) : result bool :=
  let! bs := mapM (fun v => need (threshold_is_power_of_two v) E_value) (flatten_list t) in
  if per_channel || Nat.eqb (length bs) 1 then Ok (forallb (fun b => b) bs) else Err E_type.
Definition all_positive (t : qt) : bool := forallb (fun v => negb (Qle_bool v 0)) (flatten_list t).
(* quantize_node.py L43-55 with the functions of quantization_fn_selection.py; signed=True *)
Definition toolkit_quantize (c : acfg) (w : qt) : result qt :=
  let n := ac_bits c in
  match ac_method c with
  | W_pot | W_sym =>
      let! t := need (ac_threshold c) E_critical in
      let! b := match ac_method c with W_pot => pot_ok (ac_per_channel c) t | _ => Ok true end in
      let! _ := guard b E_critical in
      let! _ := guard (ac_per_channel c || Nat.eqb (prod (q_shape t)) 1) E_value in
      let! _ := guard (all_positive t) E_critical in
      let! _ := guard (fits t (q_shape w)) E_value in
      Ok (QT (q_shape w) (fun idx => quantize_elem (bget t idx) n true (q_at w idx)))
  | W_uniform =>
      let! a := need (ac_min c) E_critical in
      let! b := need (ac_max c) E_critical in
      let! _ := guard (fits a (q_shape w) && fits b (q_shape w)) E_value in
      Ok (QT (q_shape w) (fun idx => uniform_quantize_elem (bget a idx) (bget b idx) n (q_at w idx)))
  | W_lut_pot | W_lut_sym =>
      let! lut := need (ac_lut c) E_key in
      let! t := need (ac_scale c) E_key in
      let! _ := guard (fits t (q_shape w)) E_value in
      let! _ := guard (negb (Nat.eqb (prod (q_shape lut)) 0)) E_value in
      Ok (QT (q_shape w) (fun idx => match lut_kmeans_quantizer_elem (flatten_list lut) (bget t idx) (q_at w idx) with
                                     | Ok v => v | Err _ => 0 end))
  end.
(* quantize_graph_weights.py L38-56, one node *)
Definition toolkit_weights (n : enode) : result (list (ekey * qt)) :=
  mapM (fun kw => let! b := is_weights_quantization_enabled n (fst kw) in
                  if b then let! c := get_attr_config (en_cfgs n) (fst kw) in
                            let! q := toolkit_quantize c (snd kw) in Ok (fst kw, q)
                  else Ok kw) (en_weights n).

(* ---- the exported weight quantizers ---- *)
(* the keyword arguments of the constructor *)
Record wq := WQ { wq_method : wmethod; wq_bits : Z; wq_threshold : list Q; wq_min : list Q; wq_max : list Q; wq_lut : list Q;
  wq_per_channel : bool; wq_axis : option nat; wq_rank : option nat }.
(* node_to_quantizer.py: PyTorch L31-81, Keras L29-88 *)
Definition weights_kwargs (f : fw) (c : acfg) : result wq :=
  match ac_method c with
  | W_pot | W_sym =>
      let! t := need (ac_threshold c) E_key in
      Ok (WQ (ac_method c) (ac_bits c) (flatten_list t) [] [] [] (ac_per_channel c) (ac_axis c)
             (match f with Torch => None | Keras => Some (length (q_shape t)) end))
  | W_uniform =>
      let! a := need (ac_min c) E_key in
      let! b := need (ac_max c) E_key in
      Ok (WQ (ac_method c) (ac_bits c) [] (flatten_list a) (flatten_list b) [] (ac_per_channel c) (ac_axis c)
             (match f with Torch => None | Keras => Some (length (q_shape a)) end))
  | W_lut_pot | W_lut_sym =>
      let! lut := need (ac_lut c) E_key in
      let! t := need (ac_scale c) E_key in
      Ok (WQ (ac_method c) (ac_bits c) (flatten_list t) [] [] (flatten_list lut) (ac_per_channel c) (ac_axis c)
             (Some (length (q_shape t))))
  end.
(* constructors of mct_quantizers: positive thresholds, powers of two where the method says so; one value without
   per_channel; tables of at most 2^bits whole numbers of eight signed bits *)
Definition is_pot (v : Q) : bool := match threshold_is_power_of_two v with Some b => b | None => false end.
Definition is_whole (v : Q) : bool := Qeq_bool v (inject_Z (Qfloor v)).
Definition one_each (q : wq) (l : list Q) : bool := wq_per_channel q || Nat.eqb (length l) 1.
Definition has_axis (q : wq) : bool := negb (wq_per_channel q) || match wq_axis q with Some _ => true | None => false end.
Definition lut_ok (n : Z) (signed : bool) (lut : list Q) : bool :=
  Z.leb (Z.of_nat (length lut)) (2 ^ n) && Z.leb n LUT_VALUES_BITWIDTH && negb (Nat.eqb (length lut) 0) &&
  forallb (fun v => is_whole v && Qle_bool (if signed then -128#1 else 0) v && Qle_bool v (if signed then 127#1 else 255#1)) lut.
Definition wq_init (q : wq) : result wq :=
  let ok := match wq_method q with
            | W_pot => forallb is_pot (wq_threshold q) && one_each q (wq_threshold q)
            | W_sym => forallb (fun v => negb (Qle_bool v 0)) (wq_threshold q) && one_each q (wq_threshold q)
            | W_uniform => one_each q (wq_min q) && one_each q (wq_max q)
            | W_lut_pot => forallb is_pot (wq_threshold q) && one_each q (wq_threshold q) && lut_ok (wq_bits q) true (wq_lut q)
            | W_lut_sym => forallb (fun v => negb (Qle_bool v 0)) (wq_threshold q) && one_each q (wq_threshold q) && lut_ok (wq_bits q) true (wq_lut q)
            end in
  if ok && has_axis q then Ok q else Err E_assert.

(* the parameter of the entry at idx *)
Definition pick (q : wq) (l : list Q) (idx : list nat) : Q :=
  match wq_per_channel q, wq_axis q with true, Some a => nth (nth a idx 0%nat) l 0 | _, _ => nth 0 l 0 end.
(* torch: one parameter per channel *)
Definition chan_ok (q : wq) (l : list Q) (s : list nat) : bool :=
  match wq_per_channel q, wq_axis q with
  | true, Some a => Nat.ltb a (length s) && Nat.eqb (length l) (nth a s 0%nat)
  | true, None => false
  | false, _ => true
  end.
(* uniform ranges are adjusted by fix_range_to_include_zero in the constructor *)
Definition torch_uniform_elem (lo hi : Q) (n : Z) (x : Q) : Q :=
  let '(a, b) := fix_range_to_include_zero lo hi n in
  let scale := (b - a) / (Qpower 2 n - 1) in
  torch_elem scale (- round_half_even (a / scale)) 0 (2 ^ n - 1) x.
Definition torch_uniform_ok (lo hi : Q) (n : Z) : bool :=
  let '(a, b) := fix_range_to_include_zero lo hi n in
  let zp := (- round_half_even (a / ((b - a) / (Qpower 2 n - 1))))%Z in (0 <=? zp)%Z && (zp <=? 2 ^ n - 1)%Z.
Definition keras_uniform_elem (lo hi : Q) (n : Z) (x : Q) : Q :=
  let '(a, b) := fix_range_to_include_zero lo hi n in tf_elem a b n x.
Definition torch_symmetric_elem (t : Q) (n : Z) (x : Q) : Q :=
  torch_elem (t / Qpower 2 (n - 1)) 0 (- 2 ^ (n - 1)) (2 ^ (n - 1) - 1) x.
Definition keras_symmetric_elem (t : Q) (n : Z) (x : Q) : Q :=
  let '(mn, mx) := keras_symmetric_range true n t in tf_elem mn mx n x.
Definition lut_value (lut : list Q) (t : Q) (signed : bool) (x : Q) : Q := match lut_elem lut t signed x with Ok v => v | Err _ => 0 end.

(* exchange of two positions of a list, tf.transpose with that permutation *)
Definition swap_at (i j : nat) (l : list nat) : list nat :=
  map (fun k => nth (if Nat.eqb k i then j else if Nat.eqb k j then i else k) l 0%nat) (seq 0 (length l)).
Definition swap_axes (i j : nat) (w : qt) : qt := QT (swap_at i j (q_shape w)) (fun idx => q_at w (swap_at i j idx)).
(* Keras: the axis of the channels is exchanged with the last one of input_rank axes, the function applied, the axes
   exchanged back; e k x is the value of x with the parameters of channel k *)
Definition keras_apply (q : wq) (channels : nat) (e : nat -> Q -> Q) (w : qt) : result qt :=
  let! _ := guard ((2 <=? wq_bits q)%Z && (wq_bits q <=? 16)%Z) E_value in
  if wq_per_channel q then
    match wq_axis q, wq_rank q with
    | Some a, Some r =>
        let moved := negb (Nat.eqb a (r - 1)) in
        let! _ := guard (negb moved || (Nat.ltb a r && Nat.eqb r (length (q_shape w)))) E_value in
        let w1 := if moved then swap_axes a (r - 1) w else w in
        let last := (length (q_shape w1) - 1)%nat in
        let! _ := guard (Nat.eqb (nth last (q_shape w1) 0%nat) channels) E_value in
        let w2 := QT (q_shape w1) (fun idx => e (nth last idx 0%nat) (q_at w1 idx)) in
        Ok (if moved then swap_axes a (r - 1) w2 else w2)
    | _, _ => Err E_assert
    end
  else Ok (QT (q_shape w) (fun idx => e 0%nat (q_at w idx))).
(* the threshold of a table quantizer is reshaped to input_rank axes, of which the axis of the channels is long *)
Definition lut_chan_ok (q : wq) (s : list nat) : bool :=
  negb (wq_per_channel q) ||
  match wq_axis q, wq_rank q with
  | Some a, Some r => Nat.ltb a r && Nat.eqb r (length s) && Nat.eqb (length (wq_threshold q)) (nth a s 0%nat)
  | _, _ => false
  end.
(* __call__ *)
Definition wq_call (f : fw) (q : wq) (w : qt) : result qt :=
  let n := wq_bits q in
  match wq_method q, f with
  | (W_pot | W_sym), Torch =>
      let! _ := guard (chan_ok q (wq_threshold q) (q_shape w)) E_runtime in
      Ok (QT (q_shape w) (fun idx => torch_symmetric_elem (pick q (wq_threshold q) idx) n (q_at w idx)))
  | (W_pot | W_sym), Keras =>
      keras_apply q (length (wq_threshold q)) (fun k => keras_symmetric_elem (nth k (wq_threshold q) 0) n) w
  | W_uniform, Torch =>
      let! _ := guard (chan_ok q (wq_min q) (q_shape w) && chan_ok q (wq_max q) (q_shape w)) E_runtime in
      let! _ := guard (forallb (fun ab => torch_uniform_ok (fst ab) (snd ab) n) (combine (wq_min q) (wq_max q))) E_runtime in
      Ok (QT (q_shape w) (fun idx => torch_uniform_elem (pick q (wq_min q) idx) (pick q (wq_max q) idx) n (q_at w idx)))
  | W_uniform, Keras =>
      keras_apply q (length (wq_min q)) (fun k => keras_uniform_elem (nth k (wq_min q) 0) (nth k (wq_max q) 0) n) w
  | (W_lut_pot | W_lut_sym), _ =>
      let! _ := guard (lut_chan_ok q (q_shape w)) E_runtime in
      Ok (QT (q_shape w) (fun idx => lut_value (wq_lut q) (pick q (wq_threshold q) idx) true (q_at w idx)))
  end.

(* keras_implementation.py _weight_name L592-605: w.split(':')[0].split('/')[-1] *)
Fixpoint upto (c : ascii) (s : string) : string :=
  match s with EmptyString => EmptyString | String a r => if Ascii.eqb a c then EmptyString else String a (upto c r) end.
Fixpoint has_char (c : ascii) (s : string) : bool :=
  match s with EmptyString => false | String a r => Ascii.eqb a c || has_char c r end.
Fixpoint after_last (c : ascii) (s : string) : string :=
  match s with
  | EmptyString => EmptyString
  | String a r => if has_char c r then after_last c r else if Ascii.eqb a c then r else s
  end.
Definition weight_name (s : string) : string := after_last "/"%char (upto ":"%char s).
Definition exported_name (f : fw) (k : ekey) : ekey := match f, k with Keras, KN s => KN (weight_name s) | _, _ => k end.

(* get_weights_quantizer_for_node: PyTorch L124-150, Keras L105-130 *)
Definition weights_quantizer (f : fw) (n : enode) (k : ekey) : result wq :=
  let! c := get_attr_config (en_cfgs n) k in
  let! q := weights_kwargs f c in wq_init q.
(* the names handed to get_inferable_quantizers: pytorch_implementation.py L567-570, keras_implementation.py L607-612 *)
Definition attribute_names (f : fw) (n : enode) : result (list ekey) :=
  match f with
  | Torch => Ok (map fst (en_weights n))
  | Keras =>
      let! l := mapM (fun kw => let! b := is_weights_quantization_enabled n (fst kw) in
                                Ok (if b then [exported_name Keras (fst kw)] else [])) (en_weights n) in
      Ok (concat l)
  end.
(* get_inferable_quantizers.py L38-44 *)
Definition weight_quantizers (f : fw) (n : enode) : result (list (ekey * wq)) :=
  let! names := attribute_names f n in
  foldM (fun d k => let! b := is_weights_quantization_enabled n k in
                    if b then let! q := weights_quantizer f n k in Ok (kset k q d) else Ok d) names [].
(* the wrapped layer: a weight with a quantizer is replaced by what the quantizer makes of it; positional weights are
   handed to the wrapper, the others are attributes of the layer under their exported name *)
Definition exported_weights (f : fw) (n : enode) : result (list (ekey * qt)) :=
  let! qs := weight_quantizers f n in
  mapM (fun kw => match kget (exported_name f (fst kw)) qs with
                  | Some q => let! w := wq_call f q (snd kw) in Ok (fst kw, w)
                  | None => Ok kw
                  end) (en_weights n).

(* ---- the exported activation quantizers ---- *)
Inductive amethod := A_of (m : method) | A_lut_sym.
(* what a constructor of mct_quantizers gets, and what the quantizer computes *)
Inductive aq :=
| AQ_symmetric (pot : bool) (n : Z) (threshold : list Q) (signed : option bool)
| AQ_uniform (n : Z) (lo hi : list Q)
| AQ_lut (n : Z) (lut threshold : list Q) (signed : option bool).
(* PyTorch L84-121 (.get(SIGNED)), Keras L90-117 *)
Definition activation_kwargs (f : fw) (m : amethod) (n : Z) (p : aparams) : result aq :=
  match m with
  | A_of (M_pot as m0) | A_of (M_sym as m0) =>
      let! t := need (fp_threshold p) E_key in
      let! _ := guard (match f, fp_signed p with Keras, None => false | _, _ => true end) E_key in
      Ok (AQ_symmetric (match m0 with M_pot => true | _ => false end) n [t] (fp_signed p))
  | A_of M_uniform =>
      let! a := need (fp_min p) E_key in
      let! b := need (fp_max p) E_key in
      Ok (AQ_uniform n [a] [b])
  | A_of M_lut =>
      let! lut := need (fp_lut p) E_key in
      let! t := need (fp_threshold p) E_key in
      let! _ := guard (match f, fp_signed p with Keras, None => false | _, _ => true end) E_key in
      Ok (AQ_lut n lut [t] (fp_signed p))
  | A_lut_sym => Err E_critical
  end.
(* constructor and call; a missing sign is refused *)
Definition aq_call (f : fw) (q : aq) (xs : list Q) : result (list Q) :=
  match q with
  | AQ_symmetric pot n [t] (Some s) =>
      let! _ := guard (if pot then is_pot t else negb (Qle_bool t 0)) E_assert in
      match f with
      | Torch => let '(mn, mx, scale) := torch_symmetric_range s n t in torch_q mn mx scale 0 xs
      | Keras => let '(mn, mx) := keras_symmetric_range s n t in tf_q mn mx n xs
      end
  | AQ_uniform n [lo] [hi] =>
      let '(a, b) := fix_range_to_include_zero lo hi n in
      match f with
      | Torch => let scale := (b - a) / (Qpower 2 n - 1) in torch_q 0 (2 ^ n - 1) scale (- round_half_even (a / scale)) xs
      | Keras => tf_q a b n xs
      end
  | AQ_lut n lut [t] (Some s) =>
      let! _ := guard (is_pot t && lut_ok n s lut) E_assert in mapM (lut_elem lut t s) xs
  | _ => Err E_assert
  end.
Definition exported_activation (f : fw) (m : amethod) (n : Z) (p : aparams) (xs : list Q) : result (list Q) :=
  let! q := activation_kwargs f m n p in aq_call f q xs.
(* get_inferable_quantizers.py L46-48 and the builders' get_activation_quantizer_holder: outs is Some k for an output_shape
   that is a list of k shapes *)
Definition activation_holder (enabled : bool) (outs : option nat) (q : result aq) : result aq :=
  let! l := (if enabled then let! a := q in Ok (repeat a (match outs with Some k => k | None => 1%nat end)) else Ok []) in
  match l with [a] => Ok a | _ => Err E_critical end.
