(* ExportSpec.v -- what the exported weights have to be. *)
From Coq Require Import String.
From Verif Require Import Nd.
From Verif Require Import Base RoundQ QuantModel QuantSpec LutModel FakeQModel FakeQSpec ExportModel.
From Coq Require Import Qpower Qabs.
Open Scope Q_scope.

(* bit-widths a framework's fake quantization takes *)
Definition bits_taken (f : fw) (n : Z) : Prop := match f with Torch => (1 <= n)%Z | Keras => (2 <= n <= 16)%Z end.

(* a parameter goes with the weight w: one value for each channel along the axis of the channels, or one value *)
Definition per_channel_shape (rank axis channels : nat) : list nat := repeat 1%nat axis ++ channels :: repeat 1%nat (rank - axis - 1).
Definition goes_with (c : acfg) (w p : qt) : Prop :=
  if ac_per_channel c
  then exists a, ac_axis c = Some a /\ (a < length (q_shape w))%nat /\
         q_shape p = per_channel_shape (length (q_shape w)) a (nth a (q_shape w) 0%nat)
  else exists r, (r <= length (q_shape w))%nat /\ q_shape p = repeat 1%nat r.
(* the value of the parameter for the entry idx of the weight *)
Definition param_at (c : acfg) (p : qt) (idx : list nat) : Q :=
  match ac_per_channel c, ac_axis c with
  | true, Some a => q_at p (repeat 0%nat a ++ nth a idx 0%nat :: repeat 0%nat (length (q_shape p) - a - 1))
  | _, _ => q_at p (repeat 0%nat (length (q_shape p)))
  end.
Definition every (p : qt) (P : Q -> Prop) : Prop := forall idx, inb (q_shape p) idx -> P (q_at p idx).
Definition power_of_two (v : Q) : Prop := exists k, v == Qpower 2 k.

(* the configuration c holds parameters for the weight w *)
Definition ready (f : fw) (c : acfg) (w : qt) : Prop :=
  match ac_method c with
  | W_pot | W_sym =>
      bits_taken f (ac_bits c) /\
      exists t, ac_threshold c = Some t /\ goes_with c w t /\ every t (fun v => 0 < v) /\ (ac_method c = W_pot -> every t power_of_two)
  | W_uniform =>
      bits_taken f (ac_bits c) /\
      exists a b, ac_min c = Some a /\ ac_max c = Some b /\ goes_with c w a /\ goes_with c w b /\ q_shape a = q_shape b /\
        forall idx, inb (q_shape a) idx -> q_at a idx < q_at b idx
  | W_lut_pot | W_lut_sym =>
      (1 <= ac_bits c <= 8)%Z /\
      exists l t, ac_lut c = Some l /\ ac_scale c = Some t /\ goes_with c w t /\ every t (fun v => 0 < v) /\
        (ac_method c = W_lut_pot -> every t power_of_two) /\
        (1 <= Z.of_nat (prod (q_shape l)) <= 2 ^ ac_bits c)%Z /\
        every l (fun v => exists k, v == inject_Z k /\ (-128 <= k <= 127)%Z)
  end.

(* e and t are quantizations of w by c that agree: both take the nearest value of the grid of the entry's channel and are
   equal wherever the entry is not half-way between two grid values (symmetric grids in PyTorch, tables: everywhere) *)
Definition same_quantization (f : fw) (c : acfg) (w e t : qt) : Prop :=
  q_shape e = q_shape w /\ q_shape t = q_shape w /\
  forall idx, inb (q_shape w) idx ->
    let x := q_at w idx in
    match ac_method c with
    | W_pot | W_sym =>
        forall th, ac_threshold c = Some th ->
          let d := step (param_at c th idx) (ac_bits c) true in
          let near := nearest d (code_min (ac_bits c) true) (code_max (ac_bits c) true) x in
          near (q_at e idx) /\ near (q_at t idx) /\
          (tie_free d x \/ (f = Torch /\ (2 <= ac_bits c)%Z) -> q_at e idx == q_at t idx)
    | W_uniform =>
        forall a b, ac_min c = Some a -> ac_max c = Some b ->
          let d := range_step (param_at c a idx) (param_at c b idx) (ac_bits c) in
          exists kmin, (kmin <= 0 <= kmin + (2 ^ ac_bits c - 1))%Z /\
          let near := nearest d kmin (kmin + (2 ^ ac_bits c - 1)) x in
          near (q_at e idx) /\ near (q_at t idx) /\ (tie_free d x -> q_at e idx == q_at t idx)
    | W_lut_pot | W_lut_sym =>
        q_at e idx == q_at t idx /\
        forall l th, ac_lut c = Some l -> ac_scale c = Some th ->
          let v := clip (x / (param_at c th idx + EPS) * 128) (-128) 127 in
          exists j, inb (q_shape l) j /\ q_at e idx == q_at l j * param_at c th idx / 128 /\
            forall j', inb (q_shape l) j' -> Qabs (v - q_at l j) <= Qabs (v - q_at l j')
    end.

(* s occurs in t *)
Definition occurs (s t : string) : Prop := exists pre post, t = String.append pre (String.append s post).
(* a node whose final configuration has an entry for every weight, with parameters where it is quantized; in Keras the
   last part of the name of a quantized weight occurs in no other name *)
Definition exportable (f : fw) (n : enode) : Prop :=
  NoDup (map fst (en_weights n)) /\ NoDup (map fst (en_cfgs n)) /\
  forall k w, In (k, w) (en_weights n) ->
    exists c, In (k, c) (en_cfgs n) /\
      (ac_enable c = true -> ready f c w /\
         (f = Keras -> forall s s' c', k = KN s -> In (KN s', c') (en_cfgs n) -> occurs (weight_name s) s' -> s' = s)).
