(* TrainExportProps.v -- C67: the exported quantizer computes what the trained one computed. *)
From Coq Require Import Lra Lia.
From Verif Require Import TrainQModel TrainQSpec TrainQProofs SoftRoundProps.
Local Open Scope R_scope.

Lemma symmetric_quantizer_val : forall x t n s, symmetric_quantizer x t n s =
  delta t n s * IZR (zclip (rround (x / delta t n s)) (lo_level n s) (hi_level n s)).
Proof. intros. unfold symmetric_quantizer. rewrite ste_clip_val, ste_round_val, min_int_IZR, max_int_IZR, clip_int. reflexivity. Qed.

Lemma symmetric_lsq_val : forall x t n s c, symmetric_lsq x t n s c = symmetric_quantizer x t n s.
Proof.
  intros. rewrite symmetric_quantizer_val. unfold symmetric_lsq.
  rewrite grad_scale_val, ste_round_val, min_int_IZR, max_int_IZR, clip_int. reflexivity.
Qed.

Lemma uniform_quantizer_val : forall d z n x a b, (1 <= n)%nat -> 0 < d ->
  fix_range a b n = (- d * IZR z, - d * IZR z + d * levels n) ->
  uniform_quantizer x a b n = d * IZR (zclip (rround (x / d + IZR z)) 0 (hi_level n false)) - d * IZR z.
Proof.
  intros d z n x a b Hn D E. generalize (levels_pos n Hn). intro L. unfold uniform_quantizer. rewrite E. cbn [fst snd].
  replace ((- d * IZR z + d * levels n - - d * IZR z) / levels n) with d by (field; lra).
  rewrite ste_clip_val, ste_round_val, levels_IZR. rewrite (clip_int _ 0).
  replace ((x - - d * IZR z) / d) with (x / d + IZR z) by (field; lra). ring.
Qed.

Lemma uniform_lsq_val : forall x a b n c, uniform_lsq x a b n c = uniform_quantizer x a b n.
Proof. intros. unfold uniform_lsq, uniform_quantizer. rewrite grad_scale_val, ste_clip_val. reflexivity. Qed.

(* the trained parameters for which conversion is exact: a positive threshold, a power of two if the method is power-of-two; a range
   that is not empty *)
Definition convertible (q : tq) : Prop :=
  match q with
  | T_lsq_weight pot t | T_ste_weight pot t | T_lsq_act pot _ t | T_ste_act pot _ t => 0 < t /\ (pot = true -> is_pot t)
  | T_lsq_uniform a b | T_ste_uniform a b => a < b
  end.

Theorem converted_quantizer_same : forall q n scale x, (2 <= n)%nat -> convertible q ->
  iq_call (convert q n) n x = tq_call q n scale x.
Proof.
  intros q n scale x Hn C.
  assert (SYM : forall (pot s : bool) t, 0 < t /\ (pot = true -> is_pot t) ->
    infer_symmetric (if pot then pot_up t else t) n s x = symmetric_quantizer x t n s).
  { intros pot s t [T P]. rewrite symmetric_quantizer_val.
    replace (if pot then pot_up t else t) with t by (destruct pot; [symmetry; apply pot_up_fixed; auto | reflexivity]).
    apply infer_symmetric_on; [lia | auto | exact T]. }
  destruct q as [pot t | pot t | pot s t | pot s t | a b | a b]; cbn [convert iq_call tq_call convertible] in *.
  - rewrite symmetric_lsq_val. apply SYM. exact C.
  - apply SYM. exact C.
  - rewrite symmetric_lsq_val. apply SYM. exact C.
  - apply SYM. exact C.
  - rewrite uniform_lsq_val. destruct (fix_range_spec a b n) as (d & z & D & Z & E); [lia | exact C |].
    rewrite (uniform_quantizer_val d z n x a b) by (assumption || lia).
    apply infer_uniform_on; [lia | exact D |]. rewrite E. cbn [fst snd]. apply fix_range_adjusted; [lia | exact D | exact Z].
  - destruct (fix_range_spec a b n) as (d & z & D & Z & E); [lia | exact C |].
    rewrite (uniform_quantizer_val d z n x a b) by (assumption || lia). apply infer_uniform_on; [lia | exact D | exact E].
Qed.
Print Assumptions converted_quantizer_same.

(* the weight quantizer whose threshold is not trained is always converted exactly *)
Theorem ste_weight_converted_same : forall (pot : bool) t n scale x, (2 <= n)%nat -> 0 < t ->
  let q := T_ste_weight pot (start_threshold true pot t) in iq_call (convert q n) n x = tq_call q n scale x.
Proof.
  intros pot t n scale x Hn T q. apply converted_quantizer_same; [exact Hn |]. subst q. cbn [convertible]. unfold start_threshold.
  destruct pot; cbn [andb]; split; auto using pot_max_pos, pot_max_pot. discriminate.
Qed.
Print Assumptions ste_weight_converted_same.

(* before any training step every quantizer is converted exactly, given what calibration hands over: a positive threshold (a power
   of two for a power-of-two activation quantizer), a range that is not empty *)
Theorem untrained_converted_same : forall (weights pot sign : bool) t n scale x, (2 <= n)%nat -> 0 < t ->
  (weights = false -> pot = true -> is_pot t) ->
  let t0 := start_threshold weights pot t in
  iq_call (convert (if weights then T_lsq_weight pot t0 else T_lsq_act pot sign t0) n) n x
  = tq_call (if weights then T_lsq_weight pot t0 else T_lsq_act pot sign t0) n scale x /\
  iq_call (convert (if weights then T_ste_weight pot t0 else T_ste_act pot sign t0) n) n x
  = tq_call (if weights then T_ste_weight pot t0 else T_ste_act pot sign t0) n scale x.
Proof.
  intros weights pot sign t n scale x Hn T P t0.
  assert (C : 0 < t0 /\ (pot = true -> is_pot t0)).
  { unfold t0, start_threshold. destruct weights; [destruct pot; cbn [andb] |]; cbn [andb]; split; auto using pot_max_pos, pot_max_pot. }
  destruct weights; split; (apply converted_quantizer_same; [exact Hn | exact C]).
Qed.
Print Assumptions untrained_converted_same.

(* the gradient scale does not change the values, and both families compute the same function *)
Theorem lsq_and_ste_agree : forall pot sign t a b n scale x,
  tq_call (T_lsq_weight pot t) n scale x = tq_call (T_ste_weight pot t) n scale x /\
  tq_call (T_lsq_act pot sign t) n scale x = tq_call (T_ste_act pot sign t) n scale x /\
  tq_call (T_lsq_uniform a b) n scale x = tq_call (T_ste_uniform a b) n scale x.
Proof.
  intros. cbn [tq_call]. rewrite !symmetric_lsq_val, uniform_lsq_val. auto.
Qed.
Print Assumptions lsq_and_ste_agree.

(* trained outputs are grid points, the nearest ones to the input *)
Theorem trained_output_nearest : forall q n scale x, (1 <= n)%nat ->
  match q with
  | T_lsq_weight _ t | T_ste_weight _ t =>
      0 < t -> nearest (t / 2 ^ (n - 1)) 0 (lo_level n true) (hi_level n true) x (tq_call q n scale x)
  | T_lsq_act _ s t | T_ste_act _ s t =>
      0 < t -> nearest (t / 2 ^ (if s then n - 1 else n)) 0 (lo_level n s) (hi_level n s) x (tq_call q n scale x)
  | T_lsq_uniform a b | T_ste_uniform a b =>
      a < b -> nearest ((snd (fix_range a b n) - fst (fix_range a b n)) / (2 ^ n - 1)) (fst (fix_range a b n)) 0 (hi_level n false) x
                 (tq_call q n scale x)
  end.
Proof.
  intros q n scale x Hn.
  assert (SYM : forall (s : bool) t, 0 < t -> nearest (t / 2 ^ (if s then n - 1 else n)) 0 (lo_level n s) (hi_level n s) x (symmetric_quantizer x t n s)).
  { intros s t T. rewrite symmetric_quantizer_val.
    replace (t / 2 ^ (if s then n - 1 else n)) with (delta t n s) by (unfold delta, n_pos; destruct s; rewrite ?Nat.sub_0_r; reflexivity).
    generalize (clipped_nearest (delta t n s) 0 (lo_level n s) (hi_level n s) x (rround (x / delta t n s)) (delta_pos t n s T) (lo_hi n s)).
    rewrite Rplus_0_l, Rminus_0_r. intro H. apply H. apply round_bounds. }
  assert (UNI : forall a b, a < b -> nearest ((snd (fix_range a b n) - fst (fix_range a b n)) / (2 ^ n - 1)) (fst (fix_range a b n)) 0 (hi_level n false) x
                 (uniform_quantizer x a b n)).
  { intros a b AB. destruct (fix_range_spec a b n Hn AB) as (d & z & D & Z & E).
    rewrite (uniform_quantizer_val d z n x a b Hn D E), E. cbn [fst snd]. generalize (levels_pos n Hn). intro L.
    replace ((- d * IZR z + d * levels n - - d * IZR z) / (2 ^ n - 1)) with d by (fold (levels n); field; lra).
    generalize (clipped_nearest d (- d * IZR z) 0 (hi_level n false) x (rround (x / d + IZR z)) D).
    intro H. rewrite (Rplus_comm (- d * IZR z)) in H. replace (d * IZR (zclip (rround (x / d + IZR z)) 0 (hi_level n false)) - d * IZR z)
      with (d * IZR (zclip (rround (x / d + IZR z)) 0 (hi_level n false)) + - d * IZR z) by ring. apply H.
    - generalize (level_order n false). lia.
    - replace ((x - - d * IZR z) / d) with (x / d + IZR z) by (field; lra). apply round_bounds. }
  destruct q as [pot t | pot t | pot s t | pot s t | a b | a b]; cbn [tq_call]; intro H;
    rewrite ?symmetric_lsq_val, ?uniform_lsq_val; auto.
  - apply (SYM true t H).
  - apply (SYM true t H).
Qed.
Print Assumptions trained_output_nearest.

(* with a power-of-two method the exported threshold is the trained one rounded up: never smaller, less than twice as large, so no
   value that was representable is clipped, but the step can be up to twice the trained step *)
Theorem converted_pot_threshold : forall q sign t n, 0 < t ->
  In q [T_lsq_act true sign t; T_ste_act true sign t] \/ (sign = true /\ In q [T_lsq_weight true t; T_ste_weight true t]) ->
  exists u, convert q n = I_symmetric sign u /\ is_pot u /\ t <= u < 2 * t /\ (u = t <-> is_pot t).
Proof.
  intros q sign t n T H. exists (pot_up t). split.
  - destruct H as [[<- | [<- | []]] | [-> [<- | [<- | []]]]]; reflexivity.
  - split; [apply pot_up_pot |]. split; [apply pot_up_range; exact T |].
    split; [intro H'; rewrite <- H'; apply pot_up_pot | apply pot_up_fixed].
Qed.
Print Assumptions converted_pot_threshold.
