(* PruneBuildSpec.v -- what is left of a weight and of a layer when channels are removed. *)
From Coq Require Import String.
From Verif Require Import Base HessianModel FilterModel PruneModel PruneMemModel PruneMemSpec.
Open Scope Z_scope.

(* the channels a mask keeps, in order *)
Definition remaining (mask : list Z) : list nat := filter (fun i => negb (Z.eqb (nth i mask 0) 0)) (seq 0 (length mask)).
(* along the masked axis: the number of channels left, and the original channel of the i-th one left *)
Definition dim_left (m : option (list Z)) (ax : option nat) (a d : nat) : nat :=
  match m, ax with Some m, Some x => if Nat.eqb a x then length (remaining m) else d | _, _ => d end.
Definition origin (m : option (list Z)) (ax : option nat) (a i : nat) : nat :=
  match m, ax with Some m, Some x => if Nat.eqb a x then nth i (remaining m) 0%nat else i | _, _ => i end.
(* w' holds exactly the entries of w whose output and input channels remain *)
Definition restricted (im : option (list Z)) (ia : option nat) (om : option (list Z)) (oa : option nat) (w w' : tensor) : Prop :=
  (forall a, nth_error (t_shape w') a = option_map (fun d => dim_left om oa a (dim_left im ia a d)) (nth_error (t_shape w) a)) /\
  (forall pos, Forall2 lt pos (t_shape w') ->
     t_val w' pos = t_val w (map (fun a => origin om oa a (origin im ia a (nth a pos 0%nat))) (seq 0 (length pos)))).
Definition some_zero (m : list Z) : Prop := In 0 m.
(* n' is n with the masked channels removed from every weight, and nothing else changed but the number of
   output channels of an edge layer *)
Definition left_of (f : fw) (n : pnode) (im om : option (list Z)) (n' : pnode) : Prop :=
  pn_id n' = pn_id n /\ pn_name n' = pn_name n /\ pn_kind n' = pn_kind n /\ pn_oca n' = pn_oca n /\
  pn_use_bias n' = pn_use_bias n /\
  (forall m, om = Some m -> is_edge n = true -> some_zero m -> pn_units n' = fold_right Z.add 0 m) /\
  ((om = None \/ is_edge n = false \/ exists m, om = Some m /\ ~ some_zero m) -> pn_units n' = pn_units n) /\
  Forall2 (fun kw kw' => fst kw' = fst kw /\
             restricted im (snd (weight_axes f n kw)) om (fst (weight_axes f n kw)) (snd kw) (snd kw')) (pn_weights n) (pn_weights n').
(* a layer with a bias attribute has a bias vector, and conversely *)
Definition bias_consistent (n : pnode) : Prop :=
  (pn_use_bias n = true <-> exists k w, In (WS k, w) (pn_weights n) /\ str_contains k "bias" = true) /\
  forall k w, In (WS k, w) (pn_weights n) -> str_contains k "bias" = true -> length (t_shape w) = 1%nat.
