(* SncShiftModel.v -- shift negative correction: whether a node is corrected, and the shift.
   Source: core/common/substitutions/shift_negative_activation.py L285-353.  Exact rationals. *)
From Verif Require Import Base RoundQ QuantModel SearchModel.
From Coq Require Import Qabs.
Open Scope Q_scope.

(* L305-308 (L323-325): 2**n_bits points from 0 to threshold - lsb *)
Definition q_points (t : Q) (n_bits : nat) : list Q :=
  let num := (2 ^ n_bits)%nat in
  let lsb := t / inject_Z (Z.of_nat num) in
  linspace 0 (t - lsb) num.
(* L310-311: None is np.inf *)
Definition deltas (mn : Q) (qs : list Q) : list (option Q) := map (fun q => let d := q + mn in if Qlt_b d 0 then None else Some d) qs.
(* np.argmin *)
Definition lt_inf (a b : option Q) : bool := match a, b with Some x, Some y => Qlt_b x y | Some _, None => true | None, _ => false end.
Fixpoint argmin_inf_from (best_i : nat) (best : option Q) (i : nat) (l : list (option Q)) : nat :=
  match l with [] => best_i | x :: r => if lt_inf x best then argmin_inf_from i x (S i) r else argmin_inf_from best_i best (S i) r end.
Definition argmin_inf (l : list (option Q)) : nat := match l with [] => 0%nat | x :: r => argmin_inf_from 0 x 1 r end.
(* L312 *)
Definition shift_value (mn t : Q) (n_bits : nat) : Q := let qs := q_points t n_bits in nth (argmin_inf (deltas mn qs)) qs 0.
(* L297-301; a threshold of zero gives an infinite rate *)
Definition corrected (mn t ratio : Q) : bool := Qlt_b mn 0 && negb (Qeq_bool t 0) && Qle_bool (Qabs mn / t) ratio.
(* L320-353: loss of a threshold and a shift; None before the first finite error *)
Definition search_params (loss : Q -> Q -> Q) (t : Q) (n_bits : nat) : option (Q * Q) :=
  let cands := flat_map (fun th => map (fun q => (th, q)) (q_points th n_bits)) [t; 2 * t] in
  option_map snd (fold_left (fun best c => let e := loss (fst c) (snd c) in
                               match best with Some (m, _) => if Qlt_b e m then Some (e, c) else best | None => Some (e, c) end) cands None).
(* the threshold and the shift of the node, None: the graph is returned as it is *)
Definition snc_params (loss : Q -> Q -> Q) (search : bool) (mn t ratio : Q) (n_bits : nat) : option (Q * Q) :=
  if corrected mn t ratio then if search then search_params loss t n_bits else Some (t, shift_value mn t n_bits) else None.
