(* SearchModel.v -- quantization-parameter searches.
   Sources (model_compression_toolkit/core/common/quantization/quantization_params_generation/):
     qparams_search.py, power_of_two_selection.py, symmetric_selection.py, uniform_selection.py
   Simplifications: exact rationals; a tensor seen along an axis is the list of its channels (each the list
   of its elements; per_channel = False is the case of one channel), the numpy reshape/transpose being outside
   the model; the error function is an arbitrary function [loss channel quantized parameter]. *)
From Verif Require Import Base RoundQ QuantModel.
From Coq Require Import Qround Qpower.
Open Scope Q_scope.

(* np.argmin: index of the first minimum; ValueError on an empty sequence *)
Fixpoint argmin_from (best_i : nat) (best : Q) (i : nat) (l : list Q) : nat * Q :=
  match l with
  | [] => (best_i, best)
  | x :: r => if Qlt_b x best then argmin_from i x (S i) r else argmin_from best_i best (S i) r
  end.
Definition argmin (l : list Q) : result (nat * Q) :=
  match l with [] => Err E_value | x :: r => Ok (argmin_from 0 x 1 r) end.

Definition sumQ (l : list Q) : Q := fold_right Qplus 0 l.
Definition meanQ (l : list Q) : Q := sumQ l / inject_Z (Z.of_nat (length l)).

Section PowerOfTwoSearch.
  Variable loss : list Q -> list Q -> Q -> Q.  (* error_function float quantized threshold, any *)
  Variable n_bits : Z.
  Variable n_iter : nat.
  Variable min_threshold : Q.
  Variable signed : bool.

  (* qparams_search.py L83-92: threshold / 2**i for i in range(n_iter) *)
  Definition pot_thresholds (t : Q) : list Q := map (fun i => t / Qpower 2 (Z.of_nat i)) (seq 0 n_iter).

  (* qparams_search.py L70-98, one channel: the returned threshold and the minimal error *)
  Definition pot_search_channel (xs : list Q) : result (Q * Q) :=
    let! tensor_max := get_tensor_max xs n_bits false in
    let threshold := 2 * max_power_of_two tensor_max min_threshold in
    let errs := map (fun th => loss xs (quantize_tensor xs th n_bits signed) th) (pot_thresholds threshold) in
    let! (i, e) := argmin errs in
    Ok (Qmax_ (threshold / Qpower 2 (Z.of_nat i)) min_threshold, e).

  (* qparams_search.py L33-101: loop over the candidate axes (each a list of channels), keep the axis with
     the least mean error *)
  Definition qparams_selection_tensor_search (axes : list (list (list Q))) : result (list Q * nat) :=
    let! per_axis := mapM (mapM pot_search_channel) axes in
    let! (i, _) := argmin (map (fun chs => meanQ (map snd chs)) per_axis) in
    Ok (map fst (nth i per_axis []), i).

  (* power_of_two_selection.py L65-79, NOCLIPPING branch, one channel *)
  Definition pot_no_clipping_tensor (xs : list Q) : result Q :=
    let! tensor_max := get_tensor_max xs n_bits false in
    Ok (max_power_of_two tensor_max min_threshold).

  (* symmetric_selection.py L80-81 + get_init_threshold L202-206, NOCLIPPING branch, one channel *)
  Definition sym_no_clipping_tensor (xs : list Q) : result Q :=
    let! tensor_max := get_tensor_max xs n_bits false in
    Ok (Qmax_ min_threshold tensor_max).
End PowerOfTwoSearch.

(* Histograms: bins has one more entry than counts. *)

(* np.abs(bins)[1:][counts > 0]: absolute right edges of the non-empty bins *)
Fixpoint masked {A} (l : list A) (counts : list Q) : list A :=
  match l, counts with
  | x :: l', c :: c' => if Qlt_b 0 c then x :: masked l' c' else masked l' c'
  | _, _ => []
  end.
Definition qabs (q : Q) : Q := if Qle_bool 0 q then q else - q.

(* power_of_two_selection.py L130-134 (NOCLIPPING branch): the threshold *)
Definition pot_no_clipping_histogram (bins counts : list Q) (min_threshold : Q) : result Q :=
  let! tensor_max := list_max (masked (tl (map qabs bins)) counts) in
  Ok (max_power_of_two tensor_max min_threshold).

(* symmetric_selection.py L131-133 (NOCLIPPING branch): the threshold *)
Definition sym_no_clipping_histogram (bins counts : list Q) (min_threshold : Q) : result Q :=
  let! tensor_max := list_max (masked (tl (map qabs bins)) counts) in
  Ok (Qmax_ min_threshold tensor_max).

(* uniform_selection.py L140-146 (NOCLIPPING branch) *)
Definition uni_no_clipping_histogram (bins counts : list Q) : result (Q * Q) :=
  let! mn := list_min (masked (removelast bins) counts) in
  let! mx := list_max (masked (tl bins) counts) in
  Ok (mn, mx).

(* power_of_two_selection.py L149-..., symmetric_selection.py L157-186, uniform_selection.py L159-187:
   "no clipping, min/max" methods call the histogram version on bins [min,max] with counts [1] *)
Definition pot_no_clipping_min_max (mn mx min_threshold : Q) : result Q :=
  pot_no_clipping_histogram [mn; mx] [1] min_threshold.
Definition sym_no_clipping_min_max (mn mx min_threshold : Q) : result Q :=
  sym_no_clipping_histogram [mn; mx] [1] min_threshold.
Definition uni_no_clipping_min_max (mn mx : Q) : result (Q * Q) :=
  uni_no_clipping_histogram [mn; mx] [1].

(* uniform_selection.py L66-81 and L93-98: NOCLIPPING, per tensor (scalar branch) *)
Definition uni_no_clipping_tensor (xs : list Q) (n_bits : Z) : result (Q * Q) :=
  let! mn := list_min xs in
  let! mx := get_tensor_max xs n_bits true in
  let mn' := if Qlt_b 0 mn then 0 else mn in
  let mx' := if Qlt_b mx 0 then 0 else mx in
  Ok (mn', mx').

(* Iterative range searches: qparams_symmetric_iterative_minimization L158-236 and
   iterative_uniform_dynamic_range_search L239-301 share one loop; P is the parameter type
   (threshold, or pair of bounds), [cands n p] the grid tried at iteration n around p. *)
Section Iterative.
  Context {X P : Type}.
  Variable loss : X -> P -> Q.         (* loss_fn(x, quantize(x, p), p) of one channel *)
  Variable cands : nat -> P -> list P. (* L217/L346 resp. L287/L394 *)
  Variable tolerance : Q.

  (* one channel: its data, current parameter, best parameter and loss, and a ghost log of every parameter
     whose loss has been evaluated (the log is not in the code; it only serves to state the property) *)
  Record chan := { c_x : X; c_curr : P; c_best : P; c_loss : Q; c_log : list P }.

  (* L344-348 / L392-396 (np.argmin); the per-channel branch L326-343 keeps the first strict improvement,
     which is the same index *)
  Definition search_grid (c : chan) (ps : list P) : result (P * Q) :=
    let! (i, l) := argmin (map (loss (c_x c)) ps) in
    match nth_error ps i with Some p => Ok (p, l) | None => Err E_index end.

  (* L214-223: new current parameter, masked update of the best one; returns also prev_best - curr_loss *)
  Definition iter_channel (n : nat) (c : chan) : result (chan * Q) :=
    let ps := cands n (c_curr c) in
    let! (p, l) := search_grid c ps in
    let better := Qlt_b l (c_loss c) in
    Ok ({| c_x := c_x c; c_curr := p;
           c_best := if better then p else c_best c;
           c_loss := if better then l else c_loss c;
           c_log := c_log c ++ ps |}, c_loss c - l).

  (* L213-234: at most n_iter iterations, early stop when 0 < mean improvement < tolerance *)
  Fixpoint iter_loop (k n : nat) (cs : list chan) : result (list chan) :=
    match k with
    | O => Ok cs
    | S k' =>
        let! rs := mapM (iter_channel n) cs in
        let cs' := map fst rs in
        let d := meanQ (map snd rs) in
        if Qlt_b 0 d && Qlt_b d tolerance then Ok cs' else iter_loop k' (S n) cs'
    end.

  (* L200-211 initialisation from x0 *)
  Definition iter_init (x : X) (p0 : P) : chan :=
    {| c_x := x; c_curr := p0; c_best := p0; c_loss := loss x p0; c_log := [p0] |}.
  Definition iter_search (n_iter : nat) (xs : list (X * P)) : result (list chan) :=
    iter_loop n_iter 0 (map (fun xp => iter_init (fst xp) (snd xp)) xs).
End Iterative.

(* np.linspace(start, stop, num) *)
Definition linspace (start stop : Q) (num : nat) : list Q :=
  match num with
  | O => []
  | S O => [start]
  | S m => map (fun i => start + inject_Z (Z.of_nat i) * ((stop - start) / inject_Z (Z.of_nat m))) (seq 0 num)
  end.

(* constants.py L89-94 *)
Definition BOTTOM_FACTOR : Q := 7#10.
Definition UPPER_FACTOR : Q := 12#10.
Definition DEC_LO : Q := 102#100.
Definition DEC_HI : Q := 98#100.
Definition DEC_RANGE_BOTTOM : Q := 97#100.
Definition DEC_RANGE_UPPER : Q := 103#100.

(* range_scale at the start of iteration n: L200 and L231-234 *)
Fixpoint range_scale (dec_freq n : nat) : Q * Q :=
  match n with
  | O => (BOTTOM_FACTOR, UPPER_FACTOR)
  | S m =>
      let '(lo, hi) := range_scale dec_freq m in
      if Nat.eqb (Nat.modulo m dec_freq) 0
      then (Qmin_ (lo * DEC_LO) DEC_RANGE_BOTTOM, Qmax_ (hi * DEC_HI) DEC_RANGE_UPPER)
      else (lo, hi)
  end.

(* qparams_symmetric_iterative_minimization: thresholds *)
Definition sym_cands (n_intervals dec_freq n : nat) (t : Q) : list Q :=
  let '(lo, hi) := range_scale dec_freq n in linspace (t * lo) (t * hi) n_intervals.
Definition qparams_symmetric_iterative_minimization
  (loss : list Q -> list Q -> Q -> Q) (n_bits : Z) (signed : bool) (n_intervals n_iter dec_freq : nat)
  (tol : Q) (xs : list (list Q * Q)) :=
  iter_search (fun x t => loss x (quantize_tensor x t n_bits signed) t) (sym_cands n_intervals dec_freq) tol n_iter xs.

(* iterative_uniform_dynamic_range_search: (min,max) pairs scaled by every scaler pair *)
Definition uni_cands (scalers : list (Q * Q)) (n : nat) (mm : Q * Q) : list (Q * Q) :=
  map (fun s => (fst mm * fst s, snd mm * snd s)) scalers.
Definition iterative_uniform_dynamic_range_search
  (loss : list Q -> list Q -> Q * Q -> Q) (n_bits : Z) (scalers : list (Q * Q)) (n_iter : nat)
  (tol : Q) (xs : list (list Q * (Q * Q))) :=
  iter_search (fun x mm => loss x (uniform_quantize_tensor x (fst mm) (snd mm) n_bits) mm)
              (uni_cands scalers) tol n_iter xs.

(* qparams_search.py L401-467, with the per-axis channel lists as in qparams_selection_tensor_search:
   the thresholds per channel, the axis, and (ghost) the iterative search results behind them *)
Definition qparams_symmetric_selection_tensor_search
  (loss : list Q -> list Q -> Q -> Q) (n_bits : Z) (signed : bool) (n_intervals n_iter dec_freq : nat)
  (tol min_threshold : Q) (axes : list (list (list Q))) : result (list Q * nat) :=
  let! per_axis := mapM (fun channels =>
      let! x0 := mapM (fun xs => let! m := get_tensor_max xs n_bits false in Ok (xs, Qmax_ min_threshold m)) channels in
      qparams_symmetric_iterative_minimization loss n_bits signed n_intervals n_iter dec_freq tol x0) axes in
  let! (i, _) := argmin (map (fun chs => meanQ (map c_loss chs)) per_axis) in
  Ok (map (fun c => Qmax_ min_threshold (c_best c)) (nth i per_axis []), i).

(* qparams_search.py L470-533 (the scalers are the grid L503-505) *)
Definition qparams_uniform_selection_tensor_search
  (loss : list Q -> list Q -> Q * Q -> Q) (n_bits : Z) (scalers : list (Q * Q)) (n_iter : nat) (tol : Q)
  (axes : list (list (list Q))) : result (list (Q * Q) * nat) :=
  let! per_axis := mapM (fun channels =>
      let! x0 := mapM (fun xs =>
          let! mn := list_min xs in
          let! mx := get_tensor_max xs n_bits true in Ok (xs, (mn, mx))) channels in
      iterative_uniform_dynamic_range_search loss n_bits scalers n_iter tol x0) axes in
  let! (i, _) := argmin (map (fun chs => meanQ (map c_loss chs)) per_axis) in
  Ok (map c_best (nth i per_axis []), i).

(* qparams_search.py L503-505 *)
Definition uniform_scalers (n_samples : nat) : list (Q * Q) :=
  let l := linspace BOTTOM_FACTOR UPPER_FACTOR n_samples in list_prod l l.

(* qparams_search.py L104-155 with constrained = True; [loss q_bins th] is the histogram error *)
Definition qparams_selection_histogram_search
  (loss : list Q -> Q -> Q) (bins : list Q) (n_bits : Z) (n_iter : nat) (min_threshold : Q) (is_signed : option bool)
  : result (Q * bool) :=
  let signed := match is_signed with Some b => b | None => existsb (fun b => Qlt_b b 0) bins end in
  let! tensor_max := list_max (map qabs bins) in
  let threshold := 2 * max_power_of_two tensor_max min_threshold in
  let ths := pot_thresholds n_iter threshold in
  let! (i, _) := argmin (map (fun th => loss (quantize_tensor bins th n_bits signed) th) ths) in
  match nth_error ths i with
  | Some th => Ok (Qmax_ th min_threshold, signed)
  | None => Err E_index
  end.
