(* SearchProps.v -- C05, C07, C08: selection of thresholds and ranges *)
From Verif Require Import Base RoundQ QuantModel QuantSpec SearchModel SearchProofs.
From Coq Require Import Qpower Qabs Lqa.
Open Scope Q_scope.

(* C05: the no-clipping power-of-two threshold is the least power of two that is at least the minimal
   threshold and whose signed n-bit range [-t, t - t/2^(n-1)] contains the whole tensor *)
Theorem pot_no_clipping_least : forall xs n min_th t, (2 <= n)%Z -> 0 < min_th ->
  pot_no_clipping_tensor n min_th xs = Ok t ->
  exists e, t = Qpower 2 e /\ min_th <= t /\
    (forall x, In x xs -> - t <= x <= t - t / inject_Z (2 ^ (n - 1))) /\
    (forall e', let t' := Qpower 2 e' in min_th <= t' ->
       (forall x, In x xs -> - t' <= x <= t' - t' / inject_Z (2 ^ (n - 1))) -> t <= t').
Proof. exact pot_least_lem. Qed.
Print Assumptions pot_no_clipping_least.

(* same for the unconstrained symmetric threshold *)
Theorem sym_no_clipping_least : forall xs n min_th t, (2 <= n)%Z ->
  sym_no_clipping_tensor n min_th xs = Ok t ->
  min_th <= t /\
  (forall x, In x xs -> - t <= x <= t - t / inject_Z (2 ^ (n - 1))) /\
  (forall t', min_th <= t' ->
     (forall x, In x xs -> - t' <= x <= t' - t' / inject_Z (2 ^ (n - 1))) -> t <= t').
Proof. exact sym_least_lem. Qed.
Print Assumptions sym_no_clipping_least.

(* hence the error of the selected no-clipping quantizer is at most half a step everywhere *)
Theorem pot_no_clipping_error : forall xs n min_th t, (2 <= n)%Z -> 0 < min_th ->
  pot_no_clipping_tensor n min_th xs = Ok t ->
  forall x, In x xs -> Qabs (quantize_elem t n true x - x) <= (1#2) * step t n true.
Proof. intros xs n min_th t Hn Hm H. exact (proj2 (proj2 (pot_no_clipping_lem xs n min_th t Hn Hm H))). Qed.
Print Assumptions pot_no_clipping_error.

Theorem no_clipping_selection_total : forall xs n min_th, (1 <= n)%Z -> xs <> [] ->
  (exists t, pot_no_clipping_tensor n min_th xs = Ok t) /\ (exists t, sym_no_clipping_tensor n min_th xs = Ok t).
Proof. exact no_clipping_total. Qed.
Print Assumptions no_clipping_selection_total.

Theorem uni_no_clipping_covers : forall xs n a b,
  uni_no_clipping_tensor xs n = Ok (a, b) -> a <= 0 <= b /\ forall x, In x xs -> a <= x <= b.
Proof. exact uni_no_clipping_tensor_lem. Qed.
Print Assumptions uni_no_clipping_covers.

(* activations: the uniform no-clipping range covers every non-empty histogram bin *)
Theorem uni_histogram_covers : forall bins counts mn mx,
  uni_no_clipping_histogram bins counts = Ok (mn, mx) ->
  forall i c l r, nth_error counts i = Some c -> 0 < c -> nth_error bins i = Some l -> nth_error bins (S i) = Some r ->
  mn <= l /\ r <= mx.
Proof. exact uni_histogram_covers_lem. Qed.
Print Assumptions uni_histogram_covers.

(* activations, symmetric / power of two: only right bin edges are guaranteed (sufficient for non-negative data) *)
Theorem sym_histogram_covers_right_edges_partial : forall bins counts min_th t,
  sym_no_clipping_histogram bins counts min_th = Ok t ->
  min_th <= t /\ forall i c r, nth_error counts i = Some c -> 0 < c -> nth_error bins (S i) = Some r -> Qabs r <= t.
Proof. exact sym_histogram_right_edges_lem. Qed.
Print Assumptions sym_histogram_covers_right_edges_partial.

Theorem pot_histogram_covers_right_edges_partial : forall bins counts min_th t, 0 < min_th ->
  pot_no_clipping_histogram bins counts min_th = Ok t ->
  (exists e, t = Qpower 2 e) /\ min_th <= t /\
  forall i c r, nth_error counts i = Some c -> 0 < c -> nth_error bins (S i) = Some r -> Qabs r <= t.
Proof. exact pot_histogram_right_edges_lem. Qed.
Print Assumptions pot_histogram_covers_right_edges_partial.

(* finding: "no clipping" on observed min/max clips the minimum when it has the larger magnitude *)
Theorem min_max_no_clipping_refuted : exists mn mx min_th ts tp,
  mn < mx /\ 0 < min_th /\
  sym_no_clipping_min_max mn mx min_th = Ok ts /\ mn < - ts /\
  pot_no_clipping_min_max mn mx min_th = Ok tp /\ mn < - tp.
Proof.
  exists (-10#1), 1, (1#65536), 1, 1. repeat split; try reflexivity; vm_compute; reflexivity.
Qed.
Print Assumptions min_max_no_clipping_refuted.

(* the same for a many-bin histogram whose leftmost bin is its largest in magnitude *)
Theorem histogram_no_clipping_refuted : exists bins counts t,
  sym_no_clipping_histogram bins counts (1#65536) = Ok t /\
  (exists l c, nth_error bins 0 = Some l /\ nth_error counts 0 = Some c /\ 0 < c /\ l < - t).
Proof.
  exists [-4#1; -2#1; 0; 1], [5; 3; 2], 2. split; [vm_compute; reflexivity|].
  exists (-4#1), 5. repeat split; vm_compute; reflexivity.
Qed.
Print Assumptions histogram_no_clipping_refuted.

(* C07: one channel (or whole tensor): with P the least power of two >= max(tensor max, min threshold),
   the search examines 2P, P, P/2, ... (n_iter of them), picks one of least error, and returns it unless it is
   below the minimal threshold, in which case the minimal threshold is returned *)
Theorem pot_search_minimises : forall loss n_bits n_iter min_th signed, 0 < min_th -> forall xs t e,
  pot_search_channel loss n_bits n_iter min_th signed xs = Ok (t, e) ->
  exists m i, get_tensor_max xs n_bits false = Ok m /\ (i < n_iter)%nat /\
    let th := fun j => 2 * max_power_of_two m min_th / Qpower 2 (Z.of_nat j) in
    e = loss xs (quantize_tensor xs (th i) n_bits signed) (th i) /\
    (forall j, (j < n_iter)%nat -> e <= loss xs (quantize_tensor xs (th j) n_bits signed) (th j)) /\
    (min_th <= th i -> t = th i \/ t == th i) /\ (th i < min_th -> t = min_th).
Proof. intros loss n_bits n_iter min_th signed _. exact (pot_search_channel_lem loss n_bits n_iter min_th signed). Qed.
Print Assumptions pot_search_minimises.

(* P above is the least power of two covering both *)
Theorem max_power_of_two_least : forall x m, 0 < m ->
  exists e, max_power_of_two x m = Qpower 2 e /\ x <= Qpower 2 e /\ m <= Qpower 2 e /\
            (forall e', x <= Qpower 2 e' -> m <= Qpower 2 e' -> (e <= e')%Z).
Proof. exact max_power_of_two_lem. Qed.
Print Assumptions max_power_of_two_least.

Theorem pot_search_power_of_two : forall loss n_bits n_iter min_th signed, 0 < min_th -> forall xs t e k,
  min_th == Qpower 2 k ->
  pot_search_channel loss n_bits n_iter min_th signed xs = Ok (t, e) -> exists e', t == Qpower 2 e'.
Proof. exact pot_search_pow2_lem. Qed.
Print Assumptions pot_search_power_of_two.

(* several candidate axes: the channels of the returned axis were each searched as above, and no other axis
   has a smaller mean error *)
Theorem pot_search_best_axis : forall loss n_bits n_iter min_th signed, 0 < min_th -> forall axes ths ax,
  qparams_selection_tensor_search loss n_bits n_iter min_th signed axes = Ok (ths, ax) ->
  exists results,
    Forall2 (fun chs rs => Forall2 (fun xs r => pot_search_channel loss n_bits n_iter min_th signed xs = Ok r) chs rs)
            axes results /\
    (ax < length axes)%nat /\ ths = map fst (nth ax results []) /\
    (forall j, (j < length axes)%nat -> meanQ (map snd (nth ax results [])) <= meanQ (map snd (nth j results []))).
Proof. intros loss n_bits n_iter min_th signed _. exact (pot_search_axes_lem loss n_bits n_iter min_th signed). Qed.
Print Assumptions pot_search_best_axis.

(* the histogram version used for activations *)
Theorem histogram_search_minimises : forall (loss : list Q -> Q -> Q) bins n_bits n_iter min_th is_signed t s,
  0 < min_th -> qparams_selection_histogram_search loss bins n_bits n_iter min_th is_signed = Ok (t, s) ->
  s = match is_signed with Some b => b | None => existsb (fun b => Qlt_b b 0) bins end /\
  exists P i, (exists e, P = Qpower 2 e) /\ (forall b, In b bins -> Qabs b <= P) /\ (i < n_iter)%nat /\
    let th := fun j => 2 * P / Qpower 2 (Z.of_nat j) in
    t = Qmax_ (th i) min_th /\
    forall j, (j < n_iter)%nat -> loss (quantize_tensor bins (th i) n_bits s) (th i) <= loss (quantize_tensor bins (th j) n_bits s) (th j).
Proof. exact histogram_search_lem. Qed.
Print Assumptions histogram_search_minimises.

(* a squared-error loss, used below *)
Definition sse (xs qs : list Q) (_ : Q) : Q := sumQ (map (fun p => (fst p - snd p) * (fst p - snd p)) (combine xs qs)).
(* finding: a minimal threshold that is not a power of two makes the "power of two" search return a non
   power of two, which the power-of-two quantizer then rejects *)
Theorem pot_search_non_power_of_two_refuted : exists xs min_th t e,
  0 < min_th /\ pot_search_channel sse 2 3 min_th true xs = Ok (t, e) /\
  power_of_two_quantizer xs 2 true (Some t) = Err E_critical.
Proof.
  exists [1#8], (3#10). eexists. eexists. split; [reflexivity|]. split; [vm_compute; reflexivity|].
  vm_compute. reflexivity.
Qed.
Print Assumptions pot_search_non_power_of_two_refuted.

(* C08: symmetric search over any tensor axes: the returned threshold is max(min_th, best) where best is positive
   and its loss does not exceed the loss of the initial no-clipping threshold *)
Theorem symmetric_search_no_worse : forall loss n_bits signed n_intervals n_iter dec_freq tol min_th axes ths ax,
  n_intervals <> 0%nat -> 0 < min_th ->
  qparams_symmetric_selection_tensor_search loss n_bits signed n_intervals n_iter dec_freq tol min_th axes = Ok (ths, ax) ->
  (ax < length axes)%nat /\
  Forall2 (fun xs th => exists m best,
             get_tensor_max xs n_bits false = Ok m /\ th = Qmax_ min_th best /\ 0 < best /\
             loss xs (quantize_tensor xs best n_bits signed) best
               <= loss xs (quantize_tensor xs (Qmax_ min_th m) n_bits signed) (Qmax_ min_th m))
          (nth ax axes []) ths.
Proof. exact sym_tensor_search_lem. Qed.
Print Assumptions symmetric_search_no_worse.

Theorem uniform_search_no_worse : forall (loss : list Q -> list Q -> Q * Q -> Q) n_bits scalers n_iter tol axes rs ax,
  scalers <> [] ->
  qparams_uniform_selection_tensor_search loss n_bits scalers n_iter tol axes = Ok (rs, ax) ->
  (ax < length axes)%nat /\
  Forall2 (fun xs r => exists mn mx,
             list_min xs = Ok mn /\ get_tensor_max xs n_bits true = Ok mx /\
             loss xs (uniform_quantize_tensor xs (fst r) (snd r) n_bits) r
               <= loss xs (uniform_quantize_tensor xs mn mx n_bits) (mn, mx))
          (nth ax axes []) rs.
Proof. exact uni_tensor_search_lem. Qed.
Print Assumptions uniform_search_no_worse.

(* C08, whole log: the search always succeeds, and its result beats every threshold it ever evaluated *)
Theorem symmetric_iterations_beat_all_evaluated : forall loss n_bits signed n_intervals n_iter dec_freq tol xs,
  n_intervals <> 0%nat -> Forall (fun xp => 0 < snd xp) xs ->
  exists out,
    qparams_symmetric_iterative_minimization loss n_bits signed n_intervals n_iter dec_freq tol xs = Ok out /\
    let L := fun x t => loss x (quantize_tensor x t n_bits signed) t in
    Forall2 (fun xp c => c_loss c == L (fst xp) (c_best c) /\ 0 < c_best c /\ In (snd xp) (c_log c) /\
                         c_loss c <= L (fst xp) (snd xp) /\
                         forall t, In t (c_log c) -> c_loss c <= L (fst xp) t) xs out.
Proof. exact sym_iterative_lem. Qed.
Print Assumptions symmetric_iterations_beat_all_evaluated.

Theorem uniform_iterations_beat_all_evaluated :
  forall (loss : list Q -> list Q -> Q * Q -> Q) (n_bits : Z) (scalers : list (Q * Q))
         (n_iter : nat) (tol : Q) (xs : list (list Q * (Q * Q))),
  scalers <> [] ->
  exists out,
    iterative_uniform_dynamic_range_search loss n_bits scalers n_iter tol xs = Ok out /\
    let L := fun (x : list Q) (mm : Q * Q) => loss x (uniform_quantize_tensor x (fst mm) (snd mm) n_bits) mm in
    Forall2 (fun xp c => c_loss c == L (fst xp) (c_best c) /\ In (snd xp) (c_log c) /\
                         c_loss c <= L (fst xp) (snd xp) /\
                         forall mm, In mm (c_log c) -> c_loss c <= L (fst xp) mm) xs out.
Proof. exact uni_iterative_lem. Qed.
Print Assumptions uniform_iterations_beat_all_evaluated.

(* the scale window always brackets the current threshold: 0.7 <= lo <= 0.97 and 1.03 <= hi <= 1.2 *)
Theorem range_scale_window : forall dec_freq n lo hi,
  range_scale dec_freq n = (lo, hi) -> 7#10 <= lo <= 97#100 /\ 103#100 <= hi <= 12#10.
Proof. exact range_scale_lem. Qed.
Print Assumptions range_scale_window.


(* all three weight searches succeed on non-empty data, so the hypotheses above are reachable *)
Theorem weight_searches_total : forall axes n_bits, (1 <= n_bits)%Z ->
  axes <> [] -> (forall chs xs, In chs axes -> In xs chs -> xs <> []) ->
  (forall loss n_iter min_th signed, n_iter <> 0%nat ->
     exists r, qparams_selection_tensor_search loss n_bits n_iter min_th signed axes = Ok r) /\
  (forall loss signed n_intervals n_iter dec_freq tol min_th, n_intervals <> 0%nat -> 0 < min_th ->
     exists r, qparams_symmetric_selection_tensor_search loss n_bits signed n_intervals n_iter dec_freq tol min_th axes = Ok r) /\
  (forall loss scalers n_iter tol, scalers <> [] ->
     exists r, qparams_uniform_selection_tensor_search loss n_bits scalers n_iter tol axes = Ok r).
Proof.
  intros axes n_bits Hn Ha Hx. split; [|split]; intros.
  - apply pot_axes_total_lem; assumption.
  - apply sym_axes_total_lem; assumption.
  - apply uni_axes_total_lem; assumption.
Qed.
Print Assumptions weight_searches_total.

Example histogram_search_ex :
  match qparams_selection_histogram_search (fun _ t => t) [-1#1; 0; 1] 4 3 (1#16) None with
  | Ok (t, s) => Qeq_bool t (1#2) && s | Err _ => false end = true.
Proof. vm_compute. reflexivity. Qed.
Example histogram_covers_ex : uni_no_clipping_histogram [-1#1; 0; 1; 2] [0; 3; 1] = Ok (0, 2)
  /\ sym_no_clipping_histogram [0; 1; 2; 4] [1; 3; 0] (1#16) = Ok 2.
Proof. vm_compute. auto. Qed.
