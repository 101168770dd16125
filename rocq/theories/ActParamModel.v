(* ActParamModel.v -- from the collected statistics of a node to its activation quantization parameters.
   Sources (model_compression_toolkit/core/common/):
     quantization/quantization_params_generation/outlier_filter.py z_score_filter L20-48
     quantization/quantization_params_generation/qparams_activations_computation.py L26-155
     node_prior_info.py is_output_bounded L68-74, collectors/statistics_collector.py is_number L179-191
     quantization/quantization_params_fn_selection.py get_activation_quantization_params_fn L31-52
   Simplifications: exact rationals; the square root in the z-score is removed by comparing squares
   (ActParamProps.outliers_by_z_score shows that this is the same comparison on the reals); an infinite
   z_threshold is [None]; an infinite or missing bound of the prior information is [None]; the histogram of
   HMSE (weighted_hc) is an arbitrary collector; the parameter searches other than no-clipping, and the
   look-up-table method, are one arbitrary function [search]. *)
From Verif Require Import Base RoundQ QuantModel SearchModel CollectModel.
Open Scope Q_scope.

(* outlier_filter.py L41: mu = sum(bins * counts) / sum(counts) *)
Definition wsum (xs counts : list Q) : Q := sumQ (map2 Qmult xs counts).
Definition h_mu (bins counts : list Q) : Q := wsum bins counts / sumQ counts.
(* L42: sigma ** 2 *)
Definition h_var (bins counts : list Q) : Q :=
  let mu := h_mu bins counts in
  wsum (map (fun b => (b - mu) * (b - mu)) bins) counts / sumQ counts.
(* L43-45: abs(bins - mu) / sigma > z_threshold.  sigma = 0 gives inf for b <> mu and nan (never larger) for
   b = mu; a negative threshold is exceeded by every number. *)
Definition is_outlier (z : option Q) (mu var b : Q) : bool :=
  match z with
  | None => false
  | Some z =>
      if Qlt_b z 0 then negb (Qeq_bool var 0 && Qeq_bool b mu)
      else Qlt_b (z * z * var) ((b - mu) * (b - mu))
  end.
(* L36-48.  bins[:-1] and counts of different lengths do not broadcast (ValueError; a length of one is not
   treated).  With sum(counts) = 0 everything is nan and nothing is larger than the threshold. *)
Definition z_score_filter (z : option Q) (bins counts : list Q) : result (list Q) :=
  let left := removelast bins in
  if negb (Nat.eqb (length left) (length counts)) then Err E_value else
  if Qeq_bool (sumQ counts) 0 then Ok counts else
  let mu := h_mu left counts in
  let var := h_var left counts in
  Ok (map2 (fun b c => if is_outlier z mu var b then 0 else c) left counts).

Inductive signedness := SG_auto | SG_signed | SG_unsigned.
Inductive act_method := AM_pot | AM_sym | AM_uni | AM_lut.
Inductive err_method := EM_noclip | EM_hmse | EM_search (k : nat).  (* k: MSE, MAE, KL, ... *)
(* the parameter function held by the configuration: from the histogram, or from min and max only *)
Inductive params_fn := PF_hist (m : act_method) | PF_min_max (m : act_method).
Record actcfg := { ac_method : act_method; ac_fn : params_fn; ac_bits : Z; ac_err : err_method;
                   ac_sign : signedness; ac_z : option Q; ac_min_th : Q }.
Inductive act_params := AP_threshold (t : Q) (signed : bool) | AP_range (lo hi : Q) (signed : bool)
                      | AP_lut (lut : list Q) (t : Q) (signed : bool).

(* quantization_params_fn_selection.py L41-48, used when the configuration is built *)
Definition initial_fn (m : act_method) : params_fn := PF_hist m.

Record prior := { pr_min : option Q; pr_max : option Q }.
(* node_prior_info.py L74 *)
Definition is_output_bounded (p : prior) : bool :=
  match pr_min p, pr_max p with Some _, Some _ => true | _, _ => false end.

(* statistics_collector.py: StatsCollector (histogram, weighted histogram, min/max) or NoStatsCollector *)
Inductive container := SC_stats (hc weighted_hc : histc) (mpcc : minmax) | SC_none.

(* L44-54 *)
Definition get_histogram_data (c : actcfg) (s : container) : result (option (list Q * list Q)) :=
  match s with
  | SC_none => Ok None
  | SC_stats hc whc _ =>
      let! (_, (bins, counts)) := match ac_err c with EM_hmse => h_get whc | _ => h_get hc end in
      let! counts' := z_score_filter (ac_z c) bins counts in
      Ok (Some (bins, counts'))
  end.

(* L77-83; None[:-1] is a TypeError *)
Definition determine_signedness (c : actcfg) (p : prior) (min_value : Q) (h : option (list Q * list Q)) : result bool :=
  match ac_sign c with
  | SG_signed => Ok true
  | SG_unsigned => Ok false
  | SG_auto =>
      if is_output_bounded p then Ok (Qlt_b min_value 0) else
      match h with
      | None => Err E_type
      | Some (bins, counts) => Ok (existsb (fun b => Qlt_b b 0) (masked (removelast bins) counts))
      end
  end.

(* L97-109 *)
Definition update_fn (c : actcfg) (p : prior) : actcfg :=
  let set f := {| ac_method := ac_method c; ac_fn := f; ac_bits := ac_bits c; ac_err := ac_err c;
                  ac_sign := ac_sign c; ac_z := ac_z c; ac_min_th := ac_min_th c |} in
  if is_output_bounded p then
    match ac_method c with
    | AM_pot => set (PF_min_max AM_pot)
    | AM_sym => set (PF_min_max AM_sym)
    | AM_uni => set (PF_min_max AM_uni)
    | AM_lut => c
    end
  else c.

Section Params.
  (* qparams_*_histogram_search, lut_kmeans_histogram: method, error method, bins, counts, bits, min threshold, signed *)
  Variable search : act_method -> err_method -> list Q -> list Q -> Z -> Q -> bool -> result act_params.

  (* power_of_two_selection.py L130-146, symmetric_selection.py L131-154, uniform_selection.py L140-156 *)
  Definition selection_histogram (m : act_method) (e : err_method) (bins counts : list Q) (bits : Z) (min_th : Q)
      (signed : bool) : result act_params :=
    match e, m with
    | EM_noclip, AM_pot => let! t := pot_no_clipping_histogram bins counts min_th in Ok (AP_threshold t signed)
    | EM_noclip, AM_sym => let! t := sym_no_clipping_histogram bins counts min_th in Ok (AP_threshold t signed)
    | EM_noclip, AM_uni => let! (a, b) := uni_no_clipping_histogram bins counts in Ok (AP_range a b signed)
    | _, _ => search m e bins counts bits min_th signed
    end.
  (* power_of_two_selection.py L168-178, symmetric_selection.py L176-186, uniform_selection.py L177-187 *)
  Definition apply_fn (f : params_fn) (h : option (list Q * list Q)) (bits : Z) (mn mx min_th : Q) (e : err_method)
      (signed : bool) : result act_params :=
    match f with
    | PF_min_max m => selection_histogram m EM_noclip [mn; mx] [1] bits min_th signed
    | PF_hist m => match h with
                   | None => Err E_type
                   | Some (bins, counts) => selection_histogram m e bins counts bits min_th signed
                   end
    end.

  (* L112-155; NoStatsCollector has no get_min_max_values (AttributeError) *)
  Definition get_activations_qparams (c : actcfg) (p : prior) (s : container) : result (actcfg * act_params) :=
    let c := update_fn c p in
    let! h := get_histogram_data c s in
    let! (mn, mx) := match s with SC_none => Err E_attr | SC_stats _ _ m => get_min_max_values m end in
    let! signed := determine_signedness c p mn h in
    let! params := apply_fn (ac_fn c) h (ac_bits c) mn mx (ac_min_th c) (ac_err c) signed in
    Ok (c, params).
End Params.
