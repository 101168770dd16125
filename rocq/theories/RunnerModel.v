(* RunnerModel.v -- what one call of a quantization function does with its configuration and its target, and sequences of calls.

   Modelled (under model_compression_toolkit/):
     core/runner.py  core_runner L78-189, _set_final_resource_utilization L192-219
     core/common/quantization/core_config.py  CoreConfig L42-49
     core/common/mixed_precision/mixed_precision_quantization_config.py  set_mixed_precision_enable L117-121
     core/common/mixed_precision/mixed_precision_search_facade.py  search_bit_width: the assertion L67
     core/common/mixed_precision/resource_utilization_tools/resource_utilization.py  get_restricted_targets L99-101,
                                 is_any_restricted L103-104
     ptq|gptq|qat/pytorch|keras/quantization_facade.py  the default argument core_config=CoreConfig() and the bypass
                                 (ptq pytorch L53, L103-104; ptq keras L56, L129-130; gptq pytorch L150, L213-214;
                                 gptq keras L160, L235-236; qat pytorch L81; qat keras L93)
   A default argument of a Python function is evaluated once, so that every call of the function without a configuration gets
   the same object; configurations are therefore addresses of a heap.  Each stage (graph preparation, parameters, filtering,
   search, setting, activation bias correction and editing, measuring) is a parameter of the call: it is modelled elsewhere
   (PrepModel, CandModel, MPSearchModel, SetterModel, EditModel, RUModel) and takes part here with whatever it returns or
   raises.  Left out: logging, TensorBoard, the simulated scheduler, and what happens after core_runner. *)
From Verif Require Import Base.
Local Open Scope list_scope.

(* RUTarget; ResourceUtilization with None for np.inf *)
Inductive rut := R_weights | R_activation | R_total | R_bops.
Record target := Target { t_weights : option Q; t_activation : option Q; t_total : option Q; t_bops : option Q }.
Definition finite (v : option Q) : bool := match v with Some _ => true | None => false end.
(* get_restricted_targets L99-101; a set, listed here in the order of the dictionary *)
Definition restricted_targets (t : target) : list rut :=
  map fst (filter (fun kv => finite (snd kv))
    [(R_weights, t_weights t); (R_activation, t_activation t); (R_total, t_total t); (R_bops, t_bops t)]).
Definition is_any_restricted (t : target) : bool := match restricted_targets t with [] => false | _ => true end.

(* MixedPrecisionQuantizationConfig: the fields that core_runner reads; CoreConfig *)
Record mpcfg := MpCfg { mp_enabled : bool; mp_overwrite : option (list nat) }.
Record coreconfig := CoreConfig { cc_mp : option mpcfg; cc_bypass : bool }.
Definition heap := nat -> coreconfig.
(* CoreConfig.is_mixed_precision_enabled L44-49 *)
Definition cc_enabled (c : coreconfig) : bool := match cc_mp c with Some m => mp_enabled m | None => false end.
(* core_config.mixed_precision_config.set_mixed_precision_enable(): the object of the caller is changed *)
Definition set_enabled (h : heap) (a : nat) : heap :=
  fun b => if Nat.eqb b a then
    match cc_mp (h a) with
    | Some m => CoreConfig (Some (MpCfg true (mp_overwrite m))) (cc_bypass (h a))
    | None => h a
    end else h b.

Section Call.
Variables G U : Type.

(* the stages of one call, for the model, the data and the platform of that call *)
Record job := Job {
  j_batch : result unit;                         (* next(iter(representative_data_gen())) and .shape[0], L79-84 *)
  j_prepare : bool -> result G;                  (* graph_preparation_runner, quantization_preparation_runner L96-113 *)
  j_filter : G -> target -> result G;            (* filter_candidates_for_mixed_precision L121 *)
  j_search : G -> target -> result (list nat);   (* search_bit_width after its assertion L122-127 *)
  j_set : bool -> G -> list nat -> result G;     (* set_bit_widths L141-143 *)
  j_finish : G -> result G;                      (* activation bias correction and editing L148-154 *)
  j_measure : G -> list rut -> result U          (* ResourceUtilizationCalculator L210-215 *)
}.
Record outcome := Outcome { o_graph : G; o_config : list nat; o_ru : option U }.

(* L86-94: the decision; the heap that is returned is the one after the call, whether or not the call raises later *)
Definition decide (h : heap) (a : nat) (t : option target) : heap * result unit :=
  match t with
  | Some u => if is_any_restricted u then
                match cc_mp (h a) with None => (h, Err E_critical) | Some _ => (set_enabled h a, Ok tt) end
              else (h, Ok tt)
  | None => (h, Ok tt)
  end.
(* L118-139 *)
Definition choose (c : coreconfig) (t : option target) (j : job) (g : G) : result (G * list nat) :=
  if cc_enabled c then
    match (match cc_mp c with Some m => mp_overwrite m | None => None end) with
    | None =>
        match t with
        | None => Err E_attr                        (* None.total_mem_restricted() in the filter *)
        | Some u => let! g1 := j_filter j g u in
                    if is_any_restricted u then let! l := j_search j g1 u in Ok (g1, l) else Err E_assert
        end
    | Some l => match t with
                | None => Err E_attr                (* None.activation_restricted() L133 *)
                | Some _ => Ok (g, l)
                end
    end
  else Ok (g, []).
(* _set_final_resource_utilization L207-219 *)
Definition final_ru (j : job) (t : option target) (g : G) : result (option U) :=
  match (match t with Some u => restricted_targets u | None => [] end) with
  | [] => Ok None
  | ts => let! u := j_measure j g ts in Ok (Some u)
  end.
(* L96-189 *)
Definition rest (c : coreconfig) (t : option target) (j : job) : result outcome :=
  let! g := j_prepare j (cc_enabled c) in
  let! gl := choose c t j g in
  let! g2 := j_set j (cc_enabled c) (fst gl) (snd gl) in
  let! g3 := j_finish j g2 in
  let! u := final_ru j t g3 in
  Ok (Outcome g3 (snd gl) u).
Definition core_runner (h : heap) (a : nat) (t : option target) (j : job) : heap * result outcome :=
  match j_batch j with
  | Err e => (h, Err e)
  | Ok _ => match decide h a t with
            | (h1, Err e) => (h1, Err e)
            | (h1, Ok _) => (h1, rest (h1 a) t j)
            end
  end.

(* the six quantization functions; the functions for quantization-aware training do not look at the bypass *)
Inductive facade := F_ptq_pytorch | F_ptq_keras | F_gptq_pytorch | F_gptq_keras | F_qat_pytorch | F_qat_keras.
Definition has_bypass (f : facade) : bool := match f with F_qat_pytorch | F_qat_keras => false | _ => true end.
Record call := Call { k_facade : facade; k_config : option nat; k_target : option target; k_job : job }.
Inductive answer := Returned (o : outcome) | Unchanged | Raised (e : err).

Section Defaults.
(* the object that each function holds as the default of core_config *)
Variable dflt : facade -> nat.
Definition address (k : call) : nat := match k_config k with Some a => a | None => dflt (k_facade k) end.
Definition bypassed (h : heap) (k : call) : bool := has_bypass (k_facade k) && cc_bypass (h (address k)).
Definition run_call (h : heap) (k : call) : heap * answer :=
  if bypassed h k then (h, Unchanged) else
  match core_runner h (address k) (k_target k) (k_job k) with
  | (h1, Ok o) => (h1, Returned o)
  | (h1, Err e) => (h1, Raised e)
  end.
(* a session: the caller goes on after a call that raised *)
Fixpoint session (h : heap) (ks : list call) : heap * list answer :=
  match ks with
  | [] => (h, [])
  | k :: r => let (h1, x) := run_call h k in let (h2, xs) := session h1 r in (h2, x :: xs)
  end.
End Defaults.
End Call.
Arguments Job {G U}. Arguments Outcome {G U}. Arguments Call {G U}. Arguments Returned {G U}. Arguments Unchanged {G U}. Arguments Raised {G U}.
