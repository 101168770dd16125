(* SensModel.v -- the sensitivity evaluation of mixed precision: the images it runs on, the points it
   looks at and the switching of the configurable quantizers.
   Sources (model_compression_toolkit/core/common/mixed_precision/sensitivity_eval/):
     metric_calculators.py L318-419, sensitivity_evaluation.py L75-163, set_layer_to_bitwidth.py L22-56;
     core/{keras,pytorch}/mixed_precision/configurable_{activation,weights}_quantizer.py (the setters).
   Simplifications: factors are exact rationals; the framework model is the map from quantization layers
   to their active candidate, and inference is a function of that map; the configurable quantizers of one
   weights layer, always set together, are one setting; a tensor is the list of its samples. *)
From Coq Require Import String.
From Verif Require Import Base RoundQ SDict.
Local Open Scope list_scope.
Local Open Scope Z_scope.

(* ---- the images: _get_images_batches, metric_calculators.py L318-349 ---- *)

(* one element of the representative dataset: one tensor per model input, a tensor being its samples *)
Definition batch (I : Type) : Type := list (list I).

(* inference_batch_input[0].shape[0] *)
Definition batch_size {I} (b : batch I) : result Z :=
  match b with [] => Err E_index | x :: _ => Ok (Z.of_nat (length x)) end.

(* the for loop, L331-348: the batches kept, whether the warning is logged (for ... else), and the number of
   elements requested from the generator *)
Fixpoint images_loop {I} (num count : Z) (gen : list (batch I)) : result (list (batch I) * bool * nat) :=
  match gen with
  | [] => Ok ([], Z.ltb count num, 0%nat)
  | b :: r =>
      if Z.leb num count then Ok ([], false, 1%nat)
      else
        let! size := batch_size b in
        let! (b', size') :=
          (if Z.ltb (num - count) size
           then let cut := map (firstn (Z.to_nat (num - count))) b in
                let! s := batch_size cut in
                if Z.eqb (num - count) s then Ok (cut, num - count) else Err E_assert
           else Ok (b, size)) in
        let! (bs, warn, pulled) := images_loop num (count + size') r in
        Ok (b' :: bs, warn, S pulled)
  end.
Definition images_batches {I} (num : Z) (gen : list (batch I)) := images_loop num 0 gen.

(* ---- the points: bound_num_interest_points and get_mp_interest_points, L352-379, L400-419 ---- *)

(* np.round(np.linspace(0, length - 1, num)).astype(int) *)
Definition spaced (len num : nat) : list Z :=
  match num with
  | O => []
  | S O => [0]
  | _ => map (fun i => round_half_even (inject_Z (Z.of_nat i * (Z.of_nat len - 1)) / inject_Z (Z.of_nat num - 1))%Q)
             (seq 0 num)
  end.

(* int(q): rounds towards zero *)
Definition trunc (q : Q) : Z := Z.quot (Qnum q) (Zpos (Qden q)).

(* l[i] with Python's negative indices *)
Definition pick {N} (l : list N) (i : Z) : result N :=
  let j := if Z.ltb i 0 then i + Z.of_nat (length l) else i in
  if Z.ltb j 0 then Err E_index
  else match nth_error l (Z.to_nat j) with Some x => Ok x | None => Err E_index end.

Definition bound_interest_points {N} (l : list N) (factor : Q) : result (list N) :=
  if Qlt_b factor 1
  then let num := trunc (factor * inject_Z (Z.of_nat (length l)))%Q in
       if Z.ltb num 0 then Err E_value
       else mapM (pick l) (spaced (length l) (Z.to_nat num))
  else Ok l.

Definition interest_points {N} (neqb : N -> N -> bool) (classifier : N -> bool) (factor : Q) (sorted outputs : list N)
  : result (list N) :=
  let! l := bound_interest_points (filter classifier sorted) factor in
  Ok (filter (fun n => negb (existsb (neqb n) outputs)) l).

(* get_output_nodes_for_metric, L382-397: the output nodes with quantized weights or activation *)
Definition output_points {N} (quantized : N -> bool) (outputs : list N) : list N := filter quantized outputs.

(* ---- the configurable quantizers: sensitivity_evaluation.py L75-163 ---- *)

Inductive qkind : Set := QAct | QWt.
(* a quantization layer of the mixed precision model: its kind, its identity, its number of candidates *)
Record qlayer : Set := QL { ql_kind : qkind; ql_id : nat; ql_cands : Z }.
Definition qkind_eqb (a b : qkind) : bool := match a, b with QAct, QAct => true | QWt, QWt => true | _, _ => false end.

(* active candidate of every quantization layer, None when quantization is disabled *)
Definition qstate : Type := nat -> option Z.
Definition qset (s : qstate) (k : nat) (v : option Z) : qstate := fun j => if Nat.eqb j k then v else s j.

(* set_active_activation_quantizer: assert index is None or index < len(candidates);
   set_weights_bit_width_index: if index and index >= len(candidates) then Logger.critical *)
Definition set_layer (s : qstate) (l : qlayer) (v : option Z) : result qstate :=
  match ql_kind l with
  | QAct => match v with
            | Some i => if Z.ltb i (ql_cands l) then Ok (qset s (ql_id l) v) else Err E_assert
            | None => Ok (qset s (ql_id l) v)
            end
  | QWt => match v with
           | Some i => if negb (Z.eqb i 0) && Z.leb (ql_cands l) i then Err E_critical else Ok (qset s (ql_id l) v)
           | None => Ok (qset s (ql_id l) v)
           end
  end.

Definition cfg : Type := list (string * option Z).
Definition sdel {V} (k : string) (d : list (string * V)) : list (string * V) :=
  filter (fun kv => negb (String.eqb k (fst kv))) d.

(* the layers of one node, L144-152: the remaining configurations, and the state even when it raises *)
Fixpoint configure_layers (n : string) (ls : list qlayer) (s : qstate) (a w : cfg) : qstate * cfg * cfg * option err :=
  match ls with
  | [] => (s, a, w, None)
  | l :: r =>
      match ql_kind l, sget n a, sget n w with
      | QAct, Some v, _ =>
          match set_layer s l v with
          | Ok s' => configure_layers n r s' (sdel n a) w
          | Err e => (s, a, w, Some e)
          end
      | QWt, _, Some v =>
          match set_layer s l v with
          | Ok s' => configure_layers n r s' a (sdel n w)
          | Err e => (s, a, w, Some e)
          end
      | _, _, _ => configure_layers n r s a w
      end
  end.

(* apply_bitwidth_config, L138-155, visiting the names in the order of a Python set *)
Fixpoint apply_names (conf : list (string * list qlayer)) (names : list string) (s : qstate) (a w : cfg)
  : qstate * option err :=
  match names with
  | [] => match a, w with [], [] => (s, None) | _, _ => (s, Some E_value) end
  | n :: r =>
      match sget n conf with
      | None => (s, Some E_value)
      | Some ls =>
          match configure_layers n ls s a w with
          | (s', a', w', None) => apply_names conf r s' a' w'
          | (s', _, _, Some e) => (s', Some e)
          end
      end
  end.

(* [ord] is the iteration order of set(a_cfg.keys()).union(set(w_cfg.keys())) *)
Definition apply_config (ord : list string -> list string) conf (s : qstate) (a w : cfg) : qstate * option err :=
  apply_names conf (ord (skeys a ++ skeys w)) s a w.

Definition some_value (c : cfg) : bool := existsb (fun kv => match snd kv with Some _ => true | None => false end) c.
Definition all_none (c : cfg) : cfg := map (fun kv => (fst kv, None)) c.

(* compute_metric with _configured_mp_model, L75-91 and L121-163: the final state and the value or exception.
   An exception of the final restoring replaces the value or exception of the body. *)
Definition compute_metric {V} (ord : list string -> list string) (conf : list (string * list qlayer))
  (metric : qstate -> result V) (s : qstate) (a w : cfg) : qstate * result V :=
  if negb (some_value a || some_value w) then (s, Err E_value)
  else match apply_config ord conf s a w with
       | (s1, Some e) => (s1, Err e)
       | (s1, None) =>
           let v := metric s1 in
           match apply_config ord conf s1 (all_none a) (all_none w) with
           | (s2, Some e) => (s2, Err e)
           | (s2, None) => (s2, v)
           end
       end.

(* several evaluations one after the other, each caught by its caller: the values and the final state *)
Fixpoint evaluations {V} ord conf (metric : qstate -> result V) (s : qstate) (reqs : list (cfg * cfg))
  : qstate * list (result V) :=
  match reqs with
  | [] => (s, [])
  | (a, w) :: r =>
      let '(s1, v) := compute_metric ord conf metric s a w in
      let '(s2, vs) := evaluations ord conf metric s1 r in (s2, v :: vs)
  end.

(* the end of _build_mp_model, L113-119: every configurable quantizer is disabled *)
Definition disable_all (conf : list (string * list qlayer)) (s : qstate) : result qstate :=
  foldM (fun s l => set_layer s l None) (concat (map snd conf)) s.
