(* MPSearchSpec.v -- what "an admissible choice of bit-widths" and "its total sensitivity" mean. *)
From Verif Require Import Base HessianModel MPModel MPSpec.

(* one candidate index per configurable node, in the node order *)
Definition assignment (conf : list node) (cfg : mpcfg) : Prop :=
  Forall2 (fun n p => fst p = n_name n /\ snd p < length (n_cands n)) conf cfg.
(* the configuration fits the target *)
Definition fits (g : graph) (target : ru) (cfg : mpcfg) : Prop :=
  exists r, ru_for_config g (restricted_targets target) cfg = Ok r /\ is_satisfied_by target r = true.
(* sum over the nodes of the table entry of the chosen candidate *)
Definition total_sensitivity (table : list (list Q)) (cfg : mpcfg) : Q :=
  Qsum (fun q => nth (snd (snd q)) (fst q) 0%Q) (combine table cfg).
Definition nonneg_table (table : list (list Q)) : Prop := Forall (Forall (fun q => 0 <= q)%Q) table.
Definition some_target (t : ru) : Prop := ru_w t <> None \/ ru_a t <> None \/ ru_t t <> None \/ ru_b t <> None.
(* the bit-width of the activation entering a kernel is fixed, or the kernel's own bit-width is *)
Definition same_abits (c d : cand) : Prop :=
  (if amode_eqb (a_mode (c_act c)) A_QUANT then a_bits (c_act c) else 32%Z) =
  (if amode_eqb (a_mode (c_act d)) A_QUANT then a_bits (c_act d) else 32%Z).
