(* RunnerSpec.v -- what a caller expects from a sequence of quantization calls. *)
From Verif Require Import Base RunnerModel.
Local Open Scope list_scope.

(* the call asks for mixed precision: its target bounds something *)
Definition asks (t : option target) : Prop :=
  exists u, t = Some u /\ (t_weights u <> None \/ t_activation u <> None \/ t_total u <> None \/ t_bops u <> None).
(* r is one of the quantities that the target bounds *)
Definition bounds (u : target) (r : rut) : Prop :=
  match r with R_weights => t_weights u | R_activation => t_activation u | R_total => t_total u | R_bops => t_bops u end <> None.

Section Spec.
Context {G U : Type}.
(* a call in single precision: one candidate per layer, no search, nothing measured *)
Definition single_precision (j : job G U) (o : outcome G U) : Prop :=
  exists g g2, j_prepare _ _ j false = Ok g /\ j_set _ _ j false g [] = Ok g2 /\ j_finish _ _ j g2 = Ok (o_graph _ _ o) /\
    o_config _ _ o = [] /\ o_ru _ _ o = None.
(* a call in mixed precision for the target u: the choice of candidates is the one given, or else the one found for u among
   the candidates that u leaves; the quantities that u bounds, and no others, are measured on the graph that is returned *)
Definition mixed_precision (j : job G U) (given : option (list nat)) (u : target) (o : outcome G U) : Prop :=
  exists g g1 g2 ts v, j_prepare _ _ j true = Ok g /\
    match given with
    | Some l => g1 = g /\ o_config _ _ o = l
    | None => j_filter _ _ j g u = Ok g1 /\ j_search _ _ j g1 u = Ok (o_config _ _ o)
    end /\
    j_set _ _ j true g1 (o_config _ _ o) = Ok g2 /\ j_finish _ _ j g2 = Ok (o_graph _ _ o) /\
    (forall r, In r ts <-> bounds u r) /\ NoDup ts /\ j_measure _ _ j (o_graph _ _ o) ts = Ok v /\ o_ru _ _ o = Some v.
(* this call switches mixed precision on in the configuration a *)
Definition switches (dflt : facade -> nat) (h : heap) (a : nat) (k : call G U) : Prop :=
  address _ _ dflt k = a /\ (has_bypass (k_facade _ _ k) = false \/ cc_bypass (h a) = false) /\
  j_batch _ _ (k_job _ _ k) = Ok tt /\ asks (k_target _ _ k) /\ cc_mp (h a) <> None.
End Spec.
