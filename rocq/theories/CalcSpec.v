(* CalcSpec.v -- what it means that a candidate's weights attribute got its own parameters *)
From Coq Require Import String.
From Verif Require Import Base CalcModel.
Local Open Scope list_scope.

Definition substring (t s : string) : Prop := exists pre post, s = String.append pre (String.append t post).

Section Spec.
  Context {T P X C R : Type}.
  Notation wattr := (wattr P X). Notation cand := (cand P X C R). Notation cnode := (cnode T P X C R).

  (* the configuration written under exactly this attribute *)
  Definition has (c : cand) (a : akey) (cfg : wattr) : Prop :=
    match a with KN s => In (s, cfg) (cd_named c) | KP i => In (i, cfg) (cd_pos c) end.
  (* the dictionaries have no repeated key and every weight of the node is configured *)
  Definition well_configured (n : cnode) (c : cand) : Prop :=
    NoDup (map fst (cd_named c)) /\ NoDup (map fst (cd_pos c)) /\
    forall a t, In (a, t) (kn_weights n) -> exists cfg, has c a cfg.
  (* nothing is configured for this attribute: no entry at the position, no name containing this one *)
  Definition unconfigured (c : cand) (a : akey) : Prop :=
    match a with KN s => forall k cfg, In (k, cfg) (cd_named c) -> ~ substring s k
               | KP i => forall cfg, ~ In (i, cfg) (cd_pos c) end.
  (* no weight's name is part of another's *)
  Definition unambiguous (n : cnode) : Prop :=
    NoDup (map fst (kn_weights n)) /\
    forall s t x y, In (KN s, x) (kn_weights n) -> In (KN t, y) (kn_weights n) -> substring s t -> s = t.

  Definition quantized (n : cnode) (a : akey) : Prop :=
    forall c cfg, In c (kn_cands n) -> has c a cfg -> wa_enabled cfg = true.
  (* HMSE is for the kernel; anything else is searched with MSE instead *)
  Definition is_kernel (n : cnode) (a : akey) : Prop :=
    exists k s, kn_kernel n = Some k /\ a = KN s /\ substring k s.
  Definition err_used (n : cnode) (a : akey) (asked used : werr) : Prop :=
    (asked <> WE_hmse -> used = asked) /\
    (asked = WE_hmse -> is_kernel n a -> used = WE_hmse) /\
    (asked = WE_hmse -> ~ is_kernel n a -> used = WE_mse).

  Variable wfn : option T -> Q -> werr -> X -> option Z -> result (P * option Z).
  (* cfg' is cfg with the parameters (and output axis) computed for this tensor under this configuration *)
  Definition computed (n : cnode) (c : cand) (a : akey) (t : T) (cfg cfg' : wattr) : Prop :=
    exists e p i o j,
      wa_axis cfg = Some (i, j) /\ err_used n a (wa_err cfg) e /\
      wfn (Some t) (cd_min_th c) e (wa_rest cfg) (Some i) = Ok (p, Some o) /\
      cfg' = {| wa_enabled := wa_enabled cfg; wa_err := wa_err cfg; wa_axis := Some (o, j); wa_rest := wa_rest cfg;
                wa_params := Some p |}.
End Spec.
