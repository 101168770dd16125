(* CandSpec.v -- what filtering a candidate list may and may not do. *)
From Coq Require Import String.
From Verif Require Import Base SDict MPModel HessianModel FilterModel PlatModel LookupModel.
Local Open Scope list_scope.

(* s keeps some elements of l, in order *)
Inductive sublist {A} : list A -> list A -> Prop :=
| sub_nil : sublist [] []
| sub_keep x s l : sublist s l -> sublist (x :: s) (x :: l)
| sub_drop x s l : sublist s l -> sublist s (x :: l).

(* the kernel configuration of a candidate *)
Definition kernel_is (kernel : option string) (c : cand) (w : wcfg) : Prop :=
  match kernel with None => False | Some k => get_attr_config c k = Ok w end.
(* the kernel is quantized in every candidate *)
Definition kernel_quantized (kernel : option string) (cs : list cand) : Prop :=
  kernel <> None /\ forall c w, In c cs -> kernel_is kernel c w -> wc_enable w = true.
Definition all_mode (m : amode) (cs : list cand) : Prop := cs <> [] /\ forall c, In c cs -> cd_mode c = m.

(* d is c, except perhaps for the bit-width and method of its activation (when not [a]) and of its kernel (when not [k]) *)
Definition same_but (a k : bool) (kernel : option string) (c d : cand) : Prop :=
  cd_mode d = cd_mode c /\ cd_signed d = cd_signed c /\ cd_simd d = cd_simd c /\ cd_pos d = cd_pos c /\
  skeys (cd_named d) = skeys (cd_named c) /\
  (a = true -> cd_bits d = cd_bits c /\ cd_method d = cd_method c) /\
  (k = true -> cd_named d = cd_named c) /\
  (forall s w, sget s (cd_named c) = Some w -> exists w', sget s (cd_named d) = Some w' /\
     wc_enable w' = wc_enable w /\ wc_per_channel w' = wc_per_channel w /\
     (w' = w \/ exists kn, kernel = Some kn /\ str_contains s kn = true)).

(* two candidates agree on bit-widths and methods of kernel and activation *)
Definition same_config (kernel : option string) (a b : cand) : Prop :=
  cd_bits a = cd_bits b /\ cd_method a = cd_method b /\
  (forall w w', kernel_is kernel a w -> kernel_is kernel b w' -> wc_bits w = wc_bits w' /\ wc_method w = wc_method w').
(* no two elements (at different positions) are related *)
Definition pairwise_not {A} (R : A -> A -> Prop) (l : list A) : Prop :=
  forall i j a b, nth_error l i = Some a -> nth_error l j = Some b -> R a b -> i = j.

(* attribute names of a candidate are distinct (they are dictionary keys) *)
Definition wf_cand (c : cand) : Prop := NoDup (skeys (cd_named c)).
