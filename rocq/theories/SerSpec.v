(* SerSpec.v -- what must survive saving and loading a training quantizer, and which weights a finished layer must have. *)
From Coq Require Import String.
From Verif Require Import Base SDict SerModel.
Local Open Scope list_scope.

(* the numbers of a parameter: a number counts as an array without axes *)
Definition numbers (v : value) : option (list nat * list Q) :=
  match v with V_num q => Some ([], [q]) | V_nd s x => Some (s, x) | _ => None end.
(* a parameter made of numbers, with as many elements as its shape says *)
Definition numeric (v : value) : Prop :=
  exists s x, numbers v = Some (s, x) /\ length x = fold_right Nat.mul 1%nat s.
(* a parameter that is not an array *)
Definition simple (v : value) : Prop := match v with V_none | V_bool _ | V_num _ => True | _ => False end.
Definition savable (c : config) : Prop :=
  match c with
  | CW w => Forall (fun kv => numeric (snd kv)) (w_params w)
  | CA a => Forall (fun kv => simple (snd kv)) (a_params a)
  end.
Definition candidates (c : config) : list cand :=
  match (match c with CW w => w_cands w | CA a => a_cands a end) with Some l => l | None => [] end.

(* the same names with the same numbers, in the same order *)
Definition same_numbers (p p' : params) : Prop :=
  Forall2 (fun a b => fst a = fst b /\ numbers (snd a) = numbers (snd b)) p p'.
(* everything but the list of candidates *)
Definition same_config (c c' : config) : Prop :=
  match c, c' with
  | CW w, CW w' => w_method w = w_method w' /\ w_bits w = w_bits w' /\ same_numbers (w_params w) (w_params w') /\
      w_enable w = w_enable w' /\ w_axis w = w_axis w' /\ w_channel w = w_channel w' /\ w_min w = w_min w'
  | CA a, CA a' => a_method a = a_method a' /\ a_bits a = a_bits a' /\ a_params a = a_params a' /\
      a_enable a = a_enable a' /\ a_min a = a_min a'
  | _, _ => False
  end.

(* the last element of a list with a given name *)
Definition last_named {T} (name : string) (l : list (string * T)) (v : T) : Prop :=
  exists a b, l = a ++ (name, v) :: b /\ ~ In name (map fst b).
