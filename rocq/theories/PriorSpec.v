(* PriorSpec.v -- C101: values within a range, ranges that hold for every input *)
From Coq Require Import Reals List.
From Verif Require Import Base PriorModel.
Import ListNotations.
Open Scope R_scope.

Definition within (p : range) (v : R) : Prop :=
  match fst p with Some m => m <= v | None => True end /\ match snd p with Some m => v <= m | None => True end.
(* whatever the input, all values of the output are within the range *)
Definition holds (p : range) (o : op) : Prop := forall row v, In v (out o row) -> within p v.
