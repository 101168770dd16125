(* Base.v -- shared vocabulary of the models: exceptions as values and a few list helpers.
   No part of /repo is modelled here. *)
From Coq Require Export List ZArith QArith Bool Lia.
Export ListNotations.

(* Python exceptions as values.  [E_critical] is Logger.critical (which raises Exception,
   model_compression_toolkit/logger.py), [E_value] ValueError, [E_assert] AssertionError, etc. *)
Inductive err : Set :=
| E_critical | E_value | E_assert | E_key | E_type | E_runtime | E_index | E_zero_div | E_attr | E_fuel.

Inductive result (A : Type) : Type :=
| Ok : A -> result A
| Err : err -> result A.
Arguments Ok {A} _.
Arguments Err {A} _.

Definition bind {A B} (r : result A) (f : A -> result B) : result B :=
  match r with Ok a => f a | Err e => Err e end.

Definition is_ok {A} (r : result A) : bool := match r with Ok _ => true | Err _ => false end.

(* monadic map, left to right, stopping at the first error (a Python loop or comprehension) *)
Fixpoint mapM {A B} (f : A -> result B) (l : list A) : result (list B) :=
  match l with
  | [] => Ok []
  | x :: xs => bind (f x) (fun y => bind (mapM f xs) (fun ys => Ok (y :: ys)))
  end.

(* monadic left fold: a Python for loop over mutable state *)
Fixpoint foldM {A S} (f : S -> A -> result S) (l : list A) (s : S) : result S :=
  match l with
  | [] => Ok s
  | x :: xs => bind (f s x) (fun s' => foldM f xs s')
  end.

Declare Scope res_scope.
Notation "'let!' x := r 'in' k" := (bind r (fun x => k)) (at level 200, x pattern, k at level 200) : res_scope.
Open Scope res_scope.
