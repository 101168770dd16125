(* SmcSpec.v -- C98: moving averages and what a layer sees *)
From Coq Require Import List Arith Reals String.
From Verif Require Import Base SmcModel.
Import ListNotations.
Open Scope R_scope.

(* the moving average of values, in order, with the weight of old values decaying by d: d^n m0 + (1-d) (d^(n-1) x1 + ... + xn) *)
Fixpoint weighted (d : R) (l : list R) : R := match l with [] => 0 | x :: r => d ^ List.length r * x + weighted d r end.
Definition ema (d m0 : R) (l : list R) : R := d ^ List.length l * m0 + (1 - d) * weighted d l.
(* the tensor layer i of the model, as it was given, gets for a batch *)
Definition sees (fw : framework) (nodes : list gnode) (ls : list layer) (i : nat) (l : layer) (batch : list tensor) (t : tensor) : Prop :=
  exists env ls', forward fw nodes batch (firstn i ls) = Ok (env, ls') /\ t = hd [] (map (fun k => nth k env []) (l_in l)).
(* the sum of the squared deviations of channel c from m *)
Definition spread (x : tensor) (c : nat) (m : R) : R := fold_right (fun p s => (p c - m) * (p c - m) + s) 0 x.
