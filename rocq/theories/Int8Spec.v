(* Int8Spec.v -- what C94 is stated with. *)
From Coq Require Import List Arith.
From Verif Require Import Nd.
From Verif Require Import Base Int8Model.
Import ListNotations.
Open Scope R_scope.

(* same shape and same entries *)
Definition same (a b : nd) : Prop := shp a = shp b /\ forall i, inb (shp a) i -> at_ a i = at_ b i.
(* the activation function looks at the channels of one position only *)
Definition local (act : nat -> (nat -> R) -> nat -> R) : Prop := forall n f g u, (u < n)%nat -> (forall k, (k < n)%nat -> f k = g k) -> act n f u = act n g u.
(* a dense layer with c inputs and n outputs whose kernel is quantized for each output channel, or as a whole *)
Definition regular (c n : nat) (d : dense) : Prop :=
  shp (d_kernel d) = [c; n] /\ d_units d = n /\ exists q t, d_quant d = Some q /\ q_params q = Thresholds t /\ (q_per_channel q = true -> q_axis q = 1%nat /\ q_rank q = 2%nat).

