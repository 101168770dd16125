(* GTrainSpec.v -- C93: what training has to leave in the graph. *)
From Coq Require Import String List Arith Lia Bool Permutation.
From Verif Require Import Base GTrainModel.
Import ListNotations.
Open Scope nat_scope.

Definition occurs (s t : string) : Prop := exists p q, t = (p ++ s ++ q)%string.
(* k is the only key of the dictionary in which the name occurs *)
Definition only_key {V} (name k : string) (ws : list (string * V)) : Prop :=
  NoDup (map fst ws) /\ In k (map fst ws) /\ occurs name k /\ forall k', In k' (map fst ws) -> occurs name k' -> k' = k.
(* the dictionary has the value v under k now, and is as before under all other keys *)
Definition changed {V} (k : string) (v : V) (ws ws' : list (string * V)) : Prop :=
  map fst ws' = map fst ws /\ lookup k ws' = Some v /\ forall k', k' <> k -> lookup k' ws' = lookup k' ws.

Section S.
  Context {V P A : Type}.
  Variables (hard : V -> A -> V) (qconf : A -> P).
  Implicit Types n : @tnode V P.
  (* a layer GPTQ is to train: it has a kernel that is quantized, and is not the repeated use of another one *)
  Definition trains n : Prop := (exists k, t_kernel n = Some k) /\ t_quant n = true /\ t_reuse n = false.
  (* the keys of kernel, bias and kernel parameters *)
  Record named n (kw kb kp : string) : Prop := mk_named {
    nm_kernel : forall k, t_kernel n = Some k -> only_key k kw (t_weights n) /\ only_key k kp (t_params n);
    nm_bias : t_bias n = true -> only_key "bias" kb (t_weights n) /\ kb <> kw }.
  (* n' is n after training: kernel and parameters from the outcome for the layer of this name, the bias if it is trained *)
  Definition learned (train_bias : bool) (res : string -> @outcome V A) n n' : Prop :=
    t_name n' = t_name n /\ t_reuse n' = t_reuse n /\ t_kernel n' = t_kernel n /\ t_quant n' = t_quant n /\ t_bias n' = t_bias n
    /\ forall kw kb kp, named n kw kb kp ->
       (exists w, lookup kw (t_weights n) = Some w /\ lookup kw (t_weights n') = Some (hard w (o_aux (res (t_name n)))))
       /\ (t_bias n = true -> lookup kb (t_weights n') = if train_bias then Some (o_bias (res (t_name n))) else lookup kb (t_weights n))
       /\ (forall k, k <> kw -> (t_bias n = true -> k <> kb) -> lookup k (t_weights n') = lookup k (t_weights n))
       /\ map fst (t_weights n') = map fst (t_weights n)
       /\ changed kp (qconf (o_aux (res (t_name n)))) (t_params n) (t_params n').
End S.

(* the numbers get smaller along the list *)
Definition decreasing (f : nat -> nat) (l : list nat) : Prop := forall i j, i < j < length l -> f (nth j l 0) < f (nth i l 0).
