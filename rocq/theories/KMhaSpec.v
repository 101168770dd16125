(* KMhaSpec.v -- the layer keras.layers.MultiHeadAttention (no mask, no dropout) on inputs with any number of
   axes between batch and channels.  An attention axis is one the attention runs over; along the other axes
   ("iteration" axes) every position has its own attention.  Axes are counted from 1, 0 being the batch. *)
From Coq Require Import String.
From Verif Require Import Base Nd GraphModel KMhaModel.
Local Open Scope R_scope.

Definition sum_over {A} (l : list A) (f : A -> R) : R := fold_right Rplus 0 (map f l).
(* every position of an array with these sizes *)
Fixpoint positions (dims : list nat) : list (list nat) :=
  match dims with [] => [[]] | d :: r => flat_map (fun i => map (cons i) (positions r)) (seq 0 d) end.
(* two positions agree on the axes that are not attention axes *)
Definition same_iteration (axes p p' : list nat) : bool :=
  forallb (fun a => memb a axes || Nat.eqb (nth (a - 1) p 0%nat) (nth (a - 1) p' 0%nat)) (seq 1 (length p)).

Record layer := Layer {
  heads : nat; key_dim : nat; value_dim : nat;
  axes : list nat;
  q_kernel : nd; q_bias : nd; k_kernel : nd; k_bias : nd; v_kernel : nd; v_bias : nd;   (* [channels; heads; dim], [heads; dim] *)
  o_kernel : nd; o_bias : nd }.                                                         (* [heads; value_dim; out], [out] *)

Section Layer.
Variables (L : layer) (x y z : nd) (cq ck cv : nat) (dk : list nat).
(* x query, y key, z value with cq, ck, cv channels; dk the sizes of the inner axes of key and value *)
Definition projection (w b t : nd) (c : nat) (h j n : nat) (p : list nat) : R :=
  rsum c (fun i => at_ t (n :: p ++ [i]) * at_ w [i; h; j]) + at_ b [h; j].
Definition score (h n : nat) (p p' : list nat) : R :=
  rsum (key_dim L) (fun j => projection (q_kernel L) (q_bias L) x cq h j n p * projection (k_kernel L) (k_bias L) y ck h j n p')
  / sqrt (INR (key_dim L)).
(* the positions of the key that position p of the query attends to *)
Definition attended (p : list nat) : list (list nat) := filter (same_iteration (axes L) p) (positions dk).
Definition attention (h n : nat) (p p' : list nat) : R :=
  exp (score h n p p') / sum_over (attended p) (fun p'' => exp (score h n p p'')).
Definition context (h n : nat) (p : list nat) (e : nat) : R :=
  sum_over (attended p) (fun p' => attention h n p p' * projection (v_kernel L) (v_bias L) z cv h e n p').
Definition layer_output (n : nat) (p : list nat) (o : nat) : R :=
  rsum (heads L) (fun h => rsum (value_dim L) (fun e => context h n p e * at_ (o_kernel L) [h; e; o])) + at_ (o_bias L) [o].
End Layer.

(* attention axes are distinct inner axes, and query and key have the same size along the other inner axes *)
Definition axes_ok (axes dq dk : list nat) : Prop :=
  NoDup axes /\ (forall a, In a axes -> (1 <= a <= length dq)%nat) /\ length dk = length dq /\
  (forall a, (1 <= a <= length dq)%nat -> ~ In a axes -> nth (a - 1) dk 0%nat = nth (a - 1) dq 0%nat).
(* the first weight with that text in its name is w *)
Definition has_text (t s : string) : Prop := exists a b, s = (a ++ t ++ b)%string.
Definition stored (ws : list (string * nd)) (t : string) (w : nd) : Prop :=
  exists l1 name l2, ws = l1 ++ (name, w) :: l2 /\ has_text t name /\ forall x, In x l1 -> ~ has_text t (fst x).
Definition weights_stored (ws : list (string * nd)) (L : layer) : Prop :=
  stored ws "/query/kernel" (q_kernel L) /\ stored ws "/query/bias" (q_bias L) /\
  stored ws "/key/kernel" (k_kernel L) /\ stored ws "/key/bias" (k_bias L) /\
  stored ws "/value/kernel" (v_kernel L) /\ stored ws "/value/bias" (v_bias L) /\
  stored ws "/attention_output/kernel" (o_kernel L) /\ stored ws "/attention_output/bias" (o_bias L).
Definition weight_shapes (L : layer) (cq ck cv out : nat) : Prop :=
  shp (q_kernel L) = [cq; heads L; key_dim L] /\ shp (q_bias L) = [heads L; key_dim L] /\
  shp (k_kernel L) = [ck; heads L; key_dim L] /\ shp (k_bias L) = [heads L; key_dim L] /\
  shp (v_kernel L) = [cv; heads L; value_dim L] /\ shp (v_bias L) = [heads L; value_dim L] /\
  shp (o_kernel L) = [heads L; value_dim L; out] /\ shp (o_bias L) = [out].

(* the node m stands for the layer L with a bias, built for a query with inner sizes dq and cq channels, a key and a
   value with inner sizes dk and ck, cv channels, and out output channels; the layer occurs once in the model *)
Definition describes (m : kmha) (L : layer) (dq dk : list nat) (cq ck cv out : nat) : Prop :=
  k_reuse m = false /\ k_use_bias m = true /\
  k_heads m = heads L /\ k_key_dim m = key_dim L /\ k_value_dim m = value_dim L /\ k_axes m = axes L /\
  tl (k_qshape m) = dq ++ [cq] /\ tl (k_kshape m) = dk ++ [ck] /\ tl (k_vshape m) = dk ++ [cv] /\
  (k_out m = Some out \/ k_out m = None /\ out = cq) /\ weights_stored (k_weights m) L.
