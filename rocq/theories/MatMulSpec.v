(* MatMulSpec.v -- torch.matmul of tensors of the same number of dimensions. *)
From Verif Require Import Base GraphModel MatMulModel.
From Coq Require Import Reals.
Local Open Scope nat_scope.

(* dimensions are equal or one of them is 1 *)
Definition compatible (a b : list nat) : Prop := Forall2 (fun x y => x = y \/ x = 1 \/ y = 1) a b.
Definition common (a b : list nat) : list nat := map (fun p => Nat.max (fst p) (snd p)) (combine a b).
Definition valid_index (s idx : list nat) : Prop := Forall2 (fun d i => i < d) s idx.
(* the index used in a tensor whose dimension may be 1 *)
Definition own (d i : nat) : nat := if Nat.eqb d 1 then 0 else i.
Fixpoint own_index (s idx : list nat) : list nat :=
  match s, idx with d :: s, i :: idx => own d i :: own_index s idx | _, _ => [] end.

(* y is the product of a (shape da ++ [m; p]) and b (shape db ++ [p; n]) *)
Definition torch_matmul (a b y : tensor) (da db : list nat) (m p n : nat) : Prop :=
  sh y = common da db ++ [m; n] /\
  forall idx i j, valid_index (common da db) idx -> i < m -> j < n ->
    at_ y (idx ++ [i; j]) = fold_right Rplus 0%R (map (fun l => (at_ a (own_index da idx ++ [i; l]) * at_ b (own_index db idx ++ [l; j]))%R) (seq 0 p)).
