(* TrainDataSpec.v -- C92: the samples of the user's batches, and what a partition into batches is. *)
From Coq Require Import List Arith Lia Reals Permutation.
From Verif Require Import Base GptqLossModel TrainDataModel.
Import ListNotations.
Open Scope nat_scope.

(* a batch of m samples with n inputs *)
Definition batch_of {A} (n m : nat) (b : batch A) : Prop := length b = n /\ Forall (fun t => length t = m) b.
Definition well_formed {A} (n : nat) (g : list (batch A)) : Prop := 0 < n /\ Forall (fun b => exists m, batch_of n m b) g.
(* the rows with number i of all inputs *)
Definition row {A} (d : A) (b : batch A) (i : nat) : sample A := map (fun t => nth i t d) b.
Definition size {A} (b : batch A) : nat := match b with [] => 0 | t :: _ => length t end.
(* all samples of a pass, in order *)
Definition samples_of {A} (d : A) (g : list (batch A)) : list (sample A) := flat_map (fun b => map (row d b) (seq 0 (size b))) g.
(* batches of B elements each; the last one may be smaller *)
Definition batches_of {X} (B : nat) (l : list X) (bs : list (list X)) : Prop :=
  concat bs = l /\ Forall (fun b => 0 < length b <= B) bs /\ forall i, S i < length bs -> length (nth i bs []) = B.
(* the tensors of the batch made of some samples: column j holds the rows j of the samples *)
Definition tensors {A} (d : A) (n : nat) (ss : list (sample A)) : batch A := map (fun j => map (fun s => nth j s d) ss) (seq 0 n).
(* a generator of batches of equal size, the last one possibly smaller *)
Definition even {A} (B : nat) (g : list (batch A)) : Prop := Forall (fun b => 0 < size b <= B) g /\ forall i, S i < length g -> size (nth i g []) = B.
(* m is the largest number of the list *)
Definition is_max (l : list R) (m : R) : Prop := In m l /\ forall x, In x l -> (x <= m)%R.
