(* CollectSpec.v -- what has been observed, independently of the collectors *)
From Verif Require Import Base CollectModel.
Open Scope Q_scope.

(* v is the largest / smallest element of l *)
Definition is_max (l : list Q) (v : Q) : Prop := (exists y, In y l /\ v == y) /\ forall y, In y l -> y <= v.
Definition is_min (l : list Q) (v : Q) : Prop := (exists y, In y l /\ v == y) /\ forall y, In y l -> v <= y.

(* a scalar stands for the same value in each of the n channels *)
Definition expand (n : nat) (v : list Q) : list Q := match v with [s] => repeat s n | _ => v end.

(* per channel, every value observed so far, as transformed by the scalings and shifts applied since *)
Definition observe (n : nat) (log : list (list Q)) (o : mm_op) : list (list Q) :=
  match o with
  | MM_update x => map2 (@app Q) log x
  | MM_scale s => map2 (fun l f => map (fun v => v * f) l) log (expand n s)
  | MM_shift s => map2 (fun l f => map (fun v => v + f) l) log (expand n s)
  end.
Definition observed (n : nat) (ops : list mm_op) : list (list Q) := fold_left (observe n) ops (repeat [] n).

(* operations that fit a collector of n channels; scalings are positive *)
Definition fits (n : nat) (o : mm_op) : Prop :=
  match o with
  | MM_update x => length x = n /\ Forall (fun c => c <> []) x
  | MM_scale s => (length s = n \/ length s = 1%nat) /\ Forall (fun f => 0 < f) s
  | MM_shift s => length s = n \/ length s = 1%nat
  end.
Definition is_update (o : mm_op) : Prop := match o with MM_update _ => True | _ => False end.

Fixpoint strictly_increasing (l : list Q) : Prop :=
  match l with
  | x :: ((y :: _) as r) => x < y /\ strictly_increasing r
  | _ => True
  end.

(* a declared bound, moved by the scalar scalings and shifts; a per-channel (vector) scaling or shift *)
Definition moved (q : Q) (ops : list mm_op) : Q :=
  fold_left (fun q o => match o with MM_scale [s] => q * s | MM_shift [s] => q + s | _ => q end) ops q.
Definition vector_op (o : mm_op) : Prop :=
  match o with MM_update _ => False | MM_scale v | MM_shift v => (1 < length v)%nat end.
