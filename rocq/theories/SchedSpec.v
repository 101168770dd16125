(* SchedSpec.v -- C88: when the rate is to be lowered, and to what. *)
From Verif Require Import Base SchedModel.
From Coq Require Import Lia.
Open Scope Q_scope.

(* x improves on the best value so far; anything improves on nothing *)
Definition improves (a : sargs) (x : Q) (best : option Q) : Prop :=
  match best with
  | None => True
  | Some b => match s_mode a, s_tmode a with
    | Smin, Trel => x < b * (1 - s_threshold a)
    | Smin, Tabs => x < b - s_threshold a
    | Smax, Trel => b * (1 + s_threshold a) < x
    | Smax, Tabs => b + s_threshold a < x
    end
  end.
(* the best value among losses: the last one that improved on the best value of those before it *)
Inductive best_of (a : sargs) : list Q -> option Q -> Prop :=
  | best_none : best_of a [] None
  | best_new l b x : best_of a l b -> improves a x b -> best_of a (l ++ [x]) (Some x)
  | best_old l b x : best_of a l b -> ~ improves a x b -> best_of a (l ++ [x]) b.
(* the losses end with patience + 1 losses, none of which, and none of those coming after `wait` ones, improves *)
Definition stalled (a : sargs) (wait : nat) (losses : list Q) : Prop :=
  exists before last b, losses = before ++ last /\ length last = S (s_patience a) /\ (wait <= length before)%nat /\
    best_of a before b /\ Forall (fun x => ~ improves a x b) last.
(* stalled with the last loss, not before *)
Definition just_stalled (a : sargs) (wait : nat) (losses : list Q) : Prop :=
  stalled a wait losses /\ forall l r, losses = l ++ r -> r <> [] -> ~ stalled a wait l.
Definition never_stalled (a : sargs) (wait : nat) (losses : list Q) : Prop :=
  forall l r, losses = l ++ r -> ~ stalled a wait l.
(* the losses of a run cut at the reductions; the cooldown counts from the first reduction on *)
Inductive cut (a : sargs) : nat -> list Q -> nat -> Prop :=
  | cut_end w l : never_stalled a w l -> cut a w l 0
  | cut_more w seg l k : just_stalled a w seg -> cut a (s_cooldown a) l k -> cut a w (seg ++ l) (S k).
(* q to the power k *)
Fixpoint qpow (q : Q) (k : nat) : Q := match k with O => 1 | S k => q * qpow q k end.
(* the floor of a parameter group *)
Definition floor_of (a : sargs) (i : nat) : Q := match s_floor a with One q => q | Many l => nth i l 0 end.
