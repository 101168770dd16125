(* PruneSpec.v -- what is promised about the choice of the channels to prune. *)
From Verif Require Import Base.
From Coq Require Import Permutation.
Open Scope Q_scope.

(* [order] lists the indices of [scores] by decreasing score *)
Definition by_decreasing_score (scores : list Q) (order : list nat) : Prop :=
  Permutation order (seq 0 (length scores)) /\
  forall a b pre mid post, order = pre ++ a :: mid ++ b :: post -> nth b scores 0 <= nth a scores 0.

(* the groups partition the channels 0 .. n-1 *)
Definition partition_of (n : nat) (gs : list (list nat)) : Prop :=
  Permutation (concat gs) (seq 0 n) /\ forall g, In g gs -> g <> [].

(* every layer to prune has its channels partitioned *)
Definition partitioned (nodes : list nat) (num_oc : nat -> nat) (groups : nat -> option (list (list nat))) : Prop :=
  NoDup nodes /\
  forall n, In n nodes -> (0 < num_oc n)%nat /\ exists gs, groups n = Some gs /\ partition_of (num_oc n) gs.

(* What the decisions [ops] (oldest first) say about group g of layer n: the latest one counts; before
   any, the first group remains and the others are pruned. *)
Fixpoint decided (ops : list (nat * nat * Z)) (n g : nat) (now : Z) : Z :=
  match ops with
  | [] => now
  | (n', g', v) :: r => decided r n g (if (Nat.eqb n n' && Nat.eqb g g')%bool then v else now)
  end.
Definition decision (ops : list (nat * nat * Z)) (n g : nat) : Z :=
  decided ops n g (if Nat.eqb g 0 then 1%Z else 0%Z).

(* group and channel masks show the decisions [f] *)
Definition shows (nodes : list nat) (groups : nat -> option (list (list nat))) (num_oc : nat -> nat)
                 (f : nat -> nat -> Z) (simd chan : nat -> option (list Z)) : Prop :=
  forall n,
    (In n nodes ->
       exists gs gm cm, groups n = Some gs /\ simd n = Some gm /\ chan n = Some cm /\
         length gm = length gs /\ length cm = num_oc n /\
         forall g idxs, nth_error gs g = Some idxs ->
           nth_error gm g = Some (f n g) /\ forall c, In c idxs -> nth_error cm c = Some (f n g)) /\
    (~ In n nodes -> simd n = None /\ chan n = None).

(* (n, g) is the most sensitive group among the first pruned groups of the layers *)
Definition next_group (nodes : list nat) (ngroups : nat -> nat) (f : nat -> nat -> Z) (n g : nat) : Prop :=
  In n nodes /\ (g < ngroups n)%nat /\ f n g = 0%Z /\ forall g', (g' < g)%nat -> f n g' <> 0%Z.
Definition best_next (nodes : list nat) (ngroups : nat -> nat) (f : nat -> nat -> Z) (score : nat -> nat -> option Q) (n g : nat) : Prop :=
  next_group nodes ngroups f n g /\
  exists q, score n g = Some q /\
  forall n' g' q', next_group nodes ngroups f n' g' -> score n' g' = Some q' -> q' <= q.

Definition within (target : option Q) (x : Q) : Prop := match target with None => True | Some t => x <= t end.
