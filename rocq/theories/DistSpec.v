(* DistSpec.v -- what the distances of two tensors are: means over a tensor, a sample, or a line of it *)
From Verif Require Import Nd.

(* two arrays of the same shape with the same entries *)
Definition same_entries (x y : nd) : Prop := shp x = shp y /\ forall i, inb (shp x) i -> at_ x i = at_ y i.
Definition nonempty (s : list nat) : Prop := Forall (fun d => (0 < d)%nat) s.
(* mean of f over all the indices of shape s *)
Definition mean_of (s : list nat) (f : list nat -> R) : R := rsum (prod s) (fun k => f (unflat s k)) / INR (prod s).
(* sample b of a batch *)
Definition sample (b : nat) (x : nd) : nd := Nd (tl (shp x)) (fun i => at_ x (b :: i)).
(* the entries of x along axis ax at the position o of the other axes *)
Definition ins (ax k : nat) (o : list nat) : list nat := firstn ax o ++ k :: skipn ax o.
Definition del (ax : nat) (s : list nat) : list nat := firstn ax s ++ skipn (S ax) s.
Definition line (ax : nat) (o : list nat) (x : nd) : nd := Nd [nth ax (shp x) 0%nat] (fun i => at_ x (ins ax (hd 0%nat i) o)).
(* x with its entries rearranged by f *)
Definition rearrange (f : list nat -> list nat) (x : nd) : nd := Nd (shp x) (fun i => at_ x (f i)).
(* f permutes the indices of shape s *)
Definition permutes (s : list nat) (f : list nat -> list nat) : Prop :=
  (forall i, inb s i -> inb s (f i)) /\ (forall i j, inb s i -> inb s j -> f i = f j -> i = j).
(* the values of the whole distances of two tensors *)
Definition mse_of (w : list nat -> R) (x y : nd) : R := mean_of (shp x) (fun i => (w i * (at_ x i - at_ y i)) ^ 2).
Definition mae_of (x y : nd) : R := mean_of (shp x) (fun i => Rabs (at_ x i - at_ y i)).
Definition lp_of (p : nat) (x y : nd) : R := mean_of (shp x) (fun i => Rabs (at_ x i - at_ y i) ^ p).
Definition size_of (f : R -> R) (x : nd) : R := mean_of (shp x) (fun i => f (at_ x i)).
(* sum of products and euclidean norm *)
Definition dot_of (x y : nd) : R := rsum (prod (shp x)) (fun k => at_ x (unflat (shp x) k) * at_ y (unflat (shp x) k)).
