(* MetricSpec.v -- vocabulary for the properties of the mixed-precision metric. *)
From Coq Require Import Reals.
From Verif Require Import Base MetricModel.
Local Open Scope list_scope.
Local Open Scope R_scope.

(* p points, n images *)
Definition table (p n : nat) (m : matrix) : Prop := length m = p /\ forall row, In row m -> length row = n.
(* every entry lies in [lo, hi] *)
Definition within (lo hi : R) (m : matrix) : Prop := forall row x, In row m -> In x row -> lo <= x <= hi.
(* every entry of the first is at most the one of the second at the same place *)
Definition below (a b : matrix) : Prop := Forall2 (Forall2 Rle) a b.
(* what a weighting method needs to give weights to p points *)
Definition usable (method : weighting) (hessians : list R) (sigma : R) (p : nat) : Prop :=
  match method with
  | HESSIAN => length hessians = p /\ (forall h, In h hessians -> 0 <= h) /\ (exists h, In h hessians /\ 0 < h)
  | EXP => 0 < sigma
  | _ => True
  end.
(* the distances of a batch of images at some points, computed image by image *)
Definition image_distances {I P : Type} (d : P -> I -> R) (points : list P) (images : list I) : list pdist :=
  map (fun p => PerSample (map (d p) images)) points.
