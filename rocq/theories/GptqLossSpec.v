(* GptqLossSpec.v -- C91: distances between outputs, and how layers and samples are to be weighted. *)
From Coq Require Import Reals Lra Lia List.
From Verif Require Import Nd.
From Verif Require Import Base GptqLossModel.
Import ListNotations.
Open Scope R_scope.

Definition avg (n : nat) (f : nat -> R) : R := rsum n f / INR n.
(* the mean squared difference of two tensors, and the mean square of a tensor *)
Definition mse (y x : nd) : R := avg (prod (shp x)) (fun k => (at_ y (unflat (shp x) k) - at_ x (unflat (shp x) k)) ^ 2).
Definition power (x : nd) : R := avg (prod (shp x)) (fun k => at_ x (unflat (shp x) k) ^ 2).
(* two tensors agree in all entries *)
Definition same (y x : nd) : Prop := forall i, inb (shp x) i -> at_ y i = at_ x i.
(* the outputs of the compared layers: quantized model, float model *)
Definition quantized (ps : list (nd * nd)) (i : nat) : nd := fst (nth i ps (scalar 0, scalar 0)).
Definition float (ps : list (nd * nd)) (i : nat) : nd := snd (nth i ps (scalar 0, scalar 0)).
Definition compared (ps : list (nd * nd)) : Prop := ps <> [] /\ Forall (fun p => shp (fst p) = shp (snd p) /\ (0 < prod (shp (snd p)))%nat) ps.
(* whether a loss function divides by the mean square of the float output *)
Definition relative (f : lossfn) : bool := match f with L_torch => true | L_keras_list => false | L_keras_default norm => norm end.
Definition distance (f : lossfn) (ps : list (nd * nd)) (i : nat) : R :=
  if relative f then mse (quantized ps i) (float ps i) / power (float ps i) else mse (quantized ps i) (float ps i).
Definition has_signal (f : lossfn) (ps : list (nd * nd)) : Prop := relative f = true -> forall i, (i < length ps)%nat -> power (float ps i) <> 0.

(* the score of a layer: its share of the scores of an image, averaged over the images, or its average score *)
Definition score (c : hcfg) (S n : nat) (s : nat -> nat -> R) (i : nat) : R :=
  avg S (fun k => if norm_scores c then s k i / (rsum n (s k) + / 100000000) else s k i).
Definition score_tensor (S n : nat) (s : nat -> nat -> R) : nd := Nd [S; n; 1%nat] (fun i => s (nth 0 i 0%nat) (nth 1 i 0%nat)).
(* y is the least positive score *)
Definition least_positive (n : nat) (g : nat -> R) (y : R) : Prop := 0 < y /\ (exists j, (j < n)%nat /\ g j = y) /\ forall i, (i < n)%nat -> g i <> 0 -> y <= g i.
(* a zero score is taken for the least positive one *)
Definition filled (g : nat -> R) (y : R) (i : nat) : R := if Req_EM_T (g i) 0 then y else g i.

(* the squared distance of a sample's outputs: over the channels, averaged over the positions *)
Definition first_axis_distance (C : nat) (rest : list nat) (y x : nd) (b : nat) : R :=
  avg (prod rest) (fun k => rsum C (fun c => (at_ y (b :: c :: unflat rest k) - at_ x (b :: c :: unflat rest k)) ^ 2)).
Definition last_axis_distance (H W C : nat) (y x : nd) (b : nat) : R :=
  avg H (fun h => avg W (fun w => rsum C (fun c => (at_ y [b; h; w; c] - at_ x [b; h; w; c]) ^ 2))).
Definition largest (n : nat) (g : nat -> R) (m : R) : Prop := (exists i, (i < n)%nat /\ g i = m) /\ forall i, (i < n)%nat -> g i <= m.
