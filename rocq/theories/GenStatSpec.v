(* GenStatSpec.v -- C90: which images the loss looks at, and what it compares. *)
From Coq Require Import Reals Lra Lia List.
From Verif Require Import Nd.
From Verif Require Import Base GenModel GenStatModel.
Import ListNotations.
Open Scope R_scope.

Definition average (l : list R) : R := fold_right Rplus 0 l / INR (length l).
Definition variance (l : list R) : R := average (map (fun x => (x - average l) ^ 2) l).
(* the images of a batch after the steps *)
Definition images (init : nat -> list nd) (hist : list gstep) (i : nat) : list nd :=
  fold_left (fun cur u => if Nat.eqb (s_batch u) i then s_new u else cur) hist (init i).
(* what the model was last fed with for a batch: the prepared images of its last step, as they were before that step; at the
   beginning the finished initial images *)
Fixpoint fed (fin : nd -> nd) (init : nat -> list nd) (done hist : list gstep) (i : nat) (cur : list nd) : list nd :=
  match hist with
  | [] => cur
  | u :: r => fed fin init (done ++ [u]) r i (if Nat.eqb (s_batch u) i then map (s_aug u) (images init done i) else cur)
  end.
(* the images the statistics of a key stand for, in a step on batch j *)
Definition looked_at (fin : nd -> nd) (init : nat -> list nd) (hist : list gstep) (j : nat) (aug : nd -> nd) (k : key) (i : nat) : list nd :=
  if Nat.eqb i j then map aug (images init hist j)
  else match k with K_image => map fin (images init hist i) | K_bn _ => fed fin init [] hist i (map fin (init i)) end.
(* the distance of means and deviations from those of the model *)
Definition distance (N : net) (k : key) (mean std mean' std' : nat -> R) : R :=
  (rsum (n_ch N k) (fun c => (mean c - mean' c) ^ 2) + rsum (n_ch N k) (fun c => (std c - std' c) ^ 2)) / match k with K_image => 1 | K_bn _ => INR (n_ch N k) end.
Definition total (l : list R) : R := fold_right Rplus 0 l.
(* the statistics of the model: those of its layers; mean zero and deviation one for the image *)
Definition target_mean (ru : running) (k : key) (c : nat) : R := match k with K_image => 0 | K_bn i => fst (ru i c) end.
Definition target_std (ru : running) (k : key) (c : nat) : R := match k with K_image => 1 | K_bn i => sqrt (snd (ru i c)) end.
(* all values of a key, per channel, over the images of every batch *)
Definition all_values (N : net) (nb : nat) (ims : nat -> list nd) (k : key) (c : nat) : list R :=
  concat (map (fun i => values N k (ims i) c) (seq 0 nb)).
