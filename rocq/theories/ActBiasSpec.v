(* ActBiasSpec.v -- quantized activations in front of a linear layer, and averages of what is read and put out. *)
From Verif Require Import LinNode LinSpec BiasSpec.

(* the sample as the quantized model sees it: every activation goes through q *)
Definition quantized (q : R -> R) (s : sample) : sample := Sample (s_hw s) (fun i p => q (s_in s i p)) (s_pos s).
(* how much the average of what kernel position (h, w) reads from channel i moves when activations are quantized *)
Definition shift (l : lin) (q : R -> R) (S : list sample) (h w i : nat) : R :=
  average S (fun s => reads_through l h w i (quantized q s)) - average S (reads_through l h w i).
(* the sum over everything the layer reads for output channel o *)
Definition over_reads (l : lin) (f : nat -> nat -> nat -> R) : R :=
  rsum (fst (ksize l)) (fun h => rsum (snd (ksize l)) (fun w => rsum (l_in l) (fun i => f h w i))).

(* ---- data and histograms ---- *)
Definition meanR (l : list R) : R := fold_right Rplus 0 l / INR (length l).
(* counts.(k) of the data lie in the k-th bin: the data, bin by bin *)
Inductive histogram_of : list R -> list R -> list (list R) -> Prop :=
  | H_nil : forall e, histogram_of [e] [] []
  | H_bin : forall a b edges counts data rest, a <= b -> Forall (fun x => a <= x <= b) data ->
      histogram_of (b :: edges) counts rest -> histogram_of (a :: b :: edges) (INR (length data) :: counts) (data :: rest).
Definition monotone (q : R -> R) : Prop := forall x y, x <= y -> q x <= q y.
