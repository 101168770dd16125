(* BiasSpec.v -- averages of a layer's outputs. *)
From Verif Require Import LinNode LinSpec.

(* an image and a position of the layer's output on it *)
Record sample := Sample { s_hw : Z * Z; s_in : tensor; s_pos : Z * Z }.
Definition total (S : list sample) (f : sample -> R) : R := fold_right Rplus 0 (map f S).
Definition average (S : list sample) (f : sample -> R) : R := total S f / INR (length S).
(* what the layer reads from channel i through the kernel position (h, w); padding reads zero *)
Definition reads_through (l : lin) (h w i : nat) (s : sample) : R := match tap l (s_hw s) h w (s_pos s) with Some q => s_in s i q | None => 0 end.
Definition output (l : lin) (o : nat) (s : sample) : R := lin_val l (s_hw s) (s_in s) o (s_pos s).
(* every kernel position sees the mean mu *)
Definition sees_mean (l : lin) (mu : nd) (S : list sample) : Prop :=
  forall h w i, (h < fst (ksize l))%nat -> (w < snd (ksize l))%nat -> (i < l_in l)%nat -> average S (reads_through l h w i) = at_ mu [i].
(* the layer but not its correction: a transposed PyTorch convolution in groups *)
Definition corrected_groups (l : lin) : Prop := l_kind l = T_convT -> l_groups l = 1%nat.
