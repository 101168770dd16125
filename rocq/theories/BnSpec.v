(* BnSpec.v -- batch normalization. *)
From Verif Require Import LinNode LinSpec BnModel.

Definition par (o : option nd) (d : R) (c : nat) : R := match o with Some a => at_ a [c] | None => d end.
(* inference: a missing gamma is 1, a missing beta 0 *)
Definition bn_val (b : bn) (x : tensor) : tensor := fun c p =>
  par (b_gamma b) 1 c * ((x c p - at_ (b_mean b) [c]) / sqrt (at_ (b_var b) [c] + b_eps b)) + par (b_beta b) 0 c.
Record bn_wf (C : nat) (b : bn) : Prop := {
  bw_gamma : match b_gamma b with Some a => shp a = [C] | None => True end;
  bw_beta : match b_beta b with Some a => shp a = [C] | None => True end;
  bw_mean : shp (b_mean b) = [C];
  bw_var : shp (b_var b) = [C];
  bw_pos : forall c, (c < C)%nat -> 0 < at_ (b_var b) [c] + b_eps b
}.
(* the convolutions that can precede a batch normalization *)
Definition foldable_kind (k : lkind) : bool := match k with K_conv | K_dw | K_convT | T_conv | T_convT => true | _ => false end.
(* a transposed convolution with groups has one input channel in each group *)
Definition groups_ok (l : lin) : Prop := l_kind l = T_convT -> l_groups l = 1%nat \/ l_groups l = l_in l.
(* same function at every output channel and position, for every input *)
Definition same_as (l' : lin) (f : Z * Z -> tensor -> tensor) : Prop :=
  forall hw x o p, (o < l_out l')%nat -> lin_val l' hw x o p = f hw x o p.
(* everything but the values of the weights is unchanged *)
Definition same_node (l' l : lin) : Prop :=
  l_kind l' = l_kind l /\ l_groups l' = l_groups l /\ l_in l' = l_in l /\ l_out l' = l_out l /\
  l_stride l' = l_stride l /\ l_dil l' = l_dil l /\ l_pad l' = l_pad l /\ ksize l' = ksize l.
(* the 1x1 layers into which a preceding node can be folded *)
Definition takes_input_scale (l : lin) : Prop :=
  match l_kind l with
  | K_conv | T_convT => l_groups l = 1%nat
  | K_dw | K_convT => True
  | T_conv => l_groups l = 1%nat \/ (l_groups l = l_in l /\ l_out l = l_in l)
  | K_dense | T_linear => False
  end.
(* no zero padding; for a 1x1 kernel 'same' pads nothing *)
Definition unpadded (l : lin) : Prop := l_pad l = P_valid \/ l_pad l = P_same \/ l_pad l = P_num 0 0.
(* every output position reads an input position: no padding, and no stride if transposed *)
Definition reads_everywhere (l : lin) : Prop :=
  unpadded l /\ (0 < fst (l_stride l))%nat /\ (0 < snd (l_stride l))%nat /\ (transposed (l_kind l) = true -> l_stride l = (1, 1)%nat).
(* shape of an array with C entries along the output axis of a kernel *)
Definition chan_shape (k : lkind) (C a b c : nat) : list nat :=
  match k with K_dw => [a; b; C; 1%nat] | K_convT => [a; b; C; c] | T_conv => [C; a; b; c] | T_convT => [a; C; b; c] | _ => [a; b; c; C] end.
(* one quantization parameter for each output channel *)
Definition per_channel (l : lin) (t : nd) : Prop := shp t = chan_shape (l_kind l) (l_out l) 1 1 1.
(* layers whose kernel has every output channel along one axis *)
Definition single_axis (l : lin) : Prop := (l_kind l = K_dw -> l_out l = l_in l) /\ (l_kind l = T_convT -> l_groups l = 1%nat).
