(* CollapseSpec.v -- when and how linear operations may be collapsed. *)
From Verif Require Import LinNode LinSpec BnSpec LinGraph.

(* two convolutions of one framework *)
Definition conv_pair (l1 l2 : lin) : Prop :=
  (l_kind l1 = K_conv /\ l_kind l2 = K_conv) \/ (l_kind l1 = T_conv /\ l_kind l2 = T_conv).
(* the second is 1x1 and adds no border, neither strides, dilates or has groups *)
Definition pointwise_after (l1 l2 : lin) : Prop :=
  ksize l2 = (1, 1)%nat /\ (l_stride l1 = (1, 1) /\ l_stride l2 = (1, 1) /\ l_dil l1 = (1, 1) /\ l_dil l2 = (1, 1))%nat /\
  l_groups l1 = 1%nat /\ l_groups l2 = 1%nat /\ (l_pad l2 = P_valid \/ l_pad l2 = P_same \/ l_pad l2 = P_num 0 0).
(* the addition of a constant vector *)
Definition const_op (C : nat) (c : nd) (args : list image) : image :=
  match args with [Some (hw, x)] => Some (hw, clip C hw (fun o p => x o p + bget c [o])) | _ => None end.
(* the addition of two images *)
Definition same_hw (a b : Z * Z) : bool := (fst a =? fst b)%Z && (snd a =? snd b)%Z.
Definition add_op (C : nat) (args : list image) : image :=
  match args with
  | [Some (hw, x); Some (hw', y)] => if same_hw hw hw' then Some (hw, clip C hw (fun o p => x o p + y o p)) else None
  | _ => None
  end.
(* the kernel position in the middle, (k-1)/2, reads the position that is computed *)
Definition centred1 (k d : nat) (num : nat) (p : padding) : Prop :=
  match p with
  | P_valid => k = 1%nat
  | P_same => Nat.odd k = true \/ d = 1%nat
  | P_num _ _ => Nat.odd k = true /\ num = (d * ((k - 1) / 2))%nat
  end.
Definition centred (l : lin) : Prop :=
  l_stride l = (1, 1)%nat /\
  centred1 (fst (ksize l)) (fst (l_dil l)) (match l_pad l with P_num a _ => a | _ => 0%nat end) (l_pad l) /\
  centred1 (snd (ksize l)) (snd (l_dil l)) (match l_pad l with P_num _ b => b | _ => 0%nat end) (l_pad l).
