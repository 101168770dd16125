(* SncSpec.v -- images shifted by a constant and padded with a constant. *)
From Verif Require Import LinNode LinSpec BnSpec LinGraph SncModel GraphModel GraphSpec.

(* an addition of the constant s to an image of C channels *)
Definition add_op (C : nat) (s : R) (v : image) : image := match v with Some (hw, x) => Some (hw, clip C hw (fun c p => x c p + s)) | None => None end.
(* the extent after padding, and padding with the constant s *)
Definition pad_hw (d : pads) (hw : Z * Z) : Z * Z := (fst hw + p_top d + p_btm d, snd hw + p_left d + p_right d)%Z.
Definition pad_val (d : pads) (s : R) (hw : Z * Z) (x : tensor) : tensor := fun c p =>
  let q := (fst p - p_top d, snd p - p_left d)%Z in if inside_hw hw q then x c q else s.
Definition pad_op (C : nat) (d : pads) (s : R) (v : image) : image := match v with Some (hw, x) => Some (pad_hw d hw, clip C (pad_hw d hw) (pad_val d s hw x)) | None => None end.
Definition opt_pad (C : nat) (d : option pads) (s : R) (v : image) : image := match d with Some d => pad_op C d s v | None => v end.

(* the layers that the pass corrects *)
Definition corrected_kind (k : lkind) : bool := match k with K_conv | K_dw | K_dense | T_conv | T_linear => true | _ => false end.
(* rows that 'same' padding of stride s adds for a kernel of k rows without dilation; negative if the stride skips rows *)
Definition same_total (n k s : Z) : Z := ((ceil_div n s - 1) * s + k - n)%Z.
(* the padding attribute can be replaced by a pad node.  Keras 'same': no dilation, and not rows to add in one direction
   and rows skipped in the other; PyTorch: numbers, not a string *)
Definition pad_replaceable (l : lin) (hw : Z * Z) : Prop :=
  match l_kind l, l_pad l with
  | (K_conv | K_dw), P_same =>
      let th := same_total (fst hw) (Z.of_nat (fst (ksize l))) (Z.of_nat (fst (l_stride l))) in
      let tw := same_total (snd hw) (Z.of_nat (snd (ksize l))) (Z.of_nat (snd (l_stride l))) in
      l_dil l = (1, 1)%nat /\ ((0 <= th /\ 0 <= tw) \/ (th <= 0 /\ tw <= 0))%Z
  | (K_conv | K_dw), P_num _ _ => False
  | T_conv, P_same => False
  | _, _ => True
  end.
Definition strided (l : lin) : Prop := (0 < fst (l_stride l))%nat /\ (0 < snd (l_stride l))%nat.
Definition nonneg (d : pads) : Prop := (0 <= p_top d /\ 0 <= p_btm d /\ 0 <= p_left d /\ 0 <= p_right d)%Z.

(* ---- the search for the layer: a chain of nodes with one successor each ---- *)
Definition chain_to (linear bypass is_pad : nat -> bool) (g : graph) (n : nat) (mids : list nat) (m : nat) : Prop :=
  walk g (n :: mids ++ [m]) /\ (forall k, In k (n :: mids) -> out_degree g k = 1%nat) /\ linear m = true /\
  (forall k, In k mids -> linear k = false /\ (bypass k = true \/ is_pad k = true)).
