(* LinSpec.v -- what the linear layers, batch normalization and their neighbours compute.
   A tensor assigns a number to each channel and position; sample by sample, so there is no batch axis. *)
From Verif Require Import LinNode.

Definition tensor := nat -> Z * Z -> R.

(* the kernel sizes *)
Definition ksize (l : lin) : nat * nat :=
  match l_kind l, shp (l_kernel l) with
  | (K_conv | K_dw | K_convT), [h; w; _; _] => (h, w)
  | (T_conv | T_convT), [_; _; h; w] => (h, w)
  | _, _ => (1%nat, 1%nat)
  end.
(* channels per group *)
Definition in_per (l : lin) : nat := (l_in l / l_groups l)%nat.
Definition out_per (l : lin) : nat := (l_out l / l_groups l)%nat.
(* the weight with which input channel i contributes to output channel o through the kernel position (h, w);
   channels of different groups are not connected *)
Definition weight (l : lin) (h w i o : nat) : R :=
  let k := at_ (l_kernel l) in
  let mult := (l_out l / l_in l)%nat in
  match l_kind l with
  | K_conv => if Nat.eqb (i / in_per l) (o / out_per l) then k [h; w; i mod in_per l; o]%nat else 0
  | K_dw => if Nat.eqb i (o / mult) then k [h; w; i; o mod mult]%nat else 0
  | K_convT => k [h; w; o; i]
  | K_dense => k [i; o]
  | T_conv => if Nat.eqb (i / in_per l) (o / out_per l) then k [o; i mod in_per l; h; w]%nat else 0
  | T_convT => if Nat.eqb (i / in_per l) (o / out_per l) then k [i; o mod out_per l; h; w]%nat else 0
  | T_linear => k [o; i]
  end.

(* ---- geometry: the input position read through kernel position h at output position y; None is padding ---- *)
Definition ceil_div (a b : Z) : Z := (- ((- a) / b))%Z.
Definition same_before (n k s d : Z) : Z := (Z.max 0 ((ceil_div n s - 1) * s + (k - 1) * d + 1 - n) / 2)%Z.
Definition before (p : padding) (same : Z) (num : nat * nat -> nat) : Z :=
  match p with P_valid => 0%Z | P_same => same | P_num a b => Z.of_nat (num (a, b)) end.
Definition within (n q : Z) : option Z := if ((0 <=? q) && (q <? n))%Z then Some q else None.
Definition conv_tap (s d pad n h y : Z) : option Z := within n (s * y + d * h - pad)%Z.
Definition convT_tap (s d pad n h y : Z) : option Z :=
  let t := (y + pad - d * h)%Z in if (t mod s =? 0)%Z then within n (t / s)%Z else None.
Definition transposed (k : lkind) : bool := match k with K_convT | T_convT => true | _ => false end.
Definition dense (k : lkind) : bool := match k with K_dense | T_linear => true | _ => false end.
Definition tap1 (l : lin) (prj : nat * nat -> nat) (n : Z) (h : nat) (y : Z) : option Z :=
  let s := Z.of_nat (prj (l_stride l)) in
  let d := Z.of_nat (prj (l_dil l)) in
  let k := Z.of_nat (prj (ksize l)) in
  if transposed (l_kind l)
  then convT_tap s d (before (l_pad l) (Z.max 0 (k - s) / 2)%Z prj) n (Z.of_nat h) y
  else conv_tap s d (before (l_pad l) (same_before n k s d) prj) n (Z.of_nat h) y.
(* hw: height and width of the input *)
Definition tap (l : lin) (hw : Z * Z) (h w : nat) (p : Z * Z) : option (Z * Z) :=
  if dense (l_kind l) then Some p else
  match tap1 l fst (fst hw) h (fst p), tap1 l snd (snd hw) w (snd p) with
  | Some a, Some b => Some (a, b)
  | _, _ => None
  end.

(* the extent of the output (output_padding, which extends it further, is left out) *)
Definition out_dim (l : lin) (prj : nat * nat -> nat) (n : Z) : Z :=
  let s := Z.of_nat (prj (l_stride l)) in
  let d := Z.of_nat (prj (l_dil l)) in
  let k := Z.of_nat (prj (ksize l)) in
  if dense (l_kind l) then n else
  if transposed (l_kind l)
  then match l_pad l with
       | P_valid => n * s + Z.max 0 (k - s)
       | P_same => n * s
       | P_num a b => (n - 1) * s - 2 * Z.of_nat (prj (a, b)) + d * (k - 1) + 1
       end%Z
  else match l_pad l with
       | P_valid => (n - d * (k - 1) - 1) / s + 1
       | P_same => ceil_div n s
       | P_num a b => (n + 2 * Z.of_nat (prj (a, b)) - d * (k - 1) - 1) / s + 1
       end%Z.
Definition out_hw (l : lin) (hw : Z * Z) : Z * Z := (out_dim l fst (fst hw), out_dim l snd (snd hw)).
(* p is a position of a tensor of this height and width *)
Definition pos_in (hw p : Z * Z) : Prop := (0 <= fst p < fst hw /\ 0 <= snd p < snd hw)%Z.

Definition bias_val (l : lin) (o : nat) : R :=
  if l_use_bias l then match l_bias l with Some b => at_ b [o] | None => 0 end else 0.
(* the layer's output *)
Definition lin_val (l : lin) (hw : Z * Z) (x : tensor) : tensor := fun o p =>
  bias_val l o +
  rsum (fst (ksize l)) (fun h => rsum (snd (ksize l)) (fun w =>
    match tap l hw h w p with
    | Some q => rsum (l_in l) (fun i => weight l h w i o * x i q)
    | None => 0
    end)).

(* a node whose weights fit its attributes *)
Definition kernel_shape (l : lin) (kh kw : nat) : list nat :=
  match l_kind l with
  | K_conv => [kh; kw; in_per l; l_out l]
  | K_dw => [kh; kw; l_in l; (l_out l / l_in l)%nat]
  | K_convT => [kh; kw; l_out l; l_in l]
  | K_dense => [l_in l; l_out l]
  | T_conv => [l_out l; in_per l; kh; kw]
  | T_convT => [l_in l; out_per l; kh; kw]
  | T_linear => [l_out l; l_in l]
  end.
Definition grouped_kind (k : lkind) : bool := match k with K_conv | T_conv | T_convT => true | _ => false end.
Record lin_wf (l : lin) : Prop := {
  lw_shape : exists kh kw, shp (l_kernel l) = kernel_shape l kh kw;
  lw_bias : match l_bias l with Some b => shp b = [l_out l] /\ l_use_bias l = true | None => True end;
  lw_in : (0 < l_in l)%nat; lw_out : (0 < l_out l)%nat; lw_groups : (0 < l_groups l)%nat;
  lw_div_in : (l_in l = l_groups l * in_per l)%nat; lw_div_out : (l_out l = l_groups l * out_per l)%nat;
  lw_plain : grouped_kind (l_kind l) = false -> l_groups l = 1%nat;
  lw_dw : l_kind l = K_dw -> (l_out l = l_in l * (l_out l / l_in l))%nat
}.
