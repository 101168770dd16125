(* DecompSpec.v -- what a separable convolution computes. *)
From Verif Require Import LinNode LinSpec LinGraph DecompModel.

(* one axis: the input position read through kernel position h at output position y *)
Definition sep_tap1 (s : sep) (prj : nat * nat -> nat) (k : nat) (n : Z) (h : nat) (y : Z) : option Z :=
  let st := Z.of_nat (prj (s_stride s)) in
  let d := Z.of_nat (prj (s_dil s)) in
  conv_tap st d (before (s_pad s) (same_before n (Z.of_nat k) st d) prj) n (Z.of_nat h) y.
Definition sep_k (s : sep) : nat * nat := match shp (s_dk s) with [h; w; _; _] => (h, w) | _ => (1, 1)%nat end.
(* each input channel is filtered by depth_multiplier kernels, then the results are mixed by a matrix and the bias is added *)
Definition sep_filtered (s : sep) (hw : Z * Z) (x : tensor) (j : nat) (p : Z * Z) : R :=
  rsum (fst (sep_k s)) (fun h => rsum (snd (sep_k s)) (fun w =>
    match sep_tap1 s fst (fst (sep_k s)) (fst hw) h (fst p), sep_tap1 s snd (snd (sep_k s)) (snd hw) w (snd p) with
    | Some a, Some b => at_ (s_dk s) [h; w; j / s_mult s; j mod s_mult s]%nat * x (j / s_mult s)%nat (a, b)
    | _, _ => 0
    end)).
Definition sep_val (s : sep) (hw : Z * Z) (x : tensor) : tensor := fun o p =>
  (if s_use_bias s then match s_bias s with Some b => at_ b [o] | None => 0 end else 0) +
  rsum (s_in s * s_mult s) (fun j => at_ (s_pk s) [0; 0; j; o]%nat * sep_filtered s hw x j p).
Definition sep_dim (s : sep) (prj : nat * nat -> nat) (n : Z) : Z :=
  let st := Z.of_nat (prj (s_stride s)) in
  match s_pad s with
  | P_valid => (n - Z.of_nat (prj (s_dil s)) * (Z.of_nat (prj (sep_k s)) - 1) - 1) / st + 1
  | P_same => ceil_div n st
  | P_num a b => (n + 2 * Z.of_nat (prj (a, b)) - Z.of_nat (prj (s_dil s)) * (Z.of_nat (prj (sep_k s)) - 1) - 1) / st + 1
  end%Z.
Definition sep_hw (s : sep) (hw : Z * Z) : Z * Z := (sep_dim s fst (fst hw), sep_dim s snd (snd hw)).
Definition sep_op (s : sep) (args : list image) : image :=
  match args with [Some (hw, x)] => Some (sep_hw s hw, clip (s_out s) (sep_hw s hw) (sep_val s hw x)) | _ => None end.
Record sep_wf (s : sep) : Prop := {
  sw_dk : exists h w, shp (s_dk s) = [h; w; s_in s; s_mult s];
  sw_pk : shp (s_pk s) = [1; 1; s_in s * s_mult s; s_out s]%nat;
  sw_bias : match s_bias s with Some b => shp b = [s_out s] /\ s_use_bias s = true | None => True end;
  sw_pos : (0 < s_in s)%nat /\ (0 < s_mult s)%nat /\ (0 < s_out s)%nat
}.
