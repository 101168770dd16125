(* CollapseModel.v -- collapsing two convolutions, a layer and a constant addition, a convolution and a
   residual connection: the computation of the new weights.
   Sources: core/common/substitutions/linear_collapsing.py L78-181 and L211-261, residual_collapsing.py L81-93,
     core/keras/graph_substitutions/substitutions/linear_collapsing.py L45-107 and L147-170,
     core/pytorch/graph_substitutions/substitutions/linear_collapsing.py L40-104,
     core/keras/graph_substitutions/substitutions/residual_collapsing.py L41-65,
     core/pytorch/graph_substitutions/substitutions/residual_collapsing.py L38-61.
   Real numbers stand for floating point numbers.  The editing of the graph is JoinModel.v.  The data format
   'channels_first' (L105-111: nothing is done) and the names of the new nodes are left out. *)
From Verif Require Import LinNode LinSpec BnModel.

(* ---- tensor functions of the frameworks ---- *)
Definition eye (n : nat) : nd := Nd [n; n] (fun idx => if Nat.eqb (nth 0 idx 0%nat) (nth 1 idx 0%nat) then 1 else 0).
(* zeros around the array: (before, after) for each axis *)
Fixpoint pad_idx (pads : list (nat * nat)) (s idx : list nat) : option (list nat) :=
  match pads, s, idx with
  | p :: pads', d :: s', i :: idx' =>
      if Nat.leb (fst p) i && Nat.ltb i (fst p + d) then option_map (cons (i - fst p)%nat) (pad_idx pads' s' idx') else None
  | _, _, _ => Some []
  end.
Fixpoint pad_shape (pads : list (nat * nat)) (s : list nat) : list nat :=
  match pads, s with p :: pads', d :: s' => (fst p + d + snd p)%nat :: pad_shape pads' s' | _, _ => [] end.
Definition zero_pad (pads : list (nat * nat)) (a : nd) : nd :=
  Nd (pad_shape pads (shp a)) (fun idx => match pad_idx pads (shp a) idx with Some i => at_ a i | None => 0 end).
(* tf.reverse, torch.flip *)
Fixpoint flip_idx (k : nat) (axes s idx : list nat) : list nat :=
  match s, idx with d :: s', i :: idx' => (if memb k axes then d - 1 - i else i)%nat :: flip_idx (S k) axes s' idx' | _, _ => [] end.
Definition flip (axes : list nat) (a : nd) : nd := Nd (shp a) (fun idx => at_ a (flip_idx 0 axes (shp a) idx)).
(* tf.nn.conv2d(x, k, strides, 'VALID'): x is batch, height, width, channel; F.conv2d(x, k, stride) without padding: x is
   batch, channel, height, width.  A kernel larger than the input raises. *)
Definition conv_nhwc (s : nat * nat) (x k : nd) : result nd :=
  match shp x, shp k with
  | [n; h; w; c], [kh; kw; c'; o] =>
      if Nat.eqb c c' && Nat.leb kh h && Nat.leb kw w then
        Ok (Nd [n; ((h - kh) / fst s + 1)%nat; ((w - kw) / snd s + 1)%nat; o]
              (fun idx => match idx with
                          | [b; y; z; f] => rsum kh (fun i => rsum kw (fun j => rsum c (fun m => at_ x [b; y * fst s + i; z * snd s + j; m]%nat * at_ k [i; j; m; f])))
                          | _ => 0 end))
      else Err E_value
  | _, _ => Err E_value
  end.
Definition conv_nchw (s : nat * nat) (x k : nd) : result nd :=
  match shp x, shp k with
  | [n; c; h; w], [o; c'; kh; kw] =>
      if Nat.eqb c c' && Nat.leb kh h && Nat.leb kw w then
        Ok (Nd [n; o; ((h - kh) / fst s + 1)%nat; ((w - kw) / snd s + 1)%nat]
              (fun idx => match idx with
                          | [b; f; y; z] => rsum kh (fun i => rsum kw (fun j => rsum c (fun m => at_ x [b; m; y * fst s + i; z * snd s + j]%nat * at_ k [f; m; i; j])))
                          | _ => 0 end))
      else Err E_runtime
  | _, _ => Err E_runtime
  end.
(* (1, n) times (n, m); (m, n) times (n) *)
Definition row_mul (a b : nd) : result nd :=
  match shp a, shp b with
  | [r; n], [n'; m] => if Nat.eqb n n' then Ok (Nd [r; m] (fun idx => rsum n (fun i => at_ a [nth 0 idx 0; i]%nat * at_ b [i; nth 1 idx 0]%nat))) else Err E_value
  | _, _ => Err E_value
  end.
Definition mat_vec (a v : nd) : result nd :=
  match shp a, shp v with
  | [m; n], [n'] => if Nat.eqb n n' then Ok (Nd [m] (fun idx => rsum n (fun i => at_ a [nth 0 idx 0; i]%nat * at_ v [i]))) else Err E_runtime
  | _, _ => Err E_runtime
  end.
(* tf.squeeze: all axes of one entry are dropped *)
Definition squeeze (a : nd) : nd := reshape_to a (filter (fun d => negb (Nat.eqb d 1)) (shp a)).

(* ceil and floor of (2k - 2) / 2 *)
Definition pads (k : nat) : nat * nat := let x := (2 * k - 1)%nat in (((x - 1) + 1) / 2, (x - 1) / 2)%nat.
(* b=k2*b1+b2 *)
Definition plus_bias (b : option nd) (b2 : option nd) : result (option nd) :=
  match b, b2 with
  | Some x, Some y => let! s := bop Rplus x y in Ok (Some s)
  | Some x, None => Ok (Some x)
  | None, _ => Ok b2
  end.
(* keras L61-105 *)
Definition keras_collapse (l1 l2 : lin) : result (nd * option nd) :=
  match shp (l_kernel l1), shp (l_kernel l2) with
  | [h1; w1; c1; _], [h2; w2; _; _] =>
      let x := zero_pad [(0%nat, 0%nat); pads (h1 + h2 - 1); pads (w1 + w2 - 1); (0%nat, 0%nat)] (reshape_to (eye c1) [c1; 1; 1; c1]%nat) in
      let! y := conv_nhwc (l_stride l1) x (l_kernel l1) in
      let! y := conv_nhwc (l_stride l2) y (l_kernel l2) in
      let k := transpose [1; 2; 0; 3]%nat (flip [1; 2]%nat y) in
      let! b := match l_bias l1 with
                | Some b1 => let! r := reshape b1 [Some 1%nat; None] in
                             let! m := row_mul r (nsum [0; 1]%nat (l_kernel l2)) in Ok (Some (squeeze m))
                | None => Ok None
                end in
      let! b := plus_bias b (l_bias l2) in
      Ok (k, b)
  | _, _ => Err E_index
  end.
(* pytorch L56-102; F.pad takes the last axis first *)
Definition torch_collapse (l1 l2 : lin) : result (nd * option nd) :=
  match shp (l_kernel l1), shp (l_kernel l2) with
  | [_; c1; h1; w1], [_; _; h2; w2] =>
      let x := zero_pad [(0%nat, 0%nat); (0%nat, 0%nat); pads (w1 + w2 - 1); pads (h1 + h2 - 1)] (reshape_to (eye c1) [c1; c1; 1; 1]%nat) in
      let! y := conv_nchw (l_stride l1) x (l_kernel l1) in
      let! y := conv_nchw (l_stride l2) y (l_kernel l2) in
      let k := transpose [1; 0; 2; 3]%nat (flip [3; 2]%nat y) in
      let! b := match l_bias l1 with
                | Some b1 => let! m := mat_vec (nsum [2; 3]%nat (l_kernel l2)) b1 in Ok (Some m)
                | None => Ok None
                end in
      let! b := plus_bias b (l_bias l2) in
      Ok (k, b)
  | _, _ => Err E_index
  end.
Definition pair_eqb (a b : nat * nat) : bool := Nat.eqb (fst a) (fst b) && Nat.eqb (snd a) (snd b).
(* linear_collapsing.py L123-136; the attribute kernel_size is the size of the kernel *)
Definition collapsible (l1 l2 : lin) : bool :=
  pair_eqb (ksize l2) (1, 1)%nat && pair_eqb (l_stride l1) (1, 1)%nat && pair_eqb (l_stride l2) (1, 1)%nat &&
  pair_eqb (l_dil l1) (1, 1)%nat && pair_eqb (l_dil l2) (1, 1)%nat && Nat.eqb (l_groups l1) 1 && Nat.eqb (l_groups l2) 1 &&
  match l_pad l2 with P_num a b => pair_eqb (a, b) (0, 0)%nat | _ => true end.
(* L131-163; None: the graph is left as it is.  The new node is a copy of the first with the filters of the second *)
Definition collapse_convs (l1 l2 : lin) : result (option lin) :=
  if negb (collapsible l1 l2) then Ok None else
  let! kb := match l_kind l1, l_kind l2 with
             | K_conv, K_conv => keras_collapse l1 l2
             | T_conv, T_conv => torch_collapse l1 l2
             | _, _ => Err E_critical
             end in
  let '(k, b) := kb in
  if Nat.ltb (prod (shp (l_kernel l1)) + prod (shp (l_kernel l2))) (prod (shp k)) then Ok None else
  Ok (Some (Lin (l_kind l1) k b (match b with Some _ => true | None => false end) (l_groups l1) (l_in l1) (l_out l2) (l_stride l1) (l_dil l1) (l_pad l1))).

(* keras L147-170 and linear_collapsing.py L238-246: the constant of the addition, or None *)
Definition collapse_const (l : lin) (const : option nd) : result lin :=
  match const with
  | None => Err E_critical
  | Some c => let! b := match l_bias l with None => Ok c | Some b => bop Rplus c b end in
              Ok (set_weights l (l_kernel l) (Some b) true)
  end.

(* residual_collapsing.py L52-63 (keras), L49-59 (pytorch): IndexError unless the kernel has an entry (.., i, i) for every output channel *)
Definition add_one (a : nd) (at_idx : list nat -> bool) : nd := Nd (shp a) (fun idx => if at_idx idx then at_ a idx + 1 else at_ a idx).
Definition collapse_residual (l : lin) : result lin :=
  match l_kind l, shp (l_kernel l) with
  | K_conv, [kh; kw; cin; cout] =>
      if Nat.ltb cin cout || Nat.eqb kh 0 || Nat.eqb kw 0 then Err E_index else
      Ok (set_kernel l (add_one (l_kernel l) (fun idx => match idx with
        | [h; w; i; o] => Nat.eqb h ((kh - 1) / 2) && Nat.eqb w ((kw - 1) / 2) && Nat.eqb i o | _ => false end)))
  | T_conv, [cout; cin; kh; kw] =>
      if Nat.ltb cin cout || Nat.eqb kh 0 || Nat.eqb kw 0 then Err E_index else
      Ok (set_kernel l (add_one (l_kernel l) (fun idx => match idx with
        | [o; i; h; w] => Nat.eqb h ((kh - 1) / 2) && Nat.eqb w ((kw - 1) / 2) && Nat.eqb i o | _ => false end)))
  | _, _ => Err E_critical
  end.
