(* GenModel.v -- C89: the images data generation returns.
   Model of data_generation/common/image_pipeline.py, data_generation/{pytorch,keras}/image_pipeline.py, image_operations.py,
   optimization_functions/image_initilization.py and the parts of optimization_utils.py and *_data_generation.py that make
   the batches, replace the images and collect the result.  A PyTorch image is an array [channel; row; column], a Keras image
   [row; column; channel].  Arithmetic is real.  The optimizer is arbitrary: each step assigns new values to the images of
   one batch.  The torchvision and TensorFlow operations (Normalize, CenterCrop, conv2d, depthwise_conv2d, TensorArray) are
   written from their documentation.  Negative sizes and crops larger than the image (padded by torchvision) are not
   modelled: sizes are natural numbers, so the image to crop is never smaller.  Statistics and losses are in GenStatModel.v;
   the random flip and crop of the images fed to the model (image_input_manipulation) do not change the images. *)
From Coq Require Import Reals Lra Lia List Bool.
From Verif Require Import Nd.
From Verif Require Import Base.
Import ListNotations.
Open Scope R_scope.
Open Scope res_scope.

Inductive gfw := GTorch | GKeras.
(* common/image_pipeline.py L37-57: an int, a tuple of one or two numbers; anything else is refused *)
Inductive size_arg := Z_int (n : nat) | Z_tuple (l : list nat) | Z_other.
Definition pair_of (a : size_arg) : result (nat * nat) :=
  match a with
  | Z_int n => Ok (n, n)
  | Z_tuple [n] => Ok (n, n)
  | Z_tuple [h; w] => Ok (h, w)
  | _ => Err E_critical
  end.
Inductive pipe := P_identity | P_smooth.
(* pytorch image_pipeline.py L48-55, L111-118; keras L63-70, L131-138 *)
Definition input_size (p : pipe) (out extra : nat * nat) : nat * nat :=
  match p with P_identity => out | P_smooth => (fst out + fst extra, snd out + snd extra)%nat end.
(* pytorch image_initilization.py L103-125: `crop` (32) is added to the size; keras L76-100: the size itself *)
Definition init_shape (f : gfw) (size : nat * nat) : list nat :=
  match f with
  | GTorch => [3; fst size + 32; snd size + 32]%nat
  | GKeras => [fst size; snd size; 3]%nat
  end.
(* pytorch DataLoader(batch_size) L126-129; keras dataset.batch(batch_size) L50: batches in order, the last may be smaller *)
Fixpoint chunks {A} (fuel b : nat) (l : list A) : list (list A) :=
  match fuel with
  | O => []
  | S fu => match l with [] => [] | _ => firstn b l :: chunks fu b (skipn b l) end
  end.
Definition batches {A} (b : nat) (l : list A) : result (list (list A)) :=
  match b with O => Err E_value | S _ => Ok (chunks (length l) b l) end.

(* ---- image operations ---- *)
(* pytorch image_operations.py L101, keras L185: arange(-size // 2 + 1, size // 2 + 1) *)
Definition axis (k i : nat) : R := INR i + 1 - INR ((k + 1) / 2).
(* pytorch L102-103, keras L186-187 *)
Definition raw (k : nat) (sigma : R) (i j : nat) : R := exp (- (axis k i ^ 2 + axis k j ^ 2) / (2 * sigma ^ 2)).
(* pytorch L104, keras L188 *)
Definition kernel (k : nat) (sigma : R) (i j : nat) : R := raw k sigma i j / rsum k (fun i => rsum k (fun j => raw k sigma i j)).
(* an array with a border of p zeros on all sides, positions counted from the border *)
Definition bordered (p h w : nat) (f : nat -> nat -> R) (a b : nat) : R :=
  if Nat.leb p a && Nat.ltb a (p + h) && Nat.leb p b && Nat.ltb b (p + w) then f (a - p)%nat (b - p)%nat else 0.
Definition convolve (k p h w : nat) (sigma : R) (f : nat -> nat -> R) (y x : nat) : R :=
  rsum k (fun i => rsum k (fun j => kernel k sigma i j * bordered p h w f (y + i) (x + j))).
(* pytorch L68-78: conv2d with padding k // 2; keras L162-172: depthwise_conv2d with 'SAME' padding *)
Definition smooth (f : gfw) (k : nat) (sigma : R) (im : nd) : nd :=
  match f, shp im with
  | GTorch, [c; h; w] => Nd [c; h + 2 * (k / 2) + 1 - k; w + 2 * (k / 2) + 1 - k]%nat
      (fun idx => match idx with [c; y; x] => convolve k (k / 2) h w sigma (fun a b => at_ im [c; a; b]) y x | _ => 0 end)
  | GKeras, [h; w; c] => Nd [h; w; c]
      (fun idx => match idx with [y; x; c] => convolve k ((k - 1) / 2) h w sigma (fun a b => at_ im [a; b; c]) y x | _ => 0 end)
  | _, _ => im
  end.
(* torchvision CenterCrop: int(round(d / 2)), halves to the even number; keras image_operations.py L61-62: d // 2 *)
Definition crop_offset (f : gfw) (d : nat) : nat :=
  match f with
  | GTorch => if Nat.even d then d / 2 else if Nat.even (d / 2) then d / 2 else S (d / 2)
  | GKeras => d / 2
  end%nat.
Definition center_crop (f : gfw) (out : nat * nat) (im : nd) : nd :=
  match f, shp im with
  | GTorch, [c; h; w] => Nd [c; fst out; snd out]
      (fun idx => match idx with [c; y; x] => at_ im [c; y + crop_offset f (h - fst out); x + crop_offset f (w - snd out)]%nat | _ => 0 end)
  | GKeras, [h; w; c] => Nd [fst out; snd out; c]
      (fun idx => match idx with [y; x; c] => at_ im [y + crop_offset f (h - fst out); x + crop_offset f (w - snd out); c]%nat | _ => 0 end)
  | _, _ => im
  end.
(* pytorch image_operations.py L26-41, keras L113-132: the 256 pixel values, normalized *)
Definition grid (mean std : R) : list R := map (fun i => (INR i - mean) / std) (seq 0 256).
Definition lmin (l : list R) : R := match l with [] => 0 | x :: r => fold_left Rmin r x end.
Definition lmax (l : list R) : R := match l with [] => 0 | x :: r => fold_left Rmax r x end.
Definition clamp (lo hi x : R) : R := Rmin (Rmax x lo) hi.
Definition norm := nat -> R * R. (* mean and deviation of each of the three channels *)
Definition into_grid (nm : norm) (c : nat) (x : R) : R :=
  let g := grid (fst (nm c)) (snd (nm c)) in clamp (lmin g) (lmax g) x.
(* pytorch image_pipeline.py L154-173: channel i is clipped to the grid of channel i.
   keras image_operations.py L96-110: images[:, i, :, :] of a [batch; row; column; channel] array is row i; rows 0 to 2 are
   written, the other entries of the TensorArray stay unwritten and are stacked as zeros *)
Definition clip_images (f : gfw) (nm : norm) (im : nd) : result nd :=
  match f with
  | GTorch => Ok (Nd (shp im) (fun idx => match idx with c :: _ => into_grid nm c (at_ im idx) | _ => 0 end))
  | GKeras => if Nat.ltb (hd 0%nat (shp im)) 3 then Err E_index else
      Ok (Nd (shp im) (fun idx => match idx with y :: _ => if Nat.ltb y 3 then into_grid nm y (at_ im idx) else 0 | _ => 0 end))
  end.

(* ---- the configuration and the run ---- *)
Record gcfg := GCfg { g_pipe : pipe; g_extra : size_arg; g_clip : bool; g_norm : norm; g_batch : nat; g_k : nat; g_sigma : R }.
(* pytorch image_pipeline.py L69-79, L137-151; keras L53-61, L92-110, L153-164 *)
Definition finalize (f : gfw) (g : gcfg) (out : nat * nat) (im : nd) : result nd :=
  match g_pipe g with
  | P_identity => Ok im
  | P_smooth => let im := center_crop f out (smooth f (g_k g) (g_sigma g) im) in
                if g_clip g then clip_images f (g_norm g) im else Ok im
  end.
(* one optimization step: the batch and the new values of its images, by their place in the batch *)
Definition update := (nat * (nat -> list nat -> R))%type.
Fixpoint assign (p : nat) (v : nat -> list nat -> R) (l : list nd) : list nd :=
  match l with [] => [] | im :: r => Nd (shp im) (v p) :: assign (S p) v r end.
Fixpoint step (j : nat) (v : nat -> list nat -> R) (bs : list (list nd)) : result (list (list nd)) :=
  match bs, j with
  | [], _ => Err E_index
  | b :: r, O => Ok (assign 0 v b :: r)
  | b :: r, S j => let! r := step j v r in Ok (b :: r)
  end.
(* pytorch optimization_utils.py L214-222: torch.split(batch, 1); keras L282: np.split(batch, batch_size), which fails
   unless the batch can be cut in that many equal pieces *)
Definition split_batch (f : gfw) (bsize : nat) (b : list nd) : result (list nd) :=
  match f with
  | GTorch => Ok (map (fun im => Nd (1%nat :: shp im) (fun idx => at_ im (tl idx))) b)
  | GKeras => if Nat.eqb (length b mod bsize) 0 then
      Ok (map (fun im => Nd (1%nat :: shp im) (fun idx => at_ im (tl idx))) b) else Err E_value
  end.
(* the pieces of np.split have length(b) / bsize images each, which is one, as a batch has at most bsize images *)
Fixpoint collect (f : gfw) (g : gcfg) (out : nat * nat) (bs : list (list nd)) : result (list nd) :=
  match bs with
  | [] => Ok []
  | b :: r => let! fb := mapM (finalize f g out) b in
              let! here := split_batch f (g_batch g) fb in
              let! rest := collect f g out r in Ok (here ++ rest)
  end.
(* pytorch_data_generation.py L190-260, L299-362; keras_data_generation.py L166-279; common/data_generation.py L59-121.
   `sample i` are the random values image i starts with; `iters` are the steps of each iteration.  PyTorch reads the last
   loss after the loops (L361) and Keras after each iteration (L271), so without a step there is none. *)
Definition generate (f : gfw) (g : gcfg) (size : size_arg) (n : nat) (sample : nat -> list nat -> R) (iters : list (list update)) : result (list nd) :=
  let! out := pair_of size in
  let! extra := pair_of (g_extra g) in
  let sh := init_shape f (input_size (g_pipe g) out extra) in
  let! bs := batches (g_batch g) (map (fun i => Nd sh (sample i)) (seq 0 n)) in
  if match f with GTorch => match concat iters with [] => true | _ => false end
     | GKeras => existsb (fun it => match it with [] => true | _ => false end) iters end then Err E_runtime else
  let! bs := foldM (fun bs u => step (fst u) (snd u) bs) (concat iters) bs in
  collect f g out bs.
