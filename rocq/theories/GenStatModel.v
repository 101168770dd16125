(* GenStatModel.v -- C90: the statistics and the batch-normalization loss of data generation.
   Model of data_generation/common/optimization_utils.py, data_generation/{pytorch,keras}/optimization_utils.py (the statistics
   holders, get_layer_accumulated_stats, compute_bn_loss, update_statistics), the loops of *_data_generation.py,
   batchnorm_alignment_functions.py, bn_layer_weighting_functions.py and the original statistics of model_info_exctractors.py.
   Arithmetic is real: half precision (autocast, clip_inf_values_float16) is not modelled.  A network is given by the values
   each batch-normalization layer is fed with for an image, per channel; the image itself is the key K_image.  The image
   pipeline and the optimizer are arbitrary functions.  Every listed layer takes part in the forward pass, so its
   activations are present (pytorch L354).  The output loss and the gradients are not modelled. *)
From Coq Require Import Reals Lra Lia List.
From Verif Require Import Nd.
From Verif Require Import Base GenModel.
Import ListNotations.
Open Scope R_scope.
Open Scope res_scope.

Inductive gran := AllImages | BatchWise | ImageWise.
Inductive key := K_image | K_bn (i : nat).
(* the number of batch-normalization layers; the channels of each key; the values fed in for an image, per channel *)
Record net := Net { n_bn : nat; n_ch : key -> nat; n_act : key -> nd -> nat -> list R }.
(* running mean and variance of each layer, per channel *)
Definition running := nat -> nat -> R * R.

(* pytorch model_info_exctractors.py L59-70: the image counts as a layer of mean 0 and deviation 1; keras L57-64 *)
Definition orig_keys (f : gfw) (N : net) : list key :=
  match f with GTorch => K_image :: map K_bn (seq 0 (n_bn N)) | GKeras => map K_bn (seq 0 (n_bn N)) end.
(* common/model_info_exctractors.py L37-38, pytorch_data_generation.py L227-229 *)
Definition has_layers (f : gfw) (N : net) : result unit := match orig_keys f N with [] => Err E_critical | _ => Ok tt end.
Definition eps : R := / 1000000.
(* the mean and the deviation the loss compares with: pytorch L61-69; keras L61-63 with optimization_utils.py L201-213 *)
Definition orig_mean (ru : running) (k : key) (c : nat) : R := match k with K_image => 0 | K_bn i => fst (ru i c) end.
Definition orig_std (f : gfw) (ru : running) (k : key) (c : nat) : R :=
  match k, f with
  | K_image, _ => 1
  | K_bn i, GTorch => sqrt (snd (ru i c))
  | K_bn i, GKeras => sqrt (snd (ru i c) + eps)
  end.
(* bn_mean.size(0), which is 1 for the image of shape (1, 3) in PyTorch *)
Definition divisor (N : net) (k : key) : R := match k with K_image => 1 | _ => INR (n_ch N k) end.

Definition mean (l : list R) : R := fold_right Rplus 0 l / INR (length l).
(* pytorch L345-346, L358-359: mean and mean of squares; keras L394, L400 (tf.nn.moments): mean and variance, kept under the
   name second moment *)
Definition second (f : gfw) (l : list R) : R :=
  match f with GTorch => mean (map (fun x => x ^ 2) l) | GKeras => mean (map (fun x => (x - mean l) ^ 2) l) end.
(* the variance recovered from what is stored: pytorch L297-311, L160; keras L213-214 *)
Definition var_of (f : gfw) (m s : R) : R := match f with GTorch => s - m ^ 2 | GKeras => s end.
Definition values (N : net) (k : key) (imgs : list nd) (c : nat) : list R := concat (map (fun im => n_act N k im c) imgs).
(* one row per image (mean over rows and columns), or one row for the whole batch: pytorch L102-106 *)
Definition rows_of (gr : gran) (imgs : list nd) : list (list nd) := match gr with ImageWise => map (fun im => [im]) imgs | _ => [imgs] end.
(* per key and row, per channel: the stored pair *)
Definition stat := key -> list (nat -> R * R).
(* pytorch L329-360, keras L380-404: the image statistics come from the images given, those of the layers from the
   activations of the last forward pass *)
Definition calc (f : gfw) (gr : gran) (N : net) (imgs last : list nd) : stat :=
  fun k => map (fun grp c => let l := values N k grp c in (mean l, second f l)) (rows_of gr (match k with K_image => imgs | K_bn _ => last end)).

Record gs := Gs { b_imgs : nat -> list nd; b_stat : nat -> stat; b_last : list nd }.
Definition put {A} (j : nat) (v : A) (f : nat -> A) : nat -> A := fun i => if Nat.eqb i j then v else f i.
(* a step: the batch, what the pipeline feeds to the model (image_input_manipulation), the optimized images *)
Record gstep := GStep { s_batch : nat; s_aug : nd -> nd; s_new : list nd }.
Section Run.
  Variables (f : gfw) (gr : gran) (N : net) (nb : nat) (fin : nd -> nd).
  (* pytorch L130-138, keras L119-125: only with AllImages; the forward pass of the last batch is the last one *)
  Definition empty_stat : stat := fun _ => [].
  Definition start (init : nat -> list nd) : gs :=
    match gr with
    | AllImages => Gs init (fun i => calc f gr N (map fin (init i)) (map fin (init i))) (map fin (init (nb - 1)%nat))
    | _ => Gs init (fun _ => empty_stat) []
    end.
  (* pytorch_data_generation.py L316-332, compute_bn_loss L180-183: forward pass, then the statistics of the batch *)
  Definition before_loss (s : gs) (j : nat) (aug : nd -> nd) : gs :=
    let inp := map aug (b_imgs s j) in Gs (b_imgs s) (put j (calc f gr N inp inp) (b_stat s)) inp.
  (* pytorch_data_generation.py L343-352, keras_data_generation.py L257-269: the images change; with AllImages the statistics
     of the batch are taken again, without another forward pass *)
  Definition after_loss (s : gs) (j : nat) (new : list nd) : gs :=
    let imgs := put j new (b_imgs s) in
    match gr with
    | AllImages => Gs imgs (put j (calc f gr N (map fin new) (b_last s)) (b_stat s)) (b_last s)
    | _ => Gs imgs (b_stat s) (b_last s)
    end.
  Definition one_step (s : gs) (u : gstep) : gs := after_loss (before_loss s (s_batch u) (s_aug u)) (s_batch u) (s_new u).
  (* pytorch L140-162, keras L147-167: the stored pairs, averaged over the batches *)
  Definition accumulated (s : gs) (k : key) : list (nat -> R * R) :=
    [fun c => (rsum nb (fun i => fst (hd (fun _ => (0, 0)) (b_stat s i k) c)) / INR nb,
               rsum nb (fun i => snd (hd (fun _ => (0, 0)) (b_stat s i k) c)) / INR nb)].
  Definition used (s : gs) (j : nat) (k : key) : list (nat -> R * R) := match gr with AllImages => accumulated s k | _ => b_stat s j k end.
  (* batchnorm_alignment_functions.py: squared distances over the number of channels; the sum over the rows is what PyTorch
     returns and what the gradient of the Keras vector is taken of *)
  Definition align (ru : running) (k : key) (row : nat -> R * R) : R :=
    rsum (n_ch N k) (fun c => (fst (row c) - orig_mean ru k c) ^ 2) / divisor N k +
    rsum (n_ch N k) (fun c => (sqrt (var_of f (fst (row c)) (snd (row c)) + eps) - orig_std f ru k c) ^ 2) / divisor N k.
  (* common/optimization_utils.py L185-212, keras L194-220 *)
  Definition bn_loss (ru : running) (weight : key -> R) (s : gs) (j : nat) : R :=
    fold_right Rplus 0 (map (fun k => weight k * fold_right Rplus 0 (map (align ru k) (used s j k))) (orig_keys f N)).
  (* the loss of a step after others *)
  Definition loss_after (ru : running) (weight : key -> R) (init : nat -> list nd) (hist : list gstep) (j : nat) (aug : nd -> nd) : R :=
    bn_loss ru weight (before_loss (fold_left one_step hist (start init)) j aug) j.
End Run.
(* bn_layer_weighting_functions.py: average (L24-41, L22-39) and first layer times ten (pytorch L43-61, keras L42-61) *)
Definition average_weight (f : gfw) (N : net) : key -> R := fun _ => 1 / INR (length (orig_keys f N)).
Definition key_eqb (a b : key) : bool := match a, b with K_image, K_image => true | K_bn i, K_bn j => Nat.eqb i j | _, _ => false end.
Definition first_weight (f : gfw) (N : net) : key -> R := fun k =>
  let first := match orig_keys f N with x :: _ => key_eqb k x | [] => false end in
  match f with
  | GTorch => if first then 10 else 1
  | GKeras => if first then 10 / INR (length (orig_keys f N)) else 1 / INR (length (orig_keys f N))
  end.
