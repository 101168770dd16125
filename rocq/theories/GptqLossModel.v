(* GptqLossModel.v -- C91: the loss GPTQ training minimizes and the weights of the layers in it.
   Model of gptq/{pytorch,keras}/gptq_loss.py, of compute_hessian_based_weights in gptq/common/gptq_training.py,
   normalize_scores in core/common/hessian/hessian_info_utils.py and the loss weights prepared by
   _prepare_train_dataloader_for_non_sla in gptq/{pytorch,keras}/gptq_training.py.
   Arithmetic is real; Err E_zero_div stands for a value that is nan or infinite.  The output of a layer in the two models has
   the same shape.  Gradients and optimizers are not modelled; the regularization is in SoftRoundModel.v. *)
From Coq Require Import Reals Lra Lia List.
From Verif Require Import Nd.
From Verif Require Import Base.
Import ListNotations.
Open Scope R_scope.
Open Scope res_scope.

(* the elements of a tensor, their sum and their mean: torch.mean, tf.reduce_sum, tf.reduce_mean without an axis *)
Definition el (a : nd) (k : nat) : R := at_ a (unflat (shp a) k).
Definition total (a : nd) : R := rsum (prod (shp a)) (el a).
Definition nmean (a : nd) : R := total a / INR (prod (shp a)).
Definition fdiv (a b : R) : result R := if Req_EM_T b 0 then Err E_zero_div else Ok (a / b).
Definition sqdiff (y x : nd) : nd := Nd (shp x) (fun i => (at_ y i - at_ x i) ^ 2).

(* pytorch/gptq_loss.py L20-31 *)
Definition torch_mse (normalized : bool) (y x : nd) : result R :=
  let loss := nmean (sqdiff x y) in if normalized then fdiv loss (nmean (nmap (fun v => v ^ 2) x)) else Ok loss.
(* keras/gptq_loss.py L20-32: the flag chooses the other way round *)
Definition keras_mse (normalized : bool) (y x : nd) : result R :=
  let loss := nmean (sqdiff y x) in if normalized then Ok loss else fdiv loss (nmean (nmap (fun v => v ^ 2) x)).
(* keras/gptq_loss.py L104-120 with p = 2 *)
Definition keras_mse_per_tensor (normalized : bool) (y x : nd) : result R :=
  let loss := nmean (sqdiff y x) in if normalized then fdiv loss (nmean (nmap (fun v => v ^ 2) x)) else Ok loss.

(* the loss functions: pytorch multiple_tensors_mse_loss (the default), keras multiple_tensors_mse_loss, keras
   GPTQMultipleTensorsLoss(norm_loss) (the default with False) *)
Inductive lossfn := L_torch | L_keras_list | L_keras_default (norm_loss : bool).
Definition point_loss (f : lossfn) (y x : nd) : result R :=
  match f with
  | L_torch => torch_mse true y x
  | L_keras_list => keras_mse true y x
  | L_keras_default norm => keras_mse_per_tensor norm y x
  end.
(* torch.stack, tf.stack of scalars: no tensors cannot be stacked *)
Definition stack (l : list R) : result nd :=
  match l with [] => Err E_runtime | _ => Ok (Nd [length l] (fun i => nth (hd 0%nat i) l 0)) end.
(* pytorch L34-65, keras L35-67, L123-150: outputs of the quantized and of the float model, layer by layer *)
Definition multi_loss (f : lossfn) (ps : list (nd * nd)) (w : option nd) : result R :=
  let! ls := mapM (fun p => point_loss f (fst p) (snd p)) ps in
  let! v := stack ls in
  match w with
  | Some w => let! p := bop Rmult w v in Ok (match f with L_torch => nmean p | _ => total p end)
  | None => Ok (nmean v)
  end.

(* pytorch L68-99, keras L69-101: the squared difference summed over axis 1, then the mean over all but the batch; outputs have
   at least two axes *)
Definition norm_of (y x : nd) : nd :=
  let s := nsum [1%nat] (sqdiff y x) in
  match shp s with
  | b :: _ :: _ => Nd [b] (fun i => rsum (prod (tl (shp s))) (fun k => at_ s (hd 0%nat i :: unflat (tl (shp s)) k)) / INR (prod (tl (shp s))))
  | _ => s
  end.
Definition vmean (n : nat) (v : nat -> R) : R := rsum n v / INR n.
Fixpoint rmax (x : R) (l : list R) : R := match l with [] => x | y :: r => rmax (Rmax x y) r end.
(* w: samples x layers *)
Definition sla_loss (ps : list (nd * nd)) (B : nat) (w : nat -> nat -> R) : result R :=
  let terms := map (fun ip => let nrm := norm_of (fst (snd ip)) (snd (snd ip)) in vmean B (fun b => w b (fst ip) * at_ nrm [b])) (combine (seq 0 (length ps)) ps) in
  let means := map (fun i => vmean B (fun b => w b i)) (seq 0 (length ps)) in
  match means with [] => Err E_runtime | m :: r => fdiv (fold_left Rplus terms 0) (rmax m r) end.

(* ---- the weights of the layers ---- *)
Record hcfg := HCfg { norm_scores : bool; log_norm : bool; scale_log_norm : bool }.
Definition eps : R := / 100000000.
(* hessian_info_utils.py L31-34 on images x nodes x scores; the divisor is positive as scores are sums of squares *)
Definition normalize (a : nd) : nd :=
  Nd (shp a) (fun i => match i with s :: n :: c => at_ a i / (rsum (nth 1 (shp a) 0%nat) (fun j => at_ a (s :: j :: c)) + eps) | _ => 0 end).
(* np.mean(axis=0) *)
Definition mean0 (a : nd) : nd := Nd (tl (shp a)) (fun i => vmean (hd 0%nat (shp a)) (fun s => at_ a (s :: i))).
(* np.squeeze *)
Fixpoint unsqueeze (s i : list nat) : list nat :=
  match s with
  | [] => []
  | d :: r => if Nat.eqb d 1 then 0%nat :: unsqueeze r i else match i with k :: i' => k :: unsqueeze r i' | [] => 0%nat :: unsqueeze r [] end
  end.
Definition squeeze (a : nd) : nd := Nd (filter (fun d => negb (Nat.eqb d 1)) (shp a)) (fun i => at_ a (unsqueeze (shp a) i)).
(* np.partition(v, 1)[1]: the second entry of the sorted vector; an array without axes is refused *)
Fixpoint insert (x : R) (l : list R) : list R := match l with [] => [x] | y :: r => if Rle_dec x y then x :: l else y :: insert x r end.
Definition sorted (l : list R) : list R := fold_right insert [] l.
Definition entries (a : nd) (n : nat) : list R := map (fun k => at_ a [k]) (seq 0 n).
Definition second_smallest (a : nd) : result R :=
  match shp a with
  | [n] => match sorted (entries a n) with _ :: y :: _ => Ok y | _ => Err E_value end
  | _ => Err E_index
  end.
(* np.log10: of zero it is infinite, of a negative number it is no number *)
Definition log10 (x : R) : result R := if Rlt_dec 0 x then Ok (ln x / ln 10) else Err E_zero_div.
Fixpoint rmin (x : R) (l : list R) : R := match l with [] => x | y :: r => rmin (Rmin x y) r end.
Definition vec (l : list R) : nd := Nd [length l] (fun i => nth (hd 0%nat i) l 0).
(* gptq_training.py L205-229; scores: samples x nodes x 1 (the calculators return one score per sample and add an axis:
   activation_hessian_scores_calculator_{pytorch,keras}.py) *)
Definition hessian_weights (c : hcfg) (scores : nd) : result nd :=
  let m := mean0 (if norm_scores c then normalize scores else scores) in
  if negb (log_norm c) then Ok m
  else
    let v := squeeze m in
    let! y := second_smallest v in
    let! logs := mapM (fun k => log10 (if Req_EM_T (at_ v [k]) 0 then y else at_ v [k])) (seq 0 (hd 0%nat (shp v))) in
    match logs with
    | [] => Err E_value
    | l0 :: r =>
        let lo := rmin l0 r in let hi := rmax l0 r in
        if scale_log_norm c then let! ws := mapM (fun l => fdiv (l - lo) (hi - lo)) logs in Ok (vec ws)
        else Ok (vec (map (fun l => l - lo) logs))
    end.
(* pytorch/gptq_training.py L141, keras/gptq_training.py L180 *)
Definition equal_weights (n : nat) : nd := Nd [n] (fun _ => 1 / INR n).
(* the same weights accompany each sample (IterableSampleWithConstInfoDataset) and the samples of a batch are stacked:
   default_collate in PyTorch, tf.data.Dataset.batch in Keras *)
Definition collate (B : nat) (w : nd) : nd := Nd (B :: shp w) (fun i => at_ w (tl i)).
(* the loss of a training step on a batch of B samples: pytorch/gptq_training.py L268-278, keras L299-307 *)
Definition step_loss (f : lossfn) (B : nat) (ps : list (nd * nd)) (w : nd) : result R := multi_loss f ps (Some (collate B w)).
