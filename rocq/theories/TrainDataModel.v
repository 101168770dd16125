(* TrainDataModel.v -- C92: the batches GPTQ trains on, made of those the user's generator yields.
   Model of core/{pytorch,keras}/data_util.py, of _prepare_train_dataloader_sla and _prepare_train_dataloader_for_non_sla in
   gptq/{pytorch,keras}/gptq_training.py and of get_total_grad_steps in trainable_infrastructure/common/util.py.
   A tensor is the list of its rows; a call of the generator factory yields a finite list of batches, each a list of input
   tensors.  Shuffling is an arbitrary permutation.  Dtypes, devices and the number of workers are not modelled. *)
From Coq Require Import List Arith Lia Reals Permutation.
From Verif Require Import Base GptqLossModel.
Import ListNotations.
Open Scope res_scope.

Inductive dfw := DTorch | DKeras.
Section Data.
  Context {A : Type}.
  (* an input tensor of a batch: its rows; a sample: one row for each input *)
  Definition batch := list (list A).
  Definition sample := list A.
  (* zip of the tensors of a batch: as many samples as the shortest has rows; of no tensors: none *)
  Fixpoint zipn (l : list (list A)) : list (list A) :=
    match l with
    | [] => []
    | [t] => map (fun x => [x]) t
    | t :: r => map (fun p => fst p :: snd p) (combine t (zipn r))
    end.
  (* pytorch L53-56, L87-90, keras L66-69, L97-100: the first batch of a call of the factory, and the number of rows of its first tensor *)
  Definition first_size (g : list batch) : result nat :=
    match g with [] => Err E_runtime | [] :: _ => Err E_index | (t :: _) :: _ => Ok (length t) end.
  (* pytorch L21-36, keras L38-54: sample by sample *)
  Definition flat_gen (g : list batch) : list sample := flat_map zipn g.
  (* FixedDatasetFromGenerator pytorch L92-103, FixedTFDataset keras L102-111 *)
  Fixpoint take_samples (g : list batch) (n : option nat) (acc : list sample) : list sample :=
    match g with
    | [] => acc
    | b :: r => let acc' := acc ++ zipn b in
                match n with
                | Some k => if Nat.leb k (length acc') then firstn k acc' else take_samples r n acc'
                | None => take_samples r n acc'
                end
    end.
  Definition fixed_samples (fw : dfw) (g : list batch) (n : option nat) : result (list sample) :=
    let l := take_samples g n [] in
    match n with
    | Some k => if Nat.ltb (length l) k then Err E_value
                else match fw, l with DKeras, [] => Err E_index | _, _ => Ok l end
    | None => match fw, l with DKeras, [] => Err E_index | _, _ => Ok l end
    end.
End Data.
Arguments batch : clear implicits.
Arguments sample : clear implicits.

(* torch.utils.data.DataLoader(batch_size), tf.data.Dataset.batch: consecutive batches, the last one may be smaller; a batch
   size of zero is refused *)
Fixpoint chunk {X} (fuel B : nat) (l : list X) : list (list X) :=
  match fuel, l with S f, _ :: _ => firstn B l :: chunk f B (skipn B l) | _, _ => [] end.
Definition loader {X} (B : nat) (l : list X) : result (list (list X)) := match B with O => Err E_value | _ => Ok (chunk (length l) B l) end.
(* a loader with shuffle=True visits the elements in the order of a permutation of their positions *)
Definition reorder {X} (perm : list nat) (l : list X) : list X := flat_map (fun i => match nth_error l i with Some x => [x] | None => [] end) perm.

Section Non_sla.
  Context {A W : Type}.
  (* IterableSampleWithConstInfoDataset: pytorch L148-150, keras L178-181 *)
  Definition with_info (l : list (sample A)) (w : W) : list (sample A * W) := map (fun s => (s, w)) l.
  (* pytorch L134-153, keras L171-197: the data of epoch e; the factory is called anew for each pass, the call at the creation
     of the dataset only serves the batch size *)
  Definition epoch (calls : nat -> list (batch A)) (w : W) (e : nat) : result (list (list (sample A * W))) :=
    let! B := first_size (calls 0%nat) in loader B (with_info (flat_gen (calls (S e))) w).
End Non_sla.

Open Scope R_scope.
Section Sla.
  Context {A : Type}.
  (* the scores of a sample: layers x channels (PER_OUTPUT_CHANNEL) *)
  Variable hess : sample A -> list (list R).
  (* pytorch L100-106, keras L115-127: the Hessian loader goes through the fixed samples in order, the scores of its batches are
     joined; per layer: samples x channels *)
  Definition layer_scores (hb : nat) (samples : list (sample A)) (layer : nat) : result (list (list R)) :=
    let! bs := loader hb samples in Ok (concat (map (map (fun s => nth layer (hess s) [])) bs)).
  (* the maximum over the channels: pytorch L109, keras L130-132; no channels are refused *)
  Definition channel_max (l : list R) : result R := match l with [] => Err E_value | x :: r => Ok (rmax x r) end.
  Definition sla_vectors (hb n_layers : nat) (samples : list (sample A)) : result (list (list R)) :=
    mapM (fun layer => let! sc := layer_scores hb samples layer in mapM channel_max sc) (seq 0 n_layers).
  (* pytorch L112-115: the vectors of the layers stacked on axis 1, one row for each sample; keras L135-140, data_util.py L131-160:
     one vector for each layer, sliced together with the samples *)
  Definition info_at (vs : list (list R)) (i : nat) : list R := map (fun v => nth i v 0) vs.
  Definition sla_dataset (fw : dfw) (samples : list (sample A)) (vs : list (list R)) : result (list (sample A * list R)) :=
    match fw with
    | DTorch => let rows := map (info_at vs) (seq 0 (length (hd [] vs))) in
                if Nat.eqb (length rows) (length samples) then Ok (combine samples rows) else Err E_value
    | DKeras => if forallb (fun v => Nat.eqb (length v) (length samples)) vs
                then Ok (map (fun p => (snd p, info_at vs (fst p))) (combine (seq 0 (length samples)) samples)) else Err E_value
    end.
  (* pytorch L117, keras L143 *)
  Definition reg_weights (vs : list (list R)) : list R := map (fun v => vmean (length v) (fun i => nth i v 0)) vs.
  (* pytorch L97-121, keras L111-157; perm: the order of the epoch; an epoch yields the batches, and the regularization weights
     with each of them *)
  Definition sla_epoch (fw : dfw) (calls : nat -> list (batch A)) (hb n_layers : nat) (perm : list nat) : result (list (list (sample A * list R)) * list R) :=
    let! B := first_size (calls 0%nat) in
    let! samples := fixed_samples fw (calls 1%nat) None in
    let! vs := sla_vectors hb n_layers samples in
    let! ds := sla_dataset fw samples vs in
    let! bs := loader B (reorder perm ds) in
    Ok (bs, reg_weights vs).
End Sla.

(* util.py L22-27, gptq/common/gptq_training.py L69-70: the number of steps the annealing of gradual quantization and of the
   regularization reckons with *)
Definition planned_steps {A} (g : list (batch A)) (epochs : nat) : nat := (length g * epochs)%nat.
