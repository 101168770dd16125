(* XqSimModel.v -- C96: the similarity metrics of the explainable quantization report.
   Model of xquant/common/similarity_calculator.py (compute_tensors_similarity L55-70, _get_float_to_quantized_compare_points L72-108,
   compute_similarity_metrics L110-194), xquant/{pytorch,keras}/similarity_functions.py, xquant/common/similarity_functions.py
   (get_default_similarity_metrics L69-80) and the extraction of activations in xquant/{pytorch,keras}/model_analyzer.py.
   Real arithmetic; a tensor is the list of its samples, each the list of its values.  What the two models compute is a function of the
   batch; folding the float model is not part of this model.  The library functions are written from their documentation:
   torch.nn.functional.mse_loss and cosine_similarity (eps = 1e-8), tf.keras.losses.MeanSquaredError and CosineSimilarity (which is the
   negative of the cosine, of vectors scaled with tf.math.l2_normalize, epsilon = 1e-12), keras.Model (a list of one output is unpacked). *)
From Coq Require Import List Arith Reals String Bool.
From Verif Require Import Base.
Import ListNotations.
Open Scope R_scope.
Open Scope res_scope.
Open Scope string_scope.

Definition tensor := list (list R).
Fixpoint sumR (l : list R) : R := match l with [] => 0 | x :: r => x + sumR r end.
Fixpoint zip (f : R -> R -> R) (u v : list R) : list R := match u, v with x :: u, y :: v => f x y :: zip f u v | _, _ => [] end.
Definition dot (u v : list R) : R := sumR (zip Rmult u v).
Definition mean (l : list R) : R := sumR l / INR (List.length l).
(* similarity_functions.py, PyTorch L23-67, Keras L28-75, on flattened tensors *)
Definition sq_err (u v : list R) : list R := zip (fun x y => (x - y) * (x - y)) u v.
Definition mse (x y : tensor) : R := mean (sq_err (concat x) (concat y)).
Definition sqnr (x y : tensor) : R := mean (map (fun v => v * v) (concat x)) / mean (sq_err (concat x) (concat y)).
Definition norm (u : list R) : R := sqrt (dot u u).
Definition cs_torch (x y : tensor) : R := let u := concat x in let v := concat y in dot u v / (Rmax (norm u) (/ 10 ^ 8) * Rmax (norm v) (/ 10 ^ 8)).
Definition l2_normalize (u : list R) : list R := map (fun a => a * / sqrt (Rmax (dot u u) (/ 10 ^ 12))) u.
Definition cs_keras (x y : tensor) : R := - dot (l2_normalize (concat x)) (l2_normalize (concat y)).

Inductive framework := Torch | Keras.
Definition metric := tensor -> tensor -> R.
(* dictionaries in order of insertion *)
Definition dict (A : Type) := list (string * A).
Fixpoint dget {A} (d : dict A) (k : string) : result A := match d with [] => Err E_key | (k', v) :: r => if String.eqb k' k then Ok v else dget r k end.
Fixpoint dset {A} (d : dict A) (k : string) (v : A) : dict A := match d with [] => [(k, v)] | (k', v') :: r => if String.eqb k' k then (k, v) :: r else (k', v') :: dset r k v end.
(* get_default_similarity_metrics *)
Definition default_metrics (fw : framework) : dict metric := [("mse", mse); ("cs", match fw with Torch => cs_torch | Keras => cs_keras end); ("sqnr", sqnr)].
(* similarity_metrics_to_compute, L141-148 *)
Definition metrics_of (fw : framework) (custom : dict metric) : dict metric := fold_left (fun d kv => dset d (fst kv) (snd kv)) custom (default_metrics fw).
(* L55-70 *)
Definition similarity (ms : dict metric) (x y : tensor) : dict R := map (fun kf => (fst kf, snd kf x y)) ms.
(* L72-108; float_of is find_corresponding_float_layer *)
Definition compare_points (quant_points float_layers : list string) (float_of : string -> string) : result (dict string) :=
  foldM (fun d q => let f := float_of q in
    if existsb (String.eqb f) float_layers then (if existsb (String.eqb f) (map fst d) then Err E_critical else Ok (dset d f q)) else Ok d) quant_points [].

Section Calc.
  Variable X : Type.
  (* the outputs of the layers of the two models, and of the models themselves, on a batch *)
  Variables float_layer quant_layer : string -> X -> tensor.
  Variables float_out quant_out : X -> list tensor.
  Definition output_key : string := "model_output_key".
  (* model_analyzer.py: the activations of one model; in PyTorch the hooks of the layers, then the predictions; in Keras a model with
     several outputs, of which .numpy() of the last is taken; for one output the model returns the tensor itself and [-1] its last sample *)
  Definition activations (fw : framework) (layer : string -> X -> tensor) (out : X -> list tensor) (names : list string) (x : X) : result (dict tensor) :=
    let layers := fold_left (fun d n => dset d n (layer n x)) names [] in
    match out x with
    | [o] => Ok (dset layers output_key (match fw, names with Keras, [] => [last o []] | _, _ => o end))
    | _ => match fw with Torch => Err E_type (* the metrics do not take tuples *) | Keras => Err E_attr (* a list has no numpy() *) end
    end.
  Definition append_all (acc : dict (list R)) (res : dict R) : result (dict (list R)) :=
    mapM (fun kl => let! v := dget res (fst kl) in Ok (fst kl, (snd kl ++ [v])%list)) acc.
  (* L160-181: one batch *)
  Definition one_batch (fw : framework) (ms : dict metric) (points : dict string) (acc : dict (list R) * dict (dict (list R))) (x : X) :
    result (dict (list R) * dict (dict (list R))) :=
    let! fa := activations fw float_layer float_out (map fst points) x in
    let! qa := activations fw quant_layer quant_out (map snd points) x in
    let! fo := dget fa output_key in let! qo := dget qa output_key in
    let! out := append_all (fst acc) (similarity ms fo qo) in
    let! inter := foldM (fun inter fq =>
        let! fx := dget fa (fst fq) in let! qx := dget qa (snd fq) in let! d := dget inter (snd fq) in
        let! d := append_all d (similarity ms fx qx) in Ok (dset inter (snd fq) d)) points (snd acc) in
    Ok (out, inter).
  Definition average (e : err) (l : list R) : result R := match l with [] => Err e | _ => Ok (mean l) end.
  Definition averages (e : err) (d : dict (list R)) : result (dict R) := mapM (fun kl => let! v := average e (snd kl) in Ok (fst kl, v)) d.
  (* L140-194 *)
  Definition compute_similarity (fw : framework) (custom : dict metric) (quant_points float_layers : list string) (float_of : string -> string) (data : list X) :
    result (dict R * dict (dict R)) :=
    let ms := metrics_of fw custom in
    let! points := compare_points quant_points float_layers float_of in
    let empty := map (fun kf => (fst kf, [])) ms in
    let! acc := foldM (one_batch fw ms points) data (empty, fold_left (fun d q => dset d q empty) (map snd points) []) in
    let! out := averages E_zero_div (fst acc) in
    let! inter := mapM (fun ld => let! d := averages E_critical (snd ld) in Ok (fst ld, d)) (snd acc) in
    Ok (out, inter).
End Calc.
