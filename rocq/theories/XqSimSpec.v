(* XqSimSpec.v -- what C96 is stated with. *)
From Coq Require Import List Arith Reals String Bool.
From Verif Require Import Base XqSimModel.
Import ListNotations.
Open Scope R_scope.

(* the layers of the quantized model with a counterpart in the float model *)
Definition matched_layers (quant_points float_layers : list string) (float_of : string -> string) : list string :=
  filter (fun q => existsb (String.eqb (float_of q)) float_layers) quant_points.
(* the metrics of every report: the mean squared error, the cosine similarity, the signal to noise ratio *)
Definition standard (fw : framework) (k : string) (f : metric) : Prop :=
  (k = "mse"%string /\ f = mse) \/ (k = "cs"%string /\ f = match fw with Torch => cs_torch | Keras => cs_keras end) \/ (k = "sqnr"%string /\ f = sqnr).
(* the metric under a name: the custom one if there is one, else the default one *)
Definition metric_named (fw : framework) (custom : dict metric) (k : string) (f : metric) : Prop :=
  In (k, f) custom \/ ~ In k (map fst custom) /\ standard fw k f.
(* d has exactly the names of the metrics, each once, with the average over the batches of the metric of what a and b give *)
Definition report_of {X} (fw : framework) (custom : dict metric) (data : list X) (a b : X -> tensor) (d : dict R) : Prop :=
  NoDup (map fst d) /\ (forall k, In k (map fst d) <-> exists f, metric_named fw custom k f) /\
  forall k r, In (k, r) d -> exists f, metric_named fw custom k f /\ r = mean (map (fun x => f (a x) (b x)) data).
(* two tensors with the same number of values, at least one *)
Definition comparable (x y : tensor) : Prop := List.length (concat x) = List.length (concat y) /\ concat x <> [].
Definition nonzero (x : tensor) : Prop := exists v, In v (concat x) /\ v <> 0.
