(* ActParamSpec.v -- weighted samples on the reals, and what a set of activation parameters can represent *)
From Coq Require Import Reals Qreals.
From Verif Require Import Base ActParamModel.

Section RealSample.
  Local Open Scope R_scope.
  (* a sample: values with their weights *)
  Definition rtotal (s : list (R * R)) : R := fold_right (fun p a => snd p + a) 0 s.
  Definition rmean (s : list (R * R)) : R := fold_right (fun p a => fst p * snd p + a) 0 s / rtotal s.
  Definition rstd (s : list (R * R)) : R :=
    sqrt (fold_right (fun p a => (fst p - rmean s) * (fst p - rmean s) * snd p + a) 0 s / rtotal s).
  Definition zscore (s : list (R * R)) (v : R) : R := Rabs (v - rmean s) / rstd s.
  (* the left edges of a histogram weighted by the counts *)
  Definition hsample (bins counts : list Q) : list (R * R) :=
    map (fun p => (Q2R (fst p), Q2R (snd p))) (combine (removelast bins) counts).
End RealSample.

Local Open Scope Q_scope.
Definition signed_of (p : act_params) : bool :=
  match p with AP_threshold _ s | AP_range _ _ s | AP_lut _ _ s => s end.
(* v lies in the closed range of the parameters (up to one step at the upper end of the symmetric ranges) *)
Definition in_range (p : act_params) (v : Q) : Prop :=
  match p with
  | AP_threshold t s | AP_lut _ t s => (if s then - t else 0) <= v <= t
  | AP_range a b _ => a <= v <= b
  end.
Definition constant (x : list Q) : Prop := exists c, forall v, In v x -> v == c.
