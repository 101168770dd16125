(* KLProps.v -- C12: KL error of threshold selection *)
From Verif Require Import Base RoundQ QuantModel SearchModel KLModel KLProofs KLReal.
From Coq Require Import Reals Qreals Lqa.
Open Scope Q_scope.

(* moving outliers into the edge bins keeps the total count and the number of bins *)
Theorem clipped_counts_conserve_total : forall counts first last acc,
  (first <= last)%nat ->
  compute_clipped_counts counts (slice counts first last) first last = Ok acc ->
  sumQ acc == sumQ counts /\ length acc = length (slice counts first last).
Proof. exact clipped_counts_lem. Qed.
Print Assumptions clipped_counts_conserve_total.

(* smoothing: succeeds on every non-negative histogram with a positive entry; positive, same total *)
Theorem smooth_distribution_positive : forall p, (forall x, In x p -> 0 <= x) -> (exists x, In x p /\ 0 < x) ->
  exists h, smooth_distribution p = Ok h /\ length h = length p /\ sumQ h == sumQ p /\ (forall y, In y h -> 0 < y).
Proof. exact smooth_lem. Qed.
Print Assumptions smooth_distribution_positive.

Theorem smooth_distribution_rejects_zero : forall p, (forall x, In x p -> x == 0) -> smooth_distribution p = Err E_value.
Proof. exact smooth_zero_lem. Qed.
Print Assumptions smooth_distribution_rejects_zero.

(* the whole error: no assertion fails on any valid histogram and range, and the two distributions it compares
   are strictly positive, of equal length and of total one *)
Theorem kl_error_well_defined : forall q_bins bins counts a b,
  nondecreasing bins -> length bins = S (length counts) -> length q_bins = length bins ->
  (forall c, In c counts -> 0 <= c) -> a < b ->
  exists r, kl_error_histogram q_bins bins counts a b = Ok r /\
    forall p q, r = KL_pair p q -> length p = length q /\ p <> [] /\ distribution p /\ distribution q.
Proof. exact kl_lem. Qed.
Print Assumptions kl_error_well_defined.

(* hence the reported divergence is never negative *)
Theorem kl_error_nonneg : forall p q, length p = length q -> distribution p -> distribution q -> (0 <= kl_value p q)%R.
Proof. exact kl_nonneg_lem. Qed.
Print Assumptions kl_error_nonneg.

(* finding: a range narrower than one bin gets error 0, the least possible value, although it clips
   nearly the whole histogram *)
Theorem kl_degenerate_range_refuted : exists bins counts a b,
  a < b /\ kl_error_histogram bins bins counts a b = Ok KL_zero /\
  sumQ (skipn 1 counts) == 10 /\ sumQ counts == 11 /\ (forall x, nth_error bins 1 = Some x -> b < x).
Proof.
  exists [0; 1; 2; 3], [1; 5; 5], 0, (1#2). split; [reflexivity|]. split; [vm_compute; reflexivity|].
  split; [vm_compute; reflexivity|]. split; [vm_compute; reflexivity|].
  intros x H. cbn in H. inversion H. reflexivity.
Qed.
Print Assumptions kl_degenerate_range_refuted.

Example kl_ex : match kl_error_histogram [0; 0; 2; 2; 4] [0; 1; 2; 3; 4] [1; 0; 2; 3] 0 3 with
                | Ok (KL_pair p q) => Nat.eqb (length p) 2 | _ => false end = true.
Proof. vm_compute. reflexivity. Qed.
