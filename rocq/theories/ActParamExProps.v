(* ActParamExProps.v -- C70: instances and findings *)
From Coq Require Import Lia Reals Qreals Qabs.
From Coq Require Import Lqa.
From Verif Require Import Base RoundQ QuantModel SearchModel CollectModel CollectSpec ActParamModel ActParamSpec ActParamProofs ActParamProps.
Open Scope Q_scope.

Definition ex_search (m : act_method) (e : err_method) (b c : list Q) (n : Z) (t : Q) (s : bool) : result act_params := Ok (AP_threshold t s).
Example ex_search_keeps : keeps_sign ex_search.
Proof. intros m e b c n t s r H. injection H as <-. reflexivity. Qed.
Definition ex_cfg (m : act_method) (e : err_method) (s : signedness) (z : option Q) : actcfg :=
  {| ac_method := m; ac_fn := initial_fn m; ac_bits := 8; ac_err := e; ac_sign := s; ac_z := z; ac_min_th := 1#100 |}.
Definition no_prior : prior := {| pr_min := None; pr_max := None |}.
Definition ex_mm (lo hi : Q) : minmax := {| mm_state := Some ([hi], [lo]); mm_init_min := None; mm_init_max := None; mm_ignore_init := false |}.

(* a far bin is cleared, the others are kept *)
Example far_bin_cleared :
  z_score_filter (Some 2) [0; 1; 10; 11] [4; 4; 1] = Ok [4; 4; 0] /\
  Forall (fun c => 0 <= c) [4; 4; 1] /\ 0 < sumQ [4; 4; 1].
Proof. split; [reflexivity|]. split; [repeat constructor; lra|reflexivity]. Qed.

(* batches without negative values, none constant: unsigned, and the uniform range holds them *)
Definition ex_hist (xs : list (list Q)) : result histc := foldM h_update xs (h_new 2).
Example unsigned_instance : exists h c' r,
  ex_hist [[1; 3]; [0; 2]] = Ok h /\
  get_activations_qparams ex_search (ex_cfg AM_uni EM_noclip SG_auto None) no_prior (SC_stats h h (ex_mm 0 3)) = Ok (c', r) /\
  signed_of r = false /\ (forall v, In v [1; 3; 0; 2] -> in_range r v) /\ Forall (fun x => ~ constant x) [[1; 3]; [0; 2]].
Proof.
  eexists _, _, (AP_range (0#16) (48#16) false). split; [reflexivity|]. split; [vm_compute; reflexivity|]. split; [reflexivity|]. split.
  - intros v [<-|[<-|[<-|[<-|[]]]]]; cbn; unfold Qle; cbn; lia.
  - constructor; [|constructor; [|constructor]]; intros [c Hc].
    + pose proof (Hc 1 (or_introl eq_refl)). pose proof (Hc 3 (or_intror (or_introl eq_refl))). lra.
    + pose proof (Hc 0 (or_introl eq_refl)). pose proof (Hc 2 (or_intror (or_introl eq_refl))). lra.
Qed.

(* a batch with a negative value: signed *)
Example signed_instance : exists h c' r,
  ex_hist [[-1#1; 3]; [0; 2]] = Ok h /\
  get_activations_qparams ex_search (ex_cfg AM_pot EM_noclip SG_auto None) no_prior (SC_stats h h (ex_mm (-1) 3)) = Ok (c', r) /\ r = AP_threshold 4 true.
Proof. eexists _, _, (AP_threshold 4 true). split; [reflexivity|]. split; [vm_compute; reflexivity|reflexivity]. Qed.

(* a bounded node (a ReLU6): the parameters are those of [0, 6] although only [1, 2] was observed *)
Example bounded_instance : exists h c' ,
  ex_hist [[1; 2]] = Ok h /\
  let m := {| mm_state := Some ([2], [1]); mm_init_min := Some 0; mm_init_max := Some 6; mm_ignore_init := false |} in
  get_activations_qparams ex_search (ex_cfg AM_pot (EM_search 0) SG_auto None) {| pr_min := Some 0; pr_max := Some 6 |} (SC_stats h h m) = Ok (c', AP_threshold 8 false).
Proof. eexists _, _. split; [reflexivity|vm_compute; reflexivity]. Qed.

(* FINDING (outlier_filter.py L45): a z_threshold below 1 may mark every bin as an outlier; the parameter selection
   then fails on an empty array (ValueError). *)
Theorem low_threshold_removes_everything_refuted : exists z h,
  0 < z < 1 /\ ex_hist [[-1#1; 1]] = Ok h /\
  get_activations_qparams ex_search (ex_cfg AM_pot EM_noclip SG_signed (Some z)) no_prior (SC_stats h h (ex_mm (-1) 1)) = Err E_value.
Proof. exists (1#2). eexists. split; [split; reflexivity|]. split; [reflexivity|vm_compute; reflexivity]. Qed.
Print Assumptions low_threshold_removes_everything_refuted.

(* FINDING (qparams_activations_computation.py L83 with histogram_collector.py L150-159): a constant batch is
   given the range value -+ 0.5, so a batch of zeros extends the histogram below zero; after merging with another
   batch part of its weight lies in a bin with a negative left edge, and an activation that was never negative gets
   signed parameters. *)
Theorem constant_batch_signed_refuted : exists xs h c' r,
  (forall v, In v (concat xs) -> 0 <= v) /\ ex_hist xs = Ok h /\
  get_activations_qparams ex_search (ex_cfg AM_pot EM_noclip SG_auto None) no_prior (SC_stats h h (ex_mm 0 6)) = Ok (c', r) /\ signed_of r = true.
Proof.
  exists [[0; 0]; [0; 6]]. eexists _, _, (AP_threshold 8 true). split; [|split; [reflexivity|split; [vm_compute; reflexivity|reflexivity]]].
  intros v [<-|[<-|[<-|[<-|[]]]]]; lra.
Qed.
Print Assumptions constant_batch_signed_refuted.

(* FINDING (symmetric_selection.py L131, power_of_two_selection.py L131): "no clipping" looks at the right edges of
   the non-empty bins only, so the most negative values fall outside the range. *)
Theorem negative_side_clipped_refuted : exists xs h c' r v,
  ex_hist xs = Ok h /\
  get_activations_qparams ex_search (ex_cfg AM_sym EM_noclip SG_auto None) no_prior (SC_stats h h (ex_mm (-4) 0)) = Ok (c', r) /\
  In v (concat xs) /\ ~ in_range r v.
Proof.
  exists [[-4#1; 0]]. eexists _, _, (AP_threshold (32#16) true), (-4#1). split; [reflexivity|]. split; [vm_compute; reflexivity|]. split; [left; reflexivity|].
  cbn. intros [H _]. apply Qle_bool_iff in H. cbn in H. discriminate.
Qed.
Print Assumptions negative_side_clipped_refuted.
