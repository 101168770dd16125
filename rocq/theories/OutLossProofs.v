(* OutLossProofs.v -- proofs about the output losses of data generation. *)
From Coq Require Import Reals Lra Lia List Arith.
From Verif Require Import Nd.
From Verif Require Import Base OutLossModel OutLossSpec.
Import ListNotations.
Open Scope R_scope.
Open Scope res_scope.

Lemma eps_pos : 0 < eps. Proof. unfold eps. lra. Qed.
Lemma sum_total l : sum l = total l.
Proof. induction l as [|x l IH]; [reflexivity|]. cbn [sum fold_right total]. unfold sum in IH. rewrite IH. reflexivity. Qed.
Lemma mean_average l : mean l = average l.
Proof. unfold mean, average. rewrite sum_total. reflexivity. Qed.

(* ---- extremes ---- *)
Lemma best_spec (le : R -> R -> Prop) better (B : forall x c, better x c = true -> le c x) (N : forall x c, better x c = false -> le x c)
  (T : forall a b c, le a b -> le b c -> le a c) (I : forall a, le a a) : forall l pre cur,
  nth_error pre (snd cur) = Some (fst cur) -> (forall x, In x pre -> le x (fst cur)) ->
  let r := best better l (length pre) cur in nth_error (pre ++ l) (snd r) = Some (fst r) /\ forall x, In x (pre ++ l) -> le x (fst r).
Proof.
  induction l as [|y l IH]; intros pre cur H1 H2; cbn [best].
  - rewrite app_nil_r. split; assumption.
  - replace (pre ++ y :: l) with ((pre ++ [y]) ++ l) by (rewrite <- app_assoc; reflexivity).
    replace (S (length pre)) with (length (pre ++ [y])) by (rewrite app_length; cbn; lia). apply IH.
    + destruct (better y (fst cur)) eqn:E; cbn [fst snd].
      * rewrite nth_error_app2 by lia. rewrite Nat.sub_diag. reflexivity.
      * rewrite nth_error_app1; [exact H1|]. apply nth_error_Some. rewrite H1. discriminate.
    + intros x Hx. apply in_app_or in Hx. destruct (better y (fst cur)) eqn:E; cbn [fst snd]; destruct Hx as [Hx|[<-|[]]]; auto.
      apply T with (fst cur); auto.
Qed.
Lemma tmax_spec row : row <> [] -> exists v i, tmax row = Ok (v, i) /\ largest row i v.
Proof.
  intros N. destruct row as [|x r]; [contradiction|]. unfold tmax, extreme.
  pose proof (best_spec Rle above) as P. specialize (P ltac:(intros a c; unfold above; destruct (Rlt_dec c a); [lra|discriminate])).
  specialize (P ltac:(intros a c; unfold above; destruct (Rlt_dec c a); [discriminate|lra]) ltac:(intros; lra) ltac:(intros; lra) r [x] (x, 0%nat) eq_refl).
  specialize (P ltac:(intros y [<-|[]]; cbn; lra)). cbn [length app] in P. destruct (best above r 1 (x, 0%nat)) as [v i]. exists v, i. split; [reflexivity|exact P].
Qed.
Lemma tmin_spec row : row <> [] -> exists v i, tmin row = Ok (v, i) /\ smallest row i v.
Proof.
  intros N. destruct row as [|x r]; [contradiction|]. unfold tmin, extreme.
  pose proof (best_spec (fun a b => b <= a) below) as P. specialize (P ltac:(intros a c; unfold below; destruct (Rlt_dec a c); [lra|discriminate])).
  specialize (P ltac:(intros a c; unfold below; destruct (Rlt_dec a c); [discriminate|lra]) ltac:(intros; lra) ltac:(intros; lra) r [x] (x, 0%nat) eq_refl).
  specialize (P ltac:(intros y [<-|[]]; cbn; lra)). cbn [length app] in P. destruct (best below r 1 (x, 0%nat)) as [v i]. exists v, i. split; [reflexivity|exact P].
Qed.
Lemma largest_unique row i v j w : largest row i v -> largest row j w -> v = w.
Proof. intros [A B] [C D]. pose proof (D v (nth_error_In _ _ A)). pose proof (B w (nth_error_In _ _ C)). lra. Qed.
Lemma smallest_unique row i v j w : smallest row i v -> smallest row j w -> v = w.
Proof. intros [A B] [C D]. pose proof (D v (nth_error_In _ _ A)). pose proof (B w (nth_error_In _ _ C)). lra. Qed.
Lemma spread_unique row s t : spread row s -> spread row t -> s = t.
Proof.
  intros (i & j & a & b & A & B & ->) (i' & j' & a' & b' & A' & B' & ->).
  rewrite (largest_unique _ _ _ _ _ A A'), (smallest_unique _ _ _ _ _ B B'). reflexivity.
Qed.
Lemma spread_nonneg row s : spread row s -> 0 <= s.
Proof. intros (i & j & a & b & [A A'] & [B B'] & ->). pose proof (A' b (nth_error_In _ _ B)). lra. Qed.
Lemma diff_spec row : row <> [] -> exists s, diff row = Ok s /\ spread row s.
Proof.
  intros N. destruct (tmax_spec row N) as (v & i & E1 & L). destruct (tmin_spec row N) as (w & j & E2 & M).
  exists (v - w). unfold diff. rewrite E1. cbn [bind]. rewrite E2. cbn [bind fst]. split; [reflexivity|]. exists i, j, v, w. auto.
Qed.
Lemma diffs_spec o : Forall (fun row => row <> []) o -> exists ss, mapM diff o = Ok ss /\ spreads o ss.
Proof.
  induction 1 as [|row o N _ (ss & E & F)]; [exists []; split; [reflexivity|constructor]|].
  destruct (diff_spec row N) as (s & E1 & S1). exists (s :: ss). cbn [mapM]. rewrite E1. cbn [bind]. rewrite E. cbn [bind]. split; [reflexivity|constructor; assumption].
Qed.
Lemma spreads_unique o : forall ss ts, spreads o ss -> spreads o ts -> ss = ts.
Proof.
  induction o as [|row o IH]; intros ss ts H1 H2; inversion H1; subst; inversion H2; subst; [reflexivity|].
  f_equal; [eapply spread_unique; eassumption|]. apply IH; assumption.
Qed.
Lemma spreads_length o ss : spreads o ss -> length ss = length o.
Proof. induction 1; cbn [length]; auto. Qed.
Lemma spreads_nonneg o ss : spreads o ss -> Forall (fun s => 0 <= s) ss.
Proof. induction 1; constructor; [eapply spread_nonneg; eassumption|assumption]. Qed.

(* ---- sums ---- *)
Lemma total_app a b : total (a ++ b) = total a + total b.
Proof. induction a as [|x a IH]; cbn [app total]; [lra|]. rewrite IH. lra. Qed.
Lemma total_opp l : total (map Ropp l) = - total l.
Proof. induction l as [|x l IH]; cbn [map total]; [lra|]. rewrite IH. lra. Qed.
Lemma total_shift e l : total (map (fun x => x + e) l) = total l + INR (length l) * e.
Proof. induction l as [|x l IH]; [cbn; lra|]. cbn [map total length]. rewrite IH, S_INR. lra. Qed.
Lemma total_nonneg l : Forall (fun x => 0 <= x) l -> 0 <= total l.
Proof. induction 1; cbn [total]; lra. Qed.
Lemma inr_pos {A} (l : list A) : l <> [] -> 0 < INR (length l).
Proof. destruct l; [contradiction|]. intros _. apply lt_0_INR. cbn. lia. Qed.
Lemma average_opp l : average (map Ropp l) = - average l.
Proof. unfold average. rewrite total_opp, map_length. unfold Rdiv. lra. Qed.
Lemma average_shift e l : l <> [] -> average (map (fun x => x + e) l) = average l + e.
Proof. intros N. unfold average. rewrite total_shift, map_length. pose proof (inr_pos l N). field. lra. Qed.
Lemma average_nonneg l : Forall (fun x => 0 <= x) l -> 0 <= average l.
Proof.
  intros F. destruct l as [|x l]; [unfold average; cbn; unfold Rdiv; lra|]. pose proof (total_nonneg _ F). pose proof (inr_pos (x :: l) ltac:(discriminate)).
  unfold average. apply Rmult_le_pos; [assumption|]. left. apply Rinv_0_lt_compat. assumption.
Qed.
Lemma mean_spread_unique o m m' : mean_spread o m -> mean_spread o m' -> m = m'.
Proof. intros (ss & A & ->) (ts & B & ->). rewrite (spreads_unique _ _ _ A B). reflexivity. Qed.
Lemma mean_spread_nonneg o m : mean_spread o m -> 0 <= m.
Proof. intros (ss & A & ->). apply average_nonneg. eapply spreads_nonneg; eassumption. Qed.

Lemma fold_losses (f : output -> result R) (v : output -> R -> Prop) :
  forall outs acc, (forall o, In o outs -> exists t, f o = Ok t /\ v o t) ->
  exists ts, foldM (fun a o => let! t := f o in Ok (a + t)) outs acc = Ok (acc + total ts) /\ Forall2 v outs ts.
Proof.
  induction outs as [|o outs IH]; intros acc H; cbn [foldM].
  - exists []. cbn [total]. rewrite Rplus_0_r. split; [reflexivity|constructor].
  - destruct (H o (or_introl eq_refl)) as (t & E & V). rewrite E. cbn [bind].
    destruct (IH (acc + t)) as (ts & E2 & F); [intros; apply H; right; assumption|]. exists (t :: ts). cbn [total]. rewrite E2. split; [f_equal; lra|constructor; assumption].
Qed.
Lemma foldM_ext {A B} (f g : B -> A -> result B) : (forall b a, f b a = g b a) -> forall l b, foldM f l b = foldM g l b.
Proof. intros E. induction l as [|a l IH]; intros b; cbn [foldM]; [reflexivity|]. rewrite E. destruct (g b a); cbn [bind]; auto. Qed.

Lemma losses_spec outs : Forall filled outs ->
  exists ms, Forall2 mean_spread outs ms /\ negative_loss outs = Ok (- total ms) /\ inverse_loss outs = Ok (total (map (fun m => / (m + eps)) ms)).
Proof.
  intros F. rewrite Forall_forall in F.
  assert (forall o, In o outs -> exists ss, mapM diff o = Ok ss /\ spreads o ss /\ ss <> []) as D.
  { intros o Ho. destruct (F o Ho) as [N R]. destruct (diffs_spec o R) as (ss & E & S1). exists ss. repeat split; try assumption.
    intros ->. inversion S1; subst. contradiction. }
  destruct (fold_losses (fun o => let! d := mapM diff o in Ok (mean (map Ropp d))) (fun o t => mean_spread o (- t)) outs 0) as (ts & E1 & V1).
  { intros o Ho. destruct (D o Ho) as (ss & E & S1 & N). exists (- average ss). rewrite E. cbn [bind]. rewrite mean_average, average_opp. split; [reflexivity|].
    exists ss. split; [exact S1|lra]. }
  destruct (fold_losses (fun o => let! d := mapM diff o in Ok (1 / mean (map (fun x => x + eps) d))) (fun o t => exists m, mean_spread o m /\ t = / (m + eps)) outs 0) as (us & E2 & V2).
  { intros o Ho. destruct (D o Ho) as (ss & E & S1 & N). exists (1 / (average ss + eps)). rewrite E. cbn [bind]. rewrite mean_average, average_shift by exact N. split; [reflexivity|].
    exists (average ss). split; [exists ss; auto|unfold Rdiv; lra]. }
  exists (map Ropp ts). split; [|split].
  - clear - V1. induction V1; cbn [map]; constructor; auto.
  - unfold negative_loss. replace (- total (map Ropp ts)) with (0 + total ts) by (rewrite total_opp; lra). rewrite <- E1. apply foldM_ext. intros b a. cbv beta. destruct (mapM diff a); reflexivity.
  - unfold inverse_loss. transitivity (@Ok R (0 + total us)); [rewrite <- E2; apply foldM_ext; intros b a; cbv beta; destruct (mapM diff a); reflexivity|]. rewrite Rplus_0_l. f_equal. f_equal.
    clear - V1 V2. revert us V2. induction V1 as [|o t outs ts M V1 IH]; intros us V2; inversion V2 as [|? ? ? us' (m & M' & ->) V2']; subst; cbn [map]; [reflexivity|].
    rewrite (mean_spread_unique _ _ _ M M'), (IH _ V2'). reflexivity.
Qed.

(* ---- the inverse loss of Keras ---- *)
(* adds a list of values to every image *)
Lemma badd_same a b : length a = length b -> badd a b = Ok (map (fun p => fst p + snd p) (combine a b)).
Proof. intros E. unfold badd. rewrite E, Nat.eqb_refl. reflexivity. Qed.
Lemma badd_zero b : b <> [] -> badd [0] b = Ok b.
Proof.
  intros N. unfold badd. destruct (Nat.eqb (length [0]) (length b)) eqn:E.
  - destruct b as [|y [|z b]]; try contradiction; try discriminate. cbn. f_equal. f_equal. lra.
  - f_equal. rewrite <- map_id. apply map_ext. intros. lra.
Qed.
Definition inv_row (ss : list R) : list R := map (fun s => / (s + eps)) ss.
Lemma total_add a : forall b, length a = length b -> total (map (fun p => fst p + snd p) (combine a b)) = total a + total b.
Proof. induction a as [|x a IH]; intros [|y b] E; cbn [combine map total fst snd]; try discriminate; [lra|]. rewrite IH by (injection E; auto). lra. Qed.

Lemma keras_fold n : forall sss acc outs, length acc = n -> Forall2 spreads outs sss -> Forall (fun o : output => length o = n) outs -> Forall (fun o : output => Forall (fun row => row <> []) o) outs ->
  exists v, foldM (fun acc o => let! d := mapM diff o in badd acc (map (fun x => 1 / (x + eps)) d)) outs acc = Ok v /\ length v = n /\
    total v = total acc + total (map (fun ss => total (inv_row ss)) sss) /\
    forall i, nth i v 0 = nth i acc 0 + total (map (fun ss => nth i (inv_row ss) 0) sss).
Proof.
  intros sss. induction sss as [|ss sss IH]; intros acc outs La F Ln Lr; inversion F as [|o ? outs' ? So F']; subst; cbn [foldM].
  - exists acc. cbn [map total]. repeat split; intros; lra.
  - inversion Ln as [|? ? Lo Ln']; subst. inversion Lr as [|? ? Ro Lr']; subst.
    destruct (diffs_spec o Ro) as (ts & E & St). rewrite (spreads_unique _ _ _ St So) in E. rewrite E. cbn [bind].
    replace (map (fun x => 1 / (x + eps)) ss) with (inv_row ss) by (apply map_ext; intros; unfold Rdiv; lra).
    assert (length acc = length (inv_row ss)) as L by (unfold inv_row; rewrite map_length, (spreads_length _ _ So); lia).
    rewrite badd_same by exact L. cbn [bind].
    set (acc' := map (fun p => fst p + snd p) (combine acc (inv_row ss))). assert (length acc' = length acc) as La' by (unfold acc'; rewrite map_length, combine_length; lia).
    destruct (IH acc' outs' La' F' Ln' Lr') as (v & Ev & Lv & Tv & Nv). exists v. split; [exact Ev|]. split; [lia|]. split.
    + rewrite Tv. unfold acc'. rewrite total_add by exact L. cbn [map total]. lra.
    + intros i. rewrite Nv. cbn [map total]. enough (nth i acc' 0 = nth i acc 0 + nth i (inv_row ss) 0) by lra.
      unfold acc'. clear - L. revert i L. generalize (inv_row ss). induction acc as [|x acc IHa]; intros [|y b] i L; try discriminate; [destruct i; cbn; lra|].
      destruct i; cbn [combine map nth fst snd]; [reflexivity|]. apply IHa. injection L. auto.
Qed.

(* the mean of the inverses is above the inverse of the mean *)
Lemma tangent m x : 0 < m -> 0 < x -> 2 / m - x / m ^ 2 <= / x.
Proof.
  intros M X. apply Rmult_le_reg_r with (x * m ^ 2); [apply Rmult_lt_0_compat; [lra|apply pow_lt; lra]|].
  replace ((2 / m - x / m ^ 2) * (x * m ^ 2)) with (2 * m * x - x * x) by (field; lra). replace (/ x * (x * m ^ 2)) with (m ^ 2) by (field; lra). pose proof (Rle_0_sqr (m - x)) as Q. unfold Rsqr in Q. simpl. lra.
Qed.
Lemma inverse_mean ss : ss <> [] -> Forall (fun s => 0 <= s) ss -> / (average ss + eps) <= average (inv_row ss).
Proof.
  intros N F. pose proof (inr_pos ss N) as P. pose proof eps_pos as E. set (m := average ss + eps). pose proof (average_nonneg ss F) as A.
  assert (0 < m) as M by (unfold m; lra).
  assert (total (inv_row ss) >= INR (length ss) * (2 / m) - (total ss + INR (length ss) * eps) / m ^ 2) as T.
  { clearbody m. clear - F M E. induction F as [|s ss Hs F IH]; [cbn; unfold Rdiv; lra|]. cbn [inv_row map total length]. fold (inv_row ss). rewrite S_INR.
    pose proof (tangent m (s + eps) M ltac:(lra)) as Tn. set (a := / (s + eps)) in *.
    replace ((INR (length ss) + 1) * (2 / m) - (s + total ss + (INR (length ss) + 1) * eps) / m ^ 2)
      with ((2 / m - (s + eps) / m ^ 2) + (INR (length ss) * (2 / m) - (total ss + INR (length ss) * eps) / m ^ 2)) by (field; lra). lra. }
  replace (total ss + INR (length ss) * eps) with (INR (length ss) * m) in T by (unfold m, average; field; lra).
  replace (INR (length ss) * (2 / m) - INR (length ss) * m / m ^ 2) with (INR (length ss) * / m) in T by (field; lra).
  unfold average at 1. unfold inv_row at 2. rewrite map_length. apply Rmult_le_reg_r with (INR (length ss)); [exact P|].
  unfold Rdiv. rewrite Rmult_assoc, Rinv_l, Rmult_1_r by lra. fold m. lra.
Qed.
