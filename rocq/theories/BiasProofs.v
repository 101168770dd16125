(* BiasProofs.v -- the correction term, layer by layer. *)
From Verif Require Import LinNode LinSpec BnModel BnSpec LinProofs BnProofs LinGraph SncModel SncSpec SncProofs BiasModel BiasSpec.
Local Open Scope R_scope.

Lemma total_ext S f g : (forall s, In s S -> f s = g s) -> total S f = total S g.
Proof. unfold total. induction S as [|s S IH]; intro H; [reflexivity|]. cbn. rewrite (H s), IH by (cbn; auto; intros; apply H; cbn; auto). reflexivity. Qed.
Lemma total_plus S f g : total S (fun s => f s + g s) = total S f + total S g.
Proof. unfold total. induction S as [|s S IH]; cbn; [ring|]. rewrite IH. ring. Qed.
Lemma total_scal S c f : total S (fun s => c * f s) = c * total S f.
Proof. unfold total. induction S as [|s S IH]; cbn; [ring|]. rewrite IH. ring. Qed.
Lemma total_const S c : total S (fun _ => c) = INR (length S) * c.
Proof. unfold total. induction S as [|s S IH]; [cbn; ring|]. cbn [map fold_right length]. rewrite IH, S_INR. ring. Qed.
Lemma total_rsum S n f : total S (fun s => rsum n (fun k => f k s)) = rsum n (fun k => total S (f k)).
Proof. induction n as [|n IH]; cbn [rsum]; [rewrite total_const; ring|]. rewrite total_plus, IH. reflexivity. Qed.

(* the output is linear in what the kernel reads *)
Lemma output_reads l o s : output l o s = bias_val l o + rsum (fst (ksize l)) (fun h => rsum (snd (ksize l)) (fun w => rsum (l_in l) (fun i => weight l h w i o * reads_through l h w i s))).
Proof.
  unfold output, lin_val, reads_through. f_equal. apply rsum_ext. intros h _. apply rsum_ext. intros w _. destruct (tap l _ h w _); [reflexivity|]. symmetry. apply rsum_zero. intros. ring.
Qed.
Lemma output_total l o S : total S (output l o) = INR (length S) * bias_val l o + rsum (fst (ksize l)) (fun h => rsum (snd (ksize l)) (fun w => rsum (l_in l) (fun i => weight l h w i o * total S (reads_through l h w i)))).
Proof.
  rewrite (total_ext S _ _ (fun s _ => output_reads l o s)), total_plus, total_const. f_equal. rewrite total_rsum. apply rsum_ext. intros h _. rewrite total_rsum. apply rsum_ext. intros w _. rewrite total_rsum. apply rsum_ext. intros i _. apply total_scal.
Qed.

(* the error of the sum of the weights, at the mean *)
Definition mean_error (l : lin) (q mu : nd) (o : nat) : R :=
  rsum (fst (ksize l)) (fun h => rsum (snd (ksize l)) (fun w => rsum (l_in l) (fun i => (weight (set_kernel l q) h w i o - weight l h w i o) * at_ mu [i]))).
Lemma rsum_group_mul g ip q (f m : nat -> R) : (0 < ip)%nat -> (q < g)%nat -> rsum (g * ip) (fun i => (if Nat.eqb (i / ip) q then f (i mod ip)%nat else 0) * m i) = rsum ip (fun j => f j * m (q * ip + j)%nat).
Proof.
  intros P Q. rewrite <- (rsum_group g ip q (fun j => f j * m (q * ip + j)%nat) P Q). apply rsum_ext. intros i _. destruct (Nat.eqb_spec (i / ip) q) as [<-|N]; [|ring]. f_equal. f_equal. pose proof (Nat.div_mod i ip). lia.
Qed.
Lemma bad_mult a b : (0 < a)%nat -> (0 < b)%nat -> bad_quotient (a * b) b = false.
Proof. intros A B. unfold bad_quotient. rewrite Nat.mod_mul by lia. rewrite (proj2 (Nat.ltb_ge _ _)) by nia. reflexivity. Qed.
Lemma rsum3 a b n (f : nat -> nat -> nat -> R) : rsum a (fun h => rsum b (fun w => rsum n (fun i => f h w i))) = rsum n (fun i => rsum a (fun h => rsum b (fun w => f h w i))).
Proof. rewrite (rsum_ext a _ (fun h => rsum n (fun i => rsum b (fun w => f h w i)))) by (intros; apply rsum_swap). apply rsum_swap. Qed.
Lemma group_products_spec eps mu g ip op : (0 < g)%nat -> (0 < ip)%nat -> (0 < op)%nat -> shp eps = [g * op; ip]%nat -> shp mu = [g * ip]%nat ->
  exists t, group_products eps mu = Ok t /\ shp t = [g * op]%nat /\ forall o, (o < g * op)%nat -> at_ t [o] = rsum (g * ip) (fun i => (if Nat.eqb (i / ip) (o / op) then at_ eps [o; i mod ip]%nat else 0) * at_ mu [i]).
Proof.
  intros G I O SE SM. unfold group_products. rewrite SE, SM. rewrite (proj2 (Nat.eqb_neq ip 0)) by lia.
  rewrite (bad_mult g ip G I), Nat.div_mul by lia. rewrite (Nat.mul_comm g op), (bad_mult op g O G), Nat.div_mul by lia. cbn [orb]. rewrite (Nat.mul_comm op g).
  eexists. split; [reflexivity|]. split; [reflexivity|]. intros o L. cbn [at_ hd]. symmetry. apply (rsum_group_mul g ip (o / op)%nat (fun j => at_ eps [o; j]) (fun i => at_ mu [i])); [exact I|]. apply Nat.div_lt_upper_bound; lia.
Qed.
(* the sum of the kernel error over the kernel positions *)
Lemma bias_term_spec l q mu : lin_wf l -> corrected_groups l -> shp q = shp (l_kernel l) -> shp mu = [l_in l] ->
  exists t, bias_term (l_kind l) (l_kernel l) q mu = Ok t /\ shp t = [l_out l] /\ forall o, (o < l_out l)%nat -> at_ t [o] = mean_error l q mu o.
Proof.
  intros W CG SQ SM. pose proof (ksize_shape l W) as SH. unfold kernel_shape in SH.
  pose proof (lw_in l W) as I0. pose proof (lw_out l W) as O0. pose proof (lw_groups l W) as G0. pose proof (lw_div_in l W) as DI. pose proof (lw_div_out l W) as DO. pose proof (lw_plain l W) as PL.
  assert (IP : (0 < in_per l)%nat) by (destruct (in_per l); lia). assert (OP : (0 < out_per l)%nat) by (destruct (out_per l); lia).
  unfold bias_term. destruct (bop_fits Rminus q (l_kernel l)) as (err & -> & SE & AE); [rewrite SQ; apply fits_refl|]. cbn [bind]. rewrite SQ in SE, AE.
  assert (AE' : forall idx, inb (shp (l_kernel l)) idx -> at_ err idx = at_ q idx - at_ (l_kernel l) idx) by (intros idx I; rewrite AE, mask_id by exact I; reflexivity). clear AE.
  (* what is left: the array eps *)
  assert (FIN : forall eps g ip op, (0 < g)%nat -> (0 < ip)%nat -> (0 < op)%nat -> l_in l = (g * ip)%nat -> l_out l = (g * op)%nat -> shp eps = [l_out l; ip] ->
    (forall o i, (o < l_out l)%nat -> (i < l_in l)%nat -> (if Nat.eqb (i / ip) (o / op) then at_ eps [o; i mod ip]%nat else 0) = rsum (fst (ksize l)) (fun h => rsum (snd (ksize l)) (fun w => weight (set_kernel l q) h w i o - weight l h w i o))) ->
    exists t, group_products eps mu = Ok t /\ shp t = [l_out l] /\ forall o, (o < l_out l)%nat -> at_ t [o] = mean_error l q mu o).
  { intros eps g ip op G I O Ei Eo S A. destruct (group_products_spec eps mu g ip op G I O) as (t & T1 & T2 & T3); [congruence|congruence|]. exists t. split; [exact T1|]. split; [congruence|]. intros o L. rewrite T3 by congruence. unfold mean_error. rewrite rsum3, <- Ei. apply rsum_ext. intros i Hi. rewrite A by assumption. rewrite <- rsum_scal_r. apply rsum_ext. intros h _. rewrite <- rsum_scal_r. reflexivity. }
  assert (D1 : forall i n, (i < n)%nat -> (i / n = 0)%nat) by (intros; apply Nat.div_small; assumption).
  set (kh := fst (ksize l)) in *. set (kw := snd (ksize l)) in *.
  assert (KW1 : dense (l_kind l) = true -> kh = 1%nat /\ kw = 1%nat) by (unfold kh, kw, ksize; destruct (l_kind l); try discriminate; auto).
  assert (MD : forall i n, (i < n)%nat -> (i mod n = i)%nat) by (intros; apply Nat.mod_small; assumption).
  assert (LP : forall n, (n * 1 = n)%nat) by (intros; lia).
  Opaque Nat.div Nat.modulo Nat.mul.
  destruct (l_kind l) eqn:KD; rewrite SH in SE, AE'; cbn [out_axis in_axis Nat.eqb Nat.ltb Nat.leb bind]; rewrite ?SE; cbn [length seq filter Nat.eqb negb andb].
  - (* K_conv *) apply (FIN _ (l_groups l) (in_per l) (out_per l)); try assumption.
    + unfold transpose, nsum. cbn [shp]. rewrite SE. reflexivity.
    + intros o i O I. unfold weight. cbn [set_kernel set_weights l_kind l_kernel]. rewrite KD. change (in_per (set_kernel l q)) with (in_per l). change (out_per (set_kernel l q)) with (out_per l). destruct (Nat.eqb (i / in_per l) (o / out_per l)).
      * cbn. rewrite SE. cbn. apply rsum_ext. intros h Hh. apply rsum_ext. intros w Hw. apply AE'. repeat constructor; try assumption. apply Nat.mod_upper_bound. lia.
      * symmetry. apply rsum_zero. intros. apply rsum_zero. intros. ring.
  - (* K_dw *) pose proof (lw_dw l W KD) as DW. set (mult := (l_out l / l_in l)%nat) in *. assert (M0 : (0 < mult)%nat) by (destruct mult; lia).
    assert (SS : shp (nsum [0; 1]%nat err) = [l_in l; mult]) by (unfold nsum; cbn [shp]; rewrite SE; reflexivity).
    unfold reshape, infer. rewrite SS. cbn [map existsb orb prod]. rewrite !LP. cbn [Nat.eqb]. rewrite Nat.mod_1_r, Nat.div_1_r. cbn [Nat.eqb bind prod]. rewrite !LP, Nat.eqb_refl. cbn [bind].
    apply (FIN _ (l_in l) 1%nat mult); try assumption; try lia.
    + cbn [shp reshape_to]. congruence.
    + intros o i O I. rewrite Nat.div_1_r, Nat.mod_1_r. unfold weight. cbn [set_kernel set_weights l_kind l_kernel l_in l_out]. rewrite KD. fold mult. destruct (Nat.eqb_spec i (o / mult)) as [->|N].
      * cbn [reshape_to at_]. rewrite SS. cbn [flat unflat prod]. rewrite ?LP, ?Nat.add_0_r, ?LP, ?Nat.div_1_r.
        cbn. rewrite SE. cbn. apply rsum_ext. intros h Hh. apply rsum_ext. intros w Hw. apply AE'. repeat constructor; try assumption. apply Nat.mod_upper_bound. lia.
      * symmetry. apply rsum_zero. intros. apply rsum_zero. intros. ring.
  - (* K_convT *) apply (FIN _ 1%nat (l_in l) (l_out l)); try assumption; try lia.
    + unfold nsum. cbn [shp]. rewrite SE. reflexivity.
    + intros o i O I. rewrite !D1, MD by assumption. cbn [Nat.eqb]. unfold weight. cbn [set_kernel set_weights l_kind l_kernel]. rewrite KD. cbn. rewrite SE. cbn. apply rsum_ext. intros h Hh. apply rsum_ext. intros w Hw. apply AE'. repeat constructor; assumption.
  - (* K_dense *) destruct (KW1 eq_refl) as [K1 K2]. apply (FIN _ 1%nat (l_in l) (l_out l)); try assumption; try lia.
    + unfold transpose, nsum. cbn [shp]. rewrite SE. reflexivity.
    + intros o i O I. rewrite !D1, MD by assumption. cbn [Nat.eqb]. unfold weight. cbn [set_kernel set_weights l_kind l_kernel]. rewrite KD, K1, K2. cbn. rewrite SE. cbn. rewrite !Rplus_0_l. apply AE'. repeat constructor; assumption.
  - (* T_conv *) apply (FIN _ (l_groups l) (in_per l) (out_per l)); try assumption.
    + unfold nsum. cbn [shp]. rewrite SE. reflexivity.
    + intros o i O I. unfold weight. cbn [set_kernel set_weights l_kind l_kernel]. rewrite KD. change (in_per (set_kernel l q)) with (in_per l). change (out_per (set_kernel l q)) with (out_per l). destruct (Nat.eqb (i / in_per l) (o / out_per l)).
      * cbn. rewrite SE. cbn. apply rsum_ext. intros h Hh. apply rsum_ext. intros w Hw. apply AE'. repeat constructor; try assumption. apply Nat.mod_upper_bound. lia.
      * symmetry. apply rsum_zero. intros. apply rsum_zero. intros. ring.
  - (* T_convT *) specialize (CG KD). assert (OE : out_per l = l_out l) by (rewrite CG in DO; lia). assert (IE : in_per l = l_in l) by (rewrite CG in DI; lia). apply (FIN _ 1%nat (l_in l) (l_out l)); try assumption; try lia.
    + unfold transpose, nsum. cbn [shp]. rewrite SE. cbn. congruence.
    + intros o i O I. rewrite !D1, MD by assumption. cbn [Nat.eqb]. unfold weight. cbn [set_kernel set_weights l_kind l_kernel]. rewrite KD. change (in_per (set_kernel l q)) with (in_per l). change (out_per (set_kernel l q)) with (out_per l). rewrite OE, IE, !D1, MD by assumption. cbn [Nat.eqb]. cbn. rewrite SE. cbn. apply rsum_ext. intros h Hh. apply rsum_ext. intros w Hw. apply AE'. rewrite ?OE. repeat constructor; assumption.
  - (* T_linear *) destruct (KW1 eq_refl) as [K1 K2]. apply (FIN _ 1%nat (l_in l) (l_out l)); try assumption; try lia.
    + unfold nsum. cbn [shp]. rewrite SE. reflexivity.
    + intros o i O I. rewrite !D1, MD by assumption. cbn [Nat.eqb]. unfold weight. cbn [set_kernel set_weights l_kind l_kernel]. rewrite KD, K1, K2. cbn. rewrite SE. cbn. rewrite !Rplus_0_l. apply AE'. repeat constructor; assumption.
Qed.
Transparent Nat.div Nat.modulo Nat.mul.

Lemma apply_term_spec l t : lin_wf l -> shp t = [l_out l] -> exists b, apply_term l t = Ok (set_weights l (l_kernel l) (Some b) true) /\ shp b = [l_out l] /\ forall o, (o < l_out l)%nat -> at_ b [o] = bias_val l o - at_ t [o].
Proof.
  intros W S. pose proof (lw_bias l W) as LB. unfold apply_term, bias_val. destruct (l_bias l) as [b|].
  - destruct LB as [SB ->]. destruct (bop_fits Rminus b t) as (r & -> & SR & AR); [rewrite SB, S; apply fits_refl|]. exists r. split; [reflexivity|]. rewrite SB in SR, AR. split; [exact SR|]. intros o O. rewrite AR, mask_id; [reflexivity|rewrite S|]; apply inb1; exact O.
  - eexists. split; [reflexivity|]. split; [exact S|]. intros o O. cbn [nmap at_]. destruct (l_use_bias l); ring.
Qed.
Lemma corrected_output l q mu b o S : lin_wf l -> shp q = shp (l_kernel l) -> (o < l_out l)%nat -> at_ b [o] = bias_val l o - mean_error l q mu o -> sees_mean l mu S ->
  average S (output (set_kernel (set_weights l (l_kernel l) (Some b) true) q) o) = average S (output l o).
Proof.
  intros W SQ O B M. unfold average. f_equal. rewrite !output_total. set (l' := set_kernel _ q). assert (KS : ksize l' = ksize l) by (apply (ksize_set l q); exact SQ). rewrite KS. change (bias_val l' o) with (at_ b [o]). change (l_in l') with (l_in l).
  assert (T : forall h w i, (h < fst (ksize l))%nat -> (w < snd (ksize l))%nat -> (i < l_in l)%nat -> total S (reads_through l h w i) = INR (length S) * at_ mu [i]).
  { intros h w i Hh Hw Hi. rewrite <- (M h w i Hh Hw Hi). unfold average. destruct S as [|s S]; [cbn; ring|]. field. apply not_0_INR. discriminate. }
  assert (T' : forall h w i, reads_through l' h w i = reads_through l h w i). { intros. unfold reads_through. assert (TP : forall hw p, tap l' hw h w p = tap l hw h w p) by (intros; apply (tap_set l q); exact SQ). apply FunctionalExtensionality.functional_extensionality. intro s. rewrite TP. reflexivity. }
  rewrite B. unfold mean_error. rewrite Rmult_minus_distr_l. rewrite <- rsum_scal.
  rewrite (rsum_ext _ (fun h => rsum (snd (ksize l)) (fun w => rsum (l_in l) (fun i => weight l' h w i o * total S (reads_through l' h w i))))
    (fun h => INR (length S) * rsum (snd (ksize l)) (fun w => rsum (l_in l) (fun i => (weight (set_kernel l q) h w i o - weight l h w i o) * at_ mu [i])) + rsum (snd (ksize l)) (fun w => rsum (l_in l) (fun i => weight l h w i o * total S (reads_through l h w i))))).
  - rewrite rsum_plus. ring.
  - intros h Hh. rewrite <- rsum_scal, <- rsum_plus. apply rsum_ext. intros w Hw. rewrite <- rsum_scal, <- rsum_plus. apply rsum_ext. intros i Hi. rewrite T', T by assumption. change (weight l' h w i o) with (weight (set_kernel l q) h w i o). ring.
Qed.
