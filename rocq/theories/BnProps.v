(* BnProps.v -- folding batch normalization backwards and forwards, reconstructing and refusing it. *)
From Verif Require Import LinNode LinSpec BnModel BnSpec LinProofs BnProofs.

(* ================= backwards (C34) ================= *)
Theorem bn_folding l b : lin_wf l -> foldable_kind (l_kind l) = true -> groups_ok l -> bn_wf (l_out l) b ->
  exists l', fold_bn l b = Ok l' /\ same_node l' l /\ lin_wf l' /\
    forall hw x o p, (o < l_out l)%nat -> lin_val l' hw x o p = bn_val b (lin_val l hw x) o p.
Proof.
  intros W F G BW. destruct (scale_spec _ b BW) as (v & ws & V1 & S1 & S2 & S3).
  destruct (fold_core l b (opt (b_beta b) 0) (opt (l_bias l) 0) (par (l_bias l) 0) ws W F G BW S2 S3 (isvec_opt _ _ 0 (bw_beta _ b BW)) (isvec_opt _ _ 0 (wf_bias l W))) as (d & e & f & k & D & E & FF & K & RS & R1 & R2).
  { intros o _. symmetry. apply bias_val_par. exact W. }
  exists (set_weights l k (Some f) true). unfold fold_bn. rewrite V1. cbn [bind]. rewrite S1. cbn [bind]. rewrite D. cbn [bind]. rewrite E. cbn [bind]. rewrite FF. cbn [bind]. rewrite K. cbn [bind].
  split; [reflexivity|]. split; [exact RS|]. split; [exact R1|exact R2].
Qed.
Print Assumptions bn_folding.

(* ================= forwards (C35) ================= *)
Theorem forward_folding l b : lin_wf l -> ksize l = (1, 1)%nat -> takes_input_scale l -> bn_wf (l_in l) b ->
  exists l', forward_fold (F_bn b) l = Ok (Some l') /\ same_node l' l /\ lin_wf l' /\
    forall hw x o p, (o < l_out l)%nat -> tap l hw 0 0 p <> None -> lin_val l' hw x o p = lin_val l hw (bn_val b x) o p.
Proof.
  intros W KS T BW. destruct (scale_spec _ b BW) as (v & ws & V1 & S1 & S2 & S3).
  destruct (isvec_bop _ Rmult (b_mean b) ws _ _ (isvec_of _ _ (bw_mean _ b BW)) S3) as (m & M1 & M2 & M3). assert (SM : shp m = [l_in l]) by (apply M3; right; exact S2).
  destruct (isvec_bop _ Rminus (opt (b_beta b) 0) m _ _ (isvec_opt _ _ 0 (bw_beta _ b BW)) M2) as (fac & F1 & F2 & F3). assert (SF : shp fac = [l_in l]) by (apply F3; right; exact SM).
  destruct (forward_core l (opt (l_bias l) 0) (par (l_bias l) 0) ws fac (bn_scale b) (bn_shift b) W KS T S2 SF S3 F2 (isvec_opt _ _ 0 (wf_bias l W))) as (k & b' & U & RS & R1 & R2).
  { intros o _. symmetry. apply bias_val_par. exact W. }
  exists (set_weights l k (Some b') true). unfold forward_fold. rewrite (not_group l W T), (proj2 (hw_one l W (scale_kind l T)) KS). cbn [negb]. rewrite V1. cbn [bind]. rewrite S1. cbn [bind]. rewrite M1. cbn [bind]. rewrite F1. cbn [bind].
  unfold update_weights in U. rewrite U. cbn [bind fst snd]. split; [reflexivity|]. split; [exact RS|]. split; [exact R1|]. intros hw x o p O TP. destruct (tap l hw 0 0 p) as [q|] eqn:Q; [|congruence].
  apply (R2 hw x _ o p q O Q). intros i I. apply bn_affine.
Qed.
Print Assumptions forward_folding.

Lemma before_zero p k s d n : (p = P_valid \/ p = P_same \/ p = P_num 0 0) -> k = 1%Z -> (0 < s)%Z -> (0 < n)%Z -> forall prj : nat * nat -> nat, prj (0, 0)%nat = 0%nat -> before p (same_before n k s d) prj = 0%Z.
Proof.
  intros U K S N prj P. unfold before, same_before, ceil_div. destruct U as [-> | [-> | ->]]; [reflexivity| |rewrite P; reflexivity]. subst k.
  assert (X : ((- (- n / s) - 1) * s + (1 - 1) * d + 1 - n <= 0)%Z). { pose proof (Z.mul_div_le (- n) s S). pose proof (Z.mul_succ_div_gt (- n) s S). nia. }
  rewrite Z.max_l by lia. reflexivity.
Qed.
Lemma reads_all l hw p : foldable_kind (l_kind l) = true -> ksize l = (1, 1)%nat -> reads_everywhere l -> pos_in (out_hw l hw) p ->
  exists q, tap l hw 0 0 p = Some q /\ pos_in hw q /\ (l_stride l = (1, 1)%nat -> q = p).
Proof.
  intros F KS (U & S1 & S2 & T) (P1 & P2). unfold out_hw in *. cbn [fst snd] in *. unfold tap. assert (ND : dense (l_kind l) = false) by (destruct (l_kind l); try discriminate F; reflexivity). rewrite ND.
  assert (A : forall (prj : nat * nat -> nat) n y, prj (0, 0)%nat = 0%nat -> prj (1, 1)%nat = 1%nat -> (0 < prj (l_stride l))%nat -> (0 <= y < out_dim l prj n)%Z -> tap1 l prj n 0 y = Some (Z.of_nat (prj (l_stride l)) * y)%Z /\ (0 <= Z.of_nat (prj (l_stride l)) * y < n)%Z).
  { clear hw p P1 P2. intros prj n y P0 P1 S Y. unfold out_dim in Y. rewrite ND, KS, P1 in Y. unfold tap1. rewrite KS, P1. change (Z.of_nat 0) with 0%Z. change (Z.of_nat 1) with 1%Z in *. destruct (transposed (l_kind l)) eqn:TR.
    - rewrite (T eq_refl), P1 in *. change (Z.of_nat 1) with 1%Z in *. unfold convT_tap. assert (B : before (l_pad l) (Z.max 0 (1 - 1) / 2) prj = 0%Z) by (unfold before; destruct U as [-> | [-> | ->]]; [reflexivity|reflexivity|rewrite P0; reflexivity]). rewrite B.
      replace (y + 0 - Z.of_nat (prj (l_dil l)) * 0)%Z with y by ring. rewrite Z.mod_1_r, Z.div_1_r. cbn [Z.eqb].
      assert (N : (0 <= y < n)%Z) by (destruct U as [EQ | [EQ | EQ]]; rewrite EQ in Y; [| |rewrite P0 in Y]; cbn [Z.of_nat] in Y; lia). unfold within. rewrite (proj2 (Z.leb_le 0 y)), (proj2 (Z.ltb_lt y n)) by lia. cbn [andb]. rewrite Z.mul_1_l. split; [reflexivity|lia].
    - unfold conv_tap. set (s := Z.of_nat (prj (l_stride l))) in *. assert (0 < s)%Z by (unfold s; lia).
      assert (N : (0 <= s * y < n)%Z). { destruct U as [EQ | [EQ | EQ]]; rewrite EQ in Y; [| |rewrite P0 in Y]; cbn [Z.of_nat] in Y.
        - replace (n - Z.of_nat (prj (l_dil l)) * (1 - 1) - 1)%Z with (n - 1)%Z in Y by ring. pose proof (Z.mul_div_le (n - 1) s H). nia.
        - unfold ceil_div in Y. pose proof (Z.mul_succ_div_gt (- n) s H). pose proof (Z.mul_div_le (- n) s H). nia.
        - replace (n + 2 * 0 - Z.of_nat (prj (l_dil l)) * (1 - 1) - 1)%Z with (n - 1)%Z in Y by ring. pose proof (Z.mul_div_le (n - 1) s H). nia. }
      rewrite (before_zero (l_pad l) 1 s (Z.of_nat (prj (l_dil l))) n U eq_refl) by (try assumption; lia). replace (s * y + Z.of_nat (prj (l_dil l)) * 0 - 0)%Z with (s * y)%Z by ring. unfold within. rewrite (proj2 (Z.leb_le 0 (s * y))), (proj2 (Z.ltb_lt (s * y) n)) by lia. split; [reflexivity|lia]. }
  destruct (A fst (fst hw) (fst p) eq_refl eq_refl S1 P1) as [A1 A2]. destruct (A snd (snd hw) (snd p) eq_refl eq_refl S2 P2) as [B1 B2]. rewrite A1, B1. eexists. split; [reflexivity|]. split; [split; cbn; assumption|].
  intros ->. destruct p as [a b]. cbn. f_equal; destruct a, b; reflexivity.
Qed.
(* without padding (and stride, if transposed) the whole output is preserved *)
Theorem forward_folding_everywhere l b : lin_wf l -> ksize l = (1, 1)%nat -> takes_input_scale l -> bn_wf (l_in l) b -> reads_everywhere l ->
  exists l', forward_fold (F_bn b) l = Ok (Some l') /\
    forall hw x o p, (o < l_out l)%nat -> pos_in (out_hw l hw) p -> lin_val l' hw x o p = lin_val l hw (bn_val b x) o p.
Proof.
  intros W KS T BW RE. destruct (forward_folding l b W KS T BW) as (l' & E & _ & _ & H). exists l'. split; [exact E|]. intros hw x o p O P. apply H; [exact O|].
  destruct (reads_all l hw p (scale_kind l T) KS RE P) as (q & -> & _). discriminate.
Qed.
Print Assumptions forward_folding_everywhere.

(* a 1x1 depthwise convolution with one output per input channel is folded in the same way *)
Theorem forward_folding_depthwise d l : lin_wf d -> dw_valid d = true -> l_out d = l_in d -> lin_wf l -> l_in l = l_out d -> ksize l = (1, 1)%nat -> takes_input_scale l ->
  exists l', forward_fold (F_dw d) l = Ok (Some l') /\ same_node l' l /\ lin_wf l' /\
    forall hw x o p, (o < l_out l)%nat -> reads_everywhere d -> l_stride d = (1, 1)%nat -> reads_everywhere l -> pos_in (out_hw l hw) p ->
      lin_val l' hw x o p = lin_val l hw (lin_val d hw x) o p.
Proof.
  intros WD DV DM W CI KS T. assert (FD : foldable_kind (l_kind d) = true) by (unfold dw_valid in DV; destruct (l_kind d); try discriminate DV; reflexivity).
  assert (KD : ksize d = (1, 1)%nat). { apply (hw_one d WD FD). unfold dw_valid in DV. destruct (l_kind d); try discriminate DV; [exact DV|apply andb_prop in DV; tauto]. }
  (* the flattened kernel *)
  assert (GK : exists g, shp (flatten (l_kernel d)) = [l_in d] /\ (forall c, (c < l_in d)%nat -> at_ (flatten (l_kernel d)) [c] = g c) /\ forall c i, (i < l_in d)%nat -> (c < l_in d)%nat -> weight d 0 0 i c = if Nat.eqb i c then g c else 0).
  { pose proof (ksize_shape d WD) as SH. rewrite KD in SH. unfold kernel_shape in SH. cbn [fst snd] in SH. unfold dw_valid in DV. assert (IN := lw_in d WD). unfold weight. destruct (l_kind d) eqn:K; try discriminate DV.
    - rewrite DM, Nat.div_same in * by lia. destruct (flatten_dw _ _ _ SH) as [F1 F2]. rewrite Nat.mul_1_r in *. exists (fun c => at_ (l_kernel d) [0; 0; c; 0]%nat). split; [exact F1|]. split; [intros c C; rewrite F2 by exact C; rewrite Nat.div_1_r, Nat.mod_1_r; reflexivity|].
      intros c i I C. rewrite Nat.div_1_r, Nat.mod_1_r. destruct (Nat.eqb_spec i c) as [->|]; reflexivity.
    - apply andb_prop in DV. destruct DV as [G _]. apply Nat.eqb_eq in G. unfold in_per, out_per in *. rewrite DM, G, Nat.div_same in * by lia. destruct (flatten_n111 _ _ SH) as [F1 F2]. exists (fun c => at_ (l_kernel d) [c; 0; 0; 0]%nat). split; [exact F1|]. split; [exact F2|].
      intros c i I C. rewrite !Nat.div_1_r, Nat.mod_1_r. reflexivity. }
  destruct GK as (g & G1 & G2 & G3).
  destruct (isvec_bop (l_in l) Rplus (scalar 1) (scalar 0) _ _ (isvec_scalar _ 1) (isvec_scalar _ 0)) as (v & V1 & V2 & V3).
  assert (ID : l_in d = l_in l) by congruence.
  assert (GV : isvec (l_in l) (flatten (l_kernel d)) g) by (rewrite <- ID; exact (isvec_ext _ _ _ _ (isvec_of _ _ G1) G2)).
  destruct (isvec_bop _ Rdiv (flatten (l_kernel d)) (nmap sqrt v) _ _ GV (isvec_map _ sqrt v _ V2)) as (ws & S1 & S2 & S3). assert (SW : shp ws = [l_in l]) by (apply S3; left; rewrite <- ID; exact G1).
  destruct (isvec_bop _ Rmult (scalar 0) ws _ _ (isvec_scalar _ 0) S2) as (m & M1 & M2 & M3). assert (SM : shp m = [l_in l]) by (apply M3; right; exact SW).
  assert (BD : match l_bias d with Some a => shp a = [l_in l] | None => True end) by (pose proof (wf_bias d WD) as B; rewrite DM, ID in B; exact B).
  destruct (isvec_bop _ Rminus (opt (l_bias d) 0) m _ _ (isvec_opt _ _ 0 BD) M2) as (fac & F1 & F2 & F3). assert (SF : shp fac = [l_in l]) by (apply F3; right; exact SM).
  destruct (forward_core l (opt (l_bias l) 0) (par (l_bias l) 0) ws fac _ _ W KS T SW SF S2 F2 (isvec_opt _ _ 0 (wf_bias l W))) as (k & b' & U & RS & R1 & R2).
  { intros o _. symmetry. apply bias_val_par. exact W. }
  exists (set_weights l k (Some b') true). unfold forward_fold. rewrite (not_group l W T), (proj2 (hw_one l W (scale_kind l T)) KS). cbn [negb]. rewrite DV. cbn [opt].
  rewrite V1. cbn [bind]. rewrite S1. cbn [bind]. rewrite M1. cbn [bind]. rewrite F1. cbn [bind]. unfold update_weights in U. rewrite U. cbn [bind fst snd]. split; [reflexivity|]. split; [exact RS|]. split; [exact R1|].
  intros hw x o p O RD SD RL P. destruct (reads_all l hw p (scale_kind l T) KS RL P) as (q & TQ & PQ & _). apply (R2 hw x _ o p q O TQ). intros i I.
  assert (PD : pos_in (out_hw d hw) q).
  { clear -PQ KD SD RD FD. destruct RD as (UD & _ & _ & TD). unfold out_hw, pos_in, out_dim in *. cbn [fst snd]. rewrite KD, SD. assert (ND : dense (l_kind d) = false) by (destruct (l_kind d); try discriminate FD; reflexivity). rewrite ND. cbn [fst snd]. change (Z.of_nat 1) with 1%Z.
    destruct (transposed (l_kind d)); destruct UD as [-> | [-> | ->]]; cbn [fst snd]; unfold ceil_div; rewrite ?Z.div_1_r; lia. }
  destruct (reads_all d hw q FD KD RD PD) as (q' & TD & _ & ED). rewrite (ED SD) in TD. rewrite (lin_val_1x1 d hw x i q q KD TD). rewrite (bias_val_par d i WD).
  rewrite (rsum_one (l_in d) i); [|lia|intros j J N; rewrite G3 by lia; rewrite (proj2 (Nat.eqb_neq j i) N); ring]. rewrite G3 by lia. rewrite Nat.eqb_refl. rewrite Rplus_0_r, sqrt_1. unfold Rdiv. rewrite Rinv_1. ring.
Qed.
Print Assumptions forward_folding_depthwise.

(* other kernels and groups: the graph is left as it is *)
Theorem forward_folding_skipped f l : lin_wf l -> foldable_kind (l_kind l) = true -> ksize l <> (1, 1)%nat \/ is_group_conv l = true -> forward_fold f l = Ok None.
Proof.
  intros W F [H|H]; unfold forward_fold; [|rewrite H; reflexivity]. destruct (is_group_conv l); [reflexivity|]. destruct (forallb (Nat.eqb 1) (kernel_hw l)) eqn:E; [|reflexivity]. apply (hw_one l W F) in E. contradiction.
Qed.
Print Assumptions forward_folding_skipped.

(* ================= reconstruction and refusing (C36) ================= *)
Theorem reconstructed_identity C std mean eps : shp std = [C] -> shp mean = [C] -> 0 < eps ->
  exists b, reconstruct std mean eps = Ok b /\ bn_wf C b /\ forall x c p, (c < C)%nat -> bn_val b x c p = x c p.
Proof.
  intros S M E. unfold reconstruct. destruct (isvec_bop C Rplus (nmap (fun x => x * x) std) (scalar eps) _ _ (isvec_map C _ std _ (isvec_of C std S)) (isvec_scalar C eps)) as (v & V1 & V2 & V3).
  assert (SV : shp v = [C]) by (apply V3; left; exact S). rewrite V1. cbn [bind]. eexists. split; [reflexivity|]. assert (P : forall c, 0 < at_ std [c] * at_ std [c] + eps) by (intro c; pose proof (Rle_0_sqr (at_ std [c])) as Q; unfold Rsqr in Q; lra). split.
  - constructor; cbn; try assumption. intros c _. apply P.
  - intros x c p L. unfold bn_val. cbn. rewrite (isvec_at C v _ V2 SV c L). assert (Q : sqrt (at_ std [c] * at_ std [c] + eps) <> 0) by (apply Rgt_not_eq, sqrt_lt_R0, P). field. exact Q.
Qed.
Print Assumptions reconstructed_identity.

Theorem refusing l b : lin_wf l -> foldable_kind (l_kind l) = true -> groups_ok l -> bn_wf (l_out l) b -> l_bias l <> None -> b_gamma b <> None -> b_beta b <> None ->
  exists l', refuse l b = Ok l' /\ same_node l' l /\ lin_wf l' /\
    forall hw x o p, (o < l_out l)%nat -> lin_val l' hw x o p = bn_val b (lin_val l hw x) o p.
Proof.
  intros W F G BW B1 B2 B3. destruct (bn_folding l b W F G BW) as (l' & E & R). exists l'. split; [|exact R]. unfold refuse. unfold fold_bn in E. destruct (l_bias l), (b_gamma b), (b_beta b); try congruence. exact E.
Qed.
Print Assumptions refusing.

(* the parameters of the weights quantizer follow: a quantizer that rounds on a grid proportional to its threshold
   gives, after refusing, the scaled values it gave before *)
Lemma update_chan l a w h A ws : foldable_kind (l_kind l) = true -> single_axis l -> shp A = chan_shape (l_kind l) (l_out l) a w h -> shp ws = [l_out l] ->
  exists r, update_kernel l A ws = Ok r /\ shp r = shp A /\ forall idx, inb (shp A) idx -> at_ r idx = at_ A idx * at_ ws [nth (out_axis (l_kind l)) idx 0%nat].
Proof.
  intros F [SD ST] SA SW. unfold update_kernel. 
  assert (IX : forall s1 s2 s3 s4 idx, inb [s1; s2; s3; s4] idx -> exists i j k m, idx = [i; j; k; m] /\ (i < s1 /\ j < s2 /\ k < s3 /\ m < s4)%nat).
  { intros s1 s2 s3 s4 idx I. inversion I as [|? i ? ? ? I1]; subst. inversion I1 as [|? j ? ? ? I2]; subst. inversion I2 as [|? k ? ? ? I3]; subst. inversion I3 as [|? m ? ? ? I4]; subst. inversion I4; subst. exists i, j, k, m. auto. }
  destruct (l_kind l) eqn:K; try discriminate F; cbn [is_keras chan_shape] in *; unfold keras_update_kernel, torch_update_kernel; rewrite ?K, ?SW.
  - destruct (reshape_at3 ws (l_out l) SW) as (r & R1 & R2 & R3). rewrite R1. cbn [bind]. destruct (bop_fits Rmult A r) as (k & B1 & B2 & B3); [rewrite R2, SA; repeat constructor; tauto|].
    exists k. split; [exact B1|]. split; [exact B2|]. intros idx I. rewrite B3 by exact I. rewrite SA in I. destruct (IX _ _ _ _ _ I) as (i & j & m & n & -> & _ & _ & _ & L). rewrite R3 by exact L. reflexivity.
  - rewrite SA. cbn [length Nat.sub nth]. destruct (reshape_dw ws (l_out l) (l_out l) 1 SW) as (r & R1 & R2 & R3); [lia|]. rewrite R1. cbn [bind]. destruct (bop_fits Rmult A r) as (k & B1 & B2 & B3); [rewrite R2, SA; repeat constructor; tauto|].
    exists k. split; [exact B1|]. split; [rewrite B2; exact SA|]. intros idx I. rewrite <- SA in I. rewrite B3 by exact I. rewrite SA in I. destruct (IX _ _ _ _ _ I) as (i & j & m & n & -> & _ & _ & L1 & L2). rewrite R3 by assumption. cbn. replace (m * 1 + n)%nat with m by lia. reflexivity.
  - destruct (reshape_at2 ws (l_out l) SW) as (r & R1 & R2 & R3). rewrite R1. cbn [bind]. destruct (bop_fits Rmult A r) as (k & B1 & B2 & B3); [rewrite R2, SA; repeat constructor; tauto|].
    exists k. split; [exact B1|]. split; [exact B2|]. intros idx I. rewrite B3 by exact I. rewrite SA in I. destruct (IX _ _ _ _ _ I) as (i & j & m & n & -> & _ & _ & L & _). rewrite R3 by exact L. reflexivity.
  - destruct (bop_fits Rmult A (along 0 ws)) as (k & B1 & B2 & B3); [rewrite (along_at 0 ws (l_out l) SW) by lia; rewrite SA; cbn; repeat constructor; tauto|].
    exists k. split; [exact B1|]. split; [exact B2|]. intros idx I. rewrite B3 by exact I. rewrite SA in I. destruct (IX _ _ _ _ _ I) as (i & j & m & n & -> & L & _). rewrite (along_at 0 ws (l_out l) SW) by lia. cbn. destruct (Nat.eqb_spec (l_out l) 1); [assert (i = 0)%nat as -> by lia|]; reflexivity.
  - rewrite (ST eq_refl). cbn [Nat.ltb Nat.leb]. destruct (bop_fits Rmult A (along 1 ws)) as (k & B1 & B2 & B3); [rewrite (along_at 1 ws (l_out l) SW) by lia; rewrite SA; cbn; repeat constructor; tauto|].
    exists k. split; [exact B1|]. split; [exact B2|]. intros idx I. rewrite B3 by exact I. rewrite SA in I. destruct (IX _ _ _ _ _ I) as (i & j & m & n & -> & _ & L & _). rewrite (along_at 1 ws (l_out l) SW) by lia. cbn. destruct (Nat.eqb_spec (l_out l) 1); [assert (j = 0)%nat as -> by lia|]; reflexivity.
Qed.
Theorem refused_quantization l b t : lin_wf l -> foldable_kind (l_kind l) = true -> single_axis l -> bn_wf (l_out l) b -> l_bias l <> None -> b_gamma b <> None -> b_beta b <> None -> per_channel l t ->
  exists v ws l' t', bop Rplus (b_var b) (scalar (b_eps b)) = Ok v /\ bop Rdiv (opt (b_gamma b) 1) (nmap sqrt v) = Ok ws /\ refuse l b = Ok l' /\ refuse_threshold l t ws = Ok t' /\ shp t' = shp t /\ shp (l_kernel l') = shp (l_kernel l) /\
    forall idx, inb (shp (l_kernel l)) idx -> let s := at_ ws [nth (out_axis (l_kind l)) idx 0%nat] in
      bget t' idx = bget t idx * s /\
      forall grid : R -> R, s <> 0 -> bget t' idx * grid (at_ (l_kernel l') idx / bget t' idx) = s * (bget t idx * grid (at_ (l_kernel l) idx / bget t idx)).
Proof.
  intros W F SX BW B1 B2 B3 PT. destruct (scale_spec _ b BW) as (v & ws & V1 & S1 & S2 & S3).
  assert (G : groups_ok l) by (intro K; left; apply (proj2 SX), K).
  destruct (refusing l b W F G BW B1 B2 B3) as (l' & E & _). destruct (update_chan l 1 1 1 t ws F SX PT S2) as (t' & T1 & T2 & T3).
  assert (KS : exists a w c, shp (l_kernel l) = chan_shape (l_kind l) (l_out l) a w c).
  { pose proof (ksize_shape l W) as SH. unfold kernel_shape, chan_shape in *. destruct (l_kind l) eqn:K; try discriminate F; rewrite SH; [eexists _, _, _; reflexivity| |eexists _, _, _; reflexivity|eexists _, _, _; reflexivity|].
    - eexists _, _, 1%nat. rewrite (proj1 SX K), Nat.div_same by (pose proof (lw_in l W); lia). reflexivity.
    - pose proof (lw_div_out l W) as D. rewrite (proj2 SX K), Nat.mul_1_l in D. rewrite <- D. eexists _, _, _. reflexivity. }
  destruct KS as (a & w & c & KS). destruct (update_chan l a w c (l_kernel l) ws F SX KS S2) as (k & K1 & K2 & K3).
  exists v, ws, l', t'. split; [exact V1|]. split; [exact S1|]. split; [exact E|]. split; [exact T1|]. split; [exact T2|].
  assert (LK : l_kernel l' = k).
  { unfold refuse in E. destruct (l_bias l), (b_gamma b), (b_beta b); try congruence. rewrite V1 in E. cbn [bind] in E. cbn [opt] in S1. rewrite S1 in E. cbn [bind] in E. destruct (bop Rminus n (b_mean b)) as [d|]; cbn [bind] in E; [|discriminate]. destruct (bop Rmult d ws) as [d'|]; cbn [bind] in E; [|discriminate]. destruct (bop Rplus n1 d') as [d''|]; cbn [bind] in E; [|discriminate]. rewrite K1 in E. cbn [bind] in E. injection E as <-. reflexivity. }
  rewrite LK. split; [exact K2|]. intros idx I s.
  assert (LI : length idx = 4%nat) by (rewrite (inb_length _ _ I), KS; destruct (l_kind l); reflexivity).
  assert (BT : bget t' idx = bget t idx * s).
  { unfold bget. rewrite T2. unfold per_channel in PT. assert (LT : length (shp t) = 4%nat) by (rewrite PT; destruct (l_kind l); reflexivity). rewrite LI, LT. cbn [Nat.sub skipn].
    rewrite KS in I. rewrite PT. rewrite PT in T3. pose proof (lw_out l W) as LO. assert (OC : (nth (out_axis (l_kind l)) idx 0 < l_out l)%nat /\ nth (out_axis (l_kind l)) (mask (chan_shape (l_kind l) (l_out l) 1 1 1) idx) 0%nat = nth (out_axis (l_kind l)) idx 0%nat /\ inb (chan_shape (l_kind l) (l_out l) 1 1 1) (mask (chan_shape (l_kind l) (l_out l) 1 1 1) idx)).
    { destruct idx as [|i [|j [|m [|n [|]]]]]; try discriminate LI. destruct (l_kind l); try discriminate F; cbn [chan_shape out_axis nth] in *; apply inb4 in I; destruct I as (I1 & I2 & I3 & I4); (split; [assumption|]); cbn; (destruct (Nat.eqb_spec (l_out l) 1); (split; [lia|apply inb4; repeat split; lia])). }
    destruct OC as (OC1 & OC2 & OC3). rewrite T3 by exact OC3. rewrite OC2. reflexivity. }
  split; [exact BT|]. intros grid NZ. rewrite K3 by exact I. rewrite BT. fold s. destruct (Req_dec (bget t idx) 0) as [Z|Z].
  - rewrite Z. ring.
  - replace (at_ (l_kernel l) idx * s / (bget t idx * s)) with (at_ (l_kernel l) idx / bget t idx) by (field; tauto). ring.
Qed.
Print Assumptions refused_quantization.
