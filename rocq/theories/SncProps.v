(* SncProps.v -- C40: the layer after a shifted activation. *)
From Coq Require Import FunctionalExtensionality.
From Verif Require Import LinNode LinSpec BnModel BnSpec LinProofs BnProofs LinGraph GraphModel SncModel SncSpec SncProofs.

Definition hw_of (d : option pads) (hw : Z * Z) : Z * Z := match d with Some d => pad_hw d hw | None => hw end.
Definition val_of (d : option pads) (s : R) (hw : Z * Z) (x : tensor) : tensor := match d with Some d => pad_val d s hw x | None => x end.
Lemma kernel_sizes l : lin_wf l -> dense (l_kind l) = false -> kernel_size l 0 = Z.of_nat (fst (ksize l)) /\ kernel_size l 1 = Z.of_nat (snd (ksize l)).
Proof.
  intros W D. pose proof (ksize_shape l W) as SH. unfold kernel_shape in SH. unfold kernel_size, kernel_hw. destruct (l_kind l); try discriminate; rewrite SH; auto.
Qed.
Lemma wf_pad l p : lin_wf l -> lin_wf (set_pad l p).
Proof. intros [A B C D E F G H K]. split; assumption. Qed.
Lemma weight_total_pad l p o : weight_total (set_pad l p) o = weight_total l o.
Proof. reflexivity. Qed.

(* the layer after the pass computes on the shifted (and padded) image what it computed on the image *)
Theorem snc_layer l hw s : lin_wf l -> corrected_kind (l_kind l) = true -> strided l -> (0 < fst (ksize l))%nat -> (0 < snd (ksize l))%nat -> pad_replaceable l hw ->
  exists l' d, correct_layer l hw (out_hw l hw) None s = Ok (l', d) /\ lin_wf l' /\ l_kind l' = l_kind l /\ l_in l' = l_in l /\ l_out l' = l_out l /\ l_kernel l' = l_kernel l /\
    match d with Some d => nonneg d | None => True end /\ out_hw l' (hw_of d hw) = out_hw l hw /\
    forall x y o p, (o < l_out l)%nat -> pos_in (out_hw l hw) p -> (forall c q, (c < l_in l)%nat -> pos_in hw q -> y c q = x c q + s) ->
      lin_val l' (hw_of d hw) (val_of d s hw y) o p = lin_val l hw x o p.
Proof.
  intros W K [S1 S2] K1 K2 PR. unfold correct_layer. cbn [bind].
  assert (FIN : forall pad0 d, (match d with Some d => nonneg d | None => True end) ->
    (forall b, out_hw (set_pad l pad0) (hw_of d hw) = out_hw l hw /\ forall x y o p, (o < l_out l)%nat -> pos_in (out_hw l hw) p -> (forall c q, (c < l_in l)%nat -> pos_in hw q -> y c q = x c q + s) -> bias_val (set_weights (set_pad l pad0) (l_kernel l) (Some b) true) o = bias_val l o - s * weight_total l o ->
      lin_val (set_weights (set_pad l pad0) (l_kernel l) (Some b) true) (hw_of d hw) (val_of d s hw y) o p = lin_val l hw x o p) ->
    exists l' d', (let! l' := op2d_bias_correction (set_pad l pad0) s in Ok (l', d)) = Ok (l', d') /\ lin_wf l' /\ l_kind l' = l_kind l /\ l_in l' = l_in l /\ l_out l' = l_out l /\ l_kernel l' = l_kernel l /\
      match d' with Some d => nonneg d | None => True end /\ out_hw l' (hw_of d' hw) = out_hw l hw /\
      forall x y o p, (o < l_out l)%nat -> pos_in (out_hw l hw) p -> (forall c q, (c < l_in l)%nat -> pos_in hw q -> y c q = x c q + s) ->
      lin_val l' (hw_of d' hw) (val_of d' s hw y) o p = lin_val l hw x o p).
  { intros pad0 d ND H. destruct (bias_correction_spec (set_pad l pad0) s (wf_pad l pad0 W) K) as (b & -> & SB & HB). cbn [bind]. eexists. exists d. split; [reflexivity|]. split; [apply wf_set; [apply wf_pad, W|reflexivity|exact SB]|]. do 4 (split; [reflexivity|]). split; [exact ND|]. destruct (H b) as [H1 H2]. split; [exact H1|].
    intros x y o p O P Y. apply H2; try assumption. unfold bias_val. cbn [set_weights l_use_bias l_bias]. rewrite HB by exact O. reflexivity. }
  destruct (dense (l_kind l)) eqn:D.
  { (* no positions *) assert (G : get_padding_values l hw (out_hw l hw) = (None, l)) by (unfold get_padding_values; destruct (l_kind l); discriminate || reflexivity). rewrite G. cbn [fst snd]. pose proof (FIN (l_pad l) None I) as X. rewrite !set_pad_same in X. apply X. intro b. split; [reflexivity|]. intros x y o p O P Y B. cbn [hw_of val_of].
    apply (lin_val_shift l (Some b) s); [|exact B]. intros h w _ _. exists p. unfold tap. rewrite D. split; [reflexivity|]. intros i Hi. apply Y; [exact Hi|]. unfold out_hw, out_dim in P. rewrite D in P. exact P. }
  assert (T : transposed (l_kind l) = false) by (destruct (l_kind l); discriminate || reflexivity).
  destruct (kernel_sizes l W D) as [Q1 Q2].
  assert (NOPAD : forall pad0, dim_ok l pad0 fst (fst hw) 0 0 -> dim_ok l pad0 snd (snd hw) 0 0 -> forall b, out_hw (set_pad l pad0) hw = out_hw l hw /\ forall x y o p, (o < l_out l)%nat -> pos_in (out_hw l hw) p -> (forall c q, (c < l_in l)%nat -> pos_in hw q -> y c q = x c q + s) -> bias_val (set_weights (set_pad l pad0) (l_kernel l) (Some b) true) o = bias_val l o - s * weight_total l o ->
      lin_val (set_weights (set_pad l pad0) (l_kernel l) (Some b) true) hw y o p = lin_val l hw x o p).
  { intros pad0 D1 D2 b. destruct (no_pad_core l pad0 hw s (Some b) D T D1 D2) as [A B]. split; [exact A|]. intros x y o p _. apply B. }
  assert (PADS : forall pad0 d, dim_ok l pad0 fst (fst hw) (p_top d) (p_btm d) -> dim_ok l pad0 snd (snd hw) (p_left d) (p_right d) -> forall b, out_hw (set_pad l pad0) (pad_hw d hw) = out_hw l hw /\ forall x y o p, (o < l_out l)%nat -> pos_in (out_hw l hw) p -> (forall c q, (c < l_in l)%nat -> pos_in hw q -> y c q = x c q + s) -> bias_val (set_weights (set_pad l pad0) (l_kernel l) (Some b) true) o = bias_val l o - s * weight_total l o ->
      lin_val (set_weights (set_pad l pad0) (l_kernel l) (Some b) true) (pad_hw d hw) (pad_val d s hw y) o p = lin_val l hw x o p).
  { intros pad0 d D1 D2 b. destruct (pad_node_core l pad0 hw d s (Some b) D T D1 D2) as [A B]. split; [exact A|]. intros x y o p _. apply B. }
  assert (KERAS : (l_kind l = K_conv \/ l_kind l = K_dw) -> exists l' d, (let! l' := op2d_bias_correction (snd (get_padding_values l hw (out_hw l hw))) s in Ok (l', match fst (get_padding_values l hw (out_hw l hw)) with Some p => if (0 <? p_top p + p_btm p + p_left p + p_right p)%Z then Some p else None | None => None end)) = Ok (l', d) /\ lin_wf l' /\ l_kind l' = l_kind l /\ l_in l' = l_in l /\ l_out l' = l_out l /\ l_kernel l' = l_kernel l /\
      match d with Some d => nonneg d | None => True end /\ out_hw l' (hw_of d hw) = out_hw l hw /\
      forall x y o p, (o < l_out l)%nat -> pos_in (out_hw l hw) p -> (forall c q, (c < l_in l)%nat -> pos_in hw q -> y c q = x c q + s) -> lin_val l' (hw_of d hw) (val_of d s hw y) o p = lin_val l hw x o p).
  { intro KK. assert (GP : get_padding_values l hw (out_hw l hw) = match l_pad l with P_same => if Z.eqb (kernel_size l 0) 1 && Z.eqb (kernel_size l 1) 1 then (None, l) else (Some (compute_op2d_padding l hw (out_hw l hw)), set_pad l P_valid) | _ => (None, l) end) by (unfold get_padding_values; destruct KK as [-> | ->]; reflexivity).
    rewrite GP. destruct (l_pad l) as [| |pa pb] eqn:P.
    - cbn [fst snd]. pose proof (FIN P_valid None I (NOPAD P_valid (dim_valid l fst _ D T S1 P) (dim_valid l snd _ D T S2 P))) as X. assert (SP : set_pad l P_valid = l) by (rewrite <- P; apply set_pad_same). rewrite SP in X. exact X.
    - rewrite Q1, Q2. destruct (Z.eqb_spec (Z.of_nat (fst (ksize l))) 1) as [E1|E1]; [destruct (Z.eqb_spec (Z.of_nat (snd (ksize l))) 1) as [E2|E2]|]; cbn [andb].
      + cbn [fst snd]. assert (E1' : fst (ksize l) = 1%nat) by lia. assert (E2' : snd (ksize l) = 1%nat) by lia. pose proof (FIN P_same None I (NOPAD P_same (dim_one l fst _ D T S1 E1' P) (dim_one l snd _ D T S2 E2' P))) as X. assert (SP : set_pad l P_same = l) by (rewrite <- P; apply set_pad_same). rewrite SP in X. exact X.
      + clear E1 E2. unfold pad_replaceable in PR. assert (PR' : let th := same_total (fst hw) (Z.of_nat (fst (ksize l))) (Z.of_nat (fst (l_stride l))) in let tw := same_total (snd hw) (Z.of_nat (snd (ksize l))) (Z.of_nat (snd (l_stride l))) in l_dil l = (1, 1)%nat /\ ((0 <= th /\ 0 <= tw) \/ (th <= 0 /\ tw <= 0))%Z) by (destruct KK as [KK|KK]; rewrite KK, P in PR; exact PR). clear PR.
        revert PR'. set (th := same_total (fst hw) _ _). set (tw := same_total (snd hw) _ _). intros [DL SG].
        assert (CP : compute_op2d_padding l hw (out_hw l hw) = Pads (th / 2) (th - th / 2) (tw / 2) (tw - tw / 2)).
        { unfold compute_op2d_padding, out_hw, out_dim. rewrite D, T, P, Q1, Q2. cbn [fst snd]. unfold th, tw, same_total. f_equal; repeat (f_equal; try ring). }
        rewrite CP. cbn [fst snd p_top p_btm p_left p_right]. replace (th / 2 + (th - th / 2) + tw / 2 + (tw - tw / 2))%Z with (th + tw)%Z by ring. destruct (Z.ltb_spec 0 (th + tw)) as [G|G].
        * assert (PO : (0 <= th /\ 0 <= tw)%Z) by lia. apply FIN; [|apply PADS; apply dim_same_pos; try assumption; try (rewrite DL; reflexivity); apply PO].
          assert (HV : forall t, (0 <= t)%Z -> (0 <= t / 2 /\ 0 <= t - t / 2)%Z) by (intros t Q; pose proof (Z.div_pos t 2 Q ltac:(lia)); pose proof (Z.mul_div_le t 2 ltac:(lia)); lia). destruct PO as [PO1 PO2]. destruct (HV _ PO1), (HV _ PO2). repeat split; assumption.
        * apply FIN; [exact I|]. apply NOPAD; apply dim_same_neg; try assumption; try (rewrite DL; reflexivity); fold th tw; lia.
      + clear E1. unfold pad_replaceable in PR. assert (PR' : let th := same_total (fst hw) (Z.of_nat (fst (ksize l))) (Z.of_nat (fst (l_stride l))) in let tw := same_total (snd hw) (Z.of_nat (snd (ksize l))) (Z.of_nat (snd (l_stride l))) in l_dil l = (1, 1)%nat /\ ((0 <= th /\ 0 <= tw) \/ (th <= 0 /\ tw <= 0))%Z) by (destruct KK as [KK|KK]; rewrite KK, P in PR; exact PR). clear PR.
        revert PR'. set (th := same_total (fst hw) _ _). set (tw := same_total (snd hw) _ _). intros [DL SG].
        assert (CP : compute_op2d_padding l hw (out_hw l hw) = Pads (th / 2) (th - th / 2) (tw / 2) (tw - tw / 2)).
        { unfold compute_op2d_padding, out_hw, out_dim. rewrite D, T, P, Q1, Q2. cbn [fst snd]. unfold th, tw, same_total. f_equal; repeat (f_equal; try ring). }
        rewrite CP. cbn [fst snd p_top p_btm p_left p_right]. replace (th / 2 + (th - th / 2) + tw / 2 + (tw - tw / 2))%Z with (th + tw)%Z by ring. destruct (Z.ltb_spec 0 (th + tw)) as [G|G].
        * assert (PO : (0 <= th /\ 0 <= tw)%Z) by lia. apply FIN; [|apply PADS; apply dim_same_pos; try assumption; try (rewrite DL; reflexivity); apply PO].
          assert (HV : forall t, (0 <= t)%Z -> (0 <= t / 2 /\ 0 <= t - t / 2)%Z) by (intros t Q; pose proof (Z.div_pos t 2 Q ltac:(lia)); pose proof (Z.mul_div_le t 2 ltac:(lia)); lia). destruct PO as [PO1 PO2]. destruct (HV _ PO1), (HV _ PO2). repeat split; assumption.
        * apply FIN; [exact I|]. apply NOPAD; apply dim_same_neg; try assumption; try (rewrite DL; reflexivity); fold th tw; lia.
    - exfalso. unfold pad_replaceable in PR. destruct KK as [KK|KK]; rewrite KK, P in PR; exact PR. }
  assert (KK : (l_kind l = K_conv \/ l_kind l = K_dw) \/ l_kind l = T_conv) by (destruct (l_kind l); try discriminate; auto). destruct KK as [KK|KD]; [apply KERAS, KK|]. clear KERAS.
  assert (GP : get_padding_values l hw (out_hw l hw) = match l_pad l with P_num a b => (Some (Pads (Z.of_nat a) (Z.of_nat a) (Z.of_nat b) (Z.of_nat b)), set_pad l (P_num 0 0)) | _ => (None, l) end) by (unfold get_padding_values; rewrite KD; reflexivity).
  rewrite GP. unfold pad_replaceable in PR. rewrite KD in PR. destruct (l_pad l) as [| |pa pb] eqn:P; [|destruct PR|].
  - cbn [fst snd]. pose proof (FIN P_valid None I (NOPAD P_valid (dim_valid l fst _ D T S1 P) (dim_valid l snd _ D T S2 P))) as X. assert (SP : set_pad l P_valid = l) by (rewrite <- P; apply set_pad_same). rewrite SP in X. exact X.
  - cbn [fst snd p_top p_btm p_left p_right]. destruct (Z.ltb_spec 0 (Z.of_nat pa + Z.of_nat pa + Z.of_nat pb + Z.of_nat pb)) as [G|G].
    + apply FIN; [unfold nonneg; cbn; lia|]. apply PADS; cbn [p_top p_btm p_left p_right]; [apply (dim_num l fst (fst hw) pa pb)|apply (dim_num l snd (snd hw) pa pb)]; assumption || reflexivity.
    + apply FIN; [exact I|]. assert (Z1 : pa = 0%nat) by lia. assert (Z2 : pb = 0%nat) by lia. subst. apply NOPAD; [apply (dim_num l fst (fst hw) 0 0)|apply (dim_num l snd (snd hw) 0 0)]; assumption || reflexivity.
Qed.
Print Assumptions snc_layer.

(* a zero padding node in front of the layer becomes a node that pads with the shift *)
Theorem snc_zero_padding l hw z s : lin_wf l -> l_kind l = K_conv \/ l_kind l = K_dw -> strided l -> l_pad l = P_valid -> nonneg z ->
  exists l' d, correct_layer l (pad_hw z hw) (out_hw l (pad_hw z hw)) (Some z) s = Ok (l', d) /\ lin_wf l' /\ l_kind l' = l_kind l /\ l_in l' = l_in l /\ l_out l' = l_out l /\ l_kernel l' = l_kernel l /\
    (d = Some z \/ (d = None /\ z = no_pads)) /\ out_hw l' (hw_of d hw) = out_hw l (pad_hw z hw) /\
    forall x y o p, (o < l_out l)%nat -> pos_in (out_hw l (pad_hw z hw)) p -> (forall c q, (c < l_in l)%nat -> pos_in hw q -> y c q = x c q + s) ->
      lin_val l' (hw_of d hw) (val_of d s hw y) o p = lin_val l (pad_hw z hw) (pad_val z 0 hw x) o p.
Proof.
  intros W K [S1 S2] P (N1 & N2 & N3 & N4).
  assert (D : dense (l_kind l) = false) by (destruct K as [-> | ->]; reflexivity). assert (T : transposed (l_kind l) = false) by (destruct K as [-> | ->]; reflexivity).
  assert (KK : is_keras (l_kind l) = true) by (destruct K as [-> | ->]; reflexivity). assert (CK : corrected_kind (l_kind l) = true) by (destruct K as [-> | ->]; reflexivity).
  unfold correct_layer. rewrite KK. cbn [bind snd fst]. destruct (bias_correction_spec l s W CK) as (b & -> & SB & HB). cbn [bind]. eexists. eexists. split; [reflexivity|]. split; [apply wf_set; [exact W|reflexivity|exact SB]|]. do 4 (split; [reflexivity|]).
  set (d := if (0 <? p_top z + p_btm z + p_left z + p_right z)%Z then Some z else None).
  assert (DZ : d = Some z \/ d = None /\ z = no_pads). { unfold d. destruct (Z.ltb_spec 0 (p_top z + p_btm z + p_left z + p_right z)); [left; reflexivity|right; split; [reflexivity|]]. destruct z as [a b' c e]. cbn in *. unfold no_pads. f_equal; lia. }
  split; [exact DZ|]. assert (HW : hw_of d hw = pad_hw z hw) by (destruct DZ as [->|[-> ->]]; cbn [hw_of]; [reflexivity|rewrite pad_hw_none; reflexivity]). rewrite HW. split; [reflexivity|]. intros x y o p O PI Y.
  destruct (no_pad_core l P_valid (pad_hw z hw) s (Some b) D T (dim_valid l fst _ D T S1 P) (dim_valid l snd _ D T S2 P)) as [_ B].
  assert (SP : set_pad l P_valid = l) by (rewrite <- P; apply set_pad_same). rewrite SP in B. clear SP. apply B; [exact PI| |unfold bias_val; cbn [set_weights l_use_bias l_bias]; rewrite HB by exact O; reflexivity].
  assert (Y' : forall c q, (c < l_in l)%nat -> pad_val z s hw y c q = pad_val z 0 hw x c q + s). { intros c q Hc. unfold pad_val. destruct (inside_hw hw (fst q - p_top z, snd q - p_left z)%Z) eqn:I; [apply Y; [exact Hc|apply inside_hw_spec, I]|ring]. }
  intros c q Hc Q. destruct DZ as [->|[-> ->]]; cbn [val_of]; [apply Y', Hc|]. rewrite pad_hw_none in Q. rewrite <- (pad_val_none s hw y c q Q). apply Y', Hc.
Qed.
Print Assumptions snc_zero_padding.
