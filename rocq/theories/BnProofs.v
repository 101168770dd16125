(* BnProofs.v -- the affine map of a batch normalization and its folding. *)
From Verif Require Import LinNode LinSpec BnModel BnSpec LinProofs.

Lemma isvec_opt C o d : match o with Some a => shp a = [C] | None => True end -> isvec C (opt o d) (par o d).
Proof. destruct o as [a|]; intro H; [exact (isvec_of C a H)|exact (isvec_scalar C d)]. Qed.
Lemma bias_val_par l o : lin_wf l -> bias_val l o = par (l_bias l) 0 o.
Proof. intro W. pose proof (lw_bias l W) as B. unfold bias_val, par. destruct (l_bias l) as [b|]; [destruct B as [_ ->]; reflexivity|destruct (l_use_bias l); reflexivity]. Qed.
Lemma wf_bias l : lin_wf l -> match l_bias l with Some a => shp a = [l_out l] | None => True end.
Proof. intro W. pose proof (lw_bias l W). destruct (l_bias l); tauto. Qed.
Lemma wf_set l k b : lin_wf l -> shp k = shp (l_kernel l) -> shp b = [l_out l] -> lin_wf (set_weights l k (Some b) true).
Proof.
  intros W K B. destruct W as [S ? ? ? ? ? ? ? ?]. constructor; cbn; try assumption; [|auto]. destruct S as (kh & kw & S). exists kh, kw. rewrite K, S. unfold kernel_shape. reflexivity.
Qed.
Lemma same_set l k b u : shp k = shp (l_kernel l) -> same_node (set_weights l k b u) l.
Proof. intro H. repeat split. apply ksize_set, H. Qed.

Definition bn_scale (b : bn) (c : nat) : R := par (b_gamma b) 1 c / sqrt (at_ (b_var b) [c] + b_eps b).
Definition bn_shift (b : bn) (c : nat) : R := par (b_beta b) 0 c - at_ (b_mean b) [c] * bn_scale b c.
Lemma bn_affine b x c p : bn_val b x c p = bn_scale b c * x c p + bn_shift b c.
Proof. unfold bn_val, bn_shift, bn_scale, Rdiv. ring. Qed.

Lemma scale_spec C b : bn_wf C b -> exists v ws, bop Rplus (b_var b) (scalar (b_eps b)) = Ok v /\ bop Rdiv (opt (b_gamma b) 1) (nmap sqrt v) = Ok ws /\ shp ws = [C] /\ isvec C ws (bn_scale b).
Proof.
  intro W. destruct (isvec_bop C Rplus (b_var b) (scalar (b_eps b)) _ _ (isvec_of C _ (bw_var C b W)) (isvec_scalar C (b_eps b))) as (v & V1 & V2 & V3).
  assert (SV : shp v = [C]) by (apply V3; left; apply (bw_var C b W)).
  destruct (isvec_bop C Rdiv (opt (b_gamma b) 1) (nmap sqrt v) _ _ (isvec_opt C _ 1 (bw_gamma C b W)) (isvec_map C sqrt v _ V2)) as (ws & S1 & S2 & S3).
  exists v, ws. split; [exact V1|]. split; [exact S1|]. split; [apply S3; right; exact SV|exact S2].
Qed.
Lemma fold_core l b beta bias bf ws : lin_wf l -> foldable_kind (l_kind l) = true -> groups_ok l -> bn_wf (l_out l) b -> shp ws = [l_out l] -> isvec (l_out l) ws (bn_scale b) ->
  isvec (l_out l) beta (par (b_beta b) 0) -> isvec (l_out l) bias bf -> (forall o, (o < l_out l)%nat -> bf o = bias_val l o) ->
  exists d e f k, bop Rminus bias (b_mean b) = Ok d /\ bop Rmult d ws = Ok e /\ bop Rplus beta e = Ok f /\ update_kernel l (l_kernel l) ws = Ok k /\
    let l' := set_weights l k (Some f) true in same_node l' l /\ lin_wf l' /\ forall hw x o p, (o < l_out l)%nat -> lin_val l' hw x o p = bn_val b (lin_val l hw x) o p.
Proof.
  intros W F G BW SW HW HB HI HV.
  destruct (isvec_bop _ Rminus bias (b_mean b) _ _ HI (isvec_of _ _ (bw_mean _ b BW))) as (d & D1 & D2 & D3). assert (SD : shp d = [l_out l]) by (apply D3; right; apply (bw_mean _ b BW)).
  destruct (isvec_bop _ Rmult d ws _ _ D2 HW) as (e & E1 & E2 & E3). assert (SE : shp e = [l_out l]) by (apply E3; left; exact SD).
  destruct (isvec_bop _ Rplus beta e _ _ HB E2) as (f & F1 & F2 & F3). assert (SF : shp f = [l_out l]) by (apply F3; right; exact SE).
  destruct (update_kernel_spec l ws (bn_scale b) W F G SW (isvec_at _ ws _ HW SW)) as (k & K1 & K2 & K3).
  exists d, e, f, k. split; [exact D1|]. split; [exact E1|]. split; [exact F1|]. split; [exact K1|]. split; [apply same_set; assumption|]. split; [apply wf_set; assumption|].
  intros hw x o p O. rewrite bn_affine. apply lin_val_affine.
  - exact K2.
  - intros h w i Hh Hw Hi. apply K3; assumption.
  - unfold bias_val at 1. cbn [set_weights l_use_bias l_bias]. rewrite (isvec_at _ f _ F2 SF o O). unfold bn_shift. rewrite HV by exact O. ring.
Qed.

(* lin_val of a 1x1 layer at a position that reads the input *)
Lemma lin_val_1x1 l hw x o p q : ksize l = (1, 1)%nat -> tap l hw 0 0 p = Some q -> lin_val l hw x o p = bias_val l o + rsum (l_in l) (fun i => weight l 0 0 i o * x i q).
Proof. intros K T. unfold lin_val. rewrite K. cbn [fst snd rsum]. rewrite T. ring. Qed.
Lemma forward_core l bias bf ws fac (s t : nat -> R) : lin_wf l -> ksize l = (1, 1)%nat -> takes_input_scale l -> shp ws = [l_in l] -> shp fac = [l_in l] -> isvec (l_in l) ws s -> isvec (l_in l) fac t ->
  isvec (l_out l) bias bf -> (forall o, (o < l_out l)%nat -> bf o = bias_val l o) ->
  exists k b, update_weights l (l_kernel l) bias ws fac = Ok (k, b) /\
    let l' := set_weights l k (Some b) true in same_node l' l /\ lin_wf l' /\ forall hw x y o p q, (o < l_out l)%nat -> tap l hw 0 0 p = Some q -> (forall i, (i < l_in l)%nat -> y i q = s i * x i q + t i) ->
      lin_val l' hw x o p = lin_val l hw y o p.
Proof.
  intros W KS T SW SF HW HF HB HV. destruct (update_weights_spec l bias bf ws fac W KS T SW SF HB) as (k & b & U1 & U2 & U3 & U4 & U5). exists k, b. split; [exact U1|]. split; [apply same_set; assumption|]. split; [apply wf_set; assumption|].
  intros hw x y o p q O TP Y. rewrite (lin_val_1x1 (set_weights l k (Some b) true) hw x o p q); [|rewrite ksize_set by exact U2; exact KS|rewrite tap_set by exact U2; exact TP]. rewrite (lin_val_1x1 l hw y o p q KS TP).
  unfold bias_val at 1. cbn [set_weights l_use_bias l_bias]. rewrite U5 by exact O. rewrite HV by exact O. rewrite Rplus_assoc. f_equal. rewrite <- rsum_plus. apply rsum_ext. intros i I. change (l_in (set_weights l k (Some b) true)) with (l_in l) in I.
  rewrite U4 by assumption. rewrite Y by exact I. rewrite (isvec_at _ ws _ HW SW i I), (isvec_at _ fac _ HF SF i I). ring.
Qed.
Lemma hw_one l : lin_wf l -> foldable_kind (l_kind l) = true -> forallb (Nat.eqb 1) (kernel_hw l) = true <-> ksize l = (1, 1)%nat.
Proof.
  intros W F. pose proof (ksize_shape l W) as SH. unfold kernel_hw. rewrite SH. unfold kernel_shape. destruct (ksize l) as [h w]. cbn [fst snd].
  destruct (l_kind l); try discriminate F; cbn [is_keras firstn skipn forallb]; rewrite !andb_true_iff, !Nat.eqb_eq; split; intro H; try (destruct H as (<- & <- & _); reflexivity); injection H as -> ->; auto.
Qed.
Lemma scale_kind l : takes_input_scale l -> foldable_kind (l_kind l) = true.
Proof. unfold takes_input_scale. destruct (l_kind l); cbn; tauto. Qed.
Lemma not_group l : lin_wf l -> takes_input_scale l -> is_group_conv l = false.
Proof.
  intros W T. unfold takes_input_scale in T. unfold is_group_conv. destruct (l_kind l); try reflexivity.
  - rewrite T. reflexivity.
  - destruct T as [->|[-> _]]; rewrite Nat.eqb_refl, ?orb_true_r; reflexivity.
  - rewrite T. cbn. rewrite orb_true_r. reflexivity.
Qed.
