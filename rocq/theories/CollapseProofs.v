(* CollapseProofs.v -- the collapsed kernels and biases. *)
From Verif Require Import LinNode LinSpec BnModel BnSpec LinProofs BnProofs LinGraph CollapseModel CollapseSpec.

Lemma pads_val k : (0 < k)%nat -> pads k = (k - 1, k - 1)%nat.
Proof. intro L. unfold pads. f_equal; [replace (2 * k - 1 - 1 + 1)%nat with (1 + (k - 1) * 2)%nat by lia|replace (2 * k - 1 - 1)%nat with (0 + (k - 1) * 2)%nat by lia]; rewrite Nat.div_add by lia; reflexivity. Qed.
Lemma unflat2 c b m : (b < c)%nat -> (m < c)%nat -> unflat [c; c] (b * c + m)%nat = [b; m].
Proof. intros B M. replace (b * c + m)%nat with (flat [c; c] [b; m]) by (cbn; lia). apply unflat_flat. apply inb2. auto. Qed.
(* the padded unit images *)
Definition unit_at (b m u v ph pw : nat) : R := if Nat.eqb b m && Nat.eqb u ph && Nat.eqb v pw then 1 else 0.
Lemma eye_nhwc c ph pw qh qw b u v m : (b < c)%nat -> (m < c)%nat ->
  at_ (zero_pad [(0, 0); (ph, qh); (pw, qw); (0, 0)]%nat (reshape_to (eye c) [c; 1; 1; c]%nat)) [b; u; v; m] = unit_at b m u v ph pw.
Proof.
  intros B M. cbn [zero_pad at_ shp reshape_to pad_idx fst snd]. rewrite !Nat.add_0_l. change (Nat.leb 0 b) with true. change (Nat.leb 0 m) with true. rewrite (proj2 (Nat.ltb_lt b c) B), (proj2 (Nat.ltb_lt m c) M). cbn [andb option_map]. unfold unit_at.
  destruct (Nat.eqb_spec u ph) as [->|U].
  - rewrite Nat.leb_refl, (proj2 (Nat.ltb_lt ph (ph + 1))) by lia. destruct (Nat.eqb_spec v pw) as [->|X].
    + rewrite Nat.leb_refl, (proj2 (Nat.ltb_lt pw (pw + 1))) by lia. cbn [andb option_map]. rewrite !Nat.sub_diag, !Nat.sub_0_r.
      replace (flat [c; 1; 1; c]%nat [b; 0; 0; m]%nat) with (b * c + m)%nat by (cbn; lia). cbn [eye shp at_]. rewrite unflat2 by assumption. cbn [nth]. rewrite !andb_true_r. reflexivity.
    + cbn [andb]. replace (Nat.leb pw v && Nat.ltb v (pw + 1))%bool with false; [cbn; rewrite !andb_false_r; reflexivity|]. symmetry. apply andb_false_iff. destruct (Nat.leb_spec pw v); [right; apply Nat.ltb_ge; lia|left; reflexivity].
  - replace (Nat.leb ph u && Nat.ltb u (ph + 1))%bool with false; [cbn; rewrite andb_false_r; reflexivity|]. symmetry. apply andb_false_iff. destruct (Nat.leb_spec ph u); [right; apply Nat.ltb_ge; lia|left; reflexivity].
Qed.
Lemma eye_nchw c ph pw qh qw b u v m : (b < c)%nat -> (m < c)%nat ->
  at_ (zero_pad [(0, 0); (0, 0); (ph, qh); (pw, qw)]%nat (reshape_to (eye c) [c; c; 1; 1]%nat)) [b; m; u; v] = unit_at b m u v ph pw.
Proof.
  intros B M. cbn [zero_pad at_ shp reshape_to pad_idx fst snd]. rewrite !Nat.add_0_l. change (Nat.leb 0 b) with true. change (Nat.leb 0 m) with true. rewrite (proj2 (Nat.ltb_lt b c) B), (proj2 (Nat.ltb_lt m c) M). cbn [andb option_map]. unfold unit_at.
  destruct (Nat.eqb_spec u ph) as [->|U].
  - rewrite Nat.leb_refl, (proj2 (Nat.ltb_lt ph (ph + 1))) by lia. destruct (Nat.eqb_spec v pw) as [->|X].
    + rewrite Nat.leb_refl, (proj2 (Nat.ltb_lt pw (pw + 1))) by lia. cbn [andb option_map]. rewrite !Nat.sub_diag, !Nat.sub_0_r.
      replace (flat [c; c; 1; 1]%nat [b; m; 0; 0]%nat) with (b * c + m)%nat by (cbn; lia). cbn [eye shp at_]. rewrite unflat2 by assumption. cbn [nth]. rewrite !andb_true_r. reflexivity.
    + cbn [andb]. replace (Nat.leb pw v && Nat.ltb v (pw + 1))%bool with false; [cbn; rewrite !andb_false_r; reflexivity|]. symmetry. apply andb_false_iff. destruct (Nat.leb_spec pw v); [right; apply Nat.ltb_ge; lia|left; reflexivity].
  - replace (Nat.leb ph u && Nat.ltb u (ph + 1))%bool with false; [cbn; rewrite andb_false_r; reflexivity|]. symmetry. apply andb_false_iff. destruct (Nat.leb_spec ph u); [right; apply Nat.ltb_ge; lia|left; reflexivity].
Qed.
(* a unit image picks one entry of the kernel *)
Lemma unit_sum kh kw c b y z (f : nat -> nat -> nat -> R) : (b < c)%nat -> (y < kh)%nat -> (z < kw)%nat ->
  rsum kh (fun i => rsum kw (fun j => rsum c (fun m => unit_at b m (y + i) (z + j) (kh - 1) (kw - 1) * f i j m))) = f (kh - 1 - y)%nat (kw - 1 - z)%nat b.
Proof.
  intros B Y Z. rewrite (rsum_one kh (kh - 1 - y)); [|lia|].
  - rewrite (rsum_one kw (kw - 1 - z)); [|lia|].
    + rewrite (rsum_one c b); [|exact B|].
      * unfold unit_at. replace (y + (kh - 1 - y))%nat with (kh - 1)%nat by lia. replace (z + (kw - 1 - z))%nat with (kw - 1)%nat by lia. rewrite !Nat.eqb_refl. cbn. ring.
      * intros m _ N. unfold unit_at. rewrite (proj2 (Nat.eqb_neq b m)) by congruence. cbn. ring.
    + intros j _ N. apply rsum_zero. intros m _. unfold unit_at. rewrite (proj2 (Nat.eqb_neq (z + j) (kw - 1))) by lia. rewrite andb_false_r. ring.
  - intros i _ N. apply rsum_zero. intros j _. apply rsum_zero. intros m _. unfold unit_at. rewrite (proj2 (Nat.eqb_neq (y + i) (kh - 1))) by lia. rewrite andb_false_r. cbn. ring.
Qed.
Lemma keras_kernel k1 k2 kh kw c m o : (0 < kh)%nat -> (0 < kw)%nat -> shp k1 = [kh; kw; c; m] -> shp k2 = [1; 1; m; o]%nat ->
  exists y1 y2, conv_nhwc (1, 1)%nat (zero_pad [(0%nat, 0%nat); pads (kh + 1 - 1); pads (kw + 1 - 1); (0%nat, 0%nat)] (reshape_to (eye c) [c; 1; 1; c]%nat)) k1 = Ok y1 /\ conv_nhwc (1, 1)%nat y1 k2 = Ok y2 /\
    let k := transpose [1; 2; 0; 3]%nat (flip [1; 2]%nat y2) in shp k = [kh; kw; c; o] /\
    forall h w i f, (h < kh)%nat -> (w < kw)%nat -> (i < c)%nat -> (f < o)%nat -> at_ k [h; w; i; f] = rsum m (fun j => at_ k1 [h; w; i; j] * at_ k2 [0; 0; j; f]%nat).
Proof.
  intros H0 W0 S1 S2. rewrite !Nat.add_sub, !pads_val by assumption. set (x := zero_pad _ _).
  assert (SX : shp x = [c; kh - 1 + 1 + (kh - 1); kw - 1 + 1 + (kw - 1); c]%nat). { unfold x. cbn [zero_pad shp pad_shape reshape_to fst snd]. rewrite !Nat.add_0_r. reflexivity. }
  unfold conv_nhwc at 1. rewrite SX, S1, Nat.eqb_refl, (proj2 (Nat.leb_le kh _)), (proj2 (Nat.leb_le kw _)) by lia. cbn [andb fst snd]. rewrite !Nat.div_1_r.
  replace (kh - 1 + 1 + (kh - 1) - kh + 1)%nat with kh by lia. replace (kw - 1 + 1 + (kw - 1) - kw + 1)%nat with kw by lia.
  match goal with |- exists y1 y2, Ok ?a = _ /\ _ => exists a; set (y1 := a) end. assert (SY : shp y1 = [c; kh; kw; m]) by reflexivity.
  assert (Y1 : forall b y z f, (b < c)%nat -> (y < kh)%nat -> (z < kw)%nat -> at_ y1 [b; y; z; f] = at_ k1 [kh - 1 - y; kw - 1 - z; b; f]%nat).
  { intros b y z f B Y Z. unfold y1. cbn [at_]. rewrite <- (unit_sum kh kw c b y z (fun i j n => at_ k1 [i; j; n; f]) B Y Z). apply rsum_ext. intros i _. apply rsum_ext. intros j _. apply rsum_ext. intros n N. rewrite !Nat.mul_1_r. unfold x. rewrite eye_nhwc by assumption. reflexivity. }
  clearbody y1. unfold conv_nhwc. rewrite SY, S2, Nat.eqb_refl, (proj2 (Nat.leb_le 1 kh)), (proj2 (Nat.leb_le 1 kw)) by lia. cbn [andb fst snd]. rewrite !Nat.div_1_r, !Nat.sub_add by assumption. eexists. split; [reflexivity|]. split; [reflexivity|].
  cbn [transpose flip shp]. split; [reflexivity|]. intros h w i f Hh Hw Hi Hf.
  cbn [transpose flip at_ shp length seq map index_of nth Nat.eqb flip_idx memb existsb orb]. cbn [rsum]. rewrite !Rplus_0_l. apply rsum_ext. intros j Hj. rewrite !Nat.mul_1_r, !Nat.add_0_r. rewrite Y1 by lia.
  replace (kh - 1 - (kh - 1 - h))%nat with h by lia. replace (kw - 1 - (kw - 1 - w))%nat with w by lia. reflexivity.
Qed.
Lemma torch_kernel k1 k2 n c m o : (0 < n)%nat -> shp k1 = [m; c; n; n] -> shp k2 = [o; m; 1; 1]%nat ->
  exists y1 y2, conv_nchw (1, 1)%nat (zero_pad [(0%nat, 0%nat); (0%nat, 0%nat); pads (n + 1 - 1); pads (n + 1 - 1)] (reshape_to (eye c) [c; c; 1; 1]%nat)) k1 = Ok y1 /\ conv_nchw (1, 1)%nat y1 k2 = Ok y2 /\
    let k := transpose [1; 0; 2; 3]%nat (flip [3; 2]%nat y2) in shp k = [o; c; n; n] /\
    forall h w i f, (h < n)%nat -> (w < n)%nat -> (i < c)%nat -> (f < o)%nat -> at_ k [f; i; h; w] = rsum m (fun j => at_ k1 [j; i; h; w] * at_ k2 [f; j; 0; 0]%nat).
Proof.
  intros H0 S1 S2. rewrite !Nat.add_sub, !pads_val by assumption. set (x := zero_pad _ _).
  assert (SX : shp x = [c; c; n - 1 + 1 + (n - 1); n - 1 + 1 + (n - 1)]%nat). { unfold x. cbn [zero_pad shp pad_shape reshape_to fst snd]. rewrite !Nat.add_0_r. reflexivity. }
  unfold conv_nchw at 1. rewrite SX, S1, Nat.eqb_refl, (proj2 (Nat.leb_le n _)) by lia. cbn [andb fst snd]. rewrite !Nat.div_1_r.
  replace (n - 1 + 1 + (n - 1) - n + 1)%nat with n by lia.
  match goal with |- exists y1 y2, Ok ?a = _ /\ _ => exists a; set (y1 := a) end. assert (SY : shp y1 = [c; m; n; n]) by reflexivity.
  assert (Y1 : forall b y z f, (b < c)%nat -> (y < n)%nat -> (z < n)%nat -> at_ y1 [b; f; y; z] = at_ k1 [f; b; n - 1 - y; n - 1 - z]%nat).
  { intros b y z f B Y Z. unfold y1. cbn [at_]. rewrite <- (unit_sum n n c b y z (fun i j q => at_ k1 [f; q; i; j]) B Y Z). apply rsum_ext. intros i _. apply rsum_ext. intros j _. apply rsum_ext. intros q N. rewrite !Nat.mul_1_r. unfold x. rewrite eye_nchw by assumption. reflexivity. }
  clearbody y1. unfold conv_nchw. rewrite SY, S2, Nat.eqb_refl, (proj2 (Nat.leb_le 1 n)) by lia. cbn [andb fst snd]. rewrite !Nat.div_1_r, !Nat.sub_add by assumption. eexists. split; [reflexivity|]. split; [reflexivity|].
  cbn [transpose flip shp]. split; [reflexivity|]. intros h w i f Hh Hw Hi Hf.
  cbn [transpose flip at_ shp length seq map index_of nth Nat.eqb flip_idx memb existsb orb]. cbn [rsum]. rewrite !Rplus_0_l. apply rsum_ext. intros j Hj. rewrite !Nat.mul_1_r, !Nat.add_0_r. rewrite Y1 by lia.
  replace (n - 1 - (n - 1 - h))%nat with h by lia. replace (n - 1 - (n - 1 - w))%nat with w by lia. reflexivity.
Qed.
(* the first bias through the 1x1 kernel *)
Lemma keras_bias b1 k2 m o : shp b1 = [m] -> shp k2 = [1; 1; m; o]%nat -> exists r q, reshape b1 [Some 1%nat; None] = Ok r /\ row_mul r (nsum [0; 1]%nat k2) = Ok q /\ (shp (squeeze q) = if Nat.eqb o 1 then [] else [o]) /\
  isvec o (squeeze q) (fun f => rsum m (fun j => at_ k2 [0; 0; j; f]%nat * at_ b1 [j])).
Proof.
  intros S1 S2. unfold reshape. rewrite S1. unfold infer. cbn -[Nat.modulo Nat.div Nat.mul]. ones. rewrite Nat.mod_1_r, Nat.div_1_r. cbn -[Nat.mul]. ones. rewrite Nat.eqb_refl.
  eexists. eexists. split; [reflexivity|]. unfold row_mul. cbn [shp reshape_to nsum]. rewrite S2. cbn [drop_axes memb existsb Nat.eqb orb]. rewrite Nat.eqb_refl. split; [reflexivity|].
  set (q := Nd [1%nat; o] _). assert (Q : forall f, (f < o)%nat -> at_ q [0%nat; f] = rsum m (fun j => at_ k2 [0; 0; j; f]%nat * at_ b1 [j])).
  { intros f F. unfold q. cbn [at_ nth]. apply rsum_ext. intros j Hj. cbn [reshape_to at_ flat prod]. ones. rewrite Nat.mul_0_l, Nat.add_0_r, Nat.add_0_l. rewrite S1. cbn [unflat prod]. rewrite Nat.div_1_r. cbn [nsum at_]. rewrite S2. cbn [sum_at memb existsb Nat.eqb orb rsum]. ring. }
  unfold squeeze. cbn [shp q filter Nat.eqb negb]. destruct (Nat.eqb_spec o 1) as [E|E]; cbn [negb].
  - split; [reflexivity|]. split; [left; reflexivity|]. intros f F. cbn. rewrite <- Q by exact F. replace f with 0%nat by lia. fold q. subst o. reflexivity.
  - split; [reflexivity|]. split; [right; reflexivity|]. intros f F. rewrite bget_same by (apply inb1, F). fold q. cbn [reshape_to at_ flat prod shp q unflat]. ones. rewrite Nat.add_0_r. rewrite (Nat.div_small f o), (Nat.mod_small f o), Nat.div_1_r by exact F. apply Q, F.
Qed.
Lemma torch_bias b1 k2 m o : shp b1 = [m] -> shp k2 = [o; m; 1; 1]%nat -> exists q, mat_vec (nsum [2; 3]%nat k2) b1 = Ok q /\ shp q = [o] /\ isvec o q (fun f => rsum m (fun j => at_ k2 [f; j; 0; 0]%nat * at_ b1 [j])).
Proof.
  intros S1 S2. unfold mat_vec. cbn [shp nsum]. rewrite S1, S2. cbn [drop_axes memb existsb Nat.eqb orb]. rewrite Nat.eqb_refl. eexists. split; [reflexivity|]. split; [reflexivity|]. split; [right; reflexivity|].
  intros f F. rewrite bget_same by (apply inb1, F). cbn [at_ nth]. apply rsum_ext. intros j Hj. cbn [nsum at_]. rewrite S2. cbn [sum_at memb existsb Nat.eqb orb rsum]. ring.
Qed.
Lemma plus_bias_spec C b b2 f g : (match b with Some v => isvec C v f | None => forall o, (o < C)%nat -> f o = 0 end) -> (match b2 with Some v => shp v = [C] | None => True end) -> (forall o, (o < C)%nat -> g o = par b2 0 o) ->
  exists r, plus_bias b b2 = Ok r /\ match r with
    | Some v => isvec C v (fun o => f o + g o) /\ (b2 <> None \/ (exists u, b = Some u /\ shp u = [C]) -> shp v = [C])
    | None => forall o, (o < C)%nat -> f o + g o = 0 end.
Proof.
  intros HB H2 HG. destruct b as [u|], b2 as [v|]; cbn [plus_bias].
  - destruct (isvec_bop C Rplus u v f _ HB (isvec_of C v H2)) as (r & R1 & R2 & R3). rewrite R1. cbn [bind]. eexists. split; [reflexivity|]. split; [|intros _; apply R3; right; exact H2]. apply (isvec_ext _ _ _ _ R2). intros o O. rewrite HG by exact O. reflexivity.
  - eexists. split; [reflexivity|]. split; [apply (isvec_ext _ _ _ _ HB); intros o O; rewrite (HG o O); cbn; ring|]. intros [H|(w & E & S)]; [congruence|]. injection E as <-. exact S.
  - eexists. split; [reflexivity|]. split; [|intros _; exact H2]. apply (isvec_ext _ _ _ _ (isvec_of C v H2)). intros o O. rewrite (HB o O), (HG o O). cbn. ring.
  - eexists. split; [reflexivity|]. intros o O. rewrite (HB o O), (HG o O). cbn. ring.
Qed.

(* ---- the composition ---- *)
Lemma tap_pointwise l hw p : dense (l_kind l) = false -> transposed (l_kind l) = false -> ksize l = (1, 1)%nat -> l_stride l = (1, 1)%nat -> (l_pad l = P_valid \/ l_pad l = P_same \/ l_pad l = P_num 0 0) -> pos_in hw p -> tap l hw 0 0 p = Some p.
Proof.
  intros D T K S P [P1 P2]. unfold tap, tap1. rewrite D, T, K, S. cbn [fst snd]. change (Z.of_nat 1) with 1%Z. change (Z.of_nat 0) with 0%Z.
  assert (B : forall n num d, (num (0, 0)%nat = 0%nat) -> before (l_pad l) (same_before n 1 1 d) num = 0%Z).
  { intros n num d N. destruct P as [-> | [-> | ->]]; cbn [before]; [reflexivity| |rewrite N; reflexivity]. unfold same_before, ceil_div. rewrite Z.div_1_r. replace (_ + _ - n)%Z with 0%Z by lia. reflexivity. }
  rewrite !B by reflexivity. unfold conv_tap, within. destruct p as [p q]. cbn [fst snd] in *. replace (1 * p + _ * 0 - 0)%Z with p by lia. replace (1 * q + _ * 0 - 0)%Z with q by lia.
  rewrite (proj2 (Z.leb_le 0 p)), (proj2 (Z.ltb_lt p _)), (proj2 (Z.leb_le 0 q)), (proj2 (Z.ltb_lt q _)) by lia. reflexivity.
Qed.
Lemma out_pointwise l hw : dense (l_kind l) = false -> transposed (l_kind l) = false -> ksize l = (1, 1)%nat -> l_stride l = (1, 1)%nat -> (l_pad l = P_valid \/ l_pad l = P_same \/ l_pad l = P_num 0 0) -> out_hw l hw = hw.
Proof.
  intros D T K S P. unfold out_hw, out_dim. rewrite D, T, K, S. cbn [fst snd]. change (Z.of_nat 1) with 1%Z. destruct hw as [h w]. cbn [fst snd]. destruct P as [-> | [-> | ->]]; cbn [fst snd]; unfold ceil_div; rewrite ?Z.div_1_r; f_equal; lia.
Qed.
Lemma conv_kind l1 l2 : conv_pair l1 l2 -> dense (l_kind l1) = false /\ transposed (l_kind l1) = false /\ dense (l_kind l2) = false /\ transposed (l_kind l2) = false /\ l_kind l2 = l_kind l1.
Proof. intros [[-> ->]|[-> ->]]; auto. Qed.
Lemma collapse_val l1 l2 l' hw x o p : conv_pair l1 l2 -> pointwise_after l1 l2 -> l_in l2 = l_out l1 ->
  l_kind l' = l_kind l1 -> ksize l' = ksize l1 -> l_stride l' = l_stride l1 -> l_dil l' = l_dil l1 -> l_pad l' = l_pad l1 -> l_in l' = l_in l1 ->
  (forall h w i, (h < fst (ksize l1))%nat -> (w < snd (ksize l1))%nat -> (i < l_in l1)%nat -> weight l' h w i o = rsum (l_out l1) (fun m => weight l1 h w i m * weight l2 0 0 m o)) ->
  bias_val l' o = rsum (l_out l1) (fun m => weight l2 0 0 m o * bias_val l1 m) + bias_val l2 o ->
  pos_in (out_hw l1 hw) p -> lin_val l' hw x o p = lin_val l2 (out_hw l1 hw) (lin_val l1 hw x) o p.
Proof.
  intros CP (K2 & (_ & S2 & _) & _ & _ & P2) CI EK EKS ES ED EP EI HW HB PI. destruct (conv_kind l1 l2 CP) as (D1 & T1 & D2 & T2 & _).
  rewrite (lin_val_1x1 l2 _ _ o p p K2) by (apply tap_pointwise; assumption). unfold lin_val at 1. rewrite EKS, EI, HB, CI.
  set (f := fun h w m => match tap l1 hw h w p with Some q => rsum (l_in l1) (fun i => weight l1 h w i m * x i q) | None => 0 end).
  rewrite (rsum_ext (l_out l1) (fun m => weight l2 0 0 m o * lin_val l1 hw x m p) (fun m => weight l2 0 0 m o * bias_val l1 m + rsum (fst (ksize l1)) (fun h => rsum (snd (ksize l1)) (fun w => weight l2 0 0 m o * f h w m)))).
  2:{ intros m _. unfold lin_val. rewrite Rmult_plus_distr_l. f_equal. rewrite <- rsum_scal. apply rsum_ext. intros h _. rewrite <- rsum_scal. reflexivity. }
  rewrite rsum_plus. rewrite (rsum_swap (l_out l1) (fst (ksize l1))).
  assert (X : rsum (fst (ksize l1)) (fun h => rsum (snd (ksize l1)) (fun w => match tap l' hw h w p with Some q => rsum (l_in l1) (fun i => weight l' h w i o * x i q) | None => 0 end)) =
              rsum (fst (ksize l1)) (fun j => rsum (l_out l1) (fun i => rsum (snd (ksize l1)) (fun w => weight l2 0 0 i o * f j w i)))); [|rewrite X; ring].
  apply rsum_ext. intros h Hh. rewrite rsum_swap. apply rsum_ext. intros w Hw.
  assert (TE : tap l' hw h w p = tap l1 hw h w p) by (unfold tap, tap1; rewrite EK, EKS, ES, ED, EP; reflexivity). rewrite TE. unfold f. destruct (tap l1 hw h w p) as [q|]; [|symmetry; apply rsum_zero; intros; ring].
  rewrite (rsum_ext (l_out l1) _ (fun m => rsum (l_in l1) (fun i => weight l1 h w i m * weight l2 0 0 m o * x i q))) by (intros m _; rewrite <- rsum_scal; apply rsum_ext; intros i _; ring).
  rewrite rsum_swap. apply rsum_ext. intros i Hi. rewrite HW by assumption. rewrite <- rsum_scal_r. reflexivity.
Qed.
Lemma pair_eqb_spec a b : pair_eqb a b = true <-> a = b.
Proof. unfold pair_eqb. rewrite andb_true_iff, !Nat.eqb_eq. destruct a, b. cbn. split; [intros [-> ->]; reflexivity|intro H; injection H; auto]. Qed.
Lemma collapsible_spec l1 l2 : collapsible l1 l2 = true <-> pointwise_after l1 l2.
Proof.
  unfold collapsible, pointwise_after. rewrite !andb_true_iff, !pair_eqb_spec, !Nat.eqb_eq.
  assert (P : match l_pad l2 with P_num a b => pair_eqb (a, b) (0, 0)%nat | _ => true end = true <-> (l_pad l2 = P_valid \/ l_pad l2 = P_same \/ l_pad l2 = P_num 0 0)).
  { destruct (l_pad l2) as [| |a b]; [tauto|tauto|]. rewrite pair_eqb_spec. split; [intro H; injection H as -> ->; tauto|]. intros [H|[H|H]]; try discriminate. injection H as -> ->. reflexivity. }
  tauto.
Qed.
