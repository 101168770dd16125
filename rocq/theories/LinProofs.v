(* LinProofs.v -- changing the weights of a linear layer. *)
From Verif Require Import LinNode LinSpec BnModel BnSpec.

Ltac ones := rewrite ?Nat.mul_1_r, ?Nat.mul_1_l.
Lemma ksize_set l k b u : shp k = shp (l_kernel l) -> ksize (set_weights l k b u) = ksize l.
Proof. intro H. unfold ksize. cbn. rewrite H. reflexivity. Qed.
Lemma tap_set l k b u hw h w p : shp k = shp (l_kernel l) -> tap (set_weights l k b u) hw h w p = tap l hw h w p.
Proof. intro H. unfold tap, tap1. rewrite (ksize_set l k b u H). reflexivity. Qed.
Lemma ksize_shape l : lin_wf l -> shp (l_kernel l) = kernel_shape l (fst (ksize l)) (snd (ksize l)) .
Proof.
  intros W. destruct (lw_shape l W) as (kh & kw & H). rewrite H at 1. unfold ksize. rewrite H. unfold kernel_shape. destruct (l_kind l); reflexivity.
Qed.
(* the output channel is scaled and shifted *)
Lemma lin_val_affine l k b u (s t : nat -> R) hw x o p : shp k = shp (l_kernel l) ->
  (forall h w i, (h < fst (ksize l))%nat -> (w < snd (ksize l))%nat -> (i < l_in l)%nat -> weight (set_weights l k b u) h w i o = s o * weight l h w i o) ->
  bias_val (set_weights l k b u) o = s o * bias_val l o + t o ->
  lin_val (set_weights l k b u) hw x o p = s o * lin_val l hw x o p + t o.
Proof.
  intros H HW HB. unfold lin_val. rewrite HB, (ksize_set l k b u H). rewrite Rmult_plus_distr_l, <- rsum_scal.
  rewrite (rsum_ext (fst (ksize l)) _ (fun h => s o * rsum (snd (ksize l)) (fun w => match tap l hw h w p with Some q => rsum (l_in l) (fun i => weight l h w i o * x i q) | None => 0 end))); [ring|].
  intros h Hh. rewrite <- rsum_scal. apply rsum_ext. intros w Hw. rewrite (tap_set l k b u hw h w p H). destruct (tap l hw h w p) as [q|]; [|ring].
  rewrite <- rsum_scal. apply rsum_ext. intros i Hi. cbn [set_weights l_in]. rewrite HW by assumption. ring.
Qed.

Lemma reshape_at3 v C : shp v = [C] -> exists r, reshape v [Some 1%nat; Some 1%nat; Some 1%nat; None] = Ok r /\ shp r = [1;1;1;C]%nat /\ forall a b c i, (i < C)%nat -> at_ r (mask (shp r) [a;b;c;i]) = at_ v [i].
Proof.
  intro H. unfold reshape. rewrite H. unfold infer. cbn -[Nat.modulo Nat.div Nat.mul]. ones. rewrite Nat.mod_1_r, Nat.div_1_r. cbn -[Nat.mul].
  ones. rewrite Nat.eqb_refl. eexists. split; [reflexivity|]. split; [reflexivity|]. intros a b c i L. unfold reshape_to. rewrite H. cbn -[Nat.div Nat.modulo]. rewrite Nat.div_1_r. f_equal. f_equal. destruct (Nat.eqb_spec C 1); lia.
Qed.
Lemma reshape_at2 v C : shp v = [C] -> exists r, reshape v [Some 1%nat; Some 1%nat; None; Some 1%nat] = Ok r /\ shp r = [1;1;C;1]%nat /\ forall a b c i, (i < C)%nat -> at_ r (mask (shp r) [a;b;i;c]) = at_ v [i].
Proof.
  intro H. unfold reshape. rewrite H. unfold infer. cbn -[Nat.modulo Nat.div Nat.mul]. ones. rewrite Nat.mod_1_r, Nat.div_1_r. cbn -[Nat.mul].
  ones. rewrite Nat.eqb_refl. eexists. split; [reflexivity|]. split; [reflexivity|]. intros a b c i L. unfold reshape_to. rewrite H. cbn -[Nat.div Nat.modulo]. rewrite Nat.div_1_r. f_equal. f_equal. destruct (Nat.eqb_spec C 1); lia.
Qed.
Lemma reshape_dw v C n m : shp v = [C] -> C = (n * m)%nat -> exists r, reshape v [Some 1%nat; Some 1%nat; Some n; Some m] = Ok r /\ shp r = [1;1;n;m]%nat /\ forall a b i j, (i < n)%nat -> (j < m)%nat -> at_ r (mask (shp r) [a;b;i;j]) = at_ v [i * m + j]%nat.
Proof.
  intros H E. unfold reshape. rewrite H. unfold infer. cbn -[Nat.modulo Nat.div Nat.mul]. ones. rewrite <- E, Nat.eqb_refl.
  eexists. split; [reflexivity|]. split; [reflexivity|]. intros a b i j L M. unfold reshape_to. rewrite H. cbn -[Nat.div Nat.modulo Nat.mul]. rewrite Nat.div_1_r. f_equal. f_equal.
  assert (X : (if Nat.eqb n 1 then 0 else i)%nat = i) by (destruct (Nat.eqb_spec n 1); lia). assert (Y : (if Nat.eqb m 1 then 0 else j)%nat = j) by (destruct (Nat.eqb_spec m 1); lia). rewrite X, Y. lia.
Qed.
Lemma along_at k v C : shp v = [C] -> (k < 4)%nat -> shp (along k v) = map (fun j => if Nat.eqb j k then C else 1%nat) (seq 0 4).
Proof. intros H L. unfold along. cbn [shp]. rewrite H. reflexivity. Qed.
Lemma mulmod a b c : (b < c)%nat -> ((a * c + b) / c = a /\ (a * c + b) mod c = b)%nat.
Proof. intro L. split; [rewrite Nat.div_add_l by lia; rewrite Nat.div_small by exact L; lia|rewrite Nat.add_comm, Nat.mod_add by lia; apply Nat.mod_small; exact L]. Qed.

(* scaling the output channels of the kernel *)
Lemma update_kernel_spec l ws s : lin_wf l -> foldable_kind (l_kind l) = true -> groups_ok l -> shp ws = [l_out l] -> (forall o, (o < l_out l)%nat -> at_ ws [o] = s o) ->
  exists k, update_kernel l (l_kernel l) ws = Ok k /\ shp k = shp (l_kernel l) /\
    forall b u h w i o, (h < fst (ksize l))%nat -> (w < snd (ksize l))%nat -> (i < l_in l)%nat -> (o < l_out l)%nat ->
      weight (set_weights l k b u) h w i o = s o * weight l h w i o.
Proof.
  intros W F G S HS. pose proof (ksize_shape l W) as SH. unfold kernel_shape in SH. set (kh := fst (ksize l)) in *. set (kw := snd (ksize l)) in *.
  assert (IP : (0 < in_per l)%nat) by (pose proof (lw_in l W); pose proof (lw_div_in l W); destruct (in_per l); lia).
  assert (OP : (0 < out_per l)%nat) by (pose proof (lw_out l W); pose proof (lw_div_out l W); destruct (out_per l); lia).
  unfold update_kernel. destruct (l_kind l) eqn:K; try discriminate F; cbn [is_keras].
  - (* Conv2D *) unfold keras_update_kernel. rewrite K. destruct (reshape_at3 ws (l_out l) S) as (r & R1 & R2 & R3). rewrite R1. cbn [bind].
    destruct (bop_fits Rmult (l_kernel l) r) as (k & B1 & B2 & B3); [rewrite R2, SH; repeat constructor; tauto|]. exists k. split; [exact B1|]. split; [exact B2|].
    intros b u h w i o Hh Hw Hi Ho. unfold weight, in_per, out_per in *. cbn. rewrite K. destruct (Nat.eqb _ _); [|ring].
    rewrite B3 by (rewrite SH; apply inb4; repeat split; try assumption; apply Nat.mod_upper_bound; lia). rewrite R3 by exact Ho. rewrite HS by exact Ho. ring.
  - (* DepthwiseConv2D *) unfold keras_update_kernel. rewrite K, SH. cbn [length Nat.sub nth]. pose proof (lw_dw l W K) as DW. set (m := (l_out l / l_in l)%nat) in *.
    destruct (reshape_dw ws (l_out l) (l_in l) m S DW) as (r & R1 & R2 & R3). rewrite R1. cbn [bind].
    destruct (bop_fits Rmult (l_kernel l) r) as (k & B1 & B2 & B3); [rewrite R2, SH; repeat constructor; tauto|]. exists k. split; [exact B1|]. split; [rewrite B2; exact SH|].
    assert (MP : (0 < m)%nat) by (pose proof (lw_out l W); destruct m; lia).
    intros b u h w i o Hh Hw Hi Ho. unfold weight. cbn. rewrite K. fold m. destruct (Nat.eqb_spec i (o / m)) as [E|E]; [|ring].
    assert (M : (o mod m < m)%nat) by (apply Nat.mod_upper_bound; lia).
    rewrite B3 by (rewrite SH; apply inb4; repeat split; assumption). rewrite R3 by assumption. rewrite E. rewrite Nat.mul_comm, <- Nat.div_mod by lia. rewrite HS by exact Ho. ring.
  - (* Conv2DTranspose *) unfold keras_update_kernel. rewrite K. destruct (reshape_at2 ws (l_out l) S) as (r & R1 & R2 & R3). rewrite R1. cbn [bind].
    destruct (bop_fits Rmult (l_kernel l) r) as (k & B1 & B2 & B3); [rewrite R2, SH; repeat constructor; tauto|]. exists k. split; [exact B1|]. split; [exact B2|].
    intros b u h w i o Hh Hw Hi Ho. unfold weight. cbn. rewrite K.
    rewrite B3 by (rewrite SH; apply inb4; repeat split; assumption). rewrite R3 by exact Ho. rewrite HS by exact Ho. ring.
  - (* Conv2d *) unfold torch_update_kernel. rewrite S, K.
    destruct (bop_fits Rmult (l_kernel l) (along 0 ws)) as (k & B1 & B2 & B3); [rewrite (along_at 0 ws (l_out l) S) by lia; rewrite SH; cbn; repeat constructor; tauto|]. exists k. split; [exact B1|]. split; [exact B2|].
    intros b u h w i o Hh Hw Hi Ho. unfold weight, in_per, out_per in *. cbn. rewrite K. destruct (Nat.eqb _ _); [|ring].
    rewrite B3 by (rewrite SH; apply inb4; repeat split; try assumption; apply Nat.mod_upper_bound; lia). rewrite (along_at 0 ws (l_out l) S) by lia. cbn.
    destruct (Nat.eqb_spec (l_out l) 1) as [E|E]; [replace 0%nat with o by lia|]; rewrite HS by exact Ho; ring.
  - (* ConvTranspose2d *) unfold torch_update_kernel. rewrite S, K. destruct (Nat.ltb_spec 1 (l_groups l)) as [LG|LG].
    + destruct (G K) as [G1|G1]; [lia|]. assert (IP1 : in_per l = 1%nat) by (unfold in_per; rewrite G1; apply Nat.div_same; lia).
      assert (DI : (l_in l / l_groups l = 1)%nat) by (exact IP1). rewrite DI. pose proof (lw_div_out l W) as DO. rewrite G1 in DO.
      unfold reshape at 1. rewrite SH. unfold infer. cbn -[Nat.modulo Nat.div Nat.mul]. ones.
      assert (O0 : (l_out l <> 0)%nat) by (pose proof (lw_out l W); lia). rewrite (proj2 (Nat.eqb_neq _ _) O0).
      replace (l_in l * (out_per l * (kh * kw)))%nat with (kh * kw * l_out l)%nat by (rewrite DO; ring). rewrite Nat.mod_mul, Nat.div_mul by exact O0. cbn -[Nat.mul]. ones.
      replace (l_out l * (kh * kw))%nat with (kh * kw * l_out l)%nat by ring. rewrite Nat.eqb_refl. cbn [bind].
      set (kr := reshape_to (l_kernel l) [1%nat; l_out l; (kh * kw)%nat; 1%nat]).
      destruct (bop_fits Rmult kr (along 1 ws)) as (k & B1 & B2 & B3); [rewrite (along_at 1 ws (l_out l) S) by lia; cbn; repeat constructor; tauto|]. rewrite B1. cbn [bind].
      unfold reshape. rewrite B2. unfold infer. cbn -[Nat.modulo Nat.div Nat.mul]. ones.
      replace (Nat.eqb (kh * kw * l_out l) (l_out l * (kh * kw))) with true by (symmetry; apply Nat.eqb_eq; ring).
      eexists. split; [reflexivity|]. split; [reflexivity|].
      intros b u h w i o Hh Hw Hi Ho. unfold weight, in_per, out_per in *. cbn [set_weights l_kernel l_kind l_in l_out l_groups]. rewrite K. destruct (Nat.eqb_spec (i / (l_in l / l_groups l)) (o / (l_out l / l_groups l))) as [E|E]; [|ring].
      rewrite DI, Nat.div_1_r in E. set (op := (l_out l / l_groups l)%nat) in *. assert (M : (o mod op < op)%nat) by (apply Nat.mod_upper_bound; lia).
      assert (EO : o = (i * op + o mod op)%nat) by (rewrite E at 1; rewrite Nat.mul_comm; apply Nat.div_mod; lia).
      set (c := (o mod op)%nat) in *. cbn [reshape_to at_].
      assert (FL : flat [l_in l; op; kh; kw] [i; c; h; w] = flat [1%nat; l_out l; (kh * kw)%nat; 1%nat] [0; o; h * kw + w; 0]%nat) by (cbn -[Nat.mul]; rewrite EO; ring).
      assert (I1 : inb [1%nat; l_out l; (kh * kw)%nat; 1%nat] [0; o; h * kw + w; 0]%nat) by (apply inb4; repeat split; try lia; nia).
      assert (I2 : inb [l_in l; op; kh; kw] [i; c; h; w]) by (apply inb4; repeat split; assumption).
      rewrite B2. cbn [shp kr reshape_to]. rewrite FL, unflat_flat by exact I1. rewrite B3 by exact I1. cbn [kr reshape_to at_]. rewrite SH, <- FL, unflat_flat by exact I2.
      rewrite (along_at 1 ws (l_out l) S) by lia. cbn. destruct (Nat.eqb_spec (l_out l) 1) as [E1|E1]; [replace 0%nat with o by lia|]; rewrite HS by exact Ho; ring.
    + assert (G1 : l_groups l = 1%nat) by (pose proof (lw_groups l W); lia). pose proof (lw_div_out l W) as DO. rewrite G1, Nat.mul_1_l in DO.
      destruct (bop_fits Rmult (l_kernel l) (along 1 ws)) as (k & B1 & B2 & B3); [rewrite (along_at 1 ws (l_out l) S) by lia; rewrite SH; cbn; rewrite <- DO; repeat constructor; tauto|]. exists k. split; [exact B1|]. split; [exact B2|].
      intros b u h w i o Hh Hw Hi Ho. unfold weight, in_per, out_per in *. cbn [set_weights l_kernel l_kind l_in l_out l_groups]. rewrite K. rewrite G1, !Nat.div_1_r in *. rewrite (Nat.div_small i), (Nat.div_small o) by assumption. cbn [Nat.eqb].
      rewrite (Nat.mod_small o) by exact Ho. rewrite B3 by (rewrite SH; apply inb4; repeat split; assumption). rewrite (along_at 1 ws (l_out l) S) by lia. cbn.
      destruct (Nat.eqb_spec (l_out l) 1) as [E|E]; [replace 0%nat with o by lia|]; rewrite HS by exact Ho; ring.
Qed.

(* ---- scaling and shifting the input channels of a 1x1 kernel ---- *)
Lemma flatten_dw a n m : shp a = [1; 1; n; m]%nat -> shp (flatten a) = [n * m]%nat /\ forall o, (o < n * m)%nat -> at_ (flatten a) [o] = at_ a [0; 0; o / m; o mod m]%nat.
Proof.
  intro H. unfold flatten, reshape_to. cbn [shp at_]. rewrite H. cbn [prod]. ones. split; [reflexivity|]. intros o L. cbn [flat prod unflat]. ones. rewrite Nat.add_0_r.
  rewrite !(Nat.div_small o), (Nat.mod_small o (n * m)), Nat.div_1_r, (Nat.mod_small o (n * m)) by assumption. rewrite (Nat.div_small o) by assumption. reflexivity.
Qed.
Lemma flatten_112 a n : shp a = [1; 1; n]%nat -> shp (flatten a) = [n] /\ forall o, (o < n)%nat -> at_ (flatten a) [o] = at_ a [0; 0; o]%nat.
Proof.
  intro H. unfold flatten, reshape_to. cbn [shp at_]. rewrite H. cbn [prod]. ones. split; [reflexivity|]. intros o L. cbn [flat prod unflat]. ones. rewrite Nat.add_0_r.
  rewrite (Nat.mod_small o n) by assumption. rewrite (Nat.div_small o n) by assumption. rewrite (Nat.mod_small o n) by assumption. rewrite Nat.div_1_r. reflexivity.
Qed.
Lemma flatten_n11 a n : shp a = [n; 1; 1]%nat -> shp (flatten a) = [n] /\ forall o, (o < n)%nat -> at_ (flatten a) [o] = at_ a [o; 0; 0]%nat.
Proof.
  intro H. unfold flatten, reshape_to. cbn [shp at_]. rewrite H. cbn [prod]. ones. split; [reflexivity|]. intros o L. cbn [flat prod unflat]. ones. rewrite Nat.add_0_r.
  rewrite ?Nat.div_1_r, ?Nat.mod_1_r. reflexivity.
Qed.
Lemma flatten_n111 a n : shp a = [n; 1; 1; 1]%nat -> shp (flatten a) = [n] /\ forall o, (o < n)%nat -> at_ (flatten a) [o] = at_ a [o; 0; 0; 0]%nat.
Proof.
  intro H. unfold flatten, reshape_to. cbn [shp at_]. rewrite H. cbn [prod]. ones. split; [reflexivity|]. intros o L. cbn [flat prod unflat]. ones. rewrite Nat.add_0_r.
  rewrite ?Nat.div_1_r, ?Nat.mod_1_r. reflexivity.
Qed.
Lemma bias_plus C bias u bf uf : isvec C bias bf -> shp u = [C] -> (forall o, (o < C)%nat -> at_ u [o] = uf o) ->
  exists b, bop Rplus bias u = Ok b /\ shp b = [C] /\ forall o, (o < C)%nat -> at_ b [o] = bf o + uf o.
Proof.
  intros B S U. destruct (isvec_bop C Rplus bias u bf uf B (isvec_ext C u _ uf (isvec_of C u S) U)) as (b & B1 & B2 & B3). exists b. split; [exact B1|].
  assert (SB : shp b = [C]) by (apply B3; right; exact S). split; [exact SB|]. intros o L. exact (isvec_at C b _ B2 SB o L).
Qed.
Lemma at2_fold kernel v C N : shp kernel = [1; 1; C; N]%nat -> shp v = [C] -> exists r, (let! f := reshape v [Some 1%nat; Some 1%nat; None; Some 1%nat] in bop Rmult kernel f) = Ok r /\ shp r = [1; 1; C; N]%nat /\
  forall i o, (i < C)%nat -> (o < N)%nat -> at_ r [0; 0; i; o]%nat = at_ kernel [0; 0; i; o]%nat * at_ v [i].
Proof.
  intros K V. destruct (reshape_at2 v C V) as (f & F1 & F2 & F3). rewrite F1. cbn [bind]. destruct (bop_fits Rmult kernel f) as (r & R1 & R2 & R3); [rewrite F2, K; repeat constructor; tauto|].
  exists r. split; [exact R1|]. split; [rewrite R2; exact K|]. intros i o I O. rewrite R3 by (rewrite K; apply inb4; lia). rewrite F3 by exact I. reflexivity.
Qed.
Lemma at3_fold kernel v C N : shp kernel = [1; 1; N; C]%nat -> shp v = [C] -> exists r, (let! f := reshape v [Some 1%nat; Some 1%nat; Some 1%nat; None] in bop Rmult kernel f) = Ok r /\ shp r = [1; 1; N; C]%nat /\
  forall i o, (i < C)%nat -> (o < N)%nat -> at_ r [0; 0; o; i]%nat = at_ kernel [0; 0; o; i]%nat * at_ v [i].
Proof.
  intros K V. destruct (reshape_at3 v C V) as (f & F1 & F2 & F3). rewrite F1. cbn [bind]. destruct (bop_fits Rmult kernel f) as (r & R1 & R2 & R3); [rewrite F2, K; repeat constructor; tauto|].
  exists r. split; [exact R1|]. split; [rewrite R2; exact K|]. intros i o I O. rewrite R3 by (rewrite K; apply inb4; lia). rewrite F3 by exact I. reflexivity.
Qed.
Lemma along0_fold kernel v C N : shp kernel = [C; N; 1; 1]%nat -> shp v = [C] -> exists r, bop Rmult kernel (along 0 v) = Ok r /\ shp r = [C; N; 1; 1]%nat /\
  forall i o, (i < C)%nat -> (o < N)%nat -> at_ r [i; o; 0; 0]%nat = at_ kernel [i; o; 0; 0]%nat * at_ v [i].
Proof.
  intros K V. destruct (bop_fits Rmult kernel (along 0 v)) as (r & R1 & R2 & R3); [rewrite (along_at 0 v C V) by lia; rewrite K; cbn; repeat constructor; tauto|].
  exists r. split; [exact R1|]. split; [rewrite R2; exact K|]. intros i o I O. rewrite R3 by (rewrite K; apply inb4; lia). rewrite (along_at 0 v C V) by lia. cbn. destruct (Nat.eqb_spec C 1); [assert (i = 0)%nat as -> by lia|]; reflexivity.
Qed.
Lemma along1_fold kernel v C N : shp kernel = [N; C; 1; 1]%nat -> shp v = [C] -> exists r, bop Rmult kernel (along 1 v) = Ok r /\ shp r = [N; C; 1; 1]%nat /\
  forall i o, (i < C)%nat -> (o < N)%nat -> at_ r [o; i; 0; 0]%nat = at_ kernel [o; i; 0; 0]%nat * at_ v [i].
Proof.
  intros K V. destruct (bop_fits Rmult kernel (along 1 v)) as (r & R1 & R2 & R3); [rewrite (along_at 1 v C V) by lia; rewrite K; cbn; repeat constructor; tauto|].
  exists r. split; [exact R1|]. split; [rewrite R2; exact K|]. intros i o I O. rewrite R3 by (rewrite K; apply inb4; lia). rewrite (along_at 1 v C V) by lia. cbn. destruct (Nat.eqb_spec C 1); [assert (i = 0)%nat as -> by lia|]; reflexivity.
Qed.
Definition update_weights (l : lin) := if is_keras (l_kind l) then keras_update_weights l else torch_update_weights l.
Lemma update_weights_spec l bias bf ws fac : lin_wf l -> ksize l = (1, 1)%nat -> takes_input_scale l -> shp ws = [l_in l] -> shp fac = [l_in l] -> isvec (l_out l) bias bf ->
  exists k b, update_weights l (l_kernel l) bias ws fac = Ok (k, b) /\ shp k = shp (l_kernel l) /\ shp b = [l_out l] /\
    (forall b' u i o, (i < l_in l)%nat -> (o < l_out l)%nat -> weight (set_weights l k b' u) 0 0 i o = at_ ws [i] * weight l 0 0 i o) /\
    (forall o, (o < l_out l)%nat -> at_ b [o] = bf o + rsum (l_in l) (fun i => weight l 0 0 i o * at_ fac [i])).
Proof.
  intros W KS T SW SF B. pose proof (ksize_shape l W) as SH. rewrite KS in SH. unfold kernel_shape in SH. cbn [fst snd] in SH.
  unfold takes_input_scale in T. unfold update_weights. destruct (l_kind l) eqn:K; try contradiction; cbn [is_keras].
  - (* Conv2D *) assert (IP : in_per l = l_in l) by (unfold in_per; rewrite T; apply Nat.div_1_r). assert (OP : out_per l = l_out l) by (unfold out_per; rewrite T; apply Nat.div_1_r). rewrite IP in SH.
    unfold keras_update_weights. rewrite K. destruct (at2_fold _ fac _ _ SH SF) as (u & U1 & U2 & U3). destruct (at2_fold _ ws _ _ SH SW) as (k & K1 & K2 & K3).
    unfold bind at 1. unfold bind at 1 in U1. destruct (reshape fac _) as [f|]; [|discriminate]. rewrite U1. cbn [bind]. unfold bind at 1. unfold bind at 1 in K1. destruct (reshape ws _) as [s|]; [|discriminate]. rewrite K1. cbn [bind].
    assert (SU : shp (nsum [2%nat] u) = [1; 1; l_out l]%nat) by (cbn; rewrite U2; reflexivity). destruct (flatten_112 _ _ SU) as [F1 F2].
    destruct (bias_plus (l_out l) bias _ bf _ B F1 F2) as (b & B1 & B2 & B3). rewrite B1. cbn [bind]. exists k, b. split; [reflexivity|]. split; [rewrite K2; symmetry; exact SH|]. split; [exact B2|]. split.
    + intros b' u' i o I O. unfold weight. cbn [set_weights l_kind l_kernel l_in l_out l_groups]. unfold in_per, out_per in *. cbn [set_weights l_in l_out l_groups]. rewrite K, IP, OP. rewrite (Nat.div_small i), (Nat.div_small o), (Nat.mod_small i) by assumption. cbn [Nat.eqb]. rewrite K3 by assumption. ring.
    + intros o O. rewrite B3 by exact O. f_equal. cbn [nsum at_]. rewrite U2. cbn [sum_at memb existsb Nat.eqb orb]. apply rsum_ext. intros i I. rewrite U3 by assumption. unfold weight. rewrite K, IP, OP. rewrite (Nat.div_small i), (Nat.div_small o), (Nat.mod_small i) by assumption. reflexivity.
  - (* DepthwiseConv2D *) pose proof (lw_dw l W K) as DW. set (m := (l_out l / l_in l)%nat) in *. assert (MP : (0 < m)%nat) by (pose proof (lw_out l W); destruct m; lia).
    unfold keras_update_weights. rewrite K. destruct (at2_fold _ fac _ _ SH SF) as (u & U1 & U2 & U3). destruct (at2_fold _ ws _ _ SH SW) as (k & K1 & K2 & K3).
    unfold bind at 1. unfold bind at 1 in U1. destruct (reshape fac _) as [f|]; [|discriminate]. rewrite U1. cbn [bind]. unfold bind at 1. unfold bind at 1 in K1. destruct (reshape ws _) as [s|]; [|discriminate]. rewrite K1. cbn [bind].
    destruct (flatten_dw _ _ _ U2) as [F1 F2]. rewrite <- DW in F1, F2.
    destruct (bias_plus (l_out l) bias _ bf _ B F1 F2) as (b & B1 & B2 & B3). rewrite B1. cbn [bind]. exists k, b. split; [reflexivity|]. split; [rewrite K2; symmetry; exact SH|]. split; [exact B2|].
    assert (OD : forall o, (o < l_out l)%nat -> (o / m < l_in l)%nat /\ (o mod m < m)%nat) by (intros o O; split; [apply Nat.div_lt_upper_bound; lia|apply Nat.mod_upper_bound; lia]). split.
    + intros b' u' i o I O. unfold weight. cbn [set_weights l_kind l_kernel l_in l_out]. rewrite K. fold m. destruct (Nat.eqb i (o / m)); [|ring]. rewrite K3 by (try assumption; apply OD; exact O). ring.
    + intros o O. rewrite B3 by exact O. f_equal. destruct (OD o O) as [O1 O2]. rewrite U3 by assumption. rewrite (rsum_one (l_in l) (o / m)); [|exact O1|].
      * unfold weight. rewrite K. fold m. rewrite Nat.eqb_refl. reflexivity.
      * intros i I N. unfold weight. rewrite K. fold m. rewrite (proj2 (Nat.eqb_neq _ _) N). ring.
  - (* Conv2DTranspose *) unfold keras_update_weights. rewrite K. destruct (at3_fold _ fac _ _ SH SF) as (u & U1 & U2 & U3). destruct (at3_fold _ ws _ _ SH SW) as (k & K1 & K2 & K3).
    unfold bind at 1. unfold bind at 1 in U1. destruct (reshape fac _) as [f|]; [|discriminate]. rewrite U1. cbn [bind]. unfold bind at 1. unfold bind at 1 in K1. destruct (reshape ws _) as [s|]; [|discriminate]. rewrite K1. cbn [bind].
    assert (SU : shp (nsum [3%nat] u) = [1; 1; l_out l]%nat) by (cbn; rewrite U2; reflexivity). destruct (flatten_112 _ _ SU) as [F1 F2].
    destruct (bias_plus (l_out l) bias _ bf _ B F1 F2) as (b & B1 & B2 & B3). rewrite B1. cbn [bind]. exists k, b. split; [reflexivity|]. split; [rewrite K2; symmetry; exact SH|]. split; [exact B2|]. split.
    + intros b' u' i o I O. unfold weight. cbn [set_weights l_kind l_kernel]. rewrite K, K3 by assumption. ring.
    + intros o O. rewrite B3 by exact O. f_equal. cbn [nsum at_]. rewrite U2. cbn [sum_at memb existsb Nat.eqb orb]. apply rsum_ext. intros i I. rewrite U3 by assumption. unfold weight. rewrite K. reflexivity.
  - (* Conv2d *) unfold torch_update_weights. rewrite SW, SF, K. destruct (Nat.ltb_spec 1 (l_groups l)) as [LG|LG].
    + destruct T as [T|[T1 T2]]; [lia|]. assert (IP : in_per l = 1%nat) by (unfold in_per; rewrite T1; apply Nat.div_same; lia). assert (OP : out_per l = 1%nat) by (unfold out_per; rewrite T1, T2; apply Nat.div_same; lia). rewrite IP, T2 in SH.
      destruct (along0_fold _ fac _ _ SH SF) as (u & U1 & U2 & U3). destruct (along0_fold _ ws _ _ SH SW) as (k & K1 & K2 & K3). rewrite U1. cbn [bind]. rewrite K1. cbn [bind].
      destruct (flatten_n111 _ _ U2) as [F1 F2]. rewrite <- T2 in F1, F2. destruct (bias_plus (l_out l) bias _ bf _ B F1 F2) as (b & B1 & B2 & B3). rewrite B1. cbn [bind]. exists k, b. split; [reflexivity|]. split; [rewrite K2; symmetry; exact SH|]. split; [exact B2|]. split.
      * intros b' u' i o I O. unfold weight. cbn [set_weights l_kind l_kernel l_in l_out l_groups]. unfold in_per, out_per in *. cbn [set_weights l_in l_out l_groups]. rewrite K, IP, OP, !Nat.div_1_r. destruct (Nat.eqb_spec i o) as [->|N]; [|ring]. rewrite Nat.mod_1_r, K3 by lia. ring.
      * intros o O. rewrite B3 by exact O. f_equal. rewrite U3 by lia. rewrite (rsum_one (l_in l) o); [|lia|].
        -- unfold weight. rewrite K, IP, OP, !Nat.div_1_r, Nat.eqb_refl, Nat.mod_1_r. reflexivity.
        -- intros i I N. unfold weight. rewrite K, IP, OP, !Nat.div_1_r, (proj2 (Nat.eqb_neq _ _) N). ring.
    + assert (G1 : l_groups l = 1%nat) by (pose proof (lw_groups l W); lia). assert (IP : in_per l = l_in l) by (unfold in_per; rewrite G1; apply Nat.div_1_r). assert (OP : out_per l = l_out l) by (unfold out_per; rewrite G1; apply Nat.div_1_r). rewrite IP in SH.
      destruct (along1_fold _ fac _ _ SH SF) as (u & U1 & U2 & U3). destruct (along1_fold _ ws _ _ SH SW) as (k & K1 & K2 & K3). rewrite U1. cbn [bind]. rewrite K1. cbn [bind].
      assert (SU : shp (nsum [1%nat] u) = [l_out l; 1; 1]%nat) by (cbn; rewrite U2; reflexivity). destruct (flatten_n11 _ _ SU) as [F1 F2].
      destruct (bias_plus (l_out l) bias _ bf _ B F1 F2) as (b & B1 & B2 & B3). rewrite B1. cbn [bind]. exists k, b. split; [reflexivity|]. split; [rewrite K2; symmetry; exact SH|]. split; [exact B2|]. split.
      * intros b' u' i o I O. unfold weight. cbn [set_weights l_kind l_kernel l_in l_out l_groups]. unfold in_per, out_per in *. cbn [set_weights l_in l_out l_groups]. rewrite K, IP, OP. rewrite (Nat.div_small i), (Nat.div_small o), (Nat.mod_small i) by assumption. cbn [Nat.eqb]. rewrite K3 by assumption. ring.
      * intros o O. rewrite B3 by exact O. f_equal. cbn [nsum at_]. rewrite U2. cbn [sum_at memb existsb Nat.eqb orb]. apply rsum_ext. intros i I. rewrite U3 by assumption. unfold weight. rewrite K, IP, OP. rewrite (Nat.div_small i), (Nat.div_small o), (Nat.mod_small i) by assumption. reflexivity.
  - (* ConvTranspose2d *) assert (IP : in_per l = l_in l) by (unfold in_per; rewrite T; apply Nat.div_1_r). assert (OP : out_per l = l_out l) by (unfold out_per; rewrite T; apply Nat.div_1_r). rewrite OP in SH.
    unfold torch_update_weights. rewrite SW, SF, K. destruct (along0_fold _ fac _ _ SH SF) as (u & U1 & U2 & U3). destruct (along0_fold _ ws _ _ SH SW) as (k & K1 & K2 & K3). rewrite U1. cbn [bind]. rewrite K1. cbn [bind].
    assert (SU : shp (nsum [0%nat] u) = [l_out l; 1; 1]%nat) by (cbn; rewrite U2; reflexivity). destruct (flatten_n11 _ _ SU) as [F1 F2].
    destruct (bias_plus (l_out l) bias _ bf _ B F1 F2) as (b & B1 & B2 & B3). rewrite B1. cbn [bind]. exists k, b. split; [reflexivity|]. split; [rewrite K2; symmetry; exact SH|]. split; [exact B2|]. split.
    + intros b' u' i o I O. unfold weight. cbn [set_weights l_kind l_kernel l_in l_out l_groups]. unfold in_per, out_per in *. cbn [set_weights l_in l_out l_groups]. rewrite K, IP, OP. rewrite (Nat.div_small i), (Nat.div_small o), (Nat.mod_small o) by assumption. cbn [Nat.eqb]. rewrite K3 by assumption. ring.
    + intros o O. rewrite B3 by exact O. f_equal. cbn [nsum at_]. rewrite U2. cbn [sum_at memb existsb Nat.eqb orb]. apply rsum_ext. intros i I. rewrite U3 by assumption. unfold weight. rewrite K, IP, OP. rewrite (Nat.div_small i), (Nat.div_small o), (Nat.mod_small o) by assumption. reflexivity.
Qed.
