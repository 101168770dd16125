(* DistExProps.v -- C51: concrete cases, and claims about the distances that do not hold *)
From Verif Require Import Nd DistModel DistSpec DistProofs DistMore DistProps.

(* the array of shape [a; b] with the given rows *)
Definition mat (a b : nat) (rows : list (list R)) : nd := Nd [a; b] (fun i => nth (nth 1 i 0%nat) (nth (hd 0%nat i) rows []) 0).
Ltac ev := repeat (cbn [mat at_ shp hd nth unflat prod app rsum flat ins line sample del firstn skipn tl Nat.add Nat.mul bget mask length Nat.sub Nat.eqb] || cbv beta); cbn.
Ltac ne := repeat constructor.

Definition x0 := mat 2 2 [[1; 2]; [3; 4]].
Definition y0 := mat 2 2 [[1; 2]; [3; 2]].
(* mean over four elements; over each sample; along axis 0 *)
Example mse_ex : exists r, compute_mse x0 y0 false 1 false None None = Ok r /\ at_ r [] = 1.
Proof.
  destruct (distances_of_whole_tensors x0 y0 false 1 1 eq_refl ltac:(ne)) as [(r & H & _ & A) _]. exists r. split; [exact H|]. rewrite A.
  unfold scaled, mse_of, mean_of, ones, x0, y0. ev. field.
Qed.
Example mse_samples_ex : exists r, compute_mse x0 y0 false 1 true None None = Ok r /\ at_ r [0%nat] = 0 /\ at_ r [1%nat] = 2.
Proof.
  destruct (dist_samples sqdiff sq x0 y0 false 1 2 [2%nat] eq_refl eq_refl ltac:(ne)) as (r & H & _ & F). exists r. split; [exact H|]. rewrite !F by lia.
  unfold value, mean_of, sqdiff, x0, y0. split; ev; field.
Qed.
Example weighted_ex : exists r, compute_mse x0 y0 true 1 false None (Some x0) = Ok r /\ 0 < at_ r [].
Proof.
  destruct (weighted_mse_of_whole_tensors x0 y0 true 1 x0 eq_refl ltac:(ne) eq_refl) as (r & H & _ & A). exists r. split; [exact H|]. rewrite A.
  unfold scaled, mse_of, mean_of, size_of, mean_of, x0, y0. ev. apply Rdiv_lt_0_compat; lra.
Qed.
Example divergence_ex : exists r, compute_kl_divergence (mat 1 2 [[1; 3]]) (mat 1 2 [[2; 2]]) true (Some (-1)%Z) = Ok r /\ shp r = [1%nat] /\ 0 <= at_ r [0%nat].
Proof.
  assert (exists r, compute_kl_divergence (mat 1 2 [[1; 3]]) (mat 1 2 [[2; 2]]) true (Some (-1)%Z) = Ok r /\ shp r = [1%nat]) as (r & H & S).
  { eexists. split; reflexivity. }
  exists r. split; [exact H|]. split; [exact S|].
  destruct (divergence_nonneg (mat 1 2 [[1; 3]]) (mat 1 2 [[2; 2]]) true (-1)%Z 1 r eq_refl H) as [N _].
  - intros i I. inversion I as [|? a ? l Ha F]; subst. inversion F as [|? b ? l2 Hb F2]; subst. inversion F2; subst.
    destruct a as [|a]; [|lia]. destruct b as [|[|b]]; [| |lia]; ev; lra.
  - intros o O. inversion O as [|? a ? l Ha F]; subst. inversion F; subst. destruct a as [|a]; [|lia]. ev. lra.
  - apply N. rewrite S. ne.
Qed.

(* the exponent 0: equal tensors are at distance one *)
Theorem lp_exponent_zero_refuted : exists x r, compute_lp_norm x x 0 false 1 false None = Ok r /\ at_ r [] = 1.
Proof.
  exists x0. destruct (distances_of_whole_tensors x0 x0 false 1 0 eq_refl ltac:(ne)) as (_ & _ & r & H & _ & A). exists r. split; [exact H|]. rewrite A.
  unfold scaled, lp_of, mean_of, x0. ev. field.
Qed.
Print Assumptions lp_exponent_zero_refuted.

(* equal tensors of zeros are at the largest cosine distance *)
Theorem cosine_zero_tensors_refuted : forall x eps batch axis, (forall i, inb (shp x) i -> at_ x i = 0) ->
  exists r, compute_cs x x eps batch axis = Ok r /\ shp r = [] /\ at_ r [] = 1.
Proof.
  intros x eps batch axis Z. exists (scalar 1). split; [|split; reflexivity]. unfold compute_cs. rewrite validate_same by reflexivity. cbn [bind].
  rewrite (proj2 (all_zero_spec x) Z). reflexivity.
Qed.
Print Assumptions cosine_zero_tensors_refuted.
(* a sample of zeros in a batch is at distance 1/2 from itself, and at distance 1 when it is compared alone *)
Theorem cosine_zero_sample_refuted : exists x r r', compute_cs x x 1 true None = Ok r /\ at_ r [0%nat] = / 2 /\
  compute_cs (sample 0 x) (sample 0 x) 1 false None = Ok r' /\ at_ r' [] = 1.
Proof.
  set (x := mat 2 1 [[0]; [1]]). exists x.
  destruct (cs_samples x x 1 2 [1%nat] eq_refl eq_refl ltac:(ne)) as (r & H & _ & F).
  { exists [1; 0]%nat. split; [ne|left; cbn; lra]. }
  destruct (cosine_zero_tensors_refuted (sample 0 x) 1 false None) as (r' & H' & _ & F').
  { intros i I. inversion I as [|? a ? l Ha F1]; subst. inversion F1; subst. destruct a as [|a]; [reflexivity|lia]. }
  exists r, r'. split; [exact H|]. split; [|split; [exact H'|exact F']]. rewrite F by lia. unfold cos_value, dot_of, x. ev.
  replace (0 + 0 * 0) with 0 by ring. rewrite sqrt_0. replace ((1 - 0 / (0 * 0 + 1)) / 2) with (/ 2) by field. apply Rmax_left. lra.
Qed.
Print Assumptions cosine_zero_sample_refuted.
(* with an axis and no batch the sum of the products runs over everything and the norms over lines: above one *)
Theorem cosine_axis_refuted : exists x y r, compute_cs x y 1 false (Some (-1)%Z) = Ok r /\ shp r = [3%nat] /\ 1 < at_ r [0%nat].
Proof.
  set (x := mat 3 1 [[1]; [1]; [1]]). set (y := mat 3 1 [[-1]; [-1]; [-1]]). exists x, y.
  unfold compute_cs. rewrite validate_same by reflexivity. cbn [bind].
  assert (all_zero y = false) as -> by (apply all_zero_false; exists [0; 0]%nat; split; [ne|cbn; lra]). cbn [andb].
  assert (exists f, flatten_tensor x false (Some (-1)%Z) = Ok f) as [fx Fx] by (eexists; reflexivity).
  assert (exists f, flatten_tensor y false (Some (-1)%Z) = Ok f) as [fy Fy] by (eexists; reflexivity).
  pose proof (view_axis x fx (-1)%Z 1 eq_refl Fx) as [Sx Vx]. pose proof (view_axis y fy (-1)%Z 1 eq_refl Fy) as [Sy Vy].
  change (shp fx = [3; 1]%nat) in Sx. change (shp fy = [3; 1]%nat) in Sy. rewrite Fx, Fy. cbn [bind].
  assert (forall k, (k < 3)%nat -> at_ fx [k; 0%nat] = 1) as Ax.
  { intros k K. change [k; 0%nat] with ([k] ++ [0%nat]). rewrite (Vx [k] 0%nat ltac:(apply inb1; cbn; lia) ltac:(cbn; lia)). destruct k as [|[|[|k]]]; [reflexivity|reflexivity|reflexivity|lia]. }
  assert (forall k, (k < 3)%nat -> at_ fy [k; 0%nat] = -1) as Ay.
  { intros k K. change [k; 0%nat] with ([k] ++ [0%nat]). rewrite (Vy [k] 0%nat ltac:(apply inb1; cbn; lia) ltac:(cbn; lia)). destruct k as [|[|[|k]]]; [reflexivity|reflexivity|reflexivity|lia]. }
  set (d := nmap (fun v => v + 1) (zip Rmult (tensor_norm fx) (tensor_norm fy))). assert (shp d = [3%nat]) as Sd by (unfold d; cbn [nmap zip tensor_norm sum_last shp]; rewrite Sx; reflexivity).
  assert (at_ d [0%nat] = 2) as Ad.
  { unfold d. cbn [nmap zip tensor_norm sum_last shp at_]. rewrite Sx, Sy. cbn [last rsum app]. rewrite Ax, Ay by lia.
    rewrite !rabs2. replace (0 + 1 ^ 2) with 1 by ring. replace (0 + (-1) ^ 2) with 1 by ring. rewrite sqrt_1. ring. }
  assert (at_ (sum_all (zip Rmult fx fy)) [] = -3) as As.
  { cbn [sum_all scalar at_ zip shp]. rewrite Sx. cbn. rewrite !Ax, !Ay by lia. ring. }
  assert (exists c, bop Rdiv (sum_all (zip Rmult fx fy)) d = Ok c /\ shp c = [3%nat] /\ at_ c [0%nat] = -3 / 2) as (c & Hc & Sc & Ac).
  { unfold bop, bshape. change (shp (sum_all (zip Rmult fx fy))) with (@nil nat). rewrite Sd. eexists. split; [reflexivity|]. split; [reflexivity|].
    cbn [at_]. rewrite (bget_same d) by (rewrite Sd; apply inb1; lia). rewrite Ad. unfold bget. change (shp (sum_all (zip Rmult fx fy))) with (@nil nat). cbn [mask]. rewrite As. reflexivity. }
  rewrite Hc. cbn [bind]. eexists. split; [reflexivity|]. split; [exact Sc|]. cbn [nmap at_]. rewrite Ac.
  eapply Rlt_le_trans; [|apply Rmax_l]. lra.
Qed.
Print Assumptions cosine_axis_refuted.

(* the divergence needs an axis or a batch; with a batch only it is one number for all the samples *)
Theorem divergence_whole_refuted : forall x y r, compute_kl_divergence x y false None <> Ok r.
Proof.
  intros x y r H. unfold compute_kl_divergence in H. destruct (validate x y); [|discriminate]. cbn [bind flatten_tensor] in H.
  unfold mean_last, sum_last, zip, flatten, reshape_to in H. cbn [shp removelast rev] in H. discriminate.
Qed.
Print Assumptions divergence_whole_refuted.
Theorem divergence_per_sample_refuted : exists x r, compute_kl_divergence x x true None = Ok r /\ shp x = [2; 2]%nat /\ shp r = [].
Proof. exists x0. eexists. split; [reflexivity|]. split; reflexivity. Qed.
Print Assumptions divergence_per_sample_refuted.
(* lines with different sums: below zero *)
Theorem divergence_negative_refuted : exists x y r, compute_kl_divergence x y true None = Ok r /\ at_ r [] < 0 /\ (forall i, inb (shp x) i -> 0 < at_ x i /\ 0 < at_ y i).
Proof.
  set (x := mat 1 1 [[1]]). set (y := mat 1 1 [[2]]). exists x, y.
  assert (exists r, compute_kl_divergence x y true None = Ok r) as [r H] by (eexists; reflexivity). exists r. split; [exact H|].
  destruct (kl_flat _ _ _ _ _ H) as (_ & fx & fy & Fx & Fy).
  destruct (kl_view _ _ _ _ _ _ _ _ _ _ H Fx Fy (view_batch x fx 1 [1%nat] eq_refl Fx) (view_batch y fy 1 [1%nat] eq_refl Fy)) as (rs & m & E & M & Sr & F).
  destruct rs as [|a rs]; [|destruct rs; discriminate]. cbn in E. injection E as <-. rewrite F by constructor. split.
  - ev. unfold kl_term. destruct (Req_EM_T 2 0) as [Z|_]; [lra|]. destruct (Req_EM_T 1 0) as [Z|_]; [lra|].
    assert (ln (1 / 2) < 0); [|lra]. rewrite <- ln_1. apply ln_increasing; lra.
  - intros i I. inversion I as [|? a ? l Ha F1]; subst. inversion F1 as [|? b ? l2 Hb F2]; subst. inversion F2; subst.
    destruct a as [|a]; [|lia]. destruct b as [|b]; [|lia]. cbn. lra.
Qed.
Print Assumptions divergence_negative_refuted.

(* HMSE per channel: MSE prefers the first threshold for channel 0 and the second for channel 1, HMSE with equal
   scores takes the same for both *)
Theorem hmse_per_channel_refuted : exists x q0 q1 scores e0 e1 h0 h1,
  tensor_error M_mse (Some (-1)%Z) false x q0 = Ok e0 /\ tensor_error M_mse (Some (-1)%Z) false x q1 = Ok e1 /\
  chosen_halvings [e0; e1] 0 = 0%nat /\ chosen_halvings [e0; e1] 1 = 1%nat /\
  tensor_error (M_hmse scores) (Some (-1)%Z) false x q0 = Ok h0 /\ tensor_error (M_hmse scores) (Some (-1)%Z) false x q1 = Ok h1 /\
  chosen_halvings [h0; h1] 0 = chosen_halvings [h0; h1] 1.
Proof.
  set (x := mat 2 1 [[1]; [1]]). set (q0 := mat 2 1 [[1]; [0]]). set (q1 := mat 2 1 [[0]; [1]]). exists x, q0, q1, x.
  destruct (dist_lines sqdiff sq x q0 false norm_eps_default (-1)%Z 1 eq_refl eq_refl ltac:(ne)) as (e0 & H0 & S0 & F0).
  destruct (dist_lines sqdiff sq x q1 false norm_eps_default (-1)%Z 1 eq_refl eq_refl ltac:(ne)) as (e1 & H1 & S1 & F1).
  destruct (hmse_per_channel_one_number x q0 false x (-1)%Z ltac:(discriminate) eq_refl ltac:(ne) ltac:(ne) ltac:(discriminate) eq_refl) as (h0 & G0 & T0 & _).
  destruct (hmse_per_channel_one_number x q1 false x (-1)%Z ltac:(discriminate) eq_refl ltac:(ne) ltac:(ne) ltac:(discriminate) eq_refl) as (h1 & G1 & T1 & _).
  exists e0, e1, h0, h1. split; [exact H0|]. split; [exact H1|].
  assert (forall (q : nd) e (H : forall o, inb (del 1 (shp x)) o -> at_ e [flat (del 1 (shp x)) o] = value sqdiff sq false norm_eps_default (line 1 o x) (line 1 o q)) c, (c < 2)%nat -> shp e = [2%nat] ->
    bget e [c] = sqdiff (at_ x [c; 0%nat]) (at_ q [c; 0%nat])) as B.
  { intros q e H c C Se. rewrite bget_same by (rewrite Se; apply inb1; exact C).
    assert (inb (del 1 (shp x)) [c]) as I by (apply inb1; exact C). specialize (H [c] I).
    replace (flat (del 1 (shp x)) [c]) with c in H by (cbn; lia). rewrite H. unfold value, mean_of, line. ev. field. }
  change (shp e0 = [2%nat]) in S0. change (shp e1 = [2%nat]) in S1.
  split; [|split; [|split; [exact G0|split; [exact G1|]]]].
  - unfold chosen_halvings. cbn [map]. rewrite (B q0 e0 F0 0%nat) by (lia || exact S0). rewrite (B q1 e1 F1 0%nat) by (lia || exact S1). unfold sqdiff, x, q0, q1. ev.
    destruct (Rlt_dec _ _) as [L|L]; [exfalso; lra|reflexivity].
  - unfold chosen_halvings. cbn [map]. rewrite (B q0 e0 F0 1%nat) by (lia || exact S0). rewrite (B q1 e1 F1 1%nat) by (lia || exact S1). unfold sqdiff, x, q0, q1. ev.
    destruct (Rlt_dec _ _) as [L|L]; [reflexivity|exfalso; lra].
  - apply (hmse_same_halvings_for_all_channels x (-1)%Z false x [q0; q1]); try discriminate; try ne; try exact G0; try exact G1.
Qed.
Print Assumptions hmse_per_channel_refuted.

(* channels on the last axis: the score 0 of an element does not hide an error in that element *)
Theorem hmse_scores_misaligned_refuted : exists t scores x y r,
  reshape_per_channel t 1 = Ok x /\ shp scores = shp t /\ at_ scores [0; 1]%nat = 0 /\
  (* element [0; 1] of t is element [1; 0] of x; y differs from x there only *)
  (forall i, inb (shp x) i -> i <> [1; 0]%nat -> at_ y i = at_ x i) /\ at_ x [1; 0]%nat = at_ t [0; 1]%nat /\ shp y = shp x /\
  tensor_error (M_hmse scores) (Some (-1)%Z) false x y = Ok r /\ 0 < at_ r [].
Proof.
  set (t := mat 2 2 [[1; 1]; [1; 1]]). set (sc := mat 2 2 [[1; 0]; [1; 1]]). exists t, sc.
  assert (exists x, reshape_per_channel t 1 = Ok x /\ shp x = [2; 2]%nat /\ forall i, inb [2; 2]%nat i -> at_ x i = 1) as (x & Hx & Sx & Ax).
  { eexists. split; [reflexivity|]. split; [reflexivity|]. intros i I. inversion I as [|? a ? l Ha F1]; subst. inversion F1 as [|? b ? l2 Hb F2]; subst. inversion F2; subst.
    destruct a as [|[|a]]; [| |lia]; (destruct b as [|[|b]]; [| |lia]); reflexivity. }
  set (y := Nd [2; 2]%nat (fun i => if list_eq_dec Nat.eq_dec i [1; 0]%nat then 0 else at_ x i)).
  exists x, y. assert (nonempty (shp x)) as Nx by (rewrite Sx; ne).
  destruct (hmse_per_channel_one_number x y false sc (-1)%Z ltac:(discriminate) ltac:(rewrite Sx; reflexivity) Nx ltac:(ne) ltac:(discriminate) ltac:(rewrite Sx; reflexivity)) as (r & H & _ & F).
  exists r. split; [exact Hx|]. split; [reflexivity|]. split; [reflexivity|]. split; [|split; [|split; [|split; [exact H|]]]].
  - intros i I N. unfold y. cbn [at_]. destruct (list_eq_dec _ _ _); [contradiction|reflexivity].
  - rewrite Ax by ne. reflexivity.
  - rewrite Sx. reflexivity.
  - rewrite F. unfold mean_of, size_of, mean_of. rewrite Sx. ev. rewrite !Ax by ne. apply Rdiv_lt_0_compat; lra.
Qed.
Print Assumptions hmse_scores_misaligned_refuted.

(* per channel, the error of a tensor of zeros is a quotient by zero *)
Theorem hmse_zero_tensor_refuted : forall x y scores, (forall i, inb (shp x) i -> at_ x i = 0) -> shp y = shp x -> nonempty (shp x) -> nonempty (shp scores) -> shp scores <> [] ->
  prod (shp scores) = prod (shp x) ->
  exists r a b, tensor_error (M_hmse scores) (Some (-1)%Z) false x y = Ok r /\ at_ r [] = a / b /\ b = 0 /\
    a = mean_of [prod (shp x)] (fun i => let k := hd 0%nat i in (at_ scores (unflat (shp scores) k) * (at_ x (unflat (shp x) k) - at_ y (unflat (shp x) k))) ^ 2).
Proof.
  intros x y scores Z E N Ns Nn P. destruct (hmse_per_channel_one_number x y false scores (-1)%Z ltac:(discriminate) E N Ns Nn P) as (r & H & _ & F).
  exists r. do 2 eexists. split; [exact H|]. split; [exact F|]. split; [|reflexivity].
  unfold size_of, mean_of, Rdiv. rewrite rsum_zero; [ring|]. intros k K. destruct (flat_unflat (shp x) k K) as [_ I]. rewrite Z by exact I. ring.
Qed.
Print Assumptions hmse_zero_tensor_refuted.
