(* DistMore.v -- lemmas for DistProps.v: rearrangements, the cosine distance, the divergence, HMSE *)
From Verif Require Import Nd DistModel DistSpec DistProofs KLReal.
From Coq Require Import Permutation.

(* ---- sums do not depend on the order ---- *)
Lemma rsum_list n f : rsum n f = fold_right Rplus 0 (map f (seq 0 n)).
Proof.
  induction n as [|n IH]; [reflexivity|]. rewrite seq_S, map_app, fold_right_app. cbn [rsum map fold_right Nat.add].
  assert (forall l a, fold_right Rplus a l = fold_right Rplus 0 l + a) as A by (induction l as [|v l IHl]; intro a; cbn; [lra|rewrite IHl; lra]).
  rewrite A, <- IH. lra.
Qed.
Lemma sum_perm l l' : Permutation l l' -> fold_right Rplus 0 l = fold_right Rplus 0 l'.
Proof. induction 1; cbn; lra. Qed.
Lemma NoDup_map_on (f : nat -> nat) l : NoDup l -> (forall a b, In a l -> In b l -> f a = f b -> a = b) -> NoDup (map f l).
Proof.
  induction 1 as [|a l Na Nd IH]; intro H; cbn [map]; constructor.
  - intro I. apply in_map_iff in I. destruct I as (b & E & B). assert (a = b) by (apply H; [left; reflexivity|right; exact B|congruence]). subst. contradiction.
  - apply IH. intros b c B C. apply H; right; assumption.
Qed.
Lemma rsum_permutes s f F : permutes s f -> rsum (prod s) (fun k => F (f (unflat s k))) = rsum (prod s) (fun k => F (unflat s k)).
Proof.
  intros [In_ Inj]. set (g := fun k => flat s (f (unflat s k))).
  assert (forall k, (k < prod s)%nat -> (g k < prod s)%nat /\ unflat s (g k) = f (unflat s k)) as G.
  { intros k K. destruct (flat_unflat s k K) as [_ I]. specialize (In_ _ I). split; [apply flat_lt; exact In_|apply unflat_flat; exact In_]. }
  assert (Permutation (map g (seq 0 (prod s))) (seq 0 (prod s))) as P.
  { apply NoDup_Permutation_bis.
    - apply NoDup_map_on; [apply seq_NoDup|]. intros a b A B E. apply in_seq in A, B. destruct (G a ltac:(lia)) as [_ Ga], (G b ltac:(lia)) as [_ Gb].
      destruct (flat_unflat s a ltac:(lia)) as [Ea Ia], (flat_unflat s b ltac:(lia)) as [Eb Ib].
      assert (unflat s a = unflat s b) as U by (apply Inj; [exact Ia|exact Ib|congruence]). congruence.
    - rewrite map_length. lia.
    - intros k K. apply in_map_iff in K. destruct K as (a & <- & A). apply in_seq in A. apply in_seq. destruct (G a ltac:(lia)). lia. }
  rewrite (rsum_ext _ (fun k => F (f (unflat s k))) (fun k => (fun j => F (unflat s j)) (g k))) by (intros k K; cbn; destruct (G k K) as [_ ->]; reflexivity).
  rewrite !rsum_list, <- (map_map g (fun j => F (unflat s j))). apply sum_perm, Permutation_map. exact P.
Qed.
Lemma value_rearrange term nrm norm eps f x y : permutes (shp x) f -> shp y = shp x ->
  value term nrm norm eps (rearrange f x) (rearrange f y) = value term nrm norm eps x y.
Proof.
  intros P E. unfold value, mean_of, rearrange. cbn [shp at_].
  rewrite (rsum_permutes (shp x) f (fun i => term (at_ x i) (at_ y i)) P). rewrite (rsum_permutes (shp x) f (fun i => nrm (at_ x i)) P). reflexivity.
Qed.

(* ---- Cauchy-Schwarz ---- *)
Lemma cauchy_schwarz n a b : (rsum n (fun k => a k * b k)) ^ 2 <= rsum n (fun k => a k ^ 2) * rsum n (fun k => b k ^ 2).
Proof.
  set (A := rsum n (fun k => a k ^ 2)). set (B := rsum n (fun k => a k * b k)). set (C := rsum n (fun k => b k ^ 2)).
  assert (forall t, 0 <= A * t * t + 2 * B * t + C) as Q.
  { intro t. assert (rsum n (fun k => (a k * t + b k) ^ 2) = A * t * t + 2 * B * t + C) as <-.
    { unfold A, B, C. rewrite (rsum_ext n _ (fun k => (a k ^ 2 * (t * t) + (a k * b k) * (2 * t)) + b k ^ 2)) by (intros; ring).
      rewrite !rsum_plus, !rsum_scal_r. ring. }
    apply rsum_nonneg. intros. apply pow2_ge_0. }
  assert (0 <= A) as PA by (apply rsum_nonneg; intros; apply pow2_ge_0).
  destruct (Req_EM_T A 0) as [Z|Z].
  - rewrite Z. assert (B = 0) as ->; [|lra]. unfold B. apply rsum_zero. intros k K.
    assert (a k ^ 2 = 0) as E by (apply (rsum_zero_inv n (fun j => a j ^ 2)); [intros; apply pow2_ge_0|exact Z|exact K]).
    assert (a k = 0) as -> by (cbn in E; rewrite Rmult_1_r in E; apply Rmult_integral in E; lra). ring.
  - specialize (Q (- B / A)). assert (A * (- B / A) * (- B / A) + 2 * B * (- B / A) + C = C - B ^ 2 / A) as E by (field; exact Z). rewrite E in Q.
    assert (B ^ 2 = B ^ 2 / A * A) as -> by (field; exact Z). assert (0 < A) by lra. nra.
Qed.
Lemma rabs2 v : Rabs v ^ 2 = v ^ 2.
Proof. apply pow2_abs. Qed.
(* the cosine distance from a product and the two sums of squares *)
Definition cos_value (eps d nx ny : R) : R := Rmax ((1 - d / (sqrt nx * sqrt ny + eps)) / 2) 0.
Lemma cos_range n a b eps : 0 < eps ->
  0 <= cos_value eps (rsum n (fun k => a k * b k)) (rsum n (fun k => a k ^ 2)) (rsum n (fun k => b k ^ 2)) <= 1.
Proof.
  intro E. pose proof (cauchy_schwarz n a b) as CS. set (A := rsum n (fun k => a k ^ 2)) in *. set (B := rsum n (fun k => a k * b k)) in *. set (C := rsum n (fun k => b k ^ 2)) in *.
  assert (0 <= A) as PA by (apply rsum_nonneg; intros; apply pow2_ge_0). assert (0 <= C) as PC by (apply rsum_nonneg; intros; apply pow2_ge_0).
  unfold cos_value. split; [apply Rmax_r|]. apply Rmax_lub; [|lra].
  pose proof (sqrt_pos A) as SA. pose proof (sqrt_pos C) as SC. assert (0 <= sqrt A * sqrt C) as SP by (apply Rmult_le_pos; assumption).
  assert (- (sqrt A * sqrt C) <= B) as L.
  { assert (Rabs B <= sqrt A * sqrt C) as Ab.
    { rewrite <- sqrt_mult by assumption. rewrite <- sqrt_Rsqr_abs. apply sqrt_le_1_alt. unfold Rsqr. replace (B * B) with (B ^ 2) by ring. exact CS. }
    destruct (Rcase_abs B) as [N|N]; [rewrite Rabs_left in Ab by exact N; lra|lra]. }
  assert (- 1 <= B / (sqrt A * sqrt C + eps)); [|lra].
  apply (Rmult_le_reg_r (sqrt A * sqrt C + eps)); [lra|]. unfold Rdiv. rewrite Rmult_assoc, Rinv_l by lra. lra.
Qed.
Lemma cos_same_value A eps : 0 <= A -> 0 < eps -> cos_value eps A A A = eps / (2 * (A + eps)).
Proof.
  intros P E. unfold cos_value. rewrite sqrt_sqrt by exact P. replace ((1 - A / (A + eps)) / 2) with (eps / (2 * (A + eps))) by (field; lra).
  apply Rmax_left. apply Rmult_le_pos; [lra|]. left. apply Rinv_0_lt_compat. lra.
Qed.
Lemma all_zero_spec a : all_zero a = true <-> forall i, inb (shp a) i -> at_ a i = 0.
Proof.
  unfold all_zero. rewrite forallb_forall. split.
  - intros H i I. specialize (H (flat (shp a) i)). rewrite in_seq, unflat_flat in H by exact I.
    specialize (H ltac:(pose proof (flat_lt _ _ I); lia)). destruct (Req_EM_T (at_ a i) 0); [assumption|discriminate].
  - intros H k K. apply in_seq in K. destruct (flat_unflat (shp a) k ltac:(lia)) as [_ I]. rewrite H by exact I. destruct (Req_EM_T 0 0); [reflexivity|contradiction].
Qed.
Lemma all_zero_false a : (exists i, inb (shp a) i /\ at_ a i <> 0) -> all_zero a = false.
Proof. intros (i & I & N). destruct (all_zero a) eqn:Z; [|reflexivity]. rewrite all_zero_spec in Z. apply Z in I. contradiction. Qed.
(* value of the whole-tensor and per-sample cosine distances *)
Lemma last_one (n : nat) : last [n] 0%nat = n. Proof. reflexivity. Qed.
Lemma cs_whole x y eps : shp y = shp x -> (exists i, inb (shp x) i /\ (at_ x i <> 0 \/ at_ y i <> 0)) ->
  exists r, compute_cs x y eps false None = Ok r /\ shp r = [] /\ at_ r [] = cos_value eps (dot_of x y) (dot_of x x) (dot_of y y).
Proof.
  intros E (i & I & N). unfold compute_cs. rewrite validate_same by (symmetry; exact E). cbn [bind].
  assert (all_zero y && all_zero x = false) as ->.
  { apply andb_false_iff. destruct N as [N|N]; [right|left]; apply all_zero_false; exists i; rewrite ?E; auto. }
  cbn [flatten_tensor bind].
  pose proof (view_whole x) as [Sx Vx]. pose proof (view_whole y) as [Sy Vy]. rewrite E in Sy, Vy.
  set (P := prod (shp x)) in *.
  assert (forall k, (k < P)%nat -> at_ (flatten x) [k] = at_ x (unflat (shp x) k)) as Ax by (intros k K; apply (Vx [] k); [constructor|exact K]).
  assert (forall k, (k < P)%nat -> at_ (flatten y) [k] = at_ y (unflat (shp x) k)) as Ay by (intros k K; apply (Vy [] k); [constructor|exact K]).
  destruct (bop_fits Rdiv (sum_all (zip Rmult (flatten x) (flatten y))) (nmap (fun v => v + eps) (zip Rmult (tensor_norm (flatten x)) (tensor_norm (flatten y)))) (fits_refl _)) as (c & Hc & Sc & Fc).
  rewrite Hc. cbn [bind]. eexists. split; [reflexivity|]. split; [exact Sc|]. cbn [nmap at_ shp]. rewrite Fc by constructor.
  unfold cos_value. f_equal. f_equal. f_equal. f_equal.
  - change (rsum (P * 1) (fun k => at_ (flatten x) (unflat [P] k) * at_ (flatten y) (unflat [P] k)) = dot_of x y). rewrite Nat.mul_1_r.
    apply rsum_ext. intros k K. cbn [unflat prod]. rewrite Nat.div_1_r. rewrite Ax, Ay by exact K. reflexivity.
  - change (sqrt (rsum P (fun k => Rabs (at_ (flatten x) [k]) ^ 2)) * sqrt (rsum (prod (shp y)) (fun k => Rabs (at_ (flatten y) [k]) ^ 2)) + eps = sqrt (dot_of x x) * sqrt (dot_of y y) + eps).
    unfold dot_of. rewrite E. fold P. f_equal. f_equal; f_equal; apply rsum_ext; intros k K; rewrite rabs2, ?Ax, ?Ay by exact K; ring.
Qed.

Lemma cs_samples x y eps d0 s' : shp x = d0 :: s' -> shp y = shp x -> nonempty (shp x) -> (exists i, inb (shp x) i /\ (at_ x i <> 0 \/ at_ y i <> 0)) ->
  exists r, compute_cs x y eps true None = Ok r /\ shp r = [d0] /\
    forall b, (b < d0)%nat -> at_ r [b] = cos_value eps (dot_of (sample b x) (sample b y)) (dot_of (sample b x) (sample b x)) (dot_of (sample b y) (sample b y)).
Proof.
  intros Sx E Ne (i & I & N). unfold compute_cs. rewrite validate_same by (symmetry; exact E). cbn [bind].
  assert (all_zero y && all_zero x = false) as ->.
  { apply andb_false_iff. destruct N as [N|N]; [right|left]; apply all_zero_false; exists i; rewrite ?E; auto. }
  rewrite Sx in Ne. inversion Ne as [|? ? D Ne']; subst.
  destruct (flatten_batch_ok x d0 s' Sx ltac:(lia)) as [fx Fx]. pose proof (view_batch _ _ _ _ Sx Fx) as [Vsx Vx].
  destruct (flatten_shape x y true None fx E Fx) as (fy & Fy & _). rewrite Sx in E. pose proof (view_batch _ _ _ _ E Fy) as [Vsy Vy].
  rewrite Fx, Fy. cbn [bind]. set (P := prod s') in *. cbn [app] in Vsx, Vsy.
  assert (shp (nsum [1%nat] (zip Rmult fx fy)) = [d0]) as S1 by (cbn [nsum shp zip]; rewrite Vsx; reflexivity).
  assert (shp (nmap (fun v => v + eps) (zip Rmult (tensor_norm fx) (tensor_norm fy))) = [d0]) as S2 by (cbn [nmap zip tensor_norm sum_last shp]; rewrite Vsx; reflexivity).
  destruct (bop_fits Rdiv (nsum [1%nat] (zip Rmult fx fy)) (nmap (fun v => v + eps) (zip Rmult (tensor_norm fx) (tensor_norm fy)))) as (c & Hc & Sc & Fc).
  { rewrite S1, S2. apply fits_refl. }
  rewrite Hc. cbn [bind]. eexists. split; [reflexivity|]. split; [cbn [nmap shp]; rewrite Sc; exact S1|].
  intros b B. cbn [nmap at_]. rewrite Fc by (rewrite S1; apply inb1; exact B). rewrite S2, mask_id by (apply inb1; exact B).
  assert (forall k, (k < P)%nat -> at_ fx [b; k] = at_ x (b :: unflat s' k)) as Ax by (intros k K; apply (Vx [b] k); [apply inb1; exact B|exact K]).
  assert (forall k, (k < P)%nat -> at_ fy [b; k] = at_ y (b :: unflat s' k)) as Ay by (intros k K; apply (Vy [b] k); [apply inb1; exact B|exact K]).
  unfold cos_value. f_equal. f_equal. f_equal. f_equal.
  - cbn [nsum at_ zip shp]. rewrite Vsx. cbn [sum_at memb existsb Nat.eqb orb]. unfold dot_of, sample. cbn [shp at_]. rewrite Sx. cbn [tl]. fold P. apply rsum_ext. intros k K. rewrite Ax, Ay by exact K. reflexivity.
  - cbn [nmap zip tensor_norm sum_last shp at_]. rewrite Vsx, Vsy. cbn [last app]. unfold dot_of, sample. cbn [shp at_]. rewrite E, Sx. cbn [tl]. fold P.
    f_equal. f_equal; f_equal; apply rsum_ext; intros k K; rewrite rabs2, ?Ax, ?Ay by exact K; ring.
Qed.

(* ---- the divergence ---- *)
Lemma kl_view x y batch axis r fx fy rs' n g : compute_kl_divergence x y batch axis = Ok r ->
  flatten_tensor x batch axis = Ok fx -> flatten_tensor y batch axis = Ok fy -> viewed x fx rs' n g -> viewed y fy rs' n g ->
  exists rs m, rs' = rs ++ [m] /\ m <> 0%nat /\ shp r = rs /\ forall idx, inb rs idx ->
    at_ r idx = rsum m (fun j => rsum n (fun k => kl_term (at_ x (g (idx ++ [j]) k)) (at_ y (g (idx ++ [j]) k)))) / INR m.
Proof.
  intros H Fx Fy [Sx Vx] [Sy Vy]. unfold compute_kl_divergence in H. destruct (validate x y); [|discriminate]. cbn [bind] in H. rewrite Fx, Fy in H. cbn [bind] in H.
  set (a := sum_last (zip kl_term fx fy)) in *.
  assert (shp a = rs') as Sa by (unfold a; cbn [sum_last shp zip]; rewrite Sx; apply removelast_last).
  assert (rs' <> []) as Nn by (intro Z; unfold mean_last in H; rewrite Sa, Z in H; discriminate).
  destruct (exists_last Nn) as [rs [m Er]]. rewrite Er in *.
  rewrite (mean_last_snoc a rs m Sa) in H. destruct (Nat.eqb_spec m 0) as [Z|M]; [discriminate|]. injection H as <-.
  exists rs, m. split; [reflexivity|]. split; [exact M|]. split; [reflexivity|]. intros idx I. cbn [at_]. f_equal. apply rsum_ext. intros j J.
  unfold a. cbn [sum_last at_ zip shp]. rewrite Sx, last_last. apply rsum_ext. intros k K.
  assert (inb (rs ++ [m]) (idx ++ [j])) as Ij by (apply inb_app; [exact I|apply inb1; exact J]). rewrite Vx, Vy by assumption. reflexivity.
Qed.
Lemma kl_flat x y batch axis r : compute_kl_divergence x y batch axis = Ok r ->
  shp x = shp y /\ exists fx fy, flatten_tensor x batch axis = Ok fx /\ flatten_tensor y batch axis = Ok fy.
Proof.
  unfold compute_kl_divergence. destruct (validate x y) as [u|] eqn:V; [|discriminate]. cbn [bind].
  destruct (flatten_tensor x batch axis) as [fx|] eqn:Fx; [|discriminate]. cbn [bind].
  destruct (flatten_tensor y batch axis) as [fy|] eqn:Fy; [|discriminate]. intros _. split; [apply (validate_ok _ _ _ V)|eauto].
Qed.
Lemma kl_term_same p : kl_term p p = 0.
Proof.
  unfold kl_term. destruct (Req_EM_T p 0) as [->|N]; [destruct (Req_EM_T 0 0); [reflexivity|contradiction]|].
  destruct (Req_EM_T p 0); [contradiction|]. unfold Rdiv. rewrite Rinv_r, ln_1 by exact N. ring.
Qed.
Lemma ln_lt_sub1 t : 0 < t -> t <> 1 -> ln t < t - 1.
Proof.
  intros P N. destruct (Rlt_le_dec (ln t) (t - 1)) as [L|L]; [exact L|]. exfalso.
  assert (t - 1 <> 0) as Z by lra. pose proof (exp_ineq1 (t - 1) Z) as E.
  assert (exp (t - 1) <= exp (ln t)) as M by (destruct L as [L|L]; [left; apply exp_increasing; exact L|right; rewrite L; reflexivity]).
  rewrite exp_ln in M by exact P. lra.
Qed.
Lemma kl_term_ge p q : 0 <= p -> 0 < q -> p - q <= kl_term p q /\ (kl_term p q = p - q -> p = q).
Proof.
  intros P Q. unfold kl_term. destruct (Req_EM_T q 0) as [->|_]; [lra|]. destruct (Req_EM_T p 0) as [->|N]; [split; lra|].
  assert (0 < p) as P' by lra. assert (ln (p / q) = - ln (q / p)) as ->.
  { rewrite <- ln_Rinv by (apply Rdiv_lt_0_compat; assumption). f_equal. field. lra. }
  assert (p * (q / p - 1) = q - p) as E by (field; lra).
  pose proof (ln_le_sub1 (q / p) ltac:(apply Rdiv_lt_0_compat; assumption)) as L. split; [nra|].
  intro Eq. destruct (Req_EM_T (q / p) 1) as [O|O]; [assert (q = q / p * p) as -> by (field; lra); rewrite O; ring|].
  pose proof (ln_lt_sub1 (q / p) ltac:(apply Rdiv_lt_0_compat; assumption) O). nra.
Qed.
Lemma kl_line n p q : (forall k, (k < n)%nat -> 0 <= p k) -> (forall k, (k < n)%nat -> 0 < q k) -> rsum n p = rsum n q ->
  0 <= rsum n (fun k => kl_term (p k) (q k)) /\ (rsum n (fun k => kl_term (p k) (q k)) = 0 -> forall k, (k < n)%nat -> p k = q k).
Proof.
  intros P Q E.
  assert (rsum n (fun k => kl_term (p k) (q k) - (p k - q k)) = rsum n (fun k => kl_term (p k) (q k))) as S by (rewrite !rsum_minus, E; ring).
  assert (forall k, (k < n)%nat -> 0 <= kl_term (p k) (q k) - (p k - q k)) as T by (intros k K; destruct (kl_term_ge (p k) (q k) (P k K) (Q k K)); lra).
  split; [rewrite <- S; apply rsum_nonneg; exact T|]. intros Z k K. rewrite <- S in Z.
  pose proof (rsum_zero_inv _ _ T Z k K) as Zk. cbn in Zk. apply (kl_term_ge (p k) (q k) (P k K) (Q k K)). lra.
Qed.
Lemma axis_view t z ax batch f : norm_axis (length (shp t)) z = Ok ax -> flatten_tensor t batch (Some z) = Ok f ->
  exists rs o, (forall idx, inb rs idx -> inb (del ax (shp t)) (o idx)) /\ (forall p, inb (del ax (shp t)) p -> exists idx, inb rs idx /\ o idx = p) /\
    forall t' f', shp t' = shp t -> flatten_tensor t' batch (Some z) = Ok f' -> viewed t' f' rs (nth ax (shp t) 0%nat) (fun idx k => ins ax k (o idx)).
Proof.
  intros A H. pose proof (norm_axis_ok _ _ _ A) as L. destruct batch.
  - destruct (view_batch_axis _ _ _ _ A H) as (d0 & v & Hd & E & N & V). exists [d0; v], (fun idx => unflat (del ax (shp t)) (flat [d0; v] idx)).
    assert (prod [d0; v] = prod (del ax (shp t))) as E' by (cbn [prod]; lia). split; [|split].
    + intros idx I. apply flat_unflat. rewrite <- E'. apply flat_lt. exact I.
    + intros p I. exists (unflat [d0; v] (flat (del ax (shp t)) p)). assert (flat (del ax (shp t)) p < prod [d0; v])%nat as Lp by (rewrite E'; apply flat_lt; exact I).
      destruct (flat_unflat _ _ Lp) as [Fu Iu]. split; [exact Iu|]. rewrite Fu. apply unflat_flat. exact I.
    + intros t' f' E2 H'. rewrite <- E2 in A. destruct (view_batch_axis _ _ _ _ A H') as (d0' & v' & Hd' & E3 & N' & V'). rewrite E2 in *.
      rewrite Hd in Hd'. injection Hd' as <-. assert (v' = v) as -> by nia. exact V'.
  - exists [prod (del ax (shp t))], (fun idx => unflat (del ax (shp t)) (hd 0%nat idx)). split; [|split].
    + intros idx I. inversion I; subst. cbn [hd]. apply flat_unflat. assumption.
    + intros p I. exists [flat (del ax (shp t)) p]. split; [apply inb1, flat_lt; exact I|]. cbn [hd]. apply unflat_flat. exact I.
    + intros t' f' E2 H'. rewrite <- E2 in A. pose proof (view_axis _ _ _ _ A H') as V. rewrite E2 in V. exact V.
Qed.

(* ---- HMSE ---- *)
Lemma nth_id (l : list nat) : map (fun k => nth k l 0%nat) (seq 0 (length l)) = l.
Proof. rewrite map_nth_seq by lia. cbn [skipn]. apply firstn_all. Qed.
Lemma transpose_id t : at_ (transpose (seq 0 (length (shp t))) t) = (fun idx => at_ t (map (fun k => nth (index_of k (seq 0 (length (shp t)))) idx 0%nat) (seq 0 (length (shp t))))) /\
  shp (transpose (seq 0 (length (shp t))) t) = shp t /\ forall idx, length idx = length (shp t) -> at_ (transpose (seq 0 (length (shp t))) t) idx = at_ t idx.
Proof.
  split; [reflexivity|]. split; [apply nth_id|]. intros idx L. cbn [transpose at_]. f_equal. transitivity (map (fun k => nth k idx 0%nat) (seq 0 (length idx))); [|apply nth_id]. rewrite L. apply map_ext_in.
  intros k K. apply in_seq in K. rewrite index_of_seq by lia. f_equal. lia.
Qed.
Lemma channel_first_ok sc d0 s' : shp sc = d0 :: s' -> d0 <> 0%nat ->
  exists r, reshape_per_channel sc 0 = Ok r /\ shp r = [d0; prod s'] /\ forall k, (k < prod (shp sc))%nat -> at_ r (unflat (shp r) k) = at_ sc (unflat (shp sc) k).
Proof.
  intros S N. unfold reshape_per_channel.
  assert (0%nat :: filter (fun i => negb (Nat.eqb i 0)) (seq 0 (length (shp sc))) = seq 0 (length (shp sc))) as ->.
  { rewrite others_seq by (rewrite S; cbn; lia). rewrite S. cbn [length seq app]. f_equal. f_equal. lia. }
  destruct (transpose_id sc) as (_ & Sh & T). set (tr := transpose (seq 0 (length (shp sc))) sc) in *. replace (nth 0 (shp sc) 0%nat) with d0 by (rewrite S; reflexivity).
  destruct (reshape_fill tr [Some d0; None] (prod s')) as [r H]; [reflexivity| | | |]; cbn [map prod]; rewrite ?Sh, ?S; cbn [prod]; try lia.
  rewrite H. exists r. split; [reflexivity|]. destruct (reshape_ok _ _ _ H) as (v & -> & P). cbn [map prod] in P. rewrite Sh, S in P. cbn [prod] in P.
  assert (v = prod s') as -> by nia. cbn [map reshape_to shp]. split; [reflexivity|]. intros k K. unfold reshape_to. cbn [at_].
  destruct (flat_unflat [d0; prod s'] k ltac:(cbn [prod]; lia)) as [-> _]. rewrite Sh, S. apply T. rewrite unflat_length, S. reflexivity.
Qed.
Lemma wmse_whole x y norm eps w : shp x = shp y -> nonempty (shp x) -> prod (shp w) = prod (shp x) ->
  exists r, compute_mse x y norm eps false None (Some w) = Ok r /\ shp r = [] /\
    at_ r [] = ratio norm eps (INR (prod (shp x)))
      (rsum (prod (shp x)) (fun k => (at_ w (unflat (shp w) k) * (at_ x (unflat (shp x) k) - at_ y (unflat (shp x) k))) ^ 2))
      (rsum (prod (shp x)) (fun k => sq (at_ x (unflat (shp x) k)))).
Proof.
  intros E N W. apply prod_pos in N. unfold compute_mse. rewrite validate_same by exact E. cbn [bind flatten_tensor].
  destruct (list_eq_dec Nat.eq_dec (shp (flatten w)) (shp (flatten x))) as [_|X]; [|exfalso; apply X; unfold flatten, reshape_to; cbn [shp]; rewrite W; reflexivity].
  pose proof (view_whole x) as [Sx Vx]. pose proof (view_whole y) as [Sy Vy]. pose proof (view_whole w) as [Sw Vw]. rewrite <- E in Sy, Vy. rewrite W in Sw, Vw.
  set (P := prod (shp x)) in *. set (a := nmap (fun v => v ^ 2) (zip Rmult (flatten w) (zip Rminus (flatten x) (flatten y)))) in *.
  assert (shp a = [] ++ [P]) as Sa by (exact Sw). rewrite (mean_last_snoc a [] P Sa). assert (P <> 0%nat) as Z by lia. apply Nat.eqb_neq in Z. rewrite Z. apply Nat.eqb_neq in Z. cbn [bind].
  assert (exists r, normalised norm eps (fun v => v ^ 2) (flatten x) (Nd [] (fun idx => rsum P (fun k => at_ a (idx ++ [k])) / INR P)) = Ok r) as [r H].
  { unfold normalised. destruct norm; [|eauto]. rewrite (mean_last_snoc (nmap (fun v => v ^ 2) (flatten x)) [] P Sx). apply Nat.eqb_neq in Z. rewrite Z. cbn [bind]. eauto. }
  exists r. split; [exact H|]. destruct (entry_form [] P (flatten x) (fun idx k => at_ a (idx ++ [k])) sq norm eps _ r Sx Z eq_refl H) as [S F]. split; [exact S|].
  rewrite F. unfold ratio.
  rewrite (rsum_ext P (fun k => at_ a ([] ++ [k])) (fun k => (at_ w (unflat (shp w) k) * (at_ x (unflat (shp x) k) - at_ y (unflat (shp x) k))) ^ 2)) by (intros k K; unfold a; cbn [nmap zip at_]; rewrite Vx, Vy, Vw by (assumption || constructor); reflexivity).
  rewrite (rsum_ext P (fun k => sq (at_ (flatten x) ([] ++ [k]))) (fun k => sq (at_ x (unflat (shp x) k)))) by (intros k K; rewrite Vx by (assumption || constructor); reflexivity).
  reflexivity.
Qed.
