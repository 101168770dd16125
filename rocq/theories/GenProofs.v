(* GenProofs.v -- C89: batches, steps, smoothing, cropping, clipping. *)
From Coq Require Import Reals Lra Lia List Permutation.
From Verif Require Import Nd.
From Verif Require Import Base GenModel GenSpec.
Import ListNotations.
Open Scope R_scope.
Open Scope res_scope.

Lemma gmapM_ok {A B} (f : A -> result B) (h : A -> B) l : (forall x, In x l -> f x = Ok (h x)) -> mapM f l = Ok (map h l).
Proof. induction l as [|x l IH]; intro H; [reflexivity|]. cbn [mapM map]. rewrite (H x) by (left; reflexivity). cbn [bind]. rewrite IH by (intros; apply H; right; assumption). reflexivity. Qed.

(* ---- batches ---- *)
Section Batches.
  Variable b : nat.
  Hypothesis B : (0 < b)%nat.
  Lemma seq_map_shift {A} (G : nat -> A) s n : map G (seq s n) = map (fun i => G (s + i)%nat) (seq 0 n).
  Proof. revert s G. induction n as [|n IH]; intros s G; cbn; [reflexivity|]. f_equal; [f_equal; lia|]. rewrite (IH (S s)), (IH 1%nat). apply map_ext. intro i. f_equal. lia. Qed.
  Lemma firstn_seq m : forall s n, firstn m (seq s n) = seq s (Nat.min m n).
  Proof. induction m as [|m IH]; intros s [|n]; cbn; try reflexivity. f_equal. apply IH. Qed.
  Lemma skipn_seq m : forall s n, skipn m (seq s n) = seq (s + m) (n - m).
  Proof. induction m as [|m IH]; intros s [|n]; cbn; try rewrite Nat.add_0_r; try reflexivity. rewrite IH. f_equal. lia. Qed.
  Lemma skipn_map_seq {A} (G : nat -> A) n : skipn b (map G (seq 0 n)) = map (fun i => G (b + i)%nat) (seq 0 (n - b)).
  Proof. rewrite skipn_map, skipn_seq. apply seq_map_shift. Qed.
  Lemma firstn_map_seq {A} (G : nat -> A) n : firstn b (map G (seq 0 n)) = map G (seq 0 (Nat.min b n)).
  Proof. rewrite firstn_map, firstn_seq. reflexivity. Qed.
  Lemma chunks_S {A} fu (G : nat -> A) n : (0 < n)%nat -> chunks (S fu) b (map G (seq 0 n)) =
    map G (seq 0 (Nat.min b n)) :: chunks fu b (map (fun i => G (b + i)%nat) (seq 0 (n - b))).
  Proof.
    intro N. cbn [chunks]. rewrite <- firstn_map_seq, <- skipn_map_seq. destruct n; [lia|]. reflexivity.
  Qed.
  Lemma chunks_0 {A} fu (G : nat -> A) : chunks fu b (map G (seq 0 0)) = [].
  Proof. destruct fu; reflexivity. Qed.

  Lemma assign_seq v sh (F : nat -> list nat -> R) m p : assign p v (map (fun i => Nd sh (F i)) (seq 0 m)) = map (fun i => Nd sh (v (p + i)%nat)) (seq 0 m).
  Proof.
    revert F p. induction m as [|m IH]; intros F p; [reflexivity|]. cbn [seq map assign]. f_equal; [cbn; f_equal; rewrite Nat.add_0_r; reflexivity|].
    rewrite (seq_map_shift (fun i => Nd sh (F i)) 1), IH. rewrite (seq_map_shift _ 1). apply map_ext. intro i. do 2 f_equal. lia.
  Qed.
  Lemma step_chunks v sh j : forall fu n (F : nat -> list nat -> R), (n <= fu)%nat -> (j * b < n)%nat ->
    step j v (chunks fu b (map (fun i => Nd sh (F i)) (seq 0 n))) =
    Ok (chunks fu b (map (fun i => Nd sh (if Nat.eqb j (i / b) then v (i mod b)%nat else F i)) (seq 0 n))).
  Proof.
    induction j as [|j IH]; intros fu n F L J; (destruct fu as [|fu]; [lia|]); rewrite !chunks_S by lia; cbn [step].
    - rewrite assign_seq. do 2 f_equal.
      + apply map_ext_in. intros i Hi. apply in_seq in Hi. rewrite Nat.div_small, Nat.mod_small by lia. reflexivity.
      + f_equal. apply map_ext. intro i. replace ((b + i) / b)%nat with (S (i / b)); [reflexivity|].
        replace (b + i)%nat with (i + 1 * b)%nat by lia. rewrite Nat.div_add by lia. lia.
    - rewrite IH by lia. cbn [bind]. do 2 f_equal.
      + apply map_ext_in. intros i Hi. apply in_seq in Hi. rewrite Nat.div_small by lia. reflexivity.
      + f_equal. apply map_ext. intro i. replace (b + i)%nat with (i + 1 * b)%nat by lia. rewrite Nat.div_add, Nat.mod_add by lia.
        replace (i / b + 1)%nat with (S (i / b)) by lia. cbn [Nat.eqb]. do 2 f_equal.
  Qed.
  Lemma steps_chunks sh fu n : (n <= fu)%nat -> forall us (F : nat -> list nat -> R), Forall (fun u => (fst u * b < n)%nat) us ->
    foldM (fun bs u => step (fst u) (snd u) bs) us (chunks fu b (map (fun i => Nd sh (F i)) (seq 0 n))) =
    Ok (chunks fu b (map (fun i => Nd sh (current b F us i)) (seq 0 n))).
  Proof.
    intros L us. induction us as [|u us IH]; intros F H; [reflexivity|]. inversion H as [|? ? H1 H2]; subst. cbn [foldM].
    rewrite step_chunks by assumption. cbn [bind]. rewrite IH by exact H2. reflexivity.
  Qed.
  Definition framed (im : nd) : nd := Nd (1%nat :: shp im) (fun idx => at_ im (tl idx)).
  Lemma collect_torch g out fin : (forall im, finalize GTorch g out im = Ok (fin im)) -> forall fu n (G : nat -> nd), (n <= fu)%nat ->
    collect GTorch g out (chunks fu b (map G (seq 0 n))) = Ok (map (fun i => framed (fin (G i))) (seq 0 n)).
  Proof.
    intros Fin fu. induction fu as [|fu IH]; intros n G L; [replace n with 0%nat by lia; reflexivity|].
    destruct n as [|n]; [reflexivity|]. rewrite chunks_S by lia. cbn [collect].
    rewrite (gmapM_ok _ fin) by (intros; apply Fin). cbn [bind split_batch]. rewrite IH by lia. cbn [bind]. f_equal.
    rewrite !map_map. replace (seq 0 (S n)) with (seq 0 (Nat.min b (S n)) ++ seq (Nat.min b (S n)) (S n - Nat.min b (S n))) by (rewrite <- seq_app; f_equal; lia).
    rewrite map_app. unfold framed. f_equal. rewrite (seq_map_shift _ (Nat.min b (S n))).
    destruct (Nat.le_gt_cases b (S n)) as [H|H]; [replace (Nat.min b (S n)) with b by lia; reflexivity|].
    replace (S n - b)%nat with 0%nat by lia. replace (S n - Nat.min b (S n))%nat with 0%nat by lia. reflexivity.
  Qed.
  Lemma collect_keras g out fin : g_batch g = b -> (forall im, finalize GKeras g out im = Ok (fin im)) -> forall fu q n (G : nat -> nd), (n <= fu)%nat -> n = (q * b)%nat ->
    collect GKeras g out (chunks fu b (map G (seq 0 n))) = Ok (map (fun i => framed (fin (G i))) (seq 0 n)).
  Proof.
    intros Eb Fin fu. induction fu as [|fu IH]; intros q n G L E; [replace n with 0%nat by lia; reflexivity|].
    destruct q as [|q]; [subst n; reflexivity|]. assert (0 < n)%nat as N by nia. rewrite chunks_S by lia. cbn [collect].
    rewrite (gmapM_ok _ fin) by (intros; apply Fin). cbn [bind]. unfold split_batch. rewrite !map_length, seq_length, Eb.
    replace (Nat.min b n) with b by nia. rewrite Nat.mod_same by lia. cbn [Nat.eqb bind]. rewrite (IH q) by nia. cbn [bind]. f_equal.
    rewrite !map_map. replace (seq 0 n) with (seq 0 b ++ seq b (n - b)) by (rewrite <- seq_app; f_equal; nia).
    rewrite map_app. unfold framed. f_equal. rewrite (seq_map_shift _ b). reflexivity.
  Qed.
  Lemma collect_keras_rest g out fin : g_batch g = b -> (forall im, finalize GKeras g out im = Ok (fin im)) -> forall fu n (G : nat -> nd), (n <= fu)%nat -> (n mod b <> 0)%nat ->
    collect GKeras g out (chunks fu b (map G (seq 0 n))) = Err E_value.
  Proof.
    intros Eb Fin fu. induction fu as [|fu IH]; intros n G L E; [replace n with 0%nat in E by lia; rewrite Nat.mod_0_l in E by lia; lia|].
    destruct n as [|n]; [rewrite Nat.mod_0_l in E by lia; lia|]. rewrite chunks_S by lia. cbn [collect].
    rewrite (gmapM_ok _ fin) by (intros; apply Fin). cbn [bind]. unfold split_batch. rewrite !map_length, seq_length, Eb.
    destruct (Nat.le_gt_cases b (S n)) as [H|H].
    - replace (Nat.min b (S n)) with b by lia. rewrite Nat.mod_same by lia. cbn [Nat.eqb bind]. rewrite IH; [reflexivity|lia|].
      intro Z. apply E. replace (S n) with (S n - b + 1 * b)%nat by lia. rewrite Nat.mod_add by lia. exact Z.
    - replace (Nat.min b (S n)) with (S n) by lia. destruct (Nat.eqb_spec (S n mod b) 0); [contradiction|reflexivity].
  Qed.
End Batches.

(* ---- smoothing ---- *)
Lemma bordered_pixel m h w f y x i j : bordered m h w f (y + i) (x + j) =
  pixel (Z.of_nat h) (Z.of_nat w) f (Z.of_nat y + (Z.of_nat i - Z.of_nat m)) (Z.of_nat x + (Z.of_nat j - Z.of_nat m)).
Proof.
  unfold bordered, pixel.
  destruct (Nat.leb_spec m (y + i)), (Z.leb_spec 0 (Z.of_nat y + (Z.of_nat i - Z.of_nat m))); try lia; cbn [andb]; [|reflexivity].
  destruct (Nat.ltb_spec (y + i) (m + h)), (Z.ltb_spec (Z.of_nat y + (Z.of_nat i - Z.of_nat m)) (Z.of_nat h)); try lia; cbn [andb]; [|reflexivity].
  destruct (Nat.leb_spec m (x + j)), (Z.leb_spec 0 (Z.of_nat x + (Z.of_nat j - Z.of_nat m))); try lia; cbn [andb]; [|reflexivity].
  destruct (Nat.ltb_spec (x + j) (m + w)), (Z.ltb_spec (Z.of_nat x + (Z.of_nat j - Z.of_nat m)) (Z.of_nat w)); try lia; [|reflexivity].
  f_equal; lia.
Qed.
Lemma half_odd m : ((2 * m + 1) / 2 = m /\ (2 * m + 1 - 1) / 2 = m /\ (2 * m + 1 + 1) / 2 = m + 1)%nat.
Proof.
  repeat split.
  - rewrite Nat.add_comm, Nat.mul_comm, Nat.div_add by lia. cbn. lia.
  - replace (2 * m + 1 - 1)%nat with (m * 2)%nat by lia. apply Nat.div_mul. lia.
  - replace (2 * m + 1 + 1)%nat with ((m + 1) * 2)%nat by lia. apply Nat.div_mul. lia.
Qed.
Lemma raw_bell m sigma i j : raw (2 * m + 1) sigma i j = bell sigma (Z.of_nat i - Z.of_nat m) (Z.of_nat j - Z.of_nat m).
Proof.
  unfold raw, bell, axis. destruct (half_odd m) as (_ & _ & ->). rewrite !minus_IZR, <- !INR_IZR_INZ, plus_INR. cbn [INR].
  replace (INR i + 1 - (INR m + 1)) with (INR i - INR m) by ring. replace (INR j + 1 - (INR m + 1)) with (INR j - INR m) by ring. reflexivity.
Qed.
Lemma convolve_blurred m h w sigma f y x : convolve (2 * m + 1) m h w sigma f y x = blurred m sigma h w f (Z.of_nat y) (Z.of_nat x).
Proof.
  unfold convolve, blurred, around, Rdiv. rewrite <- rsum_scal_r. apply rsum_ext. intros i _. rewrite <- rsum_scal_r. apply rsum_ext. intros j _.
  rewrite bordered_pixel. unfold kernel. rewrite raw_bell. unfold Rdiv.
  rewrite (rsum_ext (2 * m + 1) _ (fun i => rsum (2 * m + 1) (fun j => bell sigma (Z.of_nat i - Z.of_nat m) (Z.of_nat j - Z.of_nat m)))); [ring|].
  intros a _. apply rsum_ext. intros c _. apply raw_bell.
Qed.
Lemma offset_centred f d h : centred (h + d) h (crop_offset f d).
Proof.
  unfold centred, crop_offset. pose proof (Nat.div_mod d 2 ltac:(lia)) as D. pose proof (Nat.mod_upper_bound d 2 ltac:(lia)) as U.
  destruct f; [|lia]. destruct (Nat.even d) eqn:E; [lia|]. destruct (Nat.even (d / 2)); [lia|].
  assert (d mod 2 = 1)%nat.
  { destruct (Nat.eq_dec (d mod 2) 0) as [Z|Z]; [|lia]. exfalso. assert (Nat.even d = true); [|congruence]. apply Nat.even_spec. exists (d / 2)%nat. lia. }
  lia.
Qed.

(* ---- clipping ---- *)
Lemma fold_min_le l : forall x, (forall y, In y l -> x <= y) -> fold_left Rmin l x = x.
Proof. induction l as [|y l IH]; intros x H; [reflexivity|]. cbn. rewrite Rmin_left by (apply H; left; reflexivity). apply IH. intros; apply H; right; assumption. Qed.
Lemma fold_max_ge l : forall x, x <= fold_left Rmax l x.
Proof. induction l as [|y l IH]; intro x; cbn; [lra|]. eapply Rle_trans; [apply Rmax_l|apply IH]. Qed.
Lemma fold_max_in l : forall x y, In y l -> y <= fold_left Rmax l x.
Proof. induction l as [|z l IH]; intros x y []; [subst z; cbn; eapply Rle_trans; [apply Rmax_r|apply fold_max_ge]|apply IH; assumption]. Qed.
Lemma fold_max_le l m : forall x, x <= m -> (forall y, In y l -> y <= m) -> fold_left Rmax l x <= m.
Proof. induction l as [|z l IH]; intros x Hx H; cbn; [exact Hx|]. apply IH; [apply Rmax_lub; [exact Hx|apply H; left; reflexivity]|intros; apply H; right; assumption]. Qed.
Lemma grid_in m s x : In x (grid m s) <-> exists i, (i < 256)%nat /\ x = (INR i - m) / s.
Proof.
  unfold grid. rewrite in_map_iff. split.
  - intros (i & E & I). apply in_seq in I. exists i. split; [lia|congruence].
  - intros (i & I & ->). exists i. split; [reflexivity|]. apply in_seq. lia.
Qed.
Lemma grid_mono m s a b : 0 < s -> a <= b -> (a - m) / s <= (b - m) / s.
Proof. intros S H. unfold Rdiv. apply Rmult_le_compat_r; [left; apply Rinv_0_lt_compat; exact S|lra]. Qed.
Lemma grid_cons m s : exists r, grid m s = (0 - m) / s :: r.
Proof. unfold grid. change (seq 0 256) with (0%nat :: seq 1 255). eexists. reflexivity. Qed.
Lemma grid_min m s : 0 < s -> lmin (grid m s) = (0 - m) / s.
Proof.
  intro S. destruct (grid_cons m s) as [r E]. rewrite E. cbn [lmin]. apply fold_min_le. intros y Hy.
  assert (In y (grid m s)) as I by (rewrite E; right; exact Hy). apply grid_in in I. destruct I as (i & _ & ->). apply grid_mono; [exact S|apply pos_INR].
Qed.
Lemma grid_max m s : 0 < s -> lmax (grid m s) = (255 - m) / s.
Proof.
  intro S. destruct (grid_cons m s) as [r E]. rewrite E. cbn [lmax].
  assert (forall y, In y (grid m s) -> y <= (255 - m) / s) as U.
  { intros y Hy. apply grid_in in Hy. destruct Hy as (i & Hi & ->). apply grid_mono; [exact S|]. replace 255 with (INR 255) by (rewrite INR_IZR_INZ; reflexivity). apply le_INR. lia. }
  apply Rle_antisym.
  - apply fold_max_le; [apply U; rewrite E; left; reflexivity|]. intros y Hy. apply U. rewrite E. right. exact Hy.
  - assert (In ((255 - m) / s) (grid m s)) as I by (apply grid_in; exists 255%nat; split; [lia|]; rewrite INR_IZR_INZ; reflexivity).
    rewrite E in I. destruct I as [I|I]; [rewrite <- I; apply fold_max_ge|apply fold_max_in; exact I].
Qed.
Lemma clamp_clipped lo hi x : lo <= hi -> clipped lo hi x (clamp lo hi x).
Proof.
  intro H. unfold clamp, clipped, Rmin, Rmax. destruct (Rle_dec x lo); destruct (Rle_dec _ hi); (split; [lra|]); intros z Hz; unfold Rabs; destruct (Rcase_abs _), (Rcase_abs _); lra.
Qed.
Lemma into_grid_clipped nm c x : 0 < snd (nm c) -> clipped ((0 - fst (nm c)) / snd (nm c)) ((255 - fst (nm c)) / snd (nm c)) x (into_grid nm c x).
Proof. intro S. unfold into_grid. rewrite grid_min, grid_max by exact S. apply clamp_clipped. apply grid_mono; [exact S|lra]. Qed.

(* ---- smoothing stays in the range ---- *)
Lemma rsum_pos n f : (0 < n)%nat -> (forall k, (k < n)%nat -> 0 < f k) -> 0 < rsum n f.
Proof.
  intros N H. induction n as [|n IH]; [lia|]. cbn. destruct n as [|n]; [cbn; specialize (H 0%nat ltac:(lia)); lra|].
  specialize (IH ltac:(lia) ltac:(intros; apply H; lia)). specialize (H (S n) ltac:(lia)). cbn in *. lra.
Qed.
Lemma rsum_le n f g : (forall k, (k < n)%nat -> f k <= g k) -> rsum n f <= rsum n g.
Proof. induction n as [|n IH]; intro H; cbn; [lra|]. specialize (H n ltac:(lia)) as Hn. specialize (IH ltac:(intros; apply H; lia)). lra. Qed.
Lemma around_pos m sigma : 0 < around m (bell sigma).
Proof. unfold around. apply rsum_pos; [lia|]. intros i _. apply rsum_pos; [lia|]. intros j _. apply exp_pos. Qed.
Lemma around_le m g g' : (forall a b, g a b <= g' a b) -> around m g <= around m g'.
Proof. intro H. unfold around. apply rsum_le. intros i _. apply rsum_le. intros j _. apply H. Qed.
Lemma around_scal m g c : around m (fun a b => g a b * c) = around m g * c.
Proof. unfold around. rewrite <- rsum_scal_r. apply rsum_ext. intros i _. apply rsum_scal_r. Qed.
Lemma blurred_range m sigma h w f y x lo hi : lo <= 0 <= hi -> (forall a b, (a < h)%nat -> (b < w)%nat -> lo <= f a b <= hi) -> lo <= blurred m sigma h w f y x <= hi.
Proof.
  intros Z H. unfold blurred. pose proof (around_pos m sigma) as P.
  assert (forall a b, lo <= pixel (Z.of_nat h) (Z.of_nat w) f a b <= hi) as Q.
  { intros a b. unfold pixel. destruct (Z.leb_spec 0 a), (Z.ltb_spec a (Z.of_nat h)), (Z.leb_spec 0 b), (Z.ltb_spec b (Z.of_nat w)); cbn [andb]; try lra. apply H; lia. }
  split.
  - apply Rmult_le_reg_r with (around m (bell sigma)); [exact P|]. unfold Rdiv. rewrite Rmult_assoc, Rinv_l, Rmult_1_r by lra.
    rewrite (Rmult_comm lo), <- around_scal. apply around_le. intros a b. apply Rmult_le_compat_l; [left; apply exp_pos|apply Q].
  - apply Rmult_le_reg_r with (around m (bell sigma)); [exact P|]. unfold Rdiv. rewrite Rmult_assoc, Rinv_l, Rmult_1_r by lra.
    rewrite (Rmult_comm hi), <- around_scal. apply around_le. intros a b. apply Rmult_le_compat_l; [left; apply exp_pos|apply Q].
Qed.
