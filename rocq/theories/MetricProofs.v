(* MetricProofs.v -- lemmas behind MetricProps.v *)
From Coq Require Import Reals Lra Permutation.
From Verif Require Import Base MetricModel MetricSpec.
Local Open Scope list_scope.
Local Open Scope R_scope.

(* ---- sums ---- *)
Lemma sum_app a b : sum (a ++ b) = sum a + sum b.
Proof. unfold sum. induction a; cbn; lra. Qed.
Lemma sum_perm a b : Permutation a b -> sum a = sum b.
Proof. unfold sum. induction 1; cbn; lra. Qed.
Lemma sum_bounds lo hi l : (forall x, In x l -> lo <= x <= hi) -> lo * INR (length l) <= sum l <= hi * INR (length l).
Proof.
  induction l as [|x r IH]; intro H; [cbn; lra|]. cbn [length sum fold_right].
  rewrite S_INR. specialize (IH (fun y I => H y (or_intror I))). specialize (H x (or_introl eq_refl)). unfold sum in *. lra.
Qed.
Lemma sum_nonneg l : (forall x, In x l -> 0 <= x) -> 0 <= sum l.
Proof.
  induction l as [|x r IH]; intro H; cbn; [lra|]. specialize (IH (fun y I => H y (or_intror I))). specialize (H x (or_introl eq_refl)).
  unfold sum in *. lra.
Qed.
Lemma sum_pos l : (forall x, In x l -> 0 <= x) -> (exists x, In x l /\ 0 < x) -> 0 < sum l.
Proof.
  intros H [x [I P]]. induction l as [|y r IH]; [destruct I|]. cbn.
  pose proof (sum_nonneg r (fun z J => H z (or_intror J))) as N. pose proof (H y (or_introl eq_refl)) as HY.
  destruct I as [->|I]; [unfold sum in *; lra|]. specialize (IH (fun z J => H z (or_intror J)) I). unfold sum in *. lra.
Qed.
Lemma sum_le a b : Forall2 Rle a b -> sum a <= sum b.
Proof. induction 1; cbn; [lra|]. unfold sum in *. lra. Qed.
Lemma sum_scal c l : sum (map (Rmult c) l) = c * sum l.
Proof. unfold sum. induction l; cbn; [ring|]. rewrite IHl. ring. Qed.

(* ---- means ---- *)
Lemma INR_pos n : (0 < n)%nat -> 0 < INR n.
Proof. intro H. apply lt_0_INR. exact H. Qed.

Lemma mean_ok l : (0 < length l)%nat -> mean l = Ok (sum l / INR (length l)).
Proof. destruct l; cbn; [lia|reflexivity]. Qed.

Lemma quot_bounds lo hi s n : 0 < n -> lo * n <= s <= hi * n -> lo <= s / n <= hi.
Proof.
  intros N [A B]. split.
  - apply Rmult_le_reg_r with n; [exact N|]. unfold Rdiv. rewrite Rmult_assoc, Rinv_l by lra. lra.
  - apply Rmult_le_reg_r with n; [exact N|]. unfold Rdiv. rewrite Rmult_assoc, Rinv_l by lra. lra.
Qed.

Lemma mean_bounds lo hi l : (0 < length l)%nat -> (forall x, In x l -> lo <= x <= hi) ->
  exists v, mean l = Ok v /\ lo <= v <= hi.
Proof.
  intros L H. exists (sum l / INR (length l)). split; [apply mean_ok; exact L|].
  apply quot_bounds; [apply INR_pos; exact L|apply sum_bounds; exact H].
Qed.

Lemma forall2_length {A B} (P : A -> B -> Prop) l l' : Forall2 P l l' -> length l = length l'.
Proof. induction 1; cbn; congruence. Qed.

Lemma mean_mono a b : (0 < length a)%nat -> Forall2 Rle a b -> exists v v', mean a = Ok v /\ mean b = Ok v' /\ v <= v'.
Proof.
  intros L F. pose proof (forall2_length _ _ _ F) as E.
  exists (sum a / INR (length a)), (sum b / INR (length b)). split; [apply mean_ok; exact L|]. split; [apply mean_ok; lia|].
  rewrite <- E. apply Rmult_le_compat_r; [left; apply Rinv_0_lt_compat, INR_pos; exact L|apply sum_le; exact F].
Qed.

Definition mean' (l : list R) : R := sum l / INR (length l).
Lemma means p n m : (0 < n)%nat -> table p n m -> mapM mean m = Ok (map mean' m).
Proof.
  intros N [_ H]. induction m as [|r t IH]; cbn [mapM map]; [reflexivity|].
  rewrite mean_ok by (rewrite (H r (or_introl eq_refl)); exact N). cbn [bind].
  rewrite IH by (intros row I; apply H; right; exact I). reflexivity.
Qed.

Lemma mean'_bounds lo hi p n m : (0 < n)%nat -> table p n m -> within lo hi m -> forall d, In d (map mean' m) -> lo <= d <= hi.
Proof.
  intros N [_ H] W d I. apply in_map_iff in I. destruct I as [row [<- J]].
  apply quot_bounds; [apply INR_pos; rewrite (H row J); exact N|]. apply sum_bounds. intros x X. exact (W row x J X).
Qed.

Lemma concat_length p n m : table p n m -> length (concat m) = (p * n)%nat.
Proof.
  intros [P H]. revert p P. induction m as [|r t IH]; intros p P; cbn in *; [subst; reflexivity|].
  subst p. rewrite app_length, (H r (or_introl eq_refl)). rewrite (IH (fun row I => H row (or_intror I)) _ eq_refl). cbn. lia.
Qed.

Lemma concat_within lo hi m : within lo hi m -> forall x, In x (concat m) -> lo <= x <= hi.
Proof. intros W x I. apply in_concat in I. destruct I as [row [J K]]. exact (W row x J K). Qed.

(* ---- weighted averages ---- *)
Lemma dot_bounds lo hi : forall v w, length v = length w -> (forall x, In x v -> lo <= x <= hi) -> (forall x, In x w -> 0 <= x) ->
  lo * sum w <= dot v w <= hi * sum w.
Proof.
  induction v as [|x v IH]; intros [|y w] L HV HW; try discriminate; [cbn; lra|].
  unfold dot in *. cbn [combine map sum fold_right fst snd]. specialize (IH w ltac:(cbn in L; congruence)
    (fun z I => HV z (or_intror I)) (fun z I => HW z (or_intror I))).
  specialize (HV x (or_introl eq_refl)). specialize (HW y (or_introl eq_refl)).
  fold (sum w). fold (sum (map (fun p => fst p * snd p) (combine v w))).
  assert (lo * y <= x * y <= hi * y) by (split; apply Rmult_le_compat_r; lra). lra.
Qed.

Lemma average_ok v w : length v = length w -> sum w <> 0 -> average v w = Ok (dot v w / sum w).
Proof.
  intros L S. unfold average. rewrite L, Nat.eqb_refl. cbn [negb]. destruct (Req_EM_T (sum w) 0); [contradiction|reflexivity].
Qed.

Lemma average_bounds lo hi v w : length v = length w -> (forall x, In x v -> lo <= x <= hi) -> (forall x, In x w -> 0 <= x) -> 0 < sum w ->
  exists a, average v w = Ok a /\ lo <= a <= hi.
Proof.
  intros L HV HW S. exists (dot v w / sum w). split; [apply average_ok; [exact L|lra]|]. apply quot_bounds; [exact S|apply dot_bounds; assumption].
Qed.

Lemma dot_mono : forall v v' w, Forall2 Rle v v' -> length v = length w -> (forall x, In x w -> 0 <= x) -> dot v w <= dot v' w.
Proof.
  intros v v' w F. revert w. induction F as [|x x' v v' H F IH]; intros [|y w] L HW; try discriminate; [lra|].
  unfold dot in *. cbn [combine map sum fold_right fst snd]. specialize (IH w ltac:(cbn in L; congruence) (fun z I => HW z (or_intror I))).
  specialize (HW y (or_introl eq_refl)). unfold sum in *.
  assert (x * y <= x' * y) by (apply Rmult_le_compat_r; lra). lra.
Qed.

Lemma exp_weight_zero sigma d : 0 < sigma -> exp_weight sigma d = 0 <-> d = 0.
Proof.
  intro S. unfold exp_weight. split.
  - intro H. assert (E : exp (- d / sigma) = exp 0) by (rewrite exp_0; lra). apply exp_inv in E.
    apply Rmult_eq_reg_r with (/ sigma); [|apply Rinv_neq_0_compat; lra]. unfold Rdiv in E. lra.
  - intros ->. replace (- 0 / sigma) with 0 by (field; lra). rewrite exp_0. ring.
Qed.

Lemma exp_weight_mono sigma a b : 0 < sigma -> a <= b -> exp_weight sigma a <= exp_weight sigma b.
Proof.
  intros S H. unfold exp_weight. destruct H as [H| ->]; [|lra].
  assert (exp (- b / sigma) < exp (- a / sigma)); [|lra]. apply exp_increasing. unfold Rdiv.
  apply Rmult_lt_compat_r; [apply Rinv_0_lt_compat; exact S|lra].
Qed.

Lemma exp_weight_nonneg sigma d : 0 < sigma -> 0 <= d -> 0 <= exp_weight sigma d.
Proof. intros S H. rewrite <- (proj2 (exp_weight_zero sigma 0 S) eq_refl). apply exp_weight_mono; assumption. Qed.

Lemma any_weight_spec ws : any_weight ws = true <-> exists w, In w ws /\ w <> 0.
Proof.
  unfold any_weight. rewrite existsb_exists. split; intros [w [I H]]; exists w; (split; [exact I|]); destruct (Req_EM_T w 0); congruence.
Qed.

Lemma exp_average sigma ds : 0 < sigma -> (forall d, In d ds -> 0 <= d) ->
  any_weight (map (exp_weight sigma) ds) = true /\ 0 < sum (map (exp_weight sigma) ds) \/
  any_weight (map (exp_weight sigma) ds) = false /\ (forall d, In d ds -> d = 0).
Proof.
  intros S H. destruct (any_weight (map (exp_weight sigma) ds)) eqn:A.
  - left. split; [reflexivity|]. apply any_weight_spec in A. destruct A as [w [I N]].
    apply sum_pos.
    + intros x X. apply in_map_iff in X. destruct X as [d [<- J]]. apply exp_weight_nonneg; auto.
    + exists w. split; [exact I|]. apply in_map_iff in I. destruct I as [d [<- J]].
      destruct (exp_weight_nonneg sigma d S (H d J)) as [X|X]; [exact X|congruence].
  - right. split; [reflexivity|]. intros d I. apply (exp_weight_zero sigma); [exact S|].
    destruct (Req_EM_T (exp_weight sigma d) 0) as [X|X]; [exact X|].
    assert (any_weight (map (exp_weight sigma) ds) = true); [|congruence].
    apply any_weight_spec. exists (exp_weight sigma d). split; [apply in_map; exact I|exact X].
Qed.

(* ---- the measure of the interest points ---- *)
Lemma ipts_bounds method hess sigma p n m lo hi : (0 < n)%nat -> (0 < p)%nat -> table p n m -> usable method hess sigma p ->
  0 <= lo -> within lo hi m -> exists v, ipts_measure method hess sigma m = Ok v /\ lo <= v <= hi.
Proof.
  intros N P T U L W. destruct method; cbn [ipts_measure].
  - apply mean_bounds; [rewrite (concat_length p n m T); nia|]. apply concat_within. exact W.
  - destruct T as [TP TR]. destruct (rev m) as [|row t] eqn:R.
    + apply (f_equal (@length _)) in R. rewrite rev_length in R. cbn in R. lia.
    + assert (I : In row m) by (apply in_rev; rewrite R; left; reflexivity).
      apply mean_bounds; [rewrite (TR row I); exact N|]. intros x X. exact (W row x I X).
  - rewrite (means p n m N T). cbn [bind]. destruct U as [U1 [U2 U3]].
    apply average_bounds; [rewrite map_length; destruct T; congruence|apply (mean'_bounds lo hi p n m N T W)|exact U2|apply sum_pos; assumption].
  - rewrite (means p n m N T). cbn [bind]. cbn in U. destruct (Req_EM_T sigma 0) as [Z|NZ]; [lra|].
    pose proof (mean'_bounds lo hi p n m N T W) as B.
    destruct (exp_average sigma (map mean' m) U) as [[A S]|[A Z]]; [intros d I; specialize (B d I); lra| |]; rewrite A.
    + apply average_bounds; [rewrite !map_length; reflexivity|exact B| |exact S].
      intros x X. apply in_map_iff in X. destruct X as [d [<- J]]. apply exp_weight_nonneg; [exact U|]. specialize (B d J). lra.
    + exists 0. split; [reflexivity|]. destruct T as [TP _]. destruct m as [|row t]; [cbn in TP; lia|].
      pose proof (B (mean' row) (or_introl eq_refl)) as B0. rewrite (Z (mean' row) (or_introl eq_refl)) in B0. exact B0.
Qed.

Lemma below_table a b p n : below a b -> table p n a -> table p n b.
Proof.
  intros F. revert p. induction F as [|x y a b H F IH]; intros p [P R]; [split; assumption|].
  cbn in P. subst p. destruct (IH (length a)) as [P' R']; [split; [reflexivity|intros row I; apply R; right; exact I]|].
  split; [cbn; congruence|]. intros row [<-|I]; [|apply R'; exact I].
  rewrite <- (forall2_length _ _ _ H). apply R. left. reflexivity.
Qed.

Lemma below_concat a b : below a b -> Forall2 Rle (concat a) (concat b).
Proof. induction 1; cbn; [constructor|]. apply Forall2_app; assumption. Qed.

Lemma below_rev a b : below a b -> below (rev a) (rev b).
Proof. induction 1; cbn; [constructor|]. apply Forall2_app; [assumption|]. constructor; [assumption|constructor]. Qed.

Lemma below_means a b p n : (0 < n)%nat -> table p n a -> below a b -> Forall2 Rle (map mean' a) (map mean' b).
Proof.
  intros N T F. destruct T as [_ R]. induction F as [|x y a b H F IH]; cbn; [constructor|]. constructor.
  - unfold mean'. rewrite <- (forall2_length _ _ _ H). apply Rmult_le_compat_r; [|apply sum_le; exact H].
    left. apply Rinv_0_lt_compat, INR_pos. rewrite (R x (or_introl eq_refl)). exact N.
  - apply IH. intros row I. apply R. right. exact I.
Qed.

Lemma ipts_mono method hess sigma p n a b : (0 < n)%nat -> (0 < p)%nat -> table p n a -> usable method hess sigma p -> method <> EXP ->
  below a b -> exists v v', ipts_measure method hess sigma a = Ok v /\ ipts_measure method hess sigma b = Ok v' /\ v <= v'.
Proof.
  intros N P T U NE F. destruct method; cbn [ipts_measure].
  - apply mean_mono; [rewrite (concat_length p n a T); nia|apply below_concat; exact F].
  - pose proof (below_rev _ _ F) as FR. destruct T as [TP TR].
    inversion FR as [RA RB|x y ra rb H FT RA RB].
    + apply (f_equal (@length _)) in RA. rewrite rev_length in RA. cbn in RA. lia.
    + apply mean_mono; [|exact H]. rewrite (TR x); [exact N|]. apply in_rev. rewrite <- RA. left. reflexivity.
  - rewrite (means p n a N T), (means p n b N (below_table a b p n F T)). cbn [bind]. destruct U as [U1 [U2 U3]].
    pose proof (below_table a b p n F T) as T'.
    assert (S : 0 < sum hess) by (apply sum_pos; assumption).
    rewrite !average_ok by (rewrite ?map_length; destruct T, T'; try congruence; lra).
    exists (dot (map mean' a) hess / sum hess), (dot (map mean' b) hess / sum hess). repeat split.
    apply Rmult_le_compat_r; [left; apply Rinv_0_lt_compat; exact S|].
    apply dot_mono; [apply (below_means a b p n N T F)|rewrite map_length; destruct T; congruence|exact U2].
  - congruence.
Qed.

(* ---- batches ---- *)
Lemma all_rows_images {I P} (d : P -> I -> R) pts images :
  all_rows (length images) (image_distances d pts images) = Some (map (fun p => map (d p) images) pts).
Proof. induction pts as [|p r IH]; cbn; [reflexivity|]. rewrite map_length, Nat.eqb_refl. unfold image_distances in IH. rewrite IH. reflexivity. Qed.

Lemma as_matrix_images {I P} (d : P -> I -> R) pts images :
  as_matrix (image_distances d pts images) = Ok (map (fun p => map (d p) images) pts).
Proof.
  unfold as_matrix. destruct pts as [|p r]; [reflexivity|]. cbn [image_distances map all_single].
  pose proof (all_rows_images d (p :: r) images) as E. cbn [image_distances map] in E. rewrite map_length. rewrite E. reflexivity.
Qed.

Lemma beside_images {I P} (d : P -> I -> R) pts a b :
  beside (map (fun p => map (d p) a) pts) (map (fun p => map (d p) b) pts) = Ok (map (fun p => map (d p) (a ++ b)) pts).
Proof. induction pts as [|p r IH]; cbn; [reflexivity|]. rewrite IH. cbn. rewrite map_app. reflexivity. Qed.

Lemma distance_matrix_images {I P} (d : P -> I -> R) pts (batches : list (list I)) : batches <> [] ->
  distance_matrix (map (image_distances d pts) batches) = Ok (map (fun p => map (d p) (concat batches)) pts).
Proof.
  intro NE. unfold distance_matrix.
  assert (M : forall bs, mapM as_matrix (map (image_distances d pts) bs) = Ok (map (fun b => map (fun p => map (d p) b) pts) bs)).
  { induction bs as [|b r IH]; cbn [map mapM]; [reflexivity|]. rewrite as_matrix_images. cbn [bind]. rewrite IH. reflexivity. }
  rewrite M. cbn [bind]. destruct batches as [|b r]; [congruence|]. cbn [concat_columns map]. clear NE.
  assert (G : forall r b, foldM beside (map (fun b => map (fun p => map (d p) b) pts) r) (map (fun p => map (d p) b) pts)
    = Ok (map (fun p => map (d p) (b ++ concat r)) pts)).
  { clear. induction r as [|c r IH]; intro b; cbn [map foldM concat]; [rewrite app_nil_r; reflexivity|].
    rewrite beside_images. cbn [bind]. rewrite IH, <- app_assoc. reflexivity. }
  apply G.
Qed.

(* ---- order of the images ---- *)
Lemma mean_perm a b : Permutation a b -> mean a = mean b.
Proof.
  intro H. destruct a as [|x r].
  - apply Permutation_nil in H. subst. reflexivity.
  - destruct b as [|y t]; [symmetry in H; apply Permutation_nil in H; discriminate|].
    unfold mean. rewrite (sum_perm _ _ H), (Permutation_length H). reflexivity.
Qed.

Lemma concat_perm (a b : matrix) : Forall2 (@Permutation R) a b -> Permutation (concat a) (concat b).
Proof. induction 1; cbn; [constructor|]. apply Permutation_app; assumption. Qed.

Lemma mapM_mean_perm a b : Forall2 (@Permutation R) a b -> mapM mean a = mapM mean b.
Proof. induction 1 as [|x y a b H F IH]; cbn [mapM]; [reflexivity|]. rewrite (mean_perm _ _ H), IH. reflexivity. Qed.

Lemma mp_measure_perm method hess sigma a b a' b' :
  Forall2 (@Permutation R) a a' -> Forall2 (@Permutation R) b b' -> mp_measure method hess sigma a b = mp_measure method hess sigma a' b'.
Proof.
  intros FA FB. pose proof (concat_perm _ _ FA) as CA. pose proof (concat_perm _ _ FB) as CB.
  unfold mp_measure, size. rewrite (Permutation_length CA), (Permutation_length CB), (mean_perm _ _ CB).
  replace (ipts_measure method hess sigma a) with (ipts_measure method hess sigma a'); [reflexivity|].
  destruct method; cbn [ipts_measure].
  - apply mean_perm. symmetry. exact CA.
  - assert (FR : Forall2 (@Permutation R) (rev a) (rev a')).
    { clear - FA. induction FA; cbn; [constructor|]. apply Forall2_app; [assumption|]. constructor; [assumption|constructor]. }
    inversion FR; [reflexivity|]. symmetry. apply mean_perm. assumption.
  - rewrite (mapM_mean_perm _ _ FA). reflexivity.
  - rewrite (mapM_mean_perm _ _ FA). reflexivity.
Qed.

(* ---- Chebyshev's sum inequality for weights that grow with the values ---- *)
Lemma dot_map f l : dot l (map f l) = sum (map (fun x => x * f x) l).
Proof. unfold dot. induction l as [|x r IH]; cbn; [reflexivity|]. unfold sum in *. rewrite IH. reflexivity. Qed.

Lemma cheb_one (f : R -> R) (MON : forall a b, a <= b -> f a <= f b) x r :
  x * sum (map f r) + f x * sum r <= INR (length r) * (x * f x) + sum (map (fun y => y * f y) r).
Proof.
  induction r as [|y r IH]; [cbn; lra|]. cbn [map sum fold_right length]. rewrite S_INR. unfold sum in *.
  assert (0 <= (x - y) * (f x - f y)).
  { destruct (Rle_or_lt x y) as [H|H].
    - pose proof (MON x y H). replace ((x - y) * (f x - f y)) with ((y - x) * (f y - f x)) by ring. apply Rmult_le_pos; lra.
    - pose proof (MON y x (Rlt_le _ _ H)). apply Rmult_le_pos; lra. }
  lra.
Qed.

Lemma chebyshev (f : R -> R) (MON : forall a b, a <= b -> f a <= f b) l :
  sum l * sum (map f l) <= INR (length l) * sum (map (fun x => x * f x) l).
Proof.
  induction l as [|x r IH]; [cbn; lra|]. pose proof (cheb_one f MON x r) as C.
  cbn [map sum fold_right length]. rewrite S_INR. unfold sum in *. nra.
Qed.
