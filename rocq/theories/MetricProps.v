(* MetricProps.v -- the mixed-precision metric of the distances (property C61). *)
From Coq Require Import Reals Lra Permutation.
From Verif Require Import Base Nd DistModel DistSpec DistProofs DistMore DistProps DistExProps MetricModel MetricSpec MetricProofs.
Local Open Scope list_scope.
Local Open Scope R_scope.

(* The metric lies between the smallest and the largest distance of the interest points plus the same of the
   output points, for every weighting method, any number of points and images. *)
Theorem metric_within_distances :
  forall method hess sigma p q n ipts outs lo hi lo' hi',
    (0 < n)%nat -> (0 < p + q)%nat -> table p n ipts -> table q n outs -> ((0 < p)%nat -> usable method hess sigma p) ->
    0 <= lo -> within lo hi ipts -> within lo' hi' outs ->
    exists v, mp_measure method hess sigma ipts outs = Ok v /\
      (if Nat.eqb p 0 then 0 else lo) + (if Nat.eqb q 0 then 0 else lo') <= v
        <= (if Nat.eqb p 0 then 0 else hi) + (if Nat.eqb q 0 then 0 else hi').
Proof.
  intros method hess sigma p q n ipts outs lo hi lo' hi' N PQ TI TO U L WI WO. unfold mp_measure, size.
  rewrite (concat_length p n ipts TI), (concat_length q n outs TO).
  destruct (Nat.eqb_spec (p * n + q * n) 0) as [Z|NZ]; [nia|].
  assert (I : exists a, (if Nat.eqb (p * n) 0 then Ok 0 else ipts_measure method hess sigma ipts) = Ok a /\
    (if Nat.eqb p 0 then 0 else lo) <= a <= (if Nat.eqb p 0 then 0 else hi)).
  { destruct (Nat.eqb_spec p 0) as [Z|NP].
    - subst p. cbn. exists 0. split; [reflexivity|lra].
    - destruct (Nat.eqb_spec (p * n) 0) as [Z|_]; [nia|]. apply (ipts_bounds method hess sigma p n); auto; try lia. apply U. lia. }
  assert (O : exists a, (if Nat.eqb (q * n) 0 then Ok 0 else mean (concat outs)) = Ok a /\
    (if Nat.eqb q 0 then 0 else lo') <= a <= (if Nat.eqb q 0 then 0 else hi')).
  { destruct (Nat.eqb_spec q 0) as [Z|NQ].
    - subst q. cbn. exists 0. split; [reflexivity|lra].
    - destruct (Nat.eqb_spec (q * n) 0) as [Z|_]; [nia|].
      apply mean_bounds; [rewrite (concat_length q n outs TO); nia|apply concat_within; exact WO]. }
  destruct I as [a [-> [A1 A2]]]. destruct O as [b [-> [B1 B2]]]. cbn [bind]. exists (a + b). split; [reflexivity|lra].
Qed.
Print Assumptions metric_within_distances.

(* In particular a configuration that changes no output has metric zero. *)
Theorem metric_zero_of_equal_models :
  forall method hess sigma p q n ipts outs,
    (0 < n)%nat -> (0 < p + q)%nat -> table p n ipts -> table q n outs -> ((0 < p)%nat -> usable method hess sigma p) ->
    within 0 0 ipts -> within 0 0 outs -> mp_measure method hess sigma ipts outs = Ok 0.
Proof.
  intros method hess sigma p q n ipts outs N PQ TI TO U WI WO.
  destruct (metric_within_distances method hess sigma p q n ipts outs 0 0 0 0 N PQ TI TO U (Rle_refl 0) WI WO) as [v [E B]].
  rewrite E. f_equal. destruct (Nat.eqb p 0), (Nat.eqb q 0); lra.
Qed.
Print Assumptions metric_zero_of_equal_models.

(* Larger distances give a larger metric, except with exponential weighting. *)
Theorem metric_monotone :
  forall method hess sigma p q n ipts outs ipts' outs',
    (0 < n)%nat -> (0 < p + q)%nat -> table p n ipts -> table q n outs -> ((0 < p)%nat -> usable method hess sigma p) ->
    method <> EXP -> below ipts ipts' -> below outs outs' ->
    exists v v', mp_measure method hess sigma ipts outs = Ok v /\ mp_measure method hess sigma ipts' outs' = Ok v' /\ v <= v'.
Proof.
  intros method hess sigma p q n ipts outs ipts' outs' N PQ TI TO U NE BI BO.
  pose proof (below_table _ _ p n BI TI) as TI'. pose proof (below_table _ _ q n BO TO) as TO'.
  unfold mp_measure, size. rewrite (concat_length p n ipts TI), (concat_length q n outs TO), (concat_length p n ipts' TI'), (concat_length q n outs' TO').
  destruct (Nat.eqb_spec (p * n + q * n) 0) as [Z|NZ]; [nia|].
  assert (I : exists a a', (if Nat.eqb (p * n) 0 then Ok 0 else ipts_measure method hess sigma ipts) = Ok a /\
    (if Nat.eqb (p * n) 0 then Ok 0 else ipts_measure method hess sigma ipts') = Ok a' /\ a <= a').
  { destruct (Nat.eqb_spec (p * n) 0) as [Z|NP]; [exists 0, 0; repeat split; lra|]. apply (ipts_mono method hess sigma p n); auto; try nia. apply U. nia. }
  assert (O : exists a a', (if Nat.eqb (q * n) 0 then Ok 0 else mean (concat outs)) = Ok a /\
    (if Nat.eqb (q * n) 0 then Ok 0 else mean (concat outs')) = Ok a' /\ a <= a').
  { destruct (Nat.eqb_spec (q * n) 0) as [Z|NQ]; [exists 0, 0; repeat split; lra|].
    apply mean_mono; [rewrite (concat_length q n outs TO); lia|apply below_concat; exact BO]. }
  destruct I as [a [a' [-> [-> A]]]]. destruct O as [b [b' [-> [-> B]]]]. cbn [bind]. exists (a + b), (a' + b'). repeat split. lra.
Qed.
Print Assumptions metric_monotone.

(* With exponential weighting a point that gets worse can lower the metric. *)
Theorem exp_weighting_monotone_refuted :
  ~ (forall hess sigma p n ipts ipts' v v', (0 < n)%nat -> (0 < p)%nat -> table p n ipts -> 0 < sigma -> within 0 1 ipts ->
       below ipts ipts' -> mp_measure EXP hess sigma ipts [] = Ok v -> mp_measure EXP hess sigma ipts' [] = Ok v' -> v <= v').
Proof.
  intro H. set (a := [[0]; [1]]). set (b := [[/ 2]; [1]]).
  assert (T : table 2 1 a) by (split; [reflexivity|intros row [<-|[<-|[]]]; reflexivity]).
  assert (W : within 0 1 a) by (intros row x [<-|[<-|[]]] [<-|[]]; lra).
  assert (F : below a b) by (repeat constructor; lra).
  set (w x := exp_weight 1 x).
  assert (W0 : w 0 = 0) by (apply exp_weight_zero; [lra|reflexivity]).
  assert (WP : forall x, 0 < x -> 0 < w x).
  { intros x X. destruct (exp_weight_nonneg 1 x Rlt_0_1 (Rlt_le _ _ X)) as [P|P]; [exact P|].
    symmetry in P. apply exp_weight_zero in P; lra. }
  assert (E : forall x, 0 <= x -> mp_measure EXP [] 1 [[x]; [1]] [] = Ok ((x * w x + w 1) / (w x + w 1))).
  { intros x X. unfold mp_measure, size. cbn [concat app length Nat.add Nat.eqb ipts_measure mapM].
    rewrite !mean_ok by (cbn; lia). cbn [bind sum fold_right length]. change (INR 1) with 1.
    replace ((x + 0) / 1) with x by field. replace ((1 + 0) / 1) with 1 by field.
    destruct (Req_EM_T 1 0); [lra|]. cbn [map]. fold (w x) (w 1).
    assert (A : any_weight [w x; w 1] = true) by (apply any_weight_spec; exists (w 1); split; [right; left; reflexivity|pose proof (WP 1 Rlt_0_1); lra]).
    rewrite A. pose proof (WP 1 Rlt_0_1) as P1. pose proof (exp_weight_nonneg 1 x Rlt_0_1 X) as PX. fold (w x) in PX.
    rewrite average_ok; [|reflexivity|cbn [sum fold_right]; lra]. cbn [bind]. f_equal. unfold dot. cbn [combine map sum fold_right fst snd].
    field. lra. }
  specialize (H [] 1 2%nat 1%nat a b _ _ ltac:(lia) ltac:(lia) T Rlt_0_1 W F (E 0 (Rle_refl 0)) (E (/ 2) ltac:(lra))).
  rewrite W0 in H. pose proof (WP 1 Rlt_0_1) as P1. pose proof (WP (/ 2) ltac:(lra)) as P2.
  assert ((/ 2 * w (/ 2) + w 1) / (w (/ 2) + w 1) < 1).
  { apply Rmult_lt_reg_r with (w (/ 2) + w 1); [lra|]. unfold Rdiv. rewrite Rmult_assoc, Rinv_l by lra. lra. }
  replace ((0 * 0 + w 1) / (0 + w 1)) with 1 in H by (field; lra). lra.
Qed.
Print Assumptions exp_weighting_monotone_refuted.

(* Exponential weighting stresses the larger distances: the measure is never below the plain average. *)
Theorem exp_weighting_at_least_average :
  forall hess sigma p n ipts hi, (0 < n)%nat -> (0 < p)%nat -> table p n ipts -> 0 < sigma -> within 0 hi ipts ->
    exists v v', mp_measure EXP hess sigma ipts [] = Ok v /\ mp_measure AVG hess sigma ipts [] = Ok v' /\ v' <= v.
Proof.
  intros hess sigma p n ipts hi N P T S W. unfold mp_measure, size. rewrite (concat_length p n ipts T). cbn [concat length].
  destruct (Nat.eqb_spec (p * n + 0) 0) as [Z|_]; [nia|]. destruct (Nat.eqb_spec (p * n) 0) as [Z|NZ]; [nia|]. cbn [Nat.eqb].
  destruct (ipts_bounds AVG hess sigma p n ipts 0 hi N P T Logic.I (Rle_refl 0) W) as [v' [EA BA]].
  destruct (ipts_bounds EXP hess sigma p n ipts 0 hi N P T S (Rle_refl 0) W) as [v [EE BE]].
  rewrite EA, EE. cbn [bind]. exists (v + 0), (v' + 0). repeat split. apply Rplus_le_compat_r.
  cbn [ipts_measure] in EA, EE. rewrite mean_ok in EA by (rewrite (concat_length p n ipts T); lia). inversion EA as [EA']. clear EA.
  rewrite (means p n ipts N T) in EE. cbn [bind] in EE. destruct (Req_EM_T sigma 0) as [X|_]; [lra|].
  pose proof (mean'_bounds 0 hi p n ipts N T W) as B. set (ds := map mean' ipts) in *.
  assert (LD : length ds = p) by (unfold ds; rewrite map_length; apply T).
  (* the average of all entries is the average of the means *)
  assert (AV : sum (concat ipts) / INR (length (concat ipts)) = sum ds / INR p).
  { rewrite (concat_length p n ipts T). rewrite mult_INR.
    assert (SM : sum (concat ipts) = INR n * sum ds).
    { unfold ds. destruct T as [_ R]. clear - R N. induction ipts as [|row r IH]; [cbn; ring|].
      cbn [concat map]. rewrite sum_app, IH by (intros x I; apply R; right; exact I).
      unfold mean' at 2. cbn [sum fold_right]. rewrite (R row (or_introl eq_refl)). fold (sum (map mean' r)). field.
      apply not_0_INR. lia. }
    rewrite SM. field. split; apply not_0_INR; lia. }
  rewrite AV. destruct (exp_average sigma ds S) as [[A PS]|[A Z]]; [intros d I; apply (B d I)| |]; rewrite A in EE.
  - rewrite average_ok in EE by (rewrite ?map_length; auto; lra). inversion EE as [EV]. rewrite dot_map.
    pose proof (chebyshev (exp_weight sigma) (fun a b => exp_weight_mono sigma a b S) ds) as C. rewrite LD in C.
    pose proof (INR_pos p P) as IP.
    apply Rmult_le_reg_r with (INR p * sum (map (exp_weight sigma) ds)); [apply Rmult_lt_0_compat; assumption|].
    replace (sum ds / INR p * (INR p * sum (map (exp_weight sigma) ds))) with (sum ds * sum (map (exp_weight sigma) ds)) by (field; lra).
    match goal with |- _ <= ?r => replace r with (INR p * sum (map (fun x => x * exp_weight sigma x) ds)) by (field; lra) end. exact C.
  - inversion EE.
    assert (S0 : sum ds = 0).
    { assert (forall l, (forall d, In d l -> d = 0) -> sum l = 0) as G.
      { induction l as [|x r IH]; intro Hl; [reflexivity|]. cbn [sum fold_right]. fold (sum r). rewrite IH by (intros d I; apply Hl; right; exact I).
        rewrite (Hl x (or_introl eq_refl)). ring. }
      apply G. exact Z. }
    rewrite S0. unfold Rdiv. lra.
Qed.
Print Assumptions exp_weighting_at_least_average.

(* How the images are divided into batches does not matter when the distances are computed image by image ... *)
Theorem metric_independent_of_batches :
  forall (I P : Type) (d : P -> I -> R) (pts outs : list P) method hess sigma (batches batches' : list (list I)),
    batches <> [] -> batches' <> [] -> concat batches = concat batches' ->
    metric method hess sigma (map (fun b => (image_distances d pts b, image_distances d outs b)) batches)
    = metric method hess sigma (map (fun b => (image_distances d pts b, image_distances d outs b)) batches').
Proof.
  intros I P d pts outs method hess sigma b b' N N' E. unfold metric. rewrite !map_map. cbn [fst snd].
  rewrite !distance_matrix_images by assumption. rewrite E. reflexivity.
Qed.
Print Assumptions metric_independent_of_batches.

(* ... and neither does the order of the images. *)
Theorem metric_independent_of_image_order :
  forall (I P : Type) (d : P -> I -> R) (pts outs : list P) method hess sigma (batches batches' : list (list I)),
    batches <> [] -> batches' <> [] -> Permutation (concat batches) (concat batches') ->
    metric method hess sigma (map (fun b => (image_distances d pts b, image_distances d outs b)) batches)
    = metric method hess sigma (map (fun b => (image_distances d pts b, image_distances d outs b)) batches').
Proof.
  intros I P d pts outs method hess sigma b b' N N' E. unfold metric. rewrite !map_map. cbn [fst snd].
  rewrite !distance_matrix_images by assumption. cbn [bind].
  assert (F : forall l : list P, Forall2 (@Permutation R) (map (fun p => map (d p) (concat b)) l) (map (fun p => map (d p) (concat b')) l)).
  { induction l as [|p r IH]; cbn; constructor; [apply Permutation_map; exact E|exact IH]. }
  apply mp_measure_perm; apply F.
Qed.
Print Assumptions metric_independent_of_image_order.

(* Hessian scores count relative to each other only. *)
Theorem hessian_scores_scale :
  forall hess sigma c ipts outs, c <> 0 ->
    mp_measure HESSIAN (map (Rmult c) hess) sigma ipts outs = mp_measure HESSIAN hess sigma ipts outs.
Proof.
  intros hess sigma c ipts outs C. unfold mp_measure.
  replace (ipts_measure HESSIAN (map (Rmult c) hess) sigma ipts) with (ipts_measure HESSIAN hess sigma ipts); [reflexivity|].
  cbn [ipts_measure]. destruct (mapM mean ipts) as [ds|e]; cbn [bind]; [|reflexivity].
  unfold average. rewrite map_length, sum_scal. destruct (negb (Nat.eqb (length ds) (length hess))); [reflexivity|].
  destruct (Req_EM_T (sum hess) 0) as [Z|NZ]; destruct (Req_EM_T (c * sum hess) 0) as [Z'|NZ']; try reflexivity.
  - exfalso. apply NZ'. rewrite Z. ring.
  - exfalso. apply NZ. apply Rmult_eq_reg_l with c; [rewrite Z'; ring|exact C].
  - f_equal. assert (D : dot ds (map (Rmult c) hess) = c * dot ds hess).
    { unfold dot. clear. revert hess. induction ds as [|x r IH]; intros [|h t]; cbn; try ring.
      unfold sum in *. rewrite IH. ring. }
    rewrite D. field. split; assumption.
Qed.
Print Assumptions hessian_scores_scale.

(* Scores that are all zero (no point influences the output) make the metric raise. *)
Theorem hessian_zero_scores_refuted :
  ~ (forall sigma p n hess ipts, (0 < n)%nat -> (0 < p)%nat -> table p n ipts -> length hess = p -> (forall h, In h hess -> 0 <= h) ->
       exists v, mp_measure HESSIAN hess sigma ipts [] = Ok v).
Proof.
  intro H. destruct (H 1 1%nat 1%nat [0] [[1]]) as [v E]; try lia; try reflexivity.
  - split; [reflexivity|intros row [<-|[]]; reflexivity].
  - intros h [<-|[]]. lra.
  - unfold mp_measure, size in E. cbn [concat app length Nat.add Nat.eqb ipts_measure mapM mean bind] in E.
    unfold average in E. cbn [length Nat.eqb negb] in E. destruct (Req_EM_T (sum [0]) 0) as [Z|NZ]; [discriminate|].
    apply NZ. cbn. lra.
Qed.
Print Assumptions hessian_zero_scores_refuted.

(* A dense layer (cosine distance) whose outputs are all zero for a whole batch, next to any other point: the
   cosine distance is one number, the others one number per image, and no matrix can be built. *)
Theorem zero_batch_raises_refuted :
  forall method hess sigma x y y' norm eps eps' b s,
    (forall i, inb (shp x) i -> at_ x i = 0) -> shp y = b :: s -> shp y' = shp y -> nonempty (shp y) ->
    exists r1 r2 d1 d2,
      compute_mse y y' norm eps true None None = Ok r1 /\ compute_cs x x eps' true None = Ok r2 /\
      to_pdist r1 = Ok d1 /\ to_pdist r2 = Ok d2 /\ metric method hess sigma [([d1; d2], [])] = Err E_value.
Proof.
  intros method hess sigma x y y' norm eps eps' b s Z Sy E N.
  destruct (distances_per_sample y y' norm eps 1 b s Sy E N) as [[r1 [H1 [S1 _]]] _].
  destruct (cosine_zero_tensors_refuted x eps' true None Z) as [r2 [H2 [S2 _]]].
  exists r1, r2, (PerSample (map (fun k => at_ r1 [k]) (seq 0 b))), (Single (at_ r2 [])).
  split; [exact H1|]. split; [exact H2|]. unfold to_pdist. rewrite S1, S2. split; [reflexivity|]. split; [reflexivity|].
  unfold metric, distance_matrix. cbn [map fst snd mapM]. unfold as_matrix. cbn [all_single all_rows].
  rewrite Nat.eqb_refl. reflexivity.
Qed.
Print Assumptions zero_batch_raises_refuted.

(* With the cosine distance the metric depends on the batches: two images with zero outputs count once when they
   are a batch of their own and twice when they are separate. *)
Theorem batches_of_cosine_refuted :
  exists z1 z2 u dz1 dz2 du,
    compute_cs z1 z1 1 true None = Ok dz1 /\ compute_cs z2 z2 1 true None = Ok dz2 /\ compute_cs u u 1 true None = Ok du /\
    (forall i, at_ (sample 0 z2) i = at_ (sample 0 z1) i /\ at_ (sample 1 z2) i = at_ (sample 0 z1) i) /\
    exists p1 p2 pu v v', to_pdist dz1 = Ok p1 /\ to_pdist dz2 = Ok p2 /\ to_pdist du = Ok pu /\
    metric AVG [] 1 [([p2], []); ([pu], [])] = Ok v /\ metric AVG [] 1 [([p1], []); ([p1], []); ([pu], [])] = Ok v' /\ v < v'.
Proof.
  set (z1 := mat 1 1 [[0]]). set (z2 := mat 2 1 [[0]; [0]]). set (u := mat 1 1 [[1]]).
  assert (Z1 : forall i, inb (shp z1) i -> at_ z1 i = 0).
  { intros i I. inversion I as [|? a ? l Ha F]; subst. inversion F as [|? c ? l2 Hc F2]; subst. inversion F2; subst.
    destruct a as [|a]; [|lia]. destruct c as [|c]; [reflexivity|lia]. }
  assert (Z2 : forall i, inb (shp z2) i -> at_ z2 i = 0).
  { intros i I. inversion I as [|? a ? l Ha F]; subst. inversion F as [|? c ? l2 Hc F2]; subst. inversion F2; subst.
    destruct c as [|c]; [|lia]. destruct a as [|[|a]]; [reflexivity|reflexivity|lia]. }
  destruct (cosine_zero_tensors_refuted z1 1 true None Z1) as [dz1 [H1 [S1 A1]]].
  destruct (cosine_zero_tensors_refuted z2 1 true None Z2) as [dz2 [H2 [S2 A2]]].
  destruct (cs_samples u u 1 1 [1%nat] eq_refl eq_refl ltac:(ne)) as (du & HU & SU & AU).
  { exists [0; 0]%nat. split; [ne|left; cbn; lra]. }
  specialize (AU 0%nat ltac:(lia)).
  assert (VU : at_ du [0%nat] = / 4).
  { rewrite AU. unfold cos_value, dot_of, u. ev. replace (0 + 1 * 1) with 1 by ring. rewrite sqrt_1.
    replace ((1 - 1 / (1 * 1 + 1)) / 2) with (/ 4) by field. apply Rmax_left. lra. }
  exists z1, z2, u, dz1, dz2, du. repeat (split; [assumption|]). split.
  { intro i. unfold z1, z2. split; reflexivity. }
  exists (Single 1), (Single 1), (PerSample [/ 4]).
  unfold to_pdist. rewrite S1, S2, SU. cbn [seq map]. rewrite A1, A2, VU.
  exists ((1 + (/ 4 + 0)) / INR 2 + 0), ((1 + (1 + (/ 4 + 0))) / INR 3 + 0).
  repeat (split; [reflexivity|]). cbn [INR]. lra.
Qed.
Print Assumptions batches_of_cosine_refuted.

(* hypotheses of the theorems are met *)
Example metric_nontrivial :
  table 2 2 [[1; 2]; [3; 4]] /\ within 1 4 [[1; 2]; [3; 4]] /\ usable HESSIAN [0; 2] 1 2 /\
  mp_measure AVG [] 1 [[1; 2]; [3; 4]] [[2; 0]] = Ok (7 / 2) /\ mp_measure LAST_LAYER [] 1 [[1; 2]; [3; 4]] [] = Ok (7 / 2).
Proof.
  split; [split; [reflexivity|intros row [<-|[<-|[]]]; reflexivity]|]. split.
  { intros row x [<-|[<-|[]]] [<-|[<-|[]]]; lra. }
  split; [repeat split|].
  - intros h [<-|[<-|[]]]; lra.
  - exists 2. split; [right; left; reflexivity|lra].
  - unfold mp_measure, size. cbn [concat app length Nat.add Nat.eqb ipts_measure mean bind sum fold_right rev].
    split; f_equal; cbn [INR]; field.
Qed.
