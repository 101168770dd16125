(* DistProps.v -- C51: the distances of a quantized tensor from the float tensor *)
From Verif Require Import Nd DistModel DistSpec DistProofs DistMore.

(* ---- non-negative; zero exactly on equal tensors; symmetric ---- *)
(* in every mode (whole tensor, per sample, along an axis), weighted or not, normalised or not *)
Theorem distances_nonneg x y norm eps batch axis r :
  (norm = true -> 0 < eps) ->
  (exists w, compute_mse x y norm eps batch axis w = Ok r) \/ compute_mae x y norm eps batch axis = Ok r \/
  (exists p, compute_lp_norm x y p norm eps batch axis = Ok r) ->
  forall i, inb (shp r) i -> 0 <= at_ r i.
Proof.
  intros E [[[w|] H] | [H | [p H]]] i I.
  - destruct (wmse_view _ _ _ _ _ _ _ _ H) as (_ & rs & n & g & gw & _ & _ & N & Sr & F). rewrite Sr in I. rewrite F by exact I.
    apply ratio_nonneg; [apply INR_pos; exact N|apply rsum_nonneg; intros; apply pow2_ge_0|apply rsum_nonneg; intros; apply sq_nonneg|exact E].
  - rewrite mse_dist in H. exact (dist_nonneg _ _ _ _ _ _ _ _ _ sqdiff_nonneg sq_nonneg E H i I).
  - rewrite mae_dist in H. exact (dist_nonneg _ _ _ _ _ _ _ _ _ absdiff_nonneg Rabs_pos E H i I).
  - rewrite lp_dist in H. exact (dist_nonneg _ _ _ _ _ _ _ _ _ (powdiff_nonneg p) (abspow_nonneg p) E H i I).
Qed.
Print Assumptions distances_nonneg.

Theorem mse_zero_iff_equal x y norm eps batch axis w r :
  (norm = true -> 0 < eps) -> (forall w', w = Some w' -> forall i, inb (shp w') i -> at_ w' i <> 0) ->
  compute_mse x y norm eps batch axis w = Ok r ->
  ((forall i, inb (shp r) i -> at_ r i = 0) <-> same_entries x y).
Proof.
  intros E W H. destruct w as [w|].
  - specialize (W w eq_refl). destruct (wmse_view _ _ _ _ _ _ _ _ H) as (S & rs & n & g & gw & V & [Vw _] & N & Sr & F). rewrite Sr. split.
    + intro A. split; [exact S|]. intros i I. destruct V as [V1 V2]. destruct (V2 i I) as (idx & k & Ii & K & ->).
      specialize (A idx Ii). rewrite F in A by exact Ii. apply ratio_zero in A; [|apply INR_pos; exact N|apply rsum_nonneg; intros; apply sq_nonneg|exact E].
      pose proof (rsum_zero_inv n _ (fun k _ => pow2_ge_0 _) A k K) as Z. cbn [pow] in Z. rewrite Rmult_1_r in Z.
      specialize (W (gw idx k) (Vw idx k Ii K)). apply Rmult_integral in Z. destruct Z as [Z|Z]; apply Rmult_integral in Z; destruct Z; lra || contradiction.
    + intros [_ A] idx I. rewrite F by exact I. apply ratio_zero; [apply INR_pos; exact N|apply rsum_nonneg; intros; apply sq_nonneg|exact E|].
      apply rsum_zero. intros k K. rewrite A by (destruct V as [V1 _]; apply V1; assumption). ring.
  - rewrite mse_dist in H. exact (dist_zero _ _ _ _ _ _ _ _ _ sqdiff_nonneg sqdiff_zero sq_nonneg E H).
Qed.
Print Assumptions mse_zero_iff_equal.

Theorem mae_zero_iff_equal x y norm eps batch axis r :
  (norm = true -> 0 < eps) -> compute_mae x y norm eps batch axis = Ok r ->
  ((forall i, inb (shp r) i -> at_ r i = 0) <-> same_entries x y).
Proof. intros E H. rewrite mae_dist in H. exact (dist_zero _ _ _ _ _ _ _ _ _ absdiff_nonneg absdiff_zero Rabs_pos E H). Qed.
Print Assumptions mae_zero_iff_equal.

Theorem lp_zero_iff_equal x y p norm eps batch axis r :
  p <> 0%nat -> (norm = true -> 0 < eps) -> compute_lp_norm x y p norm eps batch axis = Ok r ->
  ((forall i, inb (shp r) i -> at_ r i = 0) <-> same_entries x y).
Proof.
  intros P E H. rewrite lp_dist in H.
  exact (dist_zero _ _ _ _ _ _ _ _ _ (powdiff_nonneg p) (fun a b => powdiff_zero p a b P) (abspow_nonneg p) E H).
Qed.
Print Assumptions lp_zero_iff_equal.

(* ---- which elements are averaged ---- *)
(* the value of each distance on a pair of tensors, from the mean over all their entries *)
Definition scaled (norm : bool) (eps e size : R) : R := if norm then e / (size + eps) else e.
Definition ones (_ : list nat) : R := 1.
Theorem distances_of_whole_tensors x y norm eps p : shp y = shp x -> nonempty (shp x) ->
  (exists r, compute_mse x y norm eps false None None = Ok r /\ shp r = [] /\ at_ r [] = scaled norm eps (mse_of ones x y) (size_of (fun v => v ^ 2) x)) /\
  (exists r, compute_mae x y norm eps false None = Ok r /\ shp r = [] /\ at_ r [] = scaled norm eps (mae_of x y) (size_of Rabs x)) /\
  (exists r, compute_lp_norm x y p norm eps false None = Ok r /\ shp r = [] /\ at_ r [] = scaled norm eps (lp_of p x y) (size_of (fun v => Rabs v ^ p) x)).
Proof.
  intros E N. symmetry in E. split; [|split].
  - destruct (dist_whole sqdiff sq x y norm eps E N) as (r & H & S & A). exists r. split; [exact H|]. split; [exact S|]. rewrite A.
    assert (mse_of ones x y = mean_of (shp x) (fun i => sqdiff (at_ x i) (at_ y i))) as ->; [|reflexivity].
    unfold mse_of, mean_of, ones, sqdiff. f_equal. apply rsum_ext. intros. ring.
  - exact (dist_whole absdiff Rabs x y norm eps E N).
  - exact (dist_whole (powdiff p) (abspow p) x y norm eps E N).
Qed.
Print Assumptions distances_of_whole_tensors.

(* weights are paired with the elements by their row-major position *)
Theorem weighted_mse_of_whole_tensors x y norm eps w : shp y = shp x -> nonempty (shp x) -> shp w = shp x ->
  exists r, compute_mse x y norm eps false None (Some w) = Ok r /\ shp r = [] /\ at_ r [] = scaled norm eps (mse_of (at_ w) x y) (size_of (fun v => v ^ 2) x).
Proof.
  intros E N W. destruct (wmse_whole x y norm eps w (eq_sym E) N ltac:(rewrite W; reflexivity)) as (r & H & S & A). rewrite W in A. exists r. split; [exact H|]. split; [exact S|exact A].
Qed.
Print Assumptions weighted_mse_of_whole_tensors.

(* with batch=True entry b is the distance of the samples b *)
Theorem distances_per_sample x y norm eps p d0 s : shp x = d0 :: s -> shp y = shp x -> nonempty (shp x) ->
  (exists r, compute_mse x y norm eps true None None = Ok r /\ shp r = [d0] /\ forall b, (b < d0)%nat ->
     exists rb, compute_mse (sample b x) (sample b y) norm eps false None None = Ok rb /\ at_ r [b] = at_ rb []) /\
  (exists r, compute_mae x y norm eps true None = Ok r /\ shp r = [d0] /\ forall b, (b < d0)%nat ->
     exists rb, compute_mae (sample b x) (sample b y) norm eps false None = Ok rb /\ at_ r [b] = at_ rb []) /\
  (exists r, compute_lp_norm x y p norm eps true None = Ok r /\ shp r = [d0] /\ forall b, (b < d0)%nat ->
     exists rb, compute_lp_norm (sample b x) (sample b y) p norm eps false None = Ok rb /\ at_ r [b] = at_ rb []).
Proof.
  intros Sx E N.
  assert (forall term nrm, exists r, dist term nrm x y norm eps true None = Ok r /\ shp r = [d0] /\ forall b, (b < d0)%nat ->
     exists rb, dist term nrm (sample b x) (sample b y) norm eps false None = Ok rb /\ at_ r [b] = at_ rb []) as G.
  { intros term nrm. destruct (dist_samples term nrm x y norm eps d0 s Sx E N) as (r & H & S & F). exists r. split; [exact H|]. split; [exact S|]. intros b B.
    destruct (dist_whole term nrm (sample b x) (sample b y) norm eps) as (rb & Hb & _ & Fb).
    - cbn [sample shp]. rewrite E. reflexivity.
    - cbn [sample shp]. rewrite Sx in *. cbn [tl]. inversion N; assumption.
    - exists rb. split; [exact Hb|]. rewrite F, Fb by exact B. reflexivity. }
  split; [exact (G sqdiff sq)|]. split; [exact (G absdiff Rabs)|exact (G (powdiff p) (abspow p))].
Qed.
Print Assumptions distances_per_sample.

(* with an axis, the entry at a position of the other axes is the distance of the two lines along the axis *)
Theorem distances_along_axis x y norm eps p z ax : norm_axis (length (shp x)) z = Ok ax -> shp y = shp x -> nonempty (shp x) ->
  (exists r, compute_mse x y norm eps false (Some z) None = Ok r /\ shp r = [prod (del ax (shp x))] /\ forall o, inb (del ax (shp x)) o ->
     exists ro, compute_mse (line ax o x) (line ax o y) norm eps false None None = Ok ro /\ at_ r [flat (del ax (shp x)) o] = at_ ro []) /\
  (exists r, compute_mae x y norm eps false (Some z) = Ok r /\ shp r = [prod (del ax (shp x))] /\ forall o, inb (del ax (shp x)) o ->
     exists ro, compute_mae (line ax o x) (line ax o y) norm eps false None = Ok ro /\ at_ r [flat (del ax (shp x)) o] = at_ ro []) /\
  (exists r, compute_lp_norm x y p norm eps false (Some z) = Ok r /\ shp r = [prod (del ax (shp x))] /\ forall o, inb (del ax (shp x)) o ->
     exists ro, compute_lp_norm (line ax o x) (line ax o y) p norm eps false None = Ok ro /\ at_ r [flat (del ax (shp x)) o] = at_ ro []).
Proof.
  intros A E N. pose proof (norm_axis_ok _ _ _ A) as L. pose proof (nonempty_nth _ _ N L) as C.
  assert (forall term nrm, exists r, dist term nrm x y norm eps false (Some z) = Ok r /\ shp r = [prod (del ax (shp x))] /\ forall o, inb (del ax (shp x)) o ->
     exists ro, dist term nrm (line ax o x) (line ax o y) norm eps false None = Ok ro /\ at_ r [flat (del ax (shp x)) o] = at_ ro []) as G.
  { intros term nrm. destruct (dist_lines term nrm x y norm eps z ax A E N) as (r & H & S & F). exists r. split; [exact H|]. split; [exact S|]. intros o O.
    destruct (dist_whole term nrm (line ax o x) (line ax o y) norm eps) as (ro & Ho & _ & Fo).
    - cbn [line shp]. rewrite E. reflexivity.
    - cbn [line shp]. repeat constructor. exact C.
    - exists ro. split; [exact Ho|]. rewrite F, Fo by exact O. reflexivity. }
  split; [exact (G sqdiff sq)|]. split; [exact (G absdiff Rabs)|exact (G (powdiff p) (abspow p))].
Qed.
Print Assumptions distances_along_axis.

(* with both, per sample and along an axis other than the axis of the samples *)
Theorem distances_per_sample_along_axis x y norm eps p z ax d0 s :
  norm_axis (length (shp x)) z = Ok (S ax) -> shp x = d0 :: s -> shp y = shp x -> nonempty (shp x) ->
  (exists r, compute_mse x y norm eps true (Some z) None = Ok r /\ shp r = [d0; prod (del ax s)] /\ forall b o, (b < d0)%nat -> inb (del ax s) o ->
     exists ro, compute_mse (line ax o (sample b x)) (line ax o (sample b y)) norm eps false None None = Ok ro /\ at_ r [b; flat (del ax s) o] = at_ ro []) /\
  (exists r, compute_mae x y norm eps true (Some z) = Ok r /\ shp r = [d0; prod (del ax s)] /\ forall b o, (b < d0)%nat -> inb (del ax s) o ->
     exists ro, compute_mae (line ax o (sample b x)) (line ax o (sample b y)) norm eps false None = Ok ro /\ at_ r [b; flat (del ax s) o] = at_ ro []) /\
  (exists r, compute_lp_norm x y p norm eps true (Some z) = Ok r /\ shp r = [d0; prod (del ax s)] /\ forall b o, (b < d0)%nat -> inb (del ax s) o ->
     exists ro, compute_lp_norm (line ax o (sample b x)) (line ax o (sample b y)) p norm eps false None = Ok ro /\ at_ r [b; flat (del ax s) o] = at_ ro []).
Proof.
  intros A Sx E N. pose proof (norm_axis_ok _ _ _ A) as L. pose proof (nonempty_nth _ _ N L) as C.
  assert (forall term nrm, exists r, dist term nrm x y norm eps true (Some z) = Ok r /\ shp r = [d0; prod (del ax s)] /\ forall b o, (b < d0)%nat -> inb (del ax s) o ->
     exists ro, dist term nrm (line ax o (sample b x)) (line ax o (sample b y)) norm eps false None = Ok ro /\ at_ r [b; flat (del ax s) o] = at_ ro []) as G.
  { intros term nrm. destruct (dist_sample_lines term nrm x y norm eps z ax d0 s A Sx E N) as (r & H & S & F). exists r. split; [exact H|]. split; [exact S|]. intros b o B O.
    destruct (dist_whole term nrm (line ax o (sample b x)) (line ax o (sample b y)) norm eps) as (ro & Ho & _ & Fo).
    - cbn [line sample shp]. rewrite E. reflexivity.
    - cbn [line sample shp]. rewrite Sx in *. cbn [tl nth] in *. repeat constructor. exact C.
    - exists ro. split; [exact Ho|]. rewrite F, Fo by assumption. reflexivity. }
  split; [exact (G sqdiff sq)|]. split; [exact (G absdiff Rabs)|exact (G (powdiff p) (abspow p))].
Qed.
Print Assumptions distances_per_sample_along_axis.

(* the order of the elements does not matter *)
Theorem distances_order_independent x y norm eps p f : shp y = shp x -> nonempty (shp x) -> permutes (shp x) f ->
  (exists r r', compute_mse x y norm eps false None None = Ok r /\ compute_mse (rearrange f x) (rearrange f y) norm eps false None None = Ok r' /\ at_ r [] = at_ r' []) /\
  (exists r r', compute_mae x y norm eps false None = Ok r /\ compute_mae (rearrange f x) (rearrange f y) norm eps false None = Ok r' /\ at_ r [] = at_ r' []) /\
  (exists r r', compute_lp_norm x y p norm eps false None = Ok r /\ compute_lp_norm (rearrange f x) (rearrange f y) p norm eps false None = Ok r' /\ at_ r [] = at_ r' []).
Proof.
  intros E N P.
  assert (forall term nrm, exists r r', dist term nrm x y norm eps false None = Ok r /\ dist term nrm (rearrange f x) (rearrange f y) norm eps false None = Ok r' /\ at_ r [] = at_ r' []) as G.
  { intros term nrm. destruct (dist_whole term nrm x y norm eps (eq_sym E) N) as (r & H & _ & F).
    destruct (dist_whole term nrm (rearrange f x) (rearrange f y) norm eps (eq_sym E) N) as (r' & H' & _ & F'). exists r, r'. split; [exact H|]. split; [exact H'|].
    rewrite F, F', value_rearrange by assumption. reflexivity. }
  split; [exact (G sqdiff sq)|]. split; [exact (G absdiff Rabs)|exact (G (powdiff p) (abspow p))].
Qed.
Print Assumptions distances_order_independent.

(* ---- the cosine distance ---- *)
Theorem cosine_between_0_and_1 x y eps : 0 < eps -> shp y = shp x ->
  (exists r, compute_cs x y eps false None = Ok r /\ shp r = [] /\ 0 <= at_ r [] <= 1) /\
  (forall r b, nonempty (shp x) -> compute_cs x y eps true None = Ok r -> inb (shp r) b -> 0 <= at_ r b <= 1).
Proof.
  intros P E.
  assert (forall a b, 0 <= cos_value eps (dot_of a b) (dot_of a a) (rsum (prod (shp a)) (fun k => at_ b (unflat (shp a) k) * at_ b (unflat (shp a) k))) <= 1) as R.
  { intros a b. unfold dot_of. pose proof (cos_range (prod (shp a)) (fun k => at_ a (unflat (shp a) k)) (fun k => at_ b (unflat (shp a) k)) eps P) as C. cbv beta in C.
    rewrite (rsum_ext _ (fun k => at_ a (unflat (shp a) k) ^ 2) (fun k => at_ a (unflat (shp a) k) * at_ a (unflat (shp a) k))) in C by (intros; ring).
    rewrite (rsum_ext _ (fun k => at_ b (unflat (shp a) k) ^ 2) (fun k => at_ b (unflat (shp a) k) * at_ b (unflat (shp a) k))) in C by (intros; ring). exact C. }
  destruct (all_zero y && all_zero x) eqn:Z.
  - assert (forall batch, compute_cs x y eps batch None = Ok (scalar 1)) as H by (intro; unfold compute_cs; rewrite validate_same by (symmetry; exact E); cbn [bind]; rewrite Z; reflexivity).
    split; [exists (scalar 1); split; [apply H|]; split; [reflexivity|cbn; lra]|]. intros r b _ Hr _. rewrite H in Hr. injection Hr as <-. cbn. lra.
  - assert (exists i, inb (shp x) i /\ (at_ x i <> 0 \/ at_ y i <> 0)) as Nz.
    { apply andb_false_iff in Z. destruct (Nat.eq_dec 0 0) as [_|]; [|contradiction].
      assert (forall a, all_zero a = false -> exists i, inb (shp a) i /\ at_ a i <> 0) as X.
      { intros a F. unfold all_zero in F. assert (exists k, (k < prod (shp a))%nat /\ at_ a (unflat (shp a) k) <> 0) as (k & K & A).
        { revert F. induction (prod (shp a)) as [|n IH]; intro F; [discriminate|]. rewrite seq_S, forallb_app in F. apply andb_false_iff in F. destruct F as [F|F].
          - destruct (IH F) as (k & K & A). exists k. split; [lia|exact A].
          - cbn [forallb Nat.add] in F. exists n. split; [lia|]. destruct (Req_EM_T (at_ a (unflat (shp a) n)) 0); [discriminate|assumption]. }
        exists (unflat (shp a) k). split; [apply flat_unflat; exact K|exact A]. }
      destruct Z as [Z|Z]; destruct (X _ Z) as (i & I & A); exists i; rewrite ?E in I; auto. }
    split.
    + destruct (cs_whole x y eps E Nz) as (r & H & S & F). exists r. split; [exact H|]. split; [exact S|]. rewrite F. specialize (R x y).
      assert (dot_of y y = rsum (prod (shp x)) (fun k => at_ y (unflat (shp x) k) * at_ y (unflat (shp x) k))) as -> by (unfold dot_of; rewrite E; reflexivity). exact R.
    + intros r b Ne H I. destruct (shp x) as [|d0 s] eqn:Sx.
      { unfold compute_cs, flatten_tensor, first_dim in H. rewrite validate_same in H by congruence. cbn [bind] in H. rewrite Z, Sx in H. discriminate. }
      destruct (cs_samples x y eps d0 s Sx ltac:(congruence) ltac:(congruence) ltac:(rewrite Sx; exact Nz)) as (r' & H' & S' & F). rewrite H in H'. injection H' as <-.
      rewrite S' in I. inversion I as [|? i ? l Hi F1]; subst. inversion F1; subst. rewrite F by exact Hi. specialize (R (sample i x) (sample i y)).
      assert (dot_of (sample i y) (sample i y) = rsum (prod (shp (sample i x))) (fun k => at_ (sample i y) (unflat (shp (sample i x)) k) * at_ (sample i y) (unflat (shp (sample i x)) k))) as ->
        by (unfold dot_of; cbn [sample shp]; rewrite E, Sx; reflexivity). exact R.
Qed.
Print Assumptions cosine_between_0_and_1.

(* equal tensors are at the distance eps / 2(|x|^2 + eps), which is not zero *)
Theorem cosine_of_equal_tensors x eps : 0 < eps -> (exists i, inb (shp x) i /\ at_ x i <> 0) ->
  exists r, compute_cs x x eps false None = Ok r /\ at_ r [] = eps / (2 * (dot_of x x + eps)) /\ 0 < at_ r [].
Proof.
  intros E (i & I & N). destruct (cs_whole x x eps eq_refl) as (r & H & _ & F); [eauto|]. exists r. split; [exact H|]. rewrite F.
  assert (0 <= dot_of x x) as P by (apply rsum_nonneg; intros; apply Rle_0_sqr). rewrite cos_same_value by assumption. split; [reflexivity|].
  apply Rdiv_lt_0_compat; lra.
Qed.
Print Assumptions cosine_of_equal_tensors.

(* ---- the divergence ---- *)
Theorem divergence_of_equal_tensors x y batch axis r : same_entries x y -> compute_kl_divergence x y batch axis = Ok r ->
  forall i, inb (shp r) i -> at_ r i = 0.
Proof.
  intros [_ E] H i I. destruct (kl_flat _ _ _ _ _ H) as (S & fx & fy & Fx & Fy).
  destruct (flatten_view _ _ _ _ Fx) as (rs' & n & g & [V _] & Vx & All). pose proof (All _ _ (eq_sym S) Fy) as Vy.
  destruct (kl_view _ _ _ _ _ _ _ _ _ _ H Fx Fy Vx Vy) as (rs & m & -> & M & Sr & F). rewrite Sr in I. rewrite F by exact I.
  unfold Rdiv. rewrite rsum_zero; [ring|]. intros j J. apply rsum_zero. intros k K. rewrite <- E; [apply kl_term_same|].
  apply V; [|exact K]. apply inb_app; [exact I|apply inb1; exact J].
Qed.
Print Assumptions divergence_of_equal_tensors.

(* lines along the axis with non-negative entries in x, positive entries in y, and the same sum *)
Theorem divergence_nonneg x y batch z ax r :
  norm_axis (length (shp x)) z = Ok ax -> compute_kl_divergence x y batch (Some z) = Ok r ->
  (forall i, inb (shp x) i -> 0 <= at_ x i /\ 0 < at_ y i) ->
  (forall o, inb (del ax (shp x)) o -> rsum (nth ax (shp x) 0%nat) (fun k => at_ x (ins ax k o)) = rsum (nth ax (shp x) 0%nat) (fun k => at_ y (ins ax k o))) ->
  (forall i, inb (shp r) i -> 0 <= at_ r i) /\ ((forall i, inb (shp r) i -> at_ r i = 0) <-> same_entries x y).
Proof.
  intros A H P S. pose proof (norm_axis_ok _ _ _ A) as L. destruct (kl_flat _ _ _ _ _ H) as (Sh & fx & fy & Fx & Fy).
  destruct (axis_view x z ax batch fx A Fx) as (rs' & o & O1 & O2 & V). pose proof (V x fx eq_refl Fx) as Vx. pose proof (V y fy (eq_sym Sh) Fy) as Vy.
  destruct (kl_view _ _ _ _ _ _ _ _ _ _ H Fx Fy Vx Vy) as (rs & m & -> & M & Sr & F). rewrite Sr. clear V.
  set (n := nth ax (shp x) 0%nat) in *.
  assert (forall idx, inb (rs ++ [m]) idx -> 0 <= rsum n (fun k => kl_term (at_ x (ins ax k (o idx))) (at_ y (ins ax k (o idx)))) /\
    (rsum n (fun k => kl_term (at_ x (ins ax k (o idx))) (at_ y (ins ax k (o idx)))) = 0 -> forall k, (k < n)%nat -> at_ x (ins ax k (o idx)) = at_ y (ins ax k (o idx)))) as Ln.
  { intros idx I. specialize (O1 idx I). apply (kl_line n (fun k => at_ x (ins ax k (o idx))) (fun k => at_ y (ins ax k (o idx)))).
    - intros k K. apply P. apply inb_ins; [exact L|split; assumption].
    - intros k K. apply P. apply inb_ins; [exact L|split; assumption].
    - apply S. exact O1. }
  pose proof (INR_pos m M) as Pm. assert (0 < / INR m) as Pi by (apply Rinv_0_lt_compat; exact Pm).
  assert (forall i j, inb rs i -> (j < m)%nat -> inb (rs ++ [m]) (i ++ [j])) as Ij by (intros; apply inb_app; [assumption|apply inb1; assumption]).
  split; [|split].
  - intros i I. rewrite F by exact I. apply Rmult_le_pos; [|lra]. apply rsum_nonneg. intros j J. apply Ln. apply Ij; assumption.
  - intro Z. split; [exact Sh|]. intros i I. destruct (inb_ins_ex ax (shp x) i L I) as (p & k & -> & Ip & K).
    destruct (O2 p Ip) as (idx & Ii & <-). destruct (inb_snoc _ _ _ Ii) as (i0 & j & -> & I0 & J).
    apply (Ln (i0 ++ [j]) Ii); [|exact K]. specialize (Z i0 I0). rewrite F in Z by exact I0.
    apply (rsum_zero_inv m (fun j => rsum n (fun k => kl_term (at_ x (ins ax k (o (i0 ++ [j])))) (at_ y (ins ax k (o (i0 ++ [j]))))))).
    + intros j' J'. apply Ln. apply Ij; assumption.
    + unfold Rdiv in Z. apply Rmult_integral in Z. destruct Z as [Z|Z]; [exact Z|lra].
    + exact J.
  - intros E i I. apply (divergence_of_equal_tensors x y batch (Some z) r E H i). rewrite Sr. exact I.
Qed.
Print Assumptions divergence_nonneg.

(* ---- HMSE ---- *)
Theorem hmse_per_tensor x y norm scores : shp y = shp x -> nonempty (shp x) -> shp scores = shp x ->
  exists r, tensor_error (M_hmse scores) None norm x y = Ok r /\ shp r = [] /\ at_ r [] = mse_of (at_ scores) x y.
Proof. intros E N W. exact (weighted_mse_of_whole_tensors x y false (if norm then 1 else 0) scores E N W). Qed.
Print Assumptions hmse_per_tensor.

(* per channel: one number for the whole tensor, divided by the mean square of the tensor *)
Theorem hmse_per_channel_one_number x y norm scores z : z <> 0%Z -> shp y = shp x -> nonempty (shp x) -> nonempty (shp scores) -> shp scores <> [] ->
  prod (shp scores) = prod (shp x) ->
  exists r, tensor_error (M_hmse scores) (Some z) norm x y = Ok r /\ shp r = [] /\
    at_ r [] = mean_of [prod (shp x)] (fun i => let k := hd 0%nat i in (at_ scores (unflat (shp scores) k) * (at_ x (unflat (shp x) k) - at_ y (unflat (shp x) k))) ^ 2)
               / (size_of (fun v => v ^ 2) x + (if norm then 1 else 0)).
Proof.
  intros Z E N Ns Nn P. destruct (shp scores) as [|d0 s] eqn:Ss; [contradiction|]. inversion Ns as [|? ? D _]; subst.
  destruct (channel_first_ok scores d0 s Ss ltac:(lia)) as (w & Hw & Sw & Fw). rewrite Ss in Fw.
  assert (prod (shp w) = prod (shp x)) as Pw by (rewrite Sw; cbn [prod] in *; lia).
  destruct (wmse_whole x y true (if norm then 1 else 0) w (eq_sym E) N Pw) as (r & H & S & F). exists r. split.
  - unfold tensor_error, hmse_error. rewrite Hw. cbn [bind truthy]. apply Z.eqb_neq in Z. rewrite Z. exact H.
  - split; [exact S|]. rewrite F. unfold ratio, mean_of, size_of, mean_of. cbn [prod]. rewrite Nat.mul_1_r. f_equal. f_equal. apply rsum_ext.
    intros k K. rewrite (Fw k) by (cbn [prod] in *; lia). cbn [unflat prod hd]. rewrite Nat.div_1_r. reflexivity.
Qed.
Print Assumptions hmse_per_channel_one_number.

(* therefore the threshold search halves the thresholds of all the channels the same number of times *)
Theorem hmse_same_halvings_for_all_channels scores z norm x ys errors : z <> 0%Z -> nonempty (shp x) -> nonempty (shp scores) -> shp scores <> [] ->
  prod (shp scores) = prod (shp x) -> Forall (fun y => shp y = shp x) ys ->
  Forall2 (fun y e => tensor_error (M_hmse scores) (Some z) norm x y = Ok e) ys errors ->
  forall c c', chosen_halvings errors c = chosen_halvings errors c'.
Proof.
  intros Z N Ns Nn P Sy H c c'. unfold chosen_halvings. f_equal. induction H as [|y e ys es H F IH]; [reflexivity|].
  inversion Sy as [|? ? Ey Sy']; subst. cbn [map]. f_equal; [|apply IH; exact Sy'].
  destruct (hmse_per_channel_one_number x y norm scores z Z Ey N Ns Nn P) as (r & Hr & Sr & _). rewrite H in Hr. injection Hr as <-.
  unfold bget. rewrite Sr. reflexivity.
Qed.
Print Assumptions hmse_same_halvings_for_all_channels.
