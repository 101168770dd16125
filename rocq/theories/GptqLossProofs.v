(* GptqLossProofs.v -- C91: proofs. *)
From Coq Require Import Reals Lra Lia List.
From Verif Require Import Nd.
From Verif Require Import Base GptqLossModel GptqLossSpec.
Import ListNotations.
Open Scope R_scope.
Open Scope res_scope.

Lemma rsum_mul a b g : rsum (a * b) g = rsum a (fun i => rsum b (fun j => g (i * b + j)%nat)).
Proof.
  induction a as [|a IH]; [reflexivity|]. cbn [Nat.mul rsum]. rewrite Nat.add_comm, rsum_add, IH. reflexivity.
Qed.
Lemma rsum_unflat d s F : rsum (prod (d :: s)) (fun k => F (unflat (d :: s) k)) = rsum d (fun i => rsum (prod s) (fun k => F (i :: unflat s k))).
Proof.
  cbn [prod unflat]. rewrite rsum_mul. apply rsum_ext. intros i I. apply rsum_ext. intros j J.
  rewrite Nat.div_add_l, Nat.div_small, Nat.add_0_r by lia. rewrite Nat.add_comm, Nat.mod_add, Nat.mod_small by lia. reflexivity.
Qed.
Lemma rsum_unflat1 n F : rsum (prod [n]) (fun k => F (unflat [n] k)) = rsum n (fun i => F [i]).
Proof. rewrite rsum_unflat. apply rsum_ext. intros. cbn. ring. Qed.
Lemma total1 n a : total (Nd [n] a) = rsum n (fun i => a [i]).
Proof. unfold total, el. cbn [shp at_]. apply (rsum_unflat1 n a). Qed.
Lemma total2 b n a : total (Nd [b; n] a) = rsum b (fun i => rsum n (fun j => a [i; j])).
Proof. unfold total, el. cbn [shp at_]. rewrite (rsum_unflat b [n] a). apply rsum_ext. intros i _. apply (rsum_unflat1 n (fun t => a (i :: t))). Qed.
Lemma total3 b n m a : total (Nd [b; n; m] a) = rsum b (fun i => rsum n (fun j => rsum m (fun k => a [i; j; k]))).
Proof.
  unfold total, el. cbn [shp at_]. rewrite (rsum_unflat b [n; m] a). apply rsum_ext. intros i _.
  rewrite (rsum_unflat n [m] (fun t => a (i :: t))). apply rsum_ext. intros j _. apply (rsum_unflat1 m (fun t => a (i :: j :: t))).
Qed.
Lemma fdiv_ok a b : b <> 0 -> fdiv a b = Ok (a / b).
Proof. intro H. unfold fdiv. destruct (Req_EM_T b 0); [contradiction|reflexivity]. Qed.
Lemma fdiv_zero a : fdiv a 0 = Err E_zero_div.
Proof. unfold fdiv. destruct (Req_EM_T 0 0); [reflexivity|contradiction]. Qed.
Lemma nmean_sqdiff y x : nmean (sqdiff y x) = mse y x.
Proof. reflexivity. Qed.
Lemma nmean_sqdiff' y x : shp y = shp x -> nmean (sqdiff x y) = mse y x.
Proof.
  intro E. unfold nmean, total, el, mse, avg. cbn [sqdiff shp at_]. rewrite E. f_equal. apply rsum_ext. intros. ring.
Qed.
Lemma nmean_sq x : nmean (nmap (fun v => v ^ 2) x) = power x.
Proof. reflexivity. Qed.

Lemma point_ok f y x : shp y = shp x -> (relative f = true -> power x <> 0) -> point_loss f y x = Ok (if relative f then mse y x / power x else mse y x).
Proof.
  intros E P. destruct f as [| |norm]; cbn [point_loss relative] in *.
  - unfold torch_mse. rewrite nmean_sqdiff', nmean_sq by exact E. apply fdiv_ok. apply P. reflexivity.
  - reflexivity.
  - unfold keras_mse_per_tensor. rewrite nmean_sqdiff, nmean_sq. destruct norm; [|reflexivity]. apply fdiv_ok. apply P. reflexivity.
Qed.
Lemma point_nosignal f y x : relative f = true -> power x = 0 -> point_loss f y x = Err E_zero_div.
Proof.
  intros E P. destruct f as [| |norm]; cbn [point_loss relative] in *; [| discriminate |subst norm].
  - unfold torch_mse. rewrite nmean_sq, P. apply fdiv_zero.
  - unfold keras_mse_per_tensor. rewrite nmean_sq, P. apply fdiv_zero.
Qed.
Definition dist (f : lossfn) (p : nd * nd) : R := if relative f then mse (fst p) (snd p) / power (snd p) else mse (fst p) (snd p).
Lemma points_ok f ps : Forall (fun p => shp (fst p) = shp (snd p) /\ (0 < prod (shp (snd p)))%nat) ps ->
  (relative f = true -> forall i, (i < length ps)%nat -> power (float ps i) <> 0) ->
  mapM (fun p => point_loss f (fst p) (snd p)) ps = Ok (map (dist f) ps).
Proof.
  induction 1 as [|p ps [E L] F IH]; intro P; [reflexivity|]. cbn [mapM map].
  rewrite point_ok; [|exact E|intro R; apply (P R 0%nat); cbn; lia]. cbn [bind]. rewrite IH; [reflexivity|].
  intros R i I. apply (P R (S i)). cbn. lia.
Qed.
Lemma points_nosignal f ps k : relative f = true -> Forall (fun p => shp (fst p) = shp (snd p) /\ (0 < prod (shp (snd p)))%nat) ps -> (k < length ps)%nat -> power (float ps k) = 0 ->
  mapM (fun p => point_loss f (fst p) (snd p)) ps = Err E_zero_div.
Proof.
  intros R F. revert k. induction F as [|p ps [E L] F IH]; intros k K P; [cbn in K; lia|]. cbn [mapM].
  destruct (Req_EM_T (power (snd p)) 0) as [Z|Z]; [rewrite (point_nosignal f _ _ R Z); reflexivity|].
  rewrite (point_ok f _ _ E (fun _ => Z)). cbn [bind]. destruct k as [|k]; [exfalso; apply Z; exact P|].
  rewrite (IH k) by (exact P || (cbn in K; lia)). reflexivity.
Qed.
Lemma nth_dist f ps i : (i < length ps)%nat -> nth i (map (dist f) ps) 0 = distance f ps i.
Proof.
  intro I. rewrite (nth_indep _ 0 (dist f (scalar 0, scalar 0))) by (rewrite map_length; exact I). rewrite map_nth. reflexivity.
Qed.
Lemma stack_ok l : l <> [] -> stack l = Ok (Nd [length l] (fun i => nth (hd 0%nat i) l 0)).
Proof. destruct l; [contradiction|reflexivity]. Qed.

Lemma bget_vec n (g : nat -> R) idx j : (j < n)%nat -> last idx 0%nat = j -> idx <> [] -> bget (Nd [n] (fun i => g (hd 0%nat i))) idx = g j.
Proof.
  intros J L N. unfold bget. cbn [shp at_ length].
  destruct (exists_last N) as [pre [x E]]. subst idx. rewrite last_last in L. subst x.
  rewrite app_length. cbn [length]. replace (length pre + 1 - 1)%nat with (length pre) by lia.
  rewrite skipn_app, skipn_all, Nat.sub_diag. cbn [skipn app mask hd]. destruct (Nat.eqb_spec n 1); [f_equal; lia|reflexivity].
Qed.
Lemma bop_row B n (w : nd) (g : nat -> R) : shp w = [n] ->
  exists p, bop Rmult (collate B w) (Nd [n] (fun i => g (hd 0%nat i))) = Ok p /\ shp p = [B; n] /\
            forall b j, (b < B)%nat -> (j < n)%nat -> at_ p [b; j] = at_ w [j] * g j.
Proof.
  intro S. unfold bop, bshape, collate. cbn [shp]. rewrite S. cbn [length Nat.max]. unfold pad_left. cbn [length Nat.sub repeat app].
  rewrite (bdims_sub [1%nat; n] [B; n]) by (repeat constructor; auto). eexists. split; [reflexivity|]. split; [reflexivity|].
  intros b j Hb Hj. cbn [at_]. rewrite (bget_vec n g [b; j] j Hj eq_refl) by discriminate. f_equal.
  rewrite bget_same; [reflexivity|]. cbn [shp]. repeat constructor; assumption.
Qed.
Lemma bop_col B n (w : nd) (g : nat -> R) : shp w = [n; 1%nat] ->
  exists p, bop Rmult (collate B w) (Nd [n] (fun i => g (hd 0%nat i))) = Ok p /\ shp p = [B; n; n] /\
            forall b i j, (b < B)%nat -> (i < n)%nat -> (j < n)%nat -> at_ p [b; i; j] = at_ w [i; 0%nat] * g j.
Proof.
  intro Sw. unfold bop, bshape, collate. cbn [shp]. rewrite Sw. cbn [length Nat.max]. unfold pad_left. cbn [length Nat.sub repeat app].
  assert (E : bdims [B; n; 1%nat] [1%nat; 1%nat; n] = Some [B; n; n]).
  { cbn. destruct (Nat.eqb_spec 1 n) as [<-|N].
    - destruct (Nat.eqb_spec B 1) as [->|D]; reflexivity.
    - destruct n as [|[|n]]; [|lia|]; (destruct (Nat.eqb_spec B 1) as [->|D]; [reflexivity|]); destruct B as [|[|B]]; try lia; reflexivity. }
  destruct n as [|n0].
  { rewrite E. eexists. split; [reflexivity|]. split; [reflexivity|]. intros; lia. }
  rewrite E. set (n := S n0) in *. eexists. split; [reflexivity|]. split; [reflexivity|]. intros b i j Hb Hi Hj. cbn [at_].
  rewrite (bget_vec n g [b; i; j] j Hj eq_refl) by discriminate. f_equal. unfold bget. cbn [shp at_ length Nat.sub skipn mask tl].
  replace (1 =? 1)%nat with true by reflexivity. f_equal.
  destruct (Nat.eqb_spec n 1); [|reflexivity]. repeat f_equal. lia.
Qed.

Section Step.
  Variables (f : lossfn) (B : nat) (ps : list (nd * nd)).
  Hypotheses (C : compared ps) (S : has_signal f ps) (HB : (0 < B)%nat).
  Let n := length ps.
  Lemma n_pos : (0 < n)%nat.
  Proof. destruct C as [N _]. unfold n. destruct ps; [contradiction|cbn; lia]. Qed.
  Lemma losses_ok : exists v, (let! ls := mapM (fun p => point_loss f (fst p) (snd p)) ps in stack ls) = Ok (Nd [n] (fun i => v (hd 0%nat i))) /\ forall i, (i < n)%nat -> v i = distance f ps i.
  Proof.
    destruct C as [N F]. rewrite (points_ok f ps F S). cbn [bind]. rewrite stack_ok by (destruct ps; [contradiction|discriminate]).
    rewrite map_length. exists (fun k => nth k (map (dist f) ps) 0). split; [reflexivity|]. intros i I. apply nth_dist. exact I.
  Qed.
  Lemma multi_eq w : multi_loss f ps w = let! v := (let! ls := mapM (fun p => point_loss f (fst p) (snd p)) ps in stack ls) in
    match w with Some w => let! p := bop Rmult w v in Ok (match f with L_torch => nmean p | _ => total p end) | None => Ok (nmean v) end.
  Proof. unfold multi_loss. destruct (mapM _ ps); reflexivity. Qed.
  Lemma total_ext s (a a' : list nat -> R) : (forall i, inb s i -> a i = a' i) -> total (Nd s a) = total (Nd s a').
  Proof. intro H. unfold total, el. cbn [shp at_]. apply rsum_ext. intros k K. apply H. apply (flat_unflat s k). exact K. Qed.
  Lemma row_total w p : shp p = [B; n] -> (forall b j, (b < B)%nat -> (j < n)%nat -> at_ p [b; j] = at_ w [j] * distance f ps j) ->
    total p = INR B * rsum n (fun i => at_ w [i] * distance f ps i).
  Proof.
    intros Sp H. destruct p as [s a]. cbn [shp at_] in *. subst s. rewrite total2, <- rsum_const. apply rsum_ext. intros b Hb.
    apply rsum_ext. intros j Hj. apply H; assumption.
  Qed.
  Lemma col_total w p : shp p = [B; n; n] -> (forall b i j, (b < B)%nat -> (i < n)%nat -> (j < n)%nat -> at_ p [b; i; j] = at_ w [i; 0%nat] * distance f ps j) ->
    total p = INR B * (rsum n (fun i => at_ w [i; 0%nat]) * rsum n (distance f ps)).
  Proof.
    intros Sp H. destruct p as [s a]. cbn [shp at_] in *. subst s. rewrite total3, <- rsum_const. apply rsum_ext. intros b Hb.
    rewrite <- rsum_scal_r. apply rsum_ext. intros i Hi. rewrite <- rsum_scal. apply rsum_ext. intros j Hj. apply H; assumption.
  Qed.
  Lemma step_row w : shp w = [n] ->
    step_loss f B ps w = Ok (match f with L_torch => avg n (fun i => at_ w [i] * distance f ps i) | _ => INR B * rsum n (fun i => at_ w [i] * distance f ps i) end).
  Proof.
    intro Sw. unfold step_loss. rewrite multi_eq. destruct losses_ok as (v & E & V). rewrite E. cbn [bind].
    destruct (bop_row B n w v Sw) as (p & P & Sp & A). rewrite P. cbn [bind]. f_equal.
    assert (T : total p = INR B * rsum n (fun i => at_ w [i] * distance f ps i)) by (apply row_total; [exact Sp|]; intros b j Hb Hj; rewrite A, V by assumption; reflexivity).
    pose proof (lt_0_INR _ HB) as HB'. pose proof (lt_0_INR _ n_pos) as NP. destruct f; try exact T. unfold nmean. rewrite T, Sp. cbn [prod]. rewrite Nat.mul_1_r, mult_INR. unfold avg.
    field. lra.
  Qed.
  Lemma step_col w : shp w = [n; 1%nat] ->
    step_loss f B ps w = Ok (match f with L_torch => avg n (fun i => at_ w [i; 0%nat]) * avg n (distance f ps) | _ => INR B * (rsum n (fun i => at_ w [i; 0%nat]) * rsum n (distance f ps)) end).
  Proof.
    intro Sw. unfold step_loss. rewrite multi_eq. destruct losses_ok as (v & E & V). rewrite E. cbn [bind].
    destruct (bop_col B n w v Sw) as (p & P & Sp & A). rewrite P. cbn [bind]. f_equal.
    assert (T : total p = INR B * (rsum n (fun i => at_ w [i; 0%nat]) * rsum n (distance f ps))) by (apply col_total; [exact Sp|]; intros b i j Hb Hi Hj; rewrite A, V by assumption; reflexivity).
    pose proof (lt_0_INR _ HB) as HB'. pose proof (lt_0_INR _ n_pos) as NP. destruct f; try exact T. unfold nmean. rewrite T, Sp. cbn [prod]. rewrite Nat.mul_1_r, !mult_INR. unfold avg.
    field. lra.
  Qed.
  Lemma unweighted : multi_loss f ps None = Ok (avg n (distance f ps)).
  Proof.
    rewrite multi_eq. destruct losses_ok as (v & E & V). rewrite E. cbn [bind]. f_equal. unfold nmean. rewrite total1.
    cbn [shp prod hd]. rewrite Nat.mul_1_r. unfold avg. f_equal. apply rsum_ext. intros i I. apply V. exact I.
  Qed.
End Step.

(* ---- the weights ---- *)
From Coq Require Import Permutation Sorted.
Lemma insert_perm x l : Permutation (insert x l) (x :: l).
Proof. induction l as [|y l IH]; [reflexivity|]. cbn. destruct (Rle_dec x y); [reflexivity|]. rewrite IH. apply perm_swap. Qed.
Lemma sorted_perm l : Permutation (sorted l) l.
Proof. induction l as [|x l IH]; [reflexivity|]. cbn. rewrite insert_perm, IH. reflexivity. Qed.
Lemma insert_sorted x l : StronglySorted Rle l -> StronglySorted Rle (insert x l).
Proof.
  induction 1 as [|y l Sl IH F]; cbn; [repeat constructor|]. destruct (Rle_dec x y) as [L|L].
  - constructor; [constructor; assumption|]. constructor; [exact L|]. rewrite Forall_forall in *. intros z Z. specialize (F z Z). lra.
  - constructor; [exact IH|]. rewrite Forall_forall in *. intros z Z. rewrite (insert_perm x l) in Z. destruct Z as [->|Z]; [lra|apply F; exact Z].
Qed.
Lemma sorted_sorted l : StronglySorted Rle (sorted l).
Proof. induction l as [|x l IH]; [constructor|]. cbn. apply insert_sorted. exact IH. Qed.
Lemma count_perm (l l' : list R) : Permutation l l' -> count_occ Req_EM_T l 0%R = count_occ Req_EM_T l' 0.
Proof. intro P. apply (Permutation_count_occ Req_EM_T) with (x := 0) in P. exact P. Qed.
Lemma count_map (g : nat -> R) l : NoDup l -> (forall i j, In i l -> In j l -> g i = 0 -> g j = 0 -> i = j) -> (count_occ Req_EM_T (map g l) 0%R <= 1)%nat.
Proof.
  induction 1 as [|a l Na N IH]; intro U; cbn; [lia|]. destruct (Req_EM_T (g a) 0) as [Z|Z]; [|apply IH; intros; apply U; cbn; auto].
  assert (count_occ Req_EM_T (map g l) 0%R = 0)%nat as ->; [|lia]. apply count_occ_not_In. intro I. apply in_map_iff in I.
  destruct I as (j & E & J). apply Na. rewrite (U a j); cbn; auto.
Qed.
Lemma count_map2 (g : nat -> R) l i j : In i l -> In j l -> i <> j -> g i = 0 -> g j = 0 -> (2 <= count_occ Req_EM_T (map g l) 0%R)%nat.
Proof.
  induction l as [|a l IH]; intros I J D Gi Gj; [contradiction|]. cbn [map count_occ].
  assert (In' : forall k, In k l -> g k = 0 -> (1 <= count_occ Req_EM_T (map g l) 0%R)%nat).
  { intros k K G. assert (In 0 (map g l)) as H by (rewrite <- G; apply in_map; exact K). apply (count_occ_In Req_EM_T) in H. lia. }
  destruct (Req_EM_T (g a) 0) as [Z|Z].
  - destruct I as [I|I], J as [J|J]; [congruence|specialize (In' _ J Gj); lia|specialize (In' _ I Gi); lia|specialize (In' _ J Gj); lia].
  - destruct I as [I|I]; [congruence|]. destruct J as [J|J]; [congruence|]. apply IH; assumption.
Qed.
Lemma second_one_zero l y : (count_occ Req_EM_T l 0%R = 1)%nat -> Forall (fun x => 0 <= x) l -> 0 < y -> In y l -> (forall x, In x l -> x <> 0 -> y <= x) ->
  exists r, sorted l = 0 :: y :: r.
Proof.
  intros C F P I M. pose proof (sorted_perm l) as Pm. pose proof (sorted_sorted l) as So. rewrite <- (count_perm _ _ Pm) in C.
  assert (Iy : In y (sorted l)) by (rewrite Pm; exact I).
  assert (Iz : In 0 (sorted l)) by (apply (count_occ_In Req_EM_T); lia).
  assert (Pos : forall x, In x (sorted l) -> 0 <= x) by (intros x X; rewrite Pm in X; rewrite Forall_forall in F; apply F; exact X).
  assert (Ge : forall x, In x (sorted l) -> x <> 0 -> y <= x) by (intros x X; rewrite Pm in X; apply M; exact X).
  clear Pm F M I. destruct (sorted l) as [|a r]; [contradiction|]. inversion So as [|? ? Sr Fa]; subst.
  rewrite Forall_forall in Fa. assert (A : a = 0).
  { apply Rle_antisym; [|apply Pos; left; reflexivity]. destruct Iz as [->|Iz]; [lra|apply Fa; exact Iz]. }
  subst a. cbn in C. destruct (Req_EM_T 0 0) as [_|]; [|contradiction]. assert (C' : count_occ Req_EM_T r 0%R = 0%nat) by lia.
  apply count_occ_not_In in C'. destruct Iy as [Iy|Iy]; [lra|]. destruct r as [|b r]; [contradiction|].
  inversion Sr as [|? ? _ Fb]; subst. rewrite Forall_forall in Fb. exists r. do 2 f_equal. apply Rle_antisym.
  - destruct Iy as [->|Iy]; [lra|apply Fb; exact Iy].
  - apply Ge; [right; left; reflexivity|]. intro Z. apply C'. left. exact Z.
Qed.
Lemma second_two_zeros l : (2 <= count_occ Req_EM_T l 0%R)%nat -> Forall (fun x => 0 <= x) l -> exists r, sorted l = 0 :: 0 :: r.
Proof.
  intros C F. pose proof (sorted_perm l) as Pm. pose proof (sorted_sorted l) as So. rewrite <- (count_perm _ _ Pm) in C.
  assert (Pos : forall x, In x (sorted l) -> 0 <= x) by (intros x X; rewrite Pm in X; rewrite Forall_forall in F; apply F; exact X).
  assert (Iz : In 0 (sorted l)) by (apply (count_occ_In Req_EM_T); lia). clear Pm F.
  destruct (sorted l) as [|a r]; [contradiction|]. inversion So as [|? ? Sr Fa]; subst. rewrite Forall_forall in Fa. assert (A : a = 0).
  { apply Rle_antisym; [|apply Pos; left; reflexivity]. destruct Iz as [->|Iz]; [lra|apply Fa; exact Iz]. }
  subst a. cbn in C. destruct (Req_EM_T 0 0) as [_|]; [|contradiction]. assert (Ir : In 0 r) by (apply (count_occ_In Req_EM_T); lia).
  destruct r as [|b r]; [contradiction|]. exists r. do 2 f_equal. inversion Sr as [|? ? _ Fb]; subst. rewrite Forall_forall in Fb.
  apply Rle_antisym; [|apply Pos; right; left; reflexivity]. destruct Ir as [->|Ir]; [lra|apply Fb; exact Ir].
Qed.
Lemma sorted_two l : (2 <= length l)%nat -> exists x y r, sorted l = x :: y :: r.
Proof.
  intro L. rewrite <- (Permutation_length (sorted_perm l)) in L. destruct (sorted l) as [|x [|y r]]; cbn in L; try lia. eauto.
Qed.

Lemma rmin_spec l x : In (rmin x l) (x :: l) /\ forall z, In z (x :: l) -> rmin x l <= z.
Proof.
  revert x. induction l as [|y l IH]; intro x; cbn [rmin]; [split; [left; reflexivity|intros z [->|[]]; lra]|].
  destruct (IH (Rmin x y)) as [I M]. split.
  - destruct I as [I|I]; [|right; right; exact I]. rewrite <- I. unfold Rmin. destruct (Rle_dec x y); [left|right; left]; reflexivity.
  - intros z Z. pose proof (M (Rmin x y) (or_introl eq_refl)) as M0. pose proof (Rmin_l x y). pose proof (Rmin_r x y).
    destruct Z as [<-|[<-|Z]]; [lra|lra|apply M; right; exact Z].
Qed.
Lemma rmax_spec l x : In (rmax x l) (x :: l) /\ forall z, In z (x :: l) -> z <= rmax x l.
Proof.
  revert x. induction l as [|y l IH]; intro x; cbn [rmax]; [split; [left; reflexivity|intros z [->|[]]; lra]|].
  destruct (IH (Rmax x y)) as [I M]. split.
  - destruct I as [I|I]; [|right; right; exact I]. rewrite <- I. unfold Rmax. destruct (Rle_dec x y); [right; left|left]; reflexivity.
  - intros z Z. pose proof (M (Rmax x y) (or_introl eq_refl)) as M0. pose proof (Rmax_l x y). pose proof (Rmax_r x y).
    destruct Z as [<-|[<-|Z]]; [lra|lra|apply M; right; exact Z].
Qed.
Lemma mapM_ok {A B} (f : A -> result B) g l : (forall x, In x l -> f x = Ok (g x)) -> mapM f l = Ok (map g l).
Proof. induction l as [|x l IH]; intro H; [reflexivity|]. cbn. rewrite (H x), IH; cbn; auto. intros; apply H; right; assumption. Qed.
Lemma mapM_err {A B} (f : A -> result B) e l : (forall x, In x l -> is_ok (f x) = true \/ f x = Err e) -> (exists x, In x l /\ f x = Err e) -> mapM f l = Err e.
Proof.
  induction l as [|x l IH]; intros H (z & Z & E); [contradiction|]. cbn. destruct (f x) as [v|e'] eqn:Fx.
  - destruct Z as [->|Z]; [congruence|]. cbn. rewrite IH; [reflexivity| |eauto]. intros; apply H; right; assumption.
  - destruct (H x (or_introl eq_refl)) as [K|K]; try rewrite Fx in K; cbn in *; congruence.
Qed.
Lemma ln10_pos : 0 < ln 10.
Proof. rewrite <- ln_1. apply ln_increasing; lra. Qed.
Lemma ln_div a b : 0 < a -> 0 < b -> ln (a / b) = ln a - ln b.
Proof. intros A B. unfold Rdiv. rewrite ln_mult, ln_Rinv; [ring|exact B|exact A|apply Rinv_0_lt_compat; exact B]. Qed.
Lemma ln_le_iff a b : 0 < a -> 0 < b -> (ln a <= ln b <-> a <= b).
Proof.
  intros A B. split; intro H.
  - destruct (Rle_lt_dec a b) as [L|L]; [exact L|]. pose proof (ln_increasing b a B L). lra.
  - destruct H as [L|E]; [left; apply ln_increasing; assumption|right; rewrite E; reflexivity].
Qed.

Section Weights.
  Variables (c : hcfg) (S n : nat) (s : nat -> nat -> R).
  Let m := mean0 (if norm_scores c then normalize (score_tensor S n s) else score_tensor S n s).
  Lemma m_shape : shp m = [n; 1%nat].
  Proof. unfold m. destruct (norm_scores c); reflexivity. Qed.
  Lemma m_at i : at_ m [i; 0%nat] = score c S n s i.
  Proof.
    unfold m, score. destruct (norm_scores c); cbn [mean0 at_ shp normalize score_tensor hd nth]; unfold vmean, avg; [|reflexivity].
    reflexivity.
  Qed.
  Lemma weights_plain : log_norm c = false -> exists w, hessian_weights c (score_tensor S n s) = Ok w /\ shp w = [n; 1%nat] /\ forall i, at_ w [i; 0%nat] = score c S n s i.
  Proof. intro L. unfold hessian_weights. fold m. rewrite L. exists m. split; [reflexivity|]. split; [exact m_shape|exact m_at]. Qed.
  Let v := squeeze m.
  Lemma v_shape : n <> 1%nat -> shp v = [n].
  Proof. intro N. unfold v, squeeze. cbn [shp]. rewrite m_shape. cbn. destruct (Nat.eqb_spec n 1); [contradiction|reflexivity]. Qed.
  Lemma v_at i : n <> 1%nat -> at_ v [i] = score c S n s i.
  Proof. intro N. unfold v, squeeze. cbn [at_]. rewrite m_shape. cbn. destruct (Nat.eqb_spec n 1); [contradiction|]. apply m_at. Qed.
  Lemma v_entries : n <> 1%nat -> entries v n = map (score c S n s) (seq 0 n).
  Proof. intro N. unfold entries. apply map_ext. intro i. apply v_at. exact N. Qed.
  Lemma weights_single : log_norm c = true -> n = 1%nat -> hessian_weights c (score_tensor S n s) = Err E_index.
  Proof.
    intros L N. unfold hessian_weights. fold m. rewrite L. cbn [negb]. fold v. unfold second_smallest.
    assert (shp v = []) as -> by (unfold v, squeeze; cbn [shp]; rewrite m_shape, N; reflexivity). reflexivity.
  Qed.
  Let g := score c S n s.
  Lemma g_fold : score c S n s = g.
  Proof. reflexivity. Qed.
  Section Log.
    Hypotheses (L : log_norm c = true) (N : (2 <= n)%nat) (G0 : forall i, (i < n)%nat -> 0 <= g i).
    Lemma Nn : n <> 1%nat.
    Proof. lia. Qed.
    Lemma weights_two_zeros i j : (i < n)%nat -> (j < n)%nat -> i <> j -> g i = 0 -> g j = 0 -> hessian_weights c (score_tensor S n s) = Err E_zero_div.
    Proof.
      intros I J D Gi Gj. unfold hessian_weights. fold m. rewrite L. cbn [negb]. fold v. unfold second_smallest.
      rewrite (v_shape Nn), (v_entries Nn). fold g.
      destruct (second_two_zeros (map g (seq 0 n))) as (r & E).
      - apply (count_map2 g _ i j); try apply in_seq; try lia; assumption.
      - rewrite Forall_forall. intros x X. apply in_map_iff in X. destruct X as (k & <- & K). apply in_seq in K. apply G0. lia.
      - rewrite E. cbn [bind hd]. rewrite (mapM_err _ E_zero_div); [reflexivity| |].
        + intros k K. unfold log10. destruct (Rlt_dec 0 _); [left|right]; reflexivity.
        + exists i. split; [apply in_seq; lia|]. rewrite (v_at i Nn). fold g. rewrite Gi. destruct (Req_EM_T 0 0); [|contradiction].
          unfold log10. destruct (Rlt_dec 0 0); [lra|reflexivity].
    Qed.
    Variable y : R.
    Hypotheses (Y : least_positive n g y) (U : forall i j, (i < n)%nat -> (j < n)%nat -> g i = 0 -> g j = 0 -> i = j).
    Lemma filled_pos i : (i < n)%nat -> 0 < filled g y i.
    Proof. intro I. destruct Y as (P & _ & _). unfold filled. destruct (Req_EM_T (g i) 0); [exact P|]. pose proof (G0 i I). lra. Qed.
    Lemma logs_ok : exists y', second_smallest v = Ok y' /\ mapM (fun k => log10 (if Req_EM_T (at_ v [k]) 0 then y' else at_ v [k])) (seq 0 (hd 0%nat (shp v))) = Ok (map (fun k => ln (filled g y k) / ln 10) (seq 0 n)).
    Proof.
      unfold second_smallest. rewrite (v_shape Nn), (v_entries Nn). fold g. cbn [hd].
      destruct (sorted_two (map g (seq 0 n))) as (a & b & r & E); [rewrite map_length, seq_length; exact N|]. rewrite E.
      exists b. split; [reflexivity|]. apply mapM_ok. intros k K. apply in_seq in K. rewrite (v_at k Nn), g_fold.
      pose proof (filled_pos k ltac:(lia)) as P. unfold filled in *. destruct (Req_EM_T (g k) 0) as [Z|Z].
      - destruct Y as (Py & (j & J & Gj) & M). destruct (second_one_zero (map g (seq 0 n)) y) as (r' & E').
        + apply Nat.le_antisymm; [apply count_map; [apply seq_NoDup|]; intros p q Hp Hq; apply in_seq in Hp; apply in_seq in Hq; apply U; lia|].
          apply (count_occ_In Req_EM_T). rewrite <- Z. apply in_map. apply in_seq. lia.
        + rewrite Forall_forall. intros x X. apply in_map_iff in X. destruct X as (q & <- & Q). apply in_seq in Q. apply G0. lia.
        + exact Py.
        + rewrite <- Gj. apply in_map. apply in_seq. lia.
        + intros x X X0. apply in_map_iff in X. destruct X as (q & <- & Q). apply in_seq in Q. apply M; [lia|exact X0].
        + rewrite E in E'. injection E' as _ Eb _. subst b. unfold log10. destruct (Rlt_dec 0 y); [reflexivity|lra].
      - unfold log10. destruct (Rlt_dec 0 (g k)); [reflexivity|lra].
    Qed.
    Lemma nth_logs k : (k < n)%nat -> nth k (map (fun k => ln (filled g y k) / ln 10) (seq 0 n)) 0 = ln (filled g y k) / ln 10.
    Proof.
      intro K. rewrite (nth_indep _ 0 ((fun k => ln (filled g y k) / ln 10) 0%nat)) by (rewrite map_length, seq_length; exact K).
      rewrite (map_nth (fun k => ln (filled g y k) / ln 10)), seq_nth by exact K. reflexivity.
    Qed.
    Lemma extremes : exists l0 r k k', map (fun k => ln (filled g y k) / ln 10) (seq 0 n) = l0 :: r /\ (k < n)%nat /\ (k' < n)%nat /\
      rmin l0 r = ln (filled g y k) / ln 10 /\ rmax l0 r = ln (filled g y k') / ln 10 /\ forall i, (i < n)%nat -> filled g y k <= filled g y i <= filled g y k'.
    Proof.
      set (F := fun k => ln (filled g y k) / ln 10). destruct (map F (seq 0 n)) as [|l0 r] eqn:E.
      { apply (f_equal (@length R)) in E. rewrite map_length, seq_length in E. cbn in E. lia. }
      destruct (rmin_spec r l0) as [I1 M1]. destruct (rmax_spec r l0) as [I2 M2]. rewrite <- E in I1, I2, M1, M2.
      apply in_map_iff in I1. apply in_map_iff in I2. destruct I1 as (k & Ek & K). destruct I2 as (k' & Ek' & K'). apply in_seq in K. apply in_seq in K'.
      exists l0, r, k, k'. split; [reflexivity|]. split; [lia|]. split; [lia|]. split; [symmetry; exact Ek|]. split; [symmetry; exact Ek'|].
      intros i I. assert (Ii : In (F i) (map F (seq 0 n))) by (apply in_map; apply in_seq; lia).
      pose proof (M1 _ Ii) as A. pose proof (M2 _ Ii) as B. rewrite <- Ek in A. rewrite <- Ek' in B. unfold F in A, B.
      pose proof ln10_pos as T. pose proof (filled_pos i I). pose proof (filled_pos k ltac:(lia)). pose proof (filled_pos k' ltac:(lia)).
      split.
      - apply ln_le_iff; try assumption. apply (Rmult_le_reg_r (/ ln 10)); [apply Rinv_0_lt_compat; exact T|exact A].
      - apply ln_le_iff; try assumption. apply (Rmult_le_reg_r (/ ln 10)); [apply Rinv_0_lt_compat; exact T|exact B].
    Qed.
    Lemma weights_log : scale_log_norm c = false -> exists w k, hessian_weights c (score_tensor S n s) = Ok w /\ shp w = [n] /\ (k < n)%nat /\
      forall i, (i < n)%nat -> filled g y k <= filled g y i /\ at_ w [i] = ln (filled g y i / filled g y k) / ln 10.
    Proof.
      intro Sc. unfold hessian_weights. fold m. rewrite L. cbn [negb]. fold v. destruct logs_ok as (y' & E1 & E2). rewrite E1. cbn [bind]. rewrite E2. cbn [bind].
      destruct extremes as (l0 & r & k & k' & E & K & K' & Lo & Hi & M). rewrite E, Sc. 
      eexists; exists k. split; [reflexivity|]. split; [|split; [exact K|]].
      - cbn [vec shp]. rewrite map_length, <- E, map_length, seq_length. reflexivity.
      - intros i I. split; [apply M; exact I|]. cbn [vec at_ hd]. rewrite Lo.
        rewrite <- E, map_map. rewrite (nth_indep _ 0 ((fun x => ln (filled g y x) / ln 10 - ln (filled g y k) / ln 10) 0%nat)) by (rewrite map_length, seq_length; exact I).
        rewrite (map_nth (fun x => ln (filled g y x) / ln 10 - ln (filled g y k) / ln 10)), seq_nth by exact I. cbn [Nat.add].
        rewrite ln_div by (apply filled_pos; assumption). unfold Rdiv. ring.
    Qed.
    Lemma weights_scaled : scale_log_norm c = true -> (exists i j, (i < n)%nat /\ (j < n)%nat /\ filled g y i <> filled g y j) -> exists w k k', hessian_weights c (score_tensor S n s) = Ok w /\ shp w = [n] /\ (k < n)%nat /\ (k' < n)%nat /\
      filled g y k < filled g y k' /\
      forall i, (i < n)%nat -> filled g y k <= filled g y i <= filled g y k' /\ at_ w [i] = ln (filled g y i / filled g y k) / ln (filled g y k' / filled g y k).
    Proof.
      intros Sc (a & b & A & B & D). unfold hessian_weights. fold m. rewrite L. cbn [negb]. fold v. destruct logs_ok as (y' & E1 & E2). rewrite E1. cbn [bind]. rewrite E2. cbn [bind].
      destruct extremes as (l0 & r & k & k' & E & K & K' & Lo & Hi & M). rewrite E, Sc, Lo, Hi.
      assert (Lt : filled g y k < filled g y k') by (pose proof (M a A); pose proof (M b B); lra).
      pose proof (ln_increasing _ _ (filled_pos k K) Lt) as Ll. pose proof ln10_pos as T.
      assert (Dv : ln (filled g y k') / ln 10 - ln (filled g y k) / ln 10 <> 0).
      { unfold Rdiv. rewrite <- Rmult_minus_distr_r. apply Rmult_integral_contrapositive. split; [lra|]. apply Rinv_neq_0_compat. lra. }
      rewrite (mapM_ok _ (fun l => (l - ln (filled g y k) / ln 10) / (ln (filled g y k') / ln 10 - ln (filled g y k) / ln 10))) by (intros; apply fdiv_ok; exact Dv).
      cbn [bind]. eexists; exists k, k'. split; [reflexivity|]. split; [|split; [exact K|split; [exact K'|split; [exact Lt|]]]].
      - cbn [vec shp]. rewrite map_length, <- E, map_length, seq_length. reflexivity.
      - intros i I. split; [apply M; exact I|]. cbn [vec at_ hd]. set (h := fun l => _).
        rewrite <- E, map_map. rewrite (nth_indep _ 0 ((fun x => h (ln (filled g y x) / ln 10)) 0%nat)) by (rewrite map_length, seq_length; exact I).
        rewrite (map_nth (fun x => h (ln (filled g y x) / ln 10))), seq_nth by exact I. cbn [Nat.add]. unfold h.
        rewrite !ln_div by (apply filled_pos; assumption). field. split; [|lra]. intro Z. lra.
    Qed.
    Lemma weights_scaled_equal : scale_log_norm c = true -> (forall i j, (i < n)%nat -> (j < n)%nat -> filled g y i = filled g y j) -> hessian_weights c (score_tensor S n s) = Err E_zero_div.
    Proof.
      intros Sc H. unfold hessian_weights. fold m. rewrite L. cbn [negb]. fold v. destruct logs_ok as (y' & E1 & E2). rewrite E1. cbn [bind]. rewrite E2. cbn [bind].
      destruct extremes as (l0 & r & k & k' & E & K & K' & Lo & Hi & M). rewrite E, Sc, Lo, Hi, (H k k' K K').
      rewrite (mapM_err _ E_zero_div); [reflexivity| |exists l0; split; [left; reflexivity|]].
      - intros x _. right. replace (ln (filled g y k') / ln 10 - ln (filled g y k') / ln 10) with 0 by ring. apply fdiv_zero.
      - replace (ln (filled g y k') / ln 10 - ln (filled g y k') / ln 10) with 0 by ring. apply fdiv_zero.
    Qed.
  End Log.
End Weights.

(* ---- sample-layer attention ---- *)
Lemma norm_first B C rest y x b : shp x = B :: C :: rest -> (b < B)%nat -> at_ (norm_of y x) [b] = first_axis_distance C rest y x b.
Proof.
  intros Sx Hb. unfold norm_of, nsum. cbn [sqdiff shp at_]. rewrite Sx.
  change (drop_axes 0 [1%nat] (B :: C :: rest)) with (B :: drop_axes 2 [1%nat] rest).
  assert (D : forall r k, (2 <= k)%nat -> drop_axes k [1%nat] r = r).
  { induction r as [|d r IH]; intros k K; [reflexivity|]. cbn. destruct (Nat.eqb_spec k 1); [lia|]. cbn. rewrite IH by lia. reflexivity. }
  assert (T : forall r k F idx, (2 <= k)%nat -> inb r idx -> sum_at F k [1%nat] r idx = F idx).
  { induction r as [|d r IH]; intros k F idx K I; [inversion I; reflexivity|]. inversion I as [|? i ? idx' Hi I']; subst. cbn. destruct (Nat.eqb_spec k 1); [lia|]. cbn. rewrite IH by (lia || assumption). reflexivity. }
  rewrite D by lia. unfold first_axis_distance, avg.
  assert (A : forall k, (k < prod rest)%nat -> sum_at (fun i => (at_ y i - at_ x i) ^ 2) 0 [1%nat] (B :: C :: rest) (b :: unflat rest k) = rsum C (fun c => (at_ y (b :: c :: unflat rest k) - at_ x (b :: c :: unflat rest k)) ^ 2)).
  { intros k K. change (rsum C (fun c => sum_at (fun t => (at_ y (b :: c :: t) - at_ x (b :: c :: t)) ^ 2) 2 [1%nat] rest (unflat rest k)) = rsum C (fun c => (at_ y (b :: c :: unflat rest k) - at_ x (b :: c :: unflat rest k)) ^ 2)).
    apply rsum_ext. intros c Hc. rewrite (T rest 2%nat (fun t => (at_ y (b :: c :: t) - at_ x (b :: c :: t)) ^ 2)) by (lia || apply flat_unflat; exact K). reflexivity. }
  destruct rest as [|d rest]; cbv zeta; cbn [at_ hd tl].
  - cbn [prod rsum INR]. rewrite <- (A 0%nat) by (cbn; lia). change (unflat [] 0) with (@nil nat). lra.
  - f_equal. apply rsum_ext. exact A.
Qed.
Lemma fold_left_map (F : nat * (nd * nd) -> R) l a : fold_left Rplus (map F l) a = a + fold_right Rplus 0 (map F l).
Proof. revert a. induction l as [|x l IH]; intro a; cbn; [ring|]. rewrite IH. ring. Qed.
Lemma sum_combine (G : nat -> nd * nd -> R) ps : forall k, fold_right Rplus 0 (map (fun ip => G (fst ip) (snd ip)) (combine (seq k (length ps)) ps)) = rsum (length ps) (fun i => G (k + i)%nat (nth i ps (scalar 0, scalar 0))).
Proof.
  induction ps as [|p ps IH]; intro k; [reflexivity|]. cbn [length seq combine map fold_right fst snd]. rewrite IH.
  replace (S (length ps)) with (1 + length ps)%nat by reflexivity. rewrite rsum_add. cbn [rsum nth]. rewrite Nat.add_0_r, Rplus_0_l. f_equal.
  apply rsum_ext. intros i _. rewrite Nat.add_succ_r. reflexivity.
Qed.
Lemma sla_value ps B w (D : nat -> nat -> R) m : ps <> [] -> (forall i b, (i < length ps)%nat -> (b < B)%nat -> at_ (norm_of (quantized ps i) (float ps i)) [b] = D i b) ->
  largest (length ps) (fun i => avg B (fun b => w b i)) m ->
  sla_loss ps B w = if Req_EM_T m 0 then Err E_zero_div else Ok (rsum (length ps) (fun i => avg B (fun b => w b i * D i b)) / m).
Proof.
  intros N H [(k & K & Ek) M]. unfold sla_loss.
  assert (T : fold_left Rplus (map (fun ip => vmean B (fun b => w b (fst ip) * at_ (norm_of (fst (snd ip)) (snd (snd ip))) [b])) (combine (seq 0 (length ps)) ps)) 0 = rsum (length ps) (fun i => avg B (fun b => w b i * D i b))).
  { rewrite fold_left_map, Rplus_0_l. rewrite (sum_combine (fun i p => vmean B (fun b => w b i * at_ (norm_of (fst p) (snd p)) [b]))). apply rsum_ext. intros i I. cbn [Nat.add].
    unfold vmean, avg. f_equal. apply rsum_ext. intros b Hb. rewrite <- H by assumption. reflexivity. }
  rewrite T. destruct (map (fun i => vmean B (fun b => w b i)) (seq 0 (length ps))) as [|m0 r] eqn:E.
  { apply (f_equal (@length R)) in E. rewrite map_length, seq_length in E. destruct ps; [contradiction|discriminate]. }
  destruct (rmax_spec r m0) as [I Mx]. rewrite <- E in I, Mx. assert (rmax m0 r = m) as ->; [|reflexivity].
  apply Rle_antisym.
  - apply in_map_iff in I. destruct I as (j & <- & J). apply in_seq in J. apply M. lia.
  - rewrite <- Ek. apply Mx. apply in_map_iff. exists k. split; [reflexivity|]. apply in_seq. lia.
Qed.
Lemma first_last H W C y x b : (0 < H)%nat -> (0 < W)%nat -> (0 < C)%nat ->
  first_axis_distance H [W; C] y x b = INR H / INR C * last_axis_distance H W C y x b.
Proof.
  intros Hh Hw Hc. unfold first_axis_distance, last_axis_distance, avg.
  rewrite (rsum_unflat W [C] (fun t => rsum H (fun c => (at_ y (b :: c :: t) - at_ x (b :: c :: t)) ^ 2))).
  assert (E : rsum W (fun i => rsum (prod [C]) (fun k => rsum H (fun c => (at_ y (b :: c :: i :: unflat [C] k) - at_ x (b :: c :: i :: unflat [C] k)) ^ 2))) =
              rsum H (fun h => rsum W (fun w => rsum C (fun c => (at_ y [b; h; w; c] - at_ x [b; h; w; c]) ^ 2)))).
  { rewrite rsum_swap. transitivity (rsum W (fun w => rsum H (fun h => rsum C (fun c => (at_ y [b; h; w; c] - at_ x [b; h; w; c]) ^ 2)))); [|apply rsum_swap].
    rewrite rsum_swap. apply rsum_ext. intros w _. rewrite (rsum_unflat1 C (fun t => rsum H (fun c => (at_ y (b :: c :: w :: t) - at_ x (b :: c :: w :: t)) ^ 2))). apply rsum_swap. }
  rewrite E. unfold Rdiv. rewrite rsum_scal_r. cbn [prod]. rewrite Nat.mul_1_r, mult_INR. pose proof (lt_0_INR _ Hh). pose proof (lt_0_INR _ Hw). pose proof (lt_0_INR _ Hc). field. lra.
Qed.

(* ---- signs ---- *)
Lemma rsum_nonneg n f : (forall k, (k < n)%nat -> 0 <= f k) -> 0 <= rsum n f.
Proof. induction n as [|n IH]; intro H; cbn [rsum]; [lra|]. pose proof (IH (fun k L => H k (Nat.lt_lt_succ_r _ _ L))). pose proof (H n (Nat.lt_succ_diag_r n)). lra. Qed.
Lemma rsum_zero_iff n f : (forall k, (k < n)%nat -> 0 <= f k) -> (rsum n f = 0 <-> forall k, (k < n)%nat -> f k = 0).
Proof.
  intro H. split; [|apply rsum_zero]. induction n as [|n IH]; intros E k L; [lia|]. cbn [rsum] in E.
  pose proof (rsum_nonneg n f (fun j Lj => H j (Nat.lt_lt_succ_r _ _ Lj))). pose proof (H n (Nat.lt_succ_diag_r n)).
  destruct (Nat.eq_dec k n) as [->|N]; [lra|]. apply IH; [intros; apply H; lia|lra|lia].
Qed.
Lemma avg_nonneg n f : (0 < n)%nat -> (forall k, (k < n)%nat -> 0 <= f k) -> 0 <= avg n f /\ (avg n f = 0 <-> forall k, (k < n)%nat -> f k = 0).
Proof.
  intros N H. pose proof (lt_0_INR _ N) as P. pose proof (rsum_nonneg n f H) as R. unfold avg. split.
  - apply Rmult_le_pos; [exact R|left; apply Rinv_0_lt_compat; exact P].
  - rewrite <- (rsum_zero_iff n f H). split; intro E.
    + apply Rmult_integral in E. destruct E as [E|E]; [exact E|]. exfalso. apply (Rinv_neq_0_compat (INR n)); [lra|exact E].
    + rewrite E. unfold Rdiv. ring.
Qed.
Lemma sq_zero a : a ^ 2 = 0 <-> a = 0.
Proof. split; intro H; [nra|subst; ring]. Qed.
Lemma mse_zero y x : (0 < prod (shp x))%nat -> 0 <= mse y x /\ (mse y x = 0 <-> same y x).
Proof.
  intro P. destruct (avg_nonneg (prod (shp x)) (fun k => (at_ y (unflat (shp x) k) - at_ x (unflat (shp x) k)) ^ 2) P (fun k _ => pow2_ge_0 _)) as [A B].
  split; [exact A|]. unfold mse. rewrite B. split.
  - intros H i I. specialize (H (flat (shp x) i) (flat_lt _ _ I)). cbv beta in H. rewrite unflat_flat in H by exact I. apply (proj1 (sq_zero _)) in H; lra.
  - intros H k K. apply (proj2 (sq_zero _)). rewrite H; [lra|]. apply (flat_unflat (shp x) k K).
Qed.
Lemma power_pos x : (0 < prod (shp x))%nat -> power x <> 0 -> 0 < power x.
Proof. intros P H. destruct (avg_nonneg (prod (shp x)) (fun k => at_ x (unflat (shp x) k) ^ 2) P (fun k _ => pow2_ge_0 _)) as [A _]. unfold power in *. lra. Qed.
Lemma distance_zero f ps i : compared ps -> has_signal f ps -> (i < length ps)%nat -> 0 <= distance f ps i /\ (distance f ps i = 0 <-> same (quantized ps i) (float ps i)).
Proof.
  intros [N F] Sg I. rewrite Forall_forall in F. destruct (F (nth i ps (scalar 0, scalar 0))) as [Es P]; [apply nth_In; exact I|].
  fold (float ps i) in P. destruct (mse_zero (quantized ps i) (float ps i) P) as [A B]. unfold distance. destruct (relative f) eqn:R; [|split; assumption].
  pose proof (power_pos _ P (Sg R i I)) as Pp. pose proof (Rinv_0_lt_compat _ Pp). split; [apply Rmult_le_pos; lra|]. rewrite <- B. split; intro E.
  - apply Rmult_integral in E. destruct E as [E|E]; [exact E|lra].
  - rewrite E. unfold Rdiv. ring.
Qed.
Lemma weighted_zero f B ps w : compared ps -> has_signal f ps -> (0 < B)%nat -> (forall i, (i < length ps)%nat -> 0 <= at_ w [i]) ->
  let l := match f with L_torch => avg (length ps) (fun i => at_ w [i] * distance f ps i) | _ => INR B * rsum (length ps) (fun i => at_ w [i] * distance f ps i) end in
  0 <= l /\ (l = 0 <-> forall i, (i < length ps)%nat -> 0 < at_ w [i] -> same (quantized ps i) (float ps i)).
Proof.
  intros C Sg HB W. cbv zeta. unfold avg. set (T := rsum (length ps) (fun i => at_ w [i] * distance f ps i)).
  assert (Np : 0 < INR (length ps)) by (apply lt_0_INR; destruct C as [N _]; destruct ps; [contradiction|cbn; lia]).
  pose proof (lt_0_INR _ HB) as Bp.
  assert (P : forall k, (k < length ps)%nat -> 0 <= at_ w [k] * distance f ps k).
  { intros k K. apply Rmult_le_pos; [apply W; exact K|apply distance_zero; assumption]. }
  assert (TT : 0 <= T /\ (T = 0 <-> forall i, (i < length ps)%nat -> 0 < at_ w [i] -> same (quantized ps i) (float ps i))).
  { split; [apply rsum_nonneg; exact P|]. unfold T. rewrite (rsum_zero_iff _ _ P). split; intros H i I.
    - intro Wi. specialize (H i I). cbv beta in H. apply Rmult_integral in H. destruct H as [H|H]; [lra|]. apply (distance_zero f ps i C Sg I). exact H.
    - destruct (Rle_lt_or_eq_dec _ _ (W i I)) as [L|L]; [|rewrite <- L; ring]. rewrite (proj2 (proj2 (distance_zero f ps i C Sg I))) by (apply H; assumption). ring. }
  destruct TT as [T0 T1]. clearbody T. 
  assert (A : 0 <= T / INR (length ps) /\ (T / INR (length ps) = 0 <-> T = 0)).
  { pose proof (Rinv_0_lt_compat _ Np). split; [apply Rmult_le_pos; lra|]. split; intro E; [|rewrite E; unfold Rdiv; ring]. apply Rmult_integral in E. destruct E as [E|E]; [exact E|lra]. }
  assert (D : 0 <= INR B * T /\ (INR B * T = 0 <-> T = 0)).
  { split; [apply Rmult_le_pos; lra|]. split; intro E; [|rewrite E; ring]. apply Rmult_integral in E. destruct E as [E|E]; [lra|exact E]. }
  destruct f; (split; [apply A || apply D|]); rewrite <- T1; apply A || apply D.
Qed.
Lemma largest_ex n g : (0 < n)%nat -> exists m, largest n g m.
Proof.
  induction n as [|n IH]; [lia|]. intros _. destruct n as [|n].
  - exists (g 0%nat). split; [exists 0%nat; split; [lia|reflexivity]|]. intros i I. assert (i = 0%nat) as -> by lia. lra.
  - destruct IH as (m & (k & K & E) & M); [lia|]. exists (Rmax m (g (S n))). split.
    + unfold Rmax. destruct (Rle_dec m (g (S n))); [exists (S n); split; [lia|reflexivity]|exists k; split; [lia|exact E]].
    + intros i I. pose proof (Rmax_l m (g (S n))). pose proof (Rmax_r m (g (S n))). destruct (Nat.eq_dec i (S n)) as [->|D]; [lra|]. pose proof (M i ltac:(lia)). lra.
Qed.
Lemma avg_scal n a f : avg n (fun k => a * f k) = a * avg n f.
Proof. unfold avg. rewrite rsum_scal. unfold Rdiv. ring. Qed.
Lemma sla_scaled ps B w a : ps <> [] -> 0 < a -> sla_loss ps B (fun b i => a * w b i) = sla_loss ps B w.
Proof.
  intros N P. assert (Np : (0 < length ps)%nat) by (destruct ps; [contradiction|cbn; lia]).
  destruct (largest_ex (length ps) (fun i => avg B (fun b => w b i)) Np) as (m & M).
  set (D := fun i b => at_ (norm_of (quantized ps i) (float ps i)) [b]).
  rewrite (sla_value ps B w D m N (fun i b _ _ => eq_refl) M).
  assert (M' : largest (length ps) (fun i => avg B (fun b => a * w b i)) (a * m)).
  { destruct M as [(k & K & E) M]. split; [exists k; split; [exact K|rewrite avg_scal, E; reflexivity]|]. intros i I. rewrite avg_scal. apply Rmult_le_compat_l; [lra|apply M; exact I]. }
  rewrite (sla_value ps B (fun b i => a * w b i) D (a * m) N (fun i b _ _ => eq_refl) M').
  destruct (Req_EM_T m 0) as [Z|Z].
  - rewrite Z, Rmult_0_r. destruct (Req_EM_T 0 0); [reflexivity|contradiction].
  - destruct (Req_EM_T (a * m) 0) as [Y|Y]; [apply Rmult_integral in Y; destruct Y; [lra|contradiction]|]. f_equal.
    rewrite (rsum_ext _ _ (fun i => a * avg B (fun b => w b i * D i b))).
    + rewrite rsum_scal. field. lra.
    + intros i _. rewrite <- avg_scal. unfold avg. f_equal. apply rsum_ext. intros. ring.
Qed.
Lemma first_axis_zero C rest y x b : (0 < prod rest)%nat ->
  0 <= first_axis_distance C rest y x b /\ (first_axis_distance C rest y x b = 0 <-> forall c i, (c < C)%nat -> inb rest i -> at_ y (b :: c :: i) = at_ x (b :: c :: i)).
Proof.
  intro P. destruct (avg_nonneg (prod rest) (fun k => rsum C (fun c => (at_ y (b :: c :: unflat rest k) - at_ x (b :: c :: unflat rest k)) ^ 2)) P) as [A B].
  - intros k _. apply rsum_nonneg. intros. apply pow2_ge_0.
  - split; [exact A|]. unfold first_axis_distance. rewrite B. split.
    + intros H c i Hc Hi. specialize (H (flat rest i) (flat_lt _ _ Hi)). rewrite rsum_zero_iff in H by (intros; apply pow2_ge_0).
      specialize (H c Hc). cbv beta in H. rewrite unflat_flat in H by exact Hi. apply (proj1 (sq_zero _)) in H. lra.
    + intros H k K. apply rsum_zero. intros c Hc. apply (proj2 (sq_zero _)). rewrite H; [lra|exact Hc|]. apply (flat_unflat rest k K).
Qed.
Lemma sla_zero ps B w C rest : ps <> [] -> (0 < B)%nat -> (forall i b, (i < length ps)%nat -> (b < B)%nat -> 0 < w b i) ->
  (forall i, (i < length ps)%nat -> shp (float ps i) = B :: C i :: rest i /\ (0 < prod (rest i))%nat) ->
  exists l, sla_loss ps B w = Ok l /\ 0 <= l /\ (l = 0 <-> forall i, (i < length ps)%nat -> same (quantized ps i) (float ps i)).
Proof.
  intros N HB W Sh. assert (Np : (0 < length ps)%nat) by (destruct ps; [contradiction|cbn; lia]).
  destruct (largest_ex (length ps) (fun i => avg B (fun b => w b i)) Np) as (m & M).
  set (D := fun i b => first_axis_distance (C i) (rest i) (quantized ps i) (float ps i) b).
  rewrite (sla_value ps B w D m N) by (exact M || (intros i b I Hb; apply (norm_first B); [apply Sh; exact I|exact Hb])).
  assert (Mp : 0 < m).
  { destruct M as [(k & K & <-) _]. destruct (avg_nonneg B (fun b => w b k) HB) as [A0 A1]; [intros b Hb; left; apply W; assumption|].
    destruct (Rle_lt_or_eq_dec _ _ A0) as [L|L]; [exact L|]. symmetry in L. rewrite A1 in L. pose proof (L 0%nat HB). pose proof (W k 0%nat K HB). lra. }
  destruct (Req_EM_T m 0) as [Z|Z]; [lra|]. eexists. split; [reflexivity|].
  assert (D0 : forall i b, (i < length ps)%nat -> (b < B)%nat -> 0 <= w b i * D i b).
  { intros i b I Hb. apply Rmult_le_pos; [left; apply W; assumption|]. apply first_axis_zero. apply Sh. exact I. }
  assert (T0 : forall i, (i < length ps)%nat -> 0 <= avg B (fun b => w b i * D i b)) by (intros i I; apply avg_nonneg; [exact HB|]; intros b Hb; apply D0; assumption).
  pose proof (rsum_nonneg _ _ T0) as R0. pose proof (Rinv_0_lt_compat _ Mp) as Mi. split; [apply Rmult_le_pos; lra|].
  transitivity (rsum (length ps) (fun i => avg B (fun b => w b i * D i b)) = 0).
  - split; intro E; [|rewrite E; unfold Rdiv; ring]. apply Rmult_integral in E. destruct E as [E|E]; [exact E|lra].
  - rewrite (rsum_zero_iff _ _ T0). split; intros H i I.
    + specialize (H i I). cbv beta in H. rewrite (proj2 (avg_nonneg B (fun b => w b i * D i b) HB (fun b Hb => D0 i b I Hb))) in H.
      intros idx Hi. destruct (Sh i I) as [Si Pi]. rewrite Si in Hi. inversion Hi as [|? b ? i1 Hb H1]; subst. inversion H1 as [|? c ? i2 Hc H2]; subst.
      specialize (H b Hb). cbv beta in H. apply Rmult_integral in H. destruct H as [H|H]; [pose proof (W i b I Hb); lra|].
      apply (first_axis_zero (C i) (rest i) (quantized ps i) (float ps i) b Pi); assumption.
    + destruct (Sh i I) as [Si Pi]. apply (avg_nonneg B (fun b => w b i * D i b) HB (fun b Hb => D0 i b I Hb)). intros b Hb. cbv beta. unfold D.
      rewrite (proj2 (proj2 (first_axis_zero (C i) (rest i) (quantized ps i) (float ps i) b Pi))); [ring|].
      intros c j Hc Hj. apply H; [exact I|]. rewrite Si. repeat constructor; assumption.
Qed.
