(* OutLossProps.v -- C99: the output losses of data generation grow smaller when the outputs of the model spread wider; the
   layers the regularized loss compares with. *)
From Coq Require Import Reals Lra Lia List Arith.
From Verif Require Import Nd.
From Verif Require Import Base OutLossModel OutLossSpec OutLossProofs OutLossMore.
Import ListNotations.
Open Scope R_scope.
Open Scope res_scope.

(* the negative loss is minus the mean spread of the images, summed over the outputs (PyTorch and Keras); the inverse loss of
   PyTorch is the inverse of the mean spread *)
Theorem output_loss_value : forall outs, Forall filled outs ->
  exists ms, Forall2 mean_spread outs ms /\ negative_loss outs = Ok (- total ms) /\
    inverse_loss outs = Ok (total (map (fun m => / (m + / 1000000)) ms)).
Proof. exact losses_spec. Qed.
Print Assumptions output_loss_value.

Lemma total_le : forall a b, Forall2 Rle a b -> total a <= total b /\ ((exists k x y, nth_error a k = Some x /\ nth_error b k = Some y /\ x < y) -> total a < total b).
Proof.
  induction 1 as [|x y a b H F [I1 I2]]; cbn [total].
  - split; [lra|]. intros (k & x & y & E & _). destruct k; discriminate.
  - split; [lra|]. intros (k & u & v & Eu & Ev & Hlt). destruct k as [|k]; cbn in Eu, Ev; [injection Eu as <-; injection Ev as <-; lra|].
    assert (total a < total b) by (apply I2; exists k, u, v; auto). lra.
Qed.
Lemma inv_le m n : 0 <= m -> m <= n -> / (n + eps) <= / (m + eps) /\ (m < n -> / (n + eps) < / (m + eps)).
Proof. intros H L. pose proof eps_pos. split; [apply Rinv_le_contravar; lra|]. intros. apply Rinv_lt_contravar; [apply Rmult_lt_0_compat; lra|lra]. Qed.

(* images whose outputs spread wider have lower losses *)
Theorem wider_spread_lower_loss : forall a b ms ns, Forall filled a -> Forall filled b -> Forall2 mean_spread a ms -> Forall2 mean_spread b ns -> Forall2 Rle ms ns ->
  exists la lb ia ib, negative_loss a = Ok la /\ negative_loss b = Ok lb /\ inverse_loss a = Ok ia /\ inverse_loss b = Ok ib /\ lb <= la /\ ib <= ia /\
    ((exists k x y, nth_error ms k = Some x /\ nth_error ns k = Some y /\ x < y) -> lb < la /\ ib < ia).
Proof.
  intros a b ms ns Fa Fb Ma Mb L.
  assert (forall o ms ms', Forall2 mean_spread o ms -> Forall2 mean_spread o ms' -> ms = ms') as U.
  { induction o as [|x o IH]; intros p q P Q; inversion P; subst; inversion Q; subst; [reflexivity|]. f_equal; [eapply mean_spread_unique; eassumption|apply IH; assumption]. }
  destruct (losses_spec a Fa) as (ms' & Ma' & E1 & E2). rewrite (U _ _ _ Ma' Ma) in *. destruct (losses_spec b Fb) as (ns' & Mb' & E3 & E4). rewrite (U _ _ _ Mb' Mb) in *.
  exists (- total ms), (- total ns), (total (map (fun m => / (m + eps)) ms)), (total (map (fun m => / (m + eps)) ns)).
  do 4 (split; [assumption|]). destruct (total_le ms ns L) as [T1 T2].
  assert (Forall (fun m => 0 <= m) ms) as P by (clear - Ma; induction Ma; constructor; [eapply mean_spread_nonneg; eassumption|assumption]).
  assert (Forall2 Rle (map (fun m => / (m + eps)) ns) (map (fun m => / (m + eps)) ms)) as I.
  { clear - L P. induction L; cbn [map]; [constructor|]. inversion P; subst. constructor; [apply inv_le; assumption|auto]. }
  destruct (total_le _ _ I) as [T3 T4]. split; [lra|]. split; [exact T3|]. intros (k & x & y & Ex & Ey & Hlt).
  assert (total ms < total ns) by (apply T2; exists k, x, y; auto). split; [lra|]. apply T4. exists k, (/ (y + eps)), (/ (x + eps)).
  rewrite !nth_error_map, Ex, Ey. cbn. repeat split; try reflexivity. apply inv_le; try lra. rewrite Forall_forall in P. apply P. eapply nth_error_In; eassumption.
Qed.
Print Assumptions wider_spread_lower_loss.

(* the negative loss is never positive; the inverse loss is positive and at most one over epsilon for each output *)
Theorem output_loss_bounds : forall outs, Forall filled outs ->
  exists l i, negative_loss outs = Ok l /\ inverse_loss outs = Ok i /\ l <= 0 /\ (outs <> [] -> 0 < i) /\ i <= 1000000 * INR (length outs).
Proof.
  intros outs F. destruct (losses_spec outs F) as (ms & M & E1 & E2).
  exists (- total ms), (total (map (fun m => / (m + eps)) ms)). split; [exact E1|]. split; [exact E2|].
  assert (Forall (fun m => 0 <= m) ms) as P by (clear - M; induction M; constructor; [eapply mean_spread_nonneg; eassumption|assumption]).
  pose proof (total_nonneg _ P). split; [lra|].
  assert (length outs = length ms) as L by (clear - M; induction M; cbn; auto). rewrite L. pose proof eps_pos as Pe.
  assert (forall m, 0 <= m -> 0 < / (m + eps) <= 1000000) as B.
  { intros m Hm. split; [apply Rinv_0_lt_compat; lra|]. apply Rle_trans with (/ eps); [apply Rinv_le_contravar; lra|]. unfold eps. rewrite Rinv_inv; lra. }
  split.
  - intros N. destruct ms as [|m ms]; [destruct outs; [contradiction|discriminate]|]. inversion P; subst. cbn [map total].
    assert (0 <= total (map (fun m => / (m + eps)) ms)) by (apply total_nonneg; apply Forall_forall; intros x Hx; apply in_map_iff in Hx; destruct Hx as (y & <- & Hy); left; apply B; rewrite Forall_forall in *; auto).
    pose proof (B m ltac:(assumption)). lra.
  - clear - P B. induction P as [|m ms Hm P IH]; [cbn; lra|]. cbn [map total length]. rewrite S_INR. pose proof (B m Hm). lra.
Qed.
Print Assumptions output_loss_bounds.

(* Keras: the inverse loss has an entry for each image: the sum over the outputs of the inverse of its spread *)
Theorem keras_inverse_value : forall n outs sss, (0 < n)%nat -> outs <> [] -> Forall filled outs -> Forall (fun o => length o = n) outs -> Forall2 spreads outs sss ->
  exists v, inverse_loss_keras outs = Ok v /\ length v = n /\
    forall k, (k < n)%nat -> nth k v 0 = total (map (fun ss => / (nth k ss 0 + / 1000000)) sss).
Proof.
  intros n outs sss Hn N F L S1. destruct S1 as [|o ss outs sss So S1]; [contradiction|]. inversion F as [|? ? [No Ro] F']; subst. inversion L as [|? ? Lo L']; subst.
  unfold inverse_loss_keras. cbn [foldM]. destruct (diffs_spec o Ro) as (ts & E & St). rewrite (spreads_unique _ _ _ St So) in E. rewrite E. cbn [bind].
  replace (map (fun x => 1 / (x + eps)) ss) with (inv_row ss) by (apply map_ext; intros; unfold Rdiv; lra).
  assert (length (inv_row ss) = length o) as Li by (unfold inv_row; rewrite map_length; apply spreads_length; exact So).
  rewrite badd_zero by (intros Q; rewrite Q in Li; cbn in Li; lia). cbn [bind].
  assert (Forall (fun o : output => Forall (fun row => row <> []) o) outs) as R by (apply Forall_forall; intros x Hx; rewrite Forall_forall in F'; apply F'; exact Hx).
  destruct (keras_fold (length o) sss (inv_row ss) outs Li S1 L' R) as (v & Ev & Lv & _ & Nv). exists v. split; [exact Ev|]. split; [exact Lv|]. intros k Hk.
  rewrite Nv. cbn [map total].
  assert (forall l, length l = length o -> nth k (inv_row l) 0 = / (nth k l 0 + eps)) as G.
  { intros l Hl. unfold inv_row. rewrite nth_indep with (d' := / (0 + eps)) by (rewrite map_length; lia). rewrite (map_nth (fun s => / (s + eps))). reflexivity. }
  rewrite G by (apply spreads_length; exact So). f_equal. f_equal. apply map_ext_in. intros l Hl. apply G.
  clear - S1 L' Hl. induction S1 as [|o' ss' os ss2 H _ IH]; [contradiction|]. inversion L'; subst. destruct Hl as [<-|Hl]; [rewrite (spreads_length _ _ H); assumption|auto].
Qed.
Print Assumptions keras_inverse_value.

(* Keras: two outputs that differ in the number of images, neither of them one, have no inverse loss *)
Theorem keras_inverse_lengths_refused : forall o1 o2, filled o1 -> filled o2 -> length o1 <> length o2 -> length o1 <> 1%nat -> length o2 <> 1%nat ->
  inverse_loss_keras [o1; o2] = Err E_value.
Proof.
  intros o1 o2 [N1 R1] [N2 R2] D L1 L2. unfold inverse_loss_keras. cbn [foldM].
  destruct (diffs_spec o1 R1) as (t1 & E1 & S1). destruct (diffs_spec o2 R2) as (t2 & E2 & S2). rewrite E1, E2. cbn [bind].
  pose proof (spreads_length _ _ S1) as M1. pose proof (spreads_length _ _ S2) as M2.
  rewrite badd_zero by (destruct t1; [destruct o1; [contradiction|discriminate]|discriminate]). cbn [bind].
  assert (badd (map (fun x => 1 / (x + eps)) t1) (map (fun x => 1 / (x + eps)) t2) = Err E_value) as ->; [|reflexivity].
  unfold badd. rewrite !map_length. destruct (Nat.eqb_spec (length t1) (length t2)) as [X|X]; [congruence|].
  destruct t1 as [|x [|y t1]]; [destruct o1; [contradiction|discriminate]|cbn in M1; congruence|].
  destruct t2 as [|z [|w t2]]; [destruct o2; [contradiction|discriminate]|cbn in M2; congruence|]. reflexivity.
Qed.
Print Assumptions keras_inverse_lengths_refused.

(* its mean over the images is never below the loss of PyTorch, and equal for batches of one image *)
Theorem keras_inverse_above : forall n outs, (0 < n)%nat -> outs <> [] -> Forall filled outs -> Forall (fun o => length o = n) outs ->
  exists v l, inverse_loss_keras outs = Ok v /\ inverse_loss outs = Ok l /\ l <= average v /\ (n = 1%nat -> v = [l]).
Proof.
  intros n outs Hn N F L.
  assert (exists sss, Forall2 spreads outs sss) as [sss S1].
  { clear - F. induction F as [|o outs [No Ro] F [sss IH]]; [exists []; constructor|]. destruct (diffs_spec o Ro) as (ss & _ & H). exists (ss :: sss). constructor; assumption. }
  destruct (keras_inverse_value n outs sss Hn N F L S1) as (v & Ev & Lv & Nv). destruct (losses_spec outs F) as (ms & M & _ & E2).
  exists v, (total (map (fun m => / (m + eps)) ms)). split; [exact Ev|]. split; [exact E2|].
  assert (ms = map average sss) as ->.
  { clear - M S1. revert sss S1. induction M as [|o m outs ms (ss & A & ->) M IH]; intros sss S1; inversion S1; subst; [reflexivity|]. cbn [map]. f_equal; [f_equal; eapply spreads_unique; eassumption|auto]. }
  assert (Forall (fun ss => length ss = n /\ Forall (fun s => 0 <= s) ss) sss) as G.
  { clear - S1 L. induction S1 as [|o ss outs sss A S1 IH]; constructor; inversion L; subst; auto. split; [apply spreads_length; exact A|eapply spreads_nonneg; exact A]. }
  assert (total v = total (map (fun ss => total (inv_row ss)) sss)) as T.
  { clear - Nv Lv G. assert (v = map (fun k => total (map (fun ss => / (nth k ss 0 + eps)) sss)) (seq 0 n)) as ->.
    { apply nth_ext with (d := 0) (d' := 0); [rewrite map_length, seq_length; exact Lv|]. intros k Hk. rewrite Lv in Hk. rewrite Nv by exact Hk.
      rewrite nth_indep with (d' := total (map (fun ss => / (nth 0%nat ss 0 + eps)) sss)) by (rewrite map_length, seq_length; exact Hk).
      rewrite (map_nth (fun k => total (map (fun ss => / (nth k ss 0 + eps)) sss))), seq_nth by exact Hk. reflexivity. }
    clear Nv Lv. induction G as [|ss sss [Ls _] G IH]; cbn [map total].
    - induction (seq 0 n) as [|k l IHl]; cbn [map total]; [reflexivity|]. rewrite IHl. lra.
    - rewrite (total_map_add (fun k => / (nth k ss 0 + eps)) (fun k => total (map (fun ss => / (nth k ss 0 + eps)) sss))), IH. f_equal.
      rewrite <- (total_nth (inv_row ss)). unfold inv_row at 2. rewrite map_length, Ls. f_equal. apply map_ext_in. intros k Hk. apply in_seq in Hk.
      unfold inv_row. rewrite nth_indep with (l := map _ ss) (d' := / (0 + eps)) by (rewrite map_length; lia). rewrite (map_nth (fun s => / (s + eps))). reflexivity. }
  assert (0 < INR n) as Q by (apply lt_0_INR; exact Hn). split.
  - unfold average at 2. rewrite Lv, T. apply Rmult_le_reg_r with (INR n); [exact Q|]. unfold Rdiv. rewrite (Rmult_assoc _ (/ INR n)), Rinv_l, Rmult_1_r by lra.
    clear - G Q. induction G as [|ss sss [Ls Ps] G IH]; cbn [map total]; [lra|]. rewrite Rmult_plus_distr_r. apply Rplus_le_compat; [|exact IH].
    assert (ss <> []) as N by (intros ->; cbn in Ls; subst n; cbn in Q; lra). pose proof (inverse_mean ss N Ps) as I. apply Rmult_le_compat_r with (r := INR n) in I; [|lra].
    assert (length (inv_row ss) = n) as Li by (unfold inv_row; rewrite map_length; exact Ls).
    unfold average at 2 in I. rewrite Li in I. unfold Rdiv in I. rewrite (Rmult_assoc (total (inv_row ss))), Rinv_l, Rmult_1_r in I by lra. exact I.
  - intros ->. destruct v as [|x [|y v]]; try discriminate. f_equal. cbn [total] in T. rewrite Rplus_0_r in T. rewrite T. rewrite map_map. f_equal. apply map_ext_in. intros ss Hs.
    rewrite Forall_forall in G. destruct (G ss Hs) as [Ls _]. destruct ss as [|s [|? ?]]; try discriminate. unfold average. cbn [inv_row map total length]. cbn. rewrite !Rplus_0_r. f_equal. f_equal. field.
Qed.
Print Assumptions keras_inverse_above.

(* ---- the regularized loss ---- *)
(* what it is for outputs that belong to the layers found: for each output the mean over its images of the distances of the
   largest and of the smallest value from half the product of the lengths of the input and of the row of the kernel *)
Theorem regularized_value : forall Ws outs ins, length Ws = length outs -> length ins = length outs ->
  Forall (fun p => length (fst (snd p)) = length (snd (snd p)) /\ Forall (fun row => row <> [] /\ length (fst p) = length row) (fst (snd p))) (combine Ws (combine outs ins)) ->
  exists tss, regularized_loss Ws (Many outs) ins = Ok (total (map average tss)) /\ Forall2 (fun o ts => length ts = length o) outs tss /\
    forall k W o X ts i row x t, nth_error Ws k = Some W -> nth_error outs k = Some o -> nth_error ins k = Some X -> nth_error tss k = Some ts ->
      nth_error o i = Some row -> nth_error X i = Some x -> nth_error ts i = Some t -> reg_value (1 / 2) (len (map average x)) W row (/ 1000000) t.
Proof.
  intros Ws outs ins L1 L2 F. unfold regularized_loss. cbn [rows_of].
  assert (forall Ws outs ins acc, length Ws = length outs -> length ins = length outs ->
    Forall (fun p => length (fst (snd p)) = length (snd (snd p)) /\ Forall (fun row => row <> [] /\ length (fst p) = length row) (fst (snd p))) (combine Ws (combine outs ins)) ->
    exists tss, foldM (fun acc p => let! t := reg_output (1 / 2) (fst p) (fst (snd p)) (map (fun im => norm (avg_pos im)) (snd (snd p))) in Ok (acc + t))
        (combine Ws (combine outs ins)) acc = Ok (acc + total (map average tss)) /\ Forall2 (fun o ts => length ts = length o) outs tss /\
    forall k W o X ts i row x t, nth_error Ws k = Some W -> nth_error outs k = Some o -> nth_error ins k = Some X -> nth_error tss k = Some ts ->
      nth_error o i = Some row -> nth_error X i = Some x -> nth_error ts i = Some t -> reg_value (1 / 2) (len (map average x)) W row eps t) as G.
  { clear. induction Ws as [|W Ws IH]; intros outs ins acc L1 L2 F; destruct outs as [|o outs]; try discriminate; destruct ins as [|X ins]; try discriminate.
    - exists []. cbn. rewrite Rplus_0_r. split; [reflexivity|]. split; [constructor|]. intros k. intros. destruct k; discriminate.
    - cbn [combine] in F |- *. inversion F as [|? ? [Lo Fo] F']; subst. cbn [fst snd] in Lo, Fo.
      destruct (reg_output_value (1 / 2) W o (map (fun im => norm (avg_pos im)) X) ltac:(rewrite map_length; exact Lo) Fo) as (ts & E & Lt & V).
      cbn [foldM fst snd]. rewrite E. cbn [bind]. destruct (IH outs ins (acc + average ts) ltac:(injection L1; auto) ltac:(injection L2; auto) F') as (tss & E2 & Lss & G).
      exists (ts :: tss). split; [rewrite E2; cbn [map total]; f_equal; lra|]. split; [constructor; assumption|].
      intros k W' o' X' ts' i row x t Hk1 Hk2 Hk3 Hk4 Hr Hx Ht. destruct k as [|k]; [|cbn in Hk1, Hk2, Hk3, Hk4; exact (G k W' o' X' ts' i row x t Hk1 Hk2 Hk3 Hk4 Hr Hx Ht)].
      cbn in Hk1, Hk2, Hk3, Hk4. injection Hk1 as <-. injection Hk2 as <-. injection Hk3 as <-. injection Hk4 as <-.
      assert (forall (A B : Type) (P : A -> B -> Prop) a b, Forall2 P a b -> forall i x y, nth_error a i = Some x -> nth_error b i = Some y -> P x y) as N2.
      { clear. intros A B P a b H. induction H; intros i u v Eu Ev; destruct i; try discriminate; cbn in Eu, Ev; [injection Eu as <-; injection Ev as <-; assumption|eauto]. }
      assert (nth_error (combine o (map (fun im => norm (avg_pos im)) X)) i = Some (row, norm (avg_pos x))) as Hc.
      { clear - Hr Hx. revert o X Hr Hx. induction i as [|i IHi]; intros [|r o] [|z X] Hr Hx; cbn in *; try discriminate; [injection Hr as ->; injection Hx as ->; reflexivity|auto]. }
      pose proof (N2 _ _ _ _ _ V i _ _ Hc Ht) as R. cbn [fst snd] in R. rewrite norm_len in R. exact R. }
  destruct (G Ws outs ins 0 L1 L2 F) as (tss & E & Lss & V). exists tss. rewrite Rplus_0_l in E. split; [exact E|]. split; [exact Lss|exact V].
Qed.
Print Assumptions regularized_value.

(* a model whose output is that of a linear layer without bias, at any number of positions: largest and smallest output stay
   within the product of the lengths, so that the regularization of an image lies between nothing and half the sum of the
   products for these two *)
Theorem regularized_linear_bounded : forall W P ims, (0 < P)%nat -> W <> [] -> Forall (Forall (fun ch => length ch = P)) ims ->
  exists ts, regularized_loss [W] (Single (map (linear_positions W P) ims)) [ims] = Ok (average ts) /\ length ts = length ims /\
    forall k im t, nth_error ims k = Some im -> nth_error ts k = Some t ->
      let x := map average im in
      exists i j a b wa wb, largest (linear W x) i a /\ smallest (linear W x) j b /\ nth_error W i = Some wa /\ nth_error W j = Some wb /\
        Rabs a <= len x * len wa /\ Rabs b <= len x * len wb /\
        / (a - b + / 1000000) <= t <= / (a - b + / 1000000) + 1 / 2 * len x * (len wa + len wb).
Proof.
  intros W P ims HP NW F.
  set (o := map (fun im => linear W (map average im)) ims).
  assert (map avg_pos (map (linear_positions W P) ims) = o) as Eo.
  { rewrite map_map. apply map_ext_in. intros im Him. rewrite Forall_forall in F. rewrite linear_average by (try assumption; apply F; exact Him). reflexivity. }
  destruct (regularized_value [W] [o] [ims] eq_refl eq_refl) as (tss & E & L & V).
  { cbn [combine]. constructor; [|constructor]. cbn [fst snd]. split; [unfold o; apply map_length|]. apply Forall_forall. intros row Hr. apply in_map_iff in Hr. destruct Hr as (im & <- & _).
    split; [destruct W; [contradiction|discriminate]|]. unfold linear. rewrite map_length. reflexivity. }
  destruct tss as [|ts [|? ?]]; [inversion L| |inversion L as [|? ? ? ? _ L']; inversion L']. exists ts. cbn [map total] in E. rewrite Rplus_0_r in E.
  unfold regularized_loss in E |- *. cbn [rows_of] in E |- *. rewrite Eo. split; [exact E|].
  assert (length ts = length ims) as Lt by (inversion L as [|? ? ? ? Q]; subst; rewrite Q; unfold o; apply map_length).
  split; [exact Lt|]. intros k im t Hk Ht. cbv zeta. apply reg_linear. change eps with (/ 1000000).
  apply (V 0%nat W o ims ts k (linear W (map average im)) im t); try reflexivity; try assumption. unfold o. rewrite nth_error_map, Hk. reflexivity.
Qed.
Print Assumptions regularized_linear_bounded.

(* Keras: the output of the last linear layer, its kernel, and the input of the last batch normalization; the full product *)
Theorem keras_regularized_value : forall W o bn, length W <> 1%nat -> length o = length bn -> Forall (fun row => row <> [] /\ length W = length row) o ->
  exists ts, regularized_loss_keras (Some (W, o)) bn = Ok (average ts) /\ length ts = length o /\
    forall k row x t, nth_error o k = Some row -> nth_error bn k = Some x -> nth_error ts k = Some t -> reg_value 1 (len (map average x)) W row (/ 1000000) t.
Proof.
  intros W o bn N L F. destruct (reg_output_value 1 W o (map (fun im => norm (avg_pos im)) bn) ltac:(rewrite map_length; exact L) F) as (ts & E & Lt & V).
  exists ts. unfold regularized_loss_keras. split; [|split; [exact Lt|]].
  - destruct W as [|w [|w' W]]; try (rewrite E; cbn [bind]; rewrite Rplus_0_l; reflexivity). exfalso. apply N. reflexivity.
  - intros k row x t Hr Hx Ht.
    assert (forall (A B : Type) (P : A -> B -> Prop) a b, Forall2 P a b -> forall i x y, nth_error a i = Some x -> nth_error b i = Some y -> P x y) as N2.
    { clear. intros A B P a b H. induction H; intros i u v Eu Ev; destruct i; try discriminate; cbn in Eu, Ev; [injection Eu as <-; injection Ev as <-; assumption|eauto]. }
    assert (nth_error (combine o (map (fun im => norm (avg_pos im)) bn)) k = Some (row, norm (avg_pos x))) as Hc.
    { clear - Hr Hx. revert o bn Hr Hx. induction k as [|i IHi]; intros [|r o] [|z X] Hr Hx; cbn in *; try discriminate; [injection Hr as ->; injection Hx as ->; reflexivity|auto]. }
    pose proof (N2 _ _ _ _ _ V k _ _ Hc Ht) as R. cbn [fst snd] in R. rewrite norm_len in R. exact R.
Qed.
Print Assumptions keras_regularized_value.

(* ---- the layers found ---- *)
Open Scope nat_scope.
(* PyTorch: the search ends on every graph, and what it finds are linear layers met going back from the outputs without
   passing another linear layer; if there is one it finds at least one *)
Theorem linear_search : forall g outs, acyclic g -> (forall x, In x outs -> x < length g) ->
  exists ws, last_linear g outs = Ok ws /\
    (forall m, In m ws -> exists x, back (fun x => f_in (node_at g x)) (fun x => f_lin (node_at g x)) outs x /\ f_lin (node_at g x) = Some m) /\
    (forall x m, back (fun x => f_in (node_at g x)) (fun x => f_lin (node_at g x)) outs x -> f_lin (node_at g x) = Some m -> ws <> []).
Proof.
  intros g outs A H. destruct (walk_total g A (list_sum (map (visits (length g) g) outs)) false outs [] H (le_n _)) as [ws E].
  exists ws. split; [exact E|]. split.
  - intros m Hm. destruct (walk_sound g outs _ _ _ _ _ (fun x Hx => back_out _ _ _ x Hx) E m Hm) as [[]|R]. exact R.
  - intros x m Hb Hm. exact (walk_finds g _ _ _ x m E Hb Hm).
Qed.
Print Assumptions linear_search.

(* a model with one output behind layers with one input each: its last linear layer *)
Theorem chain_last_linear : forall g x m, acyclic g -> x < length g ->
  chain (fun x => f_in (node_at g x)) (fun x => f_lin (node_at g x)) x m -> last_linear g [x] = Ok [m].
Proof.
  intros g x m A H C. destruct (linear_search g [x] A) as (ws & E & _); [intros y [<-|[]]; exact H|]. rewrite E. f_equal.
  exact (walk_chain g x m C _ _ E).
Qed.
Print Assumptions chain_last_linear.

(* outputs that are linear layers, each its own: weights and inputs in the order of the outputs *)
Theorem direct_outputs_in_order : forall g outs ms, acyclic g -> (forall x, In x outs -> x < length g) -> map (fun x => f_lin (node_at g x)) outs = map Some ms -> NoDup ms ->
  last_linear g outs = Ok ms /\ forall weight input m, regularized_of g outs weight input m = regularized_loss (map weight ms) m (map input ms).
Proof.
  intros g outs ms A H E N. destruct (linear_search g outs A H) as (ws & Ew & _).
  assert (ws = ms) as ->.
  { pose proof (walk_direct g (list_sum (map (visits (length g) g) outs)) false outs [] ws) as D.
    assert (map Some ws = map Some ms) as Q.
    { rewrite <- E. apply D; [|exact Ew]. intros x Hx Hn. assert (In (f_lin (node_at g x)) (map Some ms)) as I by (rewrite <- E; apply in_map_iff; exists x; auto).
      rewrite Hn in I. apply in_map_iff in I. destruct I as (y & Hy & _). discriminate. }
    clear - Q. revert ms Q. induction ws as [|a ws IH]; intros [|b ms] Q; try discriminate; [reflexivity|]. cbn in Q. injection Q as -> Q. f_equal. auto. }
  split; [exact Ew|]. intros weight input m. unfold regularized_of. rewrite Ew. cbn [bind]. rewrite keep_first_nodup; auto.
Qed.
Print Assumptions direct_outputs_in_order.

(* Keras: the layer taken is the last in the order of the layers that is linear and feeds no batch normalization; every batch
   normalization is stored with its own input, the layer taken with its own output (the output of the model if it is the
   last layer), and the output of the model is returned *)
Theorem keras_extractor_outputs : forall ls, let r := run_taps ls in
  (forall i t, In (i, t) (fst (fst r)) <-> nth_error ls i = Some KBn /\ t = Some (T_in i)) /\
  (forall i, nth_error ls i = Some (KLin false) -> (forall j, i < j -> nth_error ls j <> Some (KLin false)) ->
     snd (fst r) = Some (if Nat.eqb (S i) (length ls) then T_model else T_out i)) /\
  (~ In (KLin false) ls -> snd (fst r) = None) /\ snd r = Some T_model.
Proof.
  intros ls r. destruct (run_taps_spec ls r eq_refl) as (H1 & H2 & H3). pose proof (keras_last_spec ls) as K. split; [|split; [|split]].
  - intros i t. rewrite H1, in_map_iff. split.
    + intros (j & Ej & Hj). injection Ej as <- <-. apply bn_at_in in Hj. rewrite Nat.sub_0_r in Hj. split; [apply Hj|reflexivity].
    + intros [Hi ->]. exists i. split; [reflexivity|]. apply bn_at_in. rewrite Nat.sub_0_r. split; [lia|exact Hi].
  - intros i Hi Hl. rewrite H2. destruct (keras_last ls) as [j|].
    + destruct K as [K1 K2]. assert (i = j) as -> by (destruct (Nat.lt_trichotomy i j) as [Q|[Q|Q]]; [exfalso; exact (Hl j Q K1)|exact Q|exfalso; exact (K2 i Q Hi)]). reflexivity.
    + exfalso. apply K. eapply nth_error_In; eassumption.
  - intros N. rewrite H2. destruct (keras_last ls) as [j|]; [|reflexivity]. exfalso. apply N. destruct K as [K _]. eapply nth_error_In; eassumption.
  - exact H3.
Qed.
Print Assumptions keras_extractor_outputs.

(* FINDING (pytorch output_loss_functions.py L108): weights, outputs and inputs are zipped; outputs beyond the linear layers found
   do not count.  A model without a linear layer at its end gets the loss zero, without a word. *)
Theorem no_linear_no_loss : forall g outs weight input m, acyclic g -> (forall x, In x outs -> x < length g) -> (forall x, f_lin (node_at g x) = None) ->
  regularized_of g outs weight input m = Ok 0%R.
Proof.
  intros g outs weight input m A H N. destruct (linear_search g outs A H) as (ws & E & P & _). unfold regularized_of. rewrite E. cbn [bind].
  destruct ws as [|w ws]; [reflexivity|]. destruct (P w (or_introl eq_refl)) as (x & _ & Hx). rewrite N in Hx. discriminate.
Qed.
Print Assumptions no_linear_no_loss.

(* input, fc0, relu of fc0, fc1 *)
Definition g_two : list fx := [Fx [] None; Fx [0] (Some 0); Fx [1] None; Fx [0] (Some 1)].
Lemma g_two_acyclic : acyclic g_two.
Proof. intros x y H. unfold g_two in *. cbn in H. do 4 (destruct x as [|x]; [cbn; intuition lia|]). lia. Qed.
(* FINDING (pytorch model_info_exctractors.py L161-176): there is one flag and one list for all outputs.  With the outputs
   (fc1, relu(fc0)) the search ends with fc1; with the outputs (relu(fc0), fc1) it finds fc1 before fc0, so that the output
   relu(fc0) is compared with the kernel and the input of fc1. *)
Theorem shared_search_refuted : exists g, acyclic g /\ last_linear g [3; 2] = Ok [1] /\ last_linear g [2; 3] = Ok [1; 0].
Proof. exists g_two. split; [exact g_two_acyclic|]. split; reflexivity. Qed.
Print Assumptions shared_search_refuted.

(* FINDING (pytorch model_info_exctractors.py L169-171): weights are kept in a list, inputs in a dictionary by name.  A layer that
   two outputs lead to is found twice: two kernels, one input, and the second output does not count. *)
Theorem doubled_layer_refuted : exists g outs, acyclic g /\ last_linear g outs = Ok [0; 0] /\
  forall weight input o1 o2 o3, regularized_of g outs weight input (Many [o1; o2]) = regularized_of g outs weight input (Many [o1; o3]).
Proof.
  exists [Fx [] None; Fx [0] (Some 0); Fx [1] None; Fx [1] None], [2; 3]. split.
  { intros x y H. cbn in H. do 4 (destruct x as [|x]; [cbn; intuition lia|]). lia. }
  split; reflexivity.
Qed.
Print Assumptions doubled_layer_refuted.

Open Scope R_scope.
(* FINDING (keras output_loss_functions.py L105): without a mean over the images an image with a constant output dominates the
   inverse loss of Keras whatever the other images do; in PyTorch it does not. *)
Theorem keras_inverse_refuted : forall s, 0 < s -> exists v l, inverse_loss_keras [[[0; 0]; [0; s]]] = Ok v /\ inverse_loss [[[0; 0]; [0; s]]] = Ok l /\
  total v > 1000000 /\ l < 2 / s.
Proof.
  intros s Hs.
  assert (spreads [[0; 0]; [0; s]] [0; s]) as S1.
  { constructor; [|constructor; [|constructor]]; [exists 0%nat, 0%nat, 0, 0|exists 1%nat, 0%nat, s, 0]; (split; [|split; [|lra]]; (split; [reflexivity|]; intros x Hx; cbn in Hx; intuition lra)). }
  assert (filled [[0; 0]; [0; s]]) as F by (split; [discriminate|repeat constructor; discriminate]).
  destruct (keras_inverse_value 2 [[[0; 0]; [0; s]]] [[0; s]] ltac:(lia) ltac:(discriminate)) as (v & Ev & Lv & Nv); [constructor; [exact F|constructor]|constructor; [reflexivity|constructor]|constructor; [exact S1|constructor]|].
  destruct (losses_spec [[[0; 0]; [0; s]]]) as (ms & M & _ & E); [constructor; [exact F|constructor]|].
  exists v, (total (map (fun m => / (m + eps)) ms)). split; [exact Ev|]. split; [exact E|]. split.
  - destruct v as [|a [|b [|? ?]]]; try discriminate. pose proof (Nv 0%nat ltac:(lia)) as N0. pose proof (Nv 1%nat ltac:(lia)) as N1. cbn in N0, N1. cbn [total]. rewrite N0, N1.
    rewrite !Rplus_0_r, Rplus_0_l, Rinv_inv. assert (0 < / (s + / 1000000)) by (apply Rinv_0_lt_compat; lra). lra.
  - inversion M as [|? m ? ms' (ss & A & Em) M']; subst. inversion M'; subst. rewrite (spreads_unique _ _ _ A S1). cbn [map total]. unfold average. cbn [total length INR]. rewrite Rplus_0_r.
    replace (2 / s) with (/ ((0 + (s + 0)) / (1 + 1))) by (field; lra). pose proof eps_pos. apply Rinv_lt_contravar; [apply Rmult_lt_0_compat; lra|lra].
Qed.
Print Assumptions keras_inverse_refuted.

(* FINDING (keras output_loss_functions.py L53-55): the length that is compared with is that of the input of the last batch
   normalization, not of the input of the linear layer: two such inputs give the same outputs of the same layer different losses. *)
Theorem keras_other_length_refuted : exists W o bn bn' l l', regularized_loss_keras (Some (W, o)) bn = Ok l /\ regularized_loss_keras (Some (W, o)) bn' = Ok l' /\ l <> l'.
Proof.
  assert (forall n, 0 <= n -> regularized_loss_keras (Some ([[1]; [-1]], [[1; -1]])) [[[n]]] = Ok (2 * Rabs (1 - n) + / (2 + eps))) as G.
  { intros n Hn. destruct (keras_regularized_value [[1]; [-1]] [[1; -1]] [[[n]]]) as (ts & E & L & V); [discriminate|reflexivity|repeat constructor; discriminate|].
    rewrite E. f_equal. destruct ts as [|t [|? ?]]; try discriminate.
    specialize (V 0%nat [1; -1] [[n]] t eq_refl eq_refl eq_refl). destruct V as (i & j & a & b & wa & wb & [La La'] & [Lb Lb'] & Wa & Wb & ->).
    assert (i = 0%nat /\ a = 1) as [-> ->].
    { destruct i as [|[|i]]; cbn in La; [injection La as <-; auto| |destruct i; discriminate]. injection La as <-. exfalso. specialize (La' 1 ltac:(left; reflexivity)). lra. }
    assert (j = 1%nat /\ b = -1) as [-> ->].
    { destruct j as [|[|j]]; cbn in Lb; [|injection Lb as <-; auto|destruct j; discriminate]. injection Lb as <-. exfalso. specialize (Lb' (-1) ltac:(right; left; reflexivity)). lra. }
    cbn in Wa, Wb. injection Wa as <-. injection Wb as <-.
    assert (forall z, len [z] = Rabs z) as Ln by (intros z; unfold len; cbn [inner]; rewrite Rplus_0_r; apply sqrt_Rsqr_abs).
    unfold average. cbn [total length INR map]. unfold average. cbn [total length INR]. rewrite !Ln.
    replace ((n + 0) / 1) with n by field. rewrite (Rabs_pos_eq n Hn). replace (Rabs (-1)) with 1 by (rewrite Rabs_left; lra). rewrite Rabs_R1. rewrite !Rmult_1_l, !Rmult_1_r. change (/ 1000000) with eps.
    replace (1 - -1) with 2 by lra. field. pose proof eps_pos. lra. }
  exists [[1]; [-1]], [[1; -1]], [[[0]]], [[[1]]], (2 * Rabs (1 - 0) + / (2 + eps)), (2 * Rabs (1 - 1) + / (2 + eps)).
  split; [apply G; lra|]. split; [apply G; lra|]. replace (1 - 0) with 1 by lra. replace (1 - 1) with 0 by lra. rewrite Rabs_R1, Rabs_R0. intros Q. lra.
Qed.
Print Assumptions keras_other_length_refuted.

(* FINDING (keras output_loss_functions.py L45-52): the regularized loss, the default, is refused exactly for models without a linear
   layer that feeds no batch normalization, and fails for layers with a single output. *)
Theorem keras_regularized_refused : forall ls kernel out bn,
  regularized_loss_keras (option_map (fun i => (kernel i, out i)) (keras_last ls)) bn = Err E_critical <-> ~ In (KLin false) ls.
Proof.
  intros ls kernel out bn. pose proof (keras_last_spec ls) as K. destruct (keras_last ls) as [i|]; cbn [option_map regularized_loss_keras].
  - split; [|intros N; exfalso; apply N; eapply nth_error_In; apply K].
    assert (forall share W o ns, reg_output share W o ns <> Err E_critical) as G.
    { intros share W o ns. unfold reg_output. destruct (Nat.eqb (length o) (length ns)); [|discriminate].
      assert (forall l, mapM (fun p => reg_image share W (fst p) (snd p)) l <> Err E_critical) as M.
      { induction l as [|[row n] l IH]; [discriminate|]. cbn [mapM fst snd].
        assert (reg_image share W row n <> Err E_critical) as Q.
        { unfold reg_image, tmax, tmin, extreme. destruct row as [|x r]; cbn [bind]; [discriminate|].
          destruct (nth_error W _); [|discriminate]. destruct (nth_error W _); discriminate. }
        destruct (reg_image share W row n) as [v|e]; cbn [bind]; [|intros X; apply Q; congruence]. destruct (mapM _ l); cbn [bind]; [discriminate|intros X; apply IH; congruence]. }
      specialize (M (combine o ns)). destruct (mapM _ (combine o ns)); cbn [bind]; [discriminate|intros X; apply M; congruence]. }
    intros E. exfalso. destruct (kernel i) as [|w [|w' W]]; try discriminate.
    + specialize (G 1 [] (out i) (map (fun im => norm (avg_pos im)) bn)). destruct (reg_output 1 [] (out i) _); cbn [bind] in E; [discriminate|]. apply G. exact E.
    + specialize (G 1 (w :: w' :: W) (out i) (map (fun im => norm (avg_pos im)) bn)). destruct (reg_output 1 (w :: w' :: W) (out i) _); cbn [bind] in E; [discriminate|]. apply G. exact E.
  - split; [intros _; exact K|reflexivity].
Qed.
Print Assumptions keras_regularized_refused.

(* the hypotheses are met: two outputs of two images; a 1x1 convolution on images with two positions; a model with a linear layer
   in front of an activation *)
Example filled_ex : Forall filled [[[1; 2; 4]; [0; 3]]; [[5]; [6]]].
Proof. repeat constructor; discriminate. Qed.
Example positions_ex : Forall (Forall (fun ch => length ch = 2%nat)) [[[1; 2]; [3; 4]; [0; 1]]].
Proof. repeat constructor. Qed.
Open Scope nat_scope.
Example chain_ex : acyclic g_two /\ chain (fun x => f_in (node_at g_two x)) (fun x => f_lin (node_at g_two x)) 2 0.
Proof. split; [exact g_two_acyclic|]. apply chain_step with (y := 1); [reflexivity|reflexivity|]. apply chain_end. reflexivity. Qed.
Example direct_ex : map (fun x => f_lin (node_at g_two x)) [3; 1] = map Some [1; 0]. Proof. reflexivity. Qed.
Example taps_ex : run_taps [KOther; KLin true; KBn; KLin false; KOther] = ([(2, Some (T_in 2))], Some (T_out 3), Some T_model).
Proof. reflexivity. Qed.
