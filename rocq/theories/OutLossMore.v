(* OutLossMore.v -- proofs about the regularized output loss and the search for the last linear layers. *)
From Coq Require Import Reals Lra Lia List Arith.
From Verif Require Import Nd.
From Verif Require Import Base OutLossModel OutLossSpec OutLossProofs.
Import ListNotations.
Open Scope R_scope.
Open Scope res_scope.

Lemma inner_sq v : inner v v = total (map (fun x => x ^ 2) v).
Proof. induction v as [|x v IH]; [reflexivity|]. cbn [inner map total]. rewrite IH. cbn [pow]. lra. Qed.
Lemma norm_len v : norm v = len v.
Proof. unfold norm, len. rewrite sum_total, inner_sq. reflexivity. Qed.
Lemma inner_nonneg v : 0 <= inner v v.
Proof. induction v as [|x v IH]; cbn [inner]; [lra|]. pose proof (Rle_0_sqr x) as Q. unfold Rsqr in Q. lra. Qed.
Lemma len_nonneg v : 0 <= len v. Proof. apply sqrt_pos. Qed.
Lemma len_sq v : len v * len v = inner v v.
Proof. unfold len. apply sqrt_sqrt, inner_nonneg. Qed.
Lemma inner_bound : forall a b, Rabs (inner a b) <= len a * len b.
Proof.
  intros a b. apply Rsqr_incr_0; [|apply Rabs_pos|apply Rmult_le_pos; apply len_nonneg]. rewrite <- Rsqr_abs.
  replace (Rsqr (len a * len b)) with ((len a * len a) * (len b * len b)) by (unfold Rsqr; ring). rewrite !len_sq. unfold Rsqr.
  revert b. induction a as [|x a IH]; intros b; [cbn [inner]; pose proof (inner_nonneg b); lra|].
  destruct b as [|y b]; [cbn [inner]; lra|]. cbn [inner]. specialize (IH b).
  set (d := inner a b) in *. pose proof (inner_nonneg a) as A. pose proof (inner_nonneg b) as B. rewrite <- (len_sq a), <- (len_sq b) in *.
  set (p := len a) in *. set (q := len b) in *. pose proof (len_nonneg a : 0 <= p) as P. pose proof (len_nonneg b : 0 <= q) as Q.
  assert (Rabs d <= p * q) as D.
  { apply Rsqr_incr_0; [|apply Rabs_pos|apply Rmult_le_pos; assumption]. rewrite <- Rsqr_abs. unfold Rsqr. lra. }
  assert (x * y * d <= Rabs (x * y) * (p * q)) as M.
  { eapply Rle_trans; [apply Rle_abs|]. rewrite Rabs_mult. apply Rmult_le_compat_l; [apply Rabs_pos|exact D]. }
  rewrite Rabs_mult in M. set (u := Rabs x) in *. set (v := Rabs y) in *.
  assert (x * x = u * u) as Eu by (unfold u; rewrite <- Rabs_mult; symmetry; apply Rabs_pos_eq; pose proof (Rle_0_sqr x) as Z; exact Z).
  assert (y * y = v * v) as Ev by (unfold v; rewrite <- Rabs_mult; symmetry; apply Rabs_pos_eq; pose proof (Rle_0_sqr y) as Z; exact Z).
  pose proof (Rle_0_sqr (u * q - v * p)) as Z. unfold Rsqr in Z.
  replace ((x * y + d) * (x * y + d)) with ((x * x) * (y * y) + 2 * (x * y * d) + d * d) by ring. rewrite Eu, Ev. lra.
Qed.

(* ---- the formula ---- *)
Lemma reg_image_value share W row n : row <> [] -> length W = length row ->
  exists t, reg_image share W row n = Ok t /\ reg_value share n W row eps t.
Proof.
  intros N L. destruct (tmax_spec row N) as (a & i & E1 & La). destruct (tmin_spec row N) as (b & j & E2 & Lb).
  assert (forall k v, nth_error row k = Some v -> exists w, nth_error W k = Some w) as G.
  { intros k v H. destruct (nth_error W k) as [w|] eqn:E; [eauto|]. apply nth_error_None in E. assert (k < length row)%nat by (apply nth_error_Some; rewrite H; discriminate). lia. }
  destruct (G i a (proj1 La)) as [wa Wa]. destruct (G j b (proj1 Lb)) as [wb Wb].
  unfold reg_image. rewrite E1. cbn [bind]. rewrite E2. cbn [bind fst snd]. rewrite Wa, Wb.
  exists (Rabs (Rabs b - share * n * norm wb) + Rabs (Rabs a - share * n * norm wa) + 1 / (a - b + eps)). split; [reflexivity|].
  exists i, j, a, b, wa, wb. rewrite !norm_len. repeat split; try (apply La || apply Lb || assumption). unfold Rdiv. rewrite !Rmult_assoc. lra.
Qed.
Lemma reg_images share W : forall o ns, length o = length ns -> Forall (fun row => row <> [] /\ length W = length row) o ->
  exists ts, mapM (fun p => reg_image share W (fst p) (snd p)) (combine o ns) = Ok ts /\ length ts = length o /\
    Forall2 (fun p t => reg_value share (snd p) W (fst p) eps t) (combine o ns) ts.
Proof.
  induction o as [|row o IH]; intros ns L F; destruct ns as [|n ns]; try discriminate; [exists []; repeat split; constructor|].
  inversion F as [|? ? [N Lw] F']; subst. destruct (reg_image_value share W row n N Lw) as (t & E & V).
  destruct (IH ns ltac:(injection L; auto) F') as (ts & E2 & L2 & V2). exists (t :: ts). cbn [combine mapM fst snd]. rewrite E. cbn [bind]. rewrite E2. cbn [bind].
  repeat split; [cbn [length]; rewrite L2; reflexivity|constructor; assumption].
Qed.
Lemma reg_output_value share W o ns : length o = length ns -> Forall (fun row => row <> [] /\ length W = length row) o ->
  exists ts, reg_output share W o ns = Ok (average ts) /\ length ts = length o /\ Forall2 (fun p t => reg_value share (snd p) W (fst p) eps t) (combine o ns) ts.
Proof.
  intros L F. destruct (reg_images share W o ns L F) as (ts & E & L2 & V). exists ts. unfold reg_output. rewrite <- L, Nat.eqb_refl, E. cbn [bind].
  rewrite mean_average. repeat split; assumption.
Qed.

(* ---- averages over the positions of a linear layer ---- *)
Lemma total_map_add {A} (f g : A -> R) l : total (map (fun x => f x + g x) l) = total (map f l) + total (map g l).
Proof. induction l as [|x l IH]; cbn [map total]; [lra|]. rewrite IH. lra. Qed.
Lemma total_map_scale {A} c (f : A -> R) l : total (map (fun x => c * f x) l) = c * total (map f l).
Proof. induction l as [|x l IH]; cbn [map total]; [lra|]. rewrite IH. lra. Qed.
Lemma total_nth ch : total (map (fun p => nth p ch 0) (seq 0 (length ch))) = total ch.
Proof.
  induction ch as [|x ch IH]; [reflexivity|]. cbn [length seq map nth total]. rewrite <- seq_shift, map_map. rewrite IH. reflexivity.
Qed.
Lemma average_inner P w : forall im, Forall (fun ch => length ch = P) im -> (0 < P)%nat ->
  average (map (fun p => inner w (column im p)) (seq 0 P)) = inner w (map average im).
Proof.
  intros im F HP. unfold average at 1. rewrite map_length, seq_length. assert (0 < INR P) as Q by (apply lt_0_INR; exact HP).
  apply Rmult_eq_reg_r with (INR P); [|lra]. unfold Rdiv. rewrite Rmult_assoc, Rinv_l, Rmult_1_r by lra.
  revert im F. induction w as [|x w IH]; intros im F.
  - cbn [inner]. rewrite Rmult_0_l. clear. induction (seq 0 P) as [|p l IHl]; cbn [map total]; [reflexivity|]. rewrite IHl. lra.
  - destruct im as [|ch im].
    + cbn [column map inner]. rewrite Rmult_0_l. clear. induction (seq 0 P) as [|p l IHl]; cbn [map total]; [reflexivity|]. rewrite IHl. lra.
    + inversion F as [|? ? L F']; subst. cbn [column map inner]. change (map (fun ch => nth ?p ch 0) im) with (column im p).
      rewrite (total_map_add (fun p => x * nth p ch 0) (fun p => inner w (column im p))), total_map_scale, total_nth, IH by assumption.
      unfold average at 2. rewrite Rmult_plus_distr_r. f_equal. field. lra.
Qed.
Lemma linear_average W P im : Forall (fun ch => length ch = P) im -> (0 < P)%nat -> avg_pos (linear_positions W P im) = linear W (avg_pos im).
Proof.
  intros F HP. unfold avg_pos, linear_positions, linear. rewrite map_map. apply map_ext. intros w. rewrite mean_average, average_inner by assumption. reflexivity.
Qed.
Lemma linear_row W x i v : nth_error (linear W x) i = Some v -> exists w, nth_error W i = Some w /\ v = inner w x.
Proof. unfold linear. rewrite nth_error_map. destruct (nth_error W i) as [w|]; cbn; [|discriminate]. intros [= <-]. eauto. Qed.
(* half the bound is never further away than half the bound *)
Lemma half_distance v b : 0 <= v <= b -> Rabs (v - 1 / 2 * b) <= 1 / 2 * b.
Proof. intros H. apply Rabs_le. lra. Qed.
Lemma reg_linear W x t : reg_value (1 / 2) (len x) W (linear W x) eps t ->
  exists i j a b wa wb, largest (linear W x) i a /\ smallest (linear W x) j b /\ nth_error W i = Some wa /\ nth_error W j = Some wb /\
    Rabs a <= len x * len wa /\ Rabs b <= len x * len wb /\ / (a - b + eps) <= t <= / (a - b + eps) + 1 / 2 * len x * (len wa + len wb).
Proof.
  intros (i & j & a & b & wa & wb & La & Lb & Wa & Wb & ->). exists i, j, a, b, wa, wb.
  destruct (linear_row _ _ _ _ (proj1 La)) as (w & E & Va). rewrite Wa in E. injection E as <-.
  destruct (linear_row _ _ _ _ (proj1 Lb)) as (w & E & Vb). rewrite Wb in E. injection E as <-.
  assert (Rabs a <= len x * len wa) as Ba by (rewrite Va, Rmult_comm; apply inner_bound).
  assert (Rabs b <= len x * len wb) as Bb by (rewrite Vb, Rmult_comm; apply inner_bound).
  pose proof (Rabs_pos a). pose proof (Rabs_pos b).
  pose proof (half_distance (Rabs a) (len x * len wa) ltac:(lra)). pose proof (half_distance (Rabs b) (len x * len wb) ltac:(lra)).
  pose proof (Rabs_pos (Rabs b - 1 / 2 * (len x * len wb))). pose proof (Rabs_pos (Rabs a - 1 / 2 * (len x * len wa))).
  do 6 (split; [assumption|]). split; lra.
Qed.

(* ---- the search ---- *)
Open Scope nat_scope.
Definition acyclic (g : list fx) : Prop := forall x y, x < length g -> In y (f_in (node_at g x)) -> y < x.
Lemma list_sum_ext f h (l : list nat) : (forall y, In y l -> f y = h y) -> list_sum (map f l) = list_sum (map h l).
Proof. intros H. f_equal. apply map_ext_in. exact H. Qed.
Lemma visits_stable g (A : acyclic g) : forall k x, x < k -> x < length g -> visits k g x = visits (S k) g x.
Proof.
  induction k as [|k IH]; intros x Hx Hg; [lia|]. cbn [visits]. f_equal. apply list_sum_ext. intros y Hy. pose proof (A x y Hg Hy).
  change (visits k g y = visits (S k) g y). apply IH; lia.
Qed.
Lemma list_sum_app a b : list_sum (a ++ b) = list_sum a + list_sum b.
Proof. unfold list_sum. induction a as [|x a IH]; cbn [app fold_right]; [reflexivity|]. rewrite IH. lia. Qed.
Lemma visits_step g x : acyclic g -> x < length g -> visits (length g) g x = S (list_sum (map (visits (length g) g) (f_in (node_at g x)))).
Proof. intros A H. rewrite visits_stable by assumption. reflexivity. Qed.
Lemma visits_pos k g x : 0 < visits k g x. Proof. destruct k; cbn; lia. Qed.

Lemma walk_total g (A : acyclic g) : forall fuel found q acc, (forall x, In x q -> x < length g) -> list_sum (map (visits (length g) g) q) <= fuel ->
  exists ws, walk fuel g found q acc = Ok ws.
Proof.
  induction fuel as [|k IH]; intros found q acc Hq Hf.
  - destruct q as [|x q]; [exists acc; reflexivity|]. cbn [map] in Hf. change (visits (length g) g x + list_sum (map (visits (length g) g) q) <= 0) in Hf.
    pose proof (visits_pos (length g) g x). lia.
  - destruct q as [|x q]; [exists acc; reflexivity|]. cbn [walk]. change (visits (length g) g x + list_sum (map (visits (length g) g) q) <= S k) in Hf.
    pose proof (visits_step g x A (Hq x (or_introl eq_refl))) as Hs.
    assert (forall y, In y q -> y < length g) as Hq' by (intros; apply Hq; right; assumption).
    destruct (f_lin (node_at g x)); [|destruct found]; apply IH; try lia; try assumption.
    + intros y Hy. apply in_app_or in Hy. destruct Hy as [Hy|Hy]; [auto|]. pose proof (A x y (Hq x (or_introl eq_refl)) Hy). pose proof (Hq x (or_introl eq_refl)). lia.
    + rewrite map_app, list_sum_app. lia.
Qed.
Notation ins g := (fun x => f_in (node_at g x)).
Notation lin g := (fun x => f_lin (node_at g x)).
Lemma walk_sound g outs : forall fuel found q acc ws, (forall x, In x q -> back (ins g) (lin g) outs x) -> walk fuel g found q acc = Ok ws ->
  forall m, In m ws -> In m acc \/ exists x, back (ins g) (lin g) outs x /\ f_lin (node_at g x) = Some m.
Proof.
  induction fuel as [|k IH]; intros found q acc ws Hq E m Hm; destruct q as [|x q]; cbn [walk] in E; try discriminate; try (injection E as <-; left; exact Hm).
  assert (forall y, In y q -> back (ins g) (lin g) outs y) as Hq' by (intros; apply Hq; right; assumption).
  destruct (f_lin (node_at g x)) as [n|] eqn:El; [|destruct found].
  - destruct (IH _ _ _ _ Hq' E m Hm) as [H|H]; [|right; exact H]. apply in_app_or in H. destruct H as [H|[<-|[]]]; [left; exact H|].
    right. exists x. split; [apply Hq; left; reflexivity|exact El].
  - exact (IH _ _ _ _ Hq' E m Hm).
  - apply (IH _ _ _ _) with (2 := E); [|exact Hm]. intros y Hy. apply in_app_or in Hy. destruct Hy as [Hy|Hy]; [auto|].
    eapply back_in with (x := x); [apply Hq; left; reflexivity|exact El|exact Hy].
Qed.
Lemma walk_keeps g : forall fuel found q acc ws, walk fuel g found q acc = Ok ws -> exists more, ws = acc ++ more.
Proof.
  induction fuel as [|k IH]; intros found q acc ws E; destruct q as [|x q]; cbn [walk] in E; try discriminate; try (injection E as <-; exists []; rewrite app_nil_r; reflexivity).
  destruct (f_lin (node_at g x)) as [n|]; [|destruct found]; destruct (IH _ _ _ _ E) as [more ->]; [|exists more; reflexivity|exists more; reflexivity].
  exists (n :: more). rewrite <- app_assoc. reflexivity.
Qed.
(* as long as nothing is found, everything behind the list is still to come *)
Lemma walk_finds g : forall fuel q ws x m, walk fuel g false q [] = Ok ws -> back (ins g) (lin g) q x -> f_lin (node_at g x) = Some m -> ws <> [].
Proof.
  induction fuel as [|k IH]; intros q ws x m E Hb Hm; destruct q as [|y q]; cbn [walk] in E; try discriminate.
  - exfalso. clear - Hb. induction Hb as [x []|]; assumption.
  - exfalso. clear - Hb. induction Hb as [x []|]; assumption.
  - destruct (f_lin (node_at g y)) as [n|] eqn:El.
    + destruct (walk_keeps _ _ _ _ _ _ E) as [more ->]. discriminate.
    + refine (IH _ _ x m E _ Hm). clear - Hb El Hm. 
      assert (forall z, back (ins g) (lin g) (y :: q) z -> z = y \/ back (ins g) (lin g) (q ++ f_in (node_at g y)) z) as G.
      { induction 1 as [z [<-|H]|z w H IHz Hl Hi]; [left; reflexivity|right; apply back_out, in_or_app; left; exact H|].
        destruct IHz as [->|IHz]; right; [apply back_out, in_or_app; right; exact Hi|eapply back_in; eassumption]. }
      destruct (G x Hb) as [->|H]; [congruence|exact H].
Qed.
Lemma walk_direct g : forall fuel found q acc ws, (forall x, In x q -> f_lin (node_at g x) <> None) -> walk fuel g found q acc = Ok ws ->
  map Some ws = map Some acc ++ map (lin g) q.
Proof.
  induction fuel as [|k IH]; intros found q acc ws Hq E; destruct q as [|x q]; cbn [walk] in E; try discriminate; try (injection E as <-; cbn [map]; rewrite app_nil_r; reflexivity).
  destruct (f_lin (node_at g x)) as [n|] eqn:El; [|exfalso; apply (Hq x); [left; reflexivity|exact El]].
  assert (forall y, In y q -> f_lin (node_at g y) <> None) as Hq' by (intros y Hy; apply Hq; right; exact Hy).
  rewrite (IH _ _ _ _ Hq' E), map_app, <- app_assoc. cbn [map app]. rewrite El. reflexivity.
Qed.
Lemma walk_chain g : forall x m, chain (ins g) (lin g) x m -> forall fuel ws, walk fuel g false [x] [] = Ok ws -> ws = [m].
Proof.
  induction 1 as [x m Hl|x y m Hl Hi _ IH]; intros fuel ws E; destruct fuel as [|k]; cbn [walk] in E; try discriminate.
  - rewrite Hl in E. destruct k; cbn [walk app] in E; injection E as <-; reflexivity.
  - rewrite Hl, Hi in E. cbn [app] in E. exact (IH _ _ E).
Qed.
Lemma keep_first_nodup : forall l seen, NoDup l -> (forall x, In x l -> ~ In x seen) -> keep_first seen l = l.
Proof.
  induction l as [|x l IH]; intros seen N H; [reflexivity|]. inversion N; subst. cbn [keep_first].
  destruct (existsb (Nat.eqb x) seen) eqn:E; [apply existsb_exists in E; destruct E as (y & Hy & Ey); apply Nat.eqb_eq in Ey; subst y; exfalso; exact (H x (or_introl eq_refl) Hy)|].
  f_equal. apply IH; [assumption|]. intros y Hy [<-|Hs]; [contradiction|]. exact (H y (or_intror Hy) Hs).
Qed.

(* ---- Keras ---- *)
Lemma last_index_spec {A} (p : A -> bool) : forall l k cur,
  match last_index p l k cur with
  | Some i => (k <= i /\ (exists a, nth_error l (i - k) = Some a /\ p a = true) /\ (forall j a, i - k < j -> nth_error l j = Some a -> p a = false)) \/
              (cur = Some i /\ Forall (fun a => p a = false) l)
  | None => cur = None /\ Forall (fun a => p a = false) l
  end.
Proof.
  induction l as [|x l IH]; intros k cur; cbn [last_index].
  - destruct cur; [right; split; [reflexivity|constructor]|split; [reflexivity|constructor]].
  - specialize (IH (S k) (if p x then Some k else cur)). destruct (last_index p l (S k) (if p x then Some k else cur)) as [i|].
    + destruct IH as [(H1 & (a & H2 & H3) & H4)|[H1 H2]].
      * left. replace (i - k) with (S (i - S k)) by lia. split; [lia|]. split; [exists a; split; assumption|]. intros j b Hj Hb. destruct j; [lia|]. cbn in Hb. apply (H4 j b); [lia|exact Hb].
      * destruct (p x) eqn:E.
        -- injection H1 as <-. left. rewrite Nat.sub_diag. split; [lia|]. split; [exists x; split; [reflexivity|exact E]|]. intros j b Hj Hb. destruct j; [lia|]. cbn in Hb.
           rewrite Forall_forall in H2. apply H2. eapply nth_error_In; eassumption.
        -- right. split; [exact H1|]. constructor; assumption.
    + destruct IH as [H1 H2]. destruct (p x) eqn:E; [discriminate|]. split; [exact H1|]. constructor; assumption.
Qed.
Lemma keras_last_spec ls : match keras_last ls with
  | Some i => nth_error ls i = Some (KLin false) /\ forall j, i < j -> nth_error ls j <> Some (KLin false)
  | None => ~ In (KLin false) ls
  end.
Proof.
  unfold keras_last. pose proof (last_index_spec free_linear ls 0 None) as H. destruct (last_index free_linear ls 0 None) as [i|].
  - destruct H as [(_ & (a & H2 & H3) & H4)|[H _]]; [|discriminate]. rewrite Nat.sub_0_r in *. split.
    + rewrite H2. destruct a as [|[|]|]; try discriminate. reflexivity.
    + intros j Hj E. specialize (H4 j _ Hj E). discriminate.
  - destruct H as [_ H]. intros Hin. rewrite Forall_forall in H. specialize (H _ Hin). discriminate.
Qed.
Lemma bn_at_in : forall ls k i, In i (bn_at ls k) <-> k <= i /\ nth_error ls (i - k) = Some KBn.
Proof.
  induction ls as [|x ls IH]; intros k i; cbn [bn_at].
  - split; [intros []|]. intros [_ H]. destruct (i - k); discriminate.
  - assert (forall j, In j (bn_at ls (S k)) <-> S k <= j /\ nth_error (x :: ls) (j - k) = Some KBn) as G.
    { intros j. rewrite IH. split; intros [H1 H2]; (split; [lia|]); replace (j - k) with (S (j - S k)) in * by lia; exact H2. }
    destruct x; cbn [is_bn]; rewrite ?G.
    + split.
      * intros [<-|H]; [rewrite Nat.sub_diag; split; [lia|reflexivity]|]. apply G in H. split; [lia|apply H].
      * intros [H1 H2]. destruct (Nat.eq_dec k i) as [->|N]; [left; reflexivity|right]. apply G. split; [lia|exact H2].
    + split; intros [H1 H2]; (split; [lia|exact H2]) || (destruct (Nat.eq_dec k i) as [->|N]; [rewrite Nat.sub_diag in H2; discriminate|split; [lia|exact H2]]).
    + split; intros [H1 H2]; (split; [lia|exact H2]) || (destruct (Nat.eq_dec k i) as [->|N]; [rewrite Nat.sub_diag in H2; discriminate|split; [lia|exact H2]]).
Qed.
Lemma combine_app {A B} (a c : list A) (b d : list B) : length a = length b -> combine (a ++ c) (b ++ d) = combine a b ++ combine c d.
Proof. revert b. induction a as [|x a IH]; intros [|y b] E; try discriminate; [reflexivity|]. cbn. f_equal. apply IH. injection E. auto. Qed.
Lemma nth_map_seq {A} (l r : list A) : map (nth_error (l ++ r)) (seq 0 (length l)) = map Some l.
Proof.
  revert r. induction l as [|x l IH]; intros r; [reflexivity|]. cbn [length seq map app nth_error]. f_equal. rewrite <- seq_shift, map_map. apply IH.
Qed.
Lemma filter_all {A} (p : A -> bool) l : (forall x, In x l -> p x = true) -> filter p l = l.
Proof. induction l as [|x l IH]; intros H; cbn [filter]; [reflexivity|]. rewrite H by (left; reflexivity). f_equal. apply IH. intros; apply H; right; assumption. Qed.
Lemma run_taps_spec ls : forall r, r = run_taps ls ->
  fst (fst r) = map (fun i => (i, Some (T_in i))) (bn_at ls 0) /\
  snd (fst r) = (match keras_last ls with Some i => Some (if Nat.eqb (S i) (length ls) then T_model else T_out i) | None => None end) /\
  snd r = Some T_model.
Proof.
  intros r ->. unfold run_taps. set (both := combine (layer_list ls) (map (nth_error (taps ls)) (seq 0 (length (layer_list ls))))). cbn [fst snd].
  set (b := bn_at ls 0). pose proof (keras_last_spec ls) as K.
  assert (nth_error (taps ls) (length (taps ls) - 1) = Some T_model) as HM.
  { unfold taps. rewrite app_assoc, app_length. cbn [length]. rewrite Nat.add_sub, nth_error_app2 by lia. rewrite Nat.sub_diag. reflexivity. }
  assert (forall l, combine l (map Some (map T_in l)) = map (fun i => (i, Some (T_in i))) l) as Hb.
  { induction l as [|x l IH]; [reflexivity|]. cbn [map combine]. f_equal. exact IH. }
  assert (both = map (fun i => (i, Some (T_in i))) b ++ match keras_last ls with Some i => [(i, Some (if Nat.eqb (S i) (length ls) then T_model else T_out i))] | None => [] end) as E.
  { unfold both, layer_list, taps. fold b. rewrite app_length, seq_app, map_app.
    replace (length b) with (length (map T_in b)) at 1 by (rewrite map_length; reflexivity).
    rewrite nth_map_seq, combine_app by (rewrite !map_length; reflexivity). rewrite Hb. f_equal.
    destruct (keras_last ls) as [i|]; [|reflexivity]. cbn [length seq map combine]. rewrite Nat.add_0_l.
    rewrite nth_error_app2 by (rewrite map_length; lia). rewrite map_length, Nat.sub_diag. destruct (Nat.eqb (S i) (length ls)); reflexivity. }
  assert (forall i, keras_last ls = Some i -> ~ In i b) as NB.
  { intros i Hi H. rewrite Hi in K. destruct K as [K _]. apply bn_at_in in H. destruct H as [_ H]. rewrite Nat.sub_0_r in H. congruence. }
  split; [|split; [|exact HM]].
  - rewrite E, filter_app. rewrite (filter_all _ (map _ b)).
    + destruct (keras_last ls) as [i|] eqn:Ek; cbn [filter fst]; [|apply app_nil_r].
      destruct (existsb (Nat.eqb i) b) eqn:X; [|apply app_nil_r]. apply existsb_exists in X. destruct X as (y & Hy & Ey). apply Nat.eqb_eq in Ey. subst y. exfalso. exact (NB i eq_refl Hy).
    + intros p Hp. apply in_map_iff in Hp. destruct Hp as (i & <- & Hi). apply existsb_exists. exists i. split; [exact Hi|apply Nat.eqb_refl].
  - destruct (keras_last ls) as [i|] eqn:Ek; [|reflexivity]. rewrite E.
    assert (forall l tl, ~ In i l -> find (fun p => Nat.eqb (fst p) i) (map (fun i => (i, Some (T_in i))) l ++ tl) = find (fun p => Nat.eqb (fst p) i) tl) as G.
    { induction l as [|x l IH]; intros tl H; [reflexivity|]. cbn [map app find fst]. destruct (Nat.eqb x i) eqn:X; [apply Nat.eqb_eq in X; subst x; exfalso; apply H; left; reflexivity|].
      apply IH. intros Y. apply H. right. exact Y. }
    rewrite G by (apply NB; reflexivity). cbn [find fst]. rewrite Nat.eqb_refl. reflexivity.
Qed.
