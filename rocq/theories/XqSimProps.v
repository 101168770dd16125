(* XqSimProps.v -- C96: the similarity metrics of the explainable quantization report. *)
From Coq Require Import List Arith Lia Reals Lra String Bool.
From Verif Require Import Base XqSimModel XqSimSpec XqSimProofs.
Import ListNotations.
Open Scope R_scope.
Open Scope res_scope.

(* For models with one output and a data set with a batch, the report has the default and the custom metrics, for the outputs and for exactly
   the quantized layers that have a float counterpart; each value is the average over the batches of the metric of the float tensor and
   the quantized tensor of this layer. *)
Theorem xquant_report : forall X fl ql fout qout fo qo fw custom qp fls float_of (data : list X), let qs := matched_layers qp fls float_of in
  data <> [] -> NoDup (map fst custom) -> NoDup (map float_of qs) -> ~ In output_key (map float_of qs) -> ~ In output_key qs -> (fw = Keras -> qs <> []) ->
  (forall x, In x data -> fout x = [fo x] /\ qout x = [qo x]) ->
  exists out inter, compute_similarity X fl ql fout qout fw custom qp fls float_of data = Ok (out, inter) /\
    report_of fw custom data fo qo out /\ map fst inter = qs /\ forall q d, In (q, d) inter -> report_of fw custom data (fl (float_of q)) (ql q) d.
Proof.
  intros X fl ql fout qout fo qo fw custom qp fls float_of data qs D Nc Nf Kf Kq Kr H.
  set (ms := metrics_of fw custom). pose proof (metrics_nodup fw custom) as Nms. fold ms in Nms.
  assert (Rep : forall a b, report_of fw custom data a b (map (fun kf => (fst kf, mean (map (fun x => snd kf (a x) (b x)) data))) ms)).
  { intros a b. split; [rewrite map_map; exact Nms|]. split.
    - intro k. rewrite map_map. cbn. split.
      + intro I. apply in_map_iff in I. destruct I as ([k' f] & <- & I). exists f. apply metrics_get; [exact Nc|exact I].
      + intros (f & M). apply metrics_get in M; [|exact Nc]. apply in_map_iff. exists (k, f). split; [reflexivity|exact M].
    - intros k r I. apply in_map_iff in I. destruct I as ([k' f] & E & I). cbn in E. injection E as -> <-. exists f. split; [apply metrics_get; [exact Nc|exact I]|reflexivity]. }
  exists (map (fun kf => (fst kf, mean (map (fun x => snd kf (fo x) (qo x)) data))) ms),
    (map (fun q => (q, map (fun kf => (fst kf, mean (map (fun x => snd kf (fl (float_of q) x) (ql q x)) data))) ms)) qs).
  split; [|split; [apply Rep|split]].
  - unfold compute_similarity. fold ms. rewrite (points_ok qp fls float_of Nf). fold qs. cbn [bind].
    assert (E2 : map snd (map (fun q => (float_of q, q)) qs) = qs) by (rewrite map_map; apply map_id). rewrite E2. rewrite fold_new; [|exact (Nq float_of qs Nf)|intros n _ []]. cbn [app].
    pose proof (loop fl ql fout qout fw fo qo ms float_of qs Nms Nf Kf Kq Kr data [] H) as L. cbn [app] in L.
    match goal with |- bind ?t _ = _ => change t with (foldM (one_batch X fl ql fout qout fw ms (map (fun q => (float_of q, q)) qs)) data (outs fo qo ms [], map (inters fl ql ms float_of []) qs)) end. rewrite L. cbn [bind fst snd]. unfold outs. rewrite averages_ok; [|intros kf _; destruct data; [congruence|discriminate]]. cbn [bind].
    assert (M : mapM (fun ld : string * dict (list R) => let! d := averages E_critical (snd ld) in Ok (fst ld, d)) (map (inters fl ql ms float_of data) qs)
      = Ok (map (fun q => (q, map (fun kf => (fst kf, mean (map (fun x => snd kf (fl (float_of q) x) (ql q x)) data))) ms)) qs)).
    { clear -D. induction qs as [|q s IH]; [reflexivity|]. cbn [map mapM]. unfold inters at 1. cbn [fst snd]. rewrite averages_ok; [|intros kf _; destruct data; [congruence|discriminate]]. cbn [bind]. rewrite IH. reflexivity. }
    rewrite M. reflexivity.
  - rewrite map_map. apply map_id.
  - intros q d I. apply in_map_iff in I. destruct I as (q' & E & _). injection E as <- <-. apply Rep.
Qed.
Print Assumptions xquant_report.

(* two quantized layers for one float layer are refused *)
Theorem xquant_duplicate : forall X fl ql fout qout fw custom qp fls float_of (data : list X), ~ NoDup (map float_of (matched_layers qp fls float_of)) ->
  compute_similarity X fl ql fout qout fw custom qp fls float_of data = Err E_critical.
Proof. intros. unfold compute_similarity. rewrite points_dup by assumption. reflexivity. Qed.
Print Assumptions xquant_duplicate.

(* FINDING (xquant/common/similarity_calculator.py L184-185): without data the outputs are averaged first, so that the report fails with a
   division by zero; the message for an empty list (L190-191) is never reached. *)
Theorem xquant_no_data_refuted : forall X fl ql fout qout fw custom qp fls float_of, NoDup (map float_of (matched_layers qp fls float_of)) ->
  compute_similarity X fl ql fout qout fw custom qp fls float_of [] = Err E_zero_div.
Proof.
  intros X fl ql fout qout fw custom qp fls float_of N. unfold compute_similarity. rewrite points_ok by exact N. cbn [bind foldM fst].
  assert (E : metrics_of fw custom <> []).
  { unfold metrics_of. assert (H : forall d : dict metric, d <> [] -> fold_left (fun d kv => dset d (fst kv) (snd kv)) custom d <> []).
    { induction custom as [|[k f] l IH]; intros d H; [exact H|]. cbn. apply IH. destruct d as [|[k' f'] d]; [congruence|]. cbn. destruct (String.eqb k' k); discriminate. }
    apply H. discriminate. }
  destruct (metrics_of fw custom) as [|kf r]; [congruence|]. reflexivity.
Qed.
Print Assumptions xquant_no_data_refuted.

(* FINDING (xquant/keras/model_analyzer.py L65, L73, L85-89): the predictions of a Keras model with several outputs are a list, on which
   numpy() is called; the concatenation that follows is never reached. *)
Theorem xquant_keras_outputs_refuted : forall X fl ql fout qout custom qp fls float_of (x : X) data, NoDup (map float_of (matched_layers qp fls float_of)) ->
  List.length (fout x) = 2%nat -> compute_similarity X fl ql fout qout Keras custom qp fls float_of (x :: data) = Err E_attr.
Proof.
  intros X fl ql fout qout custom qp fls float_of x data N L. unfold compute_similarity. rewrite points_ok by exact N. cbn [bind foldM]. unfold one_batch, activations at 1.
  destruct (fout x) as [|a [|b r]]; try discriminate L. reflexivity.
Qed.
Print Assumptions xquant_keras_outputs_refuted.

(* ---- the metrics ---- *)
Lemma dot_cons a u b v : dot (a :: u) (b :: v) = a * b + dot u v. Proof. reflexivity. Qed.
Lemma dot_self_nonneg u : 0 <= dot u u.
Proof. induction u as [|a u IH]; [cbn; lra|]. rewrite dot_cons. pose proof (Rle_0_sqr a) as S. unfold Rsqr in S. lra. Qed.
Lemma dot_quad t u : forall v, List.length u = List.length v -> 0 <= dot u u * t * t + 2 * dot u v * t + dot v v.
Proof.
  induction u as [|a u IH]; intros [|b v] L; try discriminate; [cbn; lra|]. rewrite !dot_cons. injection L as L. specialize (IH v L).
  pose proof (Rle_0_sqr (a * t + b)) as S. unfold Rsqr in S.
  replace ((a * a + dot u u) * t * t + 2 * (a * b + dot u v) * t + (b * b + dot v v)) with ((dot u u * t * t + 2 * dot u v * t + dot v v) + (a * t + b) * (a * t + b)) by ring. lra.
Qed.
Lemma dot_cs u v : List.length u = List.length v -> dot u v * dot u v <= dot u u * dot v v.
Proof.
  intro L. pose proof (dot_self_nonneg u) as A. pose proof (dot_self_nonneg v) as C. set (B := dot u v). destruct (Rle_lt_or_eq_dec _ _ A) as [P|Z].
  - pose proof (dot_quad (- B / dot u u) u v L) as Q. fold B in Q. assert (E : dot u u * (- B / dot u u) * (- B / dot u u) + 2 * B * (- B / dot u u) + dot v v = dot v v - B * B / dot u u) by (field; lra). rewrite E in Q.
    apply (Rmult_le_compat_l (dot u u)) in Q; [|lra]. replace (dot u u * (dot v v - B * B / dot u u)) with (dot u u * dot v v - B * B) in Q by (field; lra). lra.
  - destruct (Req_dec B 0) as [E0|N0]; [rewrite E0; rewrite <- Z; lra|]. exfalso. pose proof (dot_quad (- (dot v v + 1) / (2 * B)) u v L) as Q. fold B in Q. rewrite <- Z in Q.
    replace (0 * (- (dot v v + 1) / (2 * B)) * (- (dot v v + 1) / (2 * B)) + 2 * B * (- (dot v v + 1) / (2 * B)) + dot v v) with (-1) in Q by (field; exact N0). lra.
Qed.
Lemma dot_norms u v : List.length u = List.length v -> Rabs (dot u v) <= norm u * norm v.
Proof.
  intro L. unfold norm. rewrite <- sqrt_mult by apply dot_self_nonneg. rewrite <- sqrt_Rsqr_abs. apply sqrt_le_1_alt. unfold Rsqr. exact (dot_cs u v L).
Qed.
Lemma norm_sq u : norm u * norm u = dot u u. Proof. apply sqrt_sqrt. apply dot_self_nonneg. Qed.
Lemma dot_scale a b u : forall v, dot (map (fun x => x * a) u) (map (fun x => x * b) v) = a * b * dot u v.
Proof. induction u as [|x u IH]; intros [|y v]; cbn [map]; try (cbn; ring). rewrite !dot_cons, IH. ring. Qed.
Lemma sum_nonneg l : (forall x, In x l -> 0 <= x) -> 0 <= sumR l.
Proof. induction l as [|x l IH]; intro H; cbn; [lra|]. pose proof (H x (or_introl eq_refl)). assert (0 <= sumR l) by (apply IH; intros y Y; apply H; right; exact Y). lra. Qed.
Lemma sq_err_nonneg u : forall v x, In x (sq_err u v) -> 0 <= x.
Proof. induction u as [|a u IH]; intros [|b v] x I; cbn in I; try contradiction. destruct I as [<-|I]; [apply Rle_0_sqr|exact (IH v x I)]. Qed.
Lemma zip_length f u : forall v, List.length u = List.length v -> List.length (zip f u v) = List.length u.
Proof. induction u as [|a u IH]; intros [|b v] L; try discriminate; [reflexivity|]. cbn. rewrite IH by (injection L as L; exact L). reflexivity. Qed.
Lemma sq_err_zero u : forall v, List.length u = List.length v -> (sumR (sq_err u v) = 0 <-> u = v).
Proof.
  induction u as [|a u IH]; intros [|b v] L; try discriminate; [cbn; tauto|]. injection L as L. cbn [sq_err zip sumR]. fold (sq_err u v).
  pose proof (sum_nonneg _ (sq_err_nonneg u v)) as P. pose proof (Rle_0_sqr (a - b)) as Q. unfold Rsqr in Q. split.
  - intro E. assert (E1 : (a - b) * (a - b) = 0) by lra. assert (E2 : sumR (sq_err u v) = 0) by lra. apply IH in E2; [|exact L]. subst v. f_equal. apply Rmult_integral in E1. lra.
  - intro E. injection E as -> ->. rewrite (proj2 (IH v L) eq_refl). ring.
Qed.
Lemma len_pos (x : tensor) : concat x <> [] -> 0 < INR (List.length (concat x)).
Proof. intro N. apply lt_0_INR. destruct (concat x); [congruence|cbn; lia]. Qed.

(* MSE: not negative, zero exactly for equal values, symmetric *)
Theorem mse_metric : forall x y, comparable x y -> 0 <= mse x y /\ (mse x y = 0 <-> concat x = concat y) /\ mse x y = mse y x.
Proof.
  intros x y [L N]. unfold mse, mean.
  assert (L1 : List.length (sq_err (concat x) (concat y)) = List.length (concat x)) by (apply zip_length; exact L).
  assert (L2 : List.length (sq_err (concat y) (concat x)) = List.length (concat x)) by (rewrite L; apply zip_length; symmetry; exact L). rewrite L1, L2. pose proof (len_pos x N) as P. split; [|split].
  - apply Rmult_le_pos; [apply sum_nonneg; apply sq_err_nonneg|left; apply Rinv_0_lt_compat; exact P].
  - rewrite <- (sq_err_zero _ _ L). split; [|intros ->; unfold Rdiv; ring]. intro E. apply Rmult_integral in E. destruct E as [E|E]; [exact E|]. pose proof (Rinv_0_lt_compat _ P). lra.
  - f_equal. generalize (concat x) (concat y). clear. induction l as [|a u IH]; intros [|b v]; try reflexivity. cbn [sq_err zip sumR]. fold (sq_err u v) (sq_err v u). rewrite IH. ring.
Qed.
Print Assumptions mse_metric.

(* SQNR: for different tensors the mean square of the float tensor over the MSE; a common scale does not matter *)
Theorem sqnr_metric : forall x y k, comparable x y -> concat x <> concat y -> k <> 0 ->
  0 <= sqnr x y /\ sqnr x y * mse x y = dot (concat x) (concat x) / INR (List.length (concat x)) /\ sqnr (map (map (fun v => v * k)) x) (map (map (fun v => v * k)) y) = sqnr x y.
Proof.
  intros x y k [L N] D K.
  assert (Dm : forall u, sumR (map (fun v => v * v) u) = dot u u) by (induction u as [|a u IH]; [reflexivity|cbn [map sumR]; rewrite IH; reflexivity]).
  pose proof (len_pos x N) as P. pose proof (proj1 (mse_metric x y (conj L N))) as M0. pose proof (proj1 (proj2 (mse_metric x y (conj L N)))) as M1.
  assert (M : 0 < mse x y) by (destruct M0 as [M0|M0]; [exact M0|symmetry in M0; apply M1 in M0; contradiction]).
  assert (S : mean (map (fun v => v * v) (concat x)) = dot (concat x) (concat x) / INR (List.length (concat x))) by (unfold mean; rewrite Dm, map_length; reflexivity).
  split; [|split].
  - unfold sqnr. fold (mse x y). rewrite S. apply Rmult_le_pos; [apply Rmult_le_pos; [apply dot_self_nonneg|left; apply Rinv_0_lt_compat; exact P]|left; apply Rinv_0_lt_compat; exact M].
  - unfold sqnr. fold (mse x y). rewrite S. field. split; lra.
  - assert (Cm : forall t : tensor, concat (map (map (fun v => v * k)) t) = map (fun v => v * k) (concat t)) by (intro t; symmetry; apply concat_map).
    unfold sqnr, mean. rewrite !Cm, !Dm, !map_length.
    assert (Se : forall u v, sumR (sq_err (map (fun a => a * k) u) (map (fun a => a * k) v)) = k * k * sumR (sq_err u v)).
    { induction u as [|a u IH]; intros [|b v]; cbn [map sq_err zip sumR]; try ring. fold (sq_err u v) (sq_err (map (fun a => a * k) u) (map (fun a => a * k) v)). rewrite IH. ring. }
    rewrite Se. rewrite dot_scale. 
    assert (L1 : List.length (sq_err (concat x) (concat y)) = List.length (concat x)) by (apply zip_length; exact L).
    assert (L2 : List.length (sq_err (map (fun a => a * k) (concat x)) (map (fun a => a * k) (concat y))) = List.length (concat x)) by (unfold sq_err; rewrite zip_length; rewrite !map_length; [reflexivity|exact L]).
    rewrite L1, L2.
    assert (E0 : sumR (sq_err (concat x) (concat y)) <> 0) by (intro E; apply sq_err_zero in E; [contradiction|exact L]). field. repeat split; try assumption; lra.
Qed.
Print Assumptions sqnr_metric.

(* the cosine in PyTorch: between -1 and 1, and 1 for equal tensors unless all but zero *)
Theorem cs_torch_metric : forall x y, comparable x y -> -1 <= cs_torch x y <= 1 /\ (/ 10 ^ 8 <= norm (concat x) -> cs_torch x x = 1).
Proof.
  intros x y [L N]. unfold cs_torch. set (u := concat x) in *. set (v := concat y) in *. set (e := / 10 ^ 8). assert (He : 0 < e) by (unfold e; apply Rinv_0_lt_compat; lra).
  pose proof (sqrt_pos (dot u u)) as Pu. pose proof (sqrt_pos (dot v v)) as Pv. fold (norm u) in Pu. fold (norm v) in Pv. split.
  - pose proof (dot_norms u v L) as C. pose proof (Rmax_l (norm u) e) as U1. pose proof (Rmax_r (norm u) e) as U2. pose proof (Rmax_l (norm v) e) as V1. pose proof (Rmax_r (norm v) e) as V2.
    set (U := Rmax (norm u) e) in *. set (V := Rmax (norm v) e) in *. assert (UV : 0 < U * V) by (apply Rmult_lt_0_compat; lra).
    assert (B : Rabs (dot u v) <= U * V) by (apply (Rle_trans _ _ _ C); apply Rmult_le_compat; lra).
    unfold Rdiv. assert (B2 : - (U * V) <= dot u v <= U * V) by (revert B; unfold Rabs; destruct (Rcase_abs (dot u v)); lra).
    split; [apply (Rmult_le_reg_r (U * V) _ _ UV)|apply (Rmult_le_reg_r (U * V) _ _ UV)]; rewrite ?Rmult_assoc, ?Rinv_l by lra; lra.
  - intro H. rewrite Rmax_left by exact H. rewrite norm_sq. apply Rinv_r. intro Z. assert (norm u = 0) by (unfold norm; rewrite Z; apply sqrt_0). lra.
Qed.
Print Assumptions cs_torch_metric.

(* FINDING (xquant/keras/similarity_functions.py L55): tf.keras.losses.CosineSimilarity is a loss, the negative of the cosine; what Keras reports as
   cosine similarity is the negative of what PyTorch reports, and -1 for equal tensors. *)
Theorem cs_keras_refuted : forall x y, comparable x y -> / 10 ^ 6 <= norm (concat x) -> / 10 ^ 6 <= norm (concat y) -> cs_keras x y = - cs_torch x y /\ cs_keras x x = -1.
Proof.
  assert (H6 : forall u, / 10 ^ 6 <= norm u -> / 10 ^ 12 <= dot u u).
  { intros u H. rewrite <- norm_sq. replace (/ 10 ^ 12) with (/ 10 ^ 6 * / 10 ^ 6) by (rewrite <- Rinv_mult; f_equal; ring). apply Rmult_le_compat; try exact H; left; apply Rinv_0_lt_compat; lra. }
  assert (K : forall x y, / 10 ^ 6 <= norm (concat x) -> / 10 ^ 6 <= norm (concat y) -> cs_keras x y = - cs_torch x y).
  { intros x y Hx Hy. unfold cs_keras, cs_torch, l2_normalize. rewrite dot_scale. rewrite (Rmax_left _ _ (H6 _ Hx)), (Rmax_left _ _ (H6 _ Hy)). fold (norm (concat x)) (norm (concat y)).
    assert (E86 : / 10 ^ 8 <= / 10 ^ 6) by (apply Rinv_le_contravar; lra). rewrite !Rmax_left by lra. assert (0 < / 10 ^ 6) by (apply Rinv_0_lt_compat; lra). field. split; lra. }
  intros x y C Hx Hy. split; [exact (K x y Hx Hy)|]. rewrite (K x x Hx Hx). assert (E86 : / 10 ^ 8 <= / 10 ^ 6) by (apply Rinv_le_contravar; lra).
  rewrite (proj2 (cs_torch_metric x y C)) by lra. reflexivity.
Qed.
Print Assumptions cs_keras_refuted.

(* batches with equally many values: the reported MSE is the MSE over the whole data set *)
Theorem mse_over_batches : forall (X : Type) (data : list X) (a b : X -> tensor) n, data <> [] -> (0 < n)%nat ->
  (forall x, In x data -> List.length (concat (a x)) = n /\ List.length (concat (b x)) = n) ->
  mean (map (fun x => mse (a x) (b x)) data) = mse (concat (map a data)) (concat (map b data)).
Proof.
  intros X data a b n D N H.
  assert (A : forall u v u' v', List.length u = List.length v -> sq_err (u ++ u') (v ++ v') = (sq_err u v ++ sq_err u' v')%list).
  { induction u as [|p u IH]; intros [|q v] u' v' L; try discriminate; [reflexivity|]. cbn. f_equal. apply IH. injection L as L. exact L. }
  assert (S : forall l l', sumR (l ++ l') = sumR l + sumR l') by (induction l as [|p l IH]; intro l'; cbn; [lra|rewrite IH; lra]).
  assert (G : forall l, (forall x, In x l -> List.length (concat (a x)) = n /\ List.length (concat (b x)) = n) ->
    sumR (map (fun x => mse (a x) (b x)) l) = sumR (sq_err (concat (concat (map a l))) (concat (concat (map b l)))) / INR n /\
    List.length (sq_err (concat (concat (map a l))) (concat (concat (map b l)))) = (List.length l * n)%nat).
  { induction l as [|x l IH]; intro Hl; [cbn; split; [unfold Rdiv; ring|reflexivity]|]. destruct (Hl x (or_introl eq_refl)) as [La Lb]. destruct IH as [I1 I2]; [intros y Y; apply Hl; right; exact Y|].
    cbn [map concat sumR List.length]. rewrite !concat_app, A by congruence. rewrite S, app_length, I1, I2. unfold mse, mean. unfold sq_err at 2. rewrite zip_length by congruence. rewrite La.
    split; [unfold Rdiv; ring|]. unfold sq_err. rewrite zip_length by congruence. rewrite La. lia. }
  destruct (G data H) as [G1 G2]. unfold mean. rewrite G1, map_length. unfold mse, mean. rewrite G2, mult_INR. assert (0 < INR n) by (apply lt_0_INR; exact N).
  assert (0 < INR (List.length data)) by (apply lt_0_INR; destruct data; [congruence|cbn; lia]). field. split; lra.
Qed.
Print Assumptions mse_over_batches.

(* FINDING (xquant/common/similarity_calculator.py L184-192): batches are not weighted by their size; with a smaller last batch the reported MSE
   is not that of the data set. *)
Theorem mse_unequal_batches_refuted : exists (data : list (tensor * tensor)), Forall (fun p => comparable (fst p) (snd p)) data /\
  mean (map (fun p => mse (fst p) (snd p)) data) <> mse (concat (map fst data)) (concat (map snd data)).
Proof.
  exists [([[0]; [0]], [[0]; [0]]); ([[0]], [[1]])]. split; [repeat constructor; discriminate|]. unfold mse, mean, sq_err. cbn. lra.
Qed.
Print Assumptions mse_unequal_batches_refuted.

(* a model with a convolution, wrapped in the quantized model under another name *)
Definition names (q : string) : string := if String.eqb q "quant_conv" then "conv" else q.
Example report_hypotheses : let qs := matched_layers ["quant_conv"%string; "quant_new"%string] ["input"%string; "conv"%string] names in
  qs = ["quant_conv"%string] /\ NoDup (map names qs) /\ ~ In output_key (map names qs) /\ ~ In output_key qs.
Proof. cbn. repeat split; repeat constructor; cbn; intuition discriminate. Qed.
(* FINDING (xquant/keras/model_analyzer.py L65-73): if no layer is compared, the Keras model that is built has one output and returns the tensor
   itself; its element [-1] is the last sample of the batch, and the output metrics are computed from this sample alone. *)
Theorem keras_last_sample_refuted : exists out inter, compute_similarity tensor (fun _ x => x) (fun _ x => x) (fun x => [x]) (fun x => [map (map (fun v => v * v)) x]) Keras [] [] ["input"%string] names [[[2]; [1]]] = Ok (out, inter) /\
  In ("mse"%string, 0) out /\ mse [[2]; [1]] (map (map (fun v => v * v)) [[2]; [1]]) <> 0.
Proof.
  eexists. eexists. split; [reflexivity|]. split.
  - left. f_equal. unfold mse, mean, sq_err. cbn. field.
  - unfold mse, mean, sq_err. cbn. lra.
Qed.
Print Assumptions keras_last_sample_refuted.
