(* KMhaMainProofs.v -- the decomposed Keras layer MultiHeadAttention computes the layer. *)
From Coq Require Import String Permutation.
From Verif Require Import Base Nd GraphModel KMhaModel KMhaSpec KMhaProofs KMhaRunProofs.
Local Open Scope R_scope.

Lemma mapM_ext {X Y} (f g : X -> result Y) l : (forall x, In x l -> f x = g x) -> mapM f l = mapM g l.
Proof.
  induction l as [|x l IH]; intro H; [reflexivity|]. cbn. rewrite (H x (or_introl eq_refl)), IH by (intros; apply H; right; assumption). reflexivity.
Qed.
Lemma mapM_ok {X Y} (f : X -> result Y) (h : X -> Y) l : (forall x, In x l -> f x = Ok (h x)) -> mapM f l = Ok (map h l).
Proof.
  induction l as [|x l IH]; intro H; [reflexivity|]. cbn. rewrite (H x (or_introl eq_refl)). cbn.
  rewrite IH by (intros; apply H; right; assumption). reflexivity.
Qed.

(* ---- weights found by their name ---- *)
Lemma prefix_text p s : prefix p s = true <-> exists b, s = (p ++ b)%string.
Proof.
  revert s. induction p as [|c p IH]; intro s.
  - split; [intros _; exists s; reflexivity|intros _; destruct s; reflexivity].
  - destruct s as [|c' s]; [split; [discriminate|intros (b & E); discriminate E]|]. cbn [prefix].
    destruct (Ascii.ascii_dec c c') as [->|N].
    + rewrite IH. split; intros (b & E); exists b; [rewrite E; reflexivity|injection E; auto].
    + split; [discriminate|intros (b & E); injection E as E _; congruence].
Qed.
Lemma contains_text p s : contains p s = true <-> has_text p s.
Proof.
  induction s as [|c s IH]; cbn [contains]; rewrite orb_true_iff, prefix_text.
  - split.
    + intros [(b & E)|H]; [exists EmptyString, b; exact E|discriminate].
    + intros (a & b & E). left. destruct a; [exists b; exact E|discriminate E].
  - rewrite IH. split.
    + intros [(b & E)|(a & b & E)]; [exists EmptyString, b; exact E|exists (String c a), b; rewrite E; reflexivity].
    + intros (a & b & E). destruct a as [|c' a]; [left; exists b; exact E|right]. injection E as _ E. exists a, b. exact E.
Qed.
Lemma weight_ok m t w : stored (k_weights m) t w -> weight m t = Ok w.
Proof.
  intros (l1 & name & l2 & E & T & N). unfold weight. rewrite E. clear E. induction l1 as [|x l1 IH].
  - cbn. apply contains_text in T. rewrite T. reflexivity.
  - cbn. assert (contains t (fst x) = false) as C.
    { destruct (contains t (fst x)) eqn:Q; [|reflexivity]. apply contains_text in Q. exfalso. exact (N x (or_introl eq_refl) Q). }
    rewrite C. apply IH. intros y I. apply N. right. exact I.
Qed.

(* ---- one head ---- *)
Definition attend (K d : nat) (f g h : nat -> nat -> nat -> nat -> R) (b i s j : nat) : R :=
  let sc s' := rsum d (fun c => f b i s c * g b i s' c) in
  rsum K (fun s' => exp (sc s') / rsum K (fun s'' => exp (sc s'')) * h b i s' j).
Lemma attention_head_ok ins q k v tq tk tv B S K d e f g h :
  keval ins q = Ok tq -> keval ins k = Ok tk -> keval ins v = Ok tv ->
  is3 tq B S d f -> is3 tk B K d g -> is3 tv B K e h ->
  exists u, keval ins (attention_head q k v) = Ok u /\
    is3 u B S e (fun b s j => rsum K (fun s' => exp (rsum d (fun c => f b s c * g b s' c))
                   / rsum K (fun s'' => exp (rsum d (fun c => f b s c * g b s'' c))) * h b s' j)).
Proof.
  intros Eq Ek Ev Iq Ik Iv. unfold attention_head. cbv zeta.
  destruct (permute21_ok _ _ _ _ _ Ik) as (t1 & R1 & I1). pose proof (keval1 ins (KPermute [2; 1]%nat) k tk Ek) as E1. rewrite R1 in E1.
  destruct (matmul_ok _ _ _ _ _ _ _ _ Iq I1) as (t2 & R2 & I2). pose proof (keval2 ins KMatmul _ _ _ _ Eq E1) as E2. rewrite R2 in E2.
  destruct (softmax_ok _ _ _ _ _ I2) as (t3 & R3 & I3). pose proof (keval1 ins KSoftmax _ _ E2) as E3. rewrite R3 in E3.
  destruct (matmul_ok _ _ _ _ _ _ _ _ I3 Iv) as (t4 & R4 & I4). pose proof (keval2 ins KMatmul _ _ _ _ E3 Ev) as E4. rewrite R4 in E4.
  exists t4. split; [exact E4|]. exact I4.
Qed.
Lemma head_ok m ins pq pk pv cq ck cv B N S K d e f g h :
  iter_prod m = N -> q_att_prod m = S -> kv_att_prod m = K -> k_key_dim m = d -> k_value_dim m = e -> (0 < N)%nat ->
  keval ins pq = Ok cq -> keval ins pk = Ok ck -> keval ins pv = Ok cv ->
  is4 cq B N S d f -> is4 ck B N K d g -> is4 cv B N K e h ->
  exists u, keval ins (stack_iters m (map (fun i => attention_head (slice_iter i [q_att_prod m; k_key_dim m] pq)
                                                  (slice_iter i [kv_att_prod m; k_key_dim m] pk)
                                                  (slice_iter i [kv_att_prod m; k_value_dim m] pv)) (seq 0 (iter_prod m)))) = Ok u /\
    is4 u B N S e (attend K d f g h).
Proof.
  intros EN ES EK Ed Ee PN Eq Ek Ev Iq Ik Iv. rewrite EN, ES, EK, Ed, Ee.
  set (F := fun i => attention_head (slice_iter i [S; d] pq) (slice_iter i [K; d] pk) (slice_iter i [K; e] pv)).
  destruct (mapM_seq (fun i => keval ins (F i)) (fun i t => is3 t B S e (fun b s j => attend K d f g h b i s j)) N) as (ts & M & L & H).
  { intros i Li. unfold F.
    destruct (slice_ok ins pq cq i B N S d f Eq Iq Li) as (t1 & E1 & I1).
    destruct (slice_ok ins pk ck i B N K d g Ek Ik Li) as (t2 & E2 & I2).
    destruct (slice_ok ins pv cv i B N K e h Ev Iv Li) as (t3 & E3 & I3).
    exact (attention_head_ok ins _ _ _ t1 t2 t3 B S K d e _ _ _ E1 E2 E3 I1 I2 I3). }
  rewrite <- mapM_map in M. unfold stack_iters. rewrite EN, ES, Ee.
  destruct (Nat.eqb_spec N 1) as [E1|N1].
  - rewrite keval_op, M. cbn [bind]. destruct ts as [|t [|t' ts]]; [cbn in L; lia| |cbn in L; lia].
    destruct (H 0%nat t ltac:(lia)) as [St At]. cbn in St, At. cbn [krun]. rewrite St, E1.
    replace (prod [1; S; e] =? prod [S; e])%nat with true by (symmetry; apply Nat.eqb_eq; cbn; lia).
    eexists. split; [reflexivity|]. split; [reflexivity|]. intros b i s j Lb Li Ls Lj. unfold reshape_to. cbn [at_]. rewrite St.
    assert (i = 0%nat) as -> by lia.
    assert (unflat [B; S; e] (flat [B; 1; S; e] [b; 0; s; j]) = [b; s; j])%nat as U.
    { rewrite <- (unflat_flat [B; S; e] [b; s; j]); [f_equal; cbn; lia|]. apply inb3. auto. }
    rewrite U. apply At; assumption.
  - rewrite keval_op, M. cbn [bind]. exact (stack_ok ts N B S e (fun i b s j => attend K d f g h b i s j) L PN H).
Qed.

Section Main.
Variables (m : kmha) (L : layer) (dq dk : list nat) (cq ck cv out : nat).
Hypothesis AX : axes_ok (axes L) dq dk.
Hypothesis D : describes m L dq dk cq ck cv out.
Hypothesis WS : weight_shapes L cq ck cv out.
Hypothesis PQ : Forall (fun d => 0 < d)%nat dq.
Hypothesis PO : (0 < out)%nat.
Hypothesis PV : (0 < value_dim L)%nat.
Hypothesis PH : (2 <= heads L)%nat.
Let r := length dq.
Let A := axes L.
Let I := filter (fun a => negb (memb a A)) (seq 1 r).
Let perm := ([0] ++ I ++ A ++ [r + 1])%nat.
Let X := map (dim dq) I.
Let Y := map (dim dq) A.
Let YK := map (dim dk) A.

Lemma NA : NoDup A. Proof. exact (proj1 AX). Qed.
Lemma RA a : In a A -> (1 <= a <= r)%nat. Proof. exact (proj1 (proj2 AX) a). Qed.
Lemma lk : length dk = r. Proof. exact (proj1 (proj2 (proj2 AX))). Qed.
Lemma shape_split (s d : list nat) (c : nat) : tl s = d ++ [c] -> exists b, s = b :: d ++ [c].
Proof. destruct s as [|b s]; cbn; intro E; [destruct d; discriminate E|]. exists b. rewrite E. reflexivity. Qed.
Lemma last_app (d : list nat) c b : List.last (b :: d ++ [c]) 0%nat = c.
Proof. change (b :: d ++ [c]) with ((b :: d) ++ [c]). apply List.last_last. Qed.
Lemma size_dim b d c a : length d = r -> (1 <= a <= r)%nat -> size (b :: d ++ [c]) a = dim d a.
Proof. intros E B. unfold size. exact (full_dim r d b c a E B). Qed.
Lemma fields : exists bq bk bv, k_qshape m = bq :: dq ++ [cq] /\ k_kshape m = bk :: dk ++ [ck] /\ k_vshape m = bv :: dk ++ [cv].
Proof.
  destruct D as (_ & _ & _ & _ & _ & _ & Q & K & V & _).
  destruct (shape_split _ _ _ Q) as [bq Eq]. destruct (shape_split _ _ _ K) as [bk Ek]. destruct (shape_split _ _ _ V) as [bv Ev].
  exists bq, bk, bv. auto.
Qed.
Lemma axes_m : k_axes m = A. Proof. destruct D as (_ & _ & _ & _ & _ & E & _). exact E. Qed.
Lemma inner_m : inner_axes m = seq 1 r.
Proof.
  destruct fields as (bq & bk & bv & Eq & Ek & _). unfold inner_axes. rewrite Eq, Ek. cbn [length]. rewrite !app_length. cbn [length].
  rewrite lk. fold r. f_equal. lia.
Qed.
Lemma iter_m : iter_axes m = I. Proof. unfold iter_axes. rewrite axes_m, inner_m. reflexivity. Qed.
Lemma perm_m : perm_dims m = perm.
Proof.
  destruct fields as (bq & bk & bv & Eq & _). unfold perm_dims. rewrite iter_m, axes_m, Eq. cbn [length]. rewrite app_length. cbn [length].
  unfold perm. do 4 f_equal. fold r. lia.
Qed.
Lemma iter_prod_m : iter_prod m = prod X.
Proof.
  destruct fields as (bq & bk & bv & Eq & _). unfold iter_prod. rewrite iter_m, Eq. f_equal. apply map_ext_in. intros a J.
  apply size_dim; [reflexivity|]. apply (I_in r A) in J. exact (proj1 J).
Qed.
Lemma att_prod d s b c : s = b :: d ++ [c] -> length d = r -> prod (map (size s) (att_axes m)) = prod (map (dim d) A).
Proof.
  intros -> E. rewrite (prod_perm _ _ (sizes_perm r A NA RA d)). unfold att_axes. rewrite axes_m, inner_m. f_equal.
  apply map_ext_in. intros a J. apply filter_In in J. destruct J as [J _]. apply in_seq in J. apply size_dim; [exact E|lia].
Qed.
Lemma q_prod_m : q_att_prod m = prod Y.
Proof. destruct fields as (bq & bk & bv & Eq & _). exact (att_prod dq _ bq cq Eq eq_refl). Qed.
Lemma kv_prod_m : kv_att_prod m = prod YK.
Proof. destruct fields as (bq & bk & bv & _ & Ek & _). exact (att_prod dk _ bk ck Ek lk). Qed.
Lemma XK : map (dim dk) I = X.
Proof.
  apply map_ext_in. intros a J. apply (I_in r A) in J. destruct J as [B N]. unfold dim.
  exact (proj2 (proj2 (proj2 AX)) a B N).
Qed.
Lemma prod_pos : (0 < prod X)%nat.
Proof.
  assert (forall l, (forall a, In a l -> (1 <= a <= r)%nat) -> (0 < prod (map (dim dq) l))%nat) as G.
  { induction l as [|a l IH]; intro H; [cbn; lia|]. cbn. specialize (IH ltac:(intros; apply H; right; assumption)).
    assert (0 < dim dq a)%nat as P; [|nia]. specialize (H a (or_introl eq_refl)). unfold dim.
    rewrite Forall_forall in PQ. apply PQ. apply nth_In. fold r. lia. }
  apply G. intros a J. apply (I_in r A) in J. exact (proj1 J).
Qed.
Lemma gf p b c : length p = r -> gather perm (b :: p ++ [c]) = b :: map (dim p) I ++ map (dim p) A ++ [c].
Proof. exact (gather_full r A RA p b c). Qed.
Lemma pok : is_perm perm (r + 2). Proof. exact (perm_ok r A NA RA). Qed.
Lemma standardized_ok ins k x B d c N S :
  nth_error ins k = Some x -> shp x = B :: d ++ [c] -> length d = r -> prod (map (dim d) I) = N -> prod (map (dim d) A) = S ->
  exists t, keval ins (standardized m [N; S; c] k) = Ok t /\
    is4 t B N S c (fun b i s j => at_ x (b :: mid r A (unflat (map (dim d) I) i) (unflat (map (dim d) A) s) ++ [j])).
Proof.
  intros Ex Sx Ld EN ES. unfold standardized. rewrite perm_m.
  assert (keval ins (KIn k) = Ok x) as E0 by (cbn; rewrite Ex; reflexivity).
  assert (keval ins (KOp (KPermute (tl perm)) [KIn k]) = Ok (transpose perm x)) as E1.
  { rewrite (keval1 _ _ _ _ E0). cbn [krun]. unfold sub_dims. rewrite Sx. cbn [length]. rewrite app_length. cbn [length].
    pose proof (perm_length r A NA RA) as PL. change (length perm = r + 2)%nat in PL.
    assert (length (tl perm) = r + 1)%nat as TL by (change (length perm) with (Datatypes.S (length (tl perm))) in PL; lia).
    rewrite TL. replace (r + 1 =? Datatypes.S (length d + 1) - 1)%nat with true by (symmetry; apply Nat.eqb_eq; lia). cbn [andb].
    replace (forallb (fun a => memb a (tl perm)) (seq 1 (Datatypes.S (length d + 1) - 1))) with true; [reflexivity|].
    symmetry. apply forallb_forall. intros a J. apply in_seq in J. apply memb_In.
    destruct pok as (_ & _ & M). destruct (proj2 (M a)) as [E|Q]; [lia|lia|exact Q]. }
  rewrite (keval1 _ _ _ _ E1). cbn [krun].
  assert (shp (transpose perm x) = B :: map (dim d) I ++ map (dim d) A ++ [c]) as ST.
  { cbn [transpose shp]. rewrite Sx. exact (gather_full r A RA d B c Ld). }
  rewrite ST. replace (prod [N; S; c] =? prod (map (dim d) I ++ map (dim d) A ++ [c]))%nat with true
    by (symmetry; apply Nat.eqb_eq; rewrite !prod_app, EN, ES; cbn; lia).
  eexists. split; [reflexivity|]. split; [reflexivity|]. intros b i s j Lb Li Ls Lj. unfold reshape_to. cbn [at_]. rewrite ST.
  rewrite <- EN, <- ES in *. rewrite fold_index by assumption. cbn [transpose at_].
  destruct (flat_unflat _ _ Li) as [_ IX]. destruct (flat_unflat _ _ Ls) as [_ IY].
  assert (length (unflat (map (dim d) I) i) = length I) as LX by (rewrite (inb_length _ _ IX); apply map_length).
  assert (length (unflat (map (dim d) A) s) = length A) as LY by (rewrite (inb_length _ _ IY); apply map_length).
  f_equal. rewrite <- (scatter_mid r A NA RA _ _ b j LX LY). unfold scatter.
  assert (length (shp x) = length ([0] ++ filter (fun a => negb (memb a A)) (seq 1 r) ++ A ++ [r + 1]))%nat as EL.
  { pose proof (perm_length r A NA RA) as PL. rewrite PL, Sx. cbn. rewrite app_length. cbn. lia. }
  rewrite EL. reflexivity.
Qed.

Lemma output_perm_m : output_perm_dims m = Ok (inverse perm).
Proof.
  unfold output_perm_dims, inverse. rewrite perm_m. apply mapM_ok. intros i J. apply in_seq in J.
  replace (memb i perm) with true; [reflexivity|]. symmetry. apply memb_In. destruct pok as (_ & E & M). apply M. lia.
Qed.
Lemma permuted_m s : length s = (r + 2)%nat -> permuted m s = Ok (gather perm s).
Proof.
  intro E. unfold permuted, gather. rewrite perm_m. apply mapM_ok. intros i J. destruct pok as (_ & _ & M). apply M in J.
  replace (i <? length s)%nat with true; [reflexivity|]. symmetry. apply Nat.ltb_lt. lia.
Qed.
Lemma d_model_m : d_model m = out.
Proof.
  destruct D as (_ & _ & _ & _ & _ & _ & _ & _ & _ & [E|[E F]] & _); unfold d_model; rewrite E; [reflexivity|].
  destruct fields as (bq & bk & bv & Eq & _). rewrite Eq, last_app. symmetry. exact F.
Qed.
Lemma mapM_list {T U} (f : T -> result U) (Q : nat -> U -> Prop) es n : length es = n ->
  (forall i d, (i < n)%nat -> exists u, f (nth i es d) = Ok u /\ Q i u) ->
  exists us, mapM f es = Ok us /\ length us = n /\ forall i d, (i < n)%nat -> Q i (nth i us d).
Proof.
  revert n Q. induction es as [|e es IH]; intros n Q E H; [exists []; cbn in E; split; [reflexivity|split; [exact E|intros; lia]]|].
  destruct n as [|n]; [discriminate E|]. destruct (H 0%nat e ltac:(lia)) as (u & Eu & Qu). cbn in Eu.
  destruct (IH n (fun i => Q (S i))) as (us & Es & Ls & Hs); [cbn in E; lia|intros i d L0; apply (H (S i) d); lia|].
  exists (u :: us). cbn. rewrite Eu. cbn. rewrite Es. split; [reflexivity|]. split; [cbn; lia|].
  intros [|i] d L0; [exact Qu|]. cbn. apply Hs. lia.
Qed.

Lemma attended_sum p (G : list nat -> R) : inb dq p ->
  sum_over (attended L dk p) G = rsum (prod YK) (fun s => G (mid r A (map (dim p) I) (unflat YK s))).
Proof.
  intro B. unfold attended. change (axes L) with A. rewrite (sum_over_perm _ _ G (attended_perm r A NA RA dq dk p eq_refl lk ltac:(intros a Ba Na; exact (proj2 (proj2 (proj2 AX)) a Ba Na)) B)).
  rewrite sum_over_map, rsum_list. reflexivity.
Qed.
Definition fac : R := / sqrt (INR (key_dim L)).
Definition projected_at (w b t : nd) (c : nat) (f : R) (d : list nat) (h n i s j : nat) : R :=
  rsum c (fun k => at_ t (n :: mid r A (unflat (map (dim d) I) i) (unflat (map (dim d) A) s) ++ [k]) * (at_ w [k; h; j] * f)) + at_ b [h; j] * f.
Lemma projected_scale w b t c f d h n i s j :
  projected_at w b t c f d h n i s j = f * projection w b t c h j n (mid r A (unflat (map (dim d) I) i) (unflat (map (dim d) A) s)).
Proof.
  unfold projected_at, projection. rewrite Rmult_plus_distr_l, <- rsum_scal. f_equal; [|ring]. apply rsum_ext. intros. ring.
Qed.
Lemma context_m x y z h n p e : inb dq p ->
  attend (prod YK) (key_dim L) (projected_at (q_kernel L) (q_bias L) x cq fac dq h) (projected_at (k_kernel L) (k_bias L) y ck 1 dk h)
    (projected_at (v_kernel L) (v_bias L) z cv 1 dk h) n (flat X (map (dim p) I)) (flat Y (map (dim p) A)) e
  = context L x y z cq ck cv dk h n p e.
Proof.
  intro B. assert (length p = r) as Lp by (rewrite (inb_length _ _ B); reflexivity).
  assert (inb X (map (dim p) I)) as BX by (apply (inb_dims r); [reflexivity|exact B|intros a J; apply (I_in r A) in J; exact (proj1 J)]).
  assert (inb Y (map (dim p) A)) as BY by (apply (inb_dims r); [reflexivity|exact B|exact RA]).
  assert (forall s', rsum (key_dim L) (fun c => projected_at (q_kernel L) (q_bias L) x cq fac dq h n (flat X (map (dim p) I)) (flat Y (map (dim p) A)) c
             * projected_at (k_kernel L) (k_bias L) y ck 1 dk h n (flat X (map (dim p) I)) s' c)
          = score L x y cq ck h n p (mid r A (map (dim p) I) (unflat YK s'))) as SC.
  { intro s'. unfold score. unfold Rdiv. rewrite Rmult_comm. fold fac. rewrite <- rsum_scal. apply rsum_ext. intros j _.
    rewrite !projected_scale. fold X Y YK. rewrite XK. rewrite !(unflat_flat _ _ BX), (unflat_flat _ _ BY). pose proof (mid_of r A RA p Lp) as MP. fold I in MP. rewrite MP. ring. }
  unfold context. rewrite attended_sum by exact B. unfold attend. cbv zeta. apply rsum_ext. intros s' _. unfold attention.
  rewrite attended_sum by exact B. rewrite SC. f_equal.
  - f_equal. apply rsum_ext. intros s'' _. rewrite SC. reflexivity.
  - rewrite projected_scale. fold YK. rewrite XK, (unflat_flat _ _ BX). ring.
Qed.
Lemma head_weights w h f c H F : shp w = [c; H; F] -> shp (head_kernel w h f) = [1; 1; c; F]%nat.
Proof. intro E. unfold head_kernel, size. rewrite E. reflexivity. Qed.

Lemma head_m ins q k v tq tk tv x y z B h : (h < heads L)%nat ->
  keval ins q = Ok tq -> keval ins k = Ok tk -> keval ins v = Ok tv ->
  is4 tq B (prod X) (prod Y) cq (fun b i s j => at_ x (b :: mid r A (unflat (map (dim dq) I) i) (unflat (map (dim dq) A) s) ++ [j])) ->
  is4 tk B (prod X) (prod YK) ck (fun b i s j => at_ y (b :: mid r A (unflat (map (dim dk) I) i) (unflat (map (dim dk) A) s) ++ [j])) ->
  is4 tv B (prod X) (prod YK) cv (fun b i s j => at_ z (b :: mid r A (unflat (map (dim dk) I) i) (unflat (map (dim dk) A) s) ++ [j])) ->
  exists e, head m q k v h = Ok e /\ exists u, keval ins e = Ok u /\ is4 u B (prod X) (prod Y) (value_dim L)
    (attend (prod YK) (key_dim L) (projected_at (q_kernel L) (q_bias L) x cq fac dq h) (projected_at (k_kernel L) (k_bias L) y ck 1 dk h)
       (projected_at (v_kernel L) (v_bias L) z cv 1 dk h)).
Proof.
  intros Lh Eq Ek Ev Iq Ik Iv.
  destruct D as (_ & UB & EH & Ed & Ee & _ & _ & _ & _ & _ & (W1 & W2 & W3 & W4 & W5 & W6 & _)).
  destruct WS as (S1 & S2 & S3 & S4 & S5 & S6 & _).
  unfold head, project_inputs.
  rewrite (weight_ok _ _ _ W1), (weight_ok _ _ _ W2), (weight_ok _ _ _ W3), (weight_ok _ _ _ W4), (weight_ok _ _ _ W5), (weight_ok _ _ _ W6).
  cbn [bind]. rewrite UB.
  destruct (conv_ok tq (head_kernel (q_kernel L) h fac) (head_bias (q_bias L) h fac) _ _ _ _ (key_dim L) _ Iq (head_weights _ h fac _ _ _ S1)) as (u1 & R1 & J1).
  destruct (conv_ok tk (head_kernel (k_kernel L) h 1) (head_bias (k_bias L) h 1) _ _ _ _ (key_dim L) _ Ik (head_weights _ h 1 _ _ _ S3)) as (u2 & R2 & J2).
  destruct (conv_ok tv (head_kernel (v_kernel L) h 1) (head_bias (v_bias L) h 1) _ _ _ _ (value_dim L) _ Iv (head_weights _ h 1 _ _ _ S5)) as (u3 & R3 & J3).
  rewrite <- (keval1 _ _ _ _ Eq) in R1. rewrite <- (keval1 _ _ _ _ Ek) in R2. rewrite <- (keval1 _ _ _ _ Ev) in R3.
  rewrite Ed, Ee. eexists. split; [reflexivity|].
  pose proof (head_ok m ins _ _ _ u1 u2 u3 B (prod X) (prod Y) (prod YK) (key_dim L) (value_dim L) _ _ _
    iter_prod_m q_prod_m kv_prod_m Ed Ee prod_pos R1 R2 R3 J1 J2 J3) as (u & E & J).
  exists u. split; [|exact J]. rewrite Ed, Ee in E. exact E.
Qed.
Lemma out_kernel : exists w, reshape (o_kernel L) [Some 1%nat; Some 1%nat; None; Some out] = Ok w /\ shp w = [1; 1; heads L * value_dim L; out]%nat /\
  forall h e o, (h < heads L)%nat -> (e < value_dim L)%nat -> (o < out)%nat -> at_ w [0; 0; h * value_dim L + e; o]%nat = at_ (o_kernel L) [h; e; o].
Proof.
  destruct WS as (_ & _ & _ & _ & _ & _ & S7 & _). unfold reshape, infer. rewrite S7. cbn [prod map existsb orb].
  replace (1 * (1 * (1 * (out * 1))))%nat with out by lia.
  replace (heads L * (value_dim L * (out * 1)))%nat with (heads L * value_dim L * out)%nat by lia.
  destruct (Nat.eqb_spec out 0) as [Z|_]; [lia|]. rewrite Nat.mod_mul, Nat.div_mul by lia. cbn [Nat.eqb bind prod].
  replace (1 * (1 * (heads L * value_dim L * (out * 1))) =? heads L * value_dim L * out)%nat with true by (symmetry; apply Nat.eqb_eq; lia).
  eexists. split; [reflexivity|]. split; [reflexivity|]. intros h e o Lh Le Lo. unfold reshape_to. cbn [at_]. rewrite S7. f_equal.
  rewrite <- (unflat_flat [heads L; value_dim L; out] [h; e; o]) by (apply inb3; auto). f_equal. cbn. lia.
Qed.
Lemma expand_ok ins inputs x y z B :
  nth_error ins 0 = Some x -> nth_error ins 1 = Some z ->
  (inputs = 3%nat /\ nth_error ins 2 = Some y \/ inputs = 2%nat /\ y = z /\ ck = cv) ->
  shp x = B :: dq ++ [cq] -> shp y = B :: dk ++ [ck] -> shp z = B :: dk ++ [cv] ->
  exists e t, expand m inputs = Ok e /\ keval ins e = Ok t /\ shp t = B :: dq ++ [out] /\
    forall n p o, (n < B)%nat -> inb dq p -> (o < out)%nat -> at_ t (n :: p ++ [o]) = layer_output L x y z cq ck cv dk n p o.
Proof.
  intros N0 N1 N2 Sx Sy Sz. destruct fields as (bq & bk & bv & Eq & Ek & Ev).
  destruct (standardized_ok ins 0 x B dq cq (prod X) (prod Y) N0 Sx eq_refl eq_refl eq_refl) as (tq & Kq & Iq).
  destruct (standardized_ok ins 1 z B dk cv (prod X) (prod YK) N1 Sz lk (f_equal prod XK) eq_refl) as (tv & Kv & Iv).
  set (v := standardized m (v_reshape m) 1). set (q := standardized m (q_reshape m) 0).
  assert (q_reshape m = [prod X; prod Y; cq]) as QR by (unfold q_reshape; rewrite iter_prod_m, q_prod_m, Eq, last_app; reflexivity).
  assert (v_reshape m = [prod X; prod YK; cv]) as VR by (unfold v_reshape; rewrite iter_prod_m, kv_prod_m, Ev, last_app; reflexivity).
  assert (k_reshape m = [prod X; prod YK; ck]) as KR by (unfold k_reshape; rewrite iter_prod_m, kv_prod_m, Ek, last_app; reflexivity).
  set (k := if Nat.eqb inputs 3 then standardized m (k_reshape m) 2 else v).
  assert (exists tk, keval ins k = Ok tk /\ is4 tk B (prod X) (prod YK) ck
     (fun b i s j => at_ y (b :: mid r A (unflat (map (dim dk) I) i) (unflat (map (dim dk) A) s) ++ [j]))) as (tk & Kk & Ik).
  { unfold k. destruct N2 as [[-> Ny]|(-> & -> & Ec)]; cbn [Nat.eqb].
    - rewrite KR. exact (standardized_ok ins 2 y B dk ck (prod X) (prod YK) Ny Sy lk (f_equal prod XK) eq_refl).
    - exists tv. unfold v. rewrite VR, Ec. split; [exact Kv|exact Iv]. }
  assert (keval ins q = Ok tq) as Kq' by (unfold q; rewrite QR; exact Kq).
  assert (keval ins v = Ok tv) as Kv' by (unfold v; rewrite VR; exact Kv).
  destruct (mapM_seq (head m q k v) (fun h e => exists u, keval ins e = Ok u /\ is4 u B (prod X) (prod Y) (value_dim L)
    (attend (prod YK) (key_dim L) (projected_at (q_kernel L) (q_bias L) x cq fac dq h) (projected_at (k_kernel L) (k_bias L) y ck 1 dk h)
       (projected_at (v_kernel L) (v_bias L) z cv 1 dk h))) (heads L)) as (hs & Mh & Lh & Hh).
  { intros h Bh. exact (head_m ins q k v tq tk tv x y z B h Bh Kq' Kk Kv' Iq Ik Iv). }
  destruct (mapM_list (keval ins) _ hs (heads L) Lh Hh) as (us & Mu & Lu & Hu). cbv beta in Hu.
  destruct (concat_ok us (heads L) B (prod X) (prod Y) (value_dim L) _ Lu PH PV Hu) as (tc & Rc & Ic).
  destruct out_kernel as (w & Ew & Sw & Aw).
  destruct D as (RU & UB & EH & _ & _ & _ & _ & _ & _ & _ & (_ & _ & _ & _ & _ & _ & W7 & W8)).
  destruct (conv_ok tc w (o_bias L) _ _ _ _ out _ Ic Sw) as (to & Ro & Io).
  assert (keval ins (KOp (KConv out true w (o_bias L)) [KOp KConcat hs]) = Ok to) as Eo.
  { rewrite <- Ro. apply keval1. rewrite keval_op, Mu. cbn [bind]. exact Rc. }
  assert (length (k_qshape m) = r + 2 /\ length (k_kshape m) = r + 2 /\ length (k_vshape m) = r + 2)%nat as (LQ & LK & LV).
  { rewrite Eq, Ek, Ev. cbn. rewrite !app_length, lk. cbn. fold r. lia. }
  assert (removelast (tl (gather perm (k_qshape m))) = X ++ Y) as RT.
  { rewrite Eq, (gf dq bq cq eq_refl). cbn [tl]. rewrite app_assoc. apply removelast_last. }
  set (ro := reshape_to to (B :: X ++ Y ++ [out])).
  assert (keval ins (KOp (KReshape (X ++ Y ++ [out])) [KOp (KConv out true w (o_bias L)) [KOp KConcat hs]]) = Ok ro) as Er.
  { rewrite (keval1 _ _ _ _ Eo). cbn [krun]. rewrite (proj1 Io).
    replace (prod (X ++ Y ++ [out]) =? prod [prod X; prod Y; out])%nat with true by (symmetry; apply Nat.eqb_eq; rewrite !prod_app; cbn; lia).
    reflexivity. }
  pose proof (inverse_perm perm (r + 2) pok) as PI.
  assert (0%nat :: tl (inverse perm) = inverse perm) as TI by reflexivity.
  assert (keval ins (KOp (KPermute (tl (inverse perm))) [KOp (KReshape (X ++ Y ++ [out])) [KOp (KConv out true w (o_bias L)) [KOp KConcat hs]]])
          = Ok (transpose (inverse perm) ro)) as Et.
  { rewrite (keval1 _ _ _ _ Er). cbn [krun]. unfold sub_dims. cbn [shp ro reshape_to length]. rewrite !app_length. cbn [length].
    pose proof (IA_length r A NA RA) as IL. rewrite app_length in IL. fold I in IL.
    unfold X, Y. rewrite !map_length. destruct PI as (_ & PL & PM).
    assert (length (tl (inverse perm)) = r + 1)%nat as TL by (rewrite <- TI in PL; cbn [length] in PL; lia).
    rewrite TL. replace (r + 1 =? S (length I + (length A + 1)) - 1)%nat with true by (symmetry; apply Nat.eqb_eq; lia). cbn [andb].
    replace (forallb (fun a => memb a (tl (inverse perm))) (seq 1 (S (length I + (length A + 1)) - 1))) with true; [rewrite TI; reflexivity|].
    symmetry. apply forallb_forall. intros a J. apply in_seq in J. apply memb_In.
    assert (In a (inverse perm)) as Q by (apply PM; lia). rewrite <- TI in Q. destruct Q as [Q|Q]; [lia|exact Q]. }
  eexists. exists (transpose (inverse perm) ro). split; [|split; [exact Et|split]].
  - unfold expand. rewrite RU, output_perm_m. cbn [bind]. rewrite (permuted_m _ LQ). cbn [bind]. rewrite (permuted_m _ LK). cbn [bind].
    rewrite (permuted_m _ LV). cbn [bind].
    replace (negb ((inputs =? 2) || (inputs =? 3))%nat) with false by (destruct N2 as [[-> _]|(-> & _)]; reflexivity).
    cbv zeta. fold q v. fold k. rewrite EH, Mh. cbn [bind]. unfold project_output. rewrite (weight_ok _ _ _ W7). cbn [bind].
    rewrite d_model_m, Ew. cbn [bind]. rewrite (weight_ok _ _ _ W8). cbn [bind]. rewrite RT, UB, <- app_assoc. reflexivity.
  - cbn [transpose shp ro reshape_to].
    change (gather (inverse perm) (B :: X ++ Y ++ [out]) = B :: dq ++ [out]).
    unfold X, Y. rewrite <- (gf dq B out eq_refl).
    apply (gather_inverse perm (r + 2)); [exact pok|]. cbn. rewrite app_length. cbn. fold r. lia.
  - intros n p o Ln Bp Lo. assert (length p = r) as Lp by (rewrite (inb_length _ _ Bp); reflexivity).
    assert (inb X (map (dim p) I)) as BX by (apply (inb_dims r); [reflexivity|exact Bp|intros a J; apply (I_in r A) in J; exact (proj1 J)]).
    assert (inb Y (map (dim p) A)) as BY by (apply (inb_dims r); [reflexivity|exact Bp|exact RA]).
    cbn [transpose at_ ro reshape_to shp].
    replace (length (B :: X ++ Y ++ [out])) with (length (inverse perm)).
    2:{ rewrite (proj1 (proj2 PI)). cbn. rewrite !app_length. unfold X, Y. rewrite !map_length. cbn.
        pose proof (IA_length r A NA RA) as IL. rewrite app_length in IL. fold I in IL. lia. }
    change (at_ to (unflat (shp to) (flat (B :: X ++ Y ++ [out]) (scatter (inverse perm) (n :: p ++ [o])))) = layer_output L x y z cq ck cv dk n p o).
    rewrite (scatter_inverse perm (r + 2)) by exact pok. rewrite (gf p n o Lp).
    rewrite (proj1 Io), unfold_index by assumption. rewrite (proj2 Io) by (try assumption; apply flat_lt; assumption).
    unfold layer_output. f_equal. rewrite rsum_blocks by exact PV. apply rsum_ext. intros h Bh. apply rsum_ext. intros e Be.
    rewrite (Aw h e o Bh Be Lo). rewrite Nat.div_add_l, Nat.div_small, Nat.add_0_r by lia.
    rewrite (Nat.add_comm (h * value_dim L)), Nat.mod_add, Nat.mod_small by lia.
    rewrite context_m by exact Bp. reflexivity.
Qed.
End Main.
