(* GenProps.v -- C89: the images data generation returns. *)
From Coq Require Import Reals Lra Lia List Permutation.
From Verif Require Import Nd.
From Verif Require Import Base GenModel GenSpec GenProofs.
Import ListNotations.
Open Scope R_scope.
Open Scope res_scope.

Lemma size_is_pair a p : size_is a p <-> pair_of a = Ok p.
Proof.
  split; [intros []; reflexivity|]. destruct a as [n|l|]; [|destruct l as [|h [|w [|]]]|]; cbn; intro E; try discriminate; injection E as <-; constructor.
Qed.
Lemma visits n b it : (0 < b)%nat -> (0 < n)%nat -> full_iteration n b it -> it <> [] /\ Forall (fun u : update => (fst u * b < n)%nat) it.
Proof.
  intros B N P. unfold full_iteration in P. split.
  - intros ->. apply Permutation_nil in P. assert (1 <= (n + b - 1) / b)%nat by (apply Nat.div_le_lower_bound; lia). destruct ((n + b - 1) / b)%nat; [lia|discriminate].
  - apply Forall_forall. intros u Hu. assert (In (fst u) (seq 0 ((n + b - 1) / b))) as I by (eapply Permutation_in; [exact P|apply in_map; exact Hu]).
    apply in_seq in I. assert (S (fst u) <= (n + b - 1) / b)%nat as D by lia.
    apply (Nat.mul_le_mono_l _ _ b) in D. pose proof (Nat.mul_div_le (n + b - 1) b ltac:(lia)). nia.
Qed.
Lemma visits_all n b iters : (0 < b)%nat -> (0 < n)%nat -> Forall (full_iteration n b) iters ->
  Forall (fun u : update => (fst u * b < n)%nat) (concat iters) /\ existsb (fun it : list update => match it with [] => true | _ => false end) iters = false.
Proof.
  intros B N F. induction F as [|it r P F [IH1 IH2]]; [split; [constructor|reflexivity]|]. destruct (visits n b it B N P) as [V1 V2]. cbn. split; [apply Forall_app; split; assumption|].
  destruct it; [congruence|exact IH2].
Qed.
(* the batches at the end of the steps *)
Lemma generate_form f g size out extra n sample iters : size_is size out -> size_is (g_extra g) extra -> (0 < g_batch g)%nat -> (0 < n)%nat ->
  (f = GTorch -> iters <> []) -> Forall (full_iteration n (g_batch g)) iters ->
  generate f g size n sample iters =
  collect f g out (chunks n (g_batch g) (map (fun i => Nd (init_shape f (input_size (g_pipe g) out extra)) (current (g_batch g) sample (concat iters) i)) (seq 0 n))).
Proof.
  intros S E B N I F. apply size_is_pair in S. apply size_is_pair in E. unfold generate. rewrite S, E. cbn [bind].
  unfold batches. destruct (g_batch g) as [|b'] eqn:Eb; [lia|]. rewrite <- Eb in *. cbn [bind]. rewrite map_length, seq_length.
  destruct (visits_all n (g_batch g) iters B N F) as [V X].
  replace (match f with GTorch => match concat iters with [] => true | _ => false end | GKeras => existsb (fun it => match it with [] => true | _ => false end) iters end) with false.
  - rewrite (steps_chunks (g_batch g) B _ n n) by (try lia; exact V). reflexivity.
  - destruct f; [|symmetry; exact X]. destruct iters as [|it r]; [destruct (I eq_refl eq_refl)|]. inversion F as [|? ? P _]; subst.
    destruct (visits n (g_batch g) it B N P) as [V1 _]. destruct it; [congruence|reflexivity].
Qed.
Definition fin_of (f : gfw) (g : gcfg) (out : nat * nat) (im : nd) : nd := match finalize f g out im with Ok r => r | Err _ => im end.
Lemma fin_torch g out im : finalize GTorch g out im = Ok (fin_of GTorch g out im).
Proof. unfold fin_of, finalize. destruct (g_pipe g); [reflexivity|]. destruct (g_clip g); reflexivity. Qed.
Lemma fin_keras g out im : g_pipe g = P_identity \/ g_clip g = false -> finalize GKeras g out im = Ok (fin_of GKeras g out im).
Proof. unfold fin_of, finalize. destruct (g_pipe g); [reflexivity|]. intros [H|H]; [discriminate|rewrite H; reflexivity]. Qed.
Lemma nth_map_seq {A} (G : nat -> A) n i d : (i < n)%nat -> nth i (map G (seq 0 n)) d = G i.
Proof. intro H. rewrite nth_indep with (d' := G 0%nat) by (rewrite map_length, seq_length; exact H). rewrite (map_nth G), seq_nth by exact H. reflexivity. Qed.
Definition no_image : nd := Nd [] (fun _ => 0).

(* PyTorch, with smoothing: exactly n images of the asked size come back; image i is made of the values last assigned to
   place i mod b of batch i / b: smoothed, cut out of the middle and, if asked for, clipped to the range of valid pixels of
   its channel. *)
Theorem torch_images_returned : forall g size H W eh ew m n sample iters,
  size_is size (H, W) -> size_is (g_extra g) (eh, ew) -> g_pipe g = P_smooth -> g_k g = (2 * m + 1)%nat ->
  (0 < g_batch g)%nat -> (0 < n)%nat -> iters <> [] -> Forall (full_iteration n (g_batch g)) iters ->
  exists imgs top left, generate GTorch g size n sample iters = Ok imgs /\ length imgs = n /\
    centred (H + (eh + 32)) H top /\ centred (W + (ew + 32)) W left /\
    forall i, (i < n)%nat -> shp (nth i imgs no_image) = [1; 3; H; W]%nat /\
      forall c y x, (c < 3)%nat -> (y < H)%nat -> (x < W)%nat ->
        let v := current (g_batch g) sample (concat iters) i in
        let z := blurred m (g_sigma g) (H + (eh + 32)) (W + (ew + 32)) (fun a b => v [c; a; b]) (Z.of_nat (y + top)) (Z.of_nat (x + left)) in
        let p := at_ (nth i imgs no_image) [0%nat; c; y; x] in
        if g_clip g then 0 < snd (g_norm g c) ->
          clipped ((0 - fst (g_norm g c)) / snd (g_norm g c)) ((255 - fst (g_norm g c)) / snd (g_norm g c)) z p
        else p = z.
Proof.
  intros g size H W eh ew m n sample iters S E P K B N I F.
  rewrite (generate_form GTorch g size (H, W) (eh, ew) n sample iters S E B N (fun _ => I) F).
  rewrite (collect_torch (g_batch g) B g (H, W) (fin_of GTorch g (H, W)) (fin_torch g (H, W))) by lia.
  exists (map (fun i => framed (fin_of GTorch g (H, W) (Nd (init_shape GTorch (input_size (g_pipe g) (H, W) (eh, ew))) (current (g_batch g) sample (concat iters) i)))) (seq 0 n)),
    (crop_offset GTorch (eh + 32)), (crop_offset GTorch (ew + 32)).
  split; [reflexivity|]. split; [rewrite map_length, seq_length; reflexivity|]. split; [apply offset_centred|]. split; [apply offset_centred|].
  intros i Hi. rewrite nth_map_seq by exact Hi. rewrite P. cbn [input_size fst snd init_shape]. unfold framed, fin_of, finalize. rewrite P, K.
  destruct (half_odd m) as (h1 & _ & _).
  assert (forall a, (a + 2 * ((2 * m + 1) / 2) + 1 - (2 * m + 1) = a)%nat) as Ha by (intro a; rewrite h1; lia).
  cbn [smooth shp]. rewrite !Ha. cbn [center_crop shp fst snd].
  split; [destruct (g_clip g); reflexivity|]. intros c y x Hc Hy Hx. set (v := current (g_batch g) sample (concat iters) i).
  set (z := blurred m (g_sigma g) (H + (eh + 32)) (W + (ew + 32)) (fun a b => v [c; a; b]) (Z.of_nat (y + crop_offset GTorch (eh + 32))) (Z.of_nat (x + crop_offset GTorch (ew + 32)))).
  assert (convolve (2 * m + 1) ((2 * m + 1) / 2) (H + eh + 32) (W + ew + 32) (g_sigma g) (fun a b => v [c; a; b]) (y + crop_offset GTorch (H + eh + 32 - H)) (x + crop_offset GTorch (W + ew + 32 - W)) = z) as Z.
  { rewrite h1, convolve_blurred. unfold z. replace (H + eh + 32 - H)%nat with (eh + 32)%nat by lia. replace (W + ew + 32 - W)%nat with (ew + 32)%nat by lia.
    replace (H + eh + 32)%nat with (H + (eh + 32))%nat by lia. replace (W + ew + 32)%nat with (W + (ew + 32))%nat by lia. reflexivity. }
  destruct (g_clip g).
  - intro Sd. cbn [clip_images at_ shp tl]. cbn beta iota. fold v. fold z. rewrite Z. apply into_grid_clipped. exact Sd.
  - cbn [at_ tl]. exact Z.
Qed.
Print Assumptions torch_images_returned.

(* Keras, with smoothing and without clipping, when the number of images is a multiple of the batch size. *)
Theorem keras_images_returned : forall g size H W eh ew m q n sample iters,
  size_is size (H, W) -> size_is (g_extra g) (eh, ew) -> g_pipe g = P_smooth -> g_clip g = false -> g_k g = (2 * m + 1)%nat ->
  (0 < g_batch g)%nat -> (0 < n)%nat -> n = (q * g_batch g)%nat -> Forall (full_iteration n (g_batch g)) iters ->
  exists imgs top left, generate GKeras g size n sample iters = Ok imgs /\ length imgs = n /\
    centred (H + eh) H top /\ centred (W + ew) W left /\
    forall i, (i < n)%nat -> shp (nth i imgs no_image) = [1; H; W; 3]%nat /\
      forall c y x, (c < 3)%nat -> (y < H)%nat -> (x < W)%nat ->
        let v := current (g_batch g) sample (concat iters) i in
        at_ (nth i imgs no_image) [0%nat; y; x; c] =
        blurred m (g_sigma g) (H + eh) (W + ew) (fun a b => v [a; b; c]) (Z.of_nat (y + top)) (Z.of_nat (x + left)).
Proof.
  intros g size H W eh ew m q n sample iters S E P Cl K B N Q F.
  rewrite (generate_form GKeras g size (H, W) (eh, ew) n sample iters S E B N ltac:(discriminate) F).
  rewrite (collect_keras (g_batch g) B g (H, W) (fin_of GKeras g (H, W)) eq_refl (fun im => fin_keras g (H, W) im (or_intror Cl)) n q) by (try lia; exact Q).
  exists (map (fun i => framed (fin_of GKeras g (H, W) (Nd (init_shape GKeras (input_size (g_pipe g) (H, W) (eh, ew))) (current (g_batch g) sample (concat iters) i)))) (seq 0 n)),
    (crop_offset GKeras eh), (crop_offset GKeras ew).
  split; [reflexivity|]. split; [rewrite map_length, seq_length; reflexivity|]. split; [apply offset_centred|]. split; [apply offset_centred|].
  intros i Hi. rewrite nth_map_seq by exact Hi. rewrite P. cbn [input_size fst snd init_shape]. unfold framed, fin_of, finalize. rewrite P, K, Cl.
  destruct (half_odd m) as (_ & h1 & _). cbn [smooth shp center_crop fst snd]. split; [reflexivity|]. intros c y x Hc Hy Hx.
  cbn [at_ tl]. rewrite h1, convolve_blurred. replace (H + eh - H)%nat with eh by lia. replace (W + ew - W)%nat with ew by lia. reflexivity.
Qed.
Print Assumptions keras_images_returned.

(* Without a pipeline the optimized values come back as they are; in Keras they have the asked size. *)
Theorem keras_identity_returned : forall g size H W eh ew q n sample iters,
  size_is size (H, W) -> size_is (g_extra g) (eh, ew) -> g_pipe g = P_identity ->
  (0 < g_batch g)%nat -> (0 < n)%nat -> n = (q * g_batch g)%nat -> Forall (full_iteration n (g_batch g)) iters ->
  exists imgs, generate GKeras g size n sample iters = Ok imgs /\ length imgs = n /\
    forall i, (i < n)%nat -> shp (nth i imgs no_image) = [1; H; W; 3]%nat /\
      forall idx, at_ (nth i imgs no_image) (0%nat :: idx) = current (g_batch g) sample (concat iters) i idx.
Proof.
  intros g size H W eh ew q n sample iters S E P B N Q F.
  rewrite (generate_form GKeras g size (H, W) (eh, ew) n sample iters S E B N ltac:(discriminate) F).
  rewrite (collect_keras (g_batch g) B g (H, W) (fin_of GKeras g (H, W)) eq_refl (fun im => fin_keras g (H, W) im (or_introl P)) n q) by (try lia; exact Q).
  eexists. split; [reflexivity|]. split; [rewrite map_length, seq_length; reflexivity|].
  intros i Hi. rewrite nth_map_seq by exact Hi. unfold framed, fin_of, finalize. rewrite P. split; [reflexivity|]. reflexivity.
Qed.
Print Assumptions keras_identity_returned.

(* Smoothing leaves every pixel in any range that contains black and all pixels of the image. *)
Theorem smoothing_stays_in_range : forall f m sigma h w c im lo hi,
  shp im = match f with GTorch => [c; h; w] | GKeras => [h; w; c] end -> lo <= 0 <= hi ->
  (forall idx, inb (shp im) idx -> lo <= at_ im idx <= hi) ->
  shp (smooth f (2 * m + 1) sigma im) = shp im /\ forall idx, inb (shp im) idx -> lo <= at_ (smooth f (2 * m + 1) sigma im) idx <= hi.
Proof.
  intros f m sigma h w c im lo hi Sh Z H. destruct (half_odd m) as (h1 & h2 & _). unfold smooth. destruct f; rewrite Sh.
  - split; [cbn [shp]; rewrite h1; do 2 f_equal; [lia|f_equal; lia]|]. intros idx I. inversion I as [|? cc ? r1 C1 I1]; subst. inversion I1 as [|? y ? r2 C2 I2]; subst. inversion I2 as [|? x ? r3 C3 I3]; subst. inversion I3; subst.
    cbn [at_]. rewrite h1, convolve_blurred. apply blurred_range; [exact Z|]. intros a b Ha Hb. apply H. rewrite Sh. repeat constructor; assumption.
  - split; [reflexivity|]. intros idx I. inversion I as [|? y ? r1 C1 I1]; subst. inversion I1 as [|? x ? r2 C2 I2]; subst. inversion I2 as [|? cc ? r3 C3 I3]; subst. inversion I3; subst.
    cbn [at_]. rewrite h2, convolve_blurred. apply blurred_range; [exact Z|]. intros a b Ha Hb. apply H. rewrite Sh. repeat constructor; assumption.
Qed.
Print Assumptions smoothing_stays_in_range.

(* Sizes that are neither a number nor a tuple of one or two numbers are refused. *)
Theorem sizes_refused : forall f g size n sample iters,
  ((~ exists p, size_is size p) \/ (~ exists p, size_is (g_extra g) p)) -> generate f g size n sample iters = Err E_critical.
Proof.
  intros f g size n sample iters H. unfold generate.
  assert (forall a, (exists p, size_is a p) \/ pair_of a = Err E_critical) as D.
  { intro a. destruct a as [k|l|]; [left; eexists; constructor|destruct l as [|h [|w [|]]]|right; reflexivity]; try (right; reflexivity); left; eexists; constructor. }
  destruct (D size) as [[p Hp]|Es]; [|rewrite Es; reflexivity]. destruct H as [H|H]; [destruct H; eauto|].
  apply size_is_pair in Hp. rewrite Hp. destruct (D (g_extra g)) as [[p' Hp']|Ee]; [destruct H; eauto|]. cbn [bind]. rewrite Ee. reflexivity.
Qed.
Print Assumptions sizes_refused.

(* ---- instances ---- *)
Definition demo (p : pipe) (clip : bool) : gcfg := GCfg p (Z_int 2) clip (fun _ => (255/2, 255/2)) 2 3 (5/4).
Definition demo_iter : list update := [(1%nat, fun _ _ => 1); (0%nat, fun p _ => INR p)].
Example demo_iteration : full_iteration 4 2 demo_iter.
Proof. unfold full_iteration. cbn. apply perm_swap. Qed.
Example demo_iteration_uneven : full_iteration 3 2 demo_iter.
Proof. unfold full_iteration. cbn. apply perm_swap. Qed.
Example demo_current : current 2 (fun _ _ => 7) demo_iter 0 [] = 0 /\ current 2 (fun _ _ => 7) demo_iter 1 [] = 1 /\ current 2 (fun _ _ => 7) demo_iter 2 [] = 1.
Proof. repeat split; reflexivity. Qed.
Example demo_runs : forall s, exists imgs, generate GTorch (demo P_smooth true) (Z_tuple [5; 7]%nat) 3 s [demo_iter] = Ok imgs /\ length imgs = 3%nat.
Proof.
  intro s. destruct (torch_images_returned (demo P_smooth true) (Z_tuple [5; 7]%nat) 5 7 2 2 1 3 s [demo_iter]) as (imgs & t & l & E & L & _); try (cbn; lia); try constructor; try reflexivity; try discriminate; [|constructor|].
  - cbn. apply perm_swap.
  - exists imgs. auto.
Qed.

(* ---- where the claim fails ---- *)
(* FINDING (data_generation/keras/optimization_utils.py L282): the last batch is split into batch_size pieces too, so
   generating a number of images that is not a multiple of the batch size fails after the whole optimization. *)
Theorem keras_remainder_refuted : forall g size H W eh ew n sample iters,
  size_is size (H, W) -> size_is (g_extra g) (eh, ew) -> (g_pipe g = P_identity \/ g_clip g = false) ->
  (0 < g_batch g)%nat -> (n mod g_batch g <> 0)%nat -> Forall (full_iteration n (g_batch g)) iters ->
  generate GKeras g size n sample iters = Err E_value.
Proof.
  intros g size H W eh ew n sample iters S E P B Nz F.
  assert (0 < n)%nat as N by (destruct n; [rewrite Nat.mod_0_l in Nz by lia; lia|lia]).
  rewrite (generate_form GKeras g size (H, W) (eh, ew) n sample iters S E B N ltac:(discriminate) F).
  apply (collect_keras_rest (g_batch g) B g (H, W) (fin_of GKeras g (H, W)) eq_refl (fun im => fin_keras g (H, W) im P)); [lia|exact Nz].
Qed.
Print Assumptions keras_remainder_refuted.

(* FINDING (data_generation/keras/image_operations.py L96-110): clipping indexes rows of the image as if they were channels.
   With image_clipping every image comes back black from the fourth row on, whatever was optimized. *)
Theorem keras_clipping_refuted : forall g out im r, g_pipe g = P_smooth -> g_clip g = true -> length (shp im) = 3%nat ->
  finalize GKeras g out im = Ok r -> forall y x c, (3 <= y)%nat -> at_ r [y; x; c] = 0.
Proof.
  intros g out im r P C L E y x c Hy. unfold finalize in E. rewrite P, C in E. unfold clip_images in E. destruct (Nat.ltb _ 3); [discriminate|].
  injection E as <-. cbn [at_]. destruct (Nat.ltb_spec y 3); [lia|reflexivity].
Qed.
Print Assumptions keras_clipping_refuted.

(* FINDING (data_generation/pytorch/optimization_functions/image_initilization.py L106, L123): 32 pixels are always added to
   the initial size.  The smoothing pipeline cuts them off; with the identity pipeline the images come back 32 pixels larger
   in each direction than asked for, and image_clipping has no effect. *)
Theorem torch_identity_size_refuted : forall g size H W eh ew n sample iters,
  size_is size (H, W) -> size_is (g_extra g) (eh, ew) -> g_pipe g = P_identity ->
  (0 < g_batch g)%nat -> (0 < n)%nat -> iters <> [] -> Forall (full_iteration n (g_batch g)) iters ->
  exists imgs, generate GTorch g size n sample iters = Ok imgs /\
    forall i, (i < n)%nat -> shp (nth i imgs no_image) = [1; 3; H + 32; W + 32]%nat /\
      forall idx, at_ (nth i imgs no_image) (0%nat :: idx) = current (g_batch g) sample (concat iters) i idx.
Proof.
  intros g size H W eh ew n sample iters S E P B N I F.
  rewrite (generate_form GTorch g size (H, W) (eh, ew) n sample iters S E B N (fun _ => I) F).
  rewrite (collect_torch (g_batch g) B g (H, W) (fin_of GTorch g (H, W)) (fin_torch g (H, W))) by lia.
  eexists. split; [reflexivity|]. intros i Hi. rewrite nth_map_seq by exact Hi. unfold framed, fin_of, finalize. rewrite P. split; reflexivity.
Qed.
Print Assumptions torch_identity_size_refuted.

(* FINDING (data_generation/pytorch/pytorch_data_generation.py L361): the last loss is read after the loops, so a run of zero
   iterations fails instead of returning the initial images. *)
Theorem no_iteration_refuted : forall size sample, size_is size (4, 4)%nat -> generate GTorch (demo P_smooth true) size 2 sample [] = Err E_runtime.
Proof. intros size sample S. apply size_is_pair in S. unfold generate. rewrite S. reflexivity. Qed.
Print Assumptions no_iteration_refuted.
