(* ExportProofs.v -- parameters of entries: flattening, broadcasting, exchange of axes, and one entry at a time. *)
From Coq Require Import String.
From Verif Require Import Nd.
From Verif Require Import Base RoundQ RoundQFacts QuantModel QuantProofs QuantSpec QuantLemmas LutModel LutProofs FakeQModel FakeQSpec FakeQProofs FakeQProps ExportModel ExportSpec.
From Coq Require Import Qround Qpower Qabs Lia Lqa.
Open Scope Q_scope.

(* ---- flattening ---- *)
Lemma flatten_length t : length (flatten_list t) = prod (q_shape t).
Proof. unfold flatten_list. rewrite map_length, seq_length. reflexivity. Qed.
Lemma flatten_nth t idx : inb (q_shape t) idx -> nth (flat (q_shape t) idx) (flatten_list t) 0 = q_at t idx.
Proof.
  intro H. pose proof (flat_lt _ _ H) as L. unfold flatten_list.
  rewrite nth_indep with (d' := q_at t (unflat (q_shape t) 0)) by (rewrite map_length, seq_length; exact L).
  rewrite (map_nth (fun k => q_at t (unflat (q_shape t) k))), seq_nth by exact L. cbn [plus]. rewrite unflat_flat by exact H. reflexivity.
Qed.
Lemma flatten_in t v : In v (flatten_list t) -> exists idx, inb (q_shape t) idx /\ v = q_at t idx.
Proof.
  unfold flatten_list. rewrite in_map_iff. intros (k & <- & Hk). apply in_seq in Hk. cbn in Hk. exists (unflat (q_shape t) k).
  split; [apply flat_unflat; lia|reflexivity].
Qed.
Lemma in_flatten t idx : inb (q_shape t) idx -> In (q_at t idx) (flatten_list t).
Proof. intro H. rewrite <- (flatten_nth t idx H). apply nth_In. rewrite flatten_length. apply flat_lt. exact H. Qed.

Lemma prod_ones r : prod (repeat 1%nat r) = 1%nat.
Proof. induction r; cbn [repeat prod]; lia. Qed.
Lemma inb_ones r : inb (repeat 1%nat r) (repeat 0%nat r).
Proof. induction r; constructor; [lia|assumption]. Qed.
Lemma prod_pcs a b C : prod (repeat 1%nat a ++ C :: repeat 1%nat b) = C.
Proof. induction a; cbn [repeat prod app]; [rewrite prod_ones|]; lia. Qed.
Lemma flat_ones r : flat (repeat 1%nat r) (repeat 0%nat r) = 0%nat.
Proof. induction r; cbn [repeat flat]; lia. Qed.
Lemma flat_pcs a b C i : flat (repeat 1%nat a ++ C :: repeat 1%nat b) (repeat 0%nat a ++ i :: repeat 0%nat b) = i.
Proof. induction a; cbn [repeat flat app]; [rewrite prod_ones, flat_ones|]; lia. Qed.
Lemma inb_pcs a b C i : (i < C)%nat -> inb (repeat 1%nat a ++ C :: repeat 1%nat b) (repeat 0%nat a ++ i :: repeat 0%nat b).
Proof. intro H. induction a; cbn [repeat app]; constructor; [exact H|apply inb_ones|lia|assumption]. Qed.
Lemma mask_ones r l : length l = r -> mask (repeat 1%nat r) l = repeat 0%nat r.
Proof. revert l. induction r; intros [|x l] H; cbn in *; try lia; [reflexivity|]. f_equal. apply IHr. lia. Qed.
Lemma mask_pcs a b C l : length l = (a + S b)%nat -> (nth a l 0 < C)%nat ->
  mask (repeat 1%nat a ++ C :: repeat 1%nat b) l = repeat 0%nat a ++ nth a l 0%nat :: repeat 0%nat b.
Proof.
  revert l. induction a; intros [|x l] H L; cbn [length] in *; try lia.
  - cbn [repeat app mask nth] in *. rewrite mask_ones by lia. f_equal. destruct (Nat.eqb_spec C 1); lia.
  - cbn [repeat app mask nth] in *. rewrite IHa by (try exact L; lia). reflexivity.
Qed.
Lemma dims_fit_ones r ws : length ws = r -> dims_fit (repeat 1%nat r) ws = true.
Proof. revert ws. induction r; intros [|w ws] H; cbn in *; try lia; try reflexivity. apply IHr. lia. Qed.
Lemma dims_fit_pcs a b ws : length ws = (a + S b)%nat -> dims_fit (repeat 1%nat a ++ nth a ws 0%nat :: repeat 1%nat b) ws = true.
Proof.
  revert ws. induction a; intros [|w ws] H; cbn [length] in *; try lia; cbn [repeat app dims_fit nth].
  - rewrite Nat.eqb_refl, Bool.orb_true_r. apply dims_fit_ones. lia.
  - cbn [Nat.eqb orb andb]. apply IHa. lia.
Qed.
Lemma inb_nth s idx a : inb s idx -> (a < length s)%nat -> (nth a idx 0 < nth a s 0)%nat.
Proof. intro H. revert a. induction H; intros [|a] L; cbn in *; try lia. apply IHForall2. lia. Qed.

(* ---- the parameter of an entry ---- *)
Section Param.
  Variables (c : acfg) (w p : qt).
  Hypothesis G : goes_with c w p.
  Lemma gw_fits : fits p (q_shape w) = true.
  Proof.
    unfold goes_with in G. unfold fits. destruct (ac_per_channel c).
    - destruct G as (a & _ & L & ->). unfold per_channel_shape.
      rewrite app_length, repeat_length. cbn [length]. rewrite repeat_length.
      replace (length (q_shape w) - (a + S (length (q_shape w) - a - 1)))%nat with 0%nat by lia. cbn [skipn].
      rewrite dims_fit_pcs by lia. rewrite Bool.andb_true_r. apply Nat.leb_le. lia.
    - destruct G as (r & L & ->). rewrite repeat_length, dims_fit_ones by (rewrite skipn_length; lia). rewrite Bool.andb_true_r. apply Nat.leb_le. exact L.
  Qed.
  Lemma gw_bget idx : inb (q_shape w) idx -> bget p idx = param_at c p idx.
  Proof.
    intro H. pose proof (inb_length _ _ H) as Li. unfold goes_with in G. unfold bget, param_at. destruct (ac_per_channel c).
    - destruct G as (a & -> & L & E). rewrite E. unfold per_channel_shape at 1 2 3. rewrite app_length, repeat_length. cbn [length]. rewrite repeat_length.
      replace (length idx - (a + S (length (q_shape w) - a - 1)))%nat with 0%nat by lia. cbn [skipn].
      rewrite mask_pcs; [|lia|apply inb_nth; assumption].
      do 5 f_equal. unfold per_channel_shape. rewrite ?app_length, ?repeat_length. cbn [length]. rewrite ?repeat_length. lia.
    - destruct G as (r & L & E). rewrite E, repeat_length. rewrite mask_ones by (rewrite skipn_length; lia). reflexivity.
  Qed.
  (* the position of the parameter *)
  Definition ppos (idx : list nat) : list nat :=
    match ac_per_channel c, ac_axis c with
    | true, Some a => repeat 0%nat a ++ nth a idx 0%nat :: repeat 0%nat (length (q_shape p) - a - 1)
    | _, _ => repeat 0%nat (length (q_shape p))
    end.
  Lemma param_ppos idx : param_at c p idx = q_at p (ppos idx).
  Proof. unfold param_at, ppos. destruct (ac_per_channel c), (ac_axis c); reflexivity. Qed.
  Lemma ppos_in idx : inb (q_shape w) idx -> inb (q_shape p) (ppos idx) /\
    flat (q_shape p) (ppos idx) = match ac_per_channel c, ac_axis c with true, Some a => nth a idx 0%nat | _, _ => 0%nat end.
  Proof.
    intro H. unfold goes_with in G. unfold ppos. destruct (ac_per_channel c).
    - destruct G as (a & -> & L & E).
      assert (length (q_shape p) - a - 1 = length (q_shape w) - a - 1)%nat as El.
      { rewrite E. unfold per_channel_shape. rewrite app_length, repeat_length. cbn [length]. rewrite repeat_length. lia. }
      rewrite El, E. unfold per_channel_shape. split; [apply inb_pcs, inb_nth; assumption|apply flat_pcs].
    - destruct G as (r & L & E). rewrite E, repeat_length. split; [apply inb_ones|]. rewrite flat_ones. reflexivity.
  Qed.
  Lemma gw_pick idx q : inb (q_shape w) idx -> wq_per_channel q = ac_per_channel c -> wq_axis q = ac_axis c ->
    pick q (flatten_list p) idx = param_at c p idx.
  Proof.
    intros H E1 E2. destruct (ppos_in idx H) as [I F]. rewrite param_ppos, <- (flatten_nth p (ppos idx) I), F. unfold pick. rewrite E1, E2.
    destruct (ac_per_channel c), (ac_axis c); reflexivity.
  Qed.
  Lemma gw_every P idx : inb (q_shape w) idx -> every p P -> P (param_at c p idx).
  Proof. intros H E. rewrite param_ppos. apply E. apply ppos_in. exact H. Qed.
  Lemma gw_channels : length (flatten_list p) = if ac_per_channel c then match ac_axis c with Some a => nth a (q_shape w) 0%nat | None => 1%nat end else 1%nat.
  Proof.
    rewrite flatten_length. unfold goes_with in G. destruct (ac_per_channel c).
    - destruct G as (a & -> & L & ->). apply prod_pcs.
    - destruct G as (r & L & ->). apply prod_ones.
  Qed.
  Lemma gw_axis : ac_per_channel c = true -> exists a, ac_axis c = Some a /\ (a < length (q_shape w))%nat /\ length (q_shape p) = length (q_shape w).
  Proof.
    intro E. unfold goes_with in G. rewrite E in G. destruct G as (a & Ha & L & Es). exists a. split; [exact Ha|]. split; [exact L|].
    rewrite Es. unfold per_channel_shape. rewrite app_length, repeat_length. cbn [length]. rewrite repeat_length. lia.
  Qed.
End Param.

(* two parameters of the same weight have their values at the same positions *)
Lemma ppos_same c w p p' : goes_with c w p -> goes_with c w p' -> ac_per_channel c = true -> ppos c p = ppos c p'.
Proof.
  intros G G' E. destruct (gw_axis _ _ _ G E) as (a & Ea & _ & L). destruct (gw_axis _ _ _ G' E) as (a' & _ & _ & L').
  unfold ppos. rewrite E, Ea, L, L'. reflexivity.
Qed.

(* ---- exchanging axes ---- *)
Lemma swap_length i j l : length (swap_at i j l) = length l.
Proof. unfold swap_at. rewrite map_length, seq_length. reflexivity. Qed.
Lemma swap_nth i j l k : (k < length l)%nat -> nth k (swap_at i j l) 0%nat = nth (if Nat.eqb k i then j else if Nat.eqb k j then i else k) l 0%nat.
Proof.
  intro H. unfold swap_at. set (g := fun k0 => nth (if Nat.eqb k0 i then j else if Nat.eqb k0 j then i else k0) l 0%nat).
  rewrite nth_indep with (d' := g 0%nat) by (rewrite map_length, seq_length; exact H).
  rewrite (map_nth g), seq_nth by exact H. reflexivity.
Qed.
Lemma swap_swap i j l : (i < length l)%nat -> (j < length l)%nat -> swap_at i j (swap_at i j l) = l.
Proof.
  intros Hi Hj. apply nth_ext with (d := 0%nat) (d' := 0%nat); [rewrite !swap_length; reflexivity|]. intros k Hk. rewrite !swap_length in Hk.
  rewrite swap_nth by (rewrite swap_length; exact Hk).
  rewrite swap_nth by (destruct (Nat.eqb_spec k i); [lia|]; destruct (Nat.eqb_spec k j); lia).
  destruct (Nat.eqb_spec k i) as [->|Ni].
  - destruct (Nat.eqb_spec j i) as [->|N]; [reflexivity|]. rewrite Nat.eqb_refl. reflexivity.
  - destruct (Nat.eqb_spec k j) as [->|Nj]; [rewrite Nat.eqb_refl; reflexivity|].
    rewrite (proj2 (Nat.eqb_neq _ _) Ni), (proj2 (Nat.eqb_neq _ _) Nj). reflexivity.
Qed.

Lemma keras_apply_ok q channels e w : (2 <= wq_bits q <= 16)%Z ->
  (wq_per_channel q = true -> exists a, wq_axis q = Some a /\ (a < length (q_shape w))%nat /\ wq_rank q = Some (length (q_shape w)) /\ nth a (q_shape w) 0%nat = channels) ->
  exists w', keras_apply q channels e w = Ok w' /\ q_shape w' = q_shape w /\
    forall idx, inb (q_shape w) idx ->
      q_at w' idx = e (match wq_per_channel q, wq_axis q with true, Some a => nth a idx 0%nat | _, _ => 0%nat end) (q_at w idx).
Proof.
  intros Hb HP. unfold keras_apply. rewrite (proj2 (Z.leb_le _ _) (proj1 Hb)), (proj2 (Z.leb_le _ _) (proj2 Hb)). cbn [andb guard bind].
  destruct (wq_per_channel q); [|eexists; split; [reflexivity|]; split; [reflexivity|]; intros; reflexivity].
  destruct (HP eq_refl) as (a & -> & La & -> & Ec). set (r := length (q_shape w)) in *.
  rewrite (proj2 (Nat.ltb_lt _ _) La), Nat.eqb_refl. cbn [andb]. rewrite Bool.orb_true_r. cbn [guard bind].
  destruct (Nat.eqb_spec a (r - 1)) as [Ea|Na]; cbn [negb].
  - fold r. rewrite <- Ea, Ec, Nat.eqb_refl. cbn [guard bind]. eexists. split; [reflexivity|]. split; [reflexivity|]. intros; reflexivity.
  - cbn [swap_axes q_shape]. rewrite swap_length. fold r. rewrite swap_nth by (fold r; lia).
    destruct (Nat.eqb_spec (r - 1) a) as [E|_]; [congruence|]. rewrite Nat.eqb_refl, Ec, Nat.eqb_refl. cbn [guard bind].
    eexists. split; [reflexivity|]. cbn [swap_axes q_shape q_at]. split; [apply swap_swap; fold r; lia|].
    intros idx Hi. pose proof (inb_length _ _ Hi) as Li. fold r in Li. rewrite swap_nth by lia.
    destruct (Nat.eqb_spec (r - 1) a) as [E|_]; [congruence|]. rewrite Nat.eqb_refl, swap_swap by lia. reflexivity.
Qed.

(* ---- one entry ---- *)
Definition sym_elem (f : fw) (t : Q) (n : Z) (x : Q) : Q := match f with Torch => torch_symmetric_elem t n x | Keras => keras_symmetric_elem t n x end.
Lemma bits_supported f n : bits_taken f n -> supported f n.
Proof. destruct f; exact (fun H => H). Qed.
Lemma sym_elem_ok f t n x : 0 < t -> bits_taken f n ->
  let d := step t n true in
  nearest d (code_min n true) (code_max n true) x (sym_elem f t n x) /\
  nearest d (code_min n true) (code_max n true) x (quantize_elem t n true x) /\
  (tie_free d x \/ (f = Torch /\ (2 <= n)%Z) -> sym_elem f t n x == quantize_elem t n true x).
Proof.
  intros Ht Hb d. pose proof (bits_supported f n Hb) as Hs.
  set (p := {| fp_threshold := Some t; fp_signed := Some true; fp_min := None; fp_max := None; fp_lut := None |}).
  destruct (framework_symmetric_quantizers f M_sym n p t true [x] (or_introl eq_refl) eq_refl eq_refl Ht Hs) as (ys & zs & E1 & E2 & N1 & N2 & A).
  rewrite (sym_quantizer_ok _ _ _ _ Ht) in E2. injection E2 as <-. cbn [map] in *.
  assert (ys = [sym_elem f t n x]) as ->.
  { unfold quantize_node_output, fake_quant_fn in E1. destruct f; cbn [torch_symmetric keras_symmetric p fp_threshold fp_signed bind] in E1.
    - unfold torch_symmetric_range, torch_q in E1. destruct (_ && _) in E1; [|discriminate]. injection E1 as <-. reflexivity.
    - unfold sym_elem, keras_symmetric_elem. destruct (keras_symmetric_range true n t) as [mn mx]. cbn [bind] in E1. unfold tf_q in E1. destruct (_ && _) in E1; [|discriminate]. injection E1 as <-. reflexivity. }
  inversion N1 as [|? ? ? ? N1' _]; subst. inversion N2 as [|? ? ? ? N2' _]; subst. split; [exact N1'|]. split; [exact N2'|].
  intro C. apply (A 0%nat x _ _ eq_refl eq_refl eq_refl). destruct C as [C|[-> C]]; [left; exact C|right; split; [reflexivity|intros _; exact C]].
Qed.

Definition uni_elem (f : fw) (lo hi : Q) (n : Z) (x : Q) : Q := match f with Torch => torch_uniform_elem lo hi n x | Keras => keras_uniform_elem lo hi n x end.
Lemma torch_elem_proper s s' z m M x : s == s' -> torch_elem s z m M x == torch_elem s' z m M x.
Proof. intro E. unfold torch_elem. assert (x / s == x / s') as Ex by (rewrite E; reflexivity). rewrite (round_proper _ _ Ex), E. reflexivity. Qed.
Lemma uni_elem_ok f lo hi n : lo < hi -> bits_taken f n ->
  exists zp, (0 <= zp <= 2 ^ n - 1)%Z /\ torch_uniform_ok lo hi n = true /\
    forall x, nearest (range_step lo hi n) (- zp) (2 ^ n - 1 - zp) x (uni_elem f lo hi n x) /\
              nearest (range_step lo hi n) (- zp) (2 ^ n - 1 - zp) x (uniform_quantize_elem lo hi n x) /\
              (tie_free (range_step lo hi n) x -> uni_elem f lo hi n x == uniform_quantize_elem lo hi n x).
Proof.
  intros Hlt Hb. assert (1 <= n)%Z as Hn by (destruct f; cbn in Hb; lia).
  pose proof (uniform_torch lo hi n Hlt Hn) as U. pose proof (fix_range_zero lo hi n Hlt Hn) as [Fa Fb].
  destruct (fix_range_to_include_zero (lo0 lo) (hi0 hi) n) as [a0 b0] eqn:E0. cbn [fst snd] in Fa, Fb. cbv zeta in U.
  destruct (fix_range_to_include_zero lo hi n) as [a b] eqn:E. cbn [fst snd] in Fa, Fb.
  set (scale0 := (b0 - a0) / (Qpower 2 n - 1)) in *. set (zp := (- round_half_even (a0 / scale0))%Z) in *.
  destruct U as (Es & Hs & Hz & U).
  set (scale := (b - a) / (Qpower 2 n - 1)).
  assert (scale == scale0) as Esc by (unfold scale, scale0; rewrite Fa, Fb; reflexivity).
  assert (- round_half_even (a / scale) = zp)%Z as Ezp.
  { unfold zp. f_equal. apply round_proper. rewrite <- Fa, Esc. reflexivity. }
  exists zp. split; [exact Hz|]. split.
  { unfold torch_uniform_ok. rewrite E. fold scale. rewrite Ezp. rewrite (proj2 (Z.leb_le _ _) (proj1 Hz)), (proj2 (Z.leb_le _ _) (proj2 Hz)). reflexivity. }
  intro x. destruct (U x) as [U1 U2].
  assert (nearest (range_step lo hi n) (- zp) (2 ^ n - 1 - zp) x (uni_elem f lo hi n x)) as N.
  { destruct f; unfold uni_elem.
    - unfold torch_uniform_elem. rewrite E. fold scale. rewrite Ezp.
      eapply nearest_proper; [reflexivity|symmetry; apply torch_elem_proper; exact Esc|exact U1].
    - unfold keras_uniform_elem. rewrite E.
      destruct (fix_range_spec lo hi n a b Hlt Hn E) as (Hab & Hin & (k0 & Hk & Ha) & _).
      fold scale in Ha.
      assert (0 < scale) as Hsc by lra.
      pose proof (pow2m1_steps n Hn) as EN. unfold steps in *.
      assert ((b - a) / inject_Z (2 ^ n - 1) == scale) as Ed by (unfold scale; rewrite EN; reflexivity).
      assert (a <= 0 <= b) as Hin0.
      { split; [rewrite Ha; pose proof (ZQ_le _ _ (proj1 Hk)) as Z0; change (inject_Z 0) with 0 in Z0; nra|].
        assert (b == a + scale * inject_Z (2 ^ n - 1)) as Eb.
        { unfold scale. rewrite EN. field. pose proof (inject_steps_pos n Hn) as P. unfold steps in P. lra. }
        rewrite Eb, Ha. pose proof (ZQ_le _ _ (proj2 Hk)). nra. }
      destruct (tf_nearest a b n x Hab Hin0 Hn) as [Hz' Hnr].
      assert (tf_zp a ((b - a) / inject_Z (2 ^ n - 1)) = zp) as Ez.
      { unfold tf_zp, round_half_up.
        assert (- (a / ((b - a) / inject_Z (2 ^ n - 1))) == inject_Z k0) as -> by (rewrite Ed, Ha; field; lra). rewrite floor_Z_half.
        rewrite <- Ezp. assert (a / scale == inject_Z (- k0)) as Ek by (rewrite Ha, inject_Z_opp; field; lra). rewrite (round_proper _ _ Ek), round_Z. lia. }
      rewrite Ez in Hnr. eapply nearest_proper; [transitivity scale; [exact Ed|transitivity scale0; [exact Esc|exact Es]]|reflexivity|exact Hnr]. }
  split; [exact N|]. split; [exact U2|]. intro T. eapply nearest_unique; [|exact T|exact N|exact U2]. lra.
Qed.

Lemma lut_elem_ok lut t x : 0 < t -> lut <> [] -> (forall c, In c lut -> exists k, c == inject_Z k) ->
  exists v u, lut_elem lut t true x = Ok v /\ lut_kmeans_quantizer_elem lut t x = Ok u /\ v == u /\
    exists c, In c lut /\ v == c * t / 128 /\
      let y := clip (x / (t + EPS) * 128) (-128) 127 in forall c', In c' lut -> Qabs (y - c) <= Qabs (y - c').
Proof.
  intros Ht Hne Hi. set (p := {| fp_threshold := Some t; fp_signed := Some true; fp_min := None; fp_max := None; fp_lut := Some lut |}).
  destruct (framework_lut_quantizer Torch 8 p lut t true [x] eq_refl eq_refl eq_refl Hne) as (ys & E & F & K).
  destruct (K eq_refl Hi) as (zs & Ez & Fz).
  assert (quantize_node_output Torch M_lut 8 p [x] = mapM (lut_elem lut t true) [x]) as Eq by reflexivity. rewrite Eq in E. cbn [mapM] in E, Ez.
  destruct (lut_elem lut t true x) as [v|] eqn:Ev; [|discriminate]. cbn [bind] in E. injection E as <-.
  destruct (lut_kmeans_quantizer_elem lut t x) as [u|] eqn:Eu; [|discriminate]. cbn [bind] in Ez. injection Ez as <-.
  inversion Fz as [|? ? ? ? Q _]; subst. inversion F as [|? ? ? ? P _]; subst. exists v, u. split; [reflexivity|]. split; [reflexivity|]. split; [exact Q|].
  destruct P as (c & Hc & Ec & Hn). exists c. split; [exact Hc|]. split; [exact Ec|]. exact Hn.
Qed.
