(* DistProofs.v -- lemmas for DistProps.v *)
From Verif Require Import Nd DistModel DistSpec.
From Coq Require Import Permutation.

(* ---- moving an axis to the end ---- *)
Lemma map_nth_seq s a m : (a + m <= length s)%nat -> map (fun k => nth k s 0%nat) (seq a m) = firstn m (skipn a s).
Proof.
  revert a. induction m as [|m IH]; intros a L; [reflexivity|]. cbn [seq map].
  destruct (skipn a s) as [|x r] eqn:E.
  { assert (length (skipn a s) = 0%nat) as Z by (rewrite E; reflexivity). rewrite skipn_length in Z. lia. }
  cbn [firstn]. f_equal.
  - replace a with (a + 0)%nat by lia. rewrite <- (firstn_skipn a s) at 1. rewrite app_nth2; rewrite firstn_length_le by lia; [|lia].
    replace (a + 0 - a)%nat with 0%nat by lia. rewrite E. reflexivity.
  - rewrite IH by lia. f_equal. change r with (skipn 1 (x :: r)). rewrite <- E. clear. revert s. induction a as [|a IHa]; intros s; [reflexivity|].
    destruct s as [|y s]; [reflexivity|]. cbn [skipn] in *. apply IHa.
Qed.
Lemma others_seq ax n : (ax < n)%nat ->
  filter (fun k => negb (Nat.eqb k ax)) (seq 0 n) = seq 0 ax ++ seq (S ax) (n - S ax).
Proof.
  intro L. replace n with (ax + S (n - S ax))%nat at 1 by lia. rewrite seq_app, filter_app. cbn [seq filter Nat.add].
  rewrite Nat.eqb_refl. cbn [negb].
  assert (forall a m, (forall k, (a <= k < a + m)%nat -> k <> ax) -> filter (fun k => negb (Nat.eqb k ax)) (seq a m) = seq a m) as F.
  { intros a m. revert a. induction m as [|m IH]; intros a H; [reflexivity|]. cbn [seq filter].
    destruct (Nat.eqb_spec a ax) as [->|N]; [exfalso; apply (H ax); lia|]. cbn [negb]. f_equal. apply IH. intros k K. apply H. lia. }
  rewrite !F by (intros; lia). reflexivity.
Qed.
Lemma skipn_S_nth (l : list nat) ax : (ax < length l)%nat -> skipn ax l = nth ax l 0%nat :: skipn (S ax) l.
Proof. revert l. induction ax as [|ax IH]; intros [|x l] L; cbn in *; try lia; [reflexivity|]. apply IH. lia. Qed.
Lemma moved_shape ax t : (ax < length (shp t))%nat -> shp (moveaxis_last ax t) = del ax (shp t) ++ [nth ax (shp t) 0%nat].
Proof.
  intro L. unfold moveaxis_last, transpose. cbn [shp]. rewrite others_seq by exact L. rewrite !map_app. cbn [map]. unfold del.
  rewrite !map_nth_seq by lia. change (skipn 0 (shp t)) with (shp t). f_equal. f_equal. apply firstn_all2. rewrite skipn_length. lia.
Qed.
Lemma index_of_app k l1 l2 : index_of k (l1 ++ l2) = if memb k l1 then index_of k l1 else (length l1 + index_of k l2)%nat.
Proof.
  unfold memb. induction l1 as [|x l1 IH]; [reflexivity|]. cbn [app index_of existsb length]. destruct (Nat.eqb k x); [reflexivity|].
  cbn [orb]. rewrite IH. destruct (existsb (Nat.eqb k) l1); reflexivity.
Qed.
Lemma memb_seq k a m : memb k (seq a m) = Nat.leb a k && Nat.ltb k (a + m).
Proof.
  unfold memb. revert a. induction m as [|m IH]; intro a; cbn [seq existsb].
  - destruct (Nat.leb_spec a k), (Nat.ltb_spec k (a + 0)); cbn; lia || reflexivity.
  - rewrite IH. destruct (Nat.eqb_spec k a), (Nat.leb_spec (S a) k), (Nat.ltb_spec k (S a + m)), (Nat.leb_spec a k), (Nat.ltb_spec k (a + S m)); cbn; lia || reflexivity.
Qed.
Lemma index_of_seq k a m : (a <= k < a + m)%nat -> index_of k (seq a m) = (k - a)%nat.
Proof.
  revert a. induction m as [|m IH]; intros a L; [lia|]. cbn [seq index_of]. destruct (Nat.eqb_spec k a) as [->|N]; [lia|].
  rewrite IH by lia. lia.
Qed.
Lemma index_of_others ax n k : (ax < n)%nat -> (k < n)%nat ->
  index_of k (filter (fun k => negb (Nat.eqb k ax)) (seq 0 n) ++ [ax])
  = if Nat.ltb k ax then k else if Nat.eqb k ax then (n - 1)%nat else (k - 1)%nat.
Proof.
  intros L K. rewrite others_seq by exact L. rewrite <- app_assoc, index_of_app, memb_seq. cbn [Nat.leb andb Nat.add].
  destruct (Nat.ltb_spec k ax) as [A|A]; [rewrite index_of_seq by lia; lia|].
  rewrite index_of_app, memb_seq, !seq_length.
  destruct (Nat.eqb_spec k ax) as [->|N].
  - destruct (Nat.leb_spec (S ax) ax) as [B|B]; [lia|]. cbn [andb]. cbn [index_of]. rewrite Nat.eqb_refl. lia.
  - destruct (Nat.leb_spec (S ax) k) as [B|B]; [|lia]. destruct (Nat.ltb_spec k (S ax + (n - S ax))) as [C|C]; [|lia]. cbn [andb].
    rewrite index_of_seq by lia. lia.
Qed.
Lemma nth_ins ax v o k : (ax <= length o)%nat ->
  nth k (ins ax v o) 0%nat = if Nat.ltb k ax then nth k o 0%nat else if Nat.eqb k ax then v else nth (k - 1) o 0%nat.
Proof.
  intro L. unfold ins. assert (length (firstn ax o) = ax) as FL by (apply firstn_length_le; exact L).
  destruct (Nat.ltb_spec k ax) as [A|A].
  - rewrite app_nth1 by lia. rewrite <- (firstn_skipn ax o) at 2. rewrite app_nth1 by lia. reflexivity.
  - rewrite app_nth2 by lia. rewrite FL. destruct (Nat.eqb_spec k ax) as [->|N]; [rewrite Nat.sub_diag; reflexivity|].
    replace (k - ax)%nat with (S (k - 1 - ax)) by lia. cbn [nth]. rewrite <- (firstn_skipn ax o) at 2. rewrite app_nth2 by lia. rewrite FL. reflexivity.
Qed.
Lemma ins_length ax v o : (ax <= length o)%nat -> length (ins ax v o) = S (length o).
Proof. intro L. unfold ins. rewrite app_length. cbn [length]. rewrite firstn_length_le, skipn_length by exact L. lia. Qed.
Lemma nth_map_seq (f : nat -> nat) n j : (j < n)%nat -> nth j (map f (seq 0 n)) 0%nat = f j.
Proof.
  intro L. rewrite (nth_indep _ 0%nat (f 0%nat)) by (rewrite map_length, seq_length; exact L). rewrite map_nth, seq_nth by exact L. reflexivity.
Qed.
Lemma moved_at ax t o k : (ax < length (shp t))%nat -> S (length o) = length (shp t) -> at_ (moveaxis_last ax t) (o ++ [k]) = at_ t (ins ax k o).
Proof.
  intros L E. unfold moveaxis_last, transpose. cbn [at_]. f_equal.
  apply (nth_ext _ _ 0%nat 0%nat); [rewrite map_length, seq_length, ins_length; lia|].
  intros j J. rewrite map_length, seq_length in J. rewrite nth_ins by lia.
  rewrite nth_map_seq by exact J. rewrite index_of_others by lia.
  destruct (Nat.ltb_spec j ax) as [A|A]; [rewrite app_nth1 by lia; reflexivity|].
  destruct (Nat.eqb_spec j ax) as [->|N].
  - rewrite app_nth2 by lia. replace (length (shp t) - 1 - length o)%nat with 0%nat by lia. reflexivity.
  - rewrite app_nth1 by lia. reflexivity.
Qed.

(* ---- in-bounds indices ---- *)
Lemma inb_app s1 s2 i1 i2 : inb s1 i1 -> inb s2 i2 -> inb (s1 ++ s2) (i1 ++ i2).
Proof. apply Forall2_app. Qed.
Lemma inb_app_inv s1 s2 i : inb (s1 ++ s2) i -> exists i1 i2, i = i1 ++ i2 /\ inb s1 i1 /\ inb s2 i2.
Proof. intro H. apply Forall2_app_inv_l in H. destruct H as (a & b & A & B & ->). exists a, b. auto. Qed.
Lemma inb_snoc s d i : inb (s ++ [d]) i -> exists o k, i = o ++ [k] /\ inb s o /\ (k < d)%nat.
Proof.
  intro H. destruct (inb_app_inv _ _ _ H) as (o & r & -> & A & B). inversion B as [|? k ? l K F]; subst. inversion F; subst.
  exists o, k. auto.
Qed.
Lemma del_split ax s : (ax < length s)%nat -> s = firstn ax s ++ nth ax s 0%nat :: skipn (S ax) s.
Proof. intro L. rewrite <- skipn_S_nth by exact L. symmetry. apply firstn_skipn. Qed.
Lemma inb_ins ax s o k : (ax < length s)%nat -> (inb (del ax s) o /\ (k < nth ax s 0)%nat -> inb s (ins ax k o)).
Proof.
  intros L [H K]. unfold del in H. destruct (inb_app_inv _ _ _ H) as (a & b & -> & A & B).
  assert (length a = ax) as La by (rewrite (inb_length _ _ A), firstn_length_le; lia).
  unfold ins. rewrite firstn_app, <- La, Nat.sub_diag, firstn_all, firstn_O, app_nil_r, skipn_app, skipn_all, Nat.sub_diag. cbn [app skipn].
  rewrite (del_split ax s L). rewrite <- La at 1. apply inb_app; [rewrite La; exact A|]. rewrite <- La. constructor; [rewrite La; exact K|rewrite La; exact B].
Qed.
Lemma inb_ins_ex ax s i : (ax < length s)%nat -> inb s i -> exists o k, i = ins ax k o /\ inb (del ax s) o /\ (k < nth ax s 0)%nat.
Proof.
  intros L H. rewrite (del_split ax s L) in H. destruct (inb_app_inv _ _ _ H) as (a & b & -> & A & B).
  inversion B as [|? k ? r K F]; subst. exists (a ++ r), k.
  assert (length a = ax) as La by (rewrite (inb_length _ _ A), firstn_length_le; lia).
  repeat split; [|apply inb_app; assumption|exact K].
  unfold ins. rewrite firstn_app, <- La, Nat.sub_diag, firstn_all, firstn_O, app_nil_r, skipn_app, skipn_all, Nat.sub_diag. reflexivity.
Qed.
Lemma prod_app s1 s2 : prod (s1 ++ s2) = (prod s1 * prod s2)%nat.
Proof. induction s1 as [|d s IH]; cbn [app prod]; [lia|]. rewrite IH. lia. Qed.
Lemma prod_del ax s : (ax < length s)%nat -> prod s = (prod (del ax s) * nth ax s 0)%nat.
Proof. intro L. rewrite (del_split ax s L) at 1. unfold del. rewrite !prod_app. cbn [prod]. lia. Qed.
Lemma prod_pos s : nonempty s -> (0 < prod s)%nat.
Proof. induction 1; cbn [prod]; lia. Qed.
Lemma prod_pos_inv s : (0 < prod s)%nat -> nonempty s.
Proof. induction s as [|d s IH]; cbn [prod]; intro H; constructor; [nia|]. apply IH. nia. Qed.
Lemma unflat_app s d n : (n < prod s * d)%nat -> unflat (s ++ [d]) n = unflat s (n / d) ++ [(n mod d)%nat].
Proof.
  revert n. induction s as [|e s IH]; intros n L; cbn [app unflat prod] in *.
  - rewrite Nat.div_1_r. f_equal. rewrite Nat.mod_small by lia. reflexivity.
  - assert (d <> 0)%nat as D by nia. assert (prod s <> 0)%nat as P by nia.
    rewrite prod_app. cbn [prod]. rewrite Nat.mul_1_r. f_equal.
    + rewrite (Nat.mul_comm (prod s)), Nat.div_div by lia. reflexivity.
    + rewrite IH by (apply Nat.mod_upper_bound; nia). f_equal.
      * f_equal. rewrite (Nat.mul_comm (prod s) d), Nat.mod_mul_r by lia.
        rewrite (Nat.mul_comm d), Nat.div_add by lia. rewrite Nat.div_small by (apply Nat.mod_upper_bound; lia). reflexivity.
      * f_equal. rewrite (Nat.mul_comm (prod s) d), Nat.mod_mul_r by lia. rewrite (Nat.mul_comm d), Nat.mod_add by lia. apply Nat.mod_mod. exact D.
Qed.

(* ---- the groups of entries that flatten_tensor puts along the last axis ---- *)
Definition is_view (s rs : list nat) (n : nat) (g : list nat -> nat -> list nat) : Prop :=
  (forall idx k, inb rs idx -> (k < n)%nat -> inb s (g idx k)) /\
  (forall i, inb s i -> exists idx k, inb rs idx /\ (k < n)%nat /\ i = g idx k).
Definition viewed (t : nd) (f : nd) (rs : list nat) (n : nat) (g : list nat -> nat -> list nat) : Prop :=
  shp f = rs ++ [n] /\ forall idx k, inb rs idx -> (k < n)%nat -> at_ f (idx ++ [k]) = at_ t (g idx k).

Lemma reshape_ok t sp r : reshape t sp = Ok r ->
  exists v, r = reshape_to t (map (fun d => match d with Some k => k | None => v end) sp) /\
    prod (map (fun d => match d with Some k => k | None => v end) sp) = prod (shp t).
Proof.
  unfold reshape, infer. destruct (existsb _ sp); cbn [bind].
  - destruct (Nat.eqb _ 0); [discriminate|]. destruct (Nat.eqb _ 0); [|discriminate]. cbn [bind].
    destruct (Nat.eqb_spec (prod (map (fun d => match d with Some k => k | None => (prod (shp t) / prod (map (fun d0 => match d0 with Some k => k | None => 1%nat end) sp))%nat end) sp)) (prod (shp t))) as [E|E]; [|discriminate].
    intro H. inversion H; subst. eexists. split; [reflexivity|exact E].
  - destruct (Nat.eqb_spec (prod (map (fun d => match d with Some k => k | None => 1%nat end) sp)) (prod (shp t))) as [E|E]; [|discriminate].
    intro H. inversion H; subst. exists 1%nat. split; [reflexivity|exact E].
Qed.
Lemma reshape_shape t t' sp r : shp t' = shp t -> reshape t sp = Ok r -> exists r', reshape t' sp = Ok r' /\ shp r' = shp r.
Proof.
  intros E H. unfold reshape in *. rewrite E. destruct (infer _ sp) as [s'|]; cbn [bind] in *; [|discriminate].
  destruct (Nat.eqb _ _); [|discriminate]. inversion H; subst. eexists. split; reflexivity.
Qed.
Lemma reshape_known t sp r : reshape t sp = Ok r -> existsb (fun d => match d with None => true | _ => false end) sp = true ->
  prod (map (fun d => match d with Some k => k | None => 1%nat end) sp) <> 0%nat.
Proof.
  unfold reshape, infer. intros H E. rewrite E in H. destruct (Nat.eqb_spec (prod (map (fun d => match d with Some k => k | None => 1%nat end) sp)) 0); [discriminate|assumption].
Qed.

Lemma view_whole t : viewed t (flatten t) [] (prod (shp t)) (fun _ k => unflat (shp t) k).
Proof.
  split; [reflexivity|]. intros idx k I K. inversion I; subst. unfold flatten, reshape_to. cbn [at_ app flat prod]. f_equal. f_equal. lia.
Qed.
Lemma is_view_whole s : is_view s [] (prod s) (fun _ k => unflat s k).
Proof.
  split.
  - intros idx k _ K. apply flat_unflat. exact K.
  - intros i I. exists [], (flat s i). split; [constructor|]. split; [apply flat_lt; exact I|]. symmetry. apply unflat_flat. exact I.
Qed.
Lemma view_batch t f d0 s' : shp t = d0 :: s' -> flatten_tensor t true None = Ok f -> viewed t f [d0] (prod s') (fun idx k => hd 0%nat idx :: unflat s' k).
Proof.
  intros S H. unfold flatten_tensor, first_dim in H. rewrite S in H. cbn [bind] in H.
  pose proof (reshape_known _ _ _ H eq_refl) as K. destruct (reshape_ok _ _ _ H) as (v & -> & P). cbn [map prod] in *. rewrite S in P. cbn [prod] in P.
  assert (v = prod s') as -> by nia. split; [reflexivity|].
  intros idx k I L. inversion I as [|? i ? l Hi F]; subst. inversion F; subst. unfold reshape_to. cbn [at_ app flat prod hd]. rewrite S. cbn [unflat]. f_equal.
  f_equal.
  - rewrite Nat.mul_1_r, Nat.mul_1_r, Nat.add_0_r. rewrite Nat.div_add_l by lia. rewrite Nat.div_small by exact L. lia.
  - f_equal. rewrite !Nat.mul_1_r, Nat.add_0_r, Nat.add_comm, Nat.mod_add by lia. apply Nat.mod_small. exact L.
Qed.
Lemma is_view_batch d0 s' : is_view (d0 :: s') [d0] (prod s') (fun idx k => hd 0%nat idx :: unflat s' k).
Proof.
  split.
  - intros idx k I K. inversion I as [|? i ? l Hi F]; subst. inversion F; subst. constructor; [exact Hi|]. apply flat_unflat. exact K.
  - intros i I. inversion I as [|? a ? l Ha F]; subst. exists [a], (flat s' l). split; [repeat constructor; exact Ha|]. split; [apply flat_lt; exact F|].
    cbn [hd]. f_equal. symmetry. apply unflat_flat. exact F.
Qed.
Lemma norm_axis_ok n z ax : norm_axis n z = Ok ax -> (ax < n)%nat.
Proof.
  unfold norm_axis. destruct (Z.leb_spec (- Z.of_nat n) z); cbn [andb]; [|discriminate]. destruct (Z.ltb_spec z (Z.of_nat n)); [|discriminate].
  intro H'. injection H' as <-. destruct (Z.ltb_spec z 0); lia.
Qed.
Lemma last_dim_snoc t s d : shp t = s ++ [d] -> last_dim t = Ok d.
Proof. intro E. unfold last_dim. rewrite E, rev_unit. reflexivity. Qed.
Lemma del_length ax s : (ax < length s)%nat -> S (length (del ax s)) = length s.
Proof. intro L. unfold del. rewrite app_length, firstn_length_le, skipn_length by lia. lia. Qed.
Lemma unflat_length s n : length (unflat s n) = length s.
Proof. revert n. induction s as [|d s IH]; intro n; cbn; [reflexivity|]. rewrite IH. reflexivity. Qed.
Lemma view_axis t f z ax : norm_axis (length (shp t)) z = Ok ax -> flatten_tensor t false (Some z) = Ok f ->
  viewed t f [prod (del ax (shp t))] (nth ax (shp t) 0%nat) (fun idx k => ins ax k (unflat (del ax (shp t)) (hd 0%nat idx))).
Proof.
  intros A H. pose proof (norm_axis_ok _ _ _ A) as L. unfold flatten_tensor in H. rewrite A in H. cbn [bind] in H.
  pose proof (moved_shape ax t L) as M. rewrite (last_dim_snoc _ _ _ M) in H. cbn [bind] in H.
  pose proof (reshape_known _ _ _ H eq_refl) as K. destruct (reshape_ok _ _ _ H) as (v & -> & P). cbn [map prod] in *. rewrite M, prod_app in P. cbn [prod] in P.
  set (C := nth ax (shp t) 0%nat) in *. assert (v = prod (del ax (shp t))) as -> by nia. split; [reflexivity|].
  intros idx k I J. inversion I as [|? j ? l Hj F]; subst. inversion F; subst. unfold reshape_to. cbn [at_ app flat prod hd]. rewrite M.
  rewrite !Nat.mul_1_r, Nat.add_0_r. rewrite unflat_app by nia.
  replace ((j * C + k) / C)%nat with j by (rewrite Nat.div_add_l, Nat.div_small by lia; lia).
  replace ((j * C + k) mod C)%nat with k by (rewrite Nat.add_comm, Nat.mod_add, Nat.mod_small by lia; lia).
  apply moved_at; [exact L|]. rewrite unflat_length. apply del_length. exact L.
Qed.
Lemma is_view_axis ax s : (ax < length s)%nat -> is_view s [prod (del ax s)] (nth ax s 0%nat) (fun idx k => ins ax k (unflat (del ax s) (hd 0%nat idx))).
Proof.
  intro L. split.
  - intros idx k I K. inversion I as [|? j ? l Hj F]; subst. cbn [hd]. apply inb_ins; [exact L|]. split; [apply flat_unflat; exact Hj|exact K].
  - intros i I. destruct (inb_ins_ex _ _ _ L I) as (o & k & -> & O & K). exists [flat (del ax s) o], k.
    split; [repeat constructor; apply flat_lt; exact O|]. split; [exact K|]. cbn [hd]. rewrite unflat_flat by exact O. reflexivity.
Qed.
Lemma view_batch_axis t f z ax : norm_axis (length (shp t)) z = Ok ax -> flatten_tensor t true (Some z) = Ok f ->
  exists d0 v, hd_error (del ax (shp t) ++ [nth ax (shp t) 0%nat]) = Some d0 /\ (d0 * v = prod (del ax (shp t)))%nat /\ d0 <> 0%nat /\
  viewed t f [d0; v] (nth ax (shp t) 0%nat) (fun idx k => ins ax k (unflat (del ax (shp t)) (flat [d0; v] idx))).
Proof.
  intros A H. pose proof (norm_axis_ok _ _ _ A) as L. unfold flatten_tensor in H. rewrite A in H. cbn [bind] in H.
  pose proof (moved_shape ax t L) as M. rewrite (last_dim_snoc _ _ _ M) in H. unfold first_dim in H. rewrite M in H.
  destruct (del ax (shp t) ++ [nth ax (shp t) 0%nat]) as [|d0 rest] eqn:Hd; [destruct (del ax (shp t)); discriminate|]. cbn [bind] in H.
  pose proof (reshape_known _ _ _ H eq_refl) as K. destruct (reshape_ok _ _ _ H) as (v & -> & P). cbn [map prod] in *. rewrite M, <- Hd, prod_app in P. cbn [prod] in P.
  set (C := nth ax (shp t) 0%nat) in *. assert (d0 * v = prod (del ax (shp t)))%nat as E by nia. exists d0, v.
  split; [reflexivity|]. split; [exact E|]. split; [nia|]. split; [reflexivity|].
  intros idx k I J. inversion I as [|? a ? l Ha F]; subst. inversion F as [|? j ? l2 Hj F2]; subst. inversion F2; subst. unfold reshape_to. cbn [at_ app flat prod hd]. rewrite M, <- Hd.
  replace (a * (v * (C * 1)) + (j * (C * 1) + (k * 1 + 0)))%nat with ((a * (v * 1) + (j * 1 + 0)) * C + k)%nat by nia.
  set (m := (a * (v * 1) + (j * 1 + 0))%nat). assert (m < prod (del ax (shp t)))%nat as Lm by (unfold m; nia).
  rewrite unflat_app by nia.
  replace ((m * C + k) / C)%nat with m by (rewrite Nat.div_add_l, Nat.div_small by lia; lia).
  replace ((m * C + k) mod C)%nat with k by (rewrite Nat.add_comm, Nat.mod_add, Nat.mod_small by lia; lia).
  apply moved_at; [exact L|]. rewrite unflat_length. apply del_length. exact L.
Qed.
Lemma is_view_batch_axis ax s d0 v : (ax < length s)%nat -> (d0 * v = prod (del ax s))%nat ->
  is_view s [d0; v] (nth ax s 0%nat) (fun idx k => ins ax k (unflat (del ax s) (flat [d0; v] idx))).
Proof.
  intros L E. assert (prod [d0; v] = prod (del ax s)) as E' by (cbn [prod]; lia). split.
  - intros idx k I K. apply inb_ins; [exact L|]. split; [apply flat_unflat; rewrite <- E'; apply flat_lt; exact I|exact K].
  - intros i I. destruct (inb_ins_ex _ _ _ L I) as (o & k & -> & O & K). exists (unflat [d0; v] (flat (del ax s) o)), k.
    assert (flat (del ax s) o < prod [d0; v])%nat as Lo by (rewrite E'; apply flat_lt; exact O).
    destruct (flat_unflat _ _ Lo) as [Fu Iu]. split; [exact Iu|]. split; [exact K|]. rewrite Fu, unflat_flat by exact O. reflexivity.
Qed.
Lemma flatten_shape t t' batch axis f : shp t' = shp t -> flatten_tensor t batch axis = Ok f ->
  exists f', flatten_tensor t' batch axis = Ok f' /\ shp f' = shp f.
Proof.
  intros E H. unfold flatten_tensor in *. rewrite E. destruct axis as [z|], batch.
  - destruct (norm_axis _ z) as [ax|] eqn:A; cbn [bind] in *; [|discriminate]. pose proof (norm_axis_ok _ _ _ A) as L.
    assert (shp (moveaxis_last ax t') = shp (moveaxis_last ax t)) as M by (rewrite !moved_shape by (rewrite ?E; exact L); rewrite E; reflexivity).
    unfold first_dim, last_dim in *. rewrite M. destruct (shp (moveaxis_last ax t)) as [|d0 r] eqn:Hm; [discriminate|]. cbn [bind] in *.
    destruct (rev (d0 :: r)) as [|dl r2] eqn:Hr; [discriminate|]. cbn [bind] in *. eapply reshape_shape; [|exact H]. rewrite Hm. exact M.
  - destruct (norm_axis _ z) as [ax|] eqn:A; cbn [bind] in *; [|discriminate]. pose proof (norm_axis_ok _ _ _ A) as L.
    assert (shp (moveaxis_last ax t') = shp (moveaxis_last ax t)) as M by (rewrite !moved_shape by (rewrite ?E; exact L); rewrite E; reflexivity).
    unfold last_dim in *. rewrite M.
    destruct (rev (shp (moveaxis_last ax t))) as [|dl r2] eqn:Hr; [discriminate|]. cbn [bind] in *. eapply reshape_shape; [|exact H]. exact M.
  - unfold first_dim in *. rewrite E. destruct (shp t) as [|d0 s'] eqn:S; [discriminate|]. cbn [bind] in *. eapply reshape_shape; [|exact H]. rewrite S. exact E.
  - inversion H; subst. eexists. split; [reflexivity|]. unfold flatten, reshape_to. cbn [shp]. rewrite E. reflexivity.
Qed.
(* all modes at once *)
Lemma flatten_view t batch axis f : flatten_tensor t batch axis = Ok f ->
  exists rs n g, is_view (shp t) rs n g /\ viewed t f rs n g /\
    forall t' f', shp t' = shp t -> flatten_tensor t' batch axis = Ok f' -> viewed t' f' rs n g.
Proof.
  intro H. destruct axis as [z|].
  - assert (exists ax, norm_axis (length (shp t)) z = Ok ax) as [ax A].
    { unfold flatten_tensor in H. destruct (norm_axis (length (shp t)) z) as [ax|]; [eauto|]. destruct batch; discriminate. }
    pose proof (norm_axis_ok _ _ _ A) as L. destruct batch.
    + destruct (view_batch_axis _ _ _ _ A H) as (d0 & v & Hd & E & N & V). do 3 eexists. split; [apply is_view_batch_axis; [exact L|exact E]|]. split; [exact V|].
      intros t' f' E' H'. rewrite <- E' in A. destruct (view_batch_axis _ _ _ _ A H') as (d0' & v' & Hd' & E2 & N' & V'). rewrite E' in *.
      rewrite Hd in Hd'. injection Hd' as <-. assert (v' = v) as -> by nia. exact V'.
    + do 3 eexists. split; [apply is_view_axis; exact L|]. split; [apply (view_axis _ _ _ _ A H)|].
      intros t' f' E' H'. rewrite <- E' in A. pose proof (view_axis _ _ _ _ A H') as V. rewrite E' in V. exact V.
  - destruct batch.
    + destruct (shp t) as [|d0 s'] eqn:S; [unfold flatten_tensor, first_dim in H; rewrite S in H; discriminate|].
      do 3 eexists. split; [apply is_view_batch|]. split; [apply (view_batch _ _ _ _ S H)|].
      intros t' f' E' H'. apply (view_batch _ _ _ _ E' H').
    + cbn in H. injection H as <-. do 3 eexists. split; [apply is_view_whole|]. split; [apply view_whole|].
      intros t' f' E' H'. cbn in H'. injection H' as <-. pose proof (view_whole t') as V. rewrite E' in V. exact V.
Qed.

(* ---- means ---- *)
Lemma mean_last_snoc a rs n : shp a = rs ++ [n] ->
  mean_last a = if Nat.eqb n 0 then Err E_zero_div else Ok (Nd rs (fun idx => rsum n (fun k => at_ a (idx ++ [k])) / INR n)).
Proof. intro E. unfold mean_last. rewrite E, rev_unit, removelast_last. reflexivity. Qed.
Lemma rsum_nonneg n f : (forall k, (k < n)%nat -> 0 <= f k) -> 0 <= rsum n f.
Proof. induction n as [|n IH]; intro H; cbn [rsum]; [lra|]. specialize (IH (fun k L => H k (Nat.lt_lt_succ_r _ _ L))). pose proof (H n (Nat.lt_succ_diag_r n)). lra. Qed.
Lemma rsum_zero_inv n f : (forall k, (k < n)%nat -> 0 <= f k) -> rsum n f = 0 -> forall k, (k < n)%nat -> f k = 0.
Proof.
  induction n as [|n IH]; intros H E k L; [lia|]. cbn [rsum] in E.
  pose proof (rsum_nonneg n f (fun j Lj => H j (Nat.lt_lt_succ_r _ _ Lj))). pose proof (H n (Nat.lt_succ_diag_r n)).
  destruct (Nat.eq_dec k n) as [->|N]; [lra|]. apply IH; [intros; apply H; lia|lra|lia].
Qed.
(* the common part of mse, mae and lp: a mean of terms, divided by a mean when normalised *)
Definition ratio (norm : bool) (eps n_ : R) (num den : R) : R := if norm then num / n_ / (den / n_ + eps) else num / n_.
Lemma entry_form rs n (fx : nd) term nrm norm eps error r :
  shp fx = rs ++ [n] -> n <> 0%nat ->
  error = Nd rs (fun idx => rsum n (fun k => term idx k) / INR n) ->
  normalised norm eps nrm fx error = Ok r ->
  shp r = rs /\ forall idx, at_ r idx = ratio norm eps (INR n) (rsum n (term idx)) (rsum n (fun k => nrm (at_ fx (idx ++ [k])))).
Proof.
  intros S N -> H. unfold normalised in H. destruct norm.
  - rewrite (mean_last_snoc (nmap nrm fx) rs n S) in H. apply Nat.eqb_neq in N. rewrite N in H. cbn [bind] in H. injection H as <-. cbn. split; [reflexivity|]. intro idx. reflexivity.
  - injection H as <-. cbn. split; [reflexivity|]. intro idx. reflexivity.
Qed.
Lemma ratio_nonneg norm eps n_ num den : 0 < n_ -> 0 <= num -> 0 <= den -> (norm = true -> 0 < eps) -> 0 <= ratio norm eps n_ num den.
Proof.
  intros N A B E. unfold ratio. assert (0 <= num / n_) as Q by (apply Rmult_le_pos; [lra|left; apply Rinv_0_lt_compat; lra]).
  destruct norm; [|exact Q]. specialize (E eq_refl). assert (0 <= den / n_) as D by (apply Rmult_le_pos; [lra|left; apply Rinv_0_lt_compat; lra]).
  apply Rmult_le_pos; [exact Q|left; apply Rinv_0_lt_compat; lra].
Qed.
Lemma ratio_zero norm eps n_ num den : 0 < n_ -> 0 <= den -> (norm = true -> 0 < eps) -> (ratio norm eps n_ num den = 0 <-> num = 0).
Proof.
  intros N B E. unfold ratio. assert (0 < / n_) as I by (apply Rinv_0_lt_compat; lra).
  assert (num / n_ = 0 <-> num = 0) as Z by (split; intro H; [unfold Rdiv in H; nra|subst; unfold Rdiv; ring]).
  destruct norm; [|exact Z]. specialize (E eq_refl). assert (0 <= den / n_) as D by (apply Rmult_le_pos; lra).
  rewrite <- Z. split; intro H; [|rewrite H; unfold Rdiv; ring].
  assert (0 < / (den / n_ + eps)) as J by (apply Rinv_0_lt_compat; lra). unfold Rdiv at 1 in H. nra.
Qed.

(* ---- mse without weights, mae, lp have one form ---- *)
Definition dist (term : R -> R -> R) (nrm : R -> R) (x y : nd) (norm : bool) (eps : R) (batch : bool) (axis : option Z) : result nd :=
  let! _ := validate x y in
  let! fx := flatten_tensor x batch axis in
  let! fy := flatten_tensor y batch axis in
  let! error := mean_last (zip term fx fy) in
  normalised norm eps nrm fx error.
Definition sqdiff a b := (a - b) ^ 2.
Definition sq (a : R) := a ^ 2.
Definition absdiff a b := Rabs (a - b).
Definition powdiff p a b := Rabs (a - b) ^ p.
Definition abspow p a := Rabs a ^ p.
Lemma mse_dist x y norm eps batch axis : compute_mse x y norm eps batch axis None = dist sqdiff sq x y norm eps batch axis.
Proof. reflexivity. Qed.
Lemma mae_dist x y norm eps batch axis : compute_mae x y norm eps batch axis = dist absdiff Rabs x y norm eps batch axis.
Proof. reflexivity. Qed.
Lemma lp_dist x y p norm eps batch axis : compute_lp_norm x y p norm eps batch axis = dist (powdiff p) (abspow p) x y norm eps batch axis.
Proof. reflexivity. Qed.
Lemma validate_ok x y u : validate x y = Ok u -> shp x = shp y.
Proof. unfold validate. destruct (list_eq_dec _ _ _); [auto|discriminate]. Qed.
Lemma validate_same x y : shp x = shp y -> validate x y = Ok tt.
Proof. intro E. unfold validate. destruct (list_eq_dec _ _ _); [reflexivity|contradiction]. Qed.
Lemma dist_entries term nrm x y norm eps batch axis r fx fy rs n g :
  dist term nrm x y norm eps batch axis = Ok r ->
  flatten_tensor x batch axis = Ok fx -> flatten_tensor y batch axis = Ok fy -> viewed x fx rs n g -> viewed y fy rs n g ->
  n <> 0%nat /\ shp r = rs /\ forall idx, inb rs idx ->
    at_ r idx = ratio norm eps (INR n) (rsum n (fun k => term (at_ x (g idx k)) (at_ y (g idx k)))) (rsum n (fun k => nrm (at_ x (g idx k)))).
Proof.
  intros H Fx Fy [Sx Vx] [Sy Vy]. unfold dist in H. destruct (validate x y) as [u|]; [|discriminate]. cbn [bind] in H. rewrite Fx, Fy in H. cbn [bind] in H.
  rewrite (mean_last_snoc (zip term fx fy) rs n Sx) in H. destruct (Nat.eqb_spec n 0) as [->|N]; [discriminate|]. cbn [bind] in H.
  destruct (entry_form rs n fx (fun idx k => at_ (zip term fx fy) (idx ++ [k])) nrm norm eps _ r Sx N eq_refl H) as [S F].
  split; [exact N|]. split; [exact S|]. intros idx I. rewrite F. unfold ratio.
  rewrite (rsum_ext n (fun k => at_ (zip term fx fy) (idx ++ [k])) (fun k => term (at_ x (g idx k)) (at_ y (g idx k)))) by (intros k K; cbn; rewrite Vx, Vy by assumption; reflexivity).
  rewrite (rsum_ext n (fun k => nrm (at_ fx (idx ++ [k]))) (fun k => nrm (at_ x (g idx k)))) by (intros k K; rewrite Vx by assumption; reflexivity).
  reflexivity.
Qed.
Lemma dist_flat term nrm x y norm eps batch axis r : dist term nrm x y norm eps batch axis = Ok r ->
  shp x = shp y /\ exists fx fy, flatten_tensor x batch axis = Ok fx /\ flatten_tensor y batch axis = Ok fy.
Proof.
  unfold dist. destruct (validate x y) as [u|] eqn:V; [|discriminate]. cbn [bind].
  destruct (flatten_tensor x batch axis) as [fx|] eqn:Fx; [|discriminate]. cbn [bind].
  destruct (flatten_tensor y batch axis) as [fy|] eqn:Fy; [|discriminate]. intros _. split; [apply (validate_ok _ _ _ V)|eauto].
Qed.
Lemma dist_view term nrm x y norm eps batch axis r : dist term nrm x y norm eps batch axis = Ok r ->
  shp x = shp y /\ exists rs n g, is_view (shp x) rs n g /\ n <> 0%nat /\ shp r = rs /\ forall idx, inb rs idx ->
    at_ r idx = ratio norm eps (INR n) (rsum n (fun k => term (at_ x (g idx k)) (at_ y (g idx k)))) (rsum n (fun k => nrm (at_ x (g idx k)))).
Proof.
  intro H. destruct (dist_flat _ _ _ _ _ _ _ _ _ H) as (S & fx & fy & Fx & Fy). split; [exact S|].
  destruct (flatten_view _ _ _ _ Fx) as (rs & n & g & V & Vx & All). exists rs, n, g. split; [exact V|].
  apply (dist_entries _ _ _ _ _ _ _ _ _ _ _ _ _ _ H Fx Fy Vx (All _ _ (eq_sym S) Fy)).
Qed.
Lemma INR_pos n : n <> 0%nat -> 0 < INR n.
Proof. intro N. apply lt_0_INR. lia. Qed.
Lemma dist_nonneg term nrm x y norm eps batch axis r :
  (forall a b, 0 <= term a b) -> (forall a, 0 <= nrm a) -> (norm = true -> 0 < eps) ->
  dist term nrm x y norm eps batch axis = Ok r -> forall idx, inb (shp r) idx -> 0 <= at_ r idx.
Proof.
  intros T N E H idx I. destruct (dist_view _ _ _ _ _ _ _ _ _ H) as (S & rs & n & g & V & Nz & Sr & F). rewrite Sr in I. rewrite F by exact I.
  apply ratio_nonneg; [apply INR_pos; exact Nz|apply rsum_nonneg; intros; apply T|apply rsum_nonneg; intros; apply N|exact E].
Qed.
Lemma dist_zero term nrm x y norm eps batch axis r :
  (forall a b, 0 <= term a b) -> (forall a b, term a b = 0 <-> a = b) -> (forall a, 0 <= nrm a) -> (norm = true -> 0 < eps) ->
  dist term nrm x y norm eps batch axis = Ok r ->
  ((forall idx, inb (shp r) idx -> at_ r idx = 0) <-> same_entries x y).
Proof.
  intros T Z N E H. destruct (dist_view _ _ _ _ _ _ _ _ _ H) as (S & rs & n & g & V & Nz & Sr & F). rewrite Sr. split.
  - intro A. split; [exact S|]. intros i I. destruct V as [V1 V2]. destruct (V2 i I) as (idx & k & Ii & K & ->).
    specialize (A idx Ii). rewrite F in A by exact Ii. apply ratio_zero in A; [|apply INR_pos; exact Nz|apply rsum_nonneg; intros; apply N|exact E].
    apply Z. apply (rsum_zero_inv n (fun k => term (at_ x (g idx k)) (at_ y (g idx k)))); [intros; apply T|exact A|exact K].
  - intros [_ A] idx I. rewrite F by exact I. apply ratio_zero; [apply INR_pos; exact Nz|apply rsum_nonneg; intros; apply N|exact E|].
    apply rsum_zero. intros k K. apply Z. apply A. destruct V as [V1 _]. apply V1; assumption.
Qed.
Lemma sqdiff_nonneg a b : 0 <= sqdiff a b. Proof. apply pow2_ge_0. Qed.
Lemma sqdiff_zero a b : sqdiff a b = 0 <-> a = b. Proof. unfold sqdiff. split; [intro H; cbn in H; rewrite Rmult_1_r in H; apply Rmult_integral in H; lra|intros ->; ring]. Qed.
Lemma sq_nonneg a : 0 <= sq a. Proof. apply pow2_ge_0. Qed.
Lemma absdiff_nonneg a b : 0 <= absdiff a b. Proof. apply Rabs_pos. Qed.
Lemma absdiff_zero a b : absdiff a b = 0 <-> a = b.
Proof. unfold absdiff. split; [intro H; destruct (Req_EM_T (a - b) 0) as [Z|Z]; [lra|]; apply Rabs_no_R0 in Z; contradiction|intros ->; rewrite Rminus_diag_eq, Rabs_R0; reflexivity]. Qed.
Lemma powdiff_nonneg p a b : 0 <= powdiff p a b. Proof. apply pow_le, Rabs_pos. Qed.
Lemma abspow_nonneg p a : 0 <= abspow p a. Proof. apply pow_le, Rabs_pos. Qed.
Lemma powdiff_zero p a b : p <> 0%nat -> (powdiff p a b = 0 <-> a = b).
Proof.
  intro P. unfold powdiff. split.
  - intro H. apply absdiff_zero. unfold absdiff. destruct (Req_EM_T (Rabs (a - b)) 0) as [Z|Z]; [exact Z|]. apply (pow_nonzero _ p) in Z. contradiction.
  - intros ->. rewrite Rminus_diag_eq, Rabs_R0 by reflexivity. apply pow_i. lia.
Qed.

(* ---- mse with weights ---- *)
Lemma wmse_view x y norm eps batch axis w r : compute_mse x y norm eps batch axis (Some w) = Ok r ->
  shp x = shp y /\ exists rs n g gw, is_view (shp x) rs n g /\ is_view (shp w) rs n gw /\ n <> 0%nat /\ shp r = rs /\ forall idx, inb rs idx ->
    at_ r idx = ratio norm eps (INR n) (rsum n (fun k => (at_ w (gw idx k) * (at_ x (g idx k) - at_ y (g idx k))) ^ 2)) (rsum n (fun k => sq (at_ x (g idx k)))).
Proof.
  unfold compute_mse. destruct (validate x y) as [u|] eqn:V; [|discriminate]. cbn [bind]. apply validate_ok in V.
  destruct (flatten_tensor x batch axis) as [fx|] eqn:Fx; [|discriminate]. cbn [bind].
  destruct (flatten_tensor y batch axis) as [fy|] eqn:Fy; [|discriminate]. cbn [bind].
  destruct (flatten_tensor w batch axis) as [fw|] eqn:Fw; [|discriminate]. cbn [bind].
  destruct (list_eq_dec _ _ _) as [E|]; [|discriminate]. intro H. split; [exact V|].
  destruct (flatten_view _ _ _ _ Fx) as (rs & n & g & Vg & [Sx Vx] & All). destruct (All _ _ (eq_sym V) Fy) as [Sy Vy].
  destruct (flatten_view _ _ _ _ Fw) as (rsw & nw & gw & Vw & [Sw Vfw] & _).
  rewrite Sw, Sx in E. apply app_inj_tail in E. destruct E as [-> ->]. exists rs, n, g, gw. split; [exact Vg|]. split; [exact Vw|].
  set (a := nmap (fun v => v ^ 2) (zip Rmult fw (zip Rminus fx fy))) in *. assert (shp a = rs ++ [n]) as Sa by (exact Sw).
  rewrite (mean_last_snoc a rs n Sa) in H. destruct (Nat.eqb_spec n 0) as [->|N]; [discriminate|]. cbn [bind] in H.
  destruct (entry_form rs n fx (fun idx k => at_ a (idx ++ [k])) sq norm eps _ r Sx N eq_refl H) as [S F].
  split; [exact N|]. split; [exact S|]. intros idx I. rewrite F. unfold ratio.
  rewrite (rsum_ext n (fun k => at_ a (idx ++ [k])) (fun k => (at_ w (gw idx k) * (at_ x (g idx k) - at_ y (g idx k))) ^ 2)) by (intros k K; cbn; rewrite Vx, Vy, Vfw by assumption; reflexivity).
  rewrite (rsum_ext n (fun k => sq (at_ fx (idx ++ [k]))) (fun k => sq (at_ x (g idx k)))) by (intros k K; rewrite Vx by assumption; reflexivity).
  reflexivity.
Qed.

(* ---- existence of the result ---- *)
Lemma reshape_fill t sp v : existsb (fun d => match d with None => true | _ => false end) sp = true ->
  prod (map (fun d => match d with Some k => k | None => 1%nat end) sp) <> 0%nat ->
  (prod (shp t) = v * prod (map (fun d => match d with Some k => k | None => 1%nat end) sp))%nat ->
  prod (map (fun d => match d with Some k => k | None => v end) sp) = prod (shp t) ->
  exists r, reshape t sp = Ok r.
Proof.
  intros X K E P. unfold reshape, infer. rewrite X. apply Nat.eqb_neq in K. rewrite K. apply Nat.eqb_neq in K.
  rewrite E, Nat.mod_mul by exact K. cbn [Nat.eqb bind]. rewrite Nat.div_mul by exact K. rewrite P, E, Nat.eqb_refl. eauto.
Qed.
Lemma flatten_batch_ok t d0 s' : shp t = d0 :: s' -> d0 <> 0%nat -> exists f, flatten_tensor t true None = Ok f.
Proof.
  intros S N. unfold flatten_tensor, first_dim. rewrite S. cbn [bind]. apply (reshape_fill _ _ (prod s')); [reflexivity| | |]; cbn [map prod]; rewrite ?S; cbn [prod]; lia.
Qed.
Lemma flatten_axis_ok t z ax : norm_axis (length (shp t)) z = Ok ax -> nth ax (shp t) 0%nat <> 0%nat -> exists f, flatten_tensor t false (Some z) = Ok f.
Proof.
  intros A N. pose proof (norm_axis_ok _ _ _ A) as L. unfold flatten_tensor. rewrite A. cbn [bind].
  rewrite (last_dim_snoc _ _ _ (moved_shape ax t L)). cbn [bind].
  apply (reshape_fill _ _ (prod (del ax (shp t)))); [reflexivity| | |]; cbn [map prod]; rewrite ?(moved_shape ax t L), ?prod_app; cbn [prod]; lia.
Qed.
Lemma flatten_batch_axis_ok t z ax d0 s' : norm_axis (length (shp t)) z = Ok (S ax) -> shp t = d0 :: s' -> d0 <> 0%nat -> nth ax s' 0%nat <> 0%nat ->
  exists f, flatten_tensor t true (Some z) = Ok f.
Proof.
  intros A Sh D N. pose proof (norm_axis_ok _ _ _ A) as L. unfold flatten_tensor. rewrite A. cbn [bind].
  pose proof (moved_shape (S ax) t L) as M. rewrite (last_dim_snoc _ _ _ M).
  assert (shp (moveaxis_last (S ax) t) = (d0 :: del ax s') ++ [nth ax s' 0%nat]) as M' by (rewrite M, Sh; reflexivity).
  unfold first_dim. rewrite M'. cbn [app bind]. rewrite Sh. cbn [nth].
  apply (reshape_fill _ _ (prod (del ax s'))); [reflexivity| | |]; cbn [map prod]; [nia| |];
    rewrite M', prod_app; cbn [prod]; generalize (prod (del ax s')), (nth ax s' 0%nat); intros; nia.
Qed.
Lemma dist_ok term nrm x y norm eps batch axis fx rs n g : shp x = shp y -> flatten_tensor x batch axis = Ok fx -> viewed x fx rs n g -> n <> 0%nat ->
  exists r, dist term nrm x y norm eps batch axis = Ok r.
Proof.
  intros E F [S _] N. unfold dist. rewrite validate_same by exact E. cbn [bind]. rewrite F. cbn [bind].
  destruct (flatten_shape x y batch axis fx (eq_sym E) F) as (fy & -> & _). cbn [bind].
  rewrite (mean_last_snoc (zip term fx fy) rs n S). apply Nat.eqb_neq in N. rewrite N. cbn [bind]. unfold normalised. destruct norm; [|eauto].
  rewrite (mean_last_snoc (nmap nrm fx) rs n S), N. cbn [bind]. eauto.
Qed.
(* value over the whole tensor *)
Definition value (term : R -> R -> R) (nrm : R -> R) (norm : bool) (eps : R) (x y : nd) : R :=
  let e := mean_of (shp x) (fun i => term (at_ x i) (at_ y i)) in
  if norm then e / (mean_of (shp x) (fun i => nrm (at_ x i)) + eps) else e.
Lemma dist_whole term nrm x y norm eps : shp x = shp y -> nonempty (shp x) ->
  exists r, dist term nrm x y norm eps false None = Ok r /\ shp r = [] /\ at_ r [] = value term nrm norm eps x y.
Proof.
  intros E N. apply prod_pos in N.
  destruct (dist_ok term nrm x y norm eps false None _ _ _ _ E eq_refl (view_whole x) ltac:(lia)) as [r H]. exists r. split; [exact H|].
  pose proof (view_whole y) as Vy. rewrite <- E in Vy.
  destruct (dist_entries _ _ _ _ _ _ _ _ _ _ _ _ _ _ H eq_refl eq_refl (view_whole x) Vy) as (_ & S & F).
  split; [exact S|]. rewrite F by constructor. reflexivity.
Qed.
Lemma dist_samples term nrm x y norm eps d0 s' : shp x = d0 :: s' -> shp y = shp x -> nonempty (shp x) ->
  exists r, dist term nrm x y norm eps true None = Ok r /\ shp r = [d0] /\
    forall b, (b < d0)%nat -> at_ r [b] = value term nrm norm eps (sample b x) (sample b y).
Proof.
  intros Sx E N. rewrite Sx in N. inversion N as [|? ? D N']; subst. apply prod_pos in N'.
  destruct (flatten_batch_ok x d0 s' Sx ltac:(lia)) as [fx Fx]. pose proof (view_batch _ _ _ _ Sx Fx) as Vx.
  destruct (flatten_shape x y true None fx E Fx) as (fy & Fy & _). rewrite Sx in E. pose proof (view_batch _ _ _ _ E Fy) as Vy.
  destruct (dist_ok term nrm x y norm eps true None _ _ _ _ (eq_trans Sx (eq_sym E)) Fx Vx ltac:(lia)) as [r H]. exists r. split; [exact H|].
  destruct (dist_entries _ _ _ _ _ _ _ _ _ _ _ _ _ _ H Fx Fy Vx Vy) as (_ & S & F).
  split; [exact S|]. intros b B. rewrite F by (repeat constructor; exact B). unfold value, sample, mean_of, ratio. cbn [shp at_ hd]. rewrite Sx. cbn [tl]. reflexivity.
Qed.
Lemma hd_unflat1 C k : (k < C)%nat -> hd 0%nat (unflat [C] k) = k.
Proof. intros _. cbn. apply Nat.div_1_r. Qed.
Lemma value_line term nrm norm eps ax o x y : shp y = shp x ->
  value term nrm norm eps (line ax o x) (line ax o y) =
  ratio norm eps (INR (nth ax (shp x) 0%nat)) (rsum (nth ax (shp x) 0%nat) (fun k => term (at_ x (ins ax k o)) (at_ y (ins ax k o))))
    (rsum (nth ax (shp x) 0%nat) (fun k => nrm (at_ x (ins ax k o)))).
Proof.
  intro E. unfold value, ratio, mean_of, line. cbn [shp at_ prod]. rewrite !Nat.mul_1_r. set (C := nth ax (shp x) 0%nat).
  rewrite (rsum_ext C (fun k => term (at_ x (ins ax (hd 0%nat (unflat [C] k)) o)) (at_ y (ins ax (hd 0%nat (unflat [C] k)) o))) (fun k => term (at_ x (ins ax k o)) (at_ y (ins ax k o)))) by (intros k K; rewrite hd_unflat1 by exact K; reflexivity).
  rewrite (rsum_ext C (fun k => nrm (at_ x (ins ax (hd 0%nat (unflat [C] k)) o))) (fun k => nrm (at_ x (ins ax k o)))) by (intros k K; rewrite hd_unflat1 by exact K; reflexivity).
  reflexivity.
Qed.
Lemma nonempty_nth s ax : nonempty s -> (ax < length s)%nat -> (0 < nth ax s 0)%nat.
Proof. intros N L. unfold nonempty in N. rewrite Forall_forall in N. apply N. apply nth_In. exact L. Qed.
Lemma dist_lines term nrm x y norm eps z ax : norm_axis (length (shp x)) z = Ok ax -> shp y = shp x -> nonempty (shp x) ->
  exists r, dist term nrm x y norm eps false (Some z) = Ok r /\ shp r = [prod (del ax (shp x))] /\
    forall o, inb (del ax (shp x)) o -> at_ r [flat (del ax (shp x)) o] = value term nrm norm eps (line ax o x) (line ax o y).
Proof.
  intros A E N. pose proof (norm_axis_ok _ _ _ A) as L. pose proof (nonempty_nth _ _ N L) as C.
  destruct (flatten_axis_ok x z ax A ltac:(lia)) as [fx Fx]. pose proof (view_axis _ _ _ _ A Fx) as Vx.
  destruct (flatten_shape x y false (Some z) fx E Fx) as (fy & Fy & _).
  assert (viewed y fy [prod (del ax (shp x))] (nth ax (shp x) 0%nat) (fun idx k => ins ax k (unflat (del ax (shp x)) (hd 0%nat idx)))) as Vy.
  { rewrite <- E. apply (view_axis _ _ z); [rewrite E; exact A|exact Fy]. }
  destruct (dist_ok term nrm x y norm eps false (Some z) _ _ _ _ (eq_sym E) Fx Vx ltac:(lia)) as [r H]. exists r. split; [exact H|].
  destruct (dist_entries _ _ _ _ _ _ _ _ _ _ _ _ _ _ H Fx Fy Vx Vy) as (_ & S & F).
  split; [exact S|]. intros o O. rewrite F by (repeat constructor; apply flat_lt; exact O). cbn [hd]. rewrite unflat_flat by exact O.
  rewrite value_line by exact E. reflexivity.
Qed.
Lemma dist_sample_lines term nrm x y norm eps z ax d0 s' : norm_axis (length (shp x)) z = Ok (S ax) -> shp x = d0 :: s' -> shp y = shp x -> nonempty (shp x) ->
  exists r, dist term nrm x y norm eps true (Some z) = Ok r /\ shp r = [d0; prod (del ax s')] /\
    forall b o, (b < d0)%nat -> inb (del ax s') o -> at_ r [b; flat (del ax s') o] = value term nrm norm eps (line ax o (sample b x)) (line ax o (sample b y)).
Proof.
  intros A Sx E N. pose proof (norm_axis_ok _ _ _ A) as L. pose proof (nonempty_nth _ _ N L) as C.
  rewrite Sx in N. inversion N as [|? ? D N']; subst.
  destruct (flatten_batch_axis_ok x z ax d0 s' A Sx ltac:(lia) ltac:(rewrite Sx in C; cbn [nth] in C; lia)) as [fx Fx].
  destruct (view_batch_axis _ _ _ _ A Fx) as (e0 & v & Hd & P & Z0 & Vx). rewrite Sx in Hd at 1. cbn in Hd. injection Hd as <-.
  assert (v = prod (del ax s')) as ->.
  { rewrite Sx in P. change (del (Datatypes.S ax) (d0 :: s')) with (d0 :: del ax s') in P. cbn [prod] in P. apply Nat.mul_cancel_l in P; [exact P|exact Z0]. }
  destruct (flatten_shape x y true (Some z) fx E Fx) as (fy & Fy & _).
  destruct (view_batch_axis y fy z (S ax) ltac:(rewrite E; exact A) Fy) as (e1 & v1 & Hd1 & P1 & _ & Vy). rewrite E, Sx in Hd1 at 1. cbn in Hd1. injection Hd1 as <-.
  assert (v1 = prod (del ax s')) as ->.
  { rewrite E, Sx in P1. change (del (Datatypes.S ax) (d0 :: s')) with (d0 :: del ax s') in P1. cbn [prod] in P1. apply Nat.mul_cancel_l in P1; [exact P1|exact Z0]. }
  rewrite E in Vy.
  destruct (dist_ok term nrm x y norm eps true (Some z) _ _ _ _ (eq_sym E) Fx Vx ltac:(lia)) as [r H]. exists r. split; [exact H|].
  destruct (dist_entries _ _ _ _ _ _ _ _ _ _ _ _ _ _ H Fx Fy Vx Vy) as (_ & S & F).
  split; [exact S|]. intros b o B O. pose proof (flat_lt _ _ O) as Lo. rewrite F by (repeat constructor; assumption).
  rewrite value_line by (cbn [sample shp]; rewrite E; reflexivity). cbn [sample shp at_]. rewrite Sx at 1 3 5. cbn [nth tl].
  assert (forall k, ins (Datatypes.S ax) k (unflat (del (Datatypes.S ax) (shp x)) (flat [d0; prod (del ax s')] [b; flat (del ax s') o])) = b :: ins ax k o) as G.
  { intro k. rewrite Sx. change (del (Datatypes.S ax) (d0 :: s')) with (d0 :: del ax s'). rewrite <- (unflat_flat _ _ O) at 2. revert Lo.
    generalize (flat (del ax s') o). intros m Lm. cbn [flat unflat].
    replace (b * prod [prod (del ax s')] + (m * prod [] + 0))%nat with (b * prod (del ax s') + m)%nat by (cbn [prod]; lia).
    rewrite Nat.div_add_l, Nat.div_small by lia. rewrite (Nat.add_comm (b * _)), Nat.mod_add, Nat.mod_small by lia. rewrite Nat.add_0_r. reflexivity. }
  unfold ratio. rewrite Sx. cbn [nth].
  rewrite (rsum_ext _ (fun k => term (at_ x (ins (Datatypes.S ax) k (unflat (del (Datatypes.S ax) (d0 :: s')) (flat [d0; prod (del ax s')] [b; flat (del ax s') o])))) (at_ y (ins (Datatypes.S ax) k (unflat (del (Datatypes.S ax) (d0 :: s')) (flat [d0; prod (del ax s')] [b; flat (del ax s') o]))))) (fun k => term (at_ x (b :: ins ax k o)) (at_ y (b :: ins ax k o)))) by (intros k K; rewrite <- Sx, G; reflexivity).
  rewrite (rsum_ext _ (fun k => nrm (at_ x (ins (Datatypes.S ax) k (unflat (del (Datatypes.S ax) (d0 :: s')) (flat [d0; prod (del ax s')] [b; flat (del ax s') o]))))) (fun k => nrm (at_ x (b :: ins ax k o)))) by (intros k K; rewrite <- Sx, G; reflexivity).
  reflexivity.
Qed.
