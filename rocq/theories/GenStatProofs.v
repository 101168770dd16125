(* GenStatProofs.v -- C90: the invariant of the statistics and their averages. *)
From Coq Require Import Reals Lra Lia List.
From Verif Require Import Nd.
From Verif Require Import Base GenModel GenStatModel GenStatSpec.
Import ListNotations.
Open Scope R_scope.

(* ---- averages ---- *)
Lemma total_app a b : total (a ++ b) = total a + total b.
Proof. unfold total. induction a; cbn; [lra|]. rewrite IHa. lra. Qed.
Lemma average_total l : average l * INR (length l) = total l \/ l = [].
Proof.
  destruct l as [|x r]; [right; reflexivity|left]. unfold average, total. field. apply not_0_INR. discriminate.
Qed.
Lemma total_sq_dev l a : total (map (fun x => (x - a) ^ 2) l) = total (map (fun x => x ^ 2) l) - 2 * a * total l + INR (length l) * a ^ 2.
Proof.
  induction l as [|x l IH]; [cbn; ring|]. change (total (map (fun y => (y - a) ^ 2) (x :: l))) with ((x - a) ^ 2 + total (map (fun y => (y - a) ^ 2) l)).
  change (total (map (fun y => y ^ 2) (x :: l))) with (x ^ 2 + total (map (fun y => y ^ 2) l)). change (total (x :: l)) with (x + total l).
  rewrite IH. cbn [length]. rewrite S_INR. ring.
Qed.
Lemma variance_second l : l <> [] -> variance l = average (map (fun x => x ^ 2) l) - average l ^ 2.
Proof.
  intro H. unfold variance. unfold average at 1 3. rewrite !map_length. fold (total (map (fun x => (x - average l) ^ 2) l)). fold (total (map (fun x => x ^ 2) l)).
  rewrite total_sq_dev. destruct (average_total l) as [E|E]; [|contradiction]. assert (INR (length l) <> 0) by (apply not_0_INR; destruct l; [contradiction|discriminate]).
  rewrite <- E. field. assumption.
Qed.
Lemma second_torch l : l <> [] -> second GTorch l - mean l ^ 2 = variance l.
Proof. intro H. rewrite variance_second by exact H. reflexivity. Qed.

Lemma rsum_total n (v : nat -> list R) : total (concat (map v (seq 0 n))) = rsum n (fun i => total (v i)).
Proof. induction n as [|n IH]; [reflexivity|]. rewrite seq_S, map_app, concat_app, total_app, IH. cbn. rewrite app_nil_r. reflexivity. Qed.
Lemma concat_length n (v : nat -> list R) L : (forall i, (i < n)%nat -> length (v i) = L) -> length (concat (map v (seq 0 n))) = (n * L)%nat.
Proof.
  induction n as [|n IH]; intro H; [reflexivity|]. rewrite seq_S, map_app, concat_app, app_length, IH by (intros; apply H; lia). cbn. rewrite app_nil_r, H by lia. lia.
Qed.
Lemma average_batches n (v : nat -> list R) L : (0 < n)%nat -> (0 < L)%nat -> (forall i, (i < n)%nat -> length (v i) = L) ->
  rsum n (fun i => average (v i)) / INR n = average (concat (map v (seq 0 n))).
Proof.
  intros N P H. assert (INR n <> 0) by (apply not_0_INR; lia). assert (INR L <> 0) by (apply not_0_INR; lia).
  unfold average at 2. rewrite (concat_length n v L H). fold (total (concat (map v (seq 0 n)))). rewrite rsum_total.
  rewrite (rsum_ext n (fun i => average (v i)) (fun i => total (v i) * / INR L)).
  - rewrite rsum_scal_r, mult_INR. field. auto.
  - intros i Hi. unfold average. rewrite H by exact Hi. reflexivity.
Qed.
Lemma map_concat_seq (g : R -> R) n (v : nat -> list R) : map g (concat (map v (seq 0 n))) = concat (map (fun i => map g (v i)) (seq 0 n)).
Proof. rewrite concat_map, map_map. reflexivity. Qed.

(* ---- the history ---- *)
Lemma images_snoc init h u i : images init (h ++ [u]) i = if Nat.eqb (s_batch u) i then s_new u else images init h i.
Proof. unfold images. rewrite fold_left_app. reflexivity. Qed.
Lemma fed_snoc fin init h u i : forall done cur, fed fin init done (h ++ [u]) i cur =
  if Nat.eqb (s_batch u) i then map (s_aug u) (images init (done ++ h) i) else fed fin init done h i cur.
Proof.
  induction h as [|x h IH]; intros done cur; cbn [app fed]; [rewrite app_nil_r; reflexivity|]. rewrite IH. rewrite <- app_assoc. reflexivity.
Qed.
Section Inv.
  Variables (f : gfw) (gr : gran) (N : net) (nb : nat) (fin : nd -> nd) (init : nat -> list nd).
  Let run hist := fold_left (one_step f gr N fin) hist (start f gr N nb fin init).
  Lemma run_images hist i : b_imgs (run hist) i = images init hist i.
  Proof.
    induction hist as [|u h IH] using rev_ind; [unfold run, start; cbn; destruct gr; reflexivity|].
    unfold run in *. rewrite fold_left_app, images_snoc. cbn [fold_left].
    assert (b_imgs (one_step f gr N fin (fold_left (one_step f gr N fin) h (start f gr N nb fin init)) u) = put (s_batch u) (s_new u) (b_imgs (fold_left (one_step f gr N fin) h (start f gr N nb fin init)))) as E by (unfold one_step, after_loss; destruct gr; reflexivity).
    rewrite E. unfold put. rewrite (Nat.eqb_sym i). destruct (Nat.eqb (s_batch u) i); [reflexivity|exact IH].
  Qed.
  Lemma run_stat hist i : gr = AllImages -> b_stat (run hist) i = calc f gr N (map fin (images init hist i)) (fed fin init [] hist i (map fin (init i))).
  Proof.
    intro G. induction hist as [|u h IH] using rev_ind; [unfold run, start; cbn [fold_left]; rewrite G; reflexivity|].
    pose proof (run_images h (s_batch u)) as RI. unfold run in *. rewrite fold_left_app, images_snoc, fed_snoc. cbn [fold_left app].
    set (st := fold_left (one_step f gr N fin) h (start f gr N nb fin init)) in *.
    assert (b_stat (one_step f gr N fin st u) i = if Nat.eqb i (s_batch u) then calc f gr N (map fin (s_new u)) (map (s_aug u) (b_imgs st (s_batch u))) else b_stat st i) as E.
    { unfold one_step, after_loss. destruct gr; try discriminate. cbn. unfold put. destruct (Nat.eqb i (s_batch u)); reflexivity. }
    rewrite E, (Nat.eqb_sym i), RI. destruct (Nat.eqb_spec (s_batch u) i) as [->|D]; [reflexivity|exact IH].
  Qed.
  Lemma loss_stat hist j aug i : gr = AllImages ->
    b_stat (before_loss f gr N (run hist) j aug) i = calc f gr N (if Nat.eqb i j then map aug (images init hist j) else map fin (images init hist i))
      (if Nat.eqb i j then map aug (images init hist j) else fed fin init [] hist i (map fin (init i))).
  Proof.
    intro G. cbn [b_stat before_loss]. unfold put. destruct (Nat.eqb_spec i j) as [->|D]; [rewrite run_images; reflexivity|]. apply run_stat. exact G.
  Qed.
  Lemma loss_stat_key hist j aug k i c : gr = AllImages -> hd (fun _ => (0, 0)) (b_stat (before_loss f gr N (run hist) j aug) i k) c =
    (average (values N k (looked_at fin init hist j aug k i) c), second f (values N k (looked_at fin init hist j aug k i) c)).
  Proof.
    intro G. rewrite (loss_stat hist j aug i G). unfold calc, looked_at. rewrite G. cbn [rows_of map hd]. destruct k; destruct (Nat.eqb i j); reflexivity.
  Qed.
  Lemma loss_stat_batch hist j aug k : gr <> AllImages -> b_stat (before_loss f gr N (run hist) j aug) j k =
    map (fun grp c => (average (values N k grp c), second f (values N k grp c))) (rows_of gr (map aug (images init hist j))).
  Proof.
    intro G. cbn [b_stat before_loss]. unfold put. rewrite Nat.eqb_refl, run_images. unfold calc. destruct k; reflexivity.
  Qed.
End Inv.
Lemma align_distance f N ru k row : align f N ru k row = distance N k (fun c => fst (row c)) (fun c => sqrt (var_of f (fst (row c)) (snd (row c)) + eps)) (orig_mean ru k) (orig_std f ru k).
Proof. unfold align, distance. change (match k with K_image => 1 | K_bn _ => INR (n_ch N k) end) with (divisor N k). unfold Rdiv. ring. Qed.
Lemma distance_ext N k m m' s s' a b : (forall c, (c < n_ch N k)%nat -> m c = m' c /\ s c = s' c) -> distance N k m s a b = distance N k m' s' a b.
Proof.
  intro H. unfold distance. f_equal. f_equal; apply rsum_ext; intros c Hc; destruct (H c Hc) as [E1 E2]; rewrite ?E1, ?E2; reflexivity.
Qed.
Lemma sum_ext {A} (g h : A -> R) l : (forall x, In x l -> g x = h x) -> fold_right Rplus 0 (map g l) = fold_right Rplus 0 (map h l).
Proof. induction l as [|x l IH]; intro H; cbn; [reflexivity|]. rewrite (H x), IH; auto with datatypes. Qed.
Lemma sum_nonneg {A} (g : A -> R) l : (forall x, In x l -> 0 <= g x) -> 0 <= fold_right Rplus 0 (map g l) /\ (fold_right Rplus 0 (map g l) = 0 <-> forall x, In x l -> g x = 0).
Proof.
  induction l as [|x l IH]; intro H; cbn; [split; [lra|]; split; [intros _ y []|reflexivity]|].
  destruct (IH ltac:(intros; apply H; right; assumption)) as [P Z]. assert (0 <= g x) by (apply H; left; reflexivity). split; [lra|]. split.
  - intros E y [->|I]; [lra|]. apply (proj1 Z); [lra|exact I].
  - intro Q. rewrite (Q x) by (left; reflexivity). rewrite (proj2 Z); [lra|]. intros; apply Q; right; assumption.
Qed.
Lemma rsum_sq n g : 0 <= rsum n (fun c => g c ^ 2) /\ (rsum n (fun c => g c ^ 2) = 0 <-> forall c, (c < n)%nat -> g c = 0).
Proof.
  induction n as [|n [P Z]]; cbn [rsum]; [split; [lra|]; split; [intros _ c H; lia|reflexivity]|]. assert (0 <= g n ^ 2) by (apply pow2_ge_0). split; [lra|]. split.
  - intros E c Hc. destruct (Nat.eq_dec c n) as [->|D]; [|apply (proj1 Z); [lra|lia]]. assert (g n ^ 2 = 0) by lra. destruct (Req_dec (g n) 0) as [|D]; [assumption|]. pose proof (pow_nonzero (g n) 2 D). lra.
  - intro A. rewrite (proj2 Z) by (intros; apply A; lia). rewrite (A n) by lia. ring.
Qed.
Lemma divisor_pos N k : (0 < n_ch N k)%nat -> 0 < divisor N k.
Proof. intro H. unfold divisor. destruct k; [lra|]. apply lt_0_INR. exact H. Qed.
Lemma distance_zero N k m s m' s' : (0 < n_ch N k)%nat -> 0 <= distance N k m s m' s' /\
  (distance N k m s m' s' = 0 <-> forall c, (c < n_ch N k)%nat -> m c = m' c /\ s c = s' c).
Proof.
  intro H. pose proof (divisor_pos N k H) as D. unfold distance. change (match k with K_image => 1 | K_bn _ => INR (n_ch N k) end) with (divisor N k). destruct (rsum_sq (n_ch N k) (fun c => m c - m' c)) as [P1 Z1]. destruct (rsum_sq (n_ch N k) (fun c => s c - s' c)) as [P2 Z2].
  cbn beta in *. assert (0 < / divisor N k) as I by (apply Rinv_0_lt_compat; exact D). split; [apply Rmult_le_pos; lra|]. split.
  - intros E c Hc. unfold Rdiv in E. apply Rmult_integral in E. destruct E as [E|E]; [|lra]. split; [enough (m c - m' c = 0) by lra; apply (proj1 Z1); [lra|exact Hc]|enough (s c - s' c = 0) by lra; apply (proj1 Z2); [lra|exact Hc]].
  - intro A. rewrite (proj2 Z1), (proj2 Z2); [unfold Rdiv; ring| |]; intros c Hc; destruct (A c Hc); lra.
Qed.
Lemma sum_seq (g : nat -> R) n : fold_right Rplus 0 (map g (seq 0 n)) = rsum n g.
Proof. induction n as [|n IH]; [reflexivity|]. rewrite seq_S, map_app. fold (total (map g (seq 0 n) ++ map g [(0 + n)%nat])). rewrite total_app. unfold total. rewrite IH. cbn. lra. Qed.
