(** Proofs about the Hessian scores (C84): images of a batch. *)

From Coq Require Import Reals List Bool Arith Lia Lra Permutation.
From Verif Require Import Base HessScoreModel HessScoreSpec HessScoreProofs HessScoreRunProofs.
Import ListNotations.
Local Open Scope R_scope.

Section Image.
Context {O : Type}.

Lemma nth_beside (a b : list (list O)) i : length a = length b -> (i < length a)%nat ->
  nth i (beside a b) [] = nth i a [] ++ nth i b [].
Proof.
  revert b i. induction a as [|x a IH]; intros [|y b] i L H; try discriminate; [cbn in H; lia|].
  destruct i as [|i]; [reflexivity|]. cbn [beside combine map nth].
  apply (IH b i); [now injection L|cbn in H; lia].
Qed.

Lemma nth_fold_beside ms m n i : length m = n -> (forall x, In x ms -> length x = n) ->
  (i < n)%nat ->
  nth i (fold_left beside ms m) [] = nth i m [] ++ concat (map (fun x => nth i x []) ms) :> list O.
Proof.
  revert m. induction ms as [|x ms IH]; intros m Lm H Hi.
  - cbn. now rewrite app_nil_r.
  - cbn [fold_left map concat].
    assert (Lx : length x = n) by (apply H; now left).
    rewrite IH.
    + rewrite nth_beside by congruence || lia. now rewrite <- app_assoc.
    + rewrite beside_length; congruence.
    + intros y Hy. apply H. now right.
    + exact Hi.
Qed.

Lemma fold_beside_single {A} (f : A -> list O) ms y :
  fold_left beside (map (fun x => [f x]) ms) [y] = [y ++ concat (map f ms)].
Proof.
  revert y. induction ms as [|x ms IH]; intro y; cbn [map fold_left concat].
  - now rewrite app_nil_r.
  - change (beside [y] [f x]) with [y ++ f x]. rewrite IH. now rewrite <- app_assoc.
Qed.

Lemma part_zero {A} i (l : list A) : part 0 i l = [].
Proof. reflexivity. Qed.

Lemma skipn_skipn' {A} a b (l : list A) : skipn a (skipn b l) = skipn (a + b) l.
Proof.
  revert l. induction b as [|b IH]; intro l.
  - now rewrite Nat.add_0_r.
  - rewrite Nat.add_succ_r. destruct l as [|x l]; [now rewrite !skipn_nil|]. cbn. apply IH.
Qed.

Lemma combine_app' {A B} (a a' : list A) (b b' : list B) : length a = length b ->
  combine (a ++ a') (b ++ b') = combine a b ++ combine a' b'.
Proof.
  revert b. induction a as [|x a IH]; intros [|y b] H; try discriminate; [reflexivity|].
  cbn. f_equal. apply IH. now injection H.
Qed.

Lemma lin_zero (x : O -> R) os v : (forall o, In o os -> x o = 0) -> lin x v os = 0.
Proof.
  intro H. unfold lin. rewrite (sumR_map_ext _ (fun _ => 0)); [apply sumR_zero|].
  intros [c o] Hin. apply in_combine_r in Hin. cbn [snd]. rewrite H by exact Hin. ring.
Qed.

Lemma lin_app (x : O -> R) v v' os os' : length v = length os ->
  lin x (v ++ v') (os ++ os') = lin x v os + lin x v' os'.
Proof. intro H. unfold lin. now rewrite combine_app', map_app, sumR_app. Qed.

Lemma lin_row (x : O -> R) W : forall m i v,
  (forall r, In r m -> length r = W) -> length v = (length m * W)%nat ->
  (forall j o, j <> i -> In o (nth j m []) -> x o = 0) -> (i < length m)%nat ->
  lin x v (concat m) = lin x (part W i v) (nth i m []).
Proof.
  induction m as [|r m IH]; intros i v Hr Lv Hx Hi; [cbn in Hi; lia|].
  cbn [concat]. rewrite <- (firstn_skipn W v) at 1.
  assert (Lr : length r = W) by (apply Hr; now left).
  assert (L1 : length (firstn W v) = W) by (rewrite firstn_length, Lv; cbn; lia).
  assert (L2 : length (skipn W v) = (length m * W)%nat) by (rewrite skipn_length, Lv; cbn; lia).
  rewrite lin_app by congruence.
  destruct i as [|i].
  - cbn [nth]. unfold part. cbn [Nat.mul skipn].
    rewrite (lin_zero x (concat m)); [lra|].
    intros o Ho. apply in_concat in Ho as (row & Hrow & Ho).
    apply In_nth with (d := []) in Hrow as (j & Hj & <-).
    apply (Hx (S j) o); [discriminate|exact Ho].
  - cbn [nth]. rewrite (lin_zero x r) by (intros o Ho; apply (Hx 0%nat o); [discriminate|exact Ho]).
    rewrite (IH i (skipn W v)).
    + unfold part. rewrite skipn_skipn'. replace (i * W + W)%nat with (S i * W)%nat by lia. lra.
    + intros r' Hr'. apply Hr. now right.
    + exact L2.
    + intros j o Hj Ho. apply (Hx (S j) o); [congruence|exact Ho].
    + cbn in Hi. lia.
Qed.

Variable l : list (item O).
Variable b : nat.
Variable image_of : O -> nat.
Variable tgs : list (target O).
Hypothesis Hgood : good_outputs (Items l) b.
Hypothesis Hsep : separate_images image_of l tgs.
Variable i : nat.
Hypothesis Hi : (i < b)%nat.

Let ts := tensors (Items l).

Lemma ts_shape t : In t ts -> length (t_data t) = (b * image_size (t_shape t))%nat /\
                              t_shape t = b :: tl (t_shape t).
Proof using Hgood.
  intro H. destruct Hgood as (_ & _ & Ht & _). destruct (Ht t H) as (L & r & E).
  unfold image_size. rewrite L, E. split; reflexivity.
Qed.

Lemma rows_nth t j : In t ts -> (j < b)%nat ->
  nth j (rows t) [] = part (image_size (t_shape t)) j (t_data t).
Proof using Hgood.
  intros Ht Hj. destruct (ts_shape t Ht) as [_ E]. unfold rows, part, image_size.
  rewrite E. cbn [hd tl]. now rewrite chunks_nth.
Qed.

Lemma unfold_items (l' : list (item O)) :
  unfold_tensors_list (Items l') = Ok (tensors (Items l')).
Proof using. cbn. now rewrite flat_map_concat_map. Qed.

Lemma image_tensors : tensors (Items (map (image_item i) l)) = map (image_tensor i) ts.
Proof.
  unfold ts. cbn [tensors]. clear. induction l as [|x l' IH]; [reflexivity|].
  cbn [map flat_map]. rewrite map_app, IH. f_equal. destruct x; reflexivity.
Qed.

Lemma part_length {A} w j (d : list A) n : length d = (n * w)%nat -> (j < n)%nat ->
  length (part w j d) = w.
Proof using. clear. intros L H. unfold part. rewrite firstn_length, skipn_length, L. nia. Qed.

Lemma in_part {A} w j (d : list A) (o : A) : In o (part w j d) ->
  exists k, nth_error d k = Some o /\ (k / w = j)%nat.
Proof using.
  clear.
  unfold part. intro H. apply In_nth_error in H as (n & Hn).
  assert (n < w)%nat.
  { destruct (le_lt_dec w n); [|assumption]. exfalso.
    assert (nth_error (firstn w (skipn (j * w) d)) n = None) as E.
    { apply nth_error_None. rewrite firstn_length. lia. }
    congruence. }
  exists (j * w + n)%nat. split.
  - clear - Hn H. revert Hn. generalize (j * w)%nat as a. intros a Hn.
    assert (G : forall d' : list A, nth_error (firstn w d') n = nth_error d' n).
    { clear - H. revert n H. induction w as [|w IH]; intros n H d'; [lia|].
      destruct d' as [|x d']; [now rewrite firstn_nil|]. destruct n; [reflexivity|].
      cbn. apply IH. lia. }
    rewrite G in Hn.
    clear - Hn. revert d Hn. induction a as [|a IH]; intros d Hn; [exact Hn|].
    destruct d as [|x d]; [rewrite skipn_nil in Hn; destruct n; discriminate|].
    cbn in *. now apply IH.
  - rewrite Nat.add_comm, Nat.div_add by lia. rewrite Nat.div_small by lia. lia.
Qed.

(** the concatenated output of the batch and of the image alone *)
Lemma concat_images :
  exists m, concat_tensors (Items l) = Ok m /\
            concat_tensors (Items (map (image_item i) l)) = Ok [nth i m []] /\
            length m = b /\
            (forall j, (j < b)%nat -> length (nth j m []) = image_outputs l) /\
            (forall j o, (j < b)%nat -> In o (nth j m []) -> image_of o = j /\ In o (elements (Items l))).
Proof using Hgood Hsep Hi.
  pose proof Hgood as (Hb & Hn & Ht & _). fold ts in Hn.
  pose proof ts_shape as Tsh. pose proof rows_nth as Rn.
  pose proof image_tensors as It.
  destruct (concat_ok (Items l) ts b Hb (unfold_items l) Hn Ht) as (m & Em & Lm & P & Fm).
  assert (NM : forall j, (j < b)%nat ->
            nth j m [] = concat (map (fun t => part (image_size (t_shape t)) j (t_data t)) ts)).
  { intros j Hj. rewrite Fm.
    assert (LR : forall x, In x (map rows ts) -> length x = b).
    { intros x Hx. apply in_map_iff in Hx as (t & <- & Hin). unfold rows.
      rewrite chunks_length. destruct (Tsh t Hin) as [_ ->]. reflexivity. }
    destruct ts as [|t0 ts0] eqn:Ets; [now elim Hn|]. cbn [map hd tl] in *.
    rewrite (nth_fold_beside _ _ b).
    - cbn [concat]. rewrite Rn by (auto; now left). f_equal. f_equal.
      rewrite map_map. apply map_ext_in. intros t Hin. apply Rn; [now right|exact Hj].
    - apply LR. now left.
    - intros x Hx. apply LR. now right.
    - exact Hj. }
  exists m. split; [exact Em|]. split; [|split; [exact Lm|split]].
  - destruct (concat_ok (Items (map (image_item i) l)) (map (image_tensor i) ts) 1 ltac:(lia))
      as (m' & Em' & _ & _ & Fm').
    + rewrite unfold_items. now rewrite It.
    + destruct ts; [now elim Hn|discriminate].
    + intros t Hin. apply in_map_iff in Hin as (t0 & <- & Hin).
      destruct (Tsh t0 Hin) as [L E]. cbn [image_tensor t_data t_shape].
      split; [|eexists; reflexivity].
      rewrite (part_length _ _ _ b L Hi). unfold image_size. cbn. lia.
    + rewrite Em'. f_equal. rewrite Fm', NM by exact Hi.
      assert (RR : forall t, In t ts -> rows (image_tensor i t) =
                     [part (image_size (t_shape t)) i (t_data t)]).
      { intros t Hin. destruct (Tsh t Hin) as [L E]. unfold rows, image_tensor. cbn.
        f_equal. apply firstn_all2. rewrite (part_length _ _ _ b L Hi). reflexivity. }
      destruct ts as [|t0 ts0] eqn:Ets; [now elim Hn|]. cbn [map hd tl concat].
      rewrite RR by now left. rewrite map_map.
      rewrite (map_ext_in (fun x => rows (image_tensor i x))
                 (fun t => [part (image_size (t_shape t)) i (t_data t)]) ts0)
        by (intros t Hin; apply RR; now right).
      apply fold_beside_single.
  - intros j Hj. rewrite NM by exact Hj. unfold image_outputs. fold ts.
    clear - Hj Tsh. induction ts as [|t ts0 IH]; [reflexivity|].
    cbn [map concat fold_right]. rewrite app_length.
    rewrite (part_length _ _ _ b (proj1 (Tsh t (or_introl eq_refl))) Hj).
    f_equal. apply IH. intros t' H'. apply Tsh. now right.
  - intros j o Hj Ho. split.
    + rewrite NM in Ho by exact Hj. apply in_concat in Ho as (x & Hx & Ho).
      apply in_map_iff in Hx as (t & <- & Hin).
      apply in_part in Ho as (k & Hk & Ek).
      destruct Hsep as (Hs1 & _). rewrite (Hs1 t k o Hin Hk).
      destruct (Tsh t Hin) as [L E]. rewrite E. rewrite index_first; [exact Ek|].
      change (prod (tl (t_shape t))) with (image_size (t_shape t)).
      rewrite <- L. apply nth_error_Some. congruence.
    + destruct (concat_good (Items l) b Hgood) as (m2 & E2 & _ & _ & P2).
      rewrite Em in E2. injection E2 as <-.
      apply (Permutation_in _ P2). apply in_concat. exists (nth j m []). split; [|exact Ho].
      apply nth_In. lia.
Qed.

Lemma derivative_image m v tg k :
  In tg tgs -> tg_shape tg = b :: tl (tg_shape tg) ->
  length m = b ->
  (forall j, (j < b)%nat -> length (nth j m []) = image_outputs l) ->
  (forall j o, (j < b)%nat -> In o (nth j m []) -> image_of o = j /\ In o (elements (Items l))) ->
  length v = (b * image_outputs l)%nat ->
  (k < image_size (tg_shape tg))%nat ->
  derivative 1 (concat m) tg v (i * image_size (tg_shape tg) + k) =
  derivative 1 (nth i m []) (image_target i tg) (part (image_outputs l) i v) k.
Proof using Hsep Hi.
  intros Htg Es Lm Lr Im Lv Hk.
  change (lin (fun o => 1 * tg_jac tg o (i * image_size (tg_shape tg) + k)%nat) v (concat m) =
          lin (fun o => 1 * tg_jac tg o (i * image_size (tg_shape tg) + k)%nat)
              (part (image_outputs l) i v) (nth i m [])).
  apply lin_row.
  - intros r Hr. apply In_nth with (d := []) in Hr as (j & Hj & <-). apply Lr. lia.
  - now rewrite Lm.
  - intros j o Hj Ho.
    destruct (le_lt_dec b j) as [Hge | Hlt].
    { rewrite nth_overflow in Ho by lia. destruct Ho. }
    destruct (Im j o Hlt Ho) as [Eo Ho']. destruct Hsep as (_ & Hz).
    assert (Hlen : (i * image_size (tg_shape tg) + k < b * prod (tl (tg_shape tg)))%nat)
      by (unfold image_size in *; nia).
    rewrite (Hz tg o (i * image_size (tg_shape tg) + k)%nat Htg Ho'); [ring| |].
    + rewrite Es. cbn [prod]. exact Hlen.
    + rewrite Es. rewrite index_first; [|exact Hlen].
      cbn [tl]. unfold image_size. rewrite Es at 1. cbn [tl].
      rewrite Nat.add_comm, Nat.div_add by (unfold image_size in Hk; lia).
      rewrite Nat.div_small by exact Hk. lia.
  - lia.
Qed.

Lemma seq_shift_by a n d : map (fun k => (d + k)%nat) (seq a n) = seq (d + a) n.
Proof using.
  clear.
  revert a. induction n as [|n IH]; intro a; [reflexivity|]. cbn. f_equal.
  rewrite IH. f_equal. lia.
Qed.

Lemma part_map_seq {A} (f : nat -> A) Q n j : (j < n)%nat ->
  part Q j (map f (seq 0 (n * Q))) = map (fun q => f (j * Q + q)%nat) (seq 0 Q).
Proof using.
  clear.
  intro H. unfold part.
  replace (n * Q)%nat with (j * Q + (Q + (n - j - 1) * Q))%nat by nia.
  rewrite !seq_app, !map_app. cbn [Nat.add].
  rewrite skipn_app, skipn_all2 by (rewrite map_length, seq_length; lia).
  rewrite map_length, seq_length, Nat.sub_diag. cbn [skipn app].
  rewrite firstn_app, firstn_all2 by (rewrite map_length, seq_length; lia).
  rewrite map_length, seq_length, Nat.sub_diag, firstn_O, app_nil_r.
  rewrite <- (Nat.add_0_r (j * Q)) at 1. rewrite <- seq_shift_by, map_map. reflexivity.
Qed.

Lemma image_scores g draws :
  draws <> [] ->
  (forall v, In v draws -> length v = (b * image_outputs l)%nat) ->
  (forall tg, In tg tgs -> tg_conn tg = true /\ exists c r, tg_shape tg = b :: c :: r) ->
  exists all one,
    torch_act_compute g l tgs draws = Ok all /\
    torch_act_compute g (map (image_item i) l) (map (image_target i) tgs)
                      (map (part (image_outputs l) i) draws) = Ok one /\
    length one = length tgs /\
    forall n, (n < length tgs)%nat ->
      length (nth n all []) = (b * length (nth n one []))%nat /\
      nth n one [] = part (length (nth n one [])) i (nth n all []).
Proof using Hgood Hsep Hi.
  intros Hd Hv Htg.
  pose proof derivative_image as DI.
  destruct concat_images as (m & Em & Em1 & Lm & Lr & Im).
  unfold torch_act_compute. rewrite Em, Em1. cbn [bind concat]. rewrite app_nil_r.
  do 2 eexists. split; [reflexivity|]. split; [reflexivity|].
  unfold zeros, act_approx. rewrite !loop_targets.
  split; [now rewrite !map_length|].
  intros n Hn.
  destruct (nth_error tgs n) as [tg|] eqn:En; [|apply nth_error_None in En; lia].
  pose proof (nth_error_In _ _ En) as Hin.
  destruct (Htg tg Hin) as (Hc & c & r & Es).
  assert (N1 : forall (F : target O -> vec), nth n (map F tgs) [] = F tg).
  { intro F. apply nth_error_nth. rewrite nth_error_map, En. reflexivity. }
  assert (G2 : torch_act_loop
     (fun v => map (fun tg0 => if tg_conn tg0 then
                  Some (torch_act_approx g tg0 (gradient 1 (nth i m []) tg0 v)) else None)
                  (map (image_target i) tgs))
     (map (part (image_outputs l) i) draws) 0 (map (fun _ => [0]) (map (image_target i) tgs)) =
     map (fun tg0 => one_loop (fun v => if tg_conn (image_target i tg0) then
            Some (torch_act_approx g (image_target i tg0)
                    (gradient 1 (nth i m []) (image_target i tg0) v)) else None)
            (map (part (image_outputs l) i) draws) 0 [0]) tgs).
  { rewrite (loop_targets (fun tg0 v => if tg_conn tg0 then
        Some (torch_act_approx g tg0 (gradient 1 (nth i m []) tg0 v)) else None)
        (map (image_target i) tgs) _ 0 (fun _ => [0])).
    now rewrite map_map. }
  match goal with |- context [nth n ?one []] =>
    match one with map _ (map (image_target i) tgs) => idtac end end || idtac.
  rewrite !N1 || idtac.
  assert (Is : tg_shape (image_target i tg) = 1%nat :: c :: r).
  { cbn. now rewrite Es. }
  set (Q := tq g (c :: r)). set (w := tw g (c :: r)). set (dv := tdiv g (c :: r)).
  assert (A1 : one_loop (fun v => if tg_conn tg then
                 Some (torch_act_approx g tg (gradient 1 (concat m) tg v)) else None) draws 0 [0] =
               map (fun q => average (fun v => sumR (map (fun k => derivative 1 (concat m) tg v k ^ 2)
                                        (seq (q * w) w)) / dv) draws) (seq 0 (b * Q))).
  { rewrite Hc. rewrite <- one_loop_mean by exact Hd. apply one_loop_ext. intro v.
    rewrite (torch_act_parts 1 (concat m) g tg v b c r Es). reflexivity. }
  assert (A2 : one_loop (fun v => if tg_conn (image_target i tg) then
                 Some (torch_act_approx g (image_target i tg)
                    (gradient 1 (nth i m []) (image_target i tg) v)) else None)
                 (map (part (image_outputs l) i) draws) 0 [0] =
               map (fun q => average (fun v => sumR (map (fun k =>
                       derivative 1 (nth i m []) (image_target i tg) v k ^ 2)
                                        (seq (q * w) w)) / dv)
                       (map (part (image_outputs l) i) draws)) (seq 0 Q)).
  { cbn [tg_conn image_target]. rewrite Hc. rewrite <- one_loop_mean
      by (destruct draws; [now elim Hd|discriminate]).
    apply one_loop_ext. intro v.
    rewrite (torch_act_parts 1 (nth i m []) g (image_target i tg) v 1 c r Is).
    now rewrite Nat.mul_1_l. }
  rewrite map_map in *.
  match goal with |- context [nth n (map ?F (map (image_target i) tgs)) []] =>
    rewrite (map_map (image_target i) F) end || idtac.
  rewrite !N1. rewrite A1.
  match goal with |- context [one_loop ?h (map (part (image_outputs l) i) draws) 0 [0]] =>
    change (one_loop h (map (part (image_outputs l) i) draws) 0 [0]) with
      (one_loop (fun v => if tg_conn (image_target i tg) then
                 Some (torch_act_approx g (image_target i tg)
                    (gradient 1 (nth i m []) (image_target i tg) v)) else None)
                 (map (part (image_outputs l) i) draws) 0 [0]) end.
  rewrite A2. rewrite !map_length, !seq_length. split; [reflexivity|].
  rewrite part_map_seq by exact Hi. apply map_ext_in. intros q Hq. apply in_seq in Hq.
  unfold average. rewrite map_map, !map_length. f_equal. apply sumR_map_ext. intros v Hvin.
  f_equal.
  assert (Ew : (Q * w)%nat = image_size (tg_shape tg)).
  { rewrite Es. apply tq_tw. }
  replace ((i * Q + q) * w)%nat with (i * image_size (tg_shape tg) + q * w)%nat by (rewrite <- Ew; lia).
  rewrite <- seq_shift_by, map_map. apply sumR_map_ext. intros k Hk. apply in_seq in Hk.
  f_equal. symmetry. apply DI; auto.
  - now rewrite Es.
  - rewrite <- Ew. nia.
Qed.

End Image.
