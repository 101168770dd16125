(** Proofs about the computation of the Hessian scores (C84): approximations
    are sums over cells, iterations compute averages, concatenation keeps
    every element of the outputs. *)

From Coq Require Import Reals List Bool Arith Lia Lra Permutation.
From Verif Require Import Base HessScoreModel HessScoreSpec HessScoreProofs.
Import ListNotations.
Local Open Scope R_scope.

(** ** approximations *)

Section Approx.
Context {O : Type}.
Variable scale : R.
Variable os : list O.

Lemma squares_gradient tg v :
  squares (gradient scale os tg v) =
  map (fun k => derivative scale os tg v k ^ 2) (seq 0 (prod (tg_shape tg))).
Proof.
  unfold squares, gradient. rewrite map_map. apply map_ext. intro k.
  unfold derivative.
  rewrite (sumR_map_ext (fun p => scale * (sgn (fst p) * tg_jac tg (snd p) k))
             (fun p => (if fst p : bool then 1 else -1) * (scale * tg_jac tg (snd p) k))).
  - ring.
  - intros [b o] _. unfold sgn. cbn [fst snd]. ring.
Qed.

Lemma nth_map_seq (F : nat -> R) n k : (k < n)%nat -> nth k (map F (seq 0 n)) 0 = F k.
Proof.
  intro H. rewrite nth_indep with (d' := F 0%nat) by (rewrite map_length, seq_length; exact H).
  now rewrite map_nth, seq_nth.
Qed.

Lemma singles_estimate tg v s :
  map (fun cell => estimate scale os tg cell v) (singles s) =
  map (fun k => derivative scale os tg v k ^ 2) (seq 0 (prod s)).
Proof.
  unfold singles. rewrite map_map. apply map_ext. intro k. unfold estimate. cbn [map].
  rewrite sumR_cons. change (sumR []) with 0. ring.
Qed.

Lemma select_coord s ax c : (ax < length s)%nat ->
  select s (fun ix => Nat.eqb (nth ax ix 0%nat) c) =
  filter (fun k => Nat.eqb (coord s ax k) c) (seq 0 (prod s)).
Proof.
  intro H. unfold select. apply filter_ext_in'. intros k Hk. apply in_seq in Hk.
  rewrite index_coord by lia. reflexivity.
Qed.

Lemma torch_weights_cells g tg v : (tg_axis tg < length (tg_shape tg))%nat ->
  torch_weights_approx g tg (gradient scale os tg v) =
  map (fun cell => estimate scale os tg cell v)
      (weights_cells g (tg_shape tg) (tg_axis tg)).
Proof.
  intro Hax. unfold torch_weights_approx. rewrite squares_gradient.
  set (s := tg_shape tg) in *. set (F := fun k => derivative scale os tg v k ^ 2).
  destruct g; cbn [weights_cells].
  - cbn [map]. unfold estimate. fold F. destruct (Nat.eqb_spec (length s) 0); [|reflexivity].
    lia.
  - destruct (Nat.eqb_spec (length s) 1) as [E | E].
    + destruct s as [|d [|e r]]; cbn in E; try discriminate E. cbn [length] in Hax.
      assert (tg_axis tg = 0)%nat as -> by lia. cbn [nth].
      rewrite map_map. cbn [prod]. rewrite Nat.mul_1_r.
      apply map_ext_in. intros k Hk. apply in_seq in Hk.
      rewrite select_coord by (cbn; lia). unfold coord. cbn [skipn prod nth].
      assert (Ef : filter (fun k0 => Nat.eqb ((k0 / 1) mod d) k) (seq 0 (d * 1)) = [k]).
      { rewrite (filter_ext_in' _ (fun k0 => Nat.eqb (k0 / 1) k)).
        - rewrite filter_div by lia. cbn. f_equal. lia.
        - intros x Hx. apply in_seq in Hx. rewrite Nat.div_1_r, Nat.mod_small by lia.
          reflexivity. }
      rewrite Ef. unfold estimate. cbn [map]. rewrite sumR_cons. change (sumR []) with 0.
      unfold F. ring.
    + rewrite map_map. apply map_ext_in. intros c Hc.
      rewrite select_coord by exact Hax. unfold estimate. fold F.
      rewrite <- sumR_if_filter. apply sumR_map_ext. intros k Hk. apply in_seq in Hk.
      destruct (Nat.eqb (coord s (tg_axis tg) k) c); [|reflexivity].
      apply nth_map_seq. lia.
  - rewrite singles_estimate. reflexivity.
Qed.

Lemma chunks_one (l : vec) : chunks (length l) 1 l = map (fun x => [x]) l.
Proof.
  induction l as [|x l IH]; [reflexivity|]. cbn [length chunks firstn skipn map].
  now rewrite IH.
Qed.

Lemma keras_weights_cells g tg v : (tg_axis tg < length (tg_shape tg))%nat ->
  keras_weights_approx g tg (gradient scale os tg v) =
  map (fun cell => estimate scale os tg cell v)
      (weights_cells g (tg_shape tg) (tg_axis tg)).
Proof.
  intro Hax. unfold keras_weights_approx.
  set (s := tg_shape tg) in *.
  destruct g; cbn [weights_cells].
  - cbn [map]. now rewrite squares_gradient.
  - rewrite !map_map. apply map_ext_in. intros c Hc.
    rewrite select_coord by exact Hax. unfold estimate.
    unfold squares. rewrite map_map. apply sumR_map_ext. intros k Hk.
    apply filter_In in Hk as [Hk _]. apply in_seq in Hk.
    assert (E : nth k (squares (gradient scale os tg v)) 0 = derivative scale os tg v k ^ 2).
    { rewrite squares_gradient. apply (nth_map_seq (fun k0 => derivative scale os tg v k0 ^ 2)). fold s. lia. }
    rewrite <- E. unfold squares.
    rewrite (nth_indep (map (fun x => x * x) _) 0 ((fun x => x * x) 0))
      by (unfold gradient; rewrite !map_length, seq_length; fold s; lia).
    rewrite (map_nth (fun x => x * x)). reflexivity.
  - rewrite chunks_one, map_map, singles_estimate, <- squares_gradient.
    unfold squares. apply map_ext. intro x. cbn [map]. rewrite sumR_cons.
    change (sumR []) with 0. ring.
Qed.

(** per-image, per-channel parts as consecutive positions *)

Lemma estimate_seq tg v cell :
  sumR (map (fun k => derivative scale os tg v k ^ 2) cell) = estimate scale os tg cell v.
Proof. reflexivity. Qed.

Lemma select_first b d r : (b < d)%nat ->
  select (d :: r) (fun ix => Nat.eqb (nth 0 ix 0%nat) b) = seq (b * prod r) (prod r).
Proof.
  intro H. unfold select. rewrite <- (filter_div (prod r) d b H).
  apply filter_ext_in'. intros k Hk. apply in_seq in Hk. cbn [prod] in Hk.
  rewrite index_first by lia. reflexivity.
Qed.

Lemma select_second b c d e r : (b < d)%nat -> (c < e)%nat ->
  select (d :: e :: r) (fun ix => Nat.eqb (nth 0 ix 0%nat) b && Nat.eqb (nth 1 ix 0%nat) c) =
  seq ((b * e + c) * prod r) (prod r).
Proof.
  intros Hb Hc. unfold select.
  replace (prod (d :: e :: r)) with ((d * e) * prod r)%nat by (cbn; lia).
  rewrite <- (filter_div (prod r) (d * e) (b * e + c)) by nia.
  apply filter_ext_in'. intros k Hk. apply in_seq in Hk.
  assert (P : prod r <> 0%nat) by nia.
  rewrite index_cons by (cbn; nia). cbn [nth].
  rewrite index_first by (cbn [prod]; apply Nat.mod_upper_bound; cbn; nia).
  cbn [prod].
  assert (D1 : (k / (e * prod r) = k / prod r / e)%nat).
  { rewrite Nat.div_div by nia. now rewrite (Nat.mul_comm e). }
  assert (D2 : ((k mod (e * prod r)) / prod r = (k / prod r) mod e)%nat).
  { rewrite (Nat.mul_comm e), Nat.mod_mul_r by nia.
    rewrite (Nat.mul_comm (prod r)), Nat.div_add by exact P.
    rewrite Nat.div_small by (apply Nat.mod_upper_bound; exact P). reflexivity. }
  rewrite D1, D2. set (q := (k / prod r)%nat).
  pose proof (Nat.div_mod q e ltac:(lia)) as DM.
  pose proof (Nat.mod_upper_bound q e ltac:(lia)).
  destruct (Nat.eqb_spec (q / e) b), (Nat.eqb_spec (q mod e) c),
           (Nat.eqb_spec q (b * e + c)); cbn [andb]; try reflexivity; exfalso; nia.
Qed.

(** The approximation of a PyTorch activation, as consecutive parts: [tw]
    elements each, [tq] parts for each image, divided by [tdiv]. *)
Definition tw (g : gran) (r : list nat) : nat :=
  match g, r with
  | GTensor, _ => prod r
  | GChannel, _ :: (_ :: _) as r' => prod r'
  | _, _ => 1
  end.

Definition tq (g : gran) (r : list nat) : nat :=
  match g, r with
  | GTensor, _ => 1
  | GChannel, c :: (_ :: _) => c
  | _, _ => prod r
  end.

Definition tdiv (g : gran) (r : list nat) : R :=
  match g, r with
  | GChannel, _ :: (_ :: _) as r' => INR (prod r')
  | _, _ => 1
  end.

Lemma tq_tw g r : (tq g r * tw g r = prod r)%nat.
Proof. destruct g, r as [|c [|e r]]; cbn; lia. Qed.

Lemma torch_act_parts g tg v b c r : tg_shape tg = b :: c :: r ->
  torch_act_approx g tg (gradient scale os tg v) =
  map (fun q => sumR (map (fun k => derivative scale os tg v k ^ 2)
                          (seq (q * tw g (c :: r)) (tw g (c :: r)))) / tdiv g (c :: r))
      (seq 0 (b * tq g (c :: r))).
Proof.
  intro Es. unfold torch_act_approx. rewrite squares_gradient, Es.
  set (F := fun k => derivative scale os tg v k ^ 2).
  assert (one : forall n, map F (seq 0 n) =
            map (fun q => sumR (map F (seq (q * 1) 1)) / 1) (seq 0 n)).
  { intro n. apply map_ext. intro q. cbn [seq map]. rewrite sumR_cons, Nat.mul_1_r.
    change (sumR []) with 0. field. }
  destruct g.
  - cbn [tw tq tdiv]. rewrite Nat.mul_1_r. cbn [prod].
    rewrite (chunks_fn F b (c * prod r) 0), map_map. apply map_ext. intro q.
    cbn [Nat.add]. field.
  - destruct r as [|e r].
    + cbn [tw tq tdiv prod]. apply one.
    + cbn [tw tq tdiv]. cbn [prod].
      replace (b * (c * (e * prod r)))%nat with ((b * c) * (e * prod r))%nat by lia.
      rewrite (chunks_fn F (b * c) (e * prod r) 0), map_map. apply map_ext. intro q.
      unfold meanR. rewrite map_length, seq_length. reflexivity.
  - destruct r as [|e r]; cbn [tw tq tdiv prod]; apply one.
Qed.

Lemma torch_act_cells_parts g b c r :
  torch_act_cells g (b :: c :: r) =
  map (fun q => seq (q * tw g (c :: r)) (tw g (c :: r))) (seq 0 (b * tq g (c :: r))).
Proof.
  unfold torch_act_cells, act_cells. cbn [nth].
  destruct g.
  - cbn [tw tq]. rewrite Nat.mul_1_r. apply map_ext_in. intros q Hq. apply in_seq in Hq.
    apply select_first. lia.
  - assert (E : flat_map (fun b0 => map (fun c0 => select (b :: c :: r)
        (fun ix => Nat.eqb (nth 0 ix 0%nat) b0 && Nat.eqb (nth 1 ix 0%nat) c0)) (seq 0 c)) (seq 0 b)
        = map (fun q => seq (q * prod r) (prod r)) (seq 0 (b * c))).
    { rewrite <- (flat_map_seq (fun q => seq (q * prod r) (prod r)) b c).
      apply flat_map_ext_in'. intros i Hi. apply in_seq in Hi.
      apply map_ext_in. intros j Hj. apply in_seq in Hj. apply select_second; lia. }
    rewrite E. destruct r as [|e r]; cbn [tw tq prod]; [|reflexivity].
    now rewrite Nat.mul_1_r.
  - unfold singles. destruct r as [|e r]; cbn [tw tq prod]; apply map_ext; intro q;
      cbn [seq]; f_equal; lia.
Qed.

Lemma torch_act_cells_ok g tg v b c r : tg_shape tg = b :: c :: r ->
  torch_act_approx g tg (gradient scale os tg v) =
  map (fun cell => estimate scale os tg cell v / tdiv g (c :: r))
      (torch_act_cells g (tg_shape tg)).
Proof.
  intro Es. rewrite (torch_act_parts g tg v b c r Es), Es, torch_act_cells_parts, map_map.
  reflexivity.
Qed.

Lemma prod_last c r : exists m, prod (c :: r) = (m * last (c :: r) 1)%nat.
Proof.
  revert c. induction r as [|x r IHr]; intro e; [exists 1%nat; cbn; lia|].
  destruct (IHr x) as (m & E). exists (e * m)%nat.
  change (last (e :: x :: r) 1%nat) with (last (x :: r) 1%nat).
  change (prod (e :: x :: r)) with (e * prod (x :: r))%nat. rewrite E. lia.
Qed.

Lemma select_last b c d e r : (b < d)%nat -> (c < last (e :: r) 1%nat)%nat ->
  select (d :: e :: r) (fun ix => Nat.eqb (nth 0 ix 0%nat) b && Nat.eqb (last ix 0%nat) c) =
  map (fun i => (b * prod (e :: r) + i * last (e :: r) 1 + c)%nat)
      (seq 0 (prod (e :: r) / last (e :: r) 1%nat)).
Proof.
  intros Hb Hc. destruct (prod_last e r) as (m & E).
  set (C := last (e :: r) 1%nat) in *.
  assert (Em : (prod (e :: r) / C = m)%nat) by (rewrite E; apply Nat.div_mul; lia).
  rewrite Em.
  unfold select. rewrite (filter_ext_in' _ (fun k => Nat.eqb (k / prod (e :: r)) b && Nat.eqb (k mod C) c)).
  2:{ intros k Hk. apply in_seq in Hk.
      assert ((k < d * prod (e :: r))%nat) by (cbn [prod] in *; lia).
      rewrite index_first by assumption.
      rewrite index_last by assumption. reflexivity. }
  assert (FA : forall (p q : nat -> bool) l, filter (fun k => p k && q k) l = filter q (filter p l)).
  { intros p q l. induction l as [|x l IH]; [reflexivity|]. cbn.
    destruct (p x); cbn; [destruct (q x); now rewrite IH|exact IH]. }
  rewrite FA. change (prod (d :: e :: r)) with (d * prod (e :: r))%nat.
  rewrite filter_div by exact Hb.
  rewrite E. replace (b * (m * C))%nat with ((b * m) * C)%nat by lia.
  rewrite filter_mod by exact Hc. apply map_ext. intro i. lia.
Qed.

Lemma keras_act_cells_ok g tg v b c r : tg_shape tg = b :: c :: r ->
  keras_act_approx g tg (gradient scale os tg v) =
  map (fun cell => estimate scale os tg cell v) (keras_act_cells g (tg_shape tg)).
Proof.
  intro Es. unfold keras_act_approx. rewrite squares_gradient, Es.
  set (F := fun k => derivative scale os tg v k ^ 2).
  unfold keras_act_cells, act_cells. cbn [nth].
  destruct g.
  - change (prod (b :: c :: r)) with (b * prod (c :: r))%nat.
    rewrite (chunks_fn F b (prod (c :: r)) 0), !map_map. apply map_ext_in. intros q Hq.
    apply in_seq in Hq. rewrite select_first by lia. reflexivity.
  - change (last (b :: c :: r) 1%nat) with (last (c :: r) 1%nat).
    destruct (prod_last c r) as (m & E). set (C := last (c :: r) 1%nat) in *.
    change (prod (b :: c :: r)) with (b * prod (c :: r))%nat.
    rewrite (chunks_fn F b (prod (c :: r)) 0), map_map.
    rewrite flat_map_concat_map, concat_map, map_map. f_equal.
    apply map_ext_in. intros q Hq. apply in_seq in Hq. rewrite map_map.
    apply map_ext_in. intros i Hi. apply in_seq in Hi.
    unfold C. rewrite select_last by lia. fold C.
    assert (Em : (prod (c :: r) / C = m)%nat) by (rewrite E; apply Nat.div_mul; lia).
    rewrite Em. unfold estimate. fold F. rewrite map_map.
    cbn [Nat.add]. rewrite E.
    rewrite (chunks_fn F m C (q * (m * C))), map_map.
    apply sumR_map_ext. intros j _.
    rewrite nth_indep with (d' := F 0%nat) by (rewrite map_length, seq_length; lia).
    rewrite map_nth, seq_nth by lia. reflexivity.
  - rewrite (singles_estimate tg v (b :: c :: r)). reflexivity.
Qed.

End Approx.

(** ** iterations *)

Section Loops.

(** the score of one target *)
Fixpoint one_loop (h : list bool -> option vec) (draws : list (list bool)) (j : nat)
         (s : vec) : vec :=
  match draws with
  | [] => s
  | v :: rest => one_loop h rest (S j) (act_update j s (h v))
  end.

Lemma combine_map_same {A B C} (f : A -> B) (g : A -> C) l :
  combine (map f l) (map g l) = map (fun x => (f x, g x)) l.
Proof. induction l as [|x l IH]; [reflexivity|]. cbn. now rewrite IH. Qed.

Lemma loop_targets {T} (h : T -> list bool -> option vec) tgs :
  forall draws j s,
  torch_act_loop (fun v => map (fun tg => h tg v) tgs) draws j (map s tgs) =
  map (fun tg => one_loop (h tg) draws j (s tg)) tgs.
Proof.
  induction draws as [|v draws IH]; intros j s; [reflexivity|].
  cbn [torch_act_loop one_loop]. rewrite combine_map_same, map_map. cbn [fst snd].
  apply (IH (S j) (fun tg => act_update j (s tg) (h tg v))).
Qed.

Lemma update_cells {C} j (a e : C -> R) cells :
  update j (map a cells) (map e cells) =
  map (fun c => (INR j * a c + e c) / (INR j + 1)) cells.
Proof.
  unfold update. rewrite map_length.
  assert (B : broadcast (map a cells) (length cells) = map a cells).
  { destruct cells as [|c [|c' l]]; reflexivity. }
  rewrite B, combine_map_same, map_map. reflexivity.
Qed.

Lemma update_zero {C} (e : C -> R) cells :
  update 0 [0] (map e cells) = map e cells.
Proof.
  unfold update. rewrite map_length. cbn [broadcast].
  assert (B : repeat 0 (length cells) = map (fun _ => 0) cells).
  { induction cells as [|c l IH]; [reflexivity|]. cbn. now rewrite IH. }
  rewrite B, combine_map_same, map_map. apply map_ext. intro c. cbn. field.
Qed.

Lemma one_loop_average {C} (E : C -> list bool -> R) cells : forall draws done,
  done <> [] ->
  one_loop (fun v => Some (map (fun c => E c v) cells)) draws (length done)
           (map (fun c => average (E c) done) cells) =
  map (fun c => average (E c) (done ++ draws)) cells.
Proof.
  induction draws as [|v draws IH]; intros done Hd.
  - now rewrite app_nil_r.
  - cbn [one_loop act_update]. rewrite update_cells.
    specialize (IH (done ++ [v])). rewrite app_length in IH. cbn [length] in IH.
    rewrite Nat.add_1_r in IH. rewrite <- app_assoc in IH. cbn [app] in IH.
    rewrite <- IH by (destruct done; discriminate). f_equal.
    apply map_ext. intro c. unfold average. rewrite map_app, sumR_app, app_length.
    cbn [map length]. rewrite sumR_cons, plus_INR. change (sumR []) with 0. cbn [INR].
    assert (0 < INR (length done)).
    { apply lt_0_INR. destruct done; [now elim Hd|cbn; lia]. }
    field. lra.
Qed.

Lemma one_loop_mean {C} (E : C -> list bool -> R) cells draws : draws <> [] ->
  one_loop (fun v => Some (map (fun c => E c v) cells)) draws 0 [0] =
  map (fun c => average (E c) draws) cells.
Proof.
  intro H. destruct draws as [|v draws]; [now elim H|].
  cbn [one_loop act_update]. rewrite update_zero.
  pose proof (one_loop_average E cells draws [v] ltac:(discriminate)) as L.
  cbn [length app] in L. rewrite <- L. f_equal.
  apply map_ext. intro c. unfold average. cbn [map length]. rewrite sumR_cons.
  change (sumR []) with 0. cbn. field.
Qed.

Lemma one_loop_none draws j s : one_loop (fun _ => None) draws j s = s.
Proof. revert j. induction draws as [|v draws IH]; intro j; [reflexivity|]. cbn. apply IH. Qed.

Lemma one_loop_ext h h' : (forall v, h v = h' v) -> forall draws j s,
  one_loop h draws j s = one_loop h' draws j s.
Proof.
  intros E. induction draws as [|v draws IH]; intros j s; [reflexivity|].
  cbn. rewrite E. apply IH.
Qed.

Lemma combine_map_r {A B C} (f : B -> C) (l : list A) l' :
  combine l (map f l') = map (fun p => (fst p, f (snd p))) (combine l l').
Proof.
  revert l'. induction l as [|x l IH]; intro l'; [reflexivity|].
  destruct l' as [|y l']; [reflexivity|]. cbn. now rewrite IH.
Qed.

(** the early exit only shortens the list of random vectors, after at least
    twelve of them *)
Lemma weights_loop_prefix approx : forall draws j sc prev,
  exists m, (m <= length draws)%nat /\
            (m = length draws \/ MIN_HESSIAN_ITER + 2 <= j + m)%nat /\
            (draws <> [] -> m <> 0%nat) /\
  weights_loop approx draws j sc prev =
  torch_act_loop (fun v => map Some (approx v)) (firstn m draws) j sc.
Proof.
  induction draws as [|v draws IH]; intros j sc prev.
  - exists 0%nat. cbn. repeat split; auto.
  - cbn [weights_loop].
    set (sc' := map (fun p => update j (fst p) (snd p)) (combine sc (approx v))).
    assert (Esc : map (fun p => act_update j (fst p) (snd p)) (combine sc (map Some (approx v))) = sc').
    { rewrite combine_map_r, map_map. reflexivity. }
    destruct (Nat.ltb MIN_HESSIAN_ITER j && _) eqn:Es.
    + apply andb_prop in Es as [Hj _]. apply Nat.ltb_lt in Hj.
      exists 1%nat. split; [cbn; lia|]. split; [right; lia|]. split; [lia|].
      cbn [firstn torch_act_loop]. now rewrite Esc.
    + destruct (IH (S j) sc' (Some (map meanR sc'))) as (m & Hm & Hx & _ & E).
      exists (S m). split; [cbn; lia|]. split; [cbn [length]; lia|]. split; [lia|].
      rewrite E. cbn [firstn torch_act_loop]. now rewrite Esc.
Qed.

(** the same for the activations of Keras; the scores can be stacked when
    they have one length *)
Lemma stacked_ok sc n : sc <> [] -> (forall s, In s sc -> length s = n) ->
  stacked_means sc = Ok (map meanR sc).
Proof.
  intros H L. unfold stacked_means. destruct sc as [|s r]; [now elim H|].
  replace (forallb _ r) with true; [reflexivity|]. symmetry. apply forallb_forall.
  intros x Hx. apply Nat.eqb_eq. rewrite (L s), (L x); cbn; auto.
Qed.

Lemma act_update_length j s a n :
  (j = 0%nat /\ length s = 1%nat \/ length s = n) -> length a = n ->
  length (act_update j s (Some a)) = n.
Proof.
  intros H La. cbn. unfold update. rewrite map_length, combine_length, La.
  assert (length (broadcast s n) = n \/ (length s = 1 /\ length (broadcast s n) = n) \/ length (broadcast s n) = n)%nat.
  { destruct s as [|x [|y s]]; cbn [broadcast].
    - destruct H as [[_ H] | H]; [discriminate|auto].
    - left. apply repeat_length.
    - destruct H as [[_ H] | H]; [discriminate|auto]. }
  destruct H0 as [-> | [[_ ->] | ->]]; lia.
Qed.

Lemma keras_act_loop_prefix g (approx : list bool -> list (option vec)) n nt :
  (0 < nt)%nat ->
  (forall v, length (approx v) = nt) ->
  (g = GTensor -> forall v a, In a (approx v) -> exists x, a = Some x /\ length x = n) ->
  forall draws j (sc : list vec) prev,
  length sc = nt ->
  (g <> GTensor -> prev = None) ->
  (forall s, In s sc -> (j = 0%nat /\ length s = 1%nat) \/ length s = n \/ g <> GTensor) ->
  exists m, (m <= length draws)%nat /\
            (m = length draws \/ (g = GTensor /\ MIN_HESSIAN_ITER + 2 <= j + m)%nat) /\
            (draws <> [] -> m <> 0%nat) /\
  keras_act_loop g approx draws j sc prev =
  Ok (torch_act_loop approx (firstn m draws) j sc).
Proof.
  intros Hnt La Ha. induction draws as [|v draws IH]; intros j sc prev Lsc Hp Hs.
  - exists 0%nat. cbn. repeat split; auto.
  - cbn [keras_act_loop]. cbv zeta.
    set (sc' := map (fun p => act_update j (fst p) (snd p)) (combine sc (approx v))).
    assert (L' : length sc' = nt).
    { unfold sc'. rewrite map_length, combine_length, Lsc, La. lia. }
    assert (N' : sc' <> []) by (intro E; rewrite E in L'; cbn in L'; lia).
    assert (S' : g = GTensor -> forall s, In s sc' -> length s = n).
    { intros Hg s Hin. unfold sc' in Hin. apply in_map_iff in Hin as ([s0 a] & <- & Hin).
      pose proof (in_combine_l _ _ _ _ Hin) as I1. pose proof (in_combine_r _ _ _ _ Hin) as I2.
      cbn [fst snd]. destruct (Ha Hg v a I2) as (x & -> & Lx).
      apply act_update_length; [|exact Lx].
      destruct (Hs s0 I1) as [E | [E | E]]; [now left|now right|now elim E]. }
    destruct (g) eqn:Eg.
    2, 3: (assert (Hpn : prev = None) by (apply Hp; discriminate); rewrite Hpn;
           replace (if Nat.ltb MIN_HESSIAN_ITER j then Ok false else Ok false)
             with (@Ok bool false) by (destruct (Nat.ltb MIN_HESSIAN_ITER j); reflexivity);
           cbn [bind];
           destruct (IH (S j) sc' None L' ltac:(auto) ltac:(intros; right; right; discriminate))
             as (m & Hm & Hx & _ & E);
           exists (S m); split; [cbn; lia|]; split; [cbn [length]; destruct Hx as [-> | [Hx _]]; [auto|discriminate Hx]|];
           split; [lia|]; exact E).
    assert (SM : stacked_means sc' = Ok (map meanR sc')) by (eapply stacked_ok; eauto).
    rewrite SM. cbn [bind].
    assert (REST : exists m, (m <= length (v :: draws))%nat /\
              (m = length (v :: draws) \/ (GTensor = GTensor /\ MIN_HESSIAN_ITER + 2 <= j + m)%nat) /\
              (v :: draws <> [] -> m <> 0%nat) /\
              keras_act_loop GTensor approx draws (S j) sc' (Some (map meanR sc')) =
              Ok (torch_act_loop approx (firstn m (v :: draws)) j sc)).
    { destruct (IH (S j) sc' (Some (map meanR sc')) L' ltac:(congruence)
                  ltac:(intros s Hin; right; left; auto)) as (m & Hm & Hx & _ & E).
      exists (S m). split; [cbn; lia|]. split.
      { cbn [length]. destruct Hx as [-> | [_ Hx]]; [auto|right; split; [reflexivity|lia]]. }
      split; [lia|]. rewrite E. reflexivity. }
    destruct (Nat.ltb MIN_HESSIAN_ITER j) eqn:Hj; cbn [bind]; [|exact REST].
    apply Nat.ltb_lt in Hj.
    destruct prev as [p|]; cbn [bind]; [|exact REST].
    destruct (converged p (map meanR sc')); [|exact REST].
    exists 1%nat. split; [cbn; lia|]. split; [right; split; [reflexivity|lia]|].
    split; [lia|]. reflexivity.
Qed.

End Loops.

(** ** concatenation of the outputs *)

Section Concat.
Context {O : Type}.

Definition rows (t : tens O) : list (list O) :=
  chunks (hd 0%nat (t_shape t)) (prod (tl (t_shape t))) (t_data t).

Lemma beside_length (a b : list (list O)) : length a = length b -> length (beside a b) = length a.
Proof. intro H. unfold beside. rewrite map_length, combine_length. lia. Qed.

Lemma beside_perm (a b : list (list O)) : length a = length b ->
  Permutation (concat (beside a b)) (concat a ++ concat b).
Proof.
  revert b. induction a as [|x a IH]; intros [|y b] H; try discriminate; [constructor|].
  cbn. injection H as H. rewrite <- !app_assoc. apply Permutation_app_head.
  rewrite (IH b H : Permutation (concat (map (fun p => fst p ++ snd p) (combine a b))) _).
  rewrite !app_assoc. apply Permutation_app_tail. apply Permutation_app_comm.
Qed.

Lemma fold_beside ms m n : length m = n -> (forall x, In x ms -> length x = n) ->
  length (fold_left beside ms m) = n /\
  Permutation (concat (fold_left beside ms m)) (concat m ++ concat (map (@concat O) ms)).
Proof.
  revert m. induction ms as [|x ms IH]; intros m Lm H.
  - cbn. rewrite app_nil_r. auto.
  - cbn [fold_left map concat].
    assert (Lx : length x = n) by (apply H; now left).
    destruct (IH (beside m x)) as [L P].
    + rewrite beside_length; congruence.
    + intros y Hy. apply H. now right.
    + split; [exact L|]. rewrite P, beside_perm by congruence. now rewrite app_assoc.
Qed.

Lemma mapM_rows ts b : (0 < b)%nat -> (forall t, In t ts -> exists r, t_shape t = b :: r) ->
  mapM as_rows ts = Ok (map rows ts).
Proof.
  intro Hb. induction ts as [|t ts IH]; intro H; [reflexivity|].
  cbn [mapM map]. destruct (H t (or_introl eq_refl)) as (r & E).
  assert (A : as_rows t = Ok (rows t)).
  { unfold as_rows, rows. rewrite E. cbn [hd tl].
    now replace (Nat.eqb b 0) with false by (symmetry; apply Nat.eqb_neq; lia). }
  rewrite A. cbn [bind].
  rewrite IH by (intros t' H'; apply H; now right). reflexivity.
Qed.

Lemma concat_ok (o : outs O) ts b : (0 < b)%nat ->
  unfold_tensors_list o = Ok ts -> ts <> [] ->
  (forall t, In t ts -> length (t_data t) = prod (t_shape t) /\ exists r, t_shape t = b :: r) ->
  exists m, concat_tensors o = Ok m /\ length m = b /\
            Permutation (concat m) (concat (map t_data ts)) /\
            m = fold_left beside (tl (map rows ts)) (hd [] (map rows ts)).
Proof.
  intros Hb Eu Hn H. unfold concat_tensors. rewrite Eu. cbn [bind].
  rewrite (mapM_rows ts b Hb) by (intros t Ht; exact (proj2 (H t Ht))). cbn [bind].
  destruct ts as [|t ts]; [now elim Hn|]. cbn [map hd tl].
  assert (LR : forall t', In t' (t :: ts) -> length (rows t') = b /\ concat (rows t') = t_data t').
  { intros t' Ht. destruct (H t' Ht) as (L & r & E). unfold rows. rewrite E. cbn [hd tl].
    rewrite chunks_length. split; [reflexivity|]. apply chunks_concat. rewrite L, E. reflexivity. }
  replace (forallb _ (map rows ts)) with true.
  2:{ symmetry. apply forallb_forall. intros x Hx. apply in_map_iff in Hx as (t' & <- & Ht').
      apply Nat.eqb_eq. rewrite (proj1 (LR t' (or_intror Ht'))), (proj1 (LR t (or_introl eq_refl))).
      reflexivity. }
  exists (fold_left beside (map rows ts) (rows t)). split; [reflexivity|].
  destruct (fold_beside (map rows ts) (rows t) b) as [L P].
  - apply LR. now left.
  - intros x Hx. apply in_map_iff in Hx as (t' & <- & Ht'). apply LR. now right.
  - split; [exact L|]. split; [|reflexivity]. rewrite P.
    rewrite (proj2 (LR t (or_introl eq_refl))). cbn [map concat].
    apply Permutation_app_head. rewrite map_map.
    rewrite (map_ext_in (fun x => concat (rows x)) t_data); [reflexivity|].
    intros t' Ht'. apply LR. now right.
Qed.

Lemma concat_good (o : outs O) b : good_outputs o b ->
  exists m, concat_tensors o = Ok m /\ length m = output_rows o b /\
            (0 < output_rows o b)%nat /\ Permutation (concat m) (elements o).
Proof.
  intros (Hb & Hn & Ht & Hx). destruct o as [t | l].
  - destruct Hx as (c & r & Es & Hc). cbn [output_rows elements]. rewrite Es. cbn [nth].
    destruct (Ht t (or_introl eq_refl)) as (L & _).
    assert (Eu : unfold_tensors_list (Bare t) =
                 Ok (map (Tens (c :: r)) (chunks b (prod (c :: r)) (t_data t)))).
    { cbn [unfold_tensors_list]. now rewrite Es. }
    assert (LC : forall x, In x (chunks b (prod (c :: r)) (t_data t)) -> length x = prod (c :: r)).
    { intros x Hx. apply In_nth with (d := []) in Hx as (i & Hi & <-).
      rewrite chunks_length in Hi. rewrite chunks_nth by exact Hi.
      rewrite firstn_length, skipn_length, L, Es.
      change (prod (b :: c :: r)) with (b * prod (c :: r))%nat. nia. }
    destruct (concat_ok (Bare t) _ c Hc Eu) as (m & Em & Lm & P & _).
    + destruct b; [lia|]. discriminate.
    + intros t' Ht'. apply in_map_iff in Ht' as (x & <- & Hxin). cbn [t_data t_shape].
      split; [now apply LC|now exists r].
    + exists m. split; [exact Em|]. split; [exact Lm|]. split; [exact Hc|].
      rewrite P, map_map. cbn [t_data]. rewrite map_id.
      rewrite chunks_concat; [reflexivity|]. rewrite L, Es. reflexivity.
  - cbn [output_rows].
    assert (Et : concat (map (fun i => match i with One t => [t] | Several ts => ts end) l) =
                 tensors (Items l)) by (cbn; now rewrite flat_map_concat_map).
    destruct (concat_ok (Items l) (tensors (Items l)) b Hb) as (m & Em & Lm & P & _).
    + cbn [unfold_tensors_list]. now rewrite Et.
    + exact Hn.
    + exact Ht.
    + exists m. split; [exact Em|]. split; [exact Lm|]. split; [exact Hb|].
      rewrite P. cbn [elements tensors].
      clear. induction l as [|i l IH]; [constructor|]. cbn [flat_map map concat].
      rewrite map_app, concat_app. apply Permutation_app; [|exact IH].
      destruct i; [cbn; now rewrite app_nil_r|reflexivity].
Qed.

End Concat.
