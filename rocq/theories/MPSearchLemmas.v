From Verif Require Import Base HessianModel HessianProofs MPModel MPSpec MPProofs RULemmas RUProps MPSearchModel MPSearchSpec MPSearchProofs SearchProofs.
From Coq Require Import Permutation Lqa.
Local Open Scope nat_scope.

(* ---- reading a solution ---- *)
Lemma layers_picks sens x s : lp_layers sens x s ->
  exists idx, mapM (index_one 0) x = Ok idx /\ Forall2 picks x idx /\ Forall2 (fun x c => length x = length c) x sens /\
    (fold_right Qplus 0 s == Qsum (fun q => nth (snd q) (fst q) 0) (combine sens idx))%Q.
Proof.
  induction 1 as [|c cs x xs s ss (L & Z & D & P & S1) F (idx & E & FP & FL & T)].
  - exists []. repeat split; constructor.
  - destruct (onehot_index x Z S1 0) as (i & Ei & Li & Di). exists (i :: idx). cbn [mapM]. rewrite Ei. cbn [bind]. rewrite E. cbn [bind]. split; [reflexivity|].
    split; [constructor; [split; assumption|exact FP]|]. split; [constructor; assumption|]. cbn [fold_right combine]. rewrite Qsum_cons. cbn [fst snd].
    rewrite T, <- D, (Di c) by congruence. reflexivity.
Qed.
Lemma picks_onehot n i : i < n -> picks (onehot n i) i.
Proof. intro H. split; [rewrite onehot_len; exact H|]. intros c Hc. rewrite onehot_len in Hc. apply onehot_dot; assumption. Qed.
Lemma layers_onehot sens : forall idx, Forall2 (fun c i => i < length c) sens idx -> nonneg_table sens ->
  exists x s, lp_layers sens x s /\ Forall2 picks x idx /\ (fold_right Qplus 0 s == Qsum (fun q => nth (snd q) (fst q) 0) (combine sens idx))%Q.
Proof.
  induction sens as [|c sens IH]; intros idx F NN; inversion F; subst.
  - exists [], []. repeat split; constructor.
  - inversion NN; subst. destruct (IH l' H3 H4) as (x & s & A & B & C). exists (onehot (length c) y :: x), (nth y c 0%Q :: s). split; [|split].
    + constructor; [|exact A]. split; [apply onehot_len|]. split; [apply onehot_zo|]. split; [apply onehot_dot; auto|].
      split; [|apply onehot_sum; assumption]. rewrite Forall_forall in H2. apply H2. apply nth_In. assumption.
    + constructor; [apply picks_onehot; assumption|exact B].
    + cbn [fold_right combine]. rewrite Qsum_cons. cbn [fst snd]. rewrite C. reflexivity.
Qed.

(* ---- shape of the sensitivity table ---- *)
Lemma scale_by_len d l r : scale_by d l = Ok r -> length r = length l.
Proof. unfold scale_by. destruct (Qeq_bool d 0); [discriminate|]. intro H. inversion H. apply map_length. Qed.
Lemma normalize_len nm n mx l r : normalize nm n mx l = Ok r -> length r = length l.
Proof.
  unfold normalize. destruct nm.
  - congruence.
  - destruct (nth_error l mx); [apply scale_by_len|discriminate].
  - destruct (find_min_candidate n) as [i|]; [|discriminate]. cbn [bind]. destruct (nth_error l i); [apply scale_by_len|discriminate].
Qed.
Lemma ensure_len eps mx l r : ensure_maxbit eps mx l = Ok r -> length r = length l.
Proof.
  unfold ensure_maxbit. destruct eps as [e|]; [|congruence]. destruct (nth_error l mx); [|discriminate]. intro H. inversion H.
  rewrite map_length, combine_length, seq_length. lia.
Qed.
Lemma table_shape metric nm eps thr conf t : sensitivity_table metric nm eps thr conf = Ok t ->
  Forall2 (fun n row => length row = length (n_cands n)) conf t.
Proof.
  unfold sensitivity_table. destruct (mapM (node_sensitivity metric nm eps) conf) as [t0|] eqn:E; [|discriminate]. cbn [bind].
  destruct (list_max_Q (concat t0)) as [mx|]; [|discriminate]. cbn [bind]. intro H. apply mapM_Forall2 in E.
  assert (L0 : Forall2 (fun n row => length row = length (n_cands n)) conf t0).
  { eapply Forall2_impl; [|exact E]. cbn beta. intros n row Hr. unfold node_sensitivity in Hr. destruct (find_max_candidate n) as [m|]; [|discriminate]. cbn [bind] in Hr.
    destruct (normalize _ _ _ _) as [l|] eqn:En; [|discriminate]. cbn [bind] in Hr. rewrite (ensure_len _ _ _ _ Hr), (normalize_len _ _ _ _ _ En), map_length, seq_length. reflexivity. }
  destruct (Qle_bool thr mx).
  - apply mapM_Forall2 in H. clear E. revert t H. induction L0 as [|n r conf t0 E0 L0 IHL]; intros t HT; inversion HT as [|? r' ? t' E1 HT']; subst; constructor; [|apply IHL; assumption]. rewrite (scale_by_len _ _ _ E1). assumption.
  - inversion H; subst. exact L0.
Qed.

(* ---- the minimal configuration ---- *)
Lemma indices_where_in {A} (p : A -> bool) l i : In i (indices_where p l) -> exists x, nth_error l i = Some x /\ p x = true.
Proof.
  unfold indices_where. intro H. apply in_map_iff in H. destruct H as ([j x] & E & H). cbn in E. subst j. apply filter_In in H. destruct H as [H P]. cbn in P. exists x. split; [|exact P].
  assert (G : forall s l, In (i, x) (combine (seq s (length l)) l) -> s <= i /\ nth_error l (i - s) = Some x).
  { clear. intros s l. revert s. induction l as [|y l IH]; intros s H; [destruct H|]. cbn [length seq combine] in H. destruct H as [H|H].
    - inversion H; subst. split; [lia|]. rewrite Nat.sub_diag. reflexivity.
    - apply IH in H. destruct H as [Ha Hb]. split; [lia|]. replace (i - s) with (S (i - S s)) by lia. exact Hb. }
  destruct (G 0 l H) as [_ B]. rewrite Nat.sub_0_r in B. exact B.
Qed.
Lemma zlist_eqb_eq a : forall b, zlist_eqb a b = true -> a = b.
Proof. induction a as [|x a IH]; intros [|y b] H; try discriminate; [reflexivity|]. cbn in H. apply andb_true_iff in H. destruct H as [H1 H2]. apply Z.eqb_eq in H1. f_equal; auto. Qed.
Lemma find_min_spec n i : find_min_candidate n = Ok i ->
  exists c, nth_error (n_cands n) i = Some c /\ forall d, In d (n_cands n) -> forall p, In p (combine (aw_nbits d) (aw_nbits c)) -> (snd p <= fst p)%Z.
Proof.
  unfold find_min_candidate. destruct (map aw_nbits (n_cands n)) as [|x r] eqn:E; [discriminate|].
  set (m := fold_left _ r x). destruct (indices_where (fun y => zlist_eqb m y) (x :: r)) as [|j [|? ?]] eqn:Ei; try discriminate.
  destruct (any_below m (x :: r)) eqn:Eb; [discriminate|]. intro H. assert (j = i) by congruence. subst j.
  destruct (indices_where_in (fun y => zlist_eqb m y) (x :: r) i) as (y & Ey & Em); [rewrite Ei; left; reflexivity|]. apply zlist_eqb_eq in Em.
  rewrite <- E in Ey. rewrite nth_error_map in Ey. destruct (nth_error (n_cands n) i) as [c|]; [|discriminate]. exists c. split; [reflexivity|].
  cbn in Ey. inversion Ey. intros d Hd p Hp. rewrite <- E in Eb. unfold any_below in Eb.
  destruct (Z.ltb (fst p) (snd p)) eqn:El; [|apply Z.ltb_ge in El; exact El]. exfalso.
  assert (X : existsb (fun nb => existsb (fun p => Z.ltb (fst p) (snd p)) (combine nb m)) (map aw_nbits (n_cands n)) = true); [|congruence].
  apply existsb_exists. exists (aw_nbits d). split; [apply in_map; exact Hd|]. apply existsb_exists. exists p. split; [|exact El]. rewrite Em, <- H1. exact Hp.
Qed.
Lemma min_config_assignment conf cfg : min_config conf = Ok cfg -> assignment conf cfg.
Proof.
  unfold min_config. intro H. apply mapM_Forall2 in H. eapply Forall2_impl; [|exact H]. cbn beta. intros n p Hp.
  destruct (find_min_candidate n) as [i|] eqn:E; [|discriminate]. cbn [bind] in Hp. inversion Hp; subst. cbn [fst snd]. split; [reflexivity|].
  destruct (find_min_spec n i E) as (c & Hc & _). apply nth_error_Some. congruence.
Qed.

Lemma combine_get {A} (f : A -> Z) (k : nat) (l : list (nat * A)) : forall (m : list (nat * A)) x y, map fst l = map fst m -> NoDup (map fst l) ->
  dict_get k l = Some x -> dict_get k m = Some y -> In (f x, f y) (combine (map (fun p => f (snd p)) l) (map (fun p => f (snd p)) m)).
Proof.
  induction l as [|[a u] l IH]; intros [|[b v] m] x y E N Hx Hy; try discriminate. cbn [map fst] in *. assert (a = b) by congruence. subst b. assert (map fst l = map fst m) by congruence.
  unfold dict_get in *. cbn [find fst snd combine map] in *. destruct (Nat.eqb k a).
  - cbn in Hx, Hy. left. congruence.
  - right. inversion N; subst. apply IH; assumption.
Qed.
Lemma find_min_le n i : (forall c d, In c (n_cands n) -> In d (n_cands n) -> a_mode (c_act c) = a_mode (c_act d) /\ map fst (c_w c) = map fst (c_w d) /\
     forall a x y, dict_get a (c_w c) = Some x -> dict_get a (c_w d) = Some y -> w_enable x = w_enable y) ->
  (forall c, In c (n_cands n) -> NoDup (map fst (c_w c))) ->
  find_min_candidate n = Ok i -> exists c, nth_error (n_cands n) i = Some c /\ forall d, In d (n_cands n) -> cand_le c d.
Proof.
  intros U N H. destruct (find_min_spec n i H) as (c & Hc & M). exists c. split; [exact Hc|]. intros d Hd. pose proof (nth_error_In _ _ Hc) as Hc'.
  destruct (U c d Hc' Hd) as (U1 & U2 & U3). split; [exact U1|]. split.
  - apply (M d Hd (a_bits (c_act d), a_bits (c_act c))). left; reflexivity.
  - intro a. destruct (dict_get a (c_w c)) as [x|] eqn:Ex, (dict_get a (c_w d)) as [y|] eqn:Ey; try exact I.
    + split; [eapply U3; eauto|]. apply (M d Hd (w_bits y, w_bits x)). right. apply (combine_get w_bits a); auto.
    + assert (In a (map fst (c_w d))) as Hi by (rewrite <- U2; apply dict_get_key; eauto). apply dict_get_key in Hi. destruct Hi; congruence.
    + assert (In a (map fst (c_w c))) as Hi by (rewrite U2; apply dict_get_key; eauto). apply dict_get_key in Hi. destruct Hi; congruence.
Qed.

(* ---- monotonicity of every memory element ---- *)
Lemma uval_mono g tg j cfg cfg' : wf_graph g -> nonneg_graph g -> cfg_le g cfg cfg' -> (uval g tg j cfg <= uval g tg j cfg')%Q.
Proof.
  intros W NN Hle. unfold uval. set (P := fun f : mpcfg -> Q => (f cfg <= f cfg')%Q).
  assert (F : Forall P (ufuns g tg)).
  { assert (PWm : P (weights_memory g)).
    { unfold P, weights_memory. apply Qsum_le. intros n Hn. unfold node_weights_memory. destruct (n_reuse n); [apply Qle_refl|]. apply Qsum_le. intros [a s] Ha. cbn [fst snd].
      destruct (quantized_attr n a); [|apply Qle_refl]. apply (bytes_of_le s); [exact (nn_sizes g NN n a s Hn Ha)|exact (wbits_mono g cfg cfg' n a Hn Hle)]. }
    assert (PAt : forall n, In n (g_nodes g) -> (aterm g cfg n <= aterm g cfg' n)%Q).
    { intros n Hn. unfold aterm. destruct (preserved g n) as [p|] eqn:Ep; [|apply Qle_refl]. 
      pose proof (source_in g n p Hn (preserved_source g n p Ep)) as Hp. apply (bytes_of_le (n_out n)); [exact (nn_out g NN n Hn)|exact (abits_mono g cfg cfg' p Hp Hle)]. }
    assert (PAc : forall ns, In ns (tcuts g) -> (Qsum (aterm g cfg) ns <= Qsum (aterm g cfg') ns)%Q).
    { intros ns Hns. apply Qsum_le. intros n Hn. apply PAt. eapply tcuts_in; eauto. }
    unfold ufuns. repeat (apply Forall_app; split).
    - destruct (t_w tg); [|constructor]. constructor; [exact PWm|constructor].
    - destruct (t_a tg); [|constructor]. apply Forall_forall. intros f Hf. apply in_map_iff in Hf. destruct Hf as (ns & <- & Hns). apply PAc; exact Hns.
    - destruct (t_t tg); [|constructor]. apply Forall_forall. intros f Hf. apply in_map_iff in Hf. destruct Hf as (ns & <- & Hns). unfold P. specialize (PAc ns Hns). unfold P in PWm. lra.
    - destruct (t_b tg); [|constructor]. constructor; [|constructor]. unfold P. apply Qsum_le. intros n Hn. rewrite <- Zle_Qle. unfold zterm.
      destruct (n_kernel n) as [k|]; [|lia]. destruct (Z.eqb (n_mac n) 0); [lia|]. destruct (g_prev g (n_name n)) as [|x [|y r]]; try lia.
      destruct (find_node g x) as [m|] eqn:Em; [|lia]. destruct (preserved g m) as [p|] eqn:Ep; [|lia]. destruct (find_node_ok _ _ _ Em) as [Hm _].
      pose proof (source_in g m p Hm (preserved_source g m p Ep)) as Hp. pose proof (nn_mac g NN n Hn).
      pose proof (abits_mono g cfg cfg' p Hp Hle). pose proof (wbits_mono g cfg cfg' n k Hn Hle). pose proof (abits_nonneg g cfg p NN Hp). pose proof (wbits_nonneg g cfg n k NN Hn).
      apply Z.mul_le_mono_nonneg_r; [assumption|]. apply Z.mul_le_mono_nonneg; assumption. }
  destruct (Nat.lt_ge_cases j (length (ufuns g tg))) as [Hj|Hj].
  - rewrite Forall_forall in F. apply F. apply nth_In. exact Hj.
  - rewrite nth_overflow by exact Hj. apply Qle_refl.
Qed.
