From Coq Require Import String Permutation.
From Verif Require Import Base SDict HessianModel HessianProofs FilterModel SearchProofs PruneModel PruneMemModel PruneMemSpec PruneProofs.
Open Scope Z_scope.
Open Scope res_scope.

(* ---- counting positions ---- *)
Fixpoint ok_at (ps : list (nat -> bool)) (pos : list nat) : bool :=
  match ps, pos with p :: ps', i :: r => p i && ok_at ps' r | _, _ => true end.
Definition prod (l : list nat) : nat := fold_right Nat.mul 1%nat l.

Lemma filter_map_cons (P : list nat -> bool) i l :
  length (filter P (map (cons i) l)) = length (filter (fun r => P (i :: r)) l).
Proof. induction l as [|x l IH]; [reflexivity|]. cbn. destruct (P (i :: x)); cbn; rewrite IH; reflexivity. Qed.
Lemma count_positions shape : forall ps, length ps = length shape ->
  length (filter (ok_at ps) (positions shape)) = prod (map (fun pd => length (filter (fst pd) (seq 0 (snd pd)))) (combine ps shape)).
Proof.
  induction shape as [|d shape IH]; intros [|p ps] L; try discriminate; [reflexivity|].
  cbn [combine map positions fst snd]. cbn [prod fold_right]. fold (prod (map (fun pd => length (filter (fst pd) (seq 0 (snd pd)))) (combine ps shape))).
  rewrite <- (IH ps) by (cbn in L; lia). clear IH.
  induction (seq 0 d) as [|i l IHl]; [reflexivity|]. cbn [flat_map filter]. rewrite filter_app, app_length, IHl, filter_map_cons. cbn [ok_at].
  destruct (p i); cbn [andb length Nat.mul]; [reflexivity|].
  assert (N : forall l0 : list (list nat), filter (fun _ => false) l0 = []) by (induction l0; [reflexivity|assumption]).
  rewrite N. reflexivity.
Qed.
Lemma positions_length shape pos : In pos (positions shape) -> length pos = length shape.
Proof.
  revert pos. induction shape as [|d shape IH]; intros pos H; [destruct H as [<-|[]]; reflexivity|].
  cbn in H. apply in_flat_map in H. destruct H as [i [_ H]]. apply in_map_iff in H. destruct H as [r [<- H]]. cbn. f_equal. apply IH. exact H.
Qed.
Lemma ok_at_seq (F : nat -> nat -> bool) : forall pos s,
  ok_at (map F (seq s (length pos))) pos = forallb (fun a => F (s + a)%nat (nth a pos 0%nat)) (seq 0 (length pos)).
Proof.
  induction pos as [|i r IH]; intro s; [reflexivity|]. cbn [length seq map ok_at forallb]. rewrite Nat.add_0_r. cbn [nth]. f_equal.
  rewrite IH. rewrite <- seq_shift.
  clear. induction (seq 0 (length r)) as [|x l IHl]; [reflexivity|]. cbn [map forallb nth]. rewrite IHl. f_equal. f_equal. lia.
Qed.

Definition chk (m : option (list Z)) (ax : option nat) (a i : nat) : bool :=
  match m, ax with Some m, Some x => if Nat.eqb a x then negb (Z.eqb (nth i m 0) 0) else true | _, _ => true end.
Lemma forallb_pick (P : nat -> bool) k a : (a < k)%nat -> (forall x, x <> a -> P x = true) -> forallb P (seq 0 k) = P a.
Proof.
  intros H F. destruct (P a) eqn:E.
  - apply forallb_forall. intros x _. destruct (Nat.eq_dec x a) as [->|D]; [exact E|exact (F x D)].
  - destruct (forallb P (seq 0 k)) eqn:E'; [|reflexivity]. rewrite forallb_forall in E'. rewrite E' in E; [discriminate|]. apply in_seq. lia.
Qed.
Lemma forallb_and (P Q : nat -> bool) l : forallb (fun x => P x && Q x) l = forallb P l && forallb Q l.
Proof. induction l as [|x l IH]; [reflexivity|]. cbn. rewrite IH. destruct (P x), (Q x), (forallb P l); reflexivity. Qed.
Lemma remains_chk m ax pos : (forall mm x, m = Some mm -> ax = Some x -> (x < length pos)%nat) ->
  remains m ax pos = forallb (fun a => chk m ax a (nth a pos 0%nat)) (seq 0 (length pos)).
Proof.
  intro H. unfold remains, chk. destruct m as [m|], ax as [x|];
    try (symmetry; apply forallb_forall; intros; reflexivity).
  rewrite (forallb_pick _ (length pos) x).
  - rewrite Nat.eqb_refl. reflexivity.
  - apply (H m x); reflexivity.
  - intros y D. apply Nat.eqb_neq in D. rewrite D. reflexivity.
Qed.

(* the shape left by an optional selection along an axis *)
Definition fits (m : option (list Z)) (ax : option nat) (shape : list nat) : Prop :=
  forall mm x, m = Some mm -> ax = Some x -> nth_error shape x = Some (length mm).
Definition cut (m : option (list Z)) (ax : option nat) (shape : list nat) : list nat :=
  match m, ax with Some mm, Some x => replace x (length (kept mm)) shape | _, _ => shape end.
Lemma replace_length {A} i (v : A) l : length (replace i v l) = length l.
Proof. revert i. induction l as [|x l IH]; intros [|i]; cbn; [reflexivity|reflexivity|reflexivity|rewrite IH; reflexivity]. Qed.
Lemma replace_nth_error {A} i (v : A) l j : nth_error (replace i v l) j = if Nat.eqb j i then (if Nat.ltb j (length l) then Some v else None) else nth_error l j.
Proof.
  revert i j. induction l as [|x l IH]; intros [|i] [|j]; cbn; try reflexivity.
  - destruct (Nat.eqb j i); reflexivity.
  - rewrite IH. destruct (Nat.eqb j i); [|reflexivity]. reflexivity.
Qed.
Lemma list_eq_nth_error {A} (l l' : list A) : (forall i, nth_error l i = nth_error l' i) -> l = l'.
Proof.
  revert l'. induction l as [|x l IH]; intros [|y l'] H; [reflexivity|specialize (H 0%nat); discriminate|specialize (H 0%nat); discriminate|].
  pose proof (H 0%nat) as H0. inversion H0; subst. f_equal. apply IH. intro i. exact (H (S i)).
Qed.
Lemma filter_true {A} (P : A -> bool) l : (forall x, In x l -> P x = true) -> filter P l = l.
Proof. induction l as [|x l IH]; intro H; [reflexivity|]. cbn. rewrite (H x (or_introl eq_refl)). f_equal. apply IH. intros y Hy. apply H. right. exact Hy. Qed.

Lemma count_cut im ia om oa shape :
  fits im ia shape -> fits om oa (cut im ia shape) -> (oa = None \/ ia = None \/ oa <> ia) ->
  length (filter (fun pos => remains om oa pos && remains im ia pos) (positions shape)) = prod (cut om oa (cut im ia shape)).
Proof.
  intros Fi Fo D.
  assert (Fo' : fits om oa shape).
  { intros mm x E1 E2. specialize (Fo mm x E1 E2). unfold cut in Fo. destruct im as [im|]; [|exact Fo]. destruct ia as [ia|]; [|exact Fo].
    rewrite replace_nth_error in Fo. destruct (Nat.eqb x ia) eqn:E; [|exact Fo].
    apply Nat.eqb_eq in E. subst. destruct D as [D|[D|D]]; congruence. }
  rewrite (filter_ext_in _ (ok_at (map (fun a i => chk om oa a i && chk im ia a i) (seq 0 (length shape))))).
  2:{ intros pos Hp. apply positions_length in Hp. rewrite <- Hp, ok_at_seq. cbn [plus].
      rewrite (forallb_and (fun a => chk om oa a (nth a pos 0%nat)) (fun a => chk im ia a (nth a pos 0%nat))).
      f_equal; apply remains_chk; intros mm x E1 E2; rewrite Hp; apply nth_error_Some; [rewrite (Fo' mm x E1 E2)|rewrite (Fi mm x E1 E2)]; discriminate. }
  rewrite count_positions by (rewrite map_length, seq_length; reflexivity). f_equal.
  apply list_eq_nth_error. intro i.
  assert (C : forall (f : nat -> nat -> bool) s l, nth_error (map (fun pd => length (filter (fst pd) (seq 0 (snd pd)))) (combine (map f (seq s (length l))) l)) i
     = option_map (fun d => length (filter (f (s + i)%nat) (seq 0 d))) (nth_error l i)).
  { clear. intros f s l. revert s i. induction l as [|d l IH]; intros s i; [destruct i; reflexivity|]. destruct i as [|i]; cbn.
    - rewrite Nat.add_0_r. reflexivity.
    - rewrite IH. replace (S s + i)%nat with (s + S i)%nat by lia. reflexivity. }
  rewrite C. cbn [plus]. clear C.
  assert (K : forall m ax, fits m ax shape -> forall d, nth_error shape i = Some d ->
     length (filter (chk m ax i) (seq 0 d)) = match m, ax with Some mm, Some x => if Nat.eqb i x then length (kept mm) else d | _, _ => d end).
  { clear. intros m ax F d E. unfold chk. destruct m as [mm|]; [|rewrite filter_true by reflexivity; apply seq_length].
    destruct ax as [x|]; [|rewrite filter_true by reflexivity; apply seq_length].
    destruct (Nat.eqb i x) eqn:Ex.
    - apply Nat.eqb_eq in Ex. subst x. rewrite (F mm i eq_refl eq_refl) in E. inversion E; subst. reflexivity.
    - rewrite filter_true by reflexivity. apply seq_length. }
  destruct (nth_error shape i) as [d|] eqn:E; cbn [option_map].
  - assert (Li : (i < length shape)%nat) by (apply nth_error_Some; congruence).
    specialize (K im ia Fi d eq_refl) as K1. specialize (K om oa Fo' d eq_refl) as K2. clear K.
    assert (Lb : Nat.ltb i (length shape) = true) by (apply Nat.ltb_lt; exact Li).
    assert (R : nth_error (cut im ia shape) i = Some (match im, ia with Some mm, Some x => if Nat.eqb i x then length (kept mm) else d | _, _ => d end)).
    { unfold cut. destruct im as [im|]; [|exact E]. destruct ia as [ia|]; [|exact E]. rewrite replace_nth_error, Lb. destruct (Nat.eqb i ia); [reflexivity|exact E]. }
    unfold cut at 1. destruct om as [om|], oa as [oa|]; cbn [chk andb] in *;
      try (rewrite R; f_equal; rewrite <- K1; reflexivity).
    rewrite replace_nth_error. replace (length (cut im ia shape)) with (length shape) by (unfold cut; destruct im, ia; try reflexivity; rewrite replace_length; reflexivity).
    rewrite Lb, R. destruct (Nat.eqb i oa) eqn:Eo.
    + f_equal. rewrite <- K2. f_equal. apply filter_ext. intro y.
      apply Nat.eqb_eq in Eo. subst oa. unfold chk. rewrite Nat.eqb_refl. destruct im as [im|]; [|apply andb_true_r]. destruct ia as [ia|]; [|apply andb_true_r].
      destruct (Nat.eqb i ia) eqn:Ei; [|apply andb_true_r]. apply Nat.eqb_eq in Ei. subst. destruct D as [D|[D|D]]; congruence.
    + f_equal. rewrite <- K1. f_equal.
  - assert (Ln : (length shape <= i)%nat) by (apply nth_error_None; exact E).
    symmetry. apply nth_error_None.
    unfold cut. destruct om, oa, im, ia; rewrite ?replace_length; exact Ln.
Qed.

(* ---- one weight ---- *)
Definition res_axis (shape : list nat) (a : option axis) : option nat :=
  match a with Some (A_at i) => Some i | Some A_last => Some (length shape - 1)%nat | None => None end.
Definition take_opt (a : option axis) (m : option (list Z)) (w : tensor) : result tensor :=
  match a, m with Some a, Some m => prune_tensor w m a | _, _ => Ok w end.
Lemma take_opt_spec a m w w' : take_opt a m w = Ok w' ->
  fits m (res_axis (t_shape w) a) (t_shape w) /\ t_shape w' = cut m (res_axis (t_shape w) a) (t_shape w).
Proof.
  unfold take_opt. destruct a as [a|]; [destruct m as [m|]|]; intro H.
  - unfold prune_tensor in H. unfold dim in H.
    destruct (nth_error (t_shape w) (resolve w a)) as [d|] eqn:E; cbn [from_index bind] in H; [|discriminate].
    destruct (Nat.eqb d (length m)) eqn:Ed; cbn in H; [|discriminate]. apply Nat.eqb_eq in Ed. inversion H; subst w'.
    assert (R : res_axis (t_shape w) (Some a) = Some (resolve w a)) by (destruct a; reflexivity). rewrite R.
    split; [intros mm x E1 E2; congruence|reflexivity].
  - inversion H; subst. split; [intros mm x E1 E2; discriminate|]. reflexivity.
  - inversion H; subst. split; [intros mm x E1 E2; discriminate|]. destruct m; reflexivity.
Qed.
Lemma res_axis_len l l' a : length l = length l' -> res_axis l a = res_axis l' a.
Proof. intro H. destruct a as [[i|]|]; cbn; congruence. Qed.
Lemma cut_length m ax l : length (cut m ax l) = length l.
Proof. unfold cut. destruct m, ax; try reflexivity. apply replace_length. Qed.

Definition safe (f : fw) (n : pnode) (im : option (list Z)) : Prop := im = None \/ pn_kind n <> K_depthwise.
Lemma weight_params_left f n im om kw p : safe f n im ->
  weight_params (attrs_info f n) im om kw = Ok p ->
  p = weight_left f n im om kw /\ fits im (snd (weight_axes f n kw)) (t_shape (snd kw)) /\
  fits om (fst (weight_axes f n kw)) (cut im (snd (weight_axes f n kw)) (t_shape (snd kw))).
Proof.
  intros S H. unfold weight_params in H.
  destruct (mapM (fun a => let! b := attr_in (fst a) (fst kw) in Ok (snd a, b)) (attrs_info f n)) as [l|] eqn:El; cbn [bind] in H; [|discriminate].
  destruct (filter snd l) as [|[[oa ia] b] [|? ?]] eqn:Ef; try discriminate.
  assert (HA : res_axis (t_shape (snd kw)) oa = fst (weight_axes f n kw) /\ res_axis (t_shape (snd kw)) ia = snd (weight_axes f n kw)).
  { unfold weight_axes, attrs_info in *. destruct (kernel_attr f (pn_kind n)) as [k|].
    - destruct (fst kw) as [name|z]; [|destruct (channel_axis f (pn_kind n)) as [[o i]|]; cbn in El; discriminate].
      destruct (channel_axis f (pn_kind n)) as [[o i]|]; cbn [mapM attr_in bind fst snd] in El; inversion El; subst l; cbn [filter snd] in Ef;
      destruct (str_contains name k), (str_contains name "bias"); cbn in Ef; try discriminate; inversion Ef; subst; cbn; split; reflexivity.
    - set (scal := match f with Pytorch => _ | Keras => false end) in *.
      assert (Y : forall (ws : list (wkey * tensor)) r, mapM (fun a : wkey * (option axis * option axis) => let! b := attr_in (fst a) (fst kw) in Ok (snd a, b))
           (map (fun kv => (fst kv, (if scal then None else Some A_last, None))) ws) = Ok r -> forall y, In y r -> fst y = (if scal then None else Some A_last, None)).
      { clear. induction ws as [|w ws IH]; intros r Hr y Hy; cbn [map mapM fst snd] in Hr; [inversion Hr; subst; destruct Hy|].
        destruct (attr_in (fst w) (fst kw)); cbn [bind] in Hr; [|discriminate].
        destruct (mapM _ (map _ ws)) as [r'|] eqn:E; cbn [bind] in Hr; [|discriminate]. inversion Hr; subst r.
        destruct Hy as [<-|Hy]; [reflexivity|exact (IH r' eq_refl y Hy)]. }
      specialize (Y _ _ El (oa, ia, b)). cbn [fst] in Y.
      assert (In (oa, ia, b) l) as Hin. { assert (In (oa, ia, b) (filter snd l)) as F by (rewrite Ef; left; reflexivity). apply filter_In in F. apply F. }
      specialize (Y Hin). inversion Y; subst. cbn. split; [destruct scal; reflexivity|reflexivity]. }
  fold (take_opt ia im (snd kw)) in H.
  destruct (take_opt ia im (snd kw)) as [w1|] eqn:E1; cbn [bind] in H; [|discriminate].
  fold (take_opt oa om w1) in H.
  destruct (take_opt oa om w1) as [w2|] eqn:E2; cbn [bind] in H; [|discriminate].
  inversion H; subst p. apply take_opt_spec in E1, E2. destruct E1 as [F1 S1], E2 as [F2 S2].
  assert (L1 : length (t_shape w1) = length (t_shape (snd kw))) by (rewrite S1; apply cut_length).
  rewrite (res_axis_len _ _ oa L1) in F2, S2. destruct HA as [HA1 HA2]. rewrite HA1 in F2, S2. rewrite HA2 in F1, S1.
  rewrite S1 in F2, S2.
  split; [|split; [exact F1|exact F2]]. unfold weight_left. f_equal. unfold t_size. change (fold_right Nat.mul 1%nat (t_shape w2)) with (prod (t_shape w2)). rewrite S2. symmetry.
  destruct S as [->|NK].
  - change (cut None (snd (weight_axes f n kw)) (t_shape (snd kw))) with (cut None None (t_shape (snd kw))) in *.
    rewrite <- (count_cut None None om (fst (weight_axes f n kw)) (t_shape (snd kw))).
    + f_equal.
    + intros mm x E; discriminate.
    + exact F2.
    + right. left. reflexivity.
  - apply count_cut; [exact F1|exact F2|].
    clear - NK. unfold weight_axes. destruct (kernel_attr f (pn_kind n)) as [k|] eqn:Ek.
    + destruct (fst kw) as [name|z]; [|left; reflexivity]. destruct (str_contains name k).
      * destruct f, (pn_kind n) as [[|] g| | | | |]; cbn in *; try discriminate; try congruence; right; right; discriminate.
      * right. left. reflexivity.
    + right. left. reflexivity.
Qed.

Lemma positions_bound shape : forall pos a d, In pos (positions shape) -> nth_error shape a = Some d -> (nth a pos 0 < d)%nat.
Proof.
  induction shape as [|d0 shape IH]; intros pos a d H E; [destruct a; discriminate|].
  cbn in H. apply in_flat_map in H. destruct H as [i [Hi H]]. apply in_seq in Hi. apply in_map_iff in H. destruct H as [r [<- H]].
  destruct a as [|a]; cbn in *; [inversion E; subst; lia|]. exact (IH r a d H E).
Qed.
Lemma ones_nth d : forall i, (i < d)%nat -> nth i (ones d) 0 = 1.
Proof. unfold ones. induction d as [|d IH]; intros [|i] H; cbn; [lia|lia|reflexivity|]. apply IH. lia. Qed.
Lemma weight_params_ones f n d om kw p : pn_kind n <> K_depthwise ->
  weight_params (attrs_info f n) (Some (ones d)) om kw = Ok p -> p = weight_left f n None om kw.
Proof.
  intros K H. apply weight_params_left in H; [|right; exact K]. destruct H as [-> [F _]]. unfold weight_left. do 2 f_equal.
  apply filter_ext_in. intros pos Hp. f_equal. unfold remains. destruct (snd (weight_axes f n kw)) as [a|] eqn:E; [|reflexivity].
  specialize (F (ones d) a eq_refl eq_refl). unfold ones in F at 1. rewrite repeat_length in F. rewrite ones_nth; [reflexivity|].
  eapply positions_bound; eassumption.
Qed.

Lemma fold_add_map {A} (l : list A) F : fold_right Z.add 0 (map F l) = fold_right (fun x z => F x + z) 0 l.
Proof. induction l as [|x l IH]; [reflexivity|]. cbn. rewrite IH. reflexivity. Qed.
Lemma mapM_sum {A} (g : A -> result Z) (F : A -> Z) l r : (forall x z, In x l -> g x = Ok z -> z = F x) -> mapM g l = Ok r ->
  fold_right Z.add 0 r = fold_right Z.add 0 (map F l).
Proof.
  revert r. induction l as [|x l IH]; intros r H E; cbn [mapM] in E; [inversion E; reflexivity|].
  destruct (g x) as [z|] eqn:Ex; cbn [bind] in E; [|discriminate]. destruct (mapM g l) as [r'|]; cbn [bind] in E; [|discriminate].
  inversion E; subst r. cbn. rewrite (IH r') by (try reflexivity; intros y z' Hy; apply H; right; exact Hy). f_equal. apply H; [left; reflexivity|exact Ex].
Qed.
Lemma ceil_div_spec a b : 0 < b -> a <= ceil_div a b * b < a + b.
Proof. intro H. unfold ceil_div. pose proof (Z.div_mod (a + b - 1) b). pose proof (Z.mod_pos_bound (a + b - 1) b H). nia. Qed.
Lemma get_simd_spec l s : get_simd l = Ok s -> 0 < Z.of_nat s /\ In (Z.of_nat s) l /\ forall x, In x l -> Z.of_nat s <= x.
Proof.
  unfold get_simd. destruct l as [|x r]; [discriminate|]. destruct (Z.leb (fold_left Z.min r x) 0) eqn:E; [discriminate|].
  apply Z.leb_gt in E. intro H. inversion H; subst s. rewrite Z2Nat.id by lia. split; [exact E|].
  clear. revert x. induction r as [|y r IH]; intro x; [split; [left; reflexivity|intros z [->|[]]; cbn; lia]|]. cbn [fold_left].
  destruct (IH (Z.min x y)) as [A B]. split.
  - destruct A as [A|A]; [|right; right; exact A]. destruct (Z.min_spec x y) as [[_ E]|[_ E]]; rewrite E in A |- *; [left; exact A|right; left; exact A].
  - assert (fold_left Z.min r (Z.min x y) <= Z.min x y) by (apply B; left; reflexivity). intros z [->|[->|Hz]]; [lia|lia|apply B; right; exact Hz].
Qed.

Lemma node_charged f padded n im im' om p :
  (forall kw z, In kw (pn_weights n) -> weight_params (attrs_info f n) im om kw = Ok z -> z = weight_left f n im' om kw) ->
  node_params f padded n im om = Ok p -> charged f padded n im' om p.
Proof.
  intros HW H. unfold node_params in H. destruct (mapM _ (pn_weights n)) as [ps|] eqn:Em; cbn [bind] in H; [|discriminate].
  apply mapM_sum with (F := weight_left f n im' om) in Em; [|exact HW]. fold (layer_left f n im' om) in Em. rewrite Em in H.
  destruct (match om with Some m => _ | None => num_channels n end) as [oc|] eqn:Eo; cbn [bind] in H; [|discriminate].
  unfold charged. destruct padded; [|congruence].
  destruct (get_simd (pn_simd n)) as [s|] eqn:Es; cbn [bind] in H; [|discriminate].
  apply get_simd_spec in Es. destruct Es as [S1 [S2 S3]].
  unfold padded_params in H. destruct (Z.leb 1 oc) eqn:E1; [|discriminate]. apply Z.leb_le in E1. inversion H; subst p.
  exists oc, (Z.of_nat s). split; [exact E1|]. split; [exact S1|]. split; [exact S2|]. split; [exact S3|].
  split; [destruct om; [inversion Eo; reflexivity|exact Eo]|].
  exists (ceil_div oc (Z.of_nat s) * Z.of_nat s), (ceil_div (layer_left f n im' om) oc).
  split; [reflexivity|]. split; [split; [apply Z_mod_mult|apply ceil_div_spec; exact S1]|apply ceil_div_spec; lia].
Qed.

(* ---- sections ---- *)
Lemma edge_not_inter n : is_edge n = true -> is_inter n = true -> False.
Proof. unfold is_edge, is_inter. destruct (pn_kind n); discriminate. Qed.
Lemma node_of_spec g i n : node_of g i = Ok n -> In n (pg_nodes g) /\ pn_id n = i.
Proof.
  unfold node_of. destruct (find _ _) as [x|] eqn:E; cbn; [|discriminate]. intro H. inversion H; subst x.
  apply find_some in E. destruct E as [A B]. apply Nat.eqb_eq in B. split; assumption.
Qed.
Lemma same_node g : NoDup (map pn_id (pg_nodes g)) -> forall a b, In a (pg_nodes g) -> In b (pg_nodes g) -> pn_id a = pn_id b -> a = b.
Proof.
  generalize (pg_nodes g). clear g. induction l as [|x l IH]; [intros _ a b []|]. cbn. intro ND. inversion ND as [|? ? Hx Hl]; subst.
  intros a b [->|Ha] [->|Hb] E; [reflexivity| | |apply IH; assumption]; exfalso; apply Hx.
  - rewrite E. apply in_map. exact Hb.
  - rewrite <- E. apply in_map. exact Ha.
Qed.
Lemma node_of_total g n : NoDup (map pn_id (pg_nodes g)) -> In n (pg_nodes g) -> node_of g (pn_id n) = Ok n.
Proof.
  intros ND H. unfold node_of. destruct (find (fun x => Nat.eqb (pn_id x) (pn_id n)) (pg_nodes g)) as [x|] eqn:E; cbn.
  - apply find_some in E. destruct E as [A B]. apply Nat.eqb_eq in B. f_equal. apply (same_node g ND); assumption.
  - apply find_none with (x := n) in E; [|exact H]. rewrite Nat.eqb_refl in E. discriminate.
Qed.
Lemma out_edge_link g a s d n : out_edges g (pn_id a) = [(s, d)] -> node_of g d = Ok n -> Nat.eqb (length (in_edges g (pn_id n))) 1 = true ->
  only_link g a n.
Proof.
  intros O N L. apply node_of_spec in N. destruct N as [_ N]. apply Nat.eqb_eq in L.
  assert (In (s, d) (out_edges g (pn_id a))) as H by (rewrite O; left; reflexivity).
  apply filter_In in H. cbn in H. destruct H as [H Es]. apply Nat.eqb_eq in Es. subst s d. split; [exact O|].
  assert (In (pn_id a, pn_id n) (in_edges g (pn_id n))) as I by (apply filter_In; split; [exact H|cbn; apply Nat.eqb_refl]).
  destruct (in_edges g (pn_id n)) as [|x [|y l]]; cbn in L; try lia. destruct I as [->|[]]. reflexivity.
Qed.

Definition leads (f : fw) (g : pgraph) (e cur : pnode) (mids : list pnode) (x : pnode) : Prop :=
  In x (pg_nodes g) /\ (forall n, In n mids -> In n (pg_nodes g) /\ is_inter n = true) /\
  is_edge x = true /\ matching f x e = Ok true /\ chain g cur mids x.

Lemma prunable_true f g e fuel : forall cur, topology_prunable fuel f g e cur = Ok true ->
  exists mids x, find_exit fuel f g e cur = Ok (mids, x) /\ leads f g e cur mids x.
Proof.
  induction fuel as [|fuel IH]; intros cur H; cbn [topology_prunable] in H; destruct (out_edges g (pn_id cur)) as [|[s d] [|? ?]] eqn:Eo; try discriminate.
  destruct (node_of g d) as [n|] eqn:En; cbn [bind] in H; [|discriminate].
  destruct (is_exit f n e) as [x|] eqn:Ex; cbn [bind] in H; [|discriminate].
  destruct (x && Nat.eqb (length (in_edges g (pn_id n))) 1) eqn:Ec.
  - apply andb_true_iff in Ec. destruct Ec as [-> Ei]. exists [], n. cbn [find_exit]. rewrite Eo, En. cbn [bind]. rewrite Ex. cbn [bind].
    split; [reflexivity|]. pose proof (out_edge_link _ _ _ _ _ Eo En Ei) as L. apply node_of_spec in En. destruct En as [En _].
    unfold is_exit in Ex. destruct (is_edge n) eqn:Ee; [|discriminate].
    split; [exact En|]. split; [intros ? []|]. split; [exact Ee|]. split; [exact Ex|exact L].
  - destruct (negb (is_inter n)) eqn:E1; cbn [orb] in H; [discriminate|]. apply negb_false_iff in E1.
    destruct (Nat.eqb (length (in_edges g (pn_id n))) 1) eqn:E2; cbn [negb orb] in H; [|discriminate].
    destruct (Nat.eqb (length (out_edges g (pn_id n))) 1) eqn:E3; cbn [negb] in H; [|discriminate].
    rewrite andb_true_r in Ec. subst x.
    destruct (IH n H) as [mids [x [F [A [B [C [D E]]]]]]]. exists (n :: mids), x. cbn [find_exit]. rewrite Eo, En. cbn [bind]. rewrite Ex. cbn [bind].
    rewrite F. split; [reflexivity|]. pose proof (out_edge_link _ _ _ _ _ Eo En E2) as L. apply node_of_spec in En. destruct En as [En _].
    split; [exact A|]. split; [intros m [<-|Hm]; [split; assumption|apply B; exact Hm]|]. split; [exact C|]. split; [exact D|split; assumption].
Qed.
Lemma chain_out g a l b : chain g a l b -> exists d, out_edges g (pn_id a) = [(pn_id a, d)].
Proof. destruct l as [|x r]; cbn; [intros [E _]|intros [[E _] _]]; eexists; exact E. Qed.
Lemma prunable_false f g e fuel : NoDup (map pn_id (pg_nodes g)) -> forall cur, topology_prunable fuel f g e cur = Ok false ->
  forall mids x, ~ leads f g e cur mids x.
Proof.
  intro ND. induction fuel as [|fuel IH]; intros cur H mids x [A [B [C [D E]]]]; cbn [topology_prunable] in H;
  destruct (chain_out _ _ _ _ E) as [d Eo]; rewrite Eo in H; [discriminate|].
  destruct mids as [|m r]; cbn [chain] in E.
  - destruct E as [E1 E2]. rewrite Eo in E1. inversion E1; subst d. rewrite (node_of_total g x ND A) in H. cbn [bind] in H.
    unfold is_exit in H. rewrite C, D in H. cbn [bind] in H. rewrite E2 in H. cbn in H. discriminate.
  - destruct E as [[E1 E2] E3]. rewrite Eo in E1. inversion E1; subst d. destruct (B m) as [Hm Im]; [left; reflexivity|].
    rewrite (node_of_total g m ND Hm) in H. cbn [bind] in H. unfold is_exit in H.
    destruct (is_edge m) eqn:Ee; [exfalso; exact (edge_not_inter m Ee Im)|]. cbn [bind andb] in H.
    destruct (chain_out _ _ _ _ E3) as [d Eo']. rewrite Im, E2, Eo' in H. cbn in H.
    apply (IH m H r x). split; [exact A|]. split; [intros n Hn; apply B; right; exact Hn|]. split; [exact C|split; assumption].
Qed.
Lemma leads_det f g e : NoDup (map pn_id (pg_nodes g)) -> forall mids cur x mids' x', leads f g e cur mids x -> leads f g e cur mids' x' -> mids = mids' /\ x = x'.
Proof.
  intro ND. induction mids as [|m r IH]; intros cur x mids' x' [A [B [C [D E]]]] [A' [B' [C' [D' E']]]].
  - destruct mids' as [|m' r']; cbn [chain] in *.
    + split; [reflexivity|]. destruct E as [E _], E' as [E' _]. rewrite E in E'. inversion E'. apply (same_node g ND); assumption.
    + exfalso. destruct E as [E _], E' as [[E' _] _]. rewrite E in E'. inversion E'. destruct (B' m') as [Hm Im]; [left; reflexivity|].
      assert (x = m') by (apply (same_node g ND); assumption). subst. exact (edge_not_inter m' C Im).
  - destruct (B m) as [Hm Im]; [left; reflexivity|]. destruct mids' as [|m' r']; cbn [chain] in *.
    + exfalso. destruct E as [[E _] _], E' as [E' _]. rewrite E in E'. inversion E'.
      assert (m = x') by (apply (same_node g ND); assumption). subst. exact (edge_not_inter x' C' Im).
    + destruct E as [[E _] F], E' as [[E' _] F']. rewrite E in E'. inversion E'. destruct (B' m') as [Hm' _]; [left; reflexivity|].
      assert (m = m') by (apply (same_node g ND); assumption). subst m'.
      destruct (IH m x r' x') as [-> ->]; [split; [exact A|split; [intros n Hn; apply B; right; exact Hn|split; [exact C|split; assumption]]]
        |split; [exact A'|split; [intros n Hn; apply B'; right; exact Hn|split; [exact C'|split; assumption]]]|]. split; reflexivity.
Qed.
Lemma section_leads f g e i x : is_section f g e i x <-> In e (pg_nodes g) /\ is_edge e = true /\ leads f g e e i x.
Proof. unfold is_section, leads. tauto. Qed.

(* going back from a node of a section is deterministic *)
Inductive reach (g : pgraph) (a : pnode) : pnode -> Prop :=
| R_one n : only_link g a n -> reach g a n
| R_more p n : In p (pg_nodes g) -> is_inter p = true -> reach g a p -> only_link g p n -> reach g a n.
Lemma chain_reach g l : forall a b, (forall n, In n l -> In n (pg_nodes g) /\ is_inter n = true) -> chain g a l b ->
  forall n, In n l \/ n = b -> reach g a n.
Proof.
  intro a0. induction l as [|x r IH] using rev_ind; intros b H C n Hn.
  - destruct Hn as [[]| ->]. apply R_one. exact C.
  - assert (S : forall r a b, chain g a (r ++ [x]) b -> chain g a r x /\ only_link g x b).
    { clear. induction r as [|y r IHr]; intros a b C; cbn in *; [exact C|]. destruct C as [C1 C2]. apply IHr in C2. tauto. }
    apply S in C. destruct C as [C1 C2].
    assert (RX : reach g a0 x) by (apply (IH x); [intros m Hm; apply H; apply in_or_app; left; exact Hm|exact C1|right; reflexivity]).
    destruct Hn as [Hn| ->].
    + apply in_app_or in Hn. destruct Hn as [Hn|[Hn|[]]]; [|subst x; exact RX].
      apply (IH x); [intros m Hm; apply H; apply in_or_app; left; exact Hm|exact C1|left; exact Hn].
    + destruct (H x) as [Hx Ix]; [apply in_or_app; right; left; reflexivity|]. apply R_more with x; assumption.
Qed.
Lemma reach_unique g a a' n : NoDup (map pn_id (pg_nodes g)) -> In a (pg_nodes g) -> In a' (pg_nodes g) -> is_edge a = true -> is_edge a' = true ->
  reach g a n -> reach g a' n -> a = a'.
Proof.
  intros ND Ha Ha' Ea Ea' R. revert a' Ha' Ea'. induction R as [n L|p n Hp Ip R IH L]; intros a' Ha' Ea' R'; destruct R' as [n L'|p' n Hp' Ip' R' L'];
    destruct L as [_ L], L' as [_ L']; rewrite L in L'; inversion L'.
  - apply (same_node g ND); assumption.
  - assert (a = p') by (apply (same_node g ND); assumption). subst. exfalso. exact (edge_not_inter p' Ea Ip').
  - assert (p = a') by (apply (same_node g ND); assumption). subst. exfalso. exact (edge_not_inter a' Ea' Ip).
  - assert (p = p') by (apply (same_node g ND); assumption). subst. apply IH; assumption.
Qed.

(* ---- positions in the topological order ---- *)
Fixpoint index_in (l : list pnode) (i : nat) : nat :=
  match l with [] => 0%nat | x :: r => if Nat.eqb (pn_id x) i then 0%nat else Datatypes.S (index_in r i) end.
Lemma index_app l : forall x r, ~ In (pn_id x) (map pn_id l) -> index_in (l ++ x :: r) (pn_id x) = length l.
Proof.
  induction l as [|y l IH]; intros x r H; cbn; [rewrite Nat.eqb_refl; reflexivity|].
  destruct (Nat.eqb_spec (pn_id y) (pn_id x)) as [E|N]; [exfalso; apply H; left; exact E|]. f_equal. apply IH. intro I. apply H. right. exact I.
Qed.
Lemma before_index l a b : NoDup (map pn_id l) -> before l a b -> (index_in l a < index_in l b < length l)%nat.
Proof.
  intros ND (p & q & r & x & y & -> & <- & <-). rewrite map_app in ND. cbn in ND. rewrite map_app in ND. cbn in ND.
  rewrite index_app.
  2: { apply NoDup_remove_2 in ND. intro I. apply ND. apply in_or_app. left. exact I. }
  assert (E : p ++ x :: q ++ y :: r = (p ++ x :: q) ++ y :: r) by (rewrite <- app_assoc; reflexivity). rewrite E. rewrite index_app.
  - rewrite !app_length. cbn. lia.
  - rewrite map_app. cbn. rewrite (app_assoc _ (_ :: _)) in ND || idtac.
    assert (ND' : NoDup ((map pn_id p ++ pn_id x :: map pn_id q) ++ pn_id y :: map pn_id r)) by (rewrite <- app_assoc; exact ND).
    apply NoDup_remove_2 in ND'. intro I. apply ND'. apply in_or_app. left. exact I.
Qed.
Lemma topo_nodup g : wf_graph g -> NoDup (map pn_id (pg_topo g)).
Proof. intros [A B C]. eapply Permutation_NoDup; [apply Permutation_map, Permutation_sym, B|exact A]. Qed.
Lemma link_index g a b : wf_graph g -> only_link g a b -> (index_in (pg_topo g) (pn_id a) < index_in (pg_topo g) (pn_id b) < length (pg_topo g))%nat.
Proof.
  intros W [L _]. apply before_index; [apply topo_nodup, W|]. apply (wf_edges g W).
  assert (In (pn_id a, pn_id b) (out_edges g (pn_id a))) as I by (rewrite L; left; reflexivity). apply filter_In in I. apply I.
Qed.
Lemma chain_index g : wf_graph g -> forall l a b, chain g a l b ->
  NoDup l /\ forall n, In n l -> (index_in (pg_topo g) (pn_id a) < index_in (pg_topo g) (pn_id n))%nat.
Proof.
  intros W. induction l as [|x l IH]; intros a b C; [split; [constructor|intros n []]|]. destruct C as [L C]. apply link_index in L; [|exact W].
  destruct (IH x b C) as [A B]. split; [constructor; [|exact A]|].
  - intro I. apply B in I. lia.
  - intros n [<-|I]; [lia|]. apply B in I. lia.
Qed.

(* ---- the sections found ---- *)
Lemma mapM_in {A B} (h : A -> result B) l r : mapM h l = Ok r -> forall x, In x l -> exists y, h x = Ok y /\ In y r.
Proof.
  revert r. induction l as [|a l IH]; intros r E x []; cbn [mapM] in E; destruct (h a) as [y|] eqn:Ea; cbn [bind] in E; try discriminate;
    destruct (mapM h l) as [r'|]; cbn [bind] in E; try discriminate; inversion E; subst r.
  - subst a. exists y. split; [exact Ea|left; reflexivity].
  - destruct (IH r' eq_refl x H) as [z [Z1 Z2]]. exists z. split; [exact Z1|right; exact Z2].
Qed.
Lemma entries_spec (h : pnode -> result bool) l r : mapM (fun n => let! b := h n in Ok (n, b)) l = Ok r ->
  (NoDup l -> NoDup (map fst (filter snd r))) /\ forall n, In n (map fst (filter snd r)) <-> In n l /\ h n = Ok true.
Proof.
  revert r. induction l as [|a l IH]; intros r E; cbn [mapM] in E.
  - inversion E. cbn. split; [auto|]. intro n. tauto.
  - destruct (h a) as [b|] eqn:Ea; cbn [bind] in E; [|discriminate]. destruct (mapM _ l) as [r'|]; cbn [bind] in E; [|discriminate].
    inversion E; subst r. destruct (IH r' eq_refl) as [A B]. cbn [filter snd]. destruct b; cbn [map fst].
    + split.
      * intro ND. inversion ND as [|? ? N1 N2]; subst. constructor; [intro I; apply B in I; tauto|apply A, N2].
      * intro n. cbn. rewrite B. split; [intros [->|[I H]]; tauto|]. intros [[->|I] H]; [left; reflexivity|right; tauto].
    + split; [intro ND; inversion ND; auto|]. intro n. rewrite B. cbn. split; [tauto|]. intros [[->|I] H]; [congruence|tauto].
Qed.
Lemma section_det f g e i x i' x' : wf_graph g -> is_section f g e i x -> is_section f g e i' x' -> i = i' /\ x = x'.
Proof. intros W A B. apply section_leads in A. apply section_leads in B. eapply leads_det; [apply W|apply A|apply B]. Qed.
Lemma section_reach f g e i x : is_section f g e i x -> forall n, In n i \/ n = x -> reach g e n.
Proof. intros (A & B & C & D & E & F & G). eapply chain_reach; eassumption. Qed.
Lemma section_same_end f g e i x e' i' x' n : wf_graph g -> is_section f g e i x -> is_section f g e' i' x' ->
  In n i \/ n = x -> In n i' \/ n = x' -> e = e'.
Proof.
  intros W A B I I'. pose proof (section_reach _ _ _ _ _ A n I) as R. pose proof (section_reach _ _ _ _ _ B n I') as R'.
  destruct A as (A1 & _ & _ & A2 & _), B as (B1 & _ & _ & B2 & _). exact (reach_unique g e e' n (wf_ids g W) A1 B1 A2 B2 R R').
Qed.
Lemma sections_spec f g secs : wf_graph g -> sections f g = Ok secs ->
  (forall s, In s secs -> is_section f g (sc_entry s) (sc_inter s) (sc_exit s)) /\
  (forall e i x, is_section f g e i x -> In (Section_ e i x) secs) /\ NoDup (map sc_entry secs).
Proof.
  intros W H. unfold sections in H. destruct (entry_nodes f g) as [es|] eqn:Ee; cbn [bind] in H; [|discriminate].
  unfold entry_nodes in Ee. destruct (mapM _ (pg_topo g)) as [l|] eqn:Em; cbn [bind] in Ee; [|discriminate]. inversion Ee; subst es. clear Ee.
  assert (TB : forall n, In n (pg_topo g) -> exists b, (if is_edge n then topology_prunable (length (pg_nodes g)) f g n n else Ok false) = Ok b).
  { intros n I. destruct (mapM_in _ _ _ Em n I) as [y [Y _]]. destruct (if is_edge n then _ else _) as [b|]; [exists b; reflexivity|discriminate]. }
  apply entries_spec in Em. destruct Em as [ND ME].
  assert (NE : NoDup (map fst (filter snd l))) by (apply ND; apply (NoDup_map_inv pn_id), topo_nodup, W). clear ND.
  assert (IN : forall e, In e (map fst (filter snd l)) -> In e (pg_nodes g) /\ is_edge e = true /\ topology_prunable (length (pg_nodes g)) f g e e = Ok true).
  { intros e I. apply ME in I. destruct I as [I P]. split; [eapply Permutation_in; [apply (wf_topo g W)|exact I]|]. destruct (is_edge e); [split; [reflexivity|exact P]|discriminate]. }
  assert (K : map sc_entry secs = map fst (filter snd l) /\
              forall s, In s secs -> find_exit (length (pg_nodes g)) f g (sc_entry s) (sc_entry s) = Ok (sc_inter s, sc_exit s)).
  { clear ME NE IN. revert secs H. generalize (map fst (filter snd l)). induction l0 as [|e l0 IH]; intros secs H; cbn [mapM] in H.
    - inversion H. split; [reflexivity|intros s []].
    - destruct (find_exit _ f g e e) as [[i x]|] eqn:Ef; cbn [bind fst snd] in H; [|discriminate].
      destruct (mapM _ l0) as [r|]; cbn [bind] in H; [|discriminate]. inversion H; subst secs. destruct (IH r eq_refl) as [A B].
      split; [cbn; rewrite A; reflexivity|]. intros s [<-|I]; [exact Ef|apply B, I]. }
  destruct K as [K1 K2].
  assert (S1 : forall s, In s secs -> is_section f g (sc_entry s) (sc_inter s) (sc_exit s)).
  { intros s I. assert (J : In (sc_entry s) (map fst (filter snd l))) by (rewrite <- K1; apply in_map, I). apply IN in J. destruct J as [J1 [J2 J3]].
    apply prunable_true in J3. destruct J3 as [i [x [F L]]]. rewrite (K2 s I) in F. inversion F; subst i x. apply section_leads. tauto. }
  split; [exact S1|]. split; [|rewrite K1; exact NE].
  intros e i x S. assert (J : In e (map sc_entry secs)).
  { rewrite K1. apply ME. pose proof S as S'. apply section_leads in S'. destruct S' as [J1 [J2 L]].
    split; [eapply Permutation_in; [apply Permutation_sym, (wf_topo g W)|exact J1]|]. rewrite J2.
    assert (J0 : In e (pg_topo g)) by (eapply Permutation_in; [apply Permutation_sym, (wf_topo g W)|exact J1]).
    destruct (TB e J0) as [b Hb]. rewrite J2 in Hb. destruct b; [exact Hb|]. exfalso. exact (prunable_false _ _ _ _ (wf_ids g W) _ Hb _ _ L). }
  apply in_map_iff in J. destruct J as [[e0 i0 x0] [Es Is]]. cbn in Es. subst e0. pose proof (S1 _ Is) as S0. cbn in S0.
  destruct (section_det f g e i x i0 x0 W S S0) as [-> ->]. exact Is.
Qed.

(* finding the sections always ends: the walk follows the topological order *)
Lemma prunable_fuel f g e : wf_graph g -> forall fuel cur, (length (pg_topo g) <= fuel + index_in (pg_topo g) (pn_id cur))%nat ->
  topology_prunable fuel f g e cur <> Err E_fuel.
Proof.
  intro W.
  assert (ME : forall x, matching f x e <> Err E_fuel).
  { intro x. unfold matching, kernel_of, dim, axis_of, from_index.
    repeat (match goal with |- context [match ?t with _ => _ end] => destruct t end; cbn [bind]; try discriminate). }
  assert (OE : forall cur s d, out_edges g (pn_id cur) = [(s, d)] -> (index_in (pg_topo g) (pn_id cur) < index_in (pg_topo g) d < length (pg_topo g))%nat).
  { intros cur s d E. assert (In (s, d) (out_edges g (pn_id cur))) as I by (rewrite E; left; reflexivity). apply filter_In in I. cbn in I. destruct I as [I Es].
    apply Nat.eqb_eq in Es. subst s. apply before_index; [apply topo_nodup, W|]. apply (wf_edges g W), I. }
  induction fuel as [|fuel IH]; intros cur L; cbn [topology_prunable]; destruct (out_edges g (pn_id cur)) as [|[s d] [|? ?]] eqn:Eo; try discriminate.
  - apply OE in Eo. lia.
  - apply OE in Eo. unfold node_of. destruct (find _ _) as [n|] eqn:En; cbn [from_key bind]; [|discriminate].
    apply find_some in En. destruct En as [_ En]. apply Nat.eqb_eq in En.
    unfold is_exit. destruct (is_edge n).
    + destruct (matching f n e) as [x|er] eqn:Ex; cbn [bind]; [|intro H; apply (ME n); congruence].
      destruct (x && _); [discriminate|]. destruct (_ || _); [discriminate|]. apply IH. rewrite En. lia.
    + cbn [bind andb]. destruct (_ || _); [discriminate|]. apply IH. rewrite En. lia.
Qed.
Lemma mapM_err {A B} (h : A -> result B) l e : mapM h l = Err e -> exists x, In x l /\ h x = Err e.
Proof.
  induction l as [|a l IH]; cbn [mapM]; [discriminate|]. destruct (h a) as [y|e'] eqn:E; cbn [bind].
  - destruct (mapM h l); cbn [bind]; [discriminate|]. intro H. inversion H; subst. destruct (IH eq_refl) as [x [I X]]. exists x. split; [right; exact I|exact X].
  - intro H. inversion H; subst. exists a. split; [left; reflexivity|exact E].
Qed.
Lemma sections_no_fuel f g : wf_graph g -> sections f g <> Err E_fuel.
Proof.
  intros W H. unfold sections in H. destruct (entry_nodes f g) as [es|er] eqn:Ee; cbn [bind] in H.
  - apply mapM_err in H. destruct H as [e [I H]]. unfold entry_nodes in Ee. destruct (mapM _ (pg_topo g)) as [l|] eqn:Em; cbn [bind] in Ee; [|discriminate].
    inversion Ee; subst es. apply entries_spec in Em. apply Em in I. destruct I as [_ I]. destruct (is_edge e); [|discriminate].
    apply prunable_true in I. destruct I as [i [x [F _]]]. rewrite F in H. discriminate.
  - inversion H; subst er. unfold entry_nodes in Ee. destruct (mapM _ (pg_topo g)) as [l|er] eqn:Em; cbn [bind] in Ee; [discriminate|]. inversion Ee; subst er.
    apply mapM_err in Em. destruct Em as [n [I Hn]]. destruct (is_edge n); [|discriminate].
    destruct (topology_prunable _ f g n n) as [|er] eqn:T; [discriminate|]. cbn [bind] in Hn. inversion Hn; subst er.
    apply (prunable_fuel f g n W _ _) in T; [exact T|]. rewrite (Permutation_length (wf_topo g W)). lia.
Qed.

(* ---- every parameter once ---- *)
Definition zsum (l : list Z) : Z := fold_right Z.add 0 l.
Lemma zsum_app a b : zsum (a ++ b) = zsum a + zsum b.
Proof. unfold zsum. induction a as [|x a IH]; cbn [app fold_right]; [reflexivity|]. rewrite IH. lia. Qed.
Lemma zsum_perm {A} (V : A -> Z) a b : Permutation a b -> zsum (map V a) = zsum (map V b).
Proof. unfold zsum. induction 1; cbn [map fold_right]; lia. Qed.
Lemma zsum_split {A} (V : A -> Z) (p : A -> bool) l : zsum (map V l) = zsum (map V (filter p l)) + zsum (map V (filter (fun x => negb (p x)) l)).
Proof. induction l as [|x l IH]; [reflexivity|]. cbn [map filter]. destruct (p x); cbn [negb map]; unfold zsum in *; cbn [fold_right]; lia. Qed.
Lemma NoDup_flat_map {A B} (h : A -> list B) l : NoDup l -> (forall x, In x l -> NoDup (h x)) ->
  (forall x y b, In x l -> In y l -> In b (h x) -> In b (h y) -> x = y) -> NoDup (flat_map h l).
Proof.
  induction l as [|x l IH]; cbn; intros ND H D; [constructor|]. inversion ND as [|? ? N1 N2]; subst.
  assert (NoDup (flat_map h l)) as R by (apply IH; [exact N2|intros y I; apply H; right; exact I|intros y z b I J; apply D; right; assumption]).
  assert (forall b, In b (h x) -> ~ In b (flat_map h l)) as X.
  { intros b I J. apply in_flat_map in J. destruct J as [y [J K]]. assert (x = y) by (apply (D x y b); [left; reflexivity|right; exact J|exact I|exact K]). subst y. contradiction. }
  pose proof (H x (or_introl eq_refl)) as Nx. clear - R X Nx. induction (h x) as [|b l' IH]; [exact R|]. inversion Nx as [|? ? M1 M2]; subst. cbn. constructor.
  - intro I. apply in_app_or in I. destruct I as [I|I]; [contradiction|]. apply (X b); [left; reflexivity|exact I].
  - apply IH; [intros c I; apply X; right; exact I|exact M2].
Qed.
Lemma memb_spec g n l : wf_graph g -> In n (pg_nodes g) -> (forall x, In x l -> In x (pg_nodes g)) -> (memb n l = true <-> In n l).
Proof.
  intros W I L. unfold memb. rewrite existsb_exists. split.
  - intros [x [J E]]. apply Nat.eqb_eq in E. replace n with x; [exact J|]. apply (same_node g (wf_ids g W)); [apply L, J|exact I|exact E].
  - intro J. exists n. split; [exact J|apply Nat.eqb_refl].
Qed.

Section Once.
Context (f : fw) (padded : bool) (g : pgraph) (masks : masks_t) (secs : list section).
Context (W : wf_graph g) (HS : sections f g = Ok secs).
Let M (n : pnode) := dict_get (pn_id n) masks.
Definition val (r : result Z) : Z := match r with Ok z => z | Err _ => 0 end.
Definition V (n : pnode) : Z :=
  match find (fun s => memb n (sc_inter s)) secs with
  | Some s => val (node_params f padded n (M (sc_entry s)) (M (sc_entry s)))
  | None => if memb n (map sc_entry secs ++ map sc_exit secs)
            then val (let! ic := input_mask f secs masks n in node_params f padded n ic (M n))
            else val (node_params f padded n None None)
  end.
Lemma sec_is s : In s secs -> is_section f g (sc_entry s) (sc_inter s) (sc_exit s).
Proof. apply (sections_spec f g secs W HS). Qed.
Lemma sec_eq s s' : In s secs -> In s' secs -> sc_entry s = sc_entry s' -> s = s'.
Proof.
  intros I I' E. pose proof (sec_is s I) as A. pose proof (sec_is s' I') as B. rewrite <- E in B.
  destruct (section_det f g _ _ _ _ _ W A B) as [C D]. destruct s, s'; cbn in *; congruence.
Qed.
Lemma sec_shared s s' n : In s secs -> In s' secs -> In n (sc_inter s) \/ n = sc_exit s -> In n (sc_inter s') \/ n = sc_exit s' -> s = s'.
Proof. intros I I' J J'. apply sec_eq; [exact I|exact I'|]. eapply section_same_end; [exact W|apply sec_is, I|apply sec_is, I'|exact J|exact J']. Qed.
Lemma inter_in s n : In s secs -> In n (sc_inter s) -> In n (pg_nodes g) /\ is_inter n = true.
Proof. intros I J. apply sec_is in I. destruct I as (_ & _ & I & _). apply I, J. Qed.
Lemma entry_in s : In s secs -> In (sc_entry s) (pg_nodes g) /\ is_edge (sc_entry s) = true.
Proof. intro I. apply sec_is in I. destruct I as (A & _ & _ & B & _). split; assumption. Qed.
Lemma exit_in s : In s secs -> In (sc_exit s) (pg_nodes g) /\ is_edge (sc_exit s) = true.
Proof. intro I. apply sec_is in I. destruct I as (_ & A & _ & _ & B & _). split; assumption. Qed.
Lemma memb_inter s n : In s secs -> In n (pg_nodes g) -> (memb n (sc_inter s) = true <-> In n (sc_inter s)).
Proof. intros I J. apply (memb_spec g n _ W J). intros x K. apply (inter_in s x I K). Qed.
Lemma find_inter_edge n : In n (pg_nodes g) -> is_edge n = true -> find (fun s => memb n (sc_inter s)) secs = None.
Proof.
  intros I E. destruct (find _ _) as [s|] eqn:F; [|reflexivity]. apply find_some in F. destruct F as [F1 F2]. apply memb_inter in F2; [|exact F1|exact I].
  exfalso. destruct (inter_in s n F1 F2) as [_ X]. exact (edge_not_inter n E X).
Qed.
Lemma edges_memb n : In n (pg_nodes g) -> (memb n (map sc_entry secs ++ map sc_exit secs) = true <-> exists s, In s secs /\ (n = sc_entry s \/ n = sc_exit s)).
Proof.
  intro I. rewrite (memb_spec g n _ W I).
  - rewrite in_app_iff, !in_map_iff. split; [intros [[s [<- H]]|[s [<- H]]]; exists s; tauto|]. intros [s [H [->| ->]]]; [left|right]; exists s; tauto.
  - intros x H. apply in_app_or in H. rewrite !in_map_iff in H. destruct H as [[s [<- H]]|[s [<- H]]]; [apply (entry_in s H)|apply (exit_in s H)].
Qed.
Lemma V_edge n s : In n (pg_nodes g) -> is_edge n = true -> In s secs -> n = sc_entry s \/ n = sc_exit s ->
  V n = val (let! ic := input_mask f secs masks n in node_params f padded n ic (M n)).
Proof.
  intros I E H D. unfold V. rewrite (find_inter_edge n I E). assert (memb n (map sc_entry secs ++ map sc_exit secs) = true) as ->; [|reflexivity].
  apply (edges_memb n I). exists s. tauto.
Qed.
Lemma input_exit s : In s secs -> input_mask f secs masks (sc_exit s) = Ok (M (sc_entry s)).
Proof.
  intro I. unfold input_mask. destruct (find _ secs) as [s'|] eqn:F.
  - apply find_some in F. destruct F as [F1 F2]. apply Nat.eqb_eq in F2.
    assert (sc_exit s' = sc_exit s) as E by (apply (same_node g (wf_ids g W)); [apply (exit_in s' F1)|apply (exit_in s I)|exact F2]).
    rewrite (sec_shared s' s (sc_exit s)); [reflexivity|exact F1|exact I|right; congruence|right; reflexivity].
  - apply find_none with (x := s) in F; [|exact I]. rewrite Nat.eqb_refl in F. discriminate.
Qed.
Lemma V_inter s n z : In s secs -> In n (sc_inter s) -> node_params f padded n (M (sc_entry s)) (M (sc_entry s)) = Ok z -> V n = z.
Proof.
  intros I J H. destruct (inter_in s n I J) as [N _]. unfold V. destruct (find _ secs) as [s'|] eqn:F.
  - apply find_some in F. destruct F as [F1 F2]. apply memb_inter in F2; [|exact F1|exact N].
    rewrite (sec_shared s' s n); [rewrite H; reflexivity|exact F1|exact I|left; exact F2|left; exact J].
  - apply find_none with (x := s) in F; [|exact I]. apply memb_inter in J; [|exact I|exact N]. congruence.
Qed.
Lemma section_value s z : In s secs -> section_params f padded secs masks s = Ok z ->
  z = V (sc_entry s) + zsum (map V (sc_inter s)) + V (sc_exit s) /\
  (exists ic a, input_mask f secs masks (sc_entry s) = Ok ic /\ node_params f padded (sc_entry s) ic (M (sc_entry s)) = Ok a) /\
  (forall n, In n (sc_inter s) -> exists b, node_params f padded n (M (sc_entry s)) (M (sc_entry s)) = Ok b) /\
  (exists c, node_params f padded (sc_exit s) (M (sc_entry s)) (M (sc_exit s)) = Ok c).
Proof.
  intros I H. unfold section_params in H. destruct (input_mask f secs masks (sc_entry s)) as [ic|] eqn:E1; cbn [bind] in H; [|discriminate].
  fold (M (sc_entry s)) in H. fold (M (sc_exit s)) in H.
  destruct (node_params f padded (sc_entry s) ic (M (sc_entry s))) as [a|] eqn:E2; cbn [bind] in H; [|discriminate].
  destruct (mapM _ (sc_inter s)) as [b|] eqn:E3; cbn [bind] in H; [|discriminate].
  destruct (node_params f padded (sc_exit s) (M (sc_entry s)) (M (sc_exit s))) as [c|] eqn:E4; cbn [bind] in H; [|discriminate].
  split; [|split; [exists ic, a; split; [reflexivity|exact E2]|split; [|exists c; reflexivity]]].
  - inversion H; subst z. destruct (entry_in s I) as [A1 A2], (exit_in s I) as [B1 B2].
    rewrite (V_edge (sc_entry s) s A1 A2 I (or_introl eq_refl)), E1. cbn [bind]. rewrite E2.
    rewrite (V_edge (sc_exit s) s B1 B2 I (or_intror eq_refl)), (input_exit s I). cbn [bind]. rewrite E4. cbn [val].
    rewrite (mapM_sum _ V _ _ (fun n y Hn Hy => eq_sym (V_inter s n y I Hn Hy)) E3). reflexivity.
  - intros n Hn. destruct (mapM_in _ _ _ E3 n Hn) as [y [Hy _]]. exists y. exact Hy.
Qed.
Definition outside (n : pnode) : bool := negb (memb n (flat_map sc_nodes secs)).
Lemma pruned_memb n : In n (pg_nodes g) -> (memb n (flat_map sc_nodes secs) = true <-> exists s, In s secs /\ (n = sc_entry s \/ In n (sc_inter s) \/ n = sc_exit s)).
Proof.
  intro I. rewrite (memb_spec g n _ W I).
  - rewrite in_flat_map. unfold sc_nodes. split; intros [s [H D]]; exists s; (split; [exact H|]).
    + cbn in D. destruct D as [<-|D]; [tauto|]. apply in_app_or in D. cbn in D. destruct D as [D|[<-|[]]]; tauto.
    + cbn. rewrite in_app_iff. cbn. destruct D as [->|[D| ->]]; tauto.
  - intros x H. apply in_flat_map in H. destruct H as [s [H D]]. cbn in D. destruct D as [<-|D]; [apply (entry_in s H)|]. apply in_app_or in D. cbn in D.
    destruct D as [D|[<-|[]]]; [apply (inter_in s x H D)|apply (exit_in s H)].
Qed.
Lemma V_outside n z : In n (pg_nodes g) -> outside n = true -> node_params f padded n None None = Ok z -> V n = z.
Proof.
  intros I O H. unfold outside in O. apply negb_true_iff in O.
  assert (NO : ~ exists s, In s secs /\ (n = sc_entry s \/ In n (sc_inter s) \/ n = sc_exit s)) by (intro X; apply (pruned_memb n I) in X; congruence).
  unfold V. destruct (find _ secs) as [s'|] eqn:F.
  - apply find_some in F. destruct F as [F1 F2]. apply memb_inter in F2; [|exact F1|exact I]. exfalso. apply NO. exists s'. tauto.
  - destruct (memb n (map sc_entry secs ++ map sc_exit secs)) eqn:E; [|rewrite H; reflexivity]. apply (edges_memb n I) in E. destruct E as [s [S1 S2]].
    exfalso. apply NO. exists s. tauto.
Qed.
Lemma secs_sum l : (forall s, In s l -> In s secs) -> forall bs, mapM (section_params f padded secs masks) l = Ok bs ->
  zsum bs = zsum (map V (map sc_entry l)) + zsum (map V (flat_map sc_inter l)) + zsum (map V (map sc_exit l)).
Proof.
  induction l as [|s l IH]; intros L bs H; cbn [mapM] in H; [inversion H; reflexivity|].
  destruct (section_params f padded secs masks s) as [z|] eqn:E; cbn [bind] in H; [|discriminate]. destruct (mapM _ l) as [bs'|]; cbn [bind] in H; [|discriminate].
  inversion H; subst bs. apply section_value in E; [|apply L; left; reflexivity]. destruct E as [-> _].
  specialize (IH (fun s' I => L s' (or_intror I)) bs' eq_refl). cbn [flat_map map]. rewrite map_app, zsum_app.
  change (zsum (?a :: ?r)) with (a + zsum r). cbn [zsum fold_right] in *. unfold zsum in *. lia.
Qed.
Lemma nodup_entry : NoDup (map sc_entry secs).
Proof. apply (sections_spec f g secs W HS). Qed.
Lemma nodup_secs : NoDup secs.
Proof. apply (NoDup_map_inv sc_entry), nodup_entry. Qed.
Lemma NoDup_map_on {A B} (h : A -> B) l : NoDup l -> (forall x y, In x l -> In y l -> h x = h y -> x = y) -> NoDup (map h l).
Proof.
  induction 1 as [|x l N1 N2 IH]; intros H; cbn; constructor.
  - intro I. apply in_map_iff in I. destruct I as [y [E I]]. apply N1. rewrite <- (H y x (or_intror I) (or_introl eq_refl) E). exact I.
  - apply IH. intros a b Ia Ib. apply H; right; assumption.
Qed.
Lemma nodup_exit : NoDup (map sc_exit secs).
Proof. apply NoDup_map_on; [apply nodup_secs|]. intros x y I J E. apply (sec_shared x y (sc_exit x)); [exact I|exact J|right; reflexivity|right; exact E]. Qed.
Lemma nodup_inter : NoDup (flat_map sc_inter secs).
Proof.
  apply NoDup_flat_map; [apply nodup_secs| |].
  - intros s I. apply sec_is in I. destruct I as (_ & _ & _ & _ & _ & _ & C). apply (chain_index g W) in C. apply C.
  - intros x y b I J Hx Hy. apply (sec_shared x y b); [exact I|exact J|left; exact Hx|left; exact Hy].
Qed.
Definition is_shared (n : pnode) : bool := memb n (map sc_exit secs).
Lemma shared_spec n : In n (pg_nodes g) -> (is_shared n = true <-> In n (map sc_exit secs)).
Proof. intro I. apply (memb_spec g n _ W I). intros x H. apply in_map_iff in H. destruct H as [s [<- H]]. apply (exit_in s H). Qed.
Lemma pruned_nodes_perm :
  Permutation (filter (fun n => negb (outside n)) (pg_nodes g))
              (filter (fun n => negb (is_shared n)) (map sc_entry secs) ++ flat_map sc_inter secs ++ map sc_exit secs).
Proof.
  assert (DE : forall n, In n (flat_map sc_inter secs) -> In n (map sc_exit secs) -> False).
  { intros n A B. apply in_flat_map in A. destruct A as [s [A1 A2]]. apply in_map_iff in B. destruct B as [s' [<- B]].
    destruct (inter_in s _ A1 A2) as [_ X]. destruct (exit_in s' B) as [_ Y]. exact (edge_not_inter _ Y X). }
  assert (NA : forall (a b : list pnode), NoDup a -> NoDup b -> (forall n, In n a -> In n b -> False) -> NoDup (a ++ b)).
  { induction a as [|x a IH]; intros b A B D; [exact B|]. inversion A; subst. cbn. constructor.
    - intro I. apply in_app_or in I. destruct I as [I|I]; [contradiction|]. apply (D x); [left; reflexivity|exact I].
    - apply IH; [assumption|exact B|]. intros n I. apply D. right. exact I. }
  apply NoDup_Permutation.
  - apply NoDup_filter. apply (NoDup_map_inv pn_id), (wf_ids g W).
  - apply NA; [apply NoDup_filter, nodup_entry|apply NA; [apply nodup_inter|apply nodup_exit|exact DE]|].
    intros n A B. apply filter_In in A. destruct A as [A1 A2]. apply in_map_iff in A1. destruct A1 as [s [<- A1]]. destruct (entry_in s A1) as [N1 N2].
    apply in_app_or in B. destruct B as [B|B].
    + apply in_flat_map in B. destruct B as [s' [B1 B2]]. destruct (inter_in s' _ B1 B2) as [_ X]. exact (edge_not_inter _ N2 X).
    + apply (shared_spec _ N1) in B. rewrite B in A2. discriminate.
  - intro n. rewrite filter_In, !in_app_iff, filter_In. unfold outside. rewrite negb_involutive. split.
    + intros [I P]. apply (pruned_memb n I) in P. destruct P as [s [P [->|[Q| ->]]]].
      * destruct (is_shared (sc_entry s)) eqn:E; [right; right; apply (shared_spec _ I), E|left; split; [apply in_map, P|reflexivity]].
      * right. left. apply in_flat_map. exists s. tauto.
      * right. right. apply in_map, P.
    + intro D. assert (exists s, In s secs /\ (n = sc_entry s \/ In n (sc_inter s) \/ n = sc_exit s)) as X.
      { destruct D as [[D _]|[D|D]].
        - apply in_map_iff in D. destruct D as [s [<- D]]. exists s. tauto.
        - apply in_flat_map in D. destruct D as [s [D1 D2]]. exists s. tauto.
        - apply in_map_iff in D. destruct D as [s [<- D]]. exists s. tauto. }
      assert (In n (pg_nodes g)) as I.
      { destruct X as [s [X [->|[Q| ->]]]]; [apply (entry_in s X)|apply (inter_in s n X Q)|apply (exit_in s X)]. }
      split; [exact I|]. apply (pruned_memb n I), X.
Qed.
Lemma has_charge n z ic im om : pn_kind n <> K_depthwise \/ ic = None -> ic = im \/ (exists d, ic = Some (ones d) /\ im = None /\ pn_kind n <> K_depthwise) ->
  node_params f padded n ic om = Ok z -> charged f padded n im om z.
Proof.
  intros S D H. eapply node_charged; [|exact H]. intros kw p _ Hp. destruct D as [<-|(d & -> & -> & K)].
  - apply weight_params_left in Hp; [apply Hp|]. unfold safe. tauto.
  - eapply weight_params_ones; eassumption.
Qed.
Lemma edge_kind n : is_edge n = true -> pn_kind n <> K_depthwise.
Proof. unfold is_edge. destruct (pn_kind n); congruence. Qed.
Lemma inter_kind n : is_inter n = true -> pn_kind n <> K_depthwise.
Proof. unfold is_inter. destruct (pn_kind n); congruence. Qed.

Theorem every_parameter_once p : graph_params f padded g masks = Ok p ->
  p = zsum (map V (pg_nodes g)) /\
  forall n, In n (pg_nodes g) -> exists im om, applies f g masks n im om /\ charged f padded n im om (V n).
Proof.
  unfold graph_params. rewrite HS. cbn [bind]. intro H.
  unfold nonpruned_params in H. destruct (mapM (fun n => node_params f padded n None None) _) as [ln|] eqn:En; cbn [bind] in H; [|discriminate].
  destruct (mapM (section_params f padded secs masks) secs) as [bs|] eqn:Es; cbn [bind] in H; [|discriminate].
  unfold shared_params in H. fold is_shared in H. destruct (mapM _ (filter _ (map sc_entry secs))) as [ls|] eqn:Eh; cbn [bind] in H; [|discriminate].
  assert (SV : forall s, In s secs -> exists z, section_params f padded secs masks s = Ok z).
  { intros s I. destruct (mapM_in _ _ _ Es s I) as [z [Z _]]. exists z. exact Z. }
  split.
  - inversion H; subst p. clear H. fold (zsum ln). fold (zsum bs). fold (zsum ls).
    rewrite (zsum_split V outside (pg_nodes g)), (zsum_perm V _ _ pruned_nodes_perm), !map_app, !zsum_app.
    rewrite (secs_sum secs (fun s I => I) bs Es). rewrite (zsum_split V is_shared (map sc_entry secs)).
    assert (zsum ln = zsum (map V (filter outside (pg_nodes g)))) as ->.
    { apply (mapM_sum _ V _ _ (fun n y Hn Hy => eq_sym (V_outside n y (proj1 (proj1 (filter_In _ _ _) Hn)) (proj2 (proj1 (filter_In _ _ _) Hn)) Hy)) En). }
    assert (zsum ls = zsum (map V (filter is_shared (map sc_entry secs)))) as ->; [|lia].
    refine (mapM_sum _ V _ _ _ Eh). intros n y Hn Hy. apply filter_In in Hn. destruct Hn as [Hn _]. apply in_map_iff in Hn. destruct Hn as [s [<- Hn]].
    destruct (entry_in s Hn) as [A1 A2]. rewrite (V_edge _ s A1 A2 Hn (or_introl eq_refl)). fold (M (sc_entry s)) in Hy. rewrite Hy. reflexivity.
  - intros n I. destruct (outside n) eqn:O.
    + assert (J : In n (filter outside (pg_nodes g))) by (apply filter_In; split; assumption).
      destruct (mapM_in _ _ _ En n J) as [z [Hz _]]. exists None, None. rewrite (V_outside n z I O Hz). split.
      * apply A_outside. intros e i x S. apply (sections_spec f g secs W HS) in S. unfold outside in O. apply negb_true_iff in O.
        assert (NO : ~ exists s, In s secs /\ (n = sc_entry s \/ In n (sc_inter s) \/ n = sc_exit s)) by (intro X; apply (pruned_memb n I) in X; congruence).
        split; [|split]; intro X; apply NO; exists (Section_ e i x); cbn; tauto.
      * eapply has_charge; [right; reflexivity|left; reflexivity|exact Hz].
    + unfold outside in O. apply negb_false_iff in O. apply (pruned_memb n I) in O. destruct O as [s [Hs D]].
      assert (EX : forall s, In s secs -> exists im om, applies f g masks (sc_exit s) im om /\ charged f padded (sc_exit s) im om (V (sc_exit s))).
      { clear s Hs D. intros s Hs. destruct (SV s Hs) as [z Hz]. apply section_value in Hz; [|exact Hs]. destruct Hz as (_ & _ & _ & c & Hc).
        destruct (exit_in s Hs) as [B1 B2]. exists (M (sc_entry s)), (M (sc_exit s)). split; [apply (A_exit f g masks (sc_exit s) (sc_entry s) (sc_inter s)), sec_is, Hs|].
        rewrite (V_edge _ s B1 B2 Hs (or_intror eq_refl)), (input_exit s Hs). cbn [bind]. rewrite Hc. cbn [val].
        eapply has_charge; [left; apply edge_kind, B2|left; reflexivity|exact Hc]. }
      destruct (is_shared n) eqn:Sh.
      { apply (shared_spec n I) in Sh. apply in_map_iff in Sh. destruct Sh as [s' [<- Hs']]. apply EX, Hs'. }
      destruct D as [->|[D| ->]]; [| |apply EX, Hs].
      * destruct (SV s Hs) as [z Hz]. apply section_value in Hz; [|exact Hs]. destruct Hz as (_ & (ic & a & H1 & H2) & _).
        destruct (entry_in s Hs) as [B1 B2]. exists None, (M (sc_entry s)). split.
        { apply (A_entry f g masks (sc_entry s) (sc_inter s) (sc_exit s)); [apply sec_is, Hs|]. intros e i X. apply (sections_spec f g secs W HS) in X.
          assert (In (sc_entry s) (map sc_exit secs)) as Y by (apply in_map_iff; exists (Section_ e i (sc_entry s)); split; [reflexivity|exact X]).
          apply (shared_spec _ B1) in Y. congruence. }
        rewrite (V_edge _ s B1 B2 Hs (or_introl eq_refl)), H1. cbn [bind]. rewrite H2. cbn [val].
        eapply has_charge; [left; apply edge_kind, B2| |exact H2]. right.
        unfold input_mask in H1. destruct (find _ secs) as [s'|] eqn:F.
        { apply find_some in F. destruct F as [F1 F2]. exfalso. assert (is_shared (sc_entry s) = true); [|congruence].
          unfold is_shared, memb. apply existsb_exists. exists (sc_exit s'). split; [apply in_map, F1|exact F2]. }
        destruct (channel_axis f (pn_kind (sc_entry s))) as [[o ia]|]; [|discriminate]. destruct (kernel_of f (sc_entry s)); cbn [bind] in H1; [|discriminate].
        destruct (dim t ia) as [d|]; cbn [bind] in H1; [|discriminate]. inversion H1. exists d. split; [reflexivity|]. split; [reflexivity|apply edge_kind, B2].
      * destruct (SV s Hs) as [z Hz]. apply section_value in Hz; [|exact Hs]. destruct Hz as (_ & _ & Hi & _). destruct (Hi n D) as [b Hb].
        exists (M (sc_entry s)), (M (sc_entry s)). split; [apply (A_inter f g masks n (sc_entry s) (sc_inter s) (sc_exit s)); [apply sec_is, Hs|exact D]|].
        rewrite (V_inter s n b Hs D Hb). eapply has_charge; [left; apply inter_kind, (inter_in s n Hs D)|left; reflexivity|exact Hb].
Qed.
End Once.
