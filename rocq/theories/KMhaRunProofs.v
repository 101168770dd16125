(* KMhaRunProofs.v -- what the nodes of the decomposed Keras layer MultiHeadAttention compute. *)
From Coq Require Import String Permutation.
From Verif Require Import Base Nd GraphModel KMhaModel KMhaSpec KMhaProofs.
Local Open Scope nat_scope.

Definition is4 (t : nd) (a b c d : nat) (f : nat -> nat -> nat -> nat -> R) : Prop :=
  shp t = [a; b; c; d] /\ forall i j k l, i < a -> j < b -> k < c -> l < d -> at_ t [i; j; k; l] = f i j k l.
Definition is3 (t : nd) (a b c : nat) (f : nat -> nat -> nat -> R) : Prop :=
  shp t = [a; b; c] /\ forall i j k, i < a -> j < b -> k < c -> at_ t [i; j; k] = f i j k.

Lemma keval_op ins o l : keval ins (KOp o l) = bind (mapM (keval ins) l) (krun o).
Proof.
  cbn [keval]. f_equal. induction l as [|x l IH]; [reflexivity|]. cbn [mapM]. rewrite <- IH. reflexivity.
Qed.
Lemma keval1 ins o e t : keval ins e = Ok t -> keval ins (KOp o [e]) = krun o [t].
Proof. intro E. rewrite keval_op. cbn. rewrite E. reflexivity. Qed.
Lemma keval2 ins o e f t u : keval ins e = Ok t -> keval ins f = Ok u -> keval ins (KOp o [e; f]) = krun o [t; u].
Proof. intros E F. rewrite keval_op. cbn. rewrite E. cbn. rewrite F. reflexivity. Qed.
Lemma mapM_seq {B} (f : nat -> result B) (P : nat -> B -> Prop) n : (forall i, i < n -> exists y, f i = Ok y /\ P i y) ->
  exists ys, mapM f (seq 0 n) = Ok ys /\ length ys = n /\ forall i d, i < n -> P i (nth i ys d).
Proof.
  assert (forall s m, (forall i, s <= i < s + m -> exists y, f i = Ok y /\ P i y) ->
    exists ys, mapM f (seq s m) = Ok ys /\ length ys = m /\ forall i d, i < m -> P (s + i) (nth i ys d)) as G.
  { intros s m. revert s. induction m as [|m IH]; intros s H; [exists []; split; [reflexivity|split; [reflexivity|lia]]|].
    destruct (H s ltac:(lia)) as (y & E & Py). destruct (IH (S s)) as (ys & E' & L & N); [intros; apply H; lia|].
    exists (y :: ys). cbn. rewrite E. cbn. rewrite E'. split; [reflexivity|]. split; [cbn; lia|].
    intros [|i] d Bi; cbn; [rewrite Nat.add_0_r; exact Py|]. replace (s + S i) with (S s + i) by lia. apply N. lia. }
  intro H. apply (G 0 n). intros i Bi. apply H. lia.
Qed.
Lemma mapM_map {X Y Z} (f : Y -> result Z) (g : X -> Y) l : mapM f (map g l) = mapM (fun x => f (g x)) l.
Proof. induction l as [|x l IH]; [reflexivity|]. cbn. rewrite IH. reflexivity. Qed.

Lemma conv_ok t w b B H W C F f : is4 t B H W C f -> shp w = [1; 1; C; F] ->
  exists t', krun (KConv F true w b) [t] = Ok t' /\
    is4 t' B H W F (fun n i s j => (rsum C (fun c => f n i s c * at_ w [0%nat; 0%nat; c; j]) + at_ b [j])%R).
Proof.
  intros [St At] Sw. cbn [krun]. rewrite St, Sw, !Nat.eqb_refl. cbn [andb]. eexists. split; [reflexivity|]. split; [reflexivity|].
  intros n i s j Ln Li Ls Lj. cbn [at_ nth]. f_equal. apply rsum_ext. intros c Lc. rewrite At by assumption. reflexivity.
Qed.
Lemma slice_ok ins e t i B N S D f : keval ins e = Ok t -> is4 t B N S D f -> i < N ->
  exists t', keval ins (slice_iter i [S; D] e) = Ok t' /\ is3 t' B S D (fun b s j => f b i s j).
Proof.
  intros E [St At] Li. unfold slice_iter.
  assert (keval ins (KOp (KSlice [0; i; 0; 0] [0; i + 1; 0; 0] 13 13) [e]) =
    Ok (Nd [B - 0; Nat.min (i + 1) N - i; S - 0; D - 0] (fun x => at_ t [nth 0 x 0 + 0; nth 1 x 0 + i; nth 2 x 0 + 0; nth 3 x 0 + 0]))) as E1.
  { rewrite (keval1 _ _ _ _ E). cbn [krun]. rewrite St. reflexivity. }
  replace (B - 0) with B in E1 by lia. replace (Nat.min (i + 1) N - i) with 1 in E1 by lia.
  replace (S - 0) with S in E1 by lia. replace (D - 0) with D in E1 by lia.
  rewrite (keval1 _ _ _ _ E1). cbn [krun shp]. replace (prod [S; D] =? prod [1; S; D]) with true by (symmetry; apply Nat.eqb_eq; cbn; lia).
  eexists. split; [reflexivity|]. split; [reflexivity|]. intros b s j Lb Ls Lj. unfold reshape_to. cbn [at_ shp].
  assert (unflat [B; 1; S; D] (flat [B; S; D] [b; s; j]) = [b; 0; s; j]) as U.
  { rewrite <- (unflat_flat [B; 1; S; D] [b; 0; s; j]); [f_equal; cbn; lia|]. apply inb4. repeat split; try assumption. lia. }
  rewrite U. cbn [nth]. rewrite !Nat.add_0_r, Nat.add_0_l. apply At; assumption.
Qed.
Lemma permute21_ok t B S D f : is3 t B S D f ->
  exists t', krun (KPermute [2; 1]) [t] = Ok t' /\ is3 t' B D S (fun b j s => f b s j).
Proof.
  intros [St At]. cbn [krun]. rewrite St. cbn. eexists. split; [reflexivity|]. unfold transpose. rewrite St. split; [reflexivity|].
  intros b j s Lb Lj Ls. cbn. apply At; assumption.
Qed.
Lemma matmul_ok s t B M C D f g : is3 s B M C f -> is3 t B C D g ->
  exists u, krun KMatmul [s; t] = Ok u /\ is3 u B M D (fun b i j => rsum C (fun c => (f b i c * g b c j)%R)).
Proof.
  intros [Ss As] [St At]. cbn [krun]. rewrite Ss, St, !Nat.eqb_refl. cbn [andb]. eexists. split; [reflexivity|]. split; [reflexivity|].
  intros b i j Lb Li Lj. cbn [at_ nth]. apply rsum_ext. intros c Lc. rewrite As, At by assumption. reflexivity.
Qed.
Lemma softmax_ok t B M D f : is3 t B M D f ->
  exists u, krun KSoftmax [t] = Ok u /\ is3 u B M D (fun b i j => (exp (f b i j) / rsum D (fun k => exp (f b i k)))%R).
Proof.
  intros [St At]. cbn [krun]. eexists. split; [reflexivity|]. split; [exact St|].
  intros b i j Lb Li Lj. cbn [at_ removelast app]. rewrite St. cbn [List.last]. rewrite At by assumption. f_equal.
  apply rsum_ext. intros k Lk. rewrite At by assumption. reflexivity.
Qed.
Lemma same_shapes_ok s ts : (forall t, In t ts -> shp t = s) -> same_shapes s ts = true.
Proof.
  induction ts as [|t ts IH]; intro H; [reflexivity|]. cbn. rewrite IH by (intros; apply H; right; assumption).
  destruct (list_eq_dec Nat.eq_dec (shp t) s) as [_|N]; [reflexivity|exfalso; apply N, H; left; reflexivity].
Qed.
Lemma stack_ok ts n B S D (F : nat -> nat -> nat -> nat -> R) : length ts = n -> 0 < n -> (forall i d, i < n -> is3 (nth i ts d) B S D (F i)) ->
  exists u, krun (KStack 1) ts = Ok u /\ is4 u B n S D (fun b i s j => F i b s j).
Proof.
  intros L P H. destruct ts as [|t ts]; [cbn in L; lia|]. cbn [krun].
  destruct (H 0 t P) as [S0 _]. cbn in S0.
  rewrite same_shapes_ok.
  - eexists. split; [reflexivity|]. split; [rewrite S0; cbn; rewrite <- L; reflexivity|].
    intros b i s j Lb Li Ls Lj. cbn [at_ nth firstn skipn app]. destruct (H i t Li) as [_ A]. apply A; assumption.
  - intros u I. apply (In_nth _ _ t) in I. destruct I as (i & Li & <-). destruct (H i t ltac:(lia)) as [E _]. rewrite E, S0. reflexivity.
Qed.
(* value_dim entries of every head side by side *)
Lemma cat_last_ok ts D pre j : (forall t, In t ts -> List.last (shp t) 0 = D) -> 0 < D -> j < length ts * D ->
  forall d, cat_last ts pre j = at_ (nth (j / D) ts d) (pre ++ [j mod D]).
Proof.
  revert j. induction ts as [|t ts IH]; intros j H P L d; [cbn in L; lia|]. cbn [cat_last]. rewrite (H t (or_introl eq_refl)).
  destruct (Nat.ltb_spec j D) as [C|C].
  - rewrite Nat.div_small, Nat.mod_small by exact C. reflexivity.
  - rewrite (IH (j - D)) with (d := d); [|intros; apply H; right; assumption|exact P|cbn in L; lia].
    assert (j = (j - D) + 1 * D) as E by lia. rewrite E at 3 4. rewrite Nat.div_add, Nat.mod_add by lia.
    rewrite Nat.add_1_r. reflexivity.
Qed.
Lemma concat_ok ts n B N S D (F : nat -> nat -> nat -> nat -> nat -> R) : length ts = n -> 2 <= n -> 0 < D ->
  (forall i d, i < n -> is4 (nth i ts d) B N S D (F i)) ->
  exists u, krun KConcat ts = Ok u /\ is4 u B N S (n * D) (fun b i s j => F (j / D) b i s (j mod D)).
Proof.
  intros L P PD H.
  assert (forall t, In t ts -> shp t = [B; N; S; D]) as SH.
  { intros t I. apply (In_nth _ _ t) in I. destruct I as (i & Li & <-). exact (proj1 (H i t ltac:(lia))). }
  destruct ts as [|t [|t' ts]]; [cbn in L; lia|cbn in L; lia|].
  assert (krun KConcat (t :: t' :: ts) = Ok (Nd (removelast (shp t) ++ [list_sum (map (fun u => List.last (shp u) 0) (t :: t' :: ts))])
                  (fun i => cat_last (t :: t' :: ts) (removelast i) (List.last i 0)))) as E.
  { cbn [krun]. rewrite same_shapes_ok; [reflexivity|]. intros u I. apply in_map_iff in I. destruct I as (w & <- & I). cbn.
    rewrite (SH w I), (SH t (or_introl eq_refl)). reflexivity. }
  rewrite E. eexists. split; [reflexivity|]. split.
  - cbn [shp]. rewrite (SH t (or_introl eq_refl)). cbn [removelast app]. do 4 f_equal.
    assert (forall l, (forall u, In u l -> shp u = [B; N; S; D]) -> list_sum (map (fun u => List.last (shp u) 0) l) = length l * D) as G.
    { induction l as [|u l IH]; intro Q; [reflexivity|]. cbn [map list_sum fold_right length]. rewrite (Q u (or_introl eq_refl)).
      change (fold_right Nat.add 0 (map (fun u0 => List.last (shp u0) 0) l)) with (list_sum (map (fun u0 => List.last (shp u0) 0) l)).
      rewrite IH by (intros; apply Q; right; assumption). cbn. lia. }
    rewrite G by exact SH. rewrite L. reflexivity.
  - intros b i s j Lb Li Ls Lj. cbn [at_ removelast List.last].
    rewrite (cat_last_ok _ D) with (d := t); [|intros u I; rewrite (SH u I); reflexivity|exact PD|rewrite L; exact Lj].
    destruct (H (j / D) t) as [_ A]; [apply Nat.div_lt_upper_bound; lia|]. cbn [app].
    apply A; try assumption. apply Nat.mod_upper_bound. lia.
Qed.
Local Open Scope R_scope.
Lemma rsum_blocks n D (f : nat -> R) : (0 < D)%nat ->
  rsum (n * D) f = rsum n (fun h => rsum D (fun e => f (h * D + e)%nat)).
Proof.
  intro P. induction n as [|n IH]; [reflexivity|]. cbn [rsum]. replace (S n * D)%nat with (n * D + D)%nat by lia.
  rewrite rsum_add, IH. reflexivity.
Qed.
Lemma rsum_list n f : rsum n f = sum_over (seq 0 n) f.
Proof.
  unfold sum_over. induction n as [|n IH]; [reflexivity|]. cbn [rsum]. rewrite IH, seq_S, map_app, fold_right_app. cbn [map fold_right].
  generalize (map f (seq 0 n)). intro l. rewrite Rplus_0_r. cbn. induction l as [|x l IHl]; cbn; [ring|]. rewrite <- IHl. ring.
Qed.
Lemma sum_over_perm {X} (l k : list X) f : Permutation l k -> sum_over l f = sum_over k f.
Proof. unfold sum_over. induction 1; cbn; [reflexivity|rewrite IHPermutation; reflexivity|ring|congruence]. Qed.
Lemma sum_over_map {X Y} (g : X -> Y) l f : sum_over (map g l) f = sum_over l (fun x => f (g x)).
Proof. unfold sum_over. rewrite map_map. reflexivity. Qed.
Lemma sum_over_ext {X} (l : list X) f g : (forall x, In x l -> f x = g x) -> sum_over l f = sum_over l g.
Proof. intro H. unfold sum_over. f_equal. apply map_ext_in. exact H. Qed.
