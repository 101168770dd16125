(* LfhProofs.v -- slices of a kernel, and the loops over nodes. *)
From Coq Require Import Permutation Lia.
From Verif Require Import Base HessianModel HessianProofs SearchModel SearchProofs KLProofs PruneModel PruneSpec PruneProofs LfhModel LfhSpec.
From Coq Require Import Lqa.
Open Scope Q_scope.
Open Scope res_scope.

(* ---- positions of a channel ---- *)
Lemma seq_blocks k : forall n s, seq s (n * k) = flat_map (fun o => seq (s + o * k)%nat k) (seq 0 n).
Proof.
  induction n as [|n IH]; intro s; [reflexivity|]. rewrite seq_S, flat_map_app. cbn [flat_map]. rewrite app_nil_r, <- IH. cbn [Nat.mul Nat.add].
  rewrite (Nat.add_comm k), seq_app. reflexivity.
Qed.
Lemma filter_flat_map {A B} (P : B -> bool) (f : A -> list B) l : filter P (flat_map f l) = flat_map (fun a => filter P (f a)) l.
Proof. induction l as [|a l IH]; [reflexivity|]. cbn [flat_map]. rewrite filter_app, IH. reflexivity. Qed.
Lemma flat_map_ext_in' {A B} (f g : A -> list B) l : (forall a, In a l -> f a = g a) -> flat_map f l = flat_map g l.
Proof. intro H. induction l as [|a l IH]; [reflexivity|]. cbn [flat_map]. rewrite (H a (or_introl eq_refl)), IH; [reflexivity|]. intros b I. apply H. right. exact I. Qed.
Lemma flat_map_of_map {A B C} (f : B -> list C) (g : A -> B) l : flat_map f (map g l) = flat_map (fun a => f (g a)) l.
Proof. induction l as [|a l IH]; [reflexivity|]. cbn [map flat_map]. rewrite IH. reflexivity. Qed.
Lemma filter_const {A} (P : A -> bool) b l : (forall a, In a l -> P a = b) -> filter P l = if b then l else [].
Proof.
  intro H. induction l as [|a l IH]; [destruct b; reflexivity|]. cbn [filter]. rewrite (H a (or_introl eq_refl)), IH by (intros x I; apply H; right; exact I). destruct b; reflexivity.
Qed.
Lemma one_in_block dim c s : (c < dim)%nat -> filter (fun b => Nat.eqb b (s + c)) (seq s dim) = [(s + c)%nat].
Proof.
  revert c s. induction dim as [|d IH]; intros c s L; [lia|]. cbn [seq filter]. destruct c as [|c].
  - replace (s + 0)%nat with s by lia. rewrite Nat.eqb_refl. f_equal. rewrite (filter_const _ false); [reflexivity|]. intros b I. apply in_seq in I. apply Nat.eqb_neq. lia.
  - destruct (Nat.eqb_spec s (s + S c)); [lia|]. replace (s + S c)%nat with (S s + c)%nat by lia. apply IH. lia.
Qed.
Lemma blocks_of_channel dim c outer : (c < dim)%nat -> filter (fun b => Nat.eqb (b mod dim) c) (seq 0 (outer * dim)) = map (fun o => o * dim + c)%nat (seq 0 outer).
Proof.
  intro L. rewrite (seq_blocks dim outer 0), filter_flat_map. induction (seq 0 outer) as [|o l IH]; [reflexivity|]. cbn [flat_map map]. rewrite IH. cbn [Nat.add].
  replace (filter (fun b => Nat.eqb (b mod dim) c) (seq (o * dim) dim)) with (filter (fun b => Nat.eqb b (o * dim + c)) (seq (o * dim) dim)).
  2: { apply filter_ext_in. intros b I. apply in_seq in I. assert (b = o * dim + (b - o * dim))%nat as E by lia. assert (b mod dim = b - o * dim)%nat as M.
       { rewrite E at 1. rewrite Nat.add_comm, Nat.mod_add by lia. apply Nat.mod_small. lia. }
       rewrite M. destruct (Nat.eqb_spec b (o * dim + c)), (Nat.eqb_spec (b - o * dim) c); lia. }
  rewrite one_in_block by exact L. reflexivity.
Qed.
Lemma channel_positions dim c outer inner : (c < dim)%nat ->
  flat_map (fun o => map (fun i => (o * dim + c) * inner + i)%nat (seq 0 inner)) (seq 0 outer) = filter (fun p => Nat.eqb ((p / inner) mod dim) c) (seq 0 (outer * dim * inner)).
Proof.
  intro L. rewrite (seq_blocks inner (outer * dim) 0), filter_flat_map.
  assert (forall l, flat_map (fun b => filter (fun p => Nat.eqb ((p / inner) mod dim) c) (seq (0 + b * inner) inner)) l = flat_map (fun b => seq (b * inner) inner) (filter (fun b => Nat.eqb (b mod dim) c) l)) as E.
  { induction l as [|b l IH]; [reflexivity|]. cbn [flat_map filter]. rewrite IH. rewrite (filter_const _ (Nat.eqb (b mod dim) c)).
    - destruct (Nat.eqb (b mod dim) c); reflexivity.
    - intros p I. apply in_seq in I. f_equal. f_equal. assert (inner <> 0)%nat as Z by lia. assert (p = (p - b * inner) + b * inner)%nat as Q by lia. rewrite Q, Nat.div_add by exact Z. rewrite Nat.div_small by lia. lia. }
  rewrite E, (blocks_of_channel dim c outer L). rewrite flat_map_of_map. apply flat_map_ext_in'. intros o _.
  generalize ((o * dim + c) * inner)%nat. intro s. clear. assert (forall n k, map (fun i => s + i)%nat (seq k n) = seq (s + k) n) as H.
  { induction n as [|n IH]; intro k; [reflexivity|]. cbn [seq map]. rewrite IH. f_equal. f_equal. lia. }
  rewrite H. f_equal. lia.
Qed.
Lemma coord : forall shape axis p d, nth_error shape axis = Some d -> nth axis (unravel shape p) 0%nat = ((p / nprod (skipn (S axis) shape)) mod d)%nat.
Proof.
  induction shape as [|x shape IH]; intros [|axis] p d E; try discriminate; cbn [nth_error] in E.
  - injection E as ->. reflexivity.
  - cbn [unravel nth]. rewrite (IH axis p d E). reflexivity.
Qed.
Lemma shape_split : forall shape axis d, nth_error shape axis = Some d -> nprod shape = (nprod (firstn axis shape) * d * nprod (skipn (S axis) shape))%nat.
Proof.
  induction shape as [|x shape IH]; intros [|axis] d E; try discriminate; cbn [nth_error] in E.
  - injection E as ->. unfold nprod. cbn. lia.
  - unfold nprod in *. cbn [fold_right firstn skipn]. rewrite (IH axis d E). cbn [skipn]. lia.
Qed.
Lemma channel_is k axis d c : nth_error (k_shape k) axis = Some d -> (c < d)%nat ->
  channel k axis d c = map (fun p => nth p (k_data k) 0) (filter (in_channels (k_shape k) axis [c]) (seq 0 (fold_right Nat.mul 1%nat (k_shape k)))).
Proof.
  intros E L. change (fold_right Nat.mul 1%nat (k_shape k)) with (nprod (k_shape k)). rewrite (shape_split _ _ _ E).
  rewrite (filter_ext_in (in_channels (k_shape k) axis [c]) (fun p => Nat.eqb ((p / nprod (skipn (S axis) (k_shape k))) mod d) c)).
  - rewrite <- channel_positions by exact L. unfold channel. rewrite !flat_map_concat_map, concat_map, !map_map. f_equal. apply map_ext. intro o. rewrite map_map. reflexivity.
  - intros p _. unfold in_channels. rewrite (coord _ _ p d E). cbn [existsb]. apply orb_false_r.
Qed.
Lemma channel_energy k axis d c : nth_error (k_shape k) axis = Some d -> (c < d)%nat -> sum_squares (channel k axis d c) = energy (k_shape k) (k_data k) axis [c].
Proof. intros E L. unfold sum_squares, energy. rewrite (channel_is k axis d c E L), map_map. reflexivity. Qed.

(* ---- several channels ---- *)
Lemma sum_indicator (x : Q) (a : nat) : forall C, NoDup C -> sumQ (map (fun c => if Nat.eqb a c then x else 0) C) == (if existsb (Nat.eqb a) C then x else 0).
Proof.
  induction C as [|c C IH]; intro N; [reflexivity|]. inversion N; subst. cbn [map existsb]. rewrite sumQ_cons, (IH H2). destruct (Nat.eqb_spec a c) as [->|]; cbn [orb]; [|lra].
  destruct (existsb (Nat.eqb c) C) eqn:E; [|lra]. apply existsb_exists in E. destruct E as (y & I & Q). apply Nat.eqb_eq in Q. subst. contradiction.
Qed.
Lemma sum_add {A} (f g : A -> Q) l : sumQ (map (fun a => f a + g a) l) == sumQ (map f l) + sumQ (map g l).
Proof. induction l as [|a l IH]; [reflexivity|]. cbn [map]. rewrite !sumQ_cons, IH. lra. Qed.
Lemma sum_ext {A} (f g : A -> Q) l : (forall a, In a l -> f a == g a) -> sumQ (map f l) == sumQ (map g l).
Proof. induction l as [|a l IH]; intro H; [reflexivity|]. cbn [map]. rewrite !sumQ_cons, (H a (or_introl eq_refl)), IH; [reflexivity|]. intros b I. apply H. right. exact I. Qed.
Lemma energy_split shape data axis C : NoDup C -> sumQ (map (fun c => energy shape data axis [c]) C) == energy shape data axis C.
Proof.
  intro N. unfold energy. generalize (seq 0 (fold_right Nat.mul 1%nat shape)). induction l as [|p l IH].
  - cbn [filter map sumQ fold_right]. clear. induction C as [|c C IH]; [reflexivity|]. cbn [map]. rewrite sumQ_cons, IH. reflexivity.
  - rewrite (sum_ext _ (fun c => (if Nat.eqb (nth axis (unravel shape p) 0%nat) c then nth p data 0 * nth p data 0 else 0) + sumQ (map (fun p => nth p data 0 * nth p data 0) (filter (in_channels shape axis [c]) l)))).
    + rewrite sum_add, IH, (sum_indicator _ _ C N). cbn [filter]. unfold in_channels at 2. destruct (existsb _ C); [cbn [map]; rewrite sumQ_cons; reflexivity|lra].
    + intros c _. cbn [filter]. unfold in_channels at 1. cbn [existsb]. rewrite orb_false_r. destruct (Nat.eqb _ c); [cbn [map]; rewrite sumQ_cons; reflexivity|lra].
Qed.
Lemma squares_concat ts : sum_squares (concat ts) == sumQ (map sum_squares ts).
Proof. induction ts as [|t ts IH]; [reflexivity|]. cbn [concat map]. unfold sum_squares at 1. rewrite map_app, sumQ_app, sumQ_cons, <- IH. reflexivity. Qed.

(* ---- loops ---- *)
Lemma dict_fold {E V} (key : E -> nat) (F : E -> result V) nodes : forall d0 d, NoDup (map key nodes) ->
  foldM (fun d e => let! v := F e in Ok (dict_set (key e) v d)) nodes d0 = Ok d ->
  (forall k, ~ In k (map key nodes) -> dict_get k d = dict_get k d0) /\ forall e, In e nodes -> exists v, F e = Ok v /\ dict_get (key e) d = Some v.
Proof.
  induction nodes as [|e nodes IH]; intros d0 d N H; cbn [foldM] in H.
  - injection H as <-. split; [reflexivity|intros e []].
  - destruct (F e) as [v|] eqn:Ev; cbn [bind] in H; [|discriminate]. cbn [map] in N. inversion N; subst. destruct (IH _ _ H3 H) as [A B]. split.
    + intros k K. rewrite A by (intro X; apply K; right; exact X). rewrite dict_get_set. destruct (Nat.eqb_spec k (key e)) as [->|]; [exfalso; apply K; left; reflexivity|reflexivity].
    + intros x [<-|I]; [|exact (B x I)]. exists v. split; [exact Ev|]. rewrite (A _ H2), dict_get_set, Nat.eqb_refl. reflexivity.
Qed.
Lemma foldM_ext' {A S} (f g : S -> A -> result S) l : (forall s a, f s a = g s a) -> forall s, foldM f l s = foldM g l s.
Proof. intros H. induction l as [|a l IH]; intro s; [reflexivity|]. cbn [foldM]. rewrite H. destruct (g s a); [apply IH|reflexivity]. Qed.
Lemma group_all_get (l : list (nat * (list nat * nat * list Z))) groups : NoDup (map fst l) -> group_all l = Ok groups ->
  forall node order n sizes, In (node, (order, n, sizes)) l -> exists simd gs, get_simd sizes = Ok simd /\ group_node_scores order n simd = Ok gs /\ dict_get node groups = Some gs.
Proof.
  intros N H node order n sizes I. unfold group_all in H.
  rewrite (foldM_ext' _ (fun d kv => let! v := (let! simd := get_simd (snd (snd kv)) in group_node_scores (fst (fst (snd kv))) (snd (fst (snd kv))) simd) in Ok (dict_set (fst kv) v d))) in H.
  2: { intros s [a [[b c] d]]. cbn [fst snd]. destruct (get_simd d); reflexivity. }
  destruct (dict_fold fst _ l [] groups N H) as [_ B]. destruct (B _ I) as (v & E & G). cbn [fst snd] in E, G. destruct (get_simd sizes) as [simd|] eqn:Es; [|discriminate]. cbn [bind] in E. eauto.
Qed.
Lemma score3_spec h : forall l p s, score3 h l p = Ok s -> length h = length s /\ length l = length s /\ length p = length s /\ forall j, (j < length s)%nat -> nth j s 0 = nth j h 0 * nth j l 0 / nth j p 0.
Proof.
  induction h as [|x h IH]; intros [|y l] [|z p] s H; try discriminate; cbn [score3] in H.
  - injection H as <-. repeat split. cbn. intros j L. lia.
  - destruct (score3 h l p) as [r|] eqn:E; [|discriminate]. cbn [bind] in H. injection H as <-. destruct (IH l p r E) as (A & B & C & D). cbn [length]. repeat split; try congruence.
    intros [|j] L; [reflexivity|]. cbn [nth]. apply D. cbn in L. lia.
Qed.
Lemma mapM_nth {A B} (f : A -> result B) l ys : mapM f l = Ok ys -> length ys = length l /\ forall j x, nth_error l j = Some x -> exists y, f x = Ok y /\ nth_error ys j = Some y.
Proof.
  intro H. apply mapM_Forall2 in H. induction H as [|x y l ys E F IH]; [split; [reflexivity|intros [|j] x X; discriminate]|]. destruct IH as [L IH]. split; [cbn; congruence|].
  intros [|j] z Z; cbn [nth_error] in *; [injection Z as <-; exists y; auto|exact (IH j z Z)].
Qed.
Lemma gather_spec v g w : gather v g = Ok w -> w = map (fun i => nth i v 0) g /\ forall i, In i g -> (i < length v)%nat.
Proof.
  unfold gather. revert w. induction g as [|i g IH]; intros w H; cbn [mapM] in H; [injection H as <-; split; [reflexivity|intros i []]|].
  destruct (nth_error v i) as [x|] eqn:E; cbn [from_index bind] in H; [|discriminate]. destruct (mapM _ g) as [r|]; cbn [bind] in H; [|discriminate]. injection H as <-. destruct (IH r eq_refl) as [-> B]. split.
  - cbn [map]. rewrite (nth_error_nth v i 0 E). reflexivity.
  - intros j [<-|J]; [apply nth_error_Some; congruence|exact (B j J)].
Qed.
Lemma concat_spec channels gs cs : concat_channels channels gs = Ok cs -> cs = map (fun g => concat (map (fun i => nth i channels []) g)) gs.
Proof.
  unfold concat_channels. revert cs. induction gs as [|g gs IH]; intros cs H; cbn [mapM] in H; [injection H as <-; reflexivity|].
  destruct (mapM (fun i => from_index (nth_error channels i)) g) as [ts|] eqn:E; cbn [bind] in H; [|discriminate]. destruct (mapM _ gs) as [r|]; cbn [bind] in H; [|discriminate]. injection H as <-.
  cbn [map]. rewrite <- (IH r eq_refl). f_equal. f_equal. clear - E. revert ts E. induction g as [|i g IH]; intros ts E; cbn [mapM] in E; [injection E as <-; reflexivity|].
  destruct (nth_error channels i) as [x|] eqn:N; cbn [from_index bind] in E; [|discriminate]. destruct (mapM _ g) as [r|]; cbn [bind] in E; [|discriminate]. injection E as <-. cbn [map]. rewrite (nth_error_nth _ _ [] N), (IH r eq_refl). reflexivity.
Qed.
