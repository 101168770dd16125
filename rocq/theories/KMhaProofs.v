(* KMhaProofs.v -- lemmas about the decomposition of the Keras layer MultiHeadAttention. *)
From Coq Require Import String Permutation.
From Verif Require Import Base Nd GraphModel KMhaModel KMhaSpec.
Local Open Scope nat_scope.

Lemma NoDup_app_intro {A} (l k : list A) : NoDup l -> NoDup k -> (forall x, In x l -> ~ In x k) -> NoDup (l ++ k).
Proof.
  induction 1 as [|x l N D IH]; intros Dk H; cbn; [exact Dk|]. constructor.
  - rewrite in_app_iff. intros [I|I]; [exact (N I)|exact (H x (or_introl eq_refl) I)].
  - apply IH; [exact Dk|]. intros y I. apply H. right. exact I.
Qed.
(* ---- permutations of axes ---- *)
Lemma memb_In k l : memb k l = true <-> In k l.
Proof.
  unfold memb. rewrite existsb_exists. split.
  - intros (x & I & E). apply Nat.eqb_eq in E. subst. exact I.
  - intro I. exists k. split; [exact I|apply Nat.eqb_refl].
Qed.
Lemma memb_not k l : memb k l = false <-> ~ In k l.
Proof. rewrite <- memb_In. destruct (memb k l); split; intro H; congruence. Qed.
Lemma index_of_in k l : In k l -> index_of k l < length l /\ nth (index_of k l) l 0 = k.
Proof.
  induction l as [|x l IH]; intro I; [contradiction|]. cbn. destruct (Nat.eqb_spec k x) as [E|N]; [subst; split; [cbn; lia|reflexivity]|].
  destruct I as [E|I]; [congruence|]. destruct (IH I) as [A B]. split; [cbn; lia|exact B].
Qed.
Lemma nth_map0 {A} (f : A -> nat) l i d : i < length l -> nth i (map f l) 0 = f (nth i l d).
Proof. revert i. induction l as [|x l IH]; intros [|i] L; cbn in *; [lia|lia|reflexivity|]. apply IH. lia. Qed.
Lemma nth_gather f k l : In k l -> nth (index_of k l) (map f l) 0 = f k.
Proof. intro I. destruct (index_of_in k l I) as [A B]. rewrite (nth_map0 f l _ 0 A), B. reflexivity. Qed.
Lemma index_of_nodup l : NoDup l -> forall i, i < length l -> index_of (nth i l 0) l = i.
Proof.
  induction 1 as [|x l N D IH]; intros i L; [cbn in L; lia|]. destruct i as [|i]; cbn; [rewrite Nat.eqb_refl; reflexivity|].
  cbn in L. destruct (Nat.eqb_spec (nth i l 0) x) as [E|_]; [exfalso; apply N; rewrite <- E; apply nth_In; lia|].
  rewrite IH by lia. reflexivity.
Qed.
Lemma map_nth_seq (l : list nat) : map (fun k => nth k l 0) (seq 0 (length l)) = l.
Proof.
  apply (nth_ext _ _ 0 0); rewrite map_length, seq_length; [reflexivity|].
  intros i L. rewrite (nth_map0 _ _ _ 0) by (rewrite seq_length; exact L). rewrite seq_nth by exact L. reflexivity.
Qed.
Lemma scatter_gather l v : NoDup l -> length v = length l -> map (fun a => nth (index_of a l) v 0) l = v.
Proof.
  intros N E. apply (nth_ext _ _ 0 0); rewrite map_length; [symmetry; exact E|].
  intros i L. rewrite (nth_map0 _ _ _ 0) by exact L. rewrite (index_of_nodup l N i L). reflexivity.
Qed.
Definition is_perm (l : list nat) (n : nat) : Prop := NoDup l /\ length l = n /\ forall k, In k l <-> k < n.
Definition gather (l p : list nat) : list nat := map (fun a => nth a p 0) l.
Definition scatter (l idx : list nat) : list nat := map (fun k => nth (index_of k l) idx 0) (seq 0 (length l)).
Definition inverse (l : list nat) : list nat := map (fun i => index_of i l) (seq 0 (length l)).
Lemma scatter_of_gather l n p : is_perm l n -> length p = n -> scatter l (gather l p) = p.
Proof.
  intros (N & E & M) L. unfold scatter. rewrite E, <- L at 1. rewrite <- (map_nth_seq p) at 2.
  apply map_ext_in. intros k I. apply in_seq in I. unfold gather. apply (nth_gather (fun a => nth a p 0)). apply M. lia.
Qed.
Lemma inverse_perm l n : is_perm l n -> is_perm (inverse l) n.
Proof.
  intros (N & E & M). unfold inverse. split; [|split].
  - rewrite E. assert (forall k, k < n -> In k l) as K by (intros; apply M; assumption). clear M.
    assert (forall s m, s + m <= n -> NoDup (map (fun i => index_of i l) (seq s m))) as G.
    { intros s m. revert s. induction m as [|m IH]; intros s B; [constructor|]. cbn. constructor; [|apply IH; lia].
      intro I. apply in_map_iff in I. destruct I as (k & Q & S). apply in_seq in S.
      assert (k < n) as Lk by lia. assert (s < n) as Ls by lia. destruct (index_of_in k l (K k Lk)) as [_ A]. destruct (index_of_in s l (K s Ls)) as [_ A'].
      rewrite Q in A. rewrite A in A'. lia. }
    apply (G 0 n). lia.
  - rewrite map_length, seq_length. exact E.
  - intro k. rewrite in_map_iff. split.
    + intros (i & Q & S). apply in_seq in S. assert (i < n) as Li by lia. destruct (index_of_in i l (proj2 (M i) Li)) as [A _]. lia.
    + intro L. exists (nth k l 0). split; [apply index_of_nodup; [exact N|lia]|]. apply in_seq.
      assert (k < length l) as Lk by lia. pose proof (proj1 (M (nth k l 0)) (nth_In l 0 Lk)). lia.
Qed.
Lemma index_of_inverse l n k : is_perm l n -> k < n -> index_of k (inverse l) = nth k l 0.
Proof.
  intros P L. destruct (inverse_perm l n P) as (N' & E' & _). destruct P as (N & E & M).
  assert (nth k l 0 < n) as B by (apply M, nth_In; lia).
  assert (nth k l 0 < length (inverse l)) as B' by lia. rewrite <- (index_of_nodup (inverse l) N' (nth k l 0) B').
  f_equal. unfold inverse. rewrite (nth_map0 _ _ _ 0) by (rewrite seq_length; lia). rewrite seq_nth by lia. cbn.
  rewrite index_of_nodup; [reflexivity|exact N|lia].
Qed.
Lemma scatter_inverse l n p : is_perm l n -> scatter (inverse l) p = gather l p.
Proof.
  intro P. pose proof (inverse_perm l n P) as (_ & E' & _). unfold scatter. rewrite E'.
  destruct P as (N & E & M). unfold gather. transitivity (map (fun a => nth a p 0) (map (fun k => nth k l 0) (seq 0 (length l)))); [|rewrite map_nth_seq; reflexivity]. rewrite E, map_map. apply map_ext_in.
  intros k I. apply in_seq in I. rewrite (index_of_inverse l n k); [reflexivity|split; [exact N|split; [exact E|exact M]]|lia].
Qed.
Lemma gather_inverse l n s : is_perm l n -> length s = n -> gather (inverse l) (gather l s) = s.
Proof.
  intros P L. rewrite <- (scatter_of_gather l n s P L) at 2. unfold gather at 1, inverse, scatter. rewrite map_map. reflexivity.
Qed.

(* ---- positions within arrays ---- *)
Lemma flat_app s1 i1 s2 i2 : length i1 = length s1 -> flat (s1 ++ s2) (i1 ++ i2) = flat s1 i1 * prod s2 + flat s2 i2.
Proof.
  revert i1. induction s1 as [|d s1 IH]; intros [|i i1] E; cbn in *; try discriminate; [reflexivity|].
  rewrite IH by lia. assert (prod (s1 ++ s2) = prod s1 * prod s2) as P.
  { clear. induction s1 as [|x s1 IH]; cbn; [lia|]. rewrite IH. lia. }
  rewrite P. lia.
Qed.
Lemma prod_app s1 s2 : prod (s1 ++ s2) = prod s1 * prod s2.
Proof. induction s1 as [|x s1 IH]; cbn; [lia|]. rewrite IH. lia. Qed.
Lemma inb_app s1 i1 s2 i2 : inb s1 i1 -> inb s2 i2 -> inb (s1 ++ s2) (i1 ++ i2).
Proof. apply Forall2_app. Qed.
Lemma inb_cons d s i idx : inb (d :: s) (i :: idx) <-> i < d /\ inb s idx.
Proof. split; [intro H; inversion H; subst; auto|intros [A B]; constructor; assumption]. Qed.
Lemma inb_nth s i a : inb s i -> a < length s -> nth a i 0 < nth a s 0.
Proof.
  intro H. revert a. induction H as [|d x s i L F IH]; intros a B; [cbn in B; lia|]. destruct a; cbn in *; [exact L|]. apply IH. lia.
Qed.
Lemma inb_intro s i : length i = length s -> (forall a, a < length s -> nth a i 0 < nth a s 0) -> inb s i.
Proof.
  revert i. induction s as [|d s IH]; intros [|x i] E H; cbn in *; try discriminate; [constructor|].
  constructor; [apply (H 0); lia|]. apply IH; [lia|]. intros a L. apply (H (S a)). lia.
Qed.
Lemma inb3 a b c i j k : inb [a;b;c] [i;j;k] <-> i < a /\ j < b /\ k < c.
Proof. rewrite !inb_cons. split; [intros (?&?&?&?); auto|intros (?&?&?); repeat split; auto; constructor]. Qed.
(* the two foldings of B :: X ++ Y ++ [c] and [B; prod X; prod Y; c] *)
Lemma fold_index B X Y c b i s j : b < B -> i < prod X -> s < prod Y -> j < c ->
  unflat (B :: X ++ Y ++ [c]) (flat [B; prod X; prod Y; c] [b; i; s; j]) = b :: unflat X i ++ unflat Y s ++ [j].
Proof.
  intros Lb Li Ls Lj. destruct (flat_unflat X i Li) as [EX IX]. destruct (flat_unflat Y s Ls) as [EY IY].
  rewrite <- (unflat_flat (B :: X ++ Y ++ [c]) (b :: unflat X i ++ unflat Y s ++ [j])).
  - f_equal. cbn [flat]. rewrite !flat_app by (apply inb_length; assumption). rewrite EX, EY. cbn [flat prod]. rewrite !prod_app. cbn. nia.
  - constructor; [exact Lb|]. apply inb_app; [exact IX|]. apply inb_app; [exact IY|]. repeat constructor. exact Lj.
Qed.
Lemma unfold_index B X Y c b xi yi j : b < B -> inb X xi -> inb Y yi -> j < c ->
  unflat [B; prod X; prod Y; c] (flat (B :: X ++ Y ++ [c]) (b :: xi ++ yi ++ [j])) = [b; flat X xi; flat Y yi; j].
Proof.
  intros Lb Ix Iy Lj. rewrite <- (unflat_flat [B; prod X; prod Y; c] [b; flat X xi; flat Y yi; j]).
  - f_equal. cbn [flat]. rewrite !flat_app by (apply inb_length; assumption). cbn [flat prod]. rewrite !prod_app. cbn. nia.
  - apply inb4. pose proof (flat_lt _ _ Ix). pose proof (flat_lt _ _ Iy). auto.
Qed.
Lemma prod_perm l l' : Permutation l l' -> prod l = prod l'.
Proof. induction 1; cbn; try lia; congruence. Qed.

(* ---- the positions a query attends to ---- *)
Lemma positions_in d p : In p (positions d) <-> inb d p.
Proof.
  revert p. induction d as [|n d IH]; intro p; cbn.
  - split; [intros [<-|[]]; constructor|intro H; inversion H; left; reflexivity].
  - rewrite in_flat_map. split.
    + intros (i & I & J). apply in_seq in I. apply in_map_iff in J. destruct J as (q & <- & Q). constructor; [lia|apply IH; exact Q].
    + intro H. inversion H as [|? i ? q L F]; subst. exists i. split; [apply in_seq; lia|]. apply in_map. apply IH. exact F.
Qed.
Lemma positions_nodup d : NoDup (positions d).
Proof.
  induction d as [|n d IH]; [repeat constructor; intros []|]. cbn.
  assert (forall s m, NoDup (flat_map (fun i => map (cons i) (positions d)) (seq s m))) as G; [|apply G].
  intros s m. revert s. induction m as [|m IHm]; intro s; [constructor|]. cbn.
  apply NoDup_app_intro; [apply FinFun.Injective_map_NoDup; [intros ? ? E; injection E; auto|exact IH]|apply IHm|].
  intros p I J. apply in_map_iff in I. destruct I as (q & <- & _). apply in_flat_map in J. destruct J as (i & I & J).
  apply in_seq in I. apply in_map_iff in J. destruct J as (q' & E & _). injection E as -> _. lia.
Qed.
Lemma NoDup_filter_pos f d : NoDup (filter f (positions d)).
Proof. apply NoDup_filter, positions_nodup. Qed.

Section Axes.
Variables (r : nat) (A : list nat).
Hypothesis NA : NoDup A.
Hypothesis RA : forall a, In a A -> 1 <= a <= r.
Let I := filter (fun a => negb (memb a A)) (seq 1 r).
Let perm := [0] ++ I ++ A ++ [r + 1].
Definition dim (d : list nat) (a : nat) : nat := nth (a - 1) d 0.

Lemma I_in a : In a I <-> 1 <= a <= r /\ ~ In a A.
Proof.
  unfold I. rewrite filter_In, in_seq, negb_true_iff, memb_not. split; intros [B N]; (split; [lia|exact N]).
Qed.
Lemma IA_nodup : NoDup (I ++ A).
Proof.
  apply NoDup_app_intro; [apply NoDup_filter, seq_NoDup|exact NA|]. intros x J. apply I_in in J. exact (proj2 J).
Qed.
Lemma IA_in a : In a (I ++ A) <-> 1 <= a <= r.
Proof.
  rewrite in_app_iff, I_in. split; [intros [[B _]|J]; [exact B|exact (RA a J)]|].
  intro B. destruct (memb a A) eqn:E; [right; apply memb_In; exact E|left; split; [exact B|apply memb_not; exact E]].
Qed.
Lemma perm_ok : is_perm perm (r + 2).
Proof.
  assert (forall k, In k perm <-> k < r + 2) as M.
  { intro k. unfold perm. cbn [app]. rewrite app_assoc. split.
    - intros [<-|J]; [lia|]. apply in_app_iff in J. destruct J as [J|[<-|[]]]; [apply IA_in in J; lia|lia].
    - intro L. destruct (Nat.eq_dec k 0) as [->|Z]; [left; reflexivity|right]. apply in_app_iff.
      destruct (Nat.eq_dec k (r + 1)) as [->|Z']; [right; left; reflexivity|left]. apply IA_in. lia. }
  assert (NoDup perm) as N.
  { unfold perm. cbn [app]. rewrite app_assoc. constructor.
    - intro J. apply in_app_iff in J. destruct J as [J|[J|[]]]; [apply IA_in in J; lia|lia].
    - apply NoDup_app_intro; [exact IA_nodup|repeat constructor; intros []|]. intros x J [K|[]]. apply IA_in in J. lia. }
  split; [exact N|]. split; [|exact M].
  rewrite <- (seq_length (r + 2) 0). apply Permutation_length. apply NoDup_Permutation; [exact N|apply seq_NoDup|].
  intro k. rewrite M, in_seq. lia.
Qed.
Lemma perm_length : length perm = r + 2.
Proof. exact (proj1 (proj2 perm_ok)). Qed.
Lemma IA_length : length (I ++ A) = r.
Proof. pose proof perm_length as P. unfold perm in P. rewrite !app_length in P. cbn in P. rewrite app_length. lia. Qed.
Lemma full_dim p b c a : length p = r -> 1 <= a <= r -> nth a (b :: p ++ [c]) 0 = dim p a.
Proof. intros L B. destruct a as [|a]; [lia|]. cbn. unfold dim. cbn. rewrite Nat.sub_0_r, app_nth1 by lia. reflexivity. Qed.
Lemma gather_full p b c : length p = r -> gather perm (b :: p ++ [c]) = b :: map (dim p) I ++ map (dim p) A ++ [c].
Proof.
  intro L. unfold gather, perm. rewrite !map_app. cbn [map app]. f_equal. f_equal; [|f_equal].
  - apply map_ext_in. intros a J. apply I_in in J. apply full_dim; [exact L|exact (proj1 J)].
  - apply map_ext_in. intros a J. apply full_dim; [exact L|exact (RA a J)].
  - rewrite Nat.add_1_r. cbn. rewrite app_nth2 by lia. rewrite L, Nat.sub_diag. reflexivity.
Qed.
Definition mid (xi yi : list nat) : list nat := map (fun a => nth (index_of a (I ++ A)) (xi ++ yi) 0) (seq 1 r).
Lemma mid_length xi yi : length (mid xi yi) = r.
Proof. unfold mid. rewrite map_length, seq_length. reflexivity. Qed.
Lemma mid_dim xi yi a : 1 <= a <= r -> dim (mid xi yi) a = nth (index_of a (I ++ A)) (xi ++ yi) 0.
Proof.
  intro B. unfold dim, mid. rewrite (nth_map0 _ _ _ 0) by (rewrite seq_length; lia). rewrite seq_nth by lia.
  replace (1 + (a - 1)) with a by lia. reflexivity.
Qed.
Lemma mid_parts xi yi : length xi = length I -> length yi = length A -> map (dim (mid xi yi)) I = xi /\ map (dim (mid xi yi)) A = yi.
Proof.
  intros LX LY. assert (map (dim (mid xi yi)) (I ++ A) = xi ++ yi) as E.
  { transitivity (map (fun a => nth (index_of a (I ++ A)) (xi ++ yi) 0) (I ++ A)); [|apply scatter_gather; [exact IA_nodup|rewrite !app_length; lia]].
    apply map_ext_in. intros a J. apply mid_dim. apply IA_in. exact J. }
  rewrite map_app in E. assert (length (map (dim (mid xi yi)) I) = length xi) as L by (rewrite map_length; lia).
  split.
  - apply (f_equal (firstn (length xi))) in E. rewrite <- L in E at 1.
    rewrite !firstn_app, !Nat.sub_diag, !firstn_all in E. cbn in E. rewrite !app_nil_r in E. exact E.
  - apply (f_equal (skipn (length xi))) in E. rewrite <- L in E at 1.
    rewrite !skipn_app, !Nat.sub_diag, !skipn_all in E. cbn in E. exact E.
Qed.
Lemma scatter_mid xi yi b c : length xi = length I -> length yi = length A -> scatter perm (b :: xi ++ yi ++ [c]) = b :: mid xi yi ++ [c].
Proof.
  intros LX LY. destruct (mid_parts xi yi LX LY) as [E1 E2]. 
  assert (b :: xi ++ yi ++ [c] = gather perm (b :: mid xi yi ++ [c])) as G by (rewrite (gather_full _ b c (mid_length xi yi)), E1, E2; reflexivity).
  rewrite G.
  apply (scatter_of_gather perm (r + 2)); [exact perm_ok|]. cbn. rewrite app_length, mid_length. cbn. lia.
Qed.
Lemma dims_ext p p' : length p = r -> length p' = r -> (forall a, 1 <= a <= r -> dim p a = dim p' a) -> p = p'.
Proof.
  intros L L' H. apply (nth_ext _ _ 0 0); [lia|]. intros i B. specialize (H (S i) ltac:(lia)). unfold dim in H. cbn in H.
  rewrite Nat.sub_0_r in H. exact H.
Qed.
Lemma mid_of p : length p = r -> mid (map (dim p) I) (map (dim p) A) = p.
Proof.
  intro L. apply dims_ext; [apply mid_length|exact L|]. intros a B. rewrite mid_dim by exact B. rewrite <- map_app.
  apply (nth_gather (dim p)). apply IA_in. exact B.
Qed.
Lemma sizes_perm d : Permutation (map (dim d) A) (map (dim d) (filter (fun a => memb a A) (seq 1 r))).
Proof.
  apply Permutation_map. apply NoDup_Permutation; [exact NA|apply NoDup_filter, seq_NoDup|].
  intro a. rewrite filter_In, in_seq, memb_In. split; [intro J; pose proof (RA a J); split; [lia|exact J]|intros [_ J]; exact J].
Qed.
Lemma inb_dims d p l : length d = r -> inb d p -> (forall a, In a l -> 1 <= a <= r) -> inb (map (dim d) l) (map (dim p) l).
Proof.
  intros L B H. induction l as [|a l IH]; [constructor|]. cbn. constructor; [|apply IH; intros; apply H; right; assumption].
  specialize (H a (or_introl eq_refl)). unfold dim. apply inb_nth; [exact B|lia].
Qed.
Lemma same_iteration_spec p p' : length p = r ->
  (same_iteration A p p' = true <-> map (dim p) I = map (dim p') I).
Proof.
  intro L. unfold same_iteration. rewrite L, forallb_forall. split.
  - intro H. apply map_ext_in. intros a J. apply I_in in J. destruct J as [B N]. specialize (H a).
    rewrite in_seq in H. specialize (H ltac:(lia)). apply orb_true_iff in H. destruct H as [H|H]; [apply memb_In in H; contradiction|].
    apply Nat.eqb_eq in H. exact H.
  - intros E a J. apply in_seq in J. apply orb_true_iff. destruct (memb a A) eqn:M; [left; reflexivity|right].
    apply Nat.eqb_eq. change (dim p a = dim p' a). apply memb_not in M.
    assert (In a I) as Q by (apply I_in; split; [lia|exact M]).
    rewrite <- (nth_gather (dim p) a I Q), <- (nth_gather (dim p') a I Q), E. reflexivity.
Qed.
Lemma attended_perm dq dk p : length dq = r -> length dk = r -> (forall a, 1 <= a <= r -> ~ In a A -> dim dk a = dim dq a) -> inb dq p ->
  Permutation (filter (same_iteration A p) (positions dk))
              (map (fun s => mid (map (dim p) I) (unflat (map (dim dk) A) s)) (seq 0 (prod (map (dim dk) A)))).
Proof.
  intros Lq Lk SZ B. set (Y := map (dim dk) A). set (xi := map (dim p) I).
  assert (length p = r) as Lp by (rewrite (inb_length _ _ B); exact Lq).
  assert (length xi = length I) as LX by apply map_length.
  assert (forall s, s < prod Y -> map (dim (mid xi (unflat Y s))) I = xi /\ map (dim (mid xi (unflat Y s))) A = unflat Y s) as PT.
  { intros s L. apply mid_parts; [exact LX|]. destruct (flat_unflat Y s L) as [_ Q]. rewrite (inb_length _ _ Q). apply map_length. }
  apply NoDup_Permutation.
  - apply NoDup_filter, positions_nodup.
  - assert (forall m s, s + m <= prod Y -> NoDup (map (fun s => mid xi (unflat Y s)) (seq s m))) as G; [|apply G; lia].
    induction m as [|m IH]; intros s L; [constructor|]. cbn. constructor; [|apply IH; lia].
    intro J. apply in_map_iff in J. destruct J as (t & E & J). apply in_seq in J.
    destruct (PT s ltac:(lia)) as [_ P1]. destruct (PT t ltac:(lia)) as [_ P2]. rewrite E, P1 in P2.
    apply (f_equal (flat Y)) in P2.
    destruct (flat_unflat Y s ltac:(lia)) as [F1 _]. destruct (flat_unflat Y t ltac:(lia)) as [F2 _]. lia.
  - intro p'. rewrite filter_In, positions_in, in_map_iff. split.
    + intros [B' S]. apply (same_iteration_spec p p' Lp) in S. exists (flat Y (map (dim p') A)).
      assert (inb Y (map (dim p') A)) as Q by (apply inb_dims; [exact Lk|exact B'|exact RA]).
      split; [|apply in_seq; pose proof (flat_lt _ _ Q); lia]. rewrite (unflat_flat _ _ Q). unfold xi. rewrite S.
      apply mid_of. rewrite (inb_length _ _ B'). exact Lk.
    + intros (s & E & J). apply in_seq in J. destruct (PT s ltac:(lia)) as [P1 P2]. rewrite E in P1, P2.
      assert (length p' = r) as Lp' by (rewrite <- E; apply mid_length).
      split; [|apply (same_iteration_spec p p' Lp); symmetry; exact P1].
      apply inb_intro; [lia|]. intros a La.
      change (nth a p' 0 < nth a dk 0). assert (1 <= S a <= r) as Ba by lia.
      assert (forall (l : list nat), nth a l 0 = dim l (S a)) as D by (intro l; unfold dim; cbn; rewrite Nat.sub_0_r; reflexivity).
      rewrite !D. apply IA_in in Ba. apply in_app_iff in Ba. destruct Ba as [Q|Q].
      * rewrite <- (nth_gather (dim p') _ I Q), P1. unfold xi. rewrite (nth_gather (dim p) _ I Q).
        apply I_in in Q. rewrite SZ by tauto. unfold dim. apply inb_nth; [exact B|lia].
      * rewrite <- (nth_gather (dim p') _ A Q), P2. destruct (index_of_in _ _ Q) as [Li _].
        destruct (flat_unflat Y s ltac:(lia)) as [_ W]. rewrite <- (nth_gather (dim dk) _ A Q). fold Y. apply inb_nth; [exact W|].
        unfold Y. rewrite map_length. exact Li.
Qed.
End Axes.
