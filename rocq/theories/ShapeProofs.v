(* ShapeProofs.v -- the cleaning after the sizes are dropped. *)
From Coq Require Import Permutation Sorted Lia ZArith.
From Verif Require Import Base GraphModel GraphSpec GraphProofs GraphProps DeadModel DeadSpec DeadProofs ShapeModel ShapeSpec.
Open Scope res_scope.
Local Open Scope nat_scope.
Notation nc := no_check.

(* ---- removing all edges into n from the sources B ---- *)
Lemma remove_edge_keeps g p n g' (P : edge -> bool) : (forall e, src e = p -> snk e = n -> P e = true) -> remove_edge nc g p n = Ok g' ->
  exists e, src e = p /\ snk e = n /\ Permutation (g_edges g) (e :: g_edges g') /\ g' = set_edges g (g_edges g') /\
    filter (fun e => negb (P e)) (g_edges g') = filter (fun e => negb (P e)) (g_edges g).
Proof.
  intros HP H. apply remove_edge_ok in H. pose proof H as H0. unfold remove_edge_nx in H0. destruct (remove_first _ _) as [es|] eqn:E; [|discriminate]. injection H0 as <-.
  apply remove_first_spec in E. destruct E as (a & x & b & E1 & -> & Px & _). apply is_between_spec in Px. destruct Px as [P1 P2]. exists x. split; [exact P1|]. split; [exact P2|].
  assert (g_edges g = rev b ++ x :: rev a) as Eg by (rewrite <- (rev_involutive (g_edges g)), E1, rev_app_distr; cbn [rev]; rewrite <- app_assoc; reflexivity).
  cbn [g_edges set_edges]. rewrite rev_app_distr. split; [rewrite Eg; symmetry; apply Permutation_middle|]. split; [reflexivity|].
  rewrite Eg, !filter_app. cbn [filter]. rewrite (HP x P1 P2). reflexivity.
Qed.
Lemma remove_all n (B : nat -> bool) : let P e := Nat.eqb (snk e) n && B (src e) in
  forall ps g, Permutation ps (map src (filter P (g_edges g))) ->
  foldM (fun g p => remove_edge nc g p n) ps g = Ok (set_edges g (filter (fun e => negb (P e)) (g_edges g))).
Proof.
  intro P. induction ps as [|p ps IH]; intros g Q.
  - cbn [foldM]. apply Permutation_nil, map_eq_nil in Q. rewrite filter_all; [destruct g; reflexivity|].
    intros e I. destruct (P e) eqn:E; [|reflexivity]. assert (In e []) as K; [|destruct K]. rewrite <- Q. apply filter_In. auto.
  - assert (exists e, In e (g_edges g) /\ src e = p /\ snk e = n /\ B p = true) as (e0 & I0 & S0 & T0 & B0).
    { assert (In p (map src (filter P (g_edges g)))) as K by (apply (Permutation_in _ Q); left; reflexivity).
      apply in_map_iff in K. destruct K as (e & E & K). apply filter_In in K. destruct K as [K T]. unfold P in T. apply andb_prop in T. destruct T as [T T']. apply Nat.eqb_eq in T. rewrite E in T'. exists e. auto. }
    destruct (remove_edge nc g p n) as [g1|] eqn:R.
    2: { exfalso. destruct (remove_edge_total g p n e0 I0 S0 T0) as [g1 R1]. unfold remove_edge in R. rewrite R1 in R. cbn in R. discriminate. }
    destruct (remove_edge_keeps g p n g1 P) as (e & Se & Te & Pe & Eg & F); [|exact R|].
    { intros e Se Te. unfold P. rewrite Se, Te, Nat.eqb_refl, B0. reflexivity. }
    assert (P e = true) as PE by (unfold P; rewrite Se, Te, Nat.eqb_refl, B0; reflexivity).
    cbn [foldM]. rewrite R. cbn [bind]. rewrite (IH g1).
    + rewrite F. rewrite Eg. reflexivity.
    + apply (filter_perm P) in Pe. cbn [filter] in Pe. rewrite PE in Pe. apply (Permutation_map src) in Pe. cbn [map] in Pe. rewrite Se in Pe.
      apply (Permutation_cons_inv (a := p)). eapply Permutation_trans; [exact Q|exact Pe].
Qed.

Section Clean.
Variable g1 : graph.
Hypothesis W1 : wf g1.
Variable extra : nat -> Prop.
Notation outs := (map fst (g_out g1)).
Record cinv (keep : nat -> bool) (h : graph) (L : list nat) : Prop := {
  c_part : h = part keep g1;
  c_gone : forall n, In n (g_nodes g1) -> keep n = false -> ~ In n outs /\ ~ In n (g_in g1) /\ forall e, In e (g_edges g1) -> src e = n -> keep (snk e) = false;
  c_all : forall n, In n (g_nodes h) -> feeds_nothing h n -> ~ In n outs -> In n L \/ extra n
}.
Lemma is_nil_out h m : is_nil (out_edges h m) = true <-> feeds_nothing h m.
Proof.
  split.
  - intros E e I S. assert (In e (out_edges h m)) as K by (apply out_edges_in; auto). destruct (out_edges h m); [destruct K|discriminate].
  - intro F. destruct (out_edges h m) as [|e r] eqn:E; [reflexivity|exfalso]. assert (In e (out_edges h m)) as K by (rewrite E; left; reflexivity). apply out_edges_in in K. exact (F e (proj1 K) (proj2 K)).
Qed.
Lemma drop_node keep h m R : cinv keep h (m :: R) -> In m (g_nodes h) -> feeds_nothing h m -> ~ In m outs ->
  exists h1, foldM (fun g p => remove_edge nc g p m) (map src (in_edges h m)) h = Ok h1 /\
   ((In m (g_in g1) /\ remove_node nc h1 m None None = Err E_critical) \/
    (~ In m (g_in g1) /\ exists h2, let keep' := fun x => keep x && negb (Nat.eqb m x) in
       remove_node nc h1 m None None = Ok h2 /\ cinv keep' h2 (map src (in_edges h m) ++ R) /\ S (length (g_nodes h2)) = length (g_nodes h))).
Proof.
  intros H N F O. assert (In m (g_nodes g1) /\ keep m = true) as [N0 Km] by (rewrite (c_part _ _ _ H) in N; apply part_node, N).
  assert (wf h) as Wh by (rewrite (c_part _ _ _ H); apply part_wf, W1).
  assert (forall e, In e (g_edges g1) -> src e = m -> keep (snk e) = false) as NG.
  { intros e I Q. destruct (keep (snk e)) eqn:K; [exfalso|reflexivity]. apply (F e); [|exact Q]. rewrite (c_part _ _ _ H). apply part_edge. rewrite Q. auto. }
  pose proof (remove_all m (fun _ => true) (map src (in_edges h m)) h) as E. cbn zeta in E.
  assert (forall e, (Nat.eqb (snk e) m && true)%bool = Nat.eqb (snk e) m) as AT by (intro; apply andb_true_r).
  rewrite (filter_ext_eq _ (fun e => Nat.eqb (snk e) m)) in E by (intros; apply AT).
  rewrite (filter_ext_eq (fun e => negb (Nat.eqb (snk e) m && true)) (fun e => negb (Nat.eqb (snk e) m))) in E by (intros; rewrite AT; reflexivity).
  specialize (E (Permutation_map src (in_edges_perm h m))).
  set (h1 := set_edges h _) in *. exists h1. split; [exact E|]. clear E AT.
  assert (g_out h1 = g_out g1 /\ g_in h1 = g_in g1) as [Go Gi] by (unfold h1; rewrite (c_part _ _ _ H); split; reflexivity).
  unfold remove_node. rewrite Go. replace (mem m outs) with false by (symmetry; apply mem_false, O). cbn [bind]. rewrite Gi.
  destruct (mem m (g_in g1)) eqn:Mi; [left; split; [apply mem_spec, Mi|reflexivity]|right]. apply mem_false in Mi. split; [exact Mi|]. cbn [bind].
  assert (in_edges h1 m = []) as E1.
  { destruct (in_edges h1 m) as [|e r] eqn:E; [reflexivity|exfalso]. assert (In e (in_edges h1 m)) as K by (rewrite E; left; reflexivity). apply in_edges_in in K. destruct K as [K Q].
    unfold h1 in K. cbn [g_edges set_edges] in K. apply filter_In in K. rewrite Q, Nat.eqb_refl in K. destruct K. discriminate. }
  assert (out_edges h1 m = []) as E2.
  { destruct (out_edges h1 m) as [|e r] eqn:E; [reflexivity|exfalso]. assert (In e (out_edges h1 m)) as K by (rewrite E; left; reflexivity). apply out_edges_in in K. destruct K as [K Q].
    unfold h1 in K. cbn [g_edges set_edges] in K. apply filter_In in K. exact (F e (proj1 K) Q). }
  rewrite E1, E2. unfold remove_node_nx. replace (mem m (g_nodes h1)) with true by (symmetry; apply mem_spec; exact N). cbn [bind checked no_check].
  set (keep' := fun x => keep x && negb (Nat.eqb m x)). set (h2 := Graph _ _ _ _). exists h2. split; [reflexivity|].
  assert (h2 = part keep' g1) as Eh2.
  { unfold h2, part, keep'. rewrite Go, Gi. unfold h1. cbn [g_nodes g_edges set_edges]. rewrite (c_part _ _ _ H). cbn [g_nodes g_edges part]. rewrite !filter_filter. f_equal.
    apply filter_ext_eq. intros e _. rewrite (Nat.eqb_sym (snk e) m). destruct (keep (src e)), (keep (snk e)), (Nat.eqb m (src e)), (Nat.eqb m (snk e)); reflexivity. }
  assert (forall x, keep' x = true <-> keep x = true /\ x <> m) as Kp.
  { intro x. unfold keep'. destruct (Nat.eqb_spec m x); destruct (keep x); cbn; intuition congruence. }
  split; [constructor|].
  - exact Eh2.
  - intros x Nx Kx. destruct (Nat.eq_dec x m) as [->|Q].
    + split; [exact O|]. split; [exact Mi|]. intros e Ie Se. unfold keep'. rewrite (NG e Ie Se). reflexivity.
    + assert (keep x = false) as Kx' by (destruct (keep x) eqn:K; [|reflexivity]; rewrite (proj2 (Kp x) (conj K Q)) in Kx; discriminate).
      destruct (c_gone _ _ _ H x Nx Kx') as (A & B & C). split; [exact A|]. split; [exact B|]. intros e Ie Se. unfold keep'. rewrite (C e Ie Se). reflexivity.
  - intros x Nx Fx Ox. rewrite Eh2, part_node, Kp in Nx. destruct Nx as (Nx & Kx & Q).
    assert (In x (g_nodes h)) as Nh by (rewrite (c_part _ _ _ H); apply part_node; auto).
    destruct (is_nil (out_edges h x)) eqn:E.
    + apply is_nil_out in E. destruct (c_all _ _ _ H x Nh E Ox) as [[K|K]|K]; [congruence|left; apply in_or_app; right; exact K|right; exact K].
    + left. apply in_or_app. left. destruct (out_edges h x) as [|e r] eqn:Eo; [discriminate|]. assert (In e (out_edges h x)) as K by (rewrite Eo; left; reflexivity). apply out_edges_in in K. destruct K as [K S].
      apply in_map_iff. exists e. split; [exact S|]. apply in_edges_in. split; [exact K|]. destruct (Nat.eq_dec (snk e) m) as [T|T]; [exact T|exfalso].
      apply (Fx e); [|exact S]. rewrite Eh2. rewrite (c_part _ _ _ H) in K. apply part_edge in K. apply part_edge. rewrite !Kp, S. intuition congruence.
  - rewrite Eh2, (c_part _ _ _ H). cbn [g_nodes part]. clear - W1 N0 Km. unfold keep'. pose proof (wf_nodes _ W1) as ND. revert ND N0. induction (g_nodes g1) as [|x r IH]; [intros _ []|]; intros ND [->|N0]; inversion ND; subst; cbn [filter].
    + rewrite Km, Nat.eqb_refl. cbn [andb negb length]. f_equal. f_equal. apply filter_ext_eq. intros y Iy. destruct (Nat.eqb_spec m y) as [->|]; [contradiction|]. rewrite andb_true_r. reflexivity.
    + assert (Nat.eqb m x = false) as -> by (apply Nat.eqb_neq; intros ->; contradiction). rewrite andb_true_r. destruct (keep x); cbn [length]; rewrite <- (IH H2 N0); reflexivity.
Qed.
Lemma clean_ok : forall fuel keep h m R h', cinv keep h (m :: R) -> clean nc fuel h m = Ok h' -> exists keep', cinv keep' h' R.
Proof.
  induction fuel as [|fuel IH]; intros keep h m R h' H E; [discriminate|]. cbn [clean] in E.
  destruct (mem m (g_nodes h)) eqn:N; [|discriminate]. cbn [negb] in E. apply mem_spec in N.
  assert (g_out h = g_out g1) as Go by (rewrite (c_part _ _ _ H); reflexivity). rewrite Go in E.
  destruct (is_nil (out_edges h m) && negb (mem m outs))%bool eqn:C.
  - apply andb_prop in C. destruct C as [C1 C2]. apply is_nil_out in C1. apply negb_true_iff, mem_false in C2.
    destruct (drop_node keep h m R H N C1 C2) as (h1 & E1 & [[_ E2]|(_ & h2 & E2 & H2 & _)]); rewrite E1 in E; cbn [bind] in E; rewrite E2 in E; cbn [bind] in E; [discriminate|].
    set (ps := map src (in_edges h m)) in *. clearbody ps. clear - IH H2 E. revert h2 H2 E. generalize (fun x => keep x && negb (Nat.eqb m x))%bool. induction ps as [|p ps IHp]; intros k h2 H2 E.
    + cbn [foldM] in E. injection E as <-. exists k. exact H2.
    + cbn [foldM] in E. destruct (clean nc fuel h2 p) as [h3|] eqn:E3; cbn [bind] in E; [|discriminate]. destruct (IH _ _ _ _ _ H2 E3) as (k' & H3). exact (IHp k' h3 H3 E).
  - injection E as <-. exists keep. constructor; [exact (c_part _ _ _ H)|exact (c_gone _ _ _ H)|]. intros x Nx Fx Ox. destruct (c_all _ _ _ H x Nx Fx Ox) as [[<-|K]|K]; [exfalso|auto|auto].
    apply is_nil_out in Fx. apply mem_false in Ox. rewrite Fx, Ox in C. discriminate.
Qed.
Lemma clean_all fuel : forall ps keep h h', cinv keep h ps -> foldM (clean nc fuel) ps h = Ok h' -> exists keep', cinv keep' h' [].
Proof.
  induction ps as [|p ps IH]; intros keep h h' H E; cbn [foldM] in E; [injection E as <-; exists keep; exact H|].
  destruct (clean nc fuel h p) as [h1|] eqn:E1; cbn [bind] in E; [|discriminate]. destruct (clean_ok _ _ _ _ _ _ H E1) as (k & H1). exact (IH k h1 h' H1 E).
Qed.
Lemma c_used keep h L : cinv keep h L -> forall n, used g1 n -> In n (g_nodes g1) -> keep n = true.
Proof.
  intros H n U. induction U as [n i I|e I U IH]; intro N.
  - destruct (keep n) eqn:K; [reflexivity|exfalso]. apply (proj1 (c_gone _ _ _ H n N K)). apply (in_map fst) in I. exact I.
  - destruct (keep (src e)) eqn:K; [reflexivity|exfalso]. destruct (c_gone _ _ _ H _ N K) as (_ & _ & Q). specialize (Q e I eq_refl). rewrite IH in Q; [discriminate|]. apply (wf_ends _ W1 e I).
Qed.
Lemma c_kept keep h : (forall n, ~ extra n) -> acyclic g1 -> cinv keep h [] -> forall n, In n (g_nodes g1) -> keep n = true -> used g1 n.
Proof.
  intros X (rank & A) H.
  assert (exists M, forall n, In n (g_nodes g1) -> rank n < M) as (M & HM).
  { clear. induction (g_nodes g1) as [|x l (M & IH)]; [exists 0; intros n []|]. exists (S (Nat.max (rank x) M)). intros n [<- | I]; [lia|]. specialize (IH n I). lia. }
  assert (forall d n, M - rank n <= d -> In n (g_nodes g1) -> keep n = true -> used g1 n) as K; [|intros n; apply (K (M - rank n)); lia].
  induction d as [|d IH]; intros n Hd N K; [specialize (HM n N); lia|].
  assert (In n (g_nodes h)) as Ng by (rewrite (c_part _ _ _ H); apply part_node; auto).
  destruct (in_dec Nat.eq_dec n outs) as [O|O].
  { apply in_map_iff in O. destruct O as ([m i] & Q & O). cbn in Q. subst m. exact (used_output _ n i O). }
  destruct (Nat.eq_dec (degree h n) 0) as [Z|Z].
  - apply degree_0 in Z. destruct (c_all _ _ _ H n Ng Z O) as [[]|E]. destruct (X n E).
  - apply degree_pos in Z. destruct Z as (e & I & S). rewrite (c_part _ _ _ H) in I. apply part_edge in I. destruct I as (I & _ & K'). rewrite <- S. apply used_by; [exact I|].
    specialize (A e I). rewrite S in A. apply IH; [|apply (wf_ends _ W1 e I)|exact K']. specialize (HM n N). lia.
Qed.
End Clean.

(* ---- when the cleaning succeeds ---- *)
Lemma leads_trans g a b c : leads g a b -> leads g b c -> leads g a c.
Proof. intros H K. induction H as [a|e b I H IH]; [exact K|]. apply L_step; [exact I|]. exact (IH K). Qed.
Lemma fop_nodup {A} (l : list A) : NoDup l -> ForallOrdPairs (fun x y => x <> y /\ In x l /\ In y l) l.
Proof.
  assert (forall big, NoDup l -> incl l big -> ForallOrdPairs (fun x y => x <> y /\ In x big /\ In y big) l) as K; [|intro N; apply K; [exact N|apply incl_refl]].
  intros big N. induction N as [|x l N D IH]; intro I; constructor.
  - apply Forall_forall. intros y J. split; [intros ->; contradiction|]. split; apply I; [left; reflexivity|right; exact J].
  - apply IH. intros y J. apply I. right. exact J.
Qed.
Lemma fop_map {A B} (f : A -> B) (P : A -> A -> Prop) (Q : B -> B -> Prop) l : (forall x y, P x y -> Q (f x) (f y)) -> ForallOrdPairs P l -> ForallOrdPairs Q (map f l).
Proof. intros H F. induction F as [|x r F F2 IH]; cbn [map]; constructor; [|exact IH]. clear - F H. induction F; cbn [map]; constructor; auto. Qed.
Lemma fop_app {A} (P : A -> A -> Prop) l r : ForallOrdPairs P l -> ForallOrdPairs P r -> (forall x y, In x l -> In y r -> P x y) -> ForallOrdPairs P (l ++ r).
Proof.
  intros F G H. induction F as [|x l F F2 IH]; [exact G|]. cbn [app]. constructor.
  - apply Forall_app. split; [exact F|]. apply Forall_forall. intros y I. apply H; [left; reflexivity|exact I].
  - apply IH. intros y z I J. apply H; [right; exact I|exact J].
Qed.
Lemma fop_impl {A} (P Q : A -> A -> Prop) l : (forall x y, P x y -> Q x y) -> ForallOrdPairs P l -> ForallOrdPairs Q l.
Proof. intros H F. rewrite <- (map_id l). revert F. apply fop_map. exact H. Qed.

Section Total.
Variables (g g1 : graph).
Hypothesis W1 : wf g1.
Hypothesis Sub : forall e, In e (g_edges g1) -> In e (g_edges g).
Hypothesis ND1 : NoDup (g_edges g1).
Hypothesis NT : forall e1 e2, In e1 (g_edges g) -> In e2 (g_edges g) -> e1 <> e2 -> src e1 = src e2 -> ~ used g1 (src e1) -> ~ leads g (snk e1) (snk e2).
Hypothesis NI : forall m, In m (g_nodes g1) -> In m (g_in g1) -> used g1 m.
Definition waits (h : graph) (a b : nat) : Prop := ~ used g1 b -> a <> b /\ exists e, In e (g_edges g) /\ ~ In e (g_edges h) /\ src e = b /\ leads g a (snk e).
Record pend (h : graph) (L : list nat) : Prop := { p_in : forall p, In p L -> In p (g_nodes h); p_order : ForallOrdPairs (waits h) L }.
Lemma waits_sub h h' a b : (forall e, In e (g_edges h') -> In e (g_edges h)) -> waits h a b -> waits h' a b.
Proof using. intros H K U. destruct (K U) as (Q & e & A & B & C). split; [exact Q|]. exists e. split; [exact A|]. split; [intro X; apply B, H, X|exact C]. Qed.

Lemma clean_total extra : forall fuel keep h m R, cinv g1 extra keep h (m :: R) -> pend h (m :: R) -> length (g_nodes h) < fuel ->
  exists keep' h', clean nc fuel h m = Ok h' /\ cinv g1 extra keep' h' R /\ pend h' R /\ length (g_nodes h') <= length (g_nodes h).
Proof.
  induction fuel as [|fuel IH]; intros keep h m R H P F; [lia|].
  assert (In m (g_nodes h)) as N by (apply (p_in _ _ P); left; reflexivity). cbn [clean]. replace (mem m (g_nodes h)) with true by (symmetry; apply mem_spec, N). cbn [negb].
  assert (g_out h = g_out g1) as Go by (rewrite (c_part _ _ _ _ _ H); reflexivity). rewrite Go.
  destruct (is_nil (out_edges h m) && negb (mem m (map fst (g_out g1))))%bool eqn:C.
  - apply andb_prop in C. destruct C as [C1 C2]. apply is_nil_out in C1. apply negb_true_iff, mem_false in C2.
    assert (In m (g_nodes g1) /\ keep m = true) as [N0 Km] by (rewrite (c_part _ _ _ _ _ H) in N; apply part_node, N).
    assert (~ used g1 m) as Um.
    { intro U. inversion U as [x i I|e I Ue]; subst; [apply C2; apply (in_map fst) in I; exact I|]. apply (C1 e); [|reflexivity]. rewrite (c_part _ _ _ _ _ H). apply part_edge.
      split; [exact I|]. split; [exact Km|]. apply (c_used g1 W1 extra keep h _ H); [exact Ue|apply (wf_ends _ W1 e I)]. }
    destruct (drop_node g1 W1 extra keep h m R H N C1 C2) as (h1 & E1 & [[Im _]|(_ & h2 & E2 & H2 & L2)]); [destruct (Um (NI m N0 Im))|]. rewrite E1. cbn [bind]. rewrite E2. cbn [bind].
    set (k2 := fun x => keep x && negb (Nat.eqb m x)) in *.
    assert (forall e, In e (g_edges h) <-> In e (g_edges g1) /\ keep (src e) = true /\ keep (snk e) = true) as Eh by (intro e; rewrite (c_part _ _ _ _ _ H); apply part_edge).
    assert (forall e, In e (g_edges h2) -> In e (g_edges h) /\ snk e <> m) as Sub2.
    { intros e I. rewrite (c_part _ _ _ _ _ H2) in I. apply part_edge in I. rewrite Eh. unfold k2 in I. rewrite !andb_true_iff, !negb_true_iff, !Nat.eqb_neq in I. intuition congruence. }
    assert (forall x, In x (g_nodes h) -> x <> m -> In x (g_nodes h2)) as Nd2.
    { intros x I Q. rewrite (c_part _ _ _ _ _ H2). rewrite (c_part _ _ _ _ _ H) in I. rewrite part_node in *. unfold k2. rewrite andb_true_iff, negb_true_iff, Nat.eqb_neq. intuition congruence. }
    assert (pend h2 (map src (in_edges h m) ++ R)) as P2.
    { inversion_clear P as [Pin Pord]. inversion Pord as [|x r Fm Pr]; subst. rewrite Forall_forall in Fm. constructor.
      - intros p I. apply in_app_or in I. destruct I as [I|I].
        + apply in_map_iff in I. destruct I as (e & <- & I). apply in_edges_in in I. destruct I as [I T]. apply Nd2.
          * rewrite (c_part _ _ _ _ _ H) in I |- *. apply (wf_ends _ (part_wf g1 W1 keep) e I).
          * intro Q. exact (C1 e I Q).
        + apply Nd2; [apply Pin; right; exact I|]. intros ->. destruct (Fm m I Um) as [Q _]. congruence.
      - apply fop_app.
        + apply (fop_map src (fun x y => x <> y /\ In x (in_edges h m) /\ In y (in_edges h m))).
          * intros x y (Q & Ix & Iy) U. apply in_edges_in in Ix, Iy. destruct Ix as [Ix Tx], Iy as [Iy Ty]. pose proof (Sub _ (proj1 (proj1 (Eh _) Ix))) as Gx. pose proof (Sub _ (proj1 (proj1 (Eh _) Iy))) as Gy. split.
            -- intro Qs. apply (NT x y Gx Gy Q Qs); [rewrite Qs; exact U|]. rewrite Tx, Ty. apply L_here.
            -- exists y. split; [exact Gy|]. split; [intro K; apply (proj2 (Sub2 y K)), Ty|]. split; [reflexivity|]. apply L_step; [exact Gx|]. rewrite Tx, Ty. apply L_here.
          * apply fop_nodup. apply (Permutation_NoDup (Permutation_sym (in_edges_perm h m))). apply NoDup_filter. rewrite (c_part _ _ _ _ _ H). cbn [g_edges part]. apply NoDup_filter, ND1.
        + eapply fop_impl; [|exact Pr]. intros a b. apply waits_sub. intros e I. apply (Sub2 e I).
        + intros a b Ia Ib U. apply in_map_iff in Ia. destruct Ia as (x & <- & Ix). apply in_edges_in in Ix. destruct Ix as [Ix Tx]. pose proof (Sub _ (proj1 (proj1 (Eh _) Ix))) as Gx.
          destruct (Fm b Ib U) as (_ & e & Ie & Ne & Se & Le). split.
          * intro Q. apply (NT x e Gx Ie); [intros ->; contradiction|congruence|rewrite Q; exact U|rewrite Tx; exact Le].
          * exists e. split; [exact Ie|]. split; [intro K; apply Ne, (Sub2 e K)|]. split; [exact Se|]. apply L_step; [exact Gx|]. rewrite Tx. exact Le. }
    assert (forall ps k h0, cinv g1 extra k h0 (ps ++ R) -> pend h0 (ps ++ R) -> length (g_nodes h0) < fuel ->
      exists keep' h', foldM (clean nc fuel) ps h0 = Ok h' /\ cinv g1 extra keep' h' R /\ pend h' R /\ length (g_nodes h') <= length (g_nodes h0)) as Loop.
    { clear - IH. induction ps as [|p ps IHp]; intros k h0 H0 P0 F0; cbn [foldM app] in *.
      - exists k, h0. auto.
      - destruct (IH k h0 p (ps ++ R) H0 P0 F0) as (k1 & h1 & E1 & H1 & P1 & L1). rewrite E1. cbn [bind]. destruct (IHp k1 h1 H1 P1) as (k2 & h2 & E2 & H2 & P2 & L2); [lia|]. exists k2, h2. split; [exact E2|]. split; [exact H2|]. split; [exact P2|lia]. }
    destruct (Loop (map src (in_edges h m)) k2 h2 H2 P2) as (k3 & h3 & E3 & H3 & P3 & L3); [lia|]. exists k3, h3. split; [exact E3|]. split; [exact H3|]. split; [exact P3|lia].
  - exists keep, h. split; [reflexivity|]. split; [|split; [|lia]].
    + constructor; [exact (c_part _ _ _ _ _ H)|exact (c_gone _ _ _ _ _ H)|]. intros x Nx Fx Ox. destruct (c_all _ _ _ _ _ H x Nx Fx Ox) as [[<-|K]|K]; [exfalso|auto|auto].
      apply is_nil_out in Fx. apply mem_false in Ox. rewrite Fx, Ox in C. discriminate.
    + inversion_clear P as [Pin Pord]. inversion Pord; subst. constructor; [|assumption]. intros p I. apply Pin. right. exact I.
Qed.
Lemma clean_all_total extra fuel : forall ps keep h, cinv g1 extra keep h ps -> pend h ps -> length (g_nodes h) < fuel ->
  exists h', foldM (clean nc fuel) ps h = Ok h'.
Proof.
  induction ps as [|p ps IH]; intros keep h H P F; cbn [foldM]; [exists h; reflexivity|].
  destruct (clean_total extra fuel keep h p ps H P F) as (k1 & h1 & E1 & H1 & P1 & L1). rewrite E1. cbn [bind]. apply (IH k1 h1 H1 P1). lia.
Qed.
End Total.
