(* SncGraphProofs.v -- inserting nodes on edges of a chain, and values along the chain. *)
From Coq Require Import Permutation Sorted.
From Verif Require Import Base GraphModel GraphSpec GraphProofs GraphProps GraphFindProps SncModel.
Open Scope res_scope.
Open Scope nat_scope.

Definition in_deg (g : graph) (n : nat) : nat := length (filter (fun e => Nat.eqb (snk e) n) (g_edges g)).
(* the node n sits on the edge e *)
Record inserted (g : graph) (n : nat) (e : edge) (g' : graph) : Prop := {
  is_fresh : ~ In n (g_nodes g);
  is_edges : exists rest, Permutation (g_edges g) (e :: rest) /\ Permutation (g_edges g') (Edge (src e) n (si e) (ti e) :: Edge n (snk e) (si e) (ti e) :: rest);
  is_face : g_in g' = g_in g /\ g_out g' = g_out g; is_wf : wf g'; is_nodes : forall m, In m (g_nodes g') <-> In m (g_nodes g) \/ m = n
}.
Lemma inserted_after validate g n a g' : wf g -> In a (g_nodes g) -> ~ In n (g_nodes g) -> insert_after validate g n a = Ok g' -> exists e, In e (g_edges g) /\ src e = a /\ inserted g n e g'.
Proof.
  intros W Ia F H. unfold insert_after in H. destruct (next_nodes g a) as [|b [|? ?]] eqn:N; try discriminate.
  assert (L : linked g a b) by (apply next_linked; rewrite N; left; reflexivity). destruct L as (x & X1 & X2 & X3). destruct (wf_ends g W x X1).
  destruct (insert_between_inserts validate g n a b g' W) as (e & rest & A & B & C & _ & D & E & G & K); [intros ->; contradiction|intros ->; congruence|exact H|].
  exists e. split; [apply (Permutation_in _ (Permutation_sym C)); left; reflexivity|]. split; [exact A|]. rewrite <- A, <- B in D. split; [exact F|exists rest; split; assumption|exact E|exact G|exact K].
Qed.
Lemma inserted_before validate g n b g' : wf g -> In b (g_nodes g) -> ~ In n (g_nodes g) -> insert_before validate g n b = Ok g' -> exists e, In e (g_edges g) /\ snk e = b /\ inserted g n e g'.
Proof.
  intros W Ib F H. unfold insert_before in H. destruct (prev_nodes g b) as [|a [|? ?]] eqn:N; try discriminate.
  assert (L : In a (prev_nodes g b)) by (rewrite N; left; reflexivity). unfold prev_nodes in L. apply in_map_iff in L. destruct L as (x & X2 & X1). apply in_edges_in in X1. destruct X1 as [X1 X3]. destruct (wf_ends g W x X1).
  destruct (insert_between_inserts validate g n a b g' W) as (e & rest & A & B & C & _ & D & E & G & K); [intros ->; congruence|intros ->; contradiction|exact H|].
  exists e. split; [apply (Permutation_in _ (Permutation_sym C)); left; reflexivity|]. split; [exact B|]. rewrite <- A, <- B in D. split; [exact F|exists rest; split; assumption|exact E|exact G|exact K].
Qed.
Lemma ins_ends g n e g' : wf g -> inserted g n e g' -> In e (g_edges g) /\ src e <> n /\ snk e <> n /\ forall x, In x (g_edges g) -> src x <> n /\ snk x <> n.
Proof.
  intros W I. assert (X : forall x, In x (g_edges g) -> src x <> n /\ snk x <> n) by (intros x J; destruct (wf_ends g W x J); pose proof (is_fresh _ _ _ _ I); split; congruence).
  destruct (is_edges _ _ _ _ I) as (rest & P & _). assert (J : In e (g_edges g)) by (apply (Permutation_in _ (Permutation_sym P)); left; reflexivity). split; [exact J|]. destruct (X e J). auto.
Qed.
Lemma ins_in_deg g n e g' m : wf g -> inserted g n e g' -> in_deg g' m = if Nat.eqb m n then 1 else in_deg g m.
Proof.
  intros W I. destruct (ins_ends g n e g' W I) as (_ & Es & Ek & X). destruct (is_edges _ _ _ _ I) as (rest & P & P'). unfold in_deg. rewrite (filter_length_perm _ _ _ P'), (filter_length_perm _ _ _ P). cbn [filter snk]. destruct (Nat.eqb_spec m n) as [->|N].
  - rewrite Nat.eqb_refl. rewrite (proj2 (Nat.eqb_neq _ _) Ek). rewrite filter_nil; [reflexivity|]. intros x J. apply Nat.eqb_neq. apply X. apply (Permutation_in _ (Permutation_sym P)). right. exact J.
  - rewrite (proj2 (Nat.eqb_neq n m)) by congruence. destruct (Nat.eqb (snk e) m); reflexivity.
Qed.
(* edges from A are the edges to B *)
Definition chained (g : graph) (A B : list nat) : Prop := forall e, In e (g_edges g) -> (In (src e) A <-> In (snk e) B).
Lemma chained_after g n e g' A b mids : wf g -> inserted g n e g' -> src e = A -> out_degree g A = 1 -> ~ In A mids -> ~ In n (mids ++ [b]) -> chained g (A :: mids) (mids ++ [b]) -> chained g' (n :: mids) (mids ++ [b]).
Proof.
  intros W I S O NA NB C x J. destruct (ins_ends g n e g' W I) as (Ie & Es & Ek & X). destruct (is_edges _ _ _ _ I) as (rest & P & P'). apply (Permutation_in _ P') in J. destruct J as [<-|[<-|J]]; cbn [src snk].
  - split; [intros [Q|Q]; [congruence|rewrite S in Q; contradiction]|intro Q; contradiction].
  - split; [intros _; apply (C e Ie); left; congruence|intros _; left; reflexivity].
  - assert (Jx : In x (g_edges g)) by (apply (Permutation_in _ (Permutation_sym P)); right; exact J). destruct (X x Jx) as [X1 X2]. specialize (C x Jx).
    assert (SA : src x <> A). { intro Q. unfold out_degree in O. rewrite (filter_length_perm _ _ _ P) in O. cbn [filter] in O. rewrite (proj2 (Nat.eqb_eq _ _) S) in O. cbn [length] in O. assert (Z : In x (filter (fun e => Nat.eqb (src e) A) rest)) by (apply filter_In; split; [exact J|apply Nat.eqb_eq, Q]). destruct (filter _ rest); [destruct Z|discriminate O]. }
    rewrite <- C. cbn [In]. split; [intros [Q|Q]; [congruence|right; exact Q]|intros [Q|Q]; [congruence|right; exact Q]].
Qed.
Lemma chained_before g n e g' L M b : wf g -> inserted g n e g' -> snk e = b -> in_deg g b = 1 -> ~ In n L -> ~ In n M -> ~ In b M -> chained g L (M ++ [b]) -> chained g' (L ++ [n]) (M ++ [n; b]).
Proof.
  intros W I S O NL NM NB C x J. destruct (ins_ends g n e g' W I) as (Ie & Es & Ek & X). destruct (is_edges _ _ _ _ I) as (rest & P & P'). apply (Permutation_in _ P') in J. rewrite !in_app_iff. destruct J as [<-|[<-|J]]; cbn [src snk In].
  - split; [intros _; auto|intros _; left; apply (C e Ie); rewrite in_app_iff; cbn; auto].
  - rewrite S. split; [intros _; auto|intros _; auto].
  - assert (Jx : In x (g_edges g)) by (apply (Permutation_in _ (Permutation_sym P)); right; exact J). destruct (X x Jx) as [X1 X2]. specialize (C x Jx). rewrite in_app_iff in C. cbn [In] in C.
    assert (SA : snk x <> b). { intro Q. unfold in_deg in O. rewrite (filter_length_perm _ _ _ P) in O. cbn [filter] in O. rewrite (proj2 (Nat.eqb_eq _ _) S) in O. cbn [length] in O. assert (Z : In x (filter (fun e => Nat.eqb (snk e) b) rest)) by (apply filter_In; split; [exact J|apply Nat.eqb_eq, Q]). destruct (filter _ rest); [destruct Z|discriminate O]. }
    split; [intros [Q|[Q|[]]]; [apply C in Q; destruct Q as [Q|[Q|[]]]; [auto|congruence]|congruence]|intros [Q|[Q|[Q|[]]]]; [left; apply C; auto|congruence|congruence]].
Qed.

Section Values.
Context {V : Type}.
(* a node that hands its input on *)
Lemma insert_identity g n e g' (op op1 : nat -> list V -> nat -> V) val : wf g -> inserted g n e g' -> (forall m l k, m <> n -> op1 m l k = op m l k) -> (forall v k, op1 n [v] k = v) ->
  computes op g val -> computes op1 g' (fun m k => if Nat.eqb m n then val (src e) (si e) else val m k).
Proof.
  intros W I O1 O2 C m IM l (es & PE & SE & ->) k. destruct (ins_ends g n e g' W I) as (Ie & Es & Ek & X). destruct (is_edges _ _ _ _ I) as (rest & P & P').
  set (val1 := fun m k => if Nat.eqb m n then val (src e) (si e) else val m k).
  assert (PF : Permutation es (filter (fun x => Nat.eqb (snk x) m) (Edge (src e) n (si e) (ti e) :: Edge n (snk e) (si e) (ti e) :: rest))) by (rewrite PE; apply filter_perm, P'). cbn [filter snk] in PF.
  assert (RS : forall x, In x rest -> src x <> n /\ snk x <> n) by (intros x J; apply X, (Permutation_in _ (Permutation_sym P)); right; exact J).
  destruct (Nat.eq_dec m n) as [->|N].
  - rewrite Nat.eqb_refl, (proj2 (Nat.eqb_neq _ _) Ek) in PF. rewrite filter_nil in PF by (intros x J; apply Nat.eqb_neq, RS, J). apply Permutation_sym, Permutation_length_1_inv in PF. subst es. cbn [map src si]. rewrite (proj2 (Nat.eqb_neq _ _) Es). rewrite O2, Nat.eqb_refl. reflexivity.
  - rewrite (proj2 (Nat.eqb_neq n m)) in PF by congruence. rewrite (proj2 (Nat.eqb_neq _ _) N). rewrite O1 by exact N.
    set (f := fun x => if Nat.eqb (src x) n then e else x).
    assert (MF : Permutation (map f es) (filter (fun x => Nat.eqb (snk x) m) (g_edges g))).
    { apply Permutation_trans with (filter (fun x => Nat.eqb (snk x) m) (e :: rest)); [|apply Permutation_sym, filter_perm, P]. rewrite PF. cbn [filter]. destruct (Nat.eqb (snk e) m); cbn [map]; [unfold f at 1; cbn [src]; rewrite Nat.eqb_refl; constructor|]; rewrite (map_ext_in f (fun x => x)), map_id; try reflexivity; intros x J; apply filter_In in J; destruct J as [J _]; unfold f; rewrite (proj2 (Nat.eqb_neq _ _)) by (apply RS, J); reflexivity. }
    assert (TI : forall x, In x es -> (ti (f x) = ti x /\ val1 (src x) (si x) = val (src (f x)) (si (f x)))).
    { intros x J. apply (Permutation_in _ PF) in J. unfold f, val1. destruct (Nat.eqb_spec (src x) n) as [Q|Q]; [|auto].
      assert (J' : In x [Edge n (snk e) (si e) (ti e)]). { destruct (Nat.eqb (snk e) m); [destruct J as [<-|J]; [left; reflexivity|]|]; apply filter_In in J; destruct J as [J _]; destruct (RS x J); contradiction. } destruct J' as [<-|[]]. auto. }
    assert (SF : StronglySorted (fun a b => ti a <= ti b) (map f es)).
    { clear -SE TI. induction SE as [|a es SE IH FA]; [constructor|]. cbn [map]. constructor; [apply IH; intros x J; apply TI; right; exact J|]. rewrite Forall_forall in *. intros y J. apply in_map_iff in J. destruct J as (x & <- & J). destruct (TI a (or_introl eq_refl)) as [-> _]. destruct (TI x (or_intror J)) as [-> _]. apply FA, J. }
    assert (R : map (fun x => val1 (src x) (si x)) es = map (fun x => val (src x) (si x)) (map f es)) by (rewrite map_map; apply map_ext_in; intros x J; apply TI, J).
    change (map (fun e0 => if Nat.eqb (src e0) n then val (src e) (si e) else val (src e0) (si e0)) es) with (map (fun x => val1 (src x) (si x)) es).
    rewrite R. apply C; [|exists (map f es); auto]. apply (is_nodes _ _ _ _ I) in IM. destruct IM; [assumption|contradiction].
Qed.
(* values changed along a chain whose nodes have one input each *)
Lemma chain_values g (A : nat) (M : list nat) (b : nat) (op op' : nat -> list V -> nat -> V) (sc : nat -> V -> V) val : NoDup (A :: M ++ [b]) -> chained g (A :: M) (M ++ [b]) -> (forall n, In n (A :: M ++ [b]) -> in_deg g n = 1) ->
  (forall n, In n (A :: M) -> ~ In n (map fst (g_out g))) -> computes op g val ->
  (forall n l k, ~ In n (A :: M ++ [b]) -> op' n l k = op n l k) -> (forall v k, op' A [v] k = sc A (op A [v] k)) ->
  (forall e k, In e (g_edges g) -> In (snk e) M -> In (snk e) (g_nodes g) -> op' (snk e) [sc (src e) (val (src e) (si e))] k = sc (snk e) (val (snk e) k)) ->
  (forall e k, In e (g_edges g) -> snk e = b -> op' b [sc (src e) (val (src e) (si e))] k = op b [val (src e) (si e)] k) ->
  exists val', computes op' g val' /\ outputs g val' = outputs g val.
Proof.
  intros ND CH DG NO C HO HA HM HB. set (ins := fun n => if in_dec Nat.eq_dec n (A :: M) then true else false). exists (fun n k => if ins n then sc n (val n k) else val n k).
  assert (INS : forall n, ins n = true <-> In n (A :: M)) by (intro n; unfold ins; destruct (in_dec Nat.eq_dec n (A :: M)); split; intro; congruence || contradiction || assumption).
  inversion ND as [|? ? NA ND']; subst. assert (NBM : ~ In b M) by (apply NoDup_remove_2 in ND'; rewrite app_nil_r in ND'; exact ND').
  assert (INF : forall n, ~ In n (A :: M) -> ins n = false) by (intros n Q; destruct (ins n) eqn:Z; [destruct Q; apply INS, Z|reflexivity]).
  split.
  2:{ unfold outputs. apply map_ext_in. intros o IO. rewrite INF; [reflexivity|]. intro J. apply (NO _ J), in_map, IO. }
  intros n IN l (es & PE & SE & ->) k.
  assert (ED : forall e, In e es -> In e (g_edges g) /\ snk e = n). { intros e J. apply (Permutation_in _ PE), filter_In in J. destruct J as [J Q]. apply Nat.eqb_eq in Q. auto. }
  assert (RD : reads g val n (map (fun e => val (src e) (si e)) es)) by (exists es; auto).
  destruct (in_dec Nat.eq_dec n (M ++ [b])) as [J|NJ].
  - specialize (DG n (or_intror J)). unfold in_deg in DG. rewrite <- (Permutation_length PE) in DG. destruct es as [|e [|? ?]]; try discriminate DG. destruct (ED e (or_introl eq_refl)) as [E1 E2]. cbn [map] in *.
    assert (SI : ins (src e) = true) by (apply INS, (CH e E1); rewrite E2; exact J). rewrite SI. apply in_app_or in J. destruct J as [J|[<-|[]]].
    + rewrite (proj2 (INS n)) by (right; exact J). rewrite <- E2 at 3. rewrite HM by (rewrite ?E2; assumption). rewrite E2. reflexivity.
    + rewrite (INF b); [|intros [Q|Q]; [subst; apply NA, in_or_app; right; left; reflexivity|contradiction]]. rewrite HB by assumption. apply C; assumption.
  - assert (MP : map (fun e => if ins (src e) then sc (src e) (val (src e) (si e)) else val (src e) (si e)) es = map (fun e => val (src e) (si e)) es).
    { apply map_ext_in. intros e J. destruct (ED e J) as [E1 E2]. rewrite INF; [reflexivity|]. intro Q. apply NJ. rewrite <- E2. apply (CH e E1), Q. }
    rewrite MP. destruct (Nat.eq_dec n A) as [->|NA'].
    + rewrite (proj2 (INS A)) by (left; reflexivity). pose proof (DG A (or_introl eq_refl)) as DA. unfold in_deg in DA. rewrite <- (Permutation_length PE) in DA. destruct es as [|e [|? ?]]; try discriminate DA. cbn [map] in *. rewrite HA. f_equal. apply C; assumption.
    + rewrite INF by (intros [Q|Q]; [congruence|apply NJ, in_or_app; left; exact Q]). rewrite HO; [apply C; assumption|]. intros [Q|Q]; [congruence|contradiction].
Qed.
(* the additions and the pad node of the pass *)
Lemma snc_values validate g nl mids b add pad g' (op op' : nat -> list V -> nat -> V) (sh : nat -> V -> V) (pd : V -> V) val :
  wf g -> In nl (g_nodes g) -> In b (g_nodes g) -> NoDup (nl :: mids ++ [b]) -> chained g (nl :: mids) (mids ++ [b]) -> (forall n, In n (mids ++ [b]) -> in_deg g n = 1) -> out_degree g nl = 1 ->
  (forall o, In o (g_out g) -> In (fst o) (g_nodes g)) -> (forall n, In n mids -> In n (g_nodes g) /\ ~ In n (map fst (g_out g))) ->
  ~ In add (g_nodes g) -> (forall p, pad = Some p -> p <> add /\ ~ In p (g_nodes g)) ->
  computes op g val ->
  (forall n l k, n <> b -> n <> add -> pad <> Some n -> op' n l k = op n l k) -> (forall v k, op' add [v] k = sh nl v) -> (forall p v k, pad = Some p -> op' p [v] k = pd v) ->
  (forall e k, In e (g_edges g) -> In (snk e) mids -> op (snk e) [sh (src e) (val (src e) (si e))] k = sh (snk e) (op (snk e) [val (src e) (si e)] k)) ->
  (forall e k, In e (g_edges g) -> snk e = b -> op' b [match pad with Some _ => pd (sh (src e) (val (src e) (si e))) | None => sh (src e) (val (src e) (si e)) end] k = op b [val (src e) (si e)] k) ->
  snc_graph validate g nl b add None pad = Ok g' ->
  g_in g' = g_in g /\ g_out g' = g_out g /\ wf g' /\ (forall n, In n (g_nodes g') <-> In n (g_nodes g) \/ n = add \/ pad = Some n) /\ exists val', computes op' g' val' /\ outputs g' val' = outputs g val.
Proof.
  intros W Inl Ib ND CH DG OD OI MI FA FP C HO HA HP HM HB H. unfold snc_graph in H. cbn [bind] in H.
  destruct (insert_after validate g add nl) as [g2|] eqn:H1; cbn [bind] in H; [|discriminate].
  destruct (inserted_after _ _ _ _ _ W Inl FA H1) as (e1 & Ie1 & S1 & I1). pose proof (is_wf _ _ _ _ I1) as W2.
  inversion ND as [|? ? NA ND']; subst x l. assert (NBM : ~ In b mids) by (apply NoDup_remove_2 in ND'; rewrite app_nil_r in ND'; exact ND').
  assert (NIn : forall n, In n (mids ++ [b]) -> In n (g_nodes g)) by (intros n J; apply in_app_or in J; destruct J as [J|[<-|[]]]; [apply MI, J|exact Ib]).
  assert (NAM : ~ In add (mids ++ [b])) by (intro J; apply FA, NIn, J).
  assert (C2 : chained g2 (add :: mids) (mids ++ [b])). { apply (chained_after g add e1 g2 nl b mids W I1 S1 OD); [intro J; apply NA, in_or_app; left; exact J|exact NAM|exact CH]. }
  assert (ND2 : NoDup (add :: mids ++ [b])) by (constructor; assumption).
  assert (DG2 : forall n, In n (add :: mids ++ [b]) -> in_deg g2 n = 1). { intros n J. rewrite (ins_in_deg g add e1 g2 n W I1). destruct (Nat.eqb_spec n add); [reflexivity|]. destruct J as [J|J]; [congruence|apply DG, J]. }
  destruct (is_face _ _ _ _ I1) as [F1 F2].
  assert (NO2 : forall n, In n (add :: mids) -> ~ In n (map fst (g_out g2))). { intros n [<-|J]; rewrite F2; [|apply MI, J]. intro J. apply in_map_iff in J. destruct J as (o & <- & J). apply FA, OI, J. }
  set (op1 := fun n l k => if Nat.eqb n add then match l with [v] => v | _ => op n l k end else op n l k).
  set (val1 := fun n k => if Nat.eqb n add then val (src e1) (si e1) else val n k).
  assert (CP1 : computes op1 g2 val1). { apply (insert_identity g add e1 g2 op op1 val W I1); [|intros v k; unfold op1; rewrite Nat.eqb_refl; reflexivity|exact C]. intros m l k N. unfold op1. rewrite (proj2 (Nat.eqb_neq _ _) N). reflexivity. }
  set (sc1 := fun n => if Nat.eqb n add then sh nl else sh n).
  destruct (ins_ends g add e1 g2 W I1) as (_ & _ & _ & XE).
  assert (OR : forall e, In e (g_edges g2) -> snk e <> add -> exists e0, In e0 (g_edges g) /\ snk e0 = snk e /\ (forall v, sc1 (src e) v = sh (src e0) v) /\ val1 (src e) (si e) = val (src e0) (si e0)).
  { intros e J N. destruct (is_edges _ _ _ _ I1) as (rest & P & P'). apply (Permutation_in _ P') in J. destruct J as [<-|[<-|J]]; cbn [src snk si] in *; [congruence| |].
    - exists e1. split; [exact Ie1|]. split; [reflexivity|]. unfold sc1, val1. rewrite Nat.eqb_refl, S1. auto.
    - assert (J' : In e (g_edges g)) by (apply (Permutation_in _ (Permutation_sym P)); right; exact J). exists e. split; [exact J'|]. split; [reflexivity|]. destruct (XE e J') as [X1 _]. unfold sc1, val1. rewrite (proj2 (Nat.eqb_neq _ _) X1). auto. }
  assert (VM : forall e k, In e (g_edges g) -> In (snk e) (mids ++ [b]) -> val (snk e) k = op (snk e) [val (src e) (si e)] k).
  { intros e k J Q. apply C; [apply NIn, Q|]. specialize (DG _ Q). unfold in_deg in DG. assert (Z : In e (filter (fun x => Nat.eqb (snk x) (snk e)) (g_edges g))) by (apply filter_In; split; [exact J|apply Nat.eqb_refl]). destruct (filter _ (g_edges g)) as [|x [|? ?]] eqn:FE; try discriminate DG. destruct Z as [->|[]]. exists [e]. rewrite FE. split; [reflexivity|]. split; [repeat constructor|reflexivity]. }
  assert (OUT1 : outputs g2 val1 = outputs g val). { unfold outputs. rewrite F2. apply map_ext_in. intros o J. unfold val1. rewrite (proj2 (Nat.eqb_neq _ _)); [reflexivity|]. intros Q. apply FA. rewrite <- Q. apply OI, J. }
  destruct pad as [p|].
  - destruct (FP p eq_refl) as [PA PF]. assert (Ib2 : In b (g_nodes g2)) by (apply (is_nodes _ _ _ _ I1); left; exact Ib). assert (FP2 : ~ In p (g_nodes g2)) by (intro J; apply (is_nodes _ _ _ _ I1) in J; destruct J; contradiction).
    destruct (inserted_before _ _ _ _ _ W2 Ib2 FP2 H) as (e2 & Ie2 & S2 & I2). destruct (is_face _ _ _ _ I2) as [F3 F4]. destruct (is_edges _ _ _ _ I2) as (rest & P & P'). destruct (ins_ends g2 p e2 g' W2 I2) as (_ & E2p & _ & XE2).
    split; [congruence|]. split; [congruence|]. split; [exact (is_wf _ _ _ _ I2)|]. split.
    { intro n. rewrite (is_nodes _ _ _ _ I2), (is_nodes _ _ _ _ I1). split; [intros [[Q|Q]|Q]; subst; auto|intros [Q|[Q|Q]]; auto]. right. congruence. }
    assert (NPM : ~ In p (mids ++ [b])) by (intro J; apply PF, NIn, J).
    set (op2 := fun n l k => if Nat.eqb n p then match l with [v] => v | _ => op1 n l k end else op1 n l k).
    set (val2 := fun n k => if Nat.eqb n p then val1 (src e2) (si e2) else val1 n k).
    assert (CP2 : computes op2 g' val2). { apply (insert_identity g2 p e2 g' op1 op2 val1 W2 I2); [|intros v k; unfold op2; rewrite Nat.eqb_refl; reflexivity|exact CP1]. intros m l k N. unfold op2. rewrite (proj2 (Nat.eqb_neq _ _) N). reflexivity. }
    assert (OUT2 : outputs g' val2 = outputs g val). { rewrite <- OUT1. unfold outputs. rewrite F4. apply map_ext_in. intros o J. unfold val2. rewrite (proj2 (Nat.eqb_neq _ _)); [reflexivity|]. intros Q. apply PF. rewrite <- Q. apply OI. rewrite <- F2. exact J. }
    set (sc := fun n v => if Nat.eqb n p then pd (sc1 (src e2) v) else sc1 n v).
    assert (LB : forall x, In x rest -> In x (g_edges g2) /\ snk x <> b). { intros x J. split; [apply (Permutation_in _ (Permutation_sym P)); right; exact J|]. intro Q. pose proof (DG2 b (or_intror (in_or_app mids [b] b (or_intror (or_introl eq_refl))))) as O. unfold in_deg in O. rewrite (filter_length_perm _ _ _ P) in O. cbn [filter] in O. rewrite (proj2 (Nat.eqb_eq _ _) S2) in O. cbn [length] in O. assert (Z : In x (filter (fun e => Nat.eqb (snk e) b) rest)) by (apply filter_In; split; [exact J|apply Nat.eqb_eq, Q]). destruct (filter _ rest); [destruct Z|discriminate O]. }
    assert (OR2 : forall e, In e (g_edges g2) -> sc (src e) (val2 (src e) (si e)) = sc1 (src e) (val1 (src e) (si e))). { intros e J. destruct (XE2 e J) as [X1 _]. unfold sc, val2. rewrite (proj2 (Nat.eqb_neq _ _) X1). reflexivity. }
    assert (APP : (mids ++ [p]) ++ [b] = mids ++ [p; b]) by (rewrite <- app_assoc; reflexivity).
    destruct (chain_values g' add (mids ++ [p]) b op2 op' sc val2) as (val' & V1 & V2).
    + rewrite APP. constructor; [|apply (NoDup_Add (a := p) (l := mids ++ [b])); [apply Add_app|split; [exact ND'|exact NPM]]]. rewrite in_app_iff. cbn [In]. rewrite in_app_iff in NAM. cbn [In] in NAM. intros [Q|[Q|Q]]; [tauto|congruence|tauto].
    + rewrite APP. change (add :: mids ++ [p]) with ((add :: mids) ++ [p]). apply (chained_before g2 p e2 g' (add :: mids) mids b W2 I2 S2); [apply DG2; right; apply in_or_app; right; left; reflexivity| | |exact NBM|exact C2].
      * intros [Q|Q]; [congruence|apply NPM, in_or_app; left; exact Q].
      * intro Q. apply NPM, in_or_app. left. exact Q.
    + rewrite APP. intros n J. rewrite (ins_in_deg g2 p e2 g' n W2 I2). destruct (Nat.eqb_spec n p); [reflexivity|]. apply DG2. destruct J as [J|J]; [left; exact J|right]. rewrite in_app_iff in *. cbn [In] in *. destruct J as [J|[J|J]]; [tauto|congruence|tauto].
    + intros n [J|J]; [rewrite F4; apply NO2; left; exact J|]. apply in_app_or in J. destruct J as [J|[<-|[]]]; [rewrite F4; apply NO2; right; exact J|]. rewrite F4, F2. intro J. apply in_map_iff in J. destruct J as (o & <- & J). apply PF, OI, J.
    + exact CP2.
    + rewrite APP. intros n l k N. unfold op2, op1. assert (n <> p /\ n <> add /\ n <> b) as (N1 & N2 & N3). { repeat split; intros ->; apply N; cbn [In]; rewrite ?in_app_iff; cbn [In]; auto. } rewrite (proj2 (Nat.eqb_neq _ _) N1), (proj2 (Nat.eqb_neq _ _) N2). apply HO; congruence.
    + intros v k. unfold sc, op2, op1, sc1. rewrite (proj2 (Nat.eqb_neq add p)) by congruence. rewrite Nat.eqb_refl. apply HA.
    + intros e k J JM Jn. apply (Permutation_in _ P') in J. destruct J as [<-|[<-|J]]; cbn [src snk si] in *.
      * rewrite (OR2 e2 Ie2). unfold sc, val2 at 1. rewrite Nat.eqb_refl. apply HP. reflexivity.
      * exfalso. rewrite S2 in JM. apply in_app_or in JM. destruct JM as [Q|[Q|[]]]; [contradiction|]. apply NPM. rewrite Q. apply in_or_app. right. left. reflexivity.
      * destruct (LB e J) as [J' NB]. destruct (XE2 e J') as [_ X2]. assert (JM' : In (snk e) mids) by (apply in_app_or in JM; destruct JM as [Q|[Q|[]]]; [exact Q|congruence]). rewrite (OR2 e J'). assert (NAd : snk e <> add) by (intros Q; apply NAM; rewrite <- Q; apply in_or_app; left; exact JM').
        destruct (OR e J' NAd) as (e0 & Q1 & Q2 & Q3 & Q4). rewrite Q3, Q4. unfold sc, sc1, val2, val1. rewrite (proj2 (Nat.eqb_neq _ _) X2), (proj2 (Nat.eqb_neq _ _) NAd). rewrite HO by congruence. rewrite <- Q2. rewrite HM by (rewrite ?Q2; assumption). f_equal. symmetry. apply VM; [exact Q1|rewrite Q2; apply in_or_app; left; exact JM'].
    + intros e k J Sb. assert (OPB : forall l, op2 b l k = op b l k) by (intro l; unfold op2, op1; rewrite (proj2 (Nat.eqb_neq b p)), (proj2 (Nat.eqb_neq b add)); [reflexivity|intros ->; contradiction|intros ->; contradiction]). rewrite OPB. apply (Permutation_in _ P') in J. destruct J as [<-|[<-|J]]; cbn [src snk si] in *.
      * subst p. contradiction.
      * unfold sc, val2. rewrite Nat.eqb_refl. destruct (OR e2 Ie2) as (e0 & Q1 & Q2 & Q3 & Q4); [intros Q; apply FA; rewrite <- Q, S2; exact Ib|]. rewrite Q3, Q4. apply HB; [exact Q1|congruence].
      * destruct (LB e J). contradiction.
    + exists val'. split; [exact V1|]. rewrite V2. exact OUT2.
  - injection H as <-. split; [exact F1|]. split; [exact F2|]. split; [exact W2|]. split; [intro n; rewrite (is_nodes _ _ _ _ I1); split; [intros [Q|Q]; auto|intros [Q|[Q|Q]]; [auto|auto|discriminate]]|].
    destruct (chain_values g2 add mids b op1 op' sc1 val1) as (val' & V1 & V2); try assumption.
    + intros n l k N. unfold op1. assert (n <> add /\ n <> b) as (N2 & N3). { split; intros ->; apply N; cbn [In]; rewrite ?in_app_iff; cbn [In]; auto. } rewrite (proj2 (Nat.eqb_neq _ _) N2). apply HO; congruence.
    + intros v k. unfold op1, sc1. rewrite Nat.eqb_refl. apply HA.
    + intros e k J JM Jn. assert (NAd : snk e <> add) by (intros Q; apply NAM; rewrite <- Q; apply in_or_app; left; exact JM). destruct (OR e J NAd) as (e0 & Q1 & Q2 & Q3 & Q4). rewrite Q3, Q4. unfold sc1, val1. rewrite (proj2 (Nat.eqb_neq _ _) NAd). rewrite HO by congruence. rewrite <- Q2. rewrite HM by (rewrite ?Q2; assumption). f_equal. symmetry. apply VM; [exact Q1|rewrite Q2; apply in_or_app; left; exact JM].
    + intros e k J Sb. assert (NAd : snk e <> add) by (intros Q; apply FA; rewrite <- Q, Sb; exact Ib). destruct (OR e J NAd) as (e0 & Q1 & Q2 & Q3 & Q4). rewrite Q3, Q4. unfold op1. rewrite (proj2 (Nat.eqb_neq b add)) by (intros ->; contradiction). apply HB; [exact Q1|congruence].
    + exists val'. split; [exact V1|]. rewrite V2. exact OUT1.
Qed.
End Values.
