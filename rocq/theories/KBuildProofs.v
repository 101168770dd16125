(* KBuildProofs.v -- proofs about the names of the nodes of a Keras graph and about the model built from it. *)
From Coq Require Import Permutation Sorted Lia String Ascii DecimalString DecimalNat.
From Verif Require Import Base GraphModel GraphSpec GraphProofs FxModel FxSpec FxProofs KReadModel KReadSpec KBuildModel KBuildSpec.
Open Scope res_scope.
Local Open Scope nat_scope.

(* ---- splitting names ---- *)
Lemma split_nonempty s : exists x l, split_ s = x :: l.
Proof. destruct s as [|c s]; [repeat eexists|]. cbn. destruct (Ascii.eqb c "_"); [repeat eexists|]. destruct (split_ s); repeat eexists. Qed.
Lemma split_app a b : split_ (a ++ String "_" b)%string = split_ a ++ split_ b.
Proof.
  induction a as [|c a IH]; [reflexivity|]. cbn [append split_]. destruct (Ascii.eqb c "_"); [rewrite IH; reflexivity|]. rewrite IH. destruct (split_nonempty a) as (x & l & ->). reflexivity.
Qed.
Lemma split_uint d : split_ (NilEmpty.string_of_uint d) = [NilEmpty.string_of_uint d].
Proof. induction d; cbn; [reflexivity|..]; rewrite IHd; reflexivity. Qed.
Lemma join_cons x l : l <> [] -> join_ (x :: l) = (x ++ String "_" (join_ l))%string.
Proof. destruct l; [congruence|reflexivity]. Qed.
Lemma join_split s : join_ (split_ s) = s.
Proof.
  induction s as [|c s IH]; [reflexivity|]. cbn [split_]. destruct (split_nonempty s) as (x & l & E). destruct (Ascii.eqb_spec c "_") as [->|N].
  - rewrite join_cons by (rewrite E; discriminate). rewrite IH. reflexivity.
  - rewrite E in *. destruct l as [|y l]; [cbn in *; rewrite IH; reflexivity|]. rewrite join_cons in * by discriminate. cbn [append]. rewrite IH. reflexivity.
Qed.
Lemma split_reused s i : split_ (reused_name s i) = split_ s ++ ["reused"%string; dec i].
Proof.
  unfold reused_name. change ("_reused_" ++ dec i)%string with (String "_" ("reused" ++ String "_" (dec i)))%string. rewrite split_app. f_equal. rewrite split_app. cbn [split_ Ascii.eqb]. unfold dec. rewrite split_uint. reflexivity.
Qed.
Lemma but_two_app {A} (l : list A) a b : but_two (l ++ [a; b]) = l.
Proof. unfold but_two. rewrite app_length. cbn [length]. replace (length l + 2 - 2) with (length l + 0) by lia. rewrite firstn_app_2. cbn. apply app_nil_r. Qed.
Lemma last_two_app {A} (l : list A) a b : last_two (l ++ [a; b]) = [a; b].
Proof. unfold last_two. rewrite app_length. cbn [length]. replace (length l + 2 - 2) with (length l) by lia. rewrite skipn_app, skipn_all, Nat.sub_diag. reflexivity. Qed.
Lemma original_reused s i : original_name (reused_name s i) = s.
Proof. unfold original_name. rewrite split_reused, but_two_app. apply join_split. Qed.
Lemma reused_inj s i t j : reused_name s i = reused_name t j -> s = t /\ i = j.
Proof.
  intro E. assert (s = t) as -> by (rewrite <- (original_reused s i), E; apply original_reused). split; [reflexivity|].
  apply (f_equal split_) in E. rewrite !split_reused in E. apply app_inv_head in E. injection E as E. unfold dec in E. apply (f_equal NilEmpty.uint_of_string) in E. rewrite !NilEmpty.usu in E. injection E as E. apply Unsigned.to_uint_inj, E.
Qed.
Lemma str_app_assoc a b c : ((a ++ b) ++ c = a ++ (b ++ c))%string.
Proof. induction a as [|x a IH]; [reflexivity|]. cbn. rewrite IH. reflexivity. Qed.
Lemma part_reused part s i : part_name part (reused_name s i) true = reused_name (part_name part s false) i.
Proof.
  unfold part_name. rewrite split_reused, but_two_app, last_two_app, join_split. unfold reused_name. cbn [join_]. rewrite !str_app_assoc. reflexivity.
Qed.

(* ---- the names of one level ---- *)
Lemma taken_spec st s : taken st s = true <-> exists b, In b st /\ b_name b = s.
Proof. unfold taken. rewrite existsb_exists. split; intros (b & I & E); exists b; (split; [exact I|]); apply String.eqb_eq, E. Qed.
Lemma next_free st s : taken st (reused_name s (next_index st s (S (length st)) 1)) = false.
Proof.
  assert (forall r i, taken st (reused_name s (next_index st s r i)) = true -> forall j, i <= j <= i + r -> taken st (reused_name s j) = true) as H.
  { induction r as [|r IH]; intros i T j J; cbn [next_index] in T.
    - replace j with i by lia. exact T.
    - destruct (taken st (reused_name s i)) eqn:E; [|congruence]. destruct (Nat.eq_dec j i) as [->|N]; [exact E|]. apply (IH (S i) T j). lia. }
  destruct (taken st (reused_name s (next_index st s (S (length st)) 1))) eqn:T; [|reflexivity]. exfalso.
  assert (NoDup (map (reused_name s) (seq 1 (S (length st))))) as N.
  { clear. generalize 1 (S (length st)). intros a n. revert a. induction n as [|n IH]; intro a; [constructor|]. cbn. constructor; [|apply IH]. intro I. apply in_map_iff in I. destruct I as (j & E & J). apply in_seq in J. apply reused_inj in E. lia. }
  assert (incl (map (reused_name s) (seq 1 (S (length st)))) (map b_name st)) as I.
  { intros x X. apply in_map_iff in X. destruct X as (j & <- & J). apply in_seq in J. assert (taken st (reused_name s j) = true) as K by (apply (H _ _ T); lia). apply taken_spec in K. destruct K as (b & B & <-). apply in_map, B. }
  pose proof (NoDup_incl_length N I) as L. rewrite !map_length, seq_length in L. lia.
Qed.
Definition named (st : list bnode) (x : nat * (string * nat)) (b : bnode) : Prop :=
  b_id b = fst x /\ b_layer b = snd (snd x) /\
  (if b_reuse b then exists k i, In k st /\ b_reuse k = false /\ b_name k = fst (snd x) /\ b_name b = reused_name (fst (snd x)) i /\ b_layer k = b_layer b
   else b_name b = fst (snd x)).
Lemma named_mono st st' x b : incl st st' -> named st x b -> named st' x b.
Proof. intros I (A & B & C). split; [exact A|]. split; [exact B|]. destruct (b_reuse b); [|exact C]. destruct C as (k & i & K & C). exists k, i. split; [apply I, K|exact C]. Qed.
Lemma Forall2_mono {A B} (P Q : A -> B -> Prop) l k : (forall a b, P a b -> Q a b) -> Forall2 P l k -> Forall2 Q l k.
Proof. intros H. induction 1; constructor; auto. Qed.
Lemma Forall2_in_r {A B} (P : A -> B -> Prop) l k y : Forall2 P l k -> In y k -> exists x, In x l /\ P x y.
Proof. induction 1 as [|a b l k H _ IH]; intros []; [subst; exists a; split; [left; reflexivity|exact H]|]. destruct (IH H0) as (x & I & Q). exists x. split; [right; exact I|exact Q]. Qed.
Lemma name_level_spec xs :
  (forall x y, In x xs -> In y xs -> fst (snd x) = fst (snd y) -> snd (snd x) = snd (snd y)) ->
  (forall x y i, In x xs -> In y xs -> fst (snd x) <> reused_name (fst (snd y)) i) ->
  Forall2 (named (name_level xs)) xs (name_level xs) /\ NoDup (map b_name (name_level xs)).
Proof.
  intros SL PN. unfold name_level. assert (forall done rest st, xs = done ++ rest -> Forall2 (named st) done st -> NoDup (map b_name st) ->
    Forall2 (named (fold_left name_node rest st)) xs (fold_left name_node rest st) /\ NoDup (map b_name (fold_left name_node rest st))) as H.
  2:{ apply (H [] xs []); [reflexivity|constructor|constructor]. }
  intros done rest. revert done. induction rest as [|[u [s l]] rest IH]; intros done st E F N; [rewrite app_nil_r in E; subst; split; assumption|].
  cbn [fold_left]. apply (IH (done ++ [(u, (s, l))])); [rewrite <- app_assoc; exact E| |]; clear IH; cbn [name_node].
  - apply Forall2_app; [eapply Forall2_mono; [|exact F]; intros a b; apply named_mono, incl_appl, incl_refl|]. constructor; [|constructor]. destruct (taken st s) eqn:T; [|repeat split].
    split; [reflexivity|]. split; [reflexivity|]. cbn [b_reuse b_name b_layer fst snd]. apply taken_spec in T. destruct T as (k & K & <-). destruct (Forall2_in_r _ _ _ _ F K) as (y & Y & Y1 & Y2 & Y3).
    assert (In y xs) as Yx by (rewrite E; apply in_or_app; left; exact Y). assert (In (u, (b_name k, l)) xs) as Ux by (rewrite E; apply in_or_app; right; left; reflexivity).
    destruct (b_reuse k) eqn:R.
    + exfalso. destruct Y3 as (_ & i & _ & _ & _ & Q & _). exact (PN _ y i Ux Yx Q).
    + exists k. eexists. split; [apply in_or_app; left; exact K|]. split; [exact R|]. split; [reflexivity|]. split; [reflexivity|]. rewrite Y2. apply (SL y (u, (b_name k, l)) Yx Ux). cbn. symmetry. exact Y3.
  - rewrite map_app. cbn [map]. apply (Permutation_NoDup (Permutation_cons_append _ _)). constructor; [|exact N]. intro I. apply in_map_iff in I. destruct I as (k & K1 & K2).
    destruct (taken st s) eqn:T; cbn [b_name] in K1; [|rewrite <- K1 in T; assert (taken st (b_name k) = true) by (apply taken_spec; exists k; split; [exact K2|reflexivity]); congruence].
    pose proof (next_free st s) as Q. rewrite <- K1 in Q. assert (taken st (b_name k) = true) by (apply taken_spec; exists k; split; [exact K2|reflexivity]). congruence.
Qed.

(* ---- running the built model ---- *)
Lemma mapM_ok {A B} (f : A -> result B) (h : A -> B) l : (forall x, In x l -> f x = Ok (h x)) -> mapM f l = Ok (map h l).
Proof. induction l as [|x l IH]; intro H; [reflexivity|]. cbn [mapM map]. rewrite (H x (or_introl eq_refl)). cbn [bind]. rewrite IH; [reflexivity|]. intros y I. apply H. right. exact I. Qed.
Lemma mapM_f2 {A B} (f : A -> result B) l k : Forall2 (fun x y => f x = Ok y) l k -> mapM f l = Ok k.
Proof. induction 1 as [|x y l k H _ IH]; [reflexivity|]. cbn [mapM]. rewrite H. cbn [bind]. rewrite IH. reflexivity. Qed.
Lemma node_of_self bs b : NoDup (map b_id bs) -> In b bs -> node_of bs (b_id b) = Some b.
Proof.
  unfold node_of. induction bs as [|x l IH]; [intros _ []|]. cbn [map find]. intros N I. inversion N as [|? ? N1 N2]; subst.
  destruct I as [->|I]; [rewrite Nat.eqb_refl; reflexivity|]. destruct (Nat.eqb_spec (b_id x) (b_id b)) as [E|_]; [exfalso; apply N1; rewrite E; apply in_map, I|exact (IH N2 I)].
Qed.
Lemma names_inj bs a b : NoDup (map b_name bs) -> In a bs -> In b bs -> b_name a = b_name b -> a = b.
Proof.
  induction bs as [|x l IH]; [intros _ []|]. cbn [map]. intros N A B E. inversion N as [|? ? N1 N2]; subst. destruct A as [->|A], B as [->|B]; [reflexivity| | |exact (IH N2 A B E)]; exfalso; apply N1; [rewrite E|rewrite <- E]; apply in_map; assumption.
Qed.
Lemma distinct_ok l : NoDup l -> distinct_names l = true.
Proof. induction 1 as [|x l N _ IH]; [reflexivity|]. cbn. rewrite IH, andb_true_r. apply negb_true_iff. destruct (existsb (String.eqb x) l) eqn:E; [|reflexivity]. apply existsb_exists in E. destruct E as (y & Y & E). apply String.eqb_eq in E. subst y. contradiction. Qed.
Lemma sorted_nodup (es : list edge) : StronglySorted (fun a b => ti a <= ti b) es -> NoDup (map ti es) -> StronglySorted (fun a b => ti a < ti b) es.
Proof.
  induction 1 as [|a l S1 IH F]; intro N; [constructor|]. cbn in N. inversion N as [|? ? N1 N2]; subst. constructor; [exact (IH N2)|]. rewrite Forall_forall in *. intros b B. specialize (F b B). assert (ti a <> ti b) by (intro E; apply N1; rewrite E; apply in_map, B). lia.
Qed.
Lemma dict_get_rev_combine {A} (ks : list nat) (vs : list A) n : NoDup ks -> length vs = length ks -> In n ks ->
  exists v, dict_get (rev (combine ks vs)) n = Some v /\ forall i, nth_error ks i = Some n -> nth_error vs i = Some v.
Proof.
  intros N L I. destruct (In_nth_error _ _ I) as (i & E). destruct (nth_error vs i) as [v|] eqn:F; [|apply nth_error_None in F; rewrite L in F; apply nth_error_None in F; congruence].
  exists v. split.
  - assert (forall p, In p (rev (combine ks vs)) -> fst p = n -> p = (n, v)) as U.
    { intros [a b] P Q. cbn in Q. subst a. apply in_rev in P. f_equal. destruct (In_nth_error _ _ P) as (j & J).
      assert (forall (k1 : list nat) (v1 : list A) j p, nth_error (combine k1 v1) j = Some p -> nth_error k1 j = Some (fst p) /\ nth_error v1 j = Some (snd p)) as NC.
      { clear. induction k1 as [|x k1 IH]; intros [|y v1] [|j] p; cbn; intro H; try discriminate; [injection H as <-; split; reflexivity|apply IH, H]. }
      destruct (NC _ _ _ _ J) as [J1 J2]. cbn in *. assert (j = i) as -> by (apply (proj1 (NoDup_nth_error ks) N); [apply nth_error_Some; congruence|congruence]). congruence. }
    assert (In (n, v) (rev (combine ks vs))) as M.
    { apply in_rev. rewrite rev_involutive. clear - E F. revert vs i E F. induction ks as [|k ks IH]; intros [|w vs] [|i] E F; cbn in *; try discriminate; [left; congruence|right; apply (IH vs i); assumption]. }
    unfold dict_get. destruct (find _ (rev (combine ks vs))) as [p|] eqn:Q.
    + apply find_some in Q. destruct Q as [Q1 Q2]. apply Nat.eqb_eq in Q2. rewrite (U p Q1 Q2). reflexivity.
    + exfalso. pose proof (find_none _ _ Q _ M) as X. cbn in X. rewrite Nat.eqb_refl in X. discriminate.
  - intros j J. assert (j = i) as -> by (apply (proj1 (NoDup_nth_error ks) N); [apply nth_error_Some; congruence|congruence]). exact F.
Qed.

Section Runs.
Context {V : Type} (op : nat -> nat -> list V -> ores V) (quant : nat -> option (V -> V)) (pack : list V -> V) (lay : nat -> nat).
Variables (g : graph) (bs : list bnode) (order : list nat) (ao : nat -> nat) (xs : list V).
Hypothesis LG : layered g.
Hypothesis WN : well_named g lay bs.
Hypothesis TP : topological g order.
Hypothesis PORTS : forall e, In e (g_edges g) -> si e < ao (src e).
Hypothesis INS1 : forall n, In n (g_in g) -> ao n = 1.
Hypothesis RET : forall n l, In n (g_nodes g) -> ~ In n (g_in g) -> length l = length (filter (fun e => Nat.eqb (snk e) n) (g_edges g)) -> length (tensors (op (lay n) n l)) = ao n /\ 0 < ao n.
Hypothesis QONE : forall n l l', In n (g_nodes g) -> ~ In n (g_in g) -> quant n <> None -> op (lay n) n l <> Many l'.
Hypothesis LEN : length xs = length (g_in g).
Notation into n := (filter (fun e => Nat.eqb (snk e) n) (g_edges g)).

Lemma has_node n : In n (g_nodes g) -> exists b, In b bs /\ b_id b = n /\ node_of bs n = Some b.
Proof.
  intro I. apply (Permutation_in _ (Permutation_sym (wn_ids _ _ _ WN))), in_map_iff in I. destruct I as (b & <- & B). exists b. split; [exact B|]. split; [reflexivity|apply (node_of_self bs b (wn_nodup _ _ _ WN) B)].
Qed.
Definition sorted_nodes : list bnode := flat_map (fun n => match node_of bs n with Some b => [b] | None => [] end) order.
Lemma sorted_ok : mapM (fun n => match node_of bs n with Some b => Ok b | None => Err E_key end) order = Ok sorted_nodes.
Proof.
  unfold sorted_nodes. assert (incl order (g_nodes g)) as I by (intros n N; apply (Permutation_in _ (proj1 TP)), N). clear - I WN. induction order as [|n l IH]; [reflexivity|]. cbn [mapM flat_map].
  destruct (has_node n) as (b & _ & _ & ->); [apply I; left; reflexivity|]. cbn [bind]. rewrite IH by (intros x X; apply I; right; exact X). reflexivity.
Qed.
Lemma sorted_in b : In b sorted_nodes <-> In b bs.
Proof.
  unfold sorted_nodes. rewrite in_flat_map. split.
  - intros (n & _ & B). unfold node_of in B. destruct (find _ bs) as [b'|] eqn:F; [|destruct B]. destruct B as [->|[]]. apply find_some in F. apply F.
  - intro B. exists (b_id b). split; [|rewrite (node_of_self bs b (wn_nodup _ _ _ WN) B); left; reflexivity]. apply (Permutation_in _ (Permutation_sym (proj1 TP))), (Permutation_in _ (wn_ids _ _ _ WN)), in_map, B.
Qed.
Lemma sorted_names : NoDup (map b_name (filter (fun b => negb (b_reuse b)) sorted_nodes)).
Proof.
  assert (NoDup sorted_nodes) as N.
  { unfold sorted_nodes. assert (NoDup order) as N by (apply (Permutation_NoDup (Permutation_sym (Permutation_trans (proj1 TP) (Permutation_sym (wn_ids _ _ _ WN))))), (wn_nodup _ _ _ WN)). clear - N.
    induction N as [|n l N1 _ IH]; [constructor|]. cbn. destruct (node_of bs n) as [b|] eqn:E; [|exact IH]. cbn. constructor; [|exact IH]. intro I. apply in_flat_map in I. destruct I as (m & M & I). destruct (node_of bs m) as [b'|] eqn:F; [|destruct I]. destruct I as [->|[]].
    unfold node_of in E, F. apply find_some in E. apply find_some in F. destruct E as [_ E], F as [_ F]. apply Nat.eqb_eq in E. apply Nat.eqb_eq in F. congruence. }
  assert (forall l, incl l bs -> NoDup l -> NoDup (map b_name l)) as K.
  { intros l I D. induction D as [|x l D1 D2 IH]; [constructor|]. cbn. constructor; [|apply IH; intros y Y; apply I; right; exact Y]. intro J. apply in_map_iff in J. destruct J as (y & E & Y). apply D1. rewrite <- (names_inj bs y x (wn_names _ _ _ WN)); [exact Y|apply I; right; exact Y|apply I; left; reflexivity|exact E]. }
  apply K; [|apply NoDup_filter, N]. intros b B. apply filter_In in B. apply sorted_in, B.
Qed.
Lemma op_function_ok b : In b bs -> op_function sorted_nodes b = Ok (lay (b_id b)).
Proof.
  intro B. unfold op_function. destruct (b_reuse b) eqn:R; [|rewrite (wn_layer _ _ _ WN b B); reflexivity].
  destruct (wn_base _ _ _ WN b B R) as (k & i & K & K1 & K2 & K3). rewrite K2, original_reused.
  destruct (find _ sorted_nodes) as [k'|] eqn:F.
  - apply find_some in F. destruct F as [F1 F2]. apply andb_true_iff in F2. destruct F2 as [_ F2]. apply String.eqb_eq in F2. rewrite (names_inj bs k' k (wn_names _ _ _ WN)); [|apply sorted_in, F1|exact K|exact F2]. rewrite K3, (wn_layer _ _ _ WN b B). reflexivity.
  - exfalso. pose proof (find_none _ _ F k (proj2 (sorted_in k) K)) as X. cbn in X. rewrite K1, String.eqb_refl in X. discriminate.
Qed.

Lemma in_sorted n : Permutation (sort_by ti (in_edges g n)) (into n) /\ StronglySorted (fun a b => ti a < ti b) (sort_by ti (in_edges g n)).
Proof.
  assert (Permutation (sort_by ti (in_edges g n)) (into n)) as P by (rewrite sort_by_perm; apply in_edges_perm). split; [exact P|]. apply sorted_nodup; [apply sort_by_sorted|]. apply (Permutation_NoDup (Permutation_map ti (Permutation_sym P))), (lg_index _ LG).
Qed.
Lemma in_unique n es : Permutation es (into n) -> StronglySorted (fun a b => ti a <= ti b) es -> es = sort_by ti (in_edges g n).
Proof. intros P S1. destruct (in_sorted n) as [Q S2]. apply (sorted_unique ti); [rewrite P; symmetry; exact Q|exact S1|exact S2]. Qed.

(* the nodes done so far: what they return and what is kept for them *)
Record state_ok (done : list nat) (raw : nat -> ores V) (st : list (nat * list V) * list (nat * list (@out V))) : Prop := {
  s_raw : forall n, In n done -> if mem n (g_in g) then exists v, raw n = One v /\ forall i, nth_error (g_in g) i = Some n -> nth_error xs i = Some v
    else exists l, Forall2 (fun e v => nth_error (tensors (quantized quant (src e) (raw (src e)))) (si e) = Some v) (sort_by ti (in_edges g n)) l /\ raw n = op (lay n) n l;
  s_len : forall n, In n done -> length (tensors (raw n)) = ao n /\ (quant n <> None -> exists v, raw n = One v);
  s_kept : forall n, In n done -> dict_get (fst st) n = Some (tensors (quantized quant n (raw n))) /\ dict_get (snd st) n = Some (map OTensor (tensors (raw n)));
  s_keys : map fst (fst st) = rev done /\ map fst (snd st) = rev done
}.
Lemma step_ok done rest n raw st : order = done ++ n :: rest -> state_ok done raw st ->
  exists o, state_ok (done ++ [n]) (fun m => if Nat.eqb m n then o else raw m) (((n, fst (kept quant pack n o)) :: fst st, (n, snd (kept quant pack n o)) :: snd st)) /\
    build_step op quant pack g bs sorted_nodes (rev (combine (g_in g) xs)) st n = Ok ((n, fst (kept quant pack n o)) :: fst st, (n, snd (kept quant pack n o)) :: snd st).
Proof.
  intros E ST. destruct TP as [TP1 TP2].
  assert (NoDup order) as No by (apply (Permutation_NoDup (Permutation_sym (Permutation_trans TP1 (Permutation_sym (wn_ids _ _ _ WN))))), (wn_nodup _ _ _ WN)).
  assert (~ In n done) as Nd. { intro I. rewrite E in No. apply NoDup_remove_2 in No. apply No, in_or_app. left. exact I. }
  assert (In n (g_nodes g)) as Ng. { apply (Permutation_in _ TP1). rewrite E. apply in_or_app. right. left. reflexivity. }
  destruct (has_node n Ng) as (b & B & Bi & Bn). destruct (in_sorted n) as [Pn _].
  (* the inputs of the node *)
  assert (forall e, In e (sort_by ti (in_edges g n)) -> In e (g_edges g) /\ In (src e) done) as Hd.
  { intros e I. apply (Permutation_in _ Pn), filter_In in I. destruct I as [I1 I2]. apply Nat.eqb_eq in I2. split; [exact I1|exact (TP2 done n rest e E I1 I2)]. }
  assert (exists l, Forall2 (fun e v => nth_error (tensors (quantized quant (src e) (raw (src e)))) (si e) = Some v) (sort_by ti (in_edges g n)) l) as (l & Fl).
  { revert Hd. clear - ST PORTS. induction (sort_by ti (in_edges g n)) as [|e es IH]; intro Hd; [exists []; constructor|]. destruct IH as (l & IH); [intros e' I; apply Hd; right; exact I|].
    destruct (Hd e (or_introl eq_refl)) as [He1 He2]. destruct (s_len _ _ _ ST _ He2) as [L1 L2].
    assert (length (tensors (quantized quant (src e) (raw (src e)))) = ao (src e)) as L3 by (rewrite <- L1; unfold quantized; destruct (quant (src e)); destruct (raw (src e)); cbn; try rewrite map_length; reflexivity).
    destruct (nth_error (tensors (quantized quant (src e) (raw (src e)))) (si e)) as [v|] eqn:F; [|apply nth_error_None in F; specialize (PORTS e He1); lia]. exists (v :: l). constructor; [exact F|exact IH]. }
  assert (build_inputs_list g (fst st) n = Ok l) as Bl.
  { unfold build_inputs_list. apply mapM_f2. clear - Fl ST Hd. revert Hd. induction Fl as [|e v es l F _ IH]; intro Hd; [constructor|]. constructor; [|apply IH; intros e' I; apply Hd; right; exact I].
    rewrite (proj1 (s_kept _ _ _ ST _ (proj2 (Hd e (or_introl eq_refl))))), F. reflexivity. }
  assert (length l = length (into n)) as Ll. { rewrite <- (Permutation_length Pn). clear - Fl. induction Fl; cbn; congruence. }
  assert (exists o, run_node op (rev (combine (g_in g) xs)) (lay n) b l = Ok o /\ length (tensors o) = ao n /\ (quant n <> None -> exists v, o = One v) /\
    if mem n (g_in g) then exists v, o = One v /\ forall i, nth_error (g_in g) i = Some n -> nth_error xs i = Some v else o = op (lay n) n l) as (o & Ro & Lo & Qo & So).
  { unfold run_node. rewrite Bi. destruct (mem n (g_in g)) eqn:M.
    - apply mem_spec in M. pose proof (proj1 (lg_input _ LG n Ng) M) as Z. rewrite Z in Ll. destruct l; [|discriminate]. destruct (dict_get_rev_combine (g_in g) xs n (lg_in _ LG) LEN M) as (v & Dv & Nv). rewrite Dv. cbn [bind]. exists (One v). split; [destruct (b_reuse b); reflexivity|]. split; [cbn; symmetry; apply INS1, M|]. split; [intros _; exists v; reflexivity|]. exists v. split; [reflexivity|exact Nv].
    - apply mem_false in M. destruct l as [|x l']; [exfalso; apply M, (lg_input _ LG n Ng); destruct (into n); [reflexivity|discriminate]|]. destruct (RET n (x :: l') Ng M Ll) as [R1 R2]. cbn [bind]. exists (op (lay n) n (x :: l')).
      split; [destruct (b_reuse b); [reflexivity|]; destruct (op (lay n) n (x :: l')) as [|[|]]; [reflexivity|cbn in R1; lia|reflexivity]|]. split; [exact R1|]. split; [|reflexivity]. intro Q. destruct (op (lay n) n (x :: l')) as [v|l2] eqn:O; [exists v; reflexivity|]. exfalso. exact (QONE n (x :: l') l2 Ng M Q O). }
  exists o. split.
  2:{ unfold build_step. rewrite Bn, (op_function_ok b B), Bi. cbn [bind]. rewrite Bl. cbn [bind]. rewrite Ro. reflexivity. }
  assert (forall m, In m done -> Nat.eqb m n = false) as Nm by (intros m I; apply Nat.eqb_neq; intros ->; contradiction).
  assert (forall m, In m order -> forall e, In e (sort_by ti (in_edges g m)) -> forall a c, order = a ++ m :: c -> In (src e) a) as Src.
  { intros m _ e I a c Q. apply (Permutation_in _ (proj1 (in_sorted m))), filter_In in I. destruct I as [I1 I2]. apply Nat.eqb_eq in I2. exact (TP2 a m c e Q I1 I2). }
  assert (forall m, In m done -> forall e, In e (sort_by ti (in_edges g m)) -> In (src e) done) as Sd.
  { intros m M e I. destruct (in_split _ _ M) as (a & c & ->). rewrite <- app_assoc in E. cbn in E. assert (In m order) as Mo by (rewrite E; apply in_or_app; right; left; reflexivity). apply in_or_app. left. exact (Src m Mo e I a _ E). }
  assert (forall m l0, (forall e, In e (sort_by ti (in_edges g m)) -> In (src e) done) ->
     Forall2 (fun e v => nth_error (tensors (quantized quant (src e) (raw (src e)))) (si e) = Some v) (sort_by ti (in_edges g m)) l0 ->
     Forall2 (fun e v => nth_error (tensors (quantized quant (src e) (if Nat.eqb (src e) n then o else raw (src e)))) (si e) = Some v) (sort_by ti (in_edges g m)) l0) as Keep.
  { intros m l0 H F. revert H. induction F as [|e v es l1 F0 F1 IH]; intro H; [constructor|]. constructor; [rewrite (Nm _ (H e (or_introl eq_refl))); exact F0|apply IH; intros e' I; apply H; right; exact I]. }
  constructor.
  - intros m I. apply in_app_or in I. destruct I as [I|[<-|[]]].
    + rewrite (Nm m I). pose proof (s_raw _ _ _ ST m I) as R. destruct (mem m (g_in g)); [exact R|]. destruct R as (l0 & R1 & R2). exists l0. split; [apply Keep; [exact (Sd m I)|exact R1]|exact R2].
    + rewrite Nat.eqb_refl. destruct (mem n (g_in g)); [exact So|]. exists l. split; [apply Keep; [intros e Ie; apply Hd, Ie|exact Fl]|exact So].
  - intros m I. apply in_app_or in I. destruct I as [I|[<-|[]]]; [rewrite (Nm m I); apply (s_len _ _ _ ST m I)|rewrite Nat.eqb_refl; split; assumption].
  - intros m I. unfold dict_get. cbn [fst snd find]. apply in_app_or in I. destruct I as [I|[<-|[]]].
    + rewrite Nat.eqb_sym, (Nm m I). apply (s_kept _ _ _ ST m I).
    + rewrite Nat.eqb_refl. cbn [option_map snd]. unfold kept, quantized. destruct (quant n) as [q|] eqn:Q; [destruct Qo as (v & ->); [discriminate|]; split; reflexivity|]. destruct o; split; reflexivity.
  - cbn [fst snd map]. destruct (s_keys _ _ _ ST) as [K1 K2]. rewrite rev_app_distr. cbn. rewrite K1, K2. split; reflexivity.
Qed.
Lemma run_ok : exists raw st, foldM (build_step op quant pack g bs sorted_nodes (rev (combine (g_in g) xs))) order ([], []) = Ok st /\ state_ok order raw st.
Proof.
  assert (forall rest done raw st, order = done ++ rest -> state_ok done raw st -> exists raw' st', foldM (build_step op quant pack g bs sorted_nodes (rev (combine (g_in g) xs))) rest st = Ok st' /\ state_ok order raw' st') as H.
  { induction rest as [|n rest IH]; intros done raw st E ST; [rewrite app_nil_r in E; subst done; exists raw, st; split; [reflexivity|exact ST]|].
    destruct (step_ok done rest n raw st E ST) as (o & S1 & S2). cbn [foldM]. rewrite S2. cbn [bind]. eapply (IH (done ++ [n])); [rewrite <- app_assoc; exact E|exact S1]. }
  apply (H order [] (fun _ => Many []) ([], [])); [reflexivity|]. constructor; try (intros ? []). split; reflexivity.
Qed.
Lemma in_order n : In n order <-> In n (g_nodes g).
Proof. split; apply Permutation_in; [|symmetry]; apply (proj1 TP). Qed.
Lemma state_runs raw st : state_ok order raw st -> runs op quant lay g xs raw (fun n => quantized quant n (raw n)).
Proof.
  intro ST. constructor.
  - assert (forall n, In n (g_in g) -> exists v, raw n = One v /\ forall i, nth_error (g_in g) i = Some n -> nth_error xs i = Some v) as R.
    { intros n I. assert (In n order) as O by (apply in_order, (lg_in_nodes _ LG), I). pose proof (s_raw _ _ _ ST n O) as R. rewrite (proj2 (mem_spec _ _) I) in R. exact R. }
    assert (forall (k : list nat) (w : list V), length w = length k -> (forall i n, nth_error k i = Some n -> exists v, raw n = One v /\ nth_error w i = Some v) -> Forall2 (fun n v => raw n = One v) k w) as F.
    { clear. induction k as [|n k IH]; intros [|v w] L H; try discriminate; constructor; [destruct (H 0 n eq_refl) as (v' & H1 & H2); cbn in H2; injection H2 as ->; exact H1|apply IH; [cbn in L; lia|]; intros i m E; exact (H (S i) m E)]. }
    apply F; [exact LEN|]. intros i n E. destruct (R n (nth_error_In _ _ E)) as (v & R1 & R2). exists v. split; [exact R1|exact (R2 i E)].
  - intros n N NI. pose proof (s_raw _ _ _ ST n (proj2 (in_order n) N)) as R. rewrite (proj2 (mem_false _ _) NI) in R. destruct R as (l & R1 & R2). exists (sort_by ti (in_edges g n)), l. split; [apply in_sorted|]. split; [apply sort_by_sorted|]. split; assumption.
  - reflexivity.
Qed.
Lemma runs_unique raw val raw' val' : runs op quant lay g xs raw val -> runs op quant lay g xs raw' val' -> forall n, In n (g_nodes g) -> raw n = raw' n /\ val n = val' n.
Proof.
  intros R R'. destruct TP as [TP1 TP2]. assert (forall rest done, order = done ++ rest -> (forall n, In n done -> raw n = raw' n /\ val n = val' n) -> forall n, In n order -> raw n = raw' n /\ val n = val' n) as H.
  2:{ intros n N. apply (H order [] eq_refl); [intros ? []|apply in_order, N]. }
  induction rest as [|n rest IH]; intros done E D; [rewrite app_nil_r in E; subst; exact D|]. apply (IH (done ++ [n])); [rewrite <- app_assoc; exact E|]. intros m I. apply in_app_or in I. destruct I as [I|[<-|[]]]; [exact (D m I)|].
  assert (In n (g_nodes g)) as Ng. { apply (Permutation_in _ TP1). rewrite E. apply in_or_app. right. left. reflexivity. }
  assert (raw n = raw' n) as Er.
  { destruct (in_dec Nat.eq_dec n (g_in g)) as [I|I].
    - pose proof (run_input _ _ _ _ _ _ _ R) as F. pose proof (run_input _ _ _ _ _ _ _ R') as F'. clear - F F' I. revert F'. induction F as [|a v k w Fa _ IHF]; [destruct I|]. intro F'. inversion F'; subst. destruct I as [->|I]; [congruence|apply IHF; assumption].
    - destruct (run_op _ _ _ _ _ _ _ R n Ng I) as (es & l & P1 & S1 & F & ->). destruct (run_op _ _ _ _ _ _ _ R' n Ng I) as (es' & l' & P1' & S1' & F' & ->). rewrite (in_unique n es P1 S1) in F. rewrite (in_unique n es' P1' S1') in F'. f_equal.
      assert (forall e, In e (sort_by ti (in_edges g n)) -> In (src e) done) as Hd.
      { intros e Ie. apply (Permutation_in _ (proj1 (in_sorted n))), filter_In in Ie. destruct Ie as [I1 I2]. apply Nat.eqb_eq in I2. exact (TP2 done n rest e E I1 I2). }
      clear - F F' Hd D. revert l' F' Hd. induction F as [|e v es l Fe _ IHF]; intros l' F' Hd; inversion F'; subst; [reflexivity|]. f_equal; [rewrite (proj2 (D _ (Hd e (or_introl eq_refl)))) in Fe; congruence|apply IHF; [assumption|intros e' Ie; apply Hd; right; exact Ie]]. }
  split; [exact Er|]. rewrite (run_quant _ _ _ _ _ _ _ R n Ng), (run_quant _ _ _ _ _ _ _ R' n Ng), Er. reflexivity.
Qed.
Lemma by_name_ok {A} (env : list (nat * A)) b v : incl (map fst env) (g_nodes g) -> In b bs -> dict_get env (b_id b) = Some v -> by_name bs env (b_name b) = Some v.
Proof.
  intros I B D. unfold by_name, dict_get in *. rewrite <- D. f_equal. clear D. induction env as [|[m a] env IH]; [reflexivity|]. cbn [find fst]. destruct (has_node m) as (k & K & Ki & Kn); [apply I; left; reflexivity|]. rewrite Kn.
  destruct (Nat.eqb_spec m (b_id b)) as [E|E].
  - assert (k = b) as ->. { rewrite E, (node_of_self bs b (wn_nodup _ _ _ WN) B) in Kn. congruence. } rewrite String.eqb_refl. reflexivity.
  - destruct (String.eqb_spec (b_name k) (b_name b)) as [F|F]; [exfalso; apply E; rewrite <- Ki, (names_inj bs k b (wn_names _ _ _ WN) K B F); reflexivity|]. apply IH. intros x X. apply I. right. exact X.
Qed.
Lemma pick_ok raw st all float_out o : state_ok order raw st -> In (fst o) (g_nodes g) -> snd o < ao (fst o) ->
  pick bs all float_out st o = Ok (let l := tensors (if float_out then raw (fst o) else quantized quant (fst o) (raw (fst o))) in
    if Nat.eqb (ao (fst o)) 1 || negb all then OTensor (nth (snd o) l (nth 0 l (pack []))) else OList l).
Proof.
  intros ST I L. destruct (has_node _ I) as (b & B & Bi & Bn). unfold pick. rewrite Bn. destruct (s_kept _ _ _ ST _ (proj2 (in_order _) I)) as [K1 K2]. rewrite <- Bi in K1, K2.
  destruct (s_keys _ _ _ ST) as [Y1 Y2]. assert (incl (rev order) (g_nodes g)) as IR by (intros x X; apply in_order, in_rev, X).
  rewrite (by_name_ok _ b _ ltac:(rewrite Y1; exact IR) B K1), (by_name_ok _ b _ ltac:(rewrite Y2; exact IR) B K2). rewrite Bi in *.
  destruct (s_len _ _ _ ST _ (proj2 (in_order _) I)) as [L1 L2].
  assert (length (tensors (quantized quant (fst o) (raw (fst o)))) = ao (fst o)) as L3 by (rewrite <- L1; unfold quantized; destruct (quant (fst o)); destruct (raw (fst o)); cbn; try rewrite map_length; reflexivity).
  rewrite L3. cbv zeta. destruct (Nat.eqb (ao (fst o)) 1 || negb all).
  - destruct float_out; [rewrite nth_error_map; rewrite (nth_error_nth' _ (nth 0 (tensors (raw (fst o))) (pack []))) by (rewrite L1; exact L)|rewrite (nth_error_nth' _ (nth 0 (tensors (quantized quant (fst o) (raw (fst o)))) (pack []))) by (rewrite L3; exact L)]; reflexivity.
  - destruct float_out; [|reflexivity]. do 2 f_equal. generalize (tensors (raw (fst o))). clear. induction l as [|x l IH]; [reflexivity|]. cbn. rewrite IH. reflexivity.
Qed.
End Runs.
