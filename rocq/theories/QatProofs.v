(* QatProofs.v -- C100 *)
From Coq Require Import List Arith Bool Lia.
From Verif Require Import Base QatModel QatSpec.
Import ListNotations.
Open Scope nat_scope.
Open Scope res_scope.

Lemma qmethod_eqb_eq : forall a b, qmethod_eqb a b = true <-> a = b.
Proof. destruct a, b; cbn; split; congruence. Qed.
Lemma target_eqb_eq : forall a b, target_eqb a b = true <-> a = b.
Proof. destruct a, b; cbn; split; congruence. Qed.
Lemma ident_eqb_eq : forall a b, ident_eqb a b = true <-> a = b.
Proof. destruct a, b; cbn; split; congruence. Qed.
Lemma mode_eqb_eq : forall a b, mode_eqb a b = true <-> a = b.
Proof. destruct a, b; cbn; split; congruence. Qed.

Lemma methods_in : forall m ms, existsb (qmethod_eqb m) ms = true <-> In m ms.
Proof.
  intros m ms. rewrite existsb_exists. split.
  - intros [x [I E]]. apply qmethod_eqb_eq in E. subst. exact I.
  - intros I. exists m. split; [exact I | apply qmethod_eqb_eq; reflexivity].
Qed.
Lemma fits_suits : forall t id m c, fits t id m c = true <-> suits t id m c.
Proof.
  intros t id m c. unfold fits, suits. rewrite !andb_true_iff. split.
  - intros [[A B] C].
    destruct (c_target c) as [t'|]; [|discriminate]. apply target_eqb_eq in A.
    destruct (c_methods c) as [ms|]; [|discriminate]. apply methods_in in B.
    destruct (c_id c) as [i|]; [|discriminate]. apply ident_eqb_eq in C.
    subst. split; [reflexivity|]. split; [exists ms; split; [reflexivity | exact B] | reflexivity].
  - intros [A [[ms [B I]] C]]. rewrite A, B, C. split; [split|].
    + apply target_eqb_eq; reflexivity.
    + apply methods_in; exact I.
    + apply ident_eqb_eq; reflexivity.
Qed.

Lemma filter_single : forall {A} (f : A -> bool) l c,
  filter f l = [c] <-> exists l1 l2, l = l1 ++ c :: l2 /\ f c = true /\ forall d, In d (l1 ++ l2) -> f d = false.
Proof.
  intros A f l c. split.
  - revert c. induction l as [|x r IH]; intros c H; cbn in H; [discriminate|].
    destruct (f x) eqn:E.
    + injection H as -> H. exists [], r. split; [reflexivity|]. split; [exact E|].
      intros d I. cbn in I. destruct (f d) eqn:F; [|reflexivity]. exfalso.
      assert (In d (filter f r)) as K by (apply filter_In; split; assumption). rewrite H in K. exact K.
    + destruct (IH _ H) as (l1 & l2 & -> & F & N). exists (x :: l1), l2. split; [reflexivity|]. split; [exact F|].
      intros d [<- | I]; [exact E | apply N; exact I].
  - intros (l1 & l2 & -> & F & N). rewrite filter_app. cbn. rewrite F.
    assert (forall l', (forall d, In d l' -> f d = false) -> filter f l' = []) as Z.
    { induction l' as [|y r IH]; intros K; cbn; [reflexivity|]. rewrite (K y (or_introl eq_refl)). apply IH. intros d I. apply K. right. exact I. }
    rewrite (Z l1), (Z l2); [reflexivity | |]; intros d I; apply N; apply in_or_app; [right | left]; exact I.
Qed.

Lemma class_exact : forall cls t id m c,
  quantizer_class cls t id m = Ok c <->
  exists l1 l2, cls = l1 ++ c :: l2 /\ suits t id m c /\ forall d, In d (l1 ++ l2) -> ~ suits t id m d.
Proof.
  intros cls t id m c. split.
  - intros H. unfold quantizer_class in H. destruct cls as [|x r]; [discriminate|].
    destruct (filter (fits t id m) (x :: r)) as [|y [|z q]] eqn:E; try discriminate. injection H as ->.
    apply filter_single in E. destruct E as (l1 & l2 & E & F & N). exists l1, l2. split; [exact E|].
    split; [apply fits_suits; exact F|]. intros d I K. apply fits_suits in K. rewrite (N d I) in K. discriminate.
  - intros (l1 & l2 & E & F & N).
    assert (filter (fits t id m) cls = [c]) as K.
    { apply filter_single. exists l1, l2. split; [exact E|]. split; [apply fits_suits; exact F|].
      intros d I. destruct (fits t id m d) eqn:G; [|reflexivity]. apply fits_suits in G. exfalso. exact (N d I G). }
    unfold quantizer_class. destruct cls as [|x r]; [destruct l1; discriminate|]. rewrite K. reflexivity.
Qed.

Lemma weight_classes_table : forall fw id m,
  match quantizer_class (qat_weight_classes fw) T_weights id m with
  | Ok c => trainable id m /\ c_keywords c = [] | Err e => e = E_critical /\ ~ trainable id m end.
Proof.
  intros fw id m. unfold trainable, plain. destruct id, m; cbn; split; try reflexivity; try tauto;
  intuition congruence.
Qed.
Lemma act_classes_table : forall fw id m,
  match quantizer_class (activation_classes fw) T_activation id m with
  | Ok c => trainable id m /\ c_keywords c = (match id with I_ste => [freeze] | _ => [] end) | Err e => e = E_critical /\ ~ trainable id m end.
Proof.
  intros fw id m. unfold trainable, plain. destruct id, m; cbn; split; try reflexivity; try tauto;
  intuition congruence.
Qed.

Lemma get_attr_of : forall w k a, get_attr w k = Ok a <-> attr_of w k a.
Proof.
  intros w k a. unfold get_attr, attr_of. destruct w as [l mn]. cbn. induction l as [|[k' a'] r IH]; cbn.
  - split; [discriminate|]. intros (l1 & l2 & E & _). destruct l1; discriminate.
  - destruct (Nat.eqb_spec k' k) as [->|N].
    + split.
      * intros H. injection H as <-. exists [], r. split; [reflexivity | intros []].
      * intros (l1 & l2 & E & K). destruct l1 as [|p l1]; cbn in E; injection E as E1 E2.
        -- subst. reflexivity.
        -- subst p. exfalso. apply K. left. reflexivity.
    + rewrite IH. split.
      * intros (l1 & l2 & -> & K). exists ((k', a') :: l1), l2. split; [reflexivity|]. cbn. intros [E|I]; [exact (N E) | exact (K I)].
      * intros (l1 & l2 & E & K). destruct l1 as [|p l1]; cbn in E; injection E as E1 E2.
        -- exfalso. apply N. exact E1.
        -- subst. exists l1, l2. split; [reflexivity|]. intros I. apply K. right. exact I.
Qed.
Lemma get_attr_err : forall w k e, get_attr w k = Err e -> e = E_critical.
Proof. intros w k e. unfold get_attr. destruct find; congruence. Qed.

(* unique gives the first occurrences *)
Lemma existsb_iff : forall {A B} (f : A -> bool) (g : B -> bool) l l', (exists x, In x l /\ f x = true) <-> (exists y, In y l' /\ g y = true) -> existsb f l = existsb g l'.
Proof.
  intros A B f g l l' H. destruct (existsb f l) eqn:E, (existsb g l') eqn:F; try reflexivity.
  - apply existsb_exists in E. apply H in E. apply existsb_exists in E. congruence.
  - apply existsb_exists in F. apply H in F. apply existsb_exists in F. congruence.
Qed.
Lemma seq_add : forall n s, seq s n = map (fun i => s + i) (seq 0 n).
Proof.
  induction n as [|n IH]; intros s; [reflexivity|]. cbn. rewrite Nat.add_0_r. f_equal.
  rewrite (IH (S s)), <- seq_shift, map_map. apply map_ext. intros i. lia.
Qed.
Section Unique.
  Context {A : Type} (eqb : A -> A -> bool) (d : A).
  Hypothesis eqb_trans : forall a b c, eqb a b = true -> eqb b c = true -> eqb a c = true.

  Lemma unique_from : forall r p seen,
    (forall y, existsb (eqb y) seen = existsb (eqb y) p) ->
    unique eqb r seen = map (fun i => nth i (p ++ r) d) (filter (fun i => negb (existsb (fun j => eqb (nth i (p ++ r) d) (nth j (p ++ r) d)) (seq 0 i))) (seq (length p) (length r))).
  Proof.
    induction r as [|x r IH]; intros p seen H; [reflexivity|]. cbn [unique length seq filter].
    assert (nth (length p) (p ++ x :: r) d = x) as X by (rewrite app_nth2, Nat.sub_diag; [reflexivity | lia]).
    assert (existsb (fun j => eqb (nth (length p) (p ++ x :: r) d) (nth j (p ++ x :: r) d)) (seq 0 (length p)) = existsb (eqb x) p) as Y.
    { rewrite X. apply existsb_iff. split.
      - intros [j [I E]]. apply in_seq in I. exists (nth j p d). split; [apply nth_In; lia|]. rewrite app_nth1 in E by lia. exact E.
      - intros [y [I E]]. destruct (In_nth p y d I) as [j [L <-]]. exists j. split; [apply in_seq; lia|]. rewrite app_nth1 by lia. exact E. }
    rewrite Y, <- H. replace (p ++ x :: r) with ((p ++ [x]) ++ r) in * by (rewrite <- app_assoc; reflexivity).
    replace (S (length p)) with (length (p ++ [x])) by (rewrite app_length; cbn; lia).
    destruct (existsb (eqb x) seen) eqn:E; cbn [negb map].
    - apply IH. intros y. rewrite existsb_app. cbn. rewrite orb_false_r, H.
      destruct (eqb y x) eqn:F; [|rewrite orb_false_r; reflexivity]. rewrite orb_true_r. rewrite <- H.
      apply existsb_exists in E. destruct E as [z [I E]]. apply existsb_exists. exists z. split; [exact I|]. eapply eqb_trans; eassumption.
    - rewrite X. f_equal. apply IH. intros y. rewrite existsb_app. cbn. rewrite orb_false_r, H. apply orb_comm.
  Qed.
  Lemma unique_firsts : forall l, unique eqb l [] = firsts eqb d l.
  Proof. intros l. rewrite (unique_from l [] []); reflexivity. Qed.
End Unique.

Ltac eqbs := repeat rewrite andb_true_iff in *; rewrite ?qmethod_eqb_eq, ?mode_eqb_eq, ?Nat.eqb_eq, ?Bool.eqb_true_iff in *.
Lemma attr_eqb_trans : forall a b c, attr_eqb a b = true -> attr_eqb b c = true -> attr_eqb a c = true.
Proof. intros a b c. unfold attr_eqb. eqbs. intuition congruence. Qed.
Lemma act_eqb_trans : forall a b c, act_eqb a b = true -> act_eqb b c = true -> act_eqb a c = true.
Proof. intros a b c. unfold act_eqb. eqbs. intuition congruence. Qed.

Lemma same_method_spec : forall {B} (f : B -> qmethod) l, same_method (map f l) = true <-> exists m, forall b, In b l -> f b = m.
Proof.
  intros B f l. destruct l as [|x r]; cbn.
  - split; [intros _; exists M_pot; intros b [] | reflexivity].
  - rewrite forallb_forall. split.
    + intros H. exists (f x). intros b [<-|I]; [reflexivity|]. symmetry. apply qmethod_eqb_eq. apply H. apply in_map. exact I.
    + intros [m H] q I. apply in_map_iff in I. destruct I as [b [<- I]]. apply qmethod_eqb_eq. rewrite (H x), (H b); auto.
Qed.
Lemma mapM_Forall2 : forall {A B} (f : A -> result B) l r, mapM f l = Ok r <-> Forall2 (fun a b => f a = Ok b) l r.
Proof.
  intros A B f l. induction l as [|x t IH]; intros r; cbn.
  - split; [intros H; injection H as <-; constructor | intros H; inversion H; reflexivity].
  - destruct (f x) as [y|e] eqn:E; cbn.
    + destruct (mapM f t) as [t'|e] eqn:T; cbn.
      * split.
        -- intros H. injection H as <-. constructor; [exact E|]. apply IH. reflexivity.
        -- intros H. inversion H as [|? y2 ? t2 H1 H2]; subst. rewrite E in H1. injection H1 as <-. apply IH in H2. injection H2 as <-. reflexivity.
      * split; [discriminate|]. intros H. inversion H as [|? y2 ? t2 H1 H2]; subst. apply IH in H2. discriminate.
    + split; [discriminate|]. intros H. inversion H; subst. congruence.
Qed.

Lemma Forall2_in_l : forall {A B} (P : A -> B -> Prop) l r a, Forall2 P l r -> In a l -> exists b, In b r /\ P a b.
Proof. intros A B P l r a H. induction H as [|x y l r K H IH]; [intros [] |]. intros [E|I]; [subst; exists y; split; [left; reflexivity | exact K] |]. destruct (IH I) as [b [J Q]]. exists b. split; [right; exact J | exact Q]. Qed.
Lemma Forall2_in_r : forall {A B} (P : A -> B -> Prop) l r b, Forall2 P l r -> In b r -> exists a, In a l /\ P a b.
Proof. intros A B P l r b H. induction H as [|x y l r K H IH]; [intros [] |]. intros [E|I]; [subst; exists x; split; [left; reflexivity | exact K] |]. destruct (IH I) as [a [J Q]]. exists a. split; [right; exact J | exact Q]. Qed.
Lemma all_build : forall {A B} (P : A -> B -> Prop) l, (forall a, In a l -> exists b, P a b) -> exists r, Forall2 P l r.
Proof.
  intros A B P l. induction l as [|x t IH]; intros H; [exists []; constructor|].
  destruct (H x (or_introl eq_refl)) as [b K]. destruct IH as [r R]; [intros a I; apply H; right; exact I|]. exists (b :: r). constructor; assumption.
Qed.

(* the candidates *)
Definition cands_of (n : node) (ko : option nat) : result (option (list cand_conf) * option (list cand_conf)) :=
  if 1 <? length (n_cands n) then let! p := quantization_candidates n ko in Ok (Some (fst p), Some (snd p)) else Ok (None, None).

Lemma attrs_ok : forall n k, (exists l, mapM (fun c => get_attr (k_weights c) k) (n_cands n) = Ok l /\ same_method (map a_method l) = true) <-> agree_weights n k.
Proof.
  intros n k. unfold agree_weights. split.
  - intros [l [H S]]. apply mapM_Forall2 in H. apply same_method_spec in S. destruct S as [m S]. exists m. intros c I.
    destruct (Forall2_in_l _ _ _ _ H I) as [a [J G]]. exists a. split; [apply get_attr_of; exact G | apply S; exact J].
  - intros [m H]. destruct (all_build (fun c a => get_attr (k_weights c) k = Ok a /\ a_method a = m) (n_cands n)) as [l F].
    { intros c I. destruct (H c I) as [a [G E]]. exists a. split; [apply get_attr_of; exact G | exact E]. }
    exists l. split.
    + apply mapM_Forall2. clear H. induction F as [|x y u v [K _] F IH]; constructor; assumption.
    + apply same_method_spec. exists m. intros a I. destruct (Forall2_in_r _ _ _ _ F I) as [c [_ [_ E]]]. exact E.
Qed.
Lemma acts_ok : forall n, same_method (map x_method (map k_act (n_cands n))) = true <-> agree_act n.
Proof.
  intros n. unfold agree_act. rewrite same_method_spec. split; intros [m H]; exists m.
  - intros c I. apply H. apply in_map. exact I.
  - intros b I. apply in_map_iff in I. destruct I as [c [<- I]]. apply H. exact I.
Qed.
Lemma weights_res : forall n ko, (exists ws, (match ko with None => Ok [] | Some k => let! l := mapM (fun c => get_attr (k_weights c) k) (n_cands n) in
    if same_method (map a_method l) then Ok l else Err E_critical end) = Ok ws) <-> (forall k, ko = Some k -> agree_weights n k).
Proof.
  intros n [k|].
  - split.
    + intros [ws H] k' E. injection E as <-. apply attrs_ok. destruct (mapM _ _) as [l|e] eqn:M; [|discriminate]. cbn in H.
      destruct (same_method _) eqn:S in H; [|discriminate]. exists l. split; [reflexivity | exact S].
    + intros H. destruct (proj2 (attrs_ok n k) (H k eq_refl)) as [l [M S]]. exists l. rewrite M. cbn. rewrite S. reflexivity.
  - split; [intros _ k E; discriminate | intros _; exists []; reflexivity].
Qed.
Lemma cands_of_ok : forall n ko, is_ok (cands_of n ko) = true <-> agrees n ko.
Proof.
  intros n ko. unfold cands_of, agrees. destruct (Nat.ltb_spec 1 (length (n_cands n))) as [L|L]; cbn [is_ok].
  - unfold quantization_candidates. pose proof (weights_res n ko) as W.
    destruct (match ko with None => Ok [] | Some _ => _ end) as [ws|e] eqn:E; cbn [bind].
    + pose proof (acts_ok n) as A. destruct (same_method (map x_method _)) eqn:S; cbn.
      * split; [intros _; right; split; [apply W; exists ws; reflexivity | apply A; reflexivity] | reflexivity].
      * split; [discriminate|]. intros [K|[_ K]]; [lia|]. apply A in K. discriminate.
    + cbn. split; [discriminate|]. intros [K|[K _]]; [lia|]. apply W in K. destruct K as [ws K]. discriminate.
  - split; [left; exact L | reflexivity].
Qed.
Lemma cands_of_value : forall n ko cw ca, cands_of n ko = Ok (cw, ca) -> act_cands n ca /\ forall k, ko = Some k -> weight_cands n k cw.
Proof.
  intros n ko cw ca. unfold cands_of, act_cands, weight_cands.
  destruct (Nat.ltb_spec 1 (length (n_cands n))) as [L|L]; destruct (Nat.leb_spec (length (n_cands n)) 1) as [L'|L']; try lia.
  - unfold quantization_candidates.
    destruct (match ko with None => Ok [] | Some _ => _ end) as [ws|e] eqn:E; cbn [bind]; [|discriminate].
    destruct (same_method (map x_method _)) eqn:S; cbn; [|discriminate]. intros H. injection H as <- <-. split.
    + rewrite (unique_firsts act_eqb (Act M_pot 0 0 Q_no 0 0) act_eqb_trans). reflexivity.
    + intros k ->. destruct (mapM _ _) as [l|e] eqn:M in E; [|discriminate]. cbn in E. destruct (same_method (map a_method l)); [|discriminate]. injection E as <-.
      exists l. split.
      * apply mapM_Forall2 in M. clear - M. induction M as [|x y u v K F IH]; constructor; [apply get_attr_of; exact K | exact IH].
      * rewrite (unique_firsts attr_eqb (Attr M_pot 0 0 false (0, 0) false 0) attr_eqb_trans). reflexivity.
  - intros H. injection H as <- <-. split; [reflexivity | intros; reflexivity].
Qed.

(* construction *)
Local Arguments quantizer_class : simpl never.
Local Arguments qat_weight_classes : simpl never.
Local Arguments activation_classes : simpl never.
Local Arguments construct : simpl never.
Local Arguments builder : simpl never.
Local Arguments build_weights : simpl never.
Local Arguments build_activation : simpl never.

Lemma keywords_nil : forall args, forallb (fun p : nat * nat => existsb (Nat.eqb (fst p)) []) args = true <-> args = [].
Proof. intros [|p r]; cbn; split; congruence. Qed.
Lemma keywords_freeze : forall args, forallb (fun p : nat * nat => existsb (Nat.eqb (fst p)) [freeze]) args = true <-> forall p, In p args -> fst p = freeze.
Proof.
  intros args. rewrite forallb_forall. split; intros H p I; specialize (H p I).
  - cbn in H. rewrite orb_false_r in H. apply Nat.eqb_eq. exact H.
  - cbn. rewrite orb_false_r. apply Nat.eqb_eq. exact H.
Qed.
Lemma in_methods_suits : forall t id m c, suits t id m c -> in_methods m c = true.
Proof. intros t id m c [_ [[ms [E I]] _]]. unfold in_methods. rewrite E. apply methods_in. exact I. Qed.
Lemma class_suits : forall cls t id m c, quantizer_class cls t id m = Ok c -> suits t id m c /\ In c cls.
Proof. intros cls t id m c H. apply class_exact in H. destruct H as (l1 & l2 & -> & S & _). split; [exact S|]. apply in_or_app. right. left. reflexivity. Qed.
Lemma construct_w : forall c id m b p e ax pc mn cs args, suits T_weights id m c ->
  construct c (WConf m b p e ax pc mn cs) args = if forallb (fun p => existsb (Nat.eqb (fst p)) (c_keywords c)) args then Ok (Quantizer c (WConf m b p e ax pc mn cs) args) else Err E_type.
Proof. intros c id m b p e ax pc mn cs args S. unfold construct. rewrite (in_methods_suits _ _ _ _ S). destruct S as [-> _]. reflexivity. Qed.
Lemma construct_a : forall c id m b p e mn cs args, suits T_activation id m c ->
  construct c (AConf m b p e mn cs) args = if forallb (fun p => existsb (Nat.eqb (fst p)) (c_keywords c)) args then Ok (Quantizer c (AConf m b p e mn cs) args) else Err E_type.
Proof. intros c id m b p e mn cs args S. unfold construct. rewrite (in_methods_suits _ _ _ _ S). destruct S as [-> _]. reflexivity. Qed.

(* the weights part *)
Lemma build_weights_value : forall fw n cfg k cs ws w, n_final_w n = Some w -> build_weights fw n cfg (Some k) cs = Ok ws ->
  exists a, attr_of w k a /\
  (a_enabled a = false /\ ws = [] \/
   a_enabled a = true /\ exists q, ws = [(k, q)] /\ suits T_weights (g_weights cfg) (a_method a) (q_class q) /\ In (q_class q) (qat_weight_classes fw)
     /\ q_conf q = WConf (a_method a) (a_bits a) (a_params a) true (fst (a_axis a)) (a_per_channel a) (w_min w) cs /\ q_args q = g_weights_args cfg).
Proof.
  intros fw n cfg k cs ws w F H. unfold build_weights, weights_enabled, weights_config in H. rewrite F in H.
  destruct (get_attr w k) as [a|e] eqn:G; cbn in H; [|discriminate]. exists a. split; [apply get_attr_of; exact G|].
  destruct (a_enabled a) eqn:E; [right | left; split; [reflexivity | congruence]]. split; [reflexivity|].
  destruct (quantizer_class _ _ _ _) as [c|e] eqn:C; cbn in H; [|discriminate]. apply class_suits in C. destruct C as [S I].
  rewrite (construct_w _ _ _ _ _ _ _ _ _ _ _ S) in H. destruct (forallb _ _); cbn in H; [|discriminate]. injection H as <-.
  eexists. split; [reflexivity|]. cbn. rewrite ?E. repeat split; try assumption; apply S.
Qed.
Lemma build_weights_ok : forall fw n cfg k cs w a, n_final_w n = Some w -> attr_of w k a ->
  (is_ok (build_weights fw n cfg (Some k) cs) = true <-> (a_enabled a = true -> trainable (g_weights cfg) (a_method a) /\ g_weights_args cfg = [])).
Proof.
  intros fw n cfg k cs w a F G. apply get_attr_of in G. unfold build_weights, weights_enabled, weights_config. rewrite F, G. cbn.
  destruct (a_enabled a) eqn:E; [|cbn; split; [discriminate | reflexivity]].
  pose proof (weight_classes_table fw (g_weights cfg) (a_method a)) as T.
  destruct (quantizer_class _ _ _ _) as [c|e] eqn:C; cbn.
  - apply class_suits in C. destruct C as [S I]. rewrite (construct_w _ _ _ _ _ _ _ _ _ _ _ S). destruct T as [T ->].
    destruct (forallb _ (g_weights_args cfg)) eqn:K; cbn.
    + apply keywords_nil in K. split; [intros _ _; split; assumption | reflexivity].
    + split; [discriminate|]. intros H. destruct (H eq_refl) as [_ N]. rewrite N in K. discriminate.
  - split; [discriminate|]. intros H. destruct (H eq_refl) as [N _]. exfalso. apply (proj2 T). exact N.
Qed.
(* the activation part *)
Lemma build_act_value : forall fw n cfg cs xs x, n_final_a n = Some x -> build_activation fw n cfg cs = Ok xs ->
  x_mode x <> Q_quant /\ xs = [] \/
  x_mode x = Q_quant /\ exists q, xs = repeat q (match fw with Pytorch => 1 | Keras => n_outs n end)
    /\ suits T_activation (g_act cfg) (x_method x) (q_class q) /\ In (q_class q) (activation_classes fw)
    /\ q_conf q = AConf (x_method x) (x_bits x) (x_params x) true (x_min x) cs /\ q_args q = g_act_args cfg.
Proof.
  intros fw n cfg cs xs x F H. unfold build_activation, act_enabled, activation_config in H. rewrite F in H. cbn in H.
  destruct (mode_eqb (x_mode x) Q_quant) eqn:E.
  - right. split; [apply mode_eqb_eq; exact E|].
    destruct (quantizer_class _ _ _ _) as [c|e] eqn:C; cbn in H; [|discriminate]. apply class_suits in C. destruct C as [S I].
    rewrite (construct_a _ _ _ _ _ _ _ _ _ S) in H. destruct (forallb _ _); cbn in H; [|discriminate]. injection H as <-.
    eexists. split; [reflexivity|]. cbn. repeat split; try assumption; apply S.
  - left. split; [intros K; rewrite K in E; discriminate | congruence].
Qed.
Lemma build_act_ok : forall fw n cfg cs x, n_final_a n = Some x ->
  (is_ok (build_activation fw n cfg cs) = true <-> (x_mode x = Q_quant -> trainable (g_act cfg) (x_method x) /\ accepted (g_act cfg) (g_act_args cfg))).
Proof.
  intros fw n cfg cs x F. unfold build_activation, act_enabled, activation_config. rewrite F. cbn.
  destruct (mode_eqb (x_mode x) Q_quant) eqn:E.
  - apply mode_eqb_eq in E. pose proof (act_classes_table fw (g_act cfg) (x_method x)) as T.
    destruct (quantizer_class _ _ _ _) as [c|e] eqn:C; cbn.
    + apply class_suits in C. destruct C as [S I]. rewrite (construct_a _ _ _ _ _ _ _ _ _ S). destruct T as [T KW].
      assert (forallb (fun p : nat * nat => existsb (Nat.eqb (fst p)) (c_keywords c)) (g_act_args cfg) = true <-> accepted (g_act cfg) (g_act_args cfg)) as A.
      { rewrite KW. unfold accepted. destruct (g_act cfg); try (rewrite keywords_nil; intuition congruence).
        rewrite keywords_freeze. split; [intros H; right; split; [reflexivity | exact H]|]. intros [->|[_ H]]; [intros p [] | exact H]. }
      destruct (forallb _ (g_act_args cfg)); cbn.
      * split; [intros _ _; split; [exact T | apply A; reflexivity] | reflexivity].
      * split; [discriminate|]. intros H. destruct (H E) as [_ N]. apply A in N. discriminate.
    + split; [discriminate|]. intros H. destruct (H E) as [N _]. exfalso. apply (proj2 T). exact N.
  - cbn. split; [intros _ K; rewrite K in E; discriminate | reflexivity].
Qed.
(* a node without quantized activations, or without final configuration *)
Lemma builder_cands : forall fw n cfg ko, builder fw n cfg ko = (let! cs := cands_of n ko in let! ws := build_weights fw n cfg ko (fst cs) in let! xs := build_activation fw n cfg (snd cs) in Ok (ws, xs)).
Proof. reflexivity. Qed.

Lemma wrap_value : forall fw cfg n w r, n_final_w n = Some w -> wrap fw cfg n = Ok r ->
  match r with
  | None => n_kernel n = None \/ exists k a, n_kernel n = Some k /\ attr_of w k a /\ a_enabled a = false
  | Some qs => exists k a q cs, n_kernel n = Some k /\ attr_of w k a /\ a_enabled a = true /\ qs = [(k, q)]
      /\ suits T_weights (g_weights cfg) (a_method a) (q_class q) /\ In (q_class q) (qat_weight_classes fw)
      /\ q_conf q = WConf (a_method a) (a_bits a) (a_params a) true (fst (a_axis a)) (a_per_channel a) (w_min w) cs
      /\ weight_cands n k cs /\ q_args q = g_weights_args cfg
  end.
Proof.
  intros fw cfg n w r F H. unfold wrap in H.
  destruct (n_kernel n) as [k|] eqn:K.
  - destruct (get_attr w k) as [a|e] eqn:G.
    2:{ unfold applicable, weights_enabled in H. rewrite K, F, G in H. discriminate. }
    unfold applicable, weights_enabled in H. rewrite K, F, G in H. cbn in H. pose proof (proj1 (get_attr_of _ _ _) G) as GA.
    destruct (a_enabled a) eqn:E.
    + rewrite builder_cands in H. cbn in H. destruct (cands_of n (Some k)) as [[cw ca]|e] eqn:C; [|discriminate]. cbn [bind fst snd] in H.
      destruct (build_weights fw n cfg (Some k) cw) as [ws|e] eqn:W; cbn in H; [|discriminate].
      destruct (build_activation fw n cfg ca) as [xs|e] eqn:A; cbn in H; [|discriminate]. injection H as <-.
      destruct (build_weights_value _ _ _ _ _ _ _ F W) as (a' & GA' & [[E' ->]|[E' (q & -> & S & I & Q & R)]]).
      * apply get_attr_of in GA'. congruence.
      * apply get_attr_of in GA'. assert (a' = a) by congruence. subst a'.
        exists k, a, q, cw. destruct (cands_of_value _ _ _ _ C) as [_ V]. repeat split; try assumption; try apply S. apply V. reflexivity.
    + destruct (act_enabled n) as [b|e]; cbn in H; [|discriminate].
      assert (r = None) as ->.
      { destruct b; [|congruence]. destruct (builder fw n cfg (Some k)) as [p|e] eqn:B; cbn in H; [|discriminate].
        rewrite builder_cands in B. destruct (cands_of n (Some k)) as [[cw ca]|e]; [|discriminate]. cbn [bind fst snd] in B.
        unfold build_weights, weights_enabled in B. rewrite F, G in B. cbn in B. rewrite E in B. cbn in B.
        destruct (build_activation fw n cfg ca); cbn in B; [|discriminate]. injection B as <-. cbn in H. congruence. }
      right. exists k, a. repeat split; assumption.
  - assert (r = None) as ->; [|left; reflexivity].
    unfold applicable in H. rewrite K in H. cbn in H. destruct (act_enabled n) as [b|e]; cbn in H; [|discriminate].
    destruct b; [|congruence]. destruct (builder fw n cfg None) as [p|e] eqn:B; cbn in H; [|discriminate].
    rewrite builder_cands in B. destruct (cands_of n None) as [[cw ca]|e]; [|discriminate]. cbn in B.
    destruct (build_activation fw n cfg ca); cbn in B; [|discriminate]. injection B as <-. cbn in H. congruence.
Qed.

Lemma wrap_succeeds : forall fw cfg n w x k a, n_final_w n = Some w -> n_final_a n = Some x -> n_kernel n = Some k -> attr_of w k a -> a_enabled a = true ->
  (is_ok (wrap fw cfg n) = true <->
   agrees n (Some k) /\ trainable (g_weights cfg) (a_method a) /\ g_weights_args cfg = [] /\
   (x_mode x = Q_quant -> trainable (g_act cfg) (x_method x) /\ accepted (g_act cfg) (g_act_args cfg))).
Proof.
  intros fw cfg n w x k a F FA K GA E. pose proof (proj2 (get_attr_of _ _ _) GA) as G.
  unfold wrap, applicable, weights_enabled. rewrite K, F, G. cbn. rewrite E. rewrite builder_cands.
  pose proof (cands_of_ok n (Some k)) as C. destruct (cands_of n (Some k)) as [[cw ca]|e]; cbn [bind fst snd is_ok] in *.
  2:{ split; [discriminate|]. intros [H _]. apply C in H. discriminate. }
  pose proof (build_weights_ok fw n cfg k cw w a F GA) as W. pose proof (build_act_ok fw n cfg ca x FA) as A.
  destruct (build_weights fw n cfg (Some k) cw) as [ws|e]; cbn [bind is_ok] in *.
  2:{ split; [discriminate|]. intros (_ & T & N & _). apply W. intros _. split; assumption. }
  destruct (build_activation fw n cfg ca) as [xs|e]; cbn [bind is_ok fst snd] in *.
  - split; [|reflexivity]. intros _. destruct (proj1 W eq_refl E) as [T N]. split; [apply C; reflexivity|]. split; [exact T|]. split; [exact N|]. apply A. reflexivity.
  - split; [discriminate|]. intros (_ & _ & _ & H). apply A. exact H.
Qed.

Lemma holder_value : forall fw cfg n x q, n_final_a n = Some x -> holder fw cfg n = Ok q ->
  x_mode x = Q_quant /\ suits T_activation (g_act cfg) (x_method x) (q_class q) /\ In (q_class q) (activation_classes fw)
  /\ (exists cs, act_cands n cs /\ q_conf q = AConf (x_method x) (x_bits x) (x_params x) true (x_min x) cs) /\ q_args q = g_act_args cfg.
Proof.
  intros fw cfg n x q F H. unfold holder in H. rewrite builder_cands in H.
  destruct (cands_of n None) as [[cw ca]|e] eqn:C; [|discriminate]. cbn in H.
  destruct (build_activation fw n cfg ca) as [xs|e] eqn:A; cbn in H; [|discriminate].
  destruct xs as [|q' [|? ?]]; try discriminate. injection H as ->.
  destruct (build_act_value _ _ _ _ _ _ F A) as [[_ K]|[M (q' & R & S & I & Q & AR)]]; [discriminate|].
  assert (q' = q) as ->. { destruct fw; [cbn in R; congruence|]. destruct (n_outs n) as [|[|?]]; cbn in R; congruence. }
  split; [exact M|]. split; [exact S|]. split; [exact I|]. split; [|exact AR]. exists ca. split; [|exact Q].
  apply (cands_of_value _ _ _ _ C).
Qed.
Lemma holder_succeeds : forall fw cfg n x, n_final_a n = Some x -> x_mode x = Q_quant ->
  (is_ok (holder fw cfg n) = true <->
   agrees n None /\ trainable (g_act cfg) (x_method x) /\ accepted (g_act cfg) (g_act_args cfg) /\ (fw = Keras -> n_outs n = 1)).
Proof.
  intros fw cfg n x F M. unfold holder. rewrite builder_cands.
  pose proof (cands_of_ok n None) as C. destruct (cands_of n None) as [[cw ca]|e]; cbn [bind fst snd is_ok] in *.
  2:{ split; [discriminate|]. intros [H _]. apply C in H. discriminate. }
  cbn [build_weights bind]. pose proof (build_act_ok fw n cfg ca x F) as A.
  destruct (build_activation fw n cfg ca) as [xs|e] eqn:B; cbn [bind is_ok fst snd] in *.
  2:{ split; [discriminate|]. intros (_ & T & N & _). apply A. intros _. split; assumption. }
  destruct (proj1 A eq_refl M) as [T N].
  destruct (build_act_value _ _ _ _ _ _ F B) as [[K _]|[_ (q & -> & _)]]; [contradiction|].
  destruct fw; cbn.
  - split; [intros _; repeat split; try assumption; [apply C; reflexivity | apply T | apply T | discriminate] | reflexivity].
  - destruct (n_outs n) as [|[|o]]; cbn.
    + split; [discriminate|]. intros (_ & _ & _ & H). specialize (H eq_refl). discriminate.
    + split; [intros _; repeat split; try assumption; [apply C; reflexivity | apply T | apply T] | reflexivity].
    + split; [discriminate|]. intros (_ & _ & _ & H). specialize (H eq_refl). discriminate.
Qed.
