(* SaveProofs.v -- C102 *)
From Coq Require Import String List Bool Arith Lia FunctionalExtensionality.
From Verif Require Import Base SaveModel SaveSpec.
Import ListNotations.
Open Scope nat_scope.
Open Scope res_scope.

Section Tree.
Context {T : Type}.
Implicit Types (m c : module T) (w : wrapper T).

(* induction over the tree *)
Lemma module_induct : forall P : module T -> Prop, (forall f, P (Layer f)) -> (forall b q, P (Holder b q)) -> (forall w, P (Wrapped w)) ->
  (forall ch fw, (forall n c, In (n, c) ch -> P c) -> P (Block ch fw)) -> forall m, P m.
Proof.
  intros P HL HH HW HB. fix IH 1. intros [f|b q|w|ch fw]; [apply HL | apply HH | apply HW | apply HB].
  induction ch as [|[n c] r IHr]; intros n' c' I; [destruct I|]. destruct I as [E|I]; [injection E as <- <-; apply IH | exact (IHr n' c' I)].
Qed.

(* the lookups of children *)
Fixpoint child (f : module T -> list T -> result T) (l : list (string * module T)) (name : string) (a : list T) : result T :=
  match l with [] => Err E_attr | (n, c) :: r => if String.eqb name n then f c a else child f r name a end.
Lemma run_block : forall ch fw args, run (Block ch fw) args = fw (child run ch) args.
Proof.
  intros ch fw args. cbn. f_equal. extensionality name. extensionality a. induction ch as [|[n c] r IH]; [reflexivity|]. cbn. destruct (String.eqb name n); [reflexivity | exact IH].
Qed.
Lemma meaning_block : forall keep ch fw args, meaning keep (Block ch fw) args = fw (child (meaning keep) ch) args.
Proof.
  intros keep ch fw args. cbn. f_equal. extensionality name. extensionality a. induction ch as [|[n c] r IH]; [reflexivity|]. cbn. destruct (String.eqb name n); [reflexivity | exact IH].
Qed.
(* children that agree one by one *)
Lemma child_agree : forall f g l l', Forall2 (fun a b => fst a = fst b /\ forall args, f (snd a) args = g (snd b) args) l l' -> child f l = child g l'.
Proof.
  intros f g l l' H. extensionality name. extensionality a. induction H as [|[n c] [n' c'] r r' [E F] _ IH]; [reflexivity|]. cbn in *. subst n'.
  destruct (String.eqb name n); [apply F | exact IH].
Qed.

(* setting the weights of a wrapper *)
Lemma fold_store : forall w l st st',
  foldM (set_step w) l st = Ok st' ->
  exists kvs, mapM (fun kq : key * (T -> T) => let! v := quantized_weight w (fst kq) in Ok (fst kq, v)) l = Ok kvs /\ st' = fold_left (fun st kv => store kv st) kvs st.
Proof.
  intros w l. induction l as [|[k q] r IH]; intros st st' H; cbn [foldM mapM] in H |- *.
  - injection H as <-. exists []. split; reflexivity.
  - unfold set_step at 1 in H. cbn [fst] in *. destruct (quantized_weight w k) as [v|e]; cbn [bind] in H |- *; [|discriminate].
    assert (foldM (set_step w) r (store (k, v) st) = Ok st') as H'.
    { destruct k as [s|i]; [destruct (assoc String.eqb s (fst st)); [|discriminate]|]; exact H. }
    destruct (IH _ _ H') as [kvs [E ->]]. exists ((k, v) :: kvs). rewrite E. split; reflexivity.
Qed.
Lemma set_wrapper : forall w w', set_quantized_weights w = Ok w' ->
  (forall args, wrapper_call w' args = wrapper_call w args) /\ w_quantizers w' = [] /\ w_module w' = w_module w /\ w_positions w' = w_positions w /\
  (forall args, call_layer w' (w_attrs w') (w_slots w') args = wrapper_call w args) /\ w_layer w' = w_layer w.
Proof.
  intros w w' H. unfold set_quantized_weights in H.
  match type of H with bind ?x _ = _ => destruct x as [st|] eqn:F end; cbn in H; [|discriminate]. injection H as <-.
  destruct (fold_store _ _ _ _ F) as [kvs [E ->]]. repeat split; cbn; try reflexivity; intros args; unfold wrapper_call; cbn; rewrite ?E; reflexivity.
Qed.
Definition same_dom (l l' : list (string * T)) := forall s, assoc String.eqb s l <> None <-> assoc String.eqb s l' <> None.
Lemma put_dom : forall s v (l : list (string * T)), assoc String.eqb s l <> None -> same_dom (put s v l) l.
Proof.
  intros s v l H t. cbn. destruct (String.eqb t s) eqn:E; [|tauto]. apply String.eqb_eq in E. subst t. split; [intros _; exact H | intros _; discriminate].
Qed.
Lemma fold_ok : forall w l st, (forall k q, In (k, q) l -> In (k, q) (w_quantizers w)) ->
  is_ok (foldM (set_step w) l st) = true <->
  (forall k (q : T -> T), In (k, q) l -> assoc key_eqb k (w_vars w) <> None /\ forall s, k = Named s -> assoc String.eqb s (fst st) <> None).
Proof.
  intros w l. induction l as [|[k q] r IH]; intros st S; cbn [foldM In].
  - split; [intros _ k q [] | reflexivity].
  - unfold set_step at 1. cbn [fst]. assert (assoc key_eqb k (w_quantizers w) <> None) as Q.
    { specialize (S k q (or_introl eq_refl)). clear - S. induction (w_quantizers w) as [|[k' q'] r IH]; [destruct S|]. cbn.
      destruct (key_eqb k k') eqn:E; [discriminate|]. apply IH. destruct S as [S|S]; [|exact S]. injection S as -> ->. exfalso.
      destruct k as [s|i]; cbn in E; [rewrite String.eqb_refl in E | rewrite Nat.eqb_refl in E]; discriminate. }
    unfold quantized_weight at 1. destruct (assoc key_eqb k (w_quantizers w)) as [q'|]; [clear Q | contradiction].
    destruct (assoc key_eqb k (w_vars w)) as [v|] eqn:V.
    2: { cbn. split; [discriminate|]. intros H. destruct (H k q (or_introl eq_refl)) as [A _]. congruence. }
    cbn [bind]. destruct k as [s|i].
    + destruct (assoc String.eqb s (fst st)) as [old|] eqn:O; cbn [bind is_ok].
      2: { split; [discriminate|]. intros H. destruct (H _ q (or_introl eq_refl)) as [_ A]. exfalso. exact (A s eq_refl O). }
      rewrite (IH _ (fun k q I => S k q (or_intror I))). pose proof (put_dom s (q' v) (fst st) ltac:(congruence)) as D. split; intros H k0 q0.
      * intros [E|I]; [injection E as <- <-; split; [congruence | intros t E; injection E as <-; congruence]|].
        destruct (H _ _ I) as [A B]. split; [exact A|]. intros t E. apply (D t). exact (B t E).
      * intros I. destruct (H _ _ (or_intror I)) as [A B]. split; [exact A|]. intros t E. apply (D t). exact (B t E).
    + cbn [bind]. rewrite (IH _ (fun k q I => S k q (or_intror I))). split; intros H k0 q0.
      * intros [E|I]; [injection E as <- <-; split; [congruence | intros t E; discriminate E] | exact (H _ _ I)].
      * intros I. exact (H _ _ (or_intror I)).
Qed.
Lemma set_ok : forall w, is_ok (set_quantized_weights w) = true <-> ready w.
Proof.
  intros w. unfold ready. rewrite <- (fold_ok w (w_quantizers w) (w_attrs w, w_slots w)) by auto. unfold set_quantized_weights.
  match goal with |- context [bind ?x _] => destruct x end; cbn; tauto.
Qed.

(* all modules *)
Fixpoint set_list (l : list (string * module T)) : result (list (string * module T)) :=
  match l with [] => Ok [] | (n, c) :: r => let! c' := set_all c in let! r' := set_list r in Ok ((n, c') :: r') end.
Lemma set_block : forall ch fw, set_all (Block ch fw) = let! ch' := set_list ch in Ok (Block ch' fw).
Proof. reflexivity. Qed.
Lemma set_list_all : forall l l', set_list l = Ok l' -> Forall2 (fun a b => fst a = fst b /\ set_all (snd a) = Ok (snd b)) l l'.
Proof.
  induction l as [|[n c] r IH]; intros l' H; cbn in H; [injection H as <-; constructor|].
  destruct (set_all c) as [c'|] eqn:C; cbn in H; [|discriminate]. destruct (set_list r) as [r'|] eqn:R; cbn in H; [|discriminate].
  injection H as <-. constructor; [split; [reflexivity | exact C] | apply IH; reflexivity].
Qed.
Lemma F2_weak : forall {A B} (P Q : A -> B -> Prop) l l', (forall a b, In a l -> P a b -> Q a b) -> Forall2 P l l' -> Forall2 Q l l'.
Proof.
  intros A B P Q l l' H F. induction F as [|a b r r' p _ IH]; constructor; [apply H; [left; reflexivity | exact p]|].
  apply IH. intros x y I. apply H. right. exact I.
Qed.
Lemma set_all_run : forall m m', set_all m = Ok m' -> forall args, run m' args = run m args.
Proof.
  induction m as [f|b q|w|ch fw IH] using module_induct; intros m' H args.
  - cbn in H. injection H as <-. reflexivity.
  - cbn in H. injection H as <-. reflexivity.
  - cbn in H. destruct (set_quantized_weights w) as [w'|] eqn:E; cbn in H; [|discriminate]. injection H as <-. apply (set_wrapper w w' E).
  - rewrite set_block in H. destruct (set_list ch) as [ch'|] eqn:E; cbn in H; [|discriminate]. injection H as <-. rewrite !run_block. f_equal. symmetry.
    apply child_agree. apply set_list_all in E. eapply F2_weak; [|exact E]. intros [n c] [n' c'] I [A B]. cbn in *. split; [exact A|]. intros a. symmetry. exact (IH _ _ I _ B a).
Qed.
Lemma set_all_ok : forall m, is_ok (set_all m) = true <-> (forall w, inside (Wrapped w) m -> ready w).
Proof.
  induction m as [f|b q|w|ch fw IH] using module_induct.
  - cbn. split; [intros _ w I; inversion I | reflexivity].
  - cbn. split; [intros _ w I; inversion I | reflexivity].
  - cbn. pose proof (set_ok w) as E. destruct (set_quantized_weights w); cbn in *; split; intros H.
    + intros w' I. inversion I; subst. apply E. reflexivity.
    + reflexivity.
    + discriminate.
    + apply E. apply H. constructor.
  - rewrite set_block. assert (is_ok (set_list ch) = true <-> forall n c, In (n, c) ch -> is_ok (set_all c) = true) as L.
    { clear. induction ch as [|[n c] r IHr]; cbn; [split; [intros _ n c [] | reflexivity]|].
      destruct (set_all c) as [c'|] eqn:C; cbn.
      - destruct (set_list r) as [r'|]; cbn in *; split; intros H.
        + intros n0 c0 [E|I]; [injection E as <- <-; rewrite C; reflexivity | exact (proj1 IHr eq_refl n0 c0 I)].
        + reflexivity.
        + discriminate.
        + apply IHr. intros n0 c0 I. apply (H n0 c0). right. exact I.
      - split; [discriminate|]. intros H. specialize (H n c (or_introl eq_refl)). rewrite C in H. exact H. }
    assert (is_ok (let! ch' := set_list ch in Ok (Block ch' fw)) = is_ok (set_list ch)) as -> by (destruct (set_list ch); reflexivity).
    rewrite L. split; intros H.
    + intros w I. inversion I; subst. apply (proj1 (IH n d H2) (H n d H2)). assumption.
    + intros n c I. apply (IH n c I). intros w J. apply H. econstructor; eassumption.
Qed.
Lemma set_all_clean : forall m m', set_all m = Ok m' -> forall w, inside (Wrapped w) m' -> w_quantizers w = [].
Proof.
  induction m as [f|b q|w|ch fw IH] using module_induct; intros m' H w0 I.
  - cbn in H. injection H as <-. inversion I.
  - cbn in H. injection H as <-. inversion I.
  - cbn in H. destruct (set_quantized_weights w) as [w'|] eqn:E; cbn in H; [|discriminate]. injection H as <-. inversion I; subst. eapply set_wrapper; exact E.
  - rewrite set_block in H. destruct (set_list ch) as [ch'|] eqn:E; cbn in H; [|discriminate]. injection H as <-. apply set_list_all in E.
    inversion I as [|? ? n d J K]; subst. 
    assert (exists c, In (n, c) ch /\ set_all c = Ok d) as [c [C D]].
    { clear - E J. induction E as [|[a b] [a' b'] r r' [P Q] _ IHE]; [destruct J|]. cbn in *. destruct J as [J|J].
      - injection J as -> ->. subst. exists b. split; [left; reflexivity | exact Q].
      - destruct (IHE J) as [c [X Y]]. exists c. split; [right; exact X | exact Y]. }
    exact (IH n c C d D w0 K).
Qed.

(* wide holders *)
Definition drop_child c := match c with Holder b _ => if max_bits <? b then Layer identity else c | _ => drop_wide c end.
Lemma drop_block : forall ch fw, drop_wide (Block ch fw) = Block (map (fun nc => (fst nc, drop_child (snd nc))) ch) fw.
Proof. intros ch fw. cbn. f_equal. induction ch as [|[n c] r IH]; [reflexivity|]. cbn. f_equal. exact IH. Qed.
Definition kept (b : nat) : bool := b <=? max_bits.
Lemma drop_child_run : forall c args, run (drop_child c) args = meaning kept c args.
Proof.
  induction c as [f|b q|w|ch fw IH] using module_induct; intros args.
  - reflexivity.
  - unfold drop_child, kept. cbn [meaning]. destruct (max_bits <? b) eqn:E.
    + apply Nat.ltb_lt in E. assert (b <=? max_bits = false) as -> by (apply Nat.leb_gt; exact E). destruct args; reflexivity.
    + apply Nat.ltb_ge in E. assert (b <=? max_bits = true) as -> by (apply Nat.leb_le; exact E). destruct args; reflexivity.
  - reflexivity.
  - change (drop_child (Block ch fw)) with (drop_wide (Block ch fw)). rewrite drop_block, run_block, meaning_block. f_equal. apply child_agree.
    induction ch as [|[n c] r IHr]; cbn; constructor.
    + split; [reflexivity|]. cbn. apply (IH n). left. reflexivity.
    + apply IHr. intros n0 c0 I. apply (IH n0). right. exact I.
Qed.
Lemma meaning_all : forall keep m, (forall b q, inside (Holder b q) m -> keep b = true) -> forall args, meaning keep m args = run m args.
Proof.
  intros keep. induction m as [f|b q|w|ch fw IH] using module_induct; intros H args.
  - reflexivity.
  - cbn. rewrite (H b q) by constructor. destruct args; reflexivity.
  - reflexivity.
  - rewrite run_block, meaning_block. f_equal. apply child_agree.
    assert (forall n c, In (n, c) ch -> forall a, meaning keep c a = run c a) as K.
    { intros n c I a. apply (IH n c I). intros b q J. apply (H b q). econstructor; eassumption. }
    clear - K. induction ch as [|[n c] r IHr]; constructor; [split; [reflexivity|]; cbn; apply (K n); left; reflexivity|].
    apply IHr. intros n0 c0 I. apply (K n0). right. exact I.
Qed.
Lemma drop_inside : forall m w, inside (Wrapped w) (drop_wide m) <-> inside (Wrapped w) m.
Proof.
  induction m as [f|b q|w'|ch fw IH] using module_induct; intros w; [reflexivity | reflexivity | reflexivity|]. rewrite drop_block. split; intros I.
  - inversion I as [|? ? n d J K]; subst. apply in_map_iff in J. destruct J as [[n' c] [E J]]. injection E as <- <-. cbn in K.
    econstructor; [exact J|]. unfold drop_child in K. destruct c as [f|b q|u|ch' fw']; try (apply (IH _ _ J); exact K).
    destruct (max_bits <? b); [inversion K | exact K].
  - inversion I as [|? ? n d J K]; subst. econstructor; [apply in_map_iff; exists (n, d); split; [reflexivity | exact J]|]. cbn.
    unfold drop_child. destruct d as [f|b q|u|ch' fw']; try (apply (IH _ _ J); exact K). inversion K.
Qed.

Lemma check_ok : forall m, is_ok (check_children m) = true <-> (forall n w, In (n, Wrapped w) (children m) -> w_quantizers w <> []).
Proof.
  intros m. unfold check_children.
  assert (forall l : list (string * module T), is_ok (let! _ := mapM (fun nc => exportable (snd nc)) l in Ok tt) = true <->
    forall n c, In (n, c) l -> is_ok (exportable c) = true) as K.
  { induction l as [|[n c] r IH]; cbn; [split; [intros _ n c [] | reflexivity]|].
    destruct (exportable c) as [u|e] eqn:E; cbn.
    - assert (is_ok (let! _ := let! ys := mapM (fun nc => exportable (snd nc)) r in Ok (u :: ys) in Ok tt) =
        is_ok (let! _ := mapM (fun nc => exportable (snd nc)) r in Ok tt)) as -> by (destruct (mapM (fun nc => exportable (snd nc)) r); reflexivity).
      rewrite IH. split; intros H n0 c0; [intros [X|I]; [injection X as <- <-; rewrite E; reflexivity | exact (H n0 c0 I)] | intros I; exact (H n0 c0 (or_intror I))].
    - split; [discriminate|]. intros H. specialize (H n c (or_introl eq_refl)). rewrite E in H. exact H. }
  rewrite K. split; intros H n c I.
  - specialize (H n (Wrapped c) I). cbn in H. destruct (w_quantizers c); [discriminate H | discriminate].
  - destruct c as [f|b q|w|ch fw]; try reflexivity. specialize (H n w I). cbn. destruct (w_quantizers w); [contradiction | reflexivity].
Qed.
Lemma bind_ok_unit : forall {A} (x : result unit) (y : result A), is_ok (let! _ := x in y) = true <-> is_ok x = true /\ is_ok y = true.
Proof. intros A [u|e] y; cbn; split; intros H; try tauto; try discriminate. Qed.
End Tree.
