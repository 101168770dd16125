(* GTrainProofs.v -- C93: proofs. *)
From Coq Require Import String List Arith Lia Bool Permutation Sorted.
From Verif Require Import Base FilterModel FilterProps GTrainModel GTrainSpec.
Import ListNotations.
Open Scope nat_scope.
Open Scope list_scope.
Open Scope res_scope.

Lemma contains_occurs t s : str_contains t s = true <-> occurs s t.
Proof. apply str_contains_spec. Qed.

Section Dict.
  Context {V : Type}.
  Implicit Types ws : list (string * V).
  Lemma assign_keys k v ws : In k (map fst ws) -> map fst (assign k v ws) = map fst ws.
  Proof.
    induction ws as [|[k' x] r IH]; [intros []|]. intro I. cbn. destruct (String.eqb_spec k' k) as [->|N]; [reflexivity|]. cbn. f_equal. apply IH.
    destruct I as [E|I]; [contradiction|exact I].
  Qed.
  Lemma assign_same k v ws : lookup k (assign k v ws) = Some v.
  Proof. induction ws as [|[k' x] r IH]; cbn; [rewrite String.eqb_refl; reflexivity|]. destruct (String.eqb_spec k' k) as [->|N]; cbn; [rewrite String.eqb_refl; reflexivity|]. destruct (String.eqb_spec k' k); [contradiction|exact IH]. Qed.
  Lemma assign_other k v ws k' : k' <> k -> lookup k' (assign k v ws) = lookup k' ws.
  Proof.
    intro N. induction ws as [|[k0 x] r IH]; cbn; [destruct (String.eqb_spec k k'); [congruence|reflexivity]|].
    destruct (String.eqb_spec k0 k) as [->|N0]; cbn; [destruct (String.eqb_spec k k'); [congruence|reflexivity]|]. destruct (String.eqb k0 k'); [reflexivity|exact IH].
  Qed.
  Lemma lookup_in k ws : In k (map fst ws) -> exists v, lookup k ws = Some v.
  Proof. induction ws as [|[k' x] r IH]; [intros []|]. intro I. cbn. destruct (String.eqb_spec k' k) as [->|N]; [eexists; reflexivity|]. apply IH. destruct I as [E|I]; [contradiction|exact I]. Qed.
  Lemma keys_only name k ws : only_key name k ws -> keys_with name ws = [k].
  Proof.
    intros (Nd & I & O & U). unfold keys_with. induction (map fst ws) as [|x l IH]; [destruct I|]. inversion Nd as [|? ? Nx Nl E]. subst. cbn [filter].
    destruct (str_contains x name) eqn:C.
    - apply contains_occurs in C. rewrite (U x (or_introl eq_refl) C) in *. f_equal.
      destruct (filter (fun k0 => str_contains k0 name) l) as [|y q] eqn:F; [reflexivity|exfalso].
      assert (In y (filter (fun k0 => str_contains k0 name) l)) as Iy by (rewrite F; left; reflexivity). apply filter_In in Iy. destruct Iy as [Iy Cy]. apply contains_occurs in Cy.
      rewrite (U y (or_intror Iy) Cy) in Iy. contradiction.
    - apply IH; [exact Nl| |intros k' I'; apply U; right; exact I']. destruct I as [->|I]; [|exact I]. apply contains_occurs in O. congruence.
  Qed.
  Lemma only_keys_eq name k ws ws' : map fst ws' = map fst ws -> only_key name k ws -> only_key name k ws'.
  Proof. unfold only_key. intros ->. exact (fun H => H). Qed.
  Lemma set_changed name k v ws : only_key name k ws -> changed k v ws (set_weight name v ws).
  Proof.
    intro O. unfold set_weight. rewrite (keys_only _ _ _ O). destruct O as (_ & I & _). split; [apply assign_keys; exact I|]. split; [apply assign_same|].
    intros k' N. apply assign_other. exact N.
  Qed.
  Lemma get_only name k ws : only_key name k ws -> get_weight name ws = lookup k ws.
  Proof. intro O. unfold get_weight. rewrite (keys_only _ _ _ O). reflexivity. Qed.
  Lemma params_changed name k v ws : only_key name k ws -> exists ws', set_params name v ws = Ok ws' /\ changed k v ws ws'.
  Proof.
    intro O. unfold set_params. rewrite (keys_only _ _ _ O). eexists. split; [reflexivity|]. pose proof (set_changed name k v ws O) as C. unfold set_weight in C. rewrite (keys_only _ _ _ O) in C. exact C.
  Qed.
End Dict.

Section Train.
  Context {V P A : Type}.
  Variables (hard : V -> A -> V) (qconf : A -> P).
  Notation tnode := (@tnode V P). Notation layer := (@layer V). Notation outcome := (@outcome V A).
  Lemma trained_iff (n : tnode) : trained_node n = true <-> trains n.
  Proof.
    unfold trained_node, trains. destruct (t_kernel n) as [k|].
    - rewrite andb_true_iff, negb_true_iff. split; [intros [Q U]; repeat split; [eexists; reflexivity| |]; assumption|intros (_ & Q & U); split; assumption].
    - split; [discriminate|]. intros ((k & E) & _). discriminate.
  Qed.
  Definition layer_of (n : tnode) (l : layer) : Prop :=
    l_name l = t_name n /\ t_kernel n = Some (l_attr l) /\ get_weight (l_attr l) (t_weights n) = Some (l_float l) /\ l_bias l = t_bias n.
  Lemma wrapped_ok (ns : list tnode) ls : wrapped ns = Ok ls -> Forall2 layer_of (compare_points ns) ls.
  Proof.
    revert ls. induction ns as [|n ns IH]; intros ls E; cbn in E; [injection E as <-; constructor|].
    unfold compare_points in *. cbn [filter]. unfold trained_node at 1. destruct (t_reuse n) eqn:Er.
    - destruct (t_kernel n); [rewrite andb_false_r|]; apply IH; exact E.
    - destruct (t_kernel n) as [k|] eqn:Ek; [|apply IH; exact E]. destruct (t_quant n) eqn:Eq; cbn [andb negb]; [|apply IH; exact E].
      destruct (get_weight k (t_weights n)) as [v|] eqn:Eg; [|discriminate]. destruct (wrapped ns) as [r|] eqn:Ew; [|discriminate]. cbn [bind] in E. injection E as <-.
      constructor; [|apply IH; reflexivity]. repeat split; assumption.
  Qed.
  Lemma wrapped_exists (ns : list tnode) : (forall n k, In n ns -> trains n -> t_kernel n = Some k -> exists v, get_weight k (t_weights n) = Some v) -> exists ls, wrapped ns = Ok ls.
  Proof.
    induction ns as [|n ns IH]; intro H; [eexists; reflexivity|]. destruct IH as (ls & E); [intros m k I; apply H; right; exact I|]. cbn.
    destruct (t_reuse n) eqn:Er; [eexists; exact E|]. destruct (t_kernel n) as [k|] eqn:Ek; [|eexists; exact E]. destruct (t_quant n) eqn:Eq; [|eexists; exact E].
    destruct (H n k (or_introl eq_refl)) as (v & Ev); [repeat split; [eexists; exact Ek| |]; assumption|exact Ek|]. rewrite Ev, E. eexists. reflexivity.
  Qed.
  Lemma update_name tb l (o : outcome) (n n' : tnode) : update_node hard qconf tb l o n = Ok n' -> t_name n' = t_name n.
  Proof.
    unfold update_node. destruct (t_kernel n) as [k|]; [|discriminate]. destruct (String.eqb k (l_attr l)); [|discriminate]. destruct (set_params _ _ _); [|discriminate].
    cbn [bind]. intro E. injection E as <-. reflexivity.
  Qed.
  Definition step (tb : bool) (los : list (layer * outcome)) (n n' : tnode) : Prop :=
    match find (fun lo => String.eqb (t_name n) (l_name (fst lo))) los with Some lo => update_node hard qconf tb (fst lo) (snd lo) n = Ok n' | None => n' = n end.
  Lemma update_steps tb los : forall ns : list tnode, NoDup (map (fun lo => l_name (fst lo)) los) ->
    (forall lo, In lo los -> exists n, filter (fun n => String.eqb (t_name n) (l_name (fst lo))) ns = [n] /\ exists n', update_node hard qconf tb (fst lo) (snd lo) n = Ok n') ->
    exists ns', update_graph hard qconf tb ns los = Ok ns' /\ Forall2 (step tb los) ns ns'.
  Proof.
    induction los as [|lo los IH]; intros ns Nd H.
    - exists ns. split; [reflexivity|]. clear. induction ns; constructor; [reflexivity|assumption].
    - inversion Nd as [|? ? Nl Nd' E]. subst. destruct (H lo (or_introl eq_refl)) as (n & Fn & n' & Un). unfold update_graph. cbn [foldM]. unfold update_layer at 1. rewrite Fn, Un. cbn [bind].
      assert (In n ns /\ t_name n = l_name (fst lo)) as [In_ Nn].
      { assert (In n (filter (fun n => String.eqb (t_name n) (l_name (fst lo))) ns)) as I by (rewrite Fn; left; reflexivity). apply filter_In in I. rewrite String.eqb_eq in I. exact I. }
      pose proof (update_name _ _ _ _ _ Un) as Nn'. set (g := fun m : tnode => if String.eqb (t_name m) (l_name (fst lo)) then n' else m).
      assert (Gname : forall m, t_name (g m) = t_name m).
      { intro m. unfold g. destruct (String.eqb_spec (t_name m) (l_name (fst lo))) as [->|]; [congruence|reflexivity]. }
      destruct (IH (map g ns) Nd') as (ns' & E' & F').
      { intros lo' I'. destruct (H lo' (or_intror I')) as (m & Fm & Um). exists m. split; [|exact Um].
        assert (Ne : l_name (fst lo') <> l_name (fst lo)) by (intro Q; apply Nl; rewrite <- Q; apply (in_map (fun x => l_name (fst x))); exact I').
        transitivity (map g (filter (fun n0 => String.eqb (t_name n0) (l_name (fst lo'))) ns)).
        - clear - Gname. induction ns as [|a r IH]; [reflexivity|]. cbn. rewrite Gname. destruct (String.eqb (t_name a) (l_name (fst lo'))); cbn; rewrite IH; reflexivity.
        - rewrite Fm. cbn. unfold g. assert (t_name m = l_name (fst lo')) as ->.
          { assert (In m (filter (fun n => String.eqb (t_name n) (l_name (fst lo'))) ns)) as I by (rewrite Fm; left; reflexivity). apply filter_In in I. rewrite String.eqb_eq in I. apply I. }
          destruct (String.eqb_spec (l_name (fst lo')) (l_name (fst lo))); [contradiction|reflexivity]. }
      exists ns'. split; [exact E'|]. clear E' IH H.
      assert (U : forall m, In m ns -> t_name m = l_name (fst lo) -> m = n).
      { intros m I Q. assert (In m (filter (fun n => String.eqb (t_name n) (l_name (fst lo))) ns)) as J by (apply filter_In; split; [exact I|apply String.eqb_eq; exact Q]).
        rewrite Fn in J. destruct J as [->|[]]. reflexivity. }
      clear Fn In_. revert ns' F'. induction ns as [|a r IH]; intros ns' F'; inversion F' as [|? b ? r' Sb Fr]; subst; constructor.
      + unfold step in *. cbn [find]. rewrite Gname in Sb. unfold g in Sb. destruct (String.eqb_spec (t_name a) (l_name (fst lo))) as [Q|Q]; [|exact Sb].
        rewrite (U a (or_introl eq_refl) Q). destruct (find (fun lo0 => String.eqb (t_name a) (l_name (fst lo0))) los) as [lo'|] eqn:Ef.
        * apply find_some in Ef. destruct Ef as [I' Q']. apply String.eqb_eq in Q'. exfalso. apply Nl. rewrite <- Q, Q'. apply (in_map (fun x => l_name (fst x))). exact I'.
        * subst b. exact Un.
      + apply IH; [intros m I; apply U; right; exact I|exact Fr].
  Qed.
  Lemma update_learned tb l res (n : tnode) kw kb kp : layer_of n l -> named n kw kb kp ->
    exists n', update_node hard qconf tb l (res (t_name n)) n = Ok n'.
  Proof.
    intros (_ & Ek & Eg & Eb) Nm. unfold update_node. rewrite Ek, String.eqb_refl. destruct (nm_kernel _ _ _ _ Nm _ Ek) as [Ow Op].
    destruct (params_changed _ _ (qconf (o_aux (res (t_name n)))) _ Op) as (ps & Ep & _). rewrite Ep. cbn [bind]. eexists. reflexivity.
  Qed.
  Lemma learned_ok tb l res (n n' : tnode) : layer_of n l -> update_node hard qconf tb l (res (t_name n)) n = Ok n' -> learned hard qconf tb res n n'.
  Proof.
    intros (_ & Ek & Eg & Eb) U. unfold update_node in U. rewrite Ek, String.eqb_refl in U. destruct (set_params _ _ _) as [ps|] eqn:Ep; [|discriminate]. cbn [bind] in U. injection U as <-.
    unfold learned. cbn [t_name t_reuse t_kernel t_quant t_bias t_weights t_params]. repeat (split; [reflexivity || (symmetry; exact Ek) || exact Ek|]). intros kw kb kp Nm.
    destruct (nm_kernel _ _ _ _ Nm _ Ek) as [Ow Op].
    destruct (params_changed _ _ (qconf (o_aux (res (t_name n)))) _ Op) as (ps' & Ep' & Cp). rewrite Ep in Ep'. injection Ep' as <-.
    rewrite (get_only _ _ _ Ow) in Eg. set (w' := hard (l_float l) (o_aux (res (t_name n)))).
    destruct (set_changed _ _ w' _ Ow) as (K1 & S1 & O1). set (ws1 := set_weight (l_attr l) w' (t_weights n)) in *. rewrite Eb.
    destruct (t_bias n) eqn:Tb.
    - destruct (nm_bias _ _ _ _ Nm Tb) as [Ob Nk]. pose proof (only_keys_eq _ _ _ _ K1 Ob) as Ob1. rewrite andb_true_r. destruct tb.
      + destruct (set_changed _ _ (o_bias (res (t_name n))) _ Ob1) as (K2 & S2 & O2).
        split; [exists (l_float l); split; [exact Eg|rewrite O2 by congruence; exact S1]|]. split; [intros _; exact S2|].
        split; [intros k N1 N2; rewrite O2 by (apply N2; reflexivity); apply O1; exact N1|]. split; [rewrite K2; exact K1|exact Cp].
      + split; [exists (l_float l); split; [exact Eg|exact S1]|]. split; [intros _; apply O1; exact Nk|]. split; [intros k N1 _; apply O1; exact N1|]. split; [exact K1|exact Cp].
    - rewrite andb_false_r. split; [exists (l_float l); split; [exact Eg|exact S1]|]. split; [discriminate|]. split; [intros k N1 _; apply O1; exact N1|]. split; [exact K1|exact Cp].
  Qed.
  (* names are kept, so a layer without a node of its own stops the update *)
  Lemma update_dup tb los : forall (ns : list tnode) lo, In lo los -> length (filter (fun n => String.eqb (t_name n) (l_name (fst lo))) ns) <> 1 ->
    exists e, update_graph hard qconf tb ns los = Err e.
  Proof.
    induction los as [|lo0 los IH]; intros ns lo I L; [destruct I|]. unfold update_graph. cbn [foldM]. destruct (update_layer hard qconf tb ns lo0) as [ns1|e] eqn:E; [|eexists; reflexivity].
    cbn [bind]. unfold update_layer in E. destruct (filter (fun n => String.eqb (t_name n) (l_name (fst lo0))) ns) as [|n [|? ?]] eqn:Fn; [discriminate| |discriminate].
    destruct (update_node hard qconf tb (fst lo0) (snd lo0) n) as [n'|] eqn:Un; [|discriminate]. cbn [bind] in E. injection E as <-.
    destruct I as [->|I]; [rewrite Fn in L; cbn in L; lia|]. apply (IH _ lo I).
    assert (t_name n = l_name (fst lo0)) as Nn.
    { assert (In n (filter (fun n => String.eqb (t_name n) (l_name (fst lo0))) ns)) as J by (rewrite Fn; left; reflexivity). apply filter_In in J. rewrite String.eqb_eq in J. apply J. }
    pose proof (update_name _ _ _ _ _ Un) as Nn'.
    assert (Q : forall r, length (filter (fun n0 : tnode => String.eqb (t_name n0) (l_name (fst lo))) (map (fun m => if String.eqb (t_name m) (l_name (fst lo0)) then n' else m) r))
              = length (filter (fun n0 : tnode => String.eqb (t_name n0) (l_name (fst lo))) r)).
    { clear - Nn Nn'. induction r as [|a r IHr]; [reflexivity|]. cbn. destruct (String.eqb_spec (t_name a) (l_name (fst lo0))) as [Qa|Qa].
      - assert (t_name n' = t_name a) as -> by congruence. destruct (String.eqb (t_name a) (l_name (fst lo))); cbn; rewrite IHr; reflexivity.
      - destruct (String.eqb (t_name a) (l_name (fst lo))); cbn; rewrite IHr; reflexivity. }
    rewrite Q. exact L.
  Qed.
End Train.

(* the order of the layers of a Keras model *)
Section Order.
  Variable g : list knode.
  Lemma existsb_in n l : existsb (Nat.eqb n) l = true <-> In n l.
  Proof. rewrite existsb_exists. split; [intros (x & I & E); apply Nat.eqb_eq in E; subst; exact I|intro I; exists n; split; [exact I|apply Nat.eqb_refl]]. Qed.
  Lemma visit_nodup fuel : forall seen n, NoDup seen -> NoDup (visit fuel g seen n) /\ incl seen (visit fuel g seen n) /\ (0 < fuel -> In n (visit fuel g seen n)).
  Proof.
    induction fuel as [|f IH]; intros seen n Nd; cbn [visit].
    - destruct (existsb (Nat.eqb n) seen) eqn:E; split; [exact Nd|split; [apply incl_refl|lia]|exact Nd|split; [apply incl_refl|lia]].
    - destruct (existsb (Nat.eqb n) seen) eqn:E.
      + split; [exact Nd|]. split; [apply incl_refl|]. intros _. apply existsb_in. exact E.
      + assert (G : forall ps s, NoDup s -> NoDup (fold_left (visit f g) ps s) /\ incl s (fold_left (visit f g) ps s)).
        { induction ps as [|p ps IHp]; intros s Ns; cbn [fold_left]; [split; [exact Ns|apply incl_refl]|]. destruct (IH s p Ns) as (N1 & I1 & _). destruct (IHp _ N1) as (N2 & I2).
          split; [exact N2|]. eapply incl_tran; [exact I1|exact I2]. }
        assert (N0 : NoDup (seen ++ [n])).
        { apply (Permutation_NoDup (l := n :: seen)); [apply Permutation_cons_append|]. constructor; [|exact Nd]. intro I. apply existsb_in in I. congruence. }
        destruct (G (parents g n) (seen ++ [n]) N0) as [N1 I1]. split; [exact N1|]. split; [intros x X; apply I1, in_or_app; left; exact X|]. intros _. apply I1, in_or_app. right. left. reflexivity.
  Qed.
  Lemma visited_ok outputs : NoDup (visited g outputs) /\ incl outputs (visited g outputs).
  Proof.
    unfold visited. assert (G : forall os s, NoDup s -> NoDup (fold_left (visit (S (length g)) g) os s) /\ incl s (fold_left (visit (S (length g)) g) os s) /\ incl os (fold_left (visit (S (length g)) g) os s)).
    { induction os as [|o os IH]; intros s Ns; cbn [fold_left]; [repeat split; [exact Ns|apply incl_refl|intros x []]|].
      destruct (visit_nodup (S (length g)) s o Ns) as (N1 & I1 & H1). destruct (IH _ N1) as (N2 & I2 & O2).
      split; [exact N2|]. split; [eapply incl_tran; [exact I1|exact I2]|]. intros x [<-|X]; [apply I2, H1; lia|apply O2; exact X]. }
    destruct (G outputs [] (NoDup_nil _)) as (N & _ & I). split; assumption.
  Qed.
  Lemma lmax_ge l x : In x l -> x <= lmax l.
  Proof. induction l as [|y r IH]; [intros []|]. intros [->|I]; cbn [lmax fold_right]; [apply Nat.le_max_l|]. eapply Nat.le_trans; [exact (IH I)|apply Nat.le_max_r]. Qed.
  Lemma layers_perm outputs : Permutation (keras_layers g outputs) (visited g outputs).
  Proof.
    unfold keras_layers. cbv zeta. set (v := visited g outputs). set (m := lmax _).
    assert (B : forall x, In x v -> depth g x <= m) by (intros x X; apply lmax_ge, in_map; exact X).
    assert (Nv : NoDup v) by apply visited_ok.
    apply NoDup_Permutation; [|exact Nv|].
    - assert (G : forall ds, NoDup ds -> NoDup (flat_map (fun d => filter (fun n => Nat.eqb (depth g n) d) v) ds)).
      { induction ds as [|d ds IH]; intro Nds; [constructor|]. inversion Nds as [|? ? Nd Nds' E]. subst. cbn [flat_map].
        assert (Nf : NoDup (filter (fun n => Nat.eqb (depth g n) d) v)) by (apply NoDup_filter; exact Nv). specialize (IH Nds').
        assert (D : forall x, In x (filter (fun n => Nat.eqb (depth g n) d) v) -> ~ In x (flat_map (fun d => filter (fun n => Nat.eqb (depth g n) d) v) ds)).
        { intros x X Y. apply filter_In in X. destruct X as [_ X]. apply Nat.eqb_eq in X. apply in_flat_map in Y. destruct Y as (d' & I' & Y). apply filter_In in Y. destruct Y as [_ Y]. apply Nat.eqb_eq in Y. subst. contradiction. }
        clear - Nf IH D. induction (filter (fun n => Nat.eqb (depth g n) d) v) as [|a r IHr]; [exact IH|]. inversion Nf as [|? ? Na Nr E]. subst. cbn. constructor.
        - intro I. apply in_app_iff in I. destruct I as [I|I]; [contradiction|]. apply (D a (or_introl eq_refl) I).
        - apply IHr; [exact Nr|]. intros x X. apply D. right. exact X. }
      apply G. apply NoDup_rev, seq_NoDup.
    - intro x. rewrite in_flat_map. split; [intros (d & _ & I); apply filter_In in I; apply I|]. intro I. exists (depth g x). split.
      + apply in_rev. rewrite rev_involutive. apply in_seq. specialize (B x I). lia.
      + apply filter_In. split; [exact I|apply Nat.eqb_refl].
  Qed.
  Lemma layers_sorted outputs : StronglySorted (fun a b => depth g b <= depth g a) (keras_layers g outputs).
  Proof.
    unfold keras_layers. cbv zeta. set (v := visited g outputs). generalize (S (lmax (map (depth g) v))). intro m.
    induction m as [|m IH]; [constructor|]. rewrite seq_S, rev_app_distr. cbn [rev app flat_map]. change (0 + m) with m.
    assert (B : forall x, In x (flat_map (fun d => filter (fun n => Nat.eqb (depth g n) d) v) (rev (seq 0 m))) -> depth g x <= m).
    { intros x X. apply in_flat_map in X. destruct X as (d & Id & X). apply in_rev, in_seq in Id. apply filter_In in X. destruct X as [_ X]. apply Nat.eqb_eq in X. lia. }
    assert (F : forall x, In x (filter (fun n => Nat.eqb (depth g n) m) v) -> depth g x = m) by (intros x X; apply filter_In in X; destruct X as [_ X]; apply Nat.eqb_eq; exact X).
    revert F. induction (filter (fun n => Nat.eqb (depth g n) m) v) as [|a r IHr]; intro F; [exact IH|]. cbn. constructor; [apply IHr; intros x X; apply F; right; exact X|].
    apply Forall_forall. intros x X. rewrite (F a (or_introl eq_refl)). apply in_app_iff in X. destruct X as [X|X]; [rewrite (F x (or_intror X)); lia|apply B; exact X].
  Qed.
  Lemma sorted_unique (f : nat -> nat) l l' : Permutation l l' -> StronglySorted (fun a b => f b <= f a) l -> decreasing f l' -> l = l'.
  Proof.
    revert l'. induction l as [|a l IH]; intros l' Pm Ss De; [apply Permutation_nil in Pm; congruence|].
    destruct l' as [|b l']; [apply Permutation_sym, Permutation_nil in Pm; discriminate|].
    inversion Ss as [|? ? Sl Fa]. subst.
    assert (Db : forall x, In x l' -> f x < f b).
    { intros x X. apply (In_nth _ _ 0) in X. destruct X as (i & I & <-). apply (De 0 (S i)). cbn. lia. }
    assert (a = b) as ->.
    { destruct (Permutation_in _ (Permutation_sym Pm) (or_introl eq_refl)) as [E|I]; [exact E|].
      rewrite Forall_forall in Fa. specialize (Fa b I). destruct (Permutation_in _ Pm (or_introl eq_refl)) as [E|I']; [congruence|]. specialize (Db a I'). lia. }
    f_equal. apply IH; [apply Permutation_cons_inv in Pm; exact Pm|exact Sl|]. intros i j I. apply (De (S i) (S j)). cbn. lia.
  Qed.
  Lemma sorted_filter (f : nat -> nat) q l : StronglySorted (fun a b => f b <= f a) l -> StronglySorted (fun a b => f b <= f a) (filter q l).
  Proof.
    induction l as [|a l IH]; intro Ss; [constructor|]. inversion Ss as [|? ? Sl Fa]. subst. cbn. destruct (q a); [|apply IH; exact Sl]. constructor; [apply IH; exact Sl|].
    rewrite Forall_forall in *. intros x X. apply filter_In in X. apply Fa, X.
  Qed.
  Lemma layers_in_order outputs : NoDup outputs -> decreasing (depth g) outputs -> filter (fun n => existsb (Nat.eqb n) outputs) (keras_layers g outputs) = outputs.
  Proof.
    intros Nd De. apply (sorted_unique (depth g)); [|apply sorted_filter, layers_sorted|exact De].
    destruct (visited_ok outputs) as [Nv Iv]. pose proof (layers_perm outputs) as Pm. apply NoDup_Permutation; [apply NoDup_filter; apply (Permutation_NoDup (Permutation_sym Pm)); exact Nv|exact Nd|].
    intro x. rewrite filter_In, existsb_in. split; [intros [_ H]; exact H|]. intro I. split; [|exact I]. apply (Permutation_in _ (Permutation_sym Pm)), Iv. exact I.
  Qed.
End Order.
