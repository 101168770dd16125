(* ConcatProofs.v -- proofs for C95. *)
From Coq Require Import List Arith Lia QArith Bool.
From Verif Require Import Base ConcatModel ConcatSpec.
Import ListNotations.
Open Scope nat_scope.
Open Scope res_scope.

Section P.
  Variables a b : ty.
  Definition plain (n : node) : bool := negb (Nat.eqb (tobj (n_ty n)) (tobj a)) && negb (Nat.eqb (tobj (n_ty n)) (tobj b)).
  Lemma plain_spec n : plain n = true <-> ~ is_concat a b n.
  Proof. unfold plain, is_concat. rewrite andb_true_iff, !negb_true_iff, !Nat.eqb_neq. tauto. Qed.
  Definition elig (es : list (nat * nat)) (n : node) : bool := Nat.eqb (length (filter (fun e => Nat.eqb (fst e) (n_id n)) es)) 1 && plain n.
  Lemma set_thr_id t n : n_id (set_thr t n) = n_id n. Proof. reflexivity. Qed.
  Lemma set_thr_ty t n : n_ty (set_thr t n) = n_ty n. Proof. reflexivity. Qed.
  Lemma set_thr_twice t n : set_thr t (set_thr t n) = set_thr t n.
  Proof. unfold set_thr. cbn. destruct (n_cands n); reflexivity. Qed.
  Lemma set_thr_ne t n : n_cands n <> [] -> n_cands (set_thr t n) <> [].
  Proof. unfold set_thr. cbn. destruct (n_cands n); [congruence|discriminate]. Qed.
  Lemma find_in (l : list node) n es : NoDup (map n_id l) -> In n l -> find (mk_graph l es) (n_id n) = Ok n.
  Proof.
    unfold find. cbn. induction l as [|m l IH]; intros N I; [contradiction|]. cbn. cbn in N. inversion N as [|? ? Hn N']. subst.
    destruct I as [->|I]; [rewrite Nat.eqb_refl; reflexivity|]. destruct (Nat.eqb_spec (n_id m) (n_id n)) as [E|E]; [exfalso; apply Hn; rewrite E; apply in_map; exact I|]. apply IH; assumption.
  Qed.
  (* the nodes after the previous nodes in l are given threshold t *)
  Definition mark (es : list (nat * nat)) (t : Q) (l : list nat) (n : node) : node := if elig es n && existsb (Nat.eqb (n_id n)) l then set_thr t n else n.
  Lemma mark_id es t l n : n_id (mark es t l n) = n_id n. Proof. unfold mark. destruct (_ && _); reflexivity. Qed.
  Lemma mark_ty es t l n : n_ty (mark es t l n) = n_ty n. Proof. unfold mark. destruct (_ && _); reflexivity. Qed.
  Lemma prevs t es : forall l ns, NoDup (map n_id ns) -> Forall (fun n => n_cands n <> []) ns -> (forall p, In p l -> In p (map n_id ns)) ->
    foldM (one_prev a b t) l (mk_graph ns es) = Ok (mk_graph (map (mark es t l) ns) es).
  Proof.
    induction l as [|p l IH]; intros ns N C I.
    - cbn [foldM]. f_equal. f_equal. transitivity (map (fun n : node => n) ns); [symmetry; apply map_id|]. apply map_ext. intro n. unfold mark. cbn. rewrite andb_false_r. reflexivity.
    - cbn [foldM]. assert (Ip : In p (map n_id ns)) by (apply I; left; reflexivity). apply in_map_iff in Ip. destruct Ip as (n & <- & In').
      unfold one_prev at 1. rewrite (find_in ns n es N In'). cbn [bind].
      assert (Step : (if Nat.eqb (length (next_nodes (mk_graph ns es) (n_id n))) 1 && negb (Nat.eqb (tobj (n_ty n)) (tobj a)) && negb (Nat.eqb (tobj (n_ty n)) (tobj b))
          then match n_cands n with [] => Err E_index | _ => Ok (update (mk_graph ns es) (n_id n) (set_thr t)) end else Ok (mk_graph ns es))
          = Ok (mk_graph (map (mark es t [n_id n]) ns) es)).
      { rewrite <- andb_assoc. unfold next_nodes. cbn [g_edges]. rewrite map_length. fold (plain n). fold (elig es n).
        assert (Same : forall m, In m ns -> n_id m = n_id n -> m = n).
        { intros m Im E. pose proof (find_in ns m es N Im) as F1. rewrite E, (find_in ns n es N In') in F1. congruence. }
        destruct (elig es n) eqn:El.
        - pose proof (proj1 (Forall_forall _ _) C n In') as Cn. cbn beta in Cn. destruct (n_cands n) as [|c r] eqn:Ec; [congruence|]. unfold update. cbn [g_nodes g_edges]. f_equal. f_equal.
          apply map_ext_in. intros m Im. unfold mark. cbn [existsb]. rewrite orb_false_r. destruct (Nat.eqb_spec (n_id m) (n_id n)) as [E|E]; [|rewrite andb_false_r; reflexivity].
          rewrite (Same m Im E), El. reflexivity.
        - f_equal. f_equal. transitivity (map (fun n : node => n) ns); [symmetry; apply map_id|]. apply map_ext_in. intros m Im. unfold mark. cbn [existsb]. rewrite orb_false_r.
          destruct (Nat.eqb_spec (n_id m) (n_id n)) as [E|E]; [|rewrite andb_false_r; reflexivity]. rewrite (Same m Im E), El. reflexivity. }
      rewrite Step. cbn [bind]. rewrite IH.
      + f_equal. f_equal. rewrite map_map. apply map_ext. intro m. unfold mark at 1.
        assert (Ee : elig es (mark es t [n_id n] m) = elig es m) by (unfold elig, plain; rewrite mark_id, mark_ty; reflexivity). rewrite Ee, mark_id. unfold mark. cbn [existsb]. rewrite orb_false_r.
        destruct (elig es m); cbn [andb]; [|reflexivity]. destruct (Nat.eqb (n_id m) (n_id n)), (existsb (Nat.eqb (n_id m)) l); cbn [orb]; try reflexivity. apply set_thr_twice.
      + rewrite map_map. erewrite map_ext; [exact N|]. intro m. apply mark_id.
      + apply Forall_forall. intros m Im. apply in_map_iff in Im. destruct Im as (m' & <- & Im'). pose proof (proj1 (Forall_forall _ _) C m' Im') as Cm. clear Step. unfold mark. destruct (elig es m' && existsb (Nat.eqb (n_id m')) [n_id n]); [apply set_thr_ne; exact Cm|exact Cm].
      + intros q Iq. rewrite map_map. erewrite map_ext; [apply I; right; exact Iq|]. intro m. apply mark_id.
  Qed.

  Variable g : graph.
  Hypothesis G : graph_ok g.
  Hypothesis U : unambiguous a b g.
  Let ns := g_nodes g.
  Let es := g_edges g.
  Definition thr_of (i : nat) : option Q := match find g i with Ok m => match n_cands m with [c] => c_thr c | _ => None end | Err _ => None end.
  (* the nodes after the concatenations in d are processed *)
  Definition upd (d : list nat) (n : node) : node :=
    if plain n then match filter (fun e => Nat.eqb (fst e) (n_id n)) es with
      | [e] => if existsb (Nat.eqb (snd e)) d then match thr_of (snd e) with Some t => set_thr t n | None => n end else n
      | _ => n end else n.
  Lemma upd_id d n : n_id (upd d n) = n_id n.
  Proof. unfold upd. destruct (plain n); [|reflexivity]. destruct (filter _ es) as [|e [|? ?]]; try reflexivity. destruct (existsb _ d); [|reflexivity]. destruct (thr_of (snd e)); reflexivity. Qed.
  Lemma upd_ty d n : n_ty (upd d n) = n_ty n.
  Proof. unfold upd. destruct (plain n); [|reflexivity]. destruct (filter _ es) as [|e [|? ?]]; try reflexivity. destruct (existsb _ d); [|reflexivity]. destruct (thr_of (snd e)); reflexivity. Qed.
  Lemma upd_ne d n : n_cands n <> [] -> n_cands (upd d n) <> [].
  Proof. intro H. unfold upd. destruct (plain n); [|exact H]. destruct (filter _ es) as [|e [|? ?]]; try exact H. destruct (existsb _ d); [|exact H]. destruct (thr_of (snd e)); [apply set_thr_ne; exact H|exact H]. Qed.
  Lemma g_eta : mk_graph ns es = g. Proof. destruct g; reflexivity. Qed.
  Lemma step d i n : In n ns -> n_id n = i -> matched a b n = true ->
    substitute1 a b (mk_graph (map (upd d) ns) es) i = Ok (mk_graph (map (upd (i :: d)) ns) es).
  Proof.
    intros I E M. destruct G as (N & Ed & C). pose proof (proj1 (Forall_forall _ _) U n I) as Cn. cbn beta in Cn. specialize (Cn M).
    assert (Pn : plain n = false) by (destruct (plain n) eqn:P; [apply plain_spec in P; contradiction|reflexivity]).
    assert (Un : upd d n = n) by (unfold upd; rewrite Pn; reflexivity).
    assert (N' : NoDup (map n_id (map (upd d) ns))) by (rewrite map_map; erewrite map_ext; [exact N|intro m; apply upd_id]).
    assert (C' : Forall (fun n => n_cands n <> []) (map (upd d) ns)).
    { apply Forall_forall. intros m Im. apply in_map_iff in Im. destruct Im as (m' & <- & Im'). apply upd_ne. exact (proj1 (Forall_forall _ _) C m' Im'). }
    unfold substitute1. subst i. rewrite <- Un at 1. rewrite find_in; [|exact N'|apply in_map; exact I]. cbn [bind]. rewrite Un.
    assert (T : thr_of (n_id n) = match n_cands n with [c] => c_thr c | _ => None end) by (unfold thr_of; rewrite <- g_eta, (find_in ns n es N I); reflexivity).
    assert (Keep : thr_of (n_id n) = None -> map (upd d) ns = map (upd (n_id n :: d)) ns).
    { intro H. apply map_ext. intro m. unfold upd. destruct (plain m); [|reflexivity]. destruct (filter _ es) as [|e [|? ?]]; try reflexivity. cbn [existsb].
      destruct (Nat.eqb_spec (snd e) (n_id n)) as [Ee|Ee]; [|reflexivity]. rewrite Ee, H. cbn [orb]. destruct (existsb _ d); reflexivity. }
    destruct (n_cands n) as [|c [|c' r]] eqn:Ec; try (rewrite (Keep T); reflexivity).
    destruct (c_thr c) as [t|] eqn:Et; [|rewrite (Keep T); reflexivity].
    rewrite prevs; [|exact N'|exact C'|].
    - f_equal. f_equal. rewrite map_map. apply map_ext_in. intros m Im. unfold mark. assert (Ee : elig es (upd d m) = elig es m) by (unfold elig, plain; rewrite upd_id, upd_ty; reflexivity).
      rewrite Ee, upd_id. unfold elig, prev_nodes. cbn [g_edges]. unfold upd. destruct (plain m); [|rewrite andb_false_r; reflexivity]. rewrite andb_true_r.
      assert (Px : existsb (Nat.eqb (n_id m)) (map fst (filter (fun e => Nat.eqb (snd e) (n_id n)) es)) = existsb (fun e => Nat.eqb (snd e) (n_id n)) (filter (fun e => Nat.eqb (fst e) (n_id m)) es)).
      { clear. induction es as [|e l IH]; [reflexivity|]. cbn. destruct (Nat.eqb_spec (snd e) (n_id n)) as [E1|E1], (Nat.eqb_spec (fst e) (n_id m)) as [E2|E2]; cbn; try exact IH.
        - rewrite (proj2 (Nat.eqb_eq _ _) E1), E2, Nat.eqb_refl. reflexivity.
        - rewrite (proj2 (Nat.eqb_neq (n_id m) (fst e))) by congruence. exact IH.
        - rewrite (proj2 (Nat.eqb_neq _ _) E1). exact IH. }
      rewrite Px. destruct (filter (fun e => Nat.eqb (fst e) (n_id m)) es) as [|e [|e2 r]]; try reflexivity. cbn [length Nat.eqb existsb andb]. rewrite orb_false_r.
      destruct (Nat.eqb_spec (snd e) (n_id n)) as [E1|E1]; [|reflexivity]. rewrite E1, T. cbn [orb]. destruct (existsb _ d); [apply set_thr_twice|reflexivity].
    - intros p Ip. unfold prev_nodes in Ip. apply in_map_iff in Ip. destruct Ip as ([s x] & Hs & Ip). cbn in Hs. subst s. apply filter_In in Ip. destruct Ip as [Ip _]. cbn [g_edges] in Ip.
      destruct (Ed p x Ip) as [Hp _]. rewrite map_map. erewrite map_ext; [exact Hp|intro m; apply upd_id].
  Qed.
  Lemma all : forall l d, (forall i, In i l -> exists n, In n ns /\ n_id n = i /\ matched a b n = true) ->
    foldM (substitute1 a b) l (mk_graph (map (upd d) ns) es) = Ok (mk_graph (map (upd (rev l ++ d)) ns) es).
  Proof.
    induction l as [|i l IH]; intros d H; [reflexivity|]. cbn [foldM]. destruct (H i (or_introl eq_refl)) as (n & I & E & M). rewrite (step d i n I E M). cbn [bind].
    rewrite IH by (intros j J; apply H; right; exact J). cbn [rev]. rewrite <- app_assoc. reflexivity.
  Qed.
  Let done := rev (map n_id (filter (matched a b) ns)) ++ [].
  Lemma result : concat_update a b g = Ok (mk_graph (map (upd done) ns) es).
  Proof.
    assert (E0 : map (upd []) ns = ns).
    { transitivity (map (fun n : node => n) ns); [|apply map_id]. apply map_ext. intro n. unfold upd. destruct (plain n); [|reflexivity]. destruct (filter _ es) as [|e [|? ?]]; reflexivity. }
    unfold concat_update. transitivity (foldM (substitute1 a b) (map n_id (filter (matched a b) ns)) (mk_graph (map (upd []) ns) es)); [rewrite E0, g_eta; reflexivity|].
    apply all. intros i I. apply in_map_iff in I. destruct I as (n & E & I). apply filter_In in I. destruct I as [I M]. exists n. repeat split; assumption.
  Qed.
  Lemma id_inj m m' : In m ns -> In m' ns -> n_id m = n_id m' -> m = m'.
  Proof. intros I I' E. destruct G as (N & _). pose proof (find_in ns m es N I) as F. rewrite E, (find_in ns m' es N I') in F. congruence. Qed.
  Lemma upd_yes n t : In n ns -> gets a b g n t -> upd done n = set_thr t n.
  Proof.
    intros I (P & m & Im & Cm & F & c & Ec & Et). apply plain_spec in P. unfold upd. rewrite P. unfold feeds_only in F. unfold es. rewrite F. cbn [snd].
    assert (D : existsb (Nat.eqb (n_id m)) done = true).
    { apply existsb_exists. exists (n_id m). split; [|apply Nat.eqb_refl]. unfold done. rewrite app_nil_r. apply -> in_rev. apply in_map. apply filter_In. split; [exact Im|].
      unfold matched, match_type. apply orb_true_iff. destruct Cm as [E|E]; [left|right]; rewrite (proj2 (Nat.eqb_eq _ _) (eq_sym E)), ?orb_true_r; destruct (functional (n_ty m)); reflexivity. }
    rewrite D. unfold thr_of. destruct G as (N & _). rewrite <- g_eta, (find_in ns m es N Im), Ec, Et. reflexivity.
  Qed.
  Lemma upd_no n : In n ns -> (forall t, ~ gets a b g n t) -> upd done n = n.
  Proof.
    intros I H. unfold upd. destruct (plain n) eqn:P; [|reflexivity]. destruct (filter (fun e => Nat.eqb (fst e) (n_id n)) es) as [|[s x] [|? ?]] eqn:F; try reflexivity. cbn [snd].
    destruct (existsb (Nat.eqb x) done) eqn:D; [|reflexivity]. apply existsb_exists in D. destruct D as (y & D & E). apply Nat.eqb_eq in E. subst y. unfold done in D. rewrite app_nil_r in D. apply in_rev in D.
    apply in_map_iff in D. destruct D as (m & E & Im). apply filter_In in Im. destruct Im as [Im M]. unfold thr_of. destruct G as (N & _). rewrite <- E, <- g_eta, (find_in ns m es N Im).
    destruct (n_cands m) as [|c [|? ?]] eqn:Ec; try reflexivity. destruct (c_thr c) as [t|] eqn:Et; [|reflexivity]. exfalso. apply (H t). split; [apply plain_spec; exact P|]. exists m. split; [exact Im|].
    split; [exact (proj1 (Forall_forall _ _) U m Im M)|]. split; [|exists c; split; assumption]. unfold feeds_only. change (g_edges g) with es. rewrite F. f_equal. f_equal; [|symmetry; exact E].
    assert (Is : In (s, x) (filter (fun e => Nat.eqb (fst e) (n_id n)) es)) by (rewrite F; left; reflexivity). apply filter_In in Is. destruct Is as [_ Is]. apply Nat.eqb_eq in Is. exact Is.
  Qed.
End P.
