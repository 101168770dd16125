(* FuserProofs.v -- lemmas about replacing the nodes of a fused operation by one node. *)
From Coq Require Import Permutation Sorted Lia String.
From Verif Require Import Base GraphModel GraphSpec GraphProofs GraphProps GraphFindProps FuseModel FuseSpec FuseProofs FuseGenProofs.
Open Scope list_scope.
Open Scope res_scope.
Local Open Scope nat_scope.

Lemma foldM_app {A S} (h : S -> A -> result S) l1 : forall l2 s, foldM h (l1 ++ l2) s = let! t := foldM h l1 s in foldM h l2 t.
Proof. induction l1 as [|x l1 IH]; intros l2 s; [reflexivity|]. cbn. destruct (h s x); cbn; [apply IH|reflexivity]. Qed.
(* two loops agree while an invariant holds *)
Lemma foldM_inv {A S} (Inv : S -> Prop) (h h' : S -> A -> result S) l :
  (forall s x, In x l -> Inv s -> h s x = h' s x /\ forall s', h' s x = Ok s' -> Inv s') ->
  forall s, Inv s -> foldM h l s = foldM h' l s /\ forall s', foldM h' l s = Ok s' -> Inv s'.
Proof.
  induction l as [|x l IH]; intros H s I.
  - split; [reflexivity|]. intros s' E. cbn in E. congruence.
  - cbn. destruct (H s x (or_introl eq_refl) I) as [E K]. rewrite E. destruct (h' s x) as [t|] eqn:T; cbn; [|split; [reflexivity|discriminate]].
    apply IH; [|apply K; reflexivity]. intros s' y J. apply H. right. exact J.
Qed.
Lemma foldM_mono {A S} (h h' : S -> A -> result S) l : (forall s x s', h s x = Ok s' -> h' s x = Ok s') -> forall s s', foldM h l s = Ok s' -> foldM h' l s = Ok s'.
Proof.
  intro H. induction l as [|x l IH]; intros s s' E; [exact E|]. cbn in *. destruct (h s x) as [t|] eqn:T; [|discriminate]. rewrite (H s x t T). cbn in *. apply IH, E.
Qed.
Lemma checked_mono check g g' : checked check g = Ok g' -> checked no_check g = Ok g'.
Proof. intro H. apply checked_ok in H. subst. reflexivity. Qed.
Lemma add_edge_mono check g e g' : add_edge check g e = Ok g' -> add_edge no_check g e = Ok g'.
Proof. apply checked_mono. Qed.
Lemma remove_edge_mono check g u v g' : remove_edge check g u v = Ok g' -> remove_edge no_check g u v = Ok g'.
Proof. unfold remove_edge. destruct (remove_edge_nx g u v); [|discriminate]. apply checked_mono. Qed.
Lemma remove_node_mono check g n i o g' : remove_node check g n i o = Ok g' -> remove_node no_check g n i o = Ok g'.
Proof.
  unfold remove_node, set_outputs, set_inputs. intro H.
  destruct (if mem n (map fst (g_out g)) then match o with None => Err E_critical | Some l => checked check (set_out g l) end else Ok g) as [g1|] eqn:E1; [|discriminate].
  assert ((if mem n (map fst (g_out g)) then match o with None => Err E_critical | Some l => checked no_check (set_out g l) end else Ok g) = Ok g1) as ->.
  { destruct (mem n (map fst (g_out g))); [|exact E1]. destruct o; [|discriminate]. exact (checked_mono check _ _ E1). }
  cbn [bind] in *.
  destruct (if mem n (g_in g1) then match i with None => Err E_critical | Some l => checked check (set_in g1 l) end else Ok g1) as [g2|] eqn:E2; [|discriminate].
  assert ((if mem n (g_in g1) then match i with None => Err E_critical | Some l => checked no_check (set_in g1 l) end else Ok g1) = Ok g2) as ->.
  { destruct (mem n (g_in g1)); [|exact E2]. destruct i; [|discriminate]. exact (checked_mono check _ _ E2). }
  cbn [bind] in *. destruct (in_edges g2 n), (out_edges g2 n); try discriminate. destruct (remove_node_nx g2 n); [|discriminate]. exact (checked_mono check _ _ H).
Qed.
Lemma bind_mono {A B} (r r' : result A) (k k' : A -> result B) y : (forall x, r = Ok x -> r' = Ok x) -> (forall x, k x = Ok y -> k' x = Ok y) -> bind r k = Ok y -> bind r' k' = Ok y.
Proof. intros H K E. destruct r as [x|]; [|discriminate]. rewrite (H x eq_refl). cbn in *. apply K, E. Qed.
Lemma fuse_group_mono check g ns f g' : fuse_group check g ns f = Ok g' -> fuse_group no_check g ns f = Ok g'.
Proof.
  unfold fuse_group. destruct ns as [|a ns]; [auto|]. set (N := a :: ns).
  apply bind_mono.
  { intro x. apply foldM_mono. intros s p s'. apply bind_mono; [auto|]. intro e. apply bind_mono; [intro; apply add_edge_mono|]. intro t. apply remove_edge_mono. }
  intro g1. apply bind_mono.
  { intro x. apply foldM_mono. intros s p s'. apply bind_mono; [auto|]. intro e. apply bind_mono; [intro; apply add_edge_mono|]. intro t. apply remove_edge_mono. }
  intro g2. apply bind_mono.
  { intro x. apply foldM_mono. intros s p s'. apply foldM_mono. intros t m t'. destruct (negb (mem m N)); [discriminate|]. apply bind_mono; [intro; apply remove_edge_mono|].
    intro u. apply foldM_mono. intros ? ? ?. apply remove_edge_mono. }
  intro g3. cbv zeta. apply bind_mono; [|auto].
  intro x. apply foldM_mono. intros s n s'. destruct (mem n (map fst (g_out g3))); apply remove_node_mono.
Qed.

(* ---- the loops at the ends are those of reconnect_in_edges and reconnect_out_edges ---- *)
Lemma single_between (key : edge -> nat) : forall (l : list edge) e, NoDup (map key l) -> In e l -> filter (fun x => Nat.eqb (key x) (key e)) l = [e].
Proof.
  induction l as [|x l IH]; intros e N I; [destruct I|]. cbn in *. inversion N as [|? ? N1 N2]; subst. destruct I as [->|I].
  - rewrite Nat.eqb_refl. f_equal. apply filter_nil. intros y J. apply Nat.eqb_neq. intro E. apply N1. rewrite <- E. apply in_map, J.
  - destruct (Nat.eqb_spec (key x) (key e)) as [E|E]; [|apply IH; assumption]. exfalso. apply N1. rewrite E. apply in_map, I.
Qed.
Lemma between_remove_other g u v g' a b : remove_edge_nx g u v = Ok g' -> (u <> a \/ v <> b) -> between g' a b = between g a b.
Proof.
  unfold remove_edge_nx. destruct (remove_first _ _) as [es|] eqn:E; [|discriminate]. intros H D. inversion H; subst. clear H. apply remove_first_spec in E.
  destruct E as (p & x & q & E1 & -> & P & _). unfold between. cbn [g_edges set_edges].
  rewrite <- (rev_involutive (g_edges g)), E1, !rev_app_distr. cbn [rev]. rewrite !filter_app. cbn [filter].
  apply is_between_spec in P. destruct P as [P1 P2]. assert (is_between a b x = false) as ->.
  { apply Bool.not_true_is_false. rewrite is_between_spec. intros [? ?]. destruct D; congruence. }
  rewrite app_nil_r. reflexivity.
Qed.
Lemma between_add_other g e a b : (src e <> a \/ snk e <> b) -> between (add_edge_nx g e) a b = between g a b.
Proof.
  intro D. unfold between, add_edge_nx. cbn [g_edges set_edges]. rewrite filter_app. cbn [filter].
  assert (is_between a b e = false) as ->. { apply Bool.not_true_is_false. rewrite is_between_spec. intros [? ?]. destruct D; congruence. }
  rewrite app_nil_r. unfold add_node_nx. repeat (match goal with |- context [if ?c then _ else _] => destruct c end; cbn [g_edges set_nodes]); reflexivity.
Qed.
Lemma in_loop_same c f : c <> f -> forall l g, NoDup (map src l) -> (forall e, In e l -> between g (src e) c = [e]) ->
  foldM (fun g p => let! e := oldest g p c in let! g := add_edge no_check g (Edge p f (si e) (ti e)) in remove_edge no_check g p c) (map src l) g =
  foldM (fun g ie => let! g := add_edge no_check g (Edge (src ie) f (si ie) (ti ie)) in remove_edge no_check g (src ie) c) l g.
Proof.
  intro CF. induction l as [|e l IH]; intros g N B; [reflexivity|]. cbn [map foldM]. unfold oldest at 1. rewrite (B e (or_introl eq_refl)). cbn [bind].
  change (add_edge no_check g (Edge (src e) f (si e) (ti e))) with (Ok (add_edge_nx g (Edge (src e) f (si e) (ti e)))). cbn [bind].
  inversion N as [|? ? N1 N2]; subst. unfold remove_edge at 1 3. destruct (remove_edge_nx _ (src e) c) as [h|] eqn:R; cbn [bind]; [|reflexivity].
  cbn [checked no_check bind]. apply IH; [exact N2|]. intros x I. rewrite (between_remove_other _ _ _ _ _ _ R).
  - rewrite between_add_other; [apply B; right; exact I|]. right. cbn. congruence.
  - left. intro E. apply N1. rewrite E. apply in_map, I.
Qed.
Lemma out_loop_same c f : c <> f -> forall l g, NoDup (map snk l) -> (forall e, In e l -> between g c (snk e) = [e]) ->
  foldM (fun g s => let! e := oldest g c s in let! g := add_edge no_check g (Edge f s (si e) (ti e)) in remove_edge no_check g c s) (map snk l) g =
  foldM (fun g oe => let! g := add_edge no_check g (Edge f (snk oe) (si oe) (ti oe)) in remove_edge no_check g c (snk oe)) l g.
Proof.
  intro CF. induction l as [|e l IH]; intros g N B; [reflexivity|]. cbn [map foldM]. unfold oldest at 1. rewrite (B e (or_introl eq_refl)). cbn [bind].
  change (add_edge no_check g (Edge f (snk e) (si e) (ti e))) with (Ok (add_edge_nx g (Edge f (snk e) (si e) (ti e)))). cbn [bind].
  inversion N as [|? ? N1 N2]; subst. unfold remove_edge at 1 3. destruct (remove_edge_nx _ c (snk e)) as [h|] eqn:R; cbn [bind]; [|reflexivity].
  cbn [checked no_check bind]. apply IH; [exact N2|]. intros x I. rewrite (between_remove_other _ _ _ _ _ _ R).
  - rewrite between_add_other; [apply B; right; exact I|]. left. cbn. congruence.
  - right. intro E. apply N1. rewrite E. apply in_map, I.
Qed.
Lemma bind_ok {A} (r : result A) : (let! x := r in Ok x) = r.
Proof. destruct r; reflexivity. Qed.
Lemma in_loop g c f : c <> f -> NoDup (map src (filter (fun e => Nat.eqb (snk e) c) (g_edges g))) ->
  foldM (fun g p => let! e := oldest g p c in let! g := add_edge no_check g (Edge p f (si e) (ti e)) in remove_edge no_check g p c) (prev_nodes g c) g = reconnect_in_edges no_check g c f.
Proof.
  intros CF N. unfold prev_nodes. rewrite in_loop_same; [|exact CF| |].
  - unfold reconnect_in_edges. destruct (foldM _ _ g); reflexivity.
  - eapply Permutation_NoDup; [|exact N]. apply Permutation_map. symmetry. apply in_edges_perm.
  - intros e I. unfold between. rewrite (filter_ext _ (fun x => Nat.eqb (snk x) c && Nat.eqb (src x) (src e))) by (intro; unfold is_between; apply andb_comm). rewrite filter_and. apply single_between; [exact N|].
    apply in_edges_in in I. apply filter_In. split; [apply I|]. apply Nat.eqb_eq, I.
Qed.
Lemma out_loop g c f : c <> f -> NoDup (map snk (filter (fun e => Nat.eqb (src e) c) (g_edges g))) ->
  foldM (fun g s => let! e := oldest g c s in let! g := add_edge no_check g (Edge f s (si e) (ti e)) in remove_edge no_check g c s) (next_nodes g c) g = reconnect_out_edges no_check g c f.
Proof.
  intros CF N. unfold next_nodes. rewrite out_loop_same; [|exact CF| |].
  - unfold reconnect_out_edges. destruct (foldM _ _ g); reflexivity.
  - eapply Permutation_NoDup; [|exact N]. apply Permutation_map. symmetry. apply out_edges_perm.
  - intros e I. unfold between, is_between. rewrite filter_and. apply single_between; [exact N|].
    apply out_edges_in in I. apply filter_In. split; [apply I|]. apply Nat.eqb_eq, I.
Qed.

(* ---- removing what enters the later nodes ---- *)
Lemma remove_edge_no_check g u v : remove_edge no_check g u v = remove_edge_nx g u v.
Proof. unfold remove_edge. destruct (remove_edge_nx g u v); reflexivity. Qed.
Lemma clear_in m : forall l g, Permutation (map src l) (map src (filter (fun e => Nat.eqb (snk e) m) (g_edges g))) ->
  exists g', foldM (fun g ie => remove_edge no_check g (src ie) m) l g = Ok g' /\ g' = set_edges g (g_edges g') /\
             Permutation (g_edges g') (filter (fun e => negb (Nat.eqb (snk e) m)) (g_edges g)).
Proof.
  induction l as [|x l IH]; intros g P.
  - exists g. split; [reflexivity|]. split; [destruct g; reflexivity|]. cbn in P. apply Permutation_nil in P. apply map_eq_nil in P. rewrite filter_all; [reflexivity|].
    intros e I. destruct (Nat.eqb (snk e) m) eqn:E; [|reflexivity]. exfalso. assert (In e (filter (fun e => Nat.eqb (snk e) m) (g_edges g))) as J by (apply filter_In; auto). rewrite P in J. destruct J.
  - assert (In (src x) (map src (filter (fun e => Nat.eqb (snk e) m) (g_edges g)))) as I by (apply (Permutation_in _ P); left; reflexivity).
    apply in_map_iff in I. destruct I as (e & E & I). apply filter_In in I. destruct I as [I M]. apply Nat.eqb_eq in M.
    destruct (remove_edge_total g (src x) m e I E M) as [h R]. cbn [foldM]. rewrite remove_edge_no_check, R. cbn [bind].
    destruct (remove_edge_spec g (src x) m h R) as (d & D1 & D2 & D3 & D4).
    destruct (IH h) as (g' & F & S & Q).
    + pose proof (filter_perm (fun e => Nat.eqb (snk e) m) _ _ D3) as Z. cbn [filter] in Z. rewrite D2, Nat.eqb_refl in Z. apply (Permutation_map src) in Z. cbn [map] in Z, P. rewrite D1 in Z.
      apply (Permutation_cons_inv (a := src x)). etransitivity; [exact P|]. exact Z.
    + exists g'. split; [exact F|]. split; [rewrite S, D4; reflexivity|]. rewrite Q.
      pose proof (filter_perm (fun e => negb (Nat.eqb (snk e) m)) _ _ D3) as Z. cbn [filter] in Z. rewrite D2, Nat.eqb_refl in Z. cbn [negb] in Z. symmetry. exact Z.
Qed.
Lemma perm_one {A} (x : A) l : Permutation [x] l -> l = [x].
Proof. apply Permutation_length_1_inv. Qed.
Definition clear_loop check ns := (fun g c => foldM (fun g m =>
                         if negb (mem m ns) then Err E_assert else
                         let! g := remove_edge check g c m in
                         foldM (fun g ie => remove_edge check g (src ie) m) (in_edges g m) g) (next_nodes g c) g).
Lemma only_next_edges g a b : only_next g a b -> next_nodes g a = [b].
Proof. intros (e & H & <-). unfold next_nodes. rewrite (perm_one e (out_edges g a)); [reflexivity|]. rewrite <- H. symmetry. apply out_edges_perm. Qed.
Lemma only_next_keep g g' a b (keep : edge -> bool) : Permutation (g_edges g') (filter keep (g_edges g)) -> (forall e, In e (g_edges g) -> src e = a -> keep e = true) ->
  only_next g a b -> only_next g' a b.
Proof.
  intros P K (e & H & E). exists e. split; [|exact E]. apply perm_one. rewrite <- H. pose proof (filter_perm (fun x => Nat.eqb (src x) a) _ _ P) as Q. rewrite Q. clear P Q H. symmetry.
  induction (g_edges g) as [|x l IH]; [reflexivity|]. cbn [filter]. specialize (IH (fun y I => K y (or_intror I))). destruct (keep x) eqn:KX; cbn [filter].
  - destruct (Nat.eqb (src x) a); [apply perm_skip|]; exact IH.
  - destruct (Nat.eqb_spec (src x) a) as [S|S]; [rewrite (K x (or_introl eq_refl) S) in KX; discriminate|exact IH].
Qed.
Lemma steps_impl (R R' : nat -> nat -> Prop) l : (forall a b, In a (removelast l) -> In b (tl l) -> R a b -> R' a b) -> steps R l -> steps R' l.
Proof.
  induction l as [|a l IH]; intros H S; [exact I|]. destruct l as [|b l]; [exact I|]. destruct S as [S1 S2]. split.
  - apply H; [left; reflexivity|left; reflexivity|exact S1].
  - apply IH; [|exact S2]. intros x y X Y. apply H; [right; exact X|]. cbn. destruct l; [destruct Y|]. right. exact Y.
Qed.
Lemma removelast_cons (a b : nat) l : removelast (a :: b :: l) = a :: removelast (b :: l).
Proof. reflexivity. Qed.
Lemma removelast_incl (l : list nat) x : In x (removelast l) -> In x l.
Proof. induction l as [|a l IH]; [auto|]. destruct l as [|b l]; [intros []|]. rewrite removelast_cons. intros [->|I]; [left; reflexivity|right; apply IH, I]. Qed.
Lemma only_next_snk g a b e : only_next g a b -> In e (g_edges g) -> src e = a -> snk e = b.
Proof.
  intros (x & H & E) I S. assert (In e (filter (fun x => Nat.eqb (src x) a) (g_edges g))) as J by (apply filter_In; split; [exact I|apply Nat.eqb_eq, S]).
  rewrite H in J. destruct J as [<-|[]]. exact E.
Qed.
Lemma clear_chain ns : forall l g, steps (only_next g) l -> NoDup l -> (forall n, In n l -> In n ns) ->
  exists g', foldM (clear_loop no_check ns) (removelast l) g = Ok g' /\ g' = set_edges g (g_edges g') /\
             Permutation (g_edges g') (filter (fun e => negb (mem (snk e) (tl l))) (g_edges g)).
Proof.
  induction l as [|a l IH]; intros g S N U.
  - exists g. split; [reflexivity|]. split; [destruct g; reflexivity|]. cbn. rewrite filter_all; reflexivity.
  - destruct l as [|b l].
    + exists g. split; [reflexivity|]. split; [destruct g; reflexivity|]. cbn. rewrite filter_all; reflexivity.
    + destruct S as [S1 S2]. rewrite removelast_cons. cbn [foldM]. unfold clear_loop at 1. rewrite (only_next_edges g a b S1). cbn [foldM].
      assert (mem b ns = true) as -> by (apply mem_spec, U; right; left; reflexivity). cbn [negb].
      destruct (only_next_edge g a b S1) as (e & I & E1 & E2). destruct (remove_edge_total g a b e I E1 E2) as [h R]. rewrite remove_edge_no_check, R. cbn [bind].
      destruct (remove_edge_spec g a b h R) as (d & D1 & D2 & D3 & D4).
      destruct (clear_in b (in_edges h b) h) as (g1 & F & Q1 & Q2). { apply Permutation_map, in_edges_perm. }
      rewrite F. cbn [bind].
      assert (P : Permutation (g_edges g1) (filter (fun e => negb (Nat.eqb (snk e) b)) (g_edges g))).
      { rewrite Q2. pose proof (filter_perm (fun e => negb (Nat.eqb (snk e) b)) _ _ D3) as Z. cbn [filter] in Z. rewrite D2, Nat.eqb_refl in Z. symmetry. exact Z. }
      assert (N2 : NoDup (b :: l)) by (inversion N; assumption).
      destruct (IH g1) as (g' & G1 & G2 & G3).
      * eapply steps_impl; [|exact S2]. intros x y X Y O. eapply only_next_keep; [exact P| |exact O].
        intros z Z1 Z2. cbn beta. rewrite (only_next_snk g x y z O Z1 Z2). apply negb_true_iff, Nat.eqb_neq. intros ->. inversion N2 as [|? ? N3 _]. apply N3. exact Y.
      * exact N2.
      * intros n J. apply U. right. exact J.
      * exists g'. split; [exact G1|]. split; [rewrite G2, Q1, D4; reflexivity|]. rewrite G3. rewrite (filter_perm _ _ _ P). rewrite <- filter_and. cbn [tl].
        rewrite (filter_ext _ (fun e => negb (mem (snk e) (b :: l)))); [reflexivity|]. intro x. cbn. rewrite negb_orb. reflexivity.
Qed.

(* ---- removing the nodes ---- *)
Definition drop_loop check f out_nodes := (fun g n =>
  if mem n out_nodes then remove_node check (set_out g (repl n f out_nodes (g_out g))) n None (Some (repl n f out_nodes (g_out g)))
  else remove_node check g n None None).
Lemma fuse_group_unfold check g a ns f : fuse_group check g (a :: ns) f =
  (let N := a :: ns in let z := last N a in
   let! g := foldM (fun g p => let! e := oldest g p a in let! g := add_edge check g (Edge p f (si e) (ti e)) in remove_edge check g p a) (prev_nodes g a) g in
   let! g := foldM (fun g s => let! e := oldest g z s in let! g := add_edge check g (Edge f s (si e) (ti e)) in remove_edge check g z s) (next_nodes g z) g in
   let! g := foldM (clear_loop check N) (removelast N) g in
   let! g := foldM (drop_loop check f (map fst (g_out g))) N g in
   Ok (add_node_nx g f)).
Proof. reflexivity. Qed.
Lemma repl_spec n f : forall outs, (length (filter (fun o => Nat.eqb (fst o) n) outs) <= 1) ->
  repl n f (map fst outs) outs = map (fun o => (rename n f (fst o), snd o)) outs.
Proof.
  induction outs as [|[x k] outs IH]; intro L; [reflexivity|]. cbn [map fst snd repl filter] in *. unfold rename at 1. rewrite (Nat.eqb_sym n x). destruct (Nat.eqb_spec x n) as [->|D].
  - f_equal. cbn in L. destruct (filter (fun o => Nat.eqb (fst o) n) outs) as [|q r] eqn:E; [|cbn in L; lia]. clear -E. induction outs as [|[x j] outs IH]; [reflexivity|]. cbn in *. unfold rename at 1.
    destruct (Nat.eqb x n); [discriminate|]. f_equal. apply IH, E.
  - f_equal. apply IH, L.
Qed.
Lemma drop_nodes check f out_nodes : (forall g, check g = Ok tt) -> forall l g, NoDup l -> (forall n, In n l -> In n (g_nodes g) /\ ~ In n out_nodes /\ ~ In n (map fst (g_out g)) /\ ~ In n (g_in g)) ->
  (forall e n, In e (g_edges g) -> In n l -> src e <> n /\ snk e <> n) ->
  exists g', foldM (drop_loop check f out_nodes) l g = Ok g' /\ g_edges g' = g_edges g /\ g_in g' = g_in g /\ g_out g' = g_out g /\
             g_nodes g' = filter (fun m => negb (mem m l)) (g_nodes g).
Proof.
  intro CK. induction l as [|n l IH]; intros g N H D.
  - exists g. repeat split; try reflexivity. cbn. rewrite filter_all; reflexivity.
  - cbn [foldM]. unfold drop_loop at 1. destruct (H n (or_introl eq_refl)) as (A & B & C & F). rewrite (proj2 (mem_false n out_nodes) B).
    assert (RM : removable g n None None). { split; [exact A|]. split; [intros e I; apply (D e n I); left; reflexivity|]. split; [tauto|tauto]. }
    destruct (remove_node_succeeds g n None None RM) as [h R]. assert (remove_node check g n None None = Ok h) as ->.
    { revert R. unfold remove_node. rewrite (proj2 (mem_false n _) C). cbn [bind]. rewrite (proj2 (mem_false n _) F). cbn [bind]. destruct (in_edges g n); [|discriminate]. destruct (out_edges g n); [|discriminate].
      destruct (remove_node_nx g n); [|discriminate]. cbn [bind]. unfold checked. rewrite CK. auto. }
    cbn [bind]. destruct (remove_node_removes _ _ _ _ _ _ R) as [_ (R1 & R2 & R3 & R4)]. rewrite (proj2 (mem_false n _) F) in R3. rewrite (proj2 (mem_false n _) C) in R4. inversion N as [|? ? N1 N2]; subst.
    destruct (IH h) as (g' & G1 & G2 & G3 & G4 & G5).
    + exact N2.
    + intros m I. destruct (H m (or_intror I)) as (A' & B' & C' & F'). rewrite R2, R3, R4. split; [|tauto]. apply filter_In. split; [exact A'|]. apply negb_true_iff, Nat.eqb_neq. intros ->. contradiction.
    + intros e m I J. rewrite R1 in I. apply (D e m I). right. exact J.
    + exists g'. split; [exact G1|]. split; [congruence|]. split; [congruence|]. split; [congruence|]. rewrite G5, R2, <- filter_and. apply filter_ext. intro m. cbn. rewrite negb_orb. rewrite (Nat.eqb_sym m n). reflexivity.
Qed.

(* ---- one operation ---- *)
Lemma next_in_tail (g : graph) : forall l a, steps (only_next g) l -> In a (removelast l) -> exists b, In b (tl l) /\ only_next g a b.
Proof.
  induction l as [|x l IH]; intros a S I; [destruct I|]. destruct l as [|y l]; [destruct I|]. rewrite removelast_cons in I. destruct S as [S1 S2]. destruct I as [<-|I].
  - exists y. split; [left; reflexivity|exact S1].
  - destruct (IH a S2 I) as (b & J & O). exists b. split; [|exact O]. cbn. right. cbn in J. destruct l; [destruct J|exact J].
Qed.
Lemma split_last (l : list nat) a : l <> [] -> l = removelast l ++ [last l a].
Proof. apply app_removelast_last. Qed.
Section One.
Variables (g : graph) (ns : list nat) (f a z : nat) (r : list nat).
Hypothesis F : fusible g ns f.
Hypothesis HA : hd_error ns = Some a.
Hypothesis HZ : ns = r ++ [z].
Lemma r_removelast : removelast ns = r.
Proof. rewrite HZ. apply removelast_last. Qed.
Lemma z_in : In z ns.
Proof. rewrite HZ. apply in_or_app. right. left. reflexivity. Qed.
Lemma a_in : In a ns.
Proof. destruct ns; [discriminate|]. injection HA as ->. left. reflexivity. Qed.
Lemma f_not : ~ In f ns.
Proof. intro I. apply (fu_new _ _ _ F). apply (fu_nodes _ _ _ F), I. Qed.
Lemma z_not_r : ~ In z r.
Proof. pose proof (fu_nodup _ _ _ F) as N. rewrite HZ in N. apply NoDup_remove_2 in N. rewrite app_nil_r in N. exact N. Qed.
Lemma a_not_tl : ~ In a (tl ns).
Proof. pose proof (fu_nodup _ _ _ F) as N. destruct ns; [discriminate|]. injection HA as ->. inversion N; assumption. Qed.
Lemma in_tl n : In n ns <-> n = a \/ In n (tl ns).
Proof. destruct ns; [discriminate|]. injection HA as ->. cbn. intuition congruence. Qed.
Lemma in_rz n : In n ns <-> In n r \/ n = z.
Proof. rewrite HZ, in_app_iff. cbn. intuition congruence. Qed.
Lemma z_out e : In e (g_edges g) -> src e = z -> ~ In (snk e) ns.
Proof. destruct (fu_out _ _ _ F z r HZ) as (_ & H & _). apply H. Qed.
Lemma r_out e : In e (g_edges g) -> In (src e) r -> In (snk e) (tl ns).
Proof.
  intros I J. rewrite <- r_removelast in J. destruct (next_in_tail g ns (src e) (fu_next _ _ _ F) J) as (b & B & O). rewrite (only_next_snk g _ b e O I eq_refl). exact B.
Qed.
Lemma z_not_a : z <> a.
Proof. intro E. pose proof (fu_two _ _ _ F) as L. pose proof z_not_r as N. destruct ns as [|x l]; [discriminate|]. injection HA as ->. destruct r as [|y r']; [rewrite HZ in L; cbn in L; lia|]. injection HZ as -> _. apply N. left. symmetry. exact E. Qed.
(* what the loops at the ends do to an edge *)
Definition moved e := resrc z f (resnk a f e).
Lemma moved_collapse e : In e (g_edges g) -> enters_late ns e = false -> moved e = collapse ns f e.
Proof.
  intros I L. unfold enters_late in L. apply mem_false in L. unfold moved, collapse, rep, resrc, resnk.
  assert (S : mem (src e) ns = Nat.eqb (src e) z).
  { destruct (Nat.eqb_spec (src e) z) as [->|D]; [apply mem_spec, z_in|]. apply mem_false. rewrite in_rz. intros [J|J]; [|contradiction]. apply L, (r_out e I J). }
  assert (T : mem (snk e) ns = Nat.eqb (snk e) a).
  { destruct (Nat.eqb_spec (snk e) a) as [->|D]; [apply mem_spec, a_in|]. apply mem_false. rewrite in_tl. tauto. }
  rewrite S, T. destruct (Nat.eqb (snk e) a); cbn; destruct (Nat.eqb (src e) z); try reflexivity; destruct e; reflexivity.
Qed.
Lemma moved_late e : In e (g_edges g) -> negb (mem (snk (moved e)) (tl ns)) = negb (enters_late ns e).
Proof.
  intro I. unfold moved, enters_late. rewrite (proj1 (resrc_props z f _)). unfold resnk. destruct (Nat.eqb_spec (snk e) a) as [->|D]; [|reflexivity]. cbn.
  rewrite (proj2 (mem_false a _) a_not_tl). rewrite (proj2 (mem_false f _)); [reflexivity|]. intro J. apply f_not, in_tl. right. exact J.
Qed.
Lemma moved_src e : In e (g_edges g) -> src (moved e) = rename z f (src e).
Proof. intro I. unfold moved. rewrite (proj2 (proj2 (proj2 (resrc_props z f _)))). unfold resnk. destruct (Nat.eqb (snk e) a); reflexivity. Qed.

Theorem fuse_one : exists g', fuse_group no_check g ns f = Ok g' /\ fused_with (fun e => negb (enters_late ns e)) g ns f g' /\ wf g'.
Proof.
  pose proof F as [W FN ND TW NO NX FI FO NI]. destruct (FO z r HZ) as (FO1 & FO2 & FO3 & FO4).
  assert (AF : a <> f) by (intro E; apply f_not; rewrite <- E; apply a_in). assert (ZF : z <> f) by (intro E; apply f_not; rewrite <- E; apply z_in).
  assert (X : exists l, ns = a :: l). { destruct ns as [|x l]; [discriminate|]. injection HA as ->. exists l. reflexivity. } destruct X as [l EN].
  assert (LZ : last (a :: l) a = z) by (rewrite <- EN, HZ; apply last_last).
  assert (NF : (fun h => fuse_group no_check g h f) ns = (fun h => fuse_group no_check g h f) (a :: l)) by (rewrite <- EN; reflexivity). cbv beta in NF. rewrite NF, fuse_group_unfold, <- EN. cbv zeta. rewrite <- EN in LZ. rewrite LZ.
  rewrite (in_loop g a f AF (FI a HA)). destruct (reconnect_in_total no_check (fun _ => eq_refl) g a f) as [g1 E1]. rewrite E1. cbn [bind].
  destruct (reconnect_in_spec no_check g a f g1 W E1) as (P1 & I1 & O1 & W1 & N1).
  rewrite (out_loop g1 z f ZF).
  2:{ eapply Permutation_NoDup; [|exact FO1]. rewrite (filter_perm _ _ _ P1), filter_map_comm, map_map.
      rewrite (filter_ext (fun x => Nat.eqb (src (resnk a f x)) z) (fun e => Nat.eqb (src e) z)) by (intro e; unfold resnk; destruct (Nat.eqb (snk e) a); reflexivity).
      rewrite (map_ext_in (fun x => snk (resnk a f x)) snk); [reflexivity|]. intros e I. apply filter_In in I. destruct I as [I J]. apply Nat.eqb_eq in J. unfold resnk. destruct (Nat.eqb_spec (snk e) a) as [E|E]; [|reflexivity].
      exfalso. apply (FO2 e I J). rewrite E. apply a_in. }
  destruct (reconnect_out_total no_check (fun _ => eq_refl) g1 z f) as [g2 E2]. rewrite E2. cbn [bind].
  destruct (reconnect_out_spec no_check g1 z f g2 W1 E2) as (P2 & I2 & O2 & W2 & N2).
  assert (P : Permutation (g_edges g2) (map moved (g_edges g))). { rewrite P2. rewrite (Permutation_map _ P1). rewrite map_map. reflexivity. }
  destruct (clear_chain ns ns g2) as (g3 & E3 & S3 & P3).
  { eapply steps_impl; [|exact NX]. intros x y X Y (e & O1' & O2'). exists e. split; [|exact O2']. apply perm_one. rewrite <- O1'. symmetry. rewrite (filter_perm _ _ _ P), filter_map_comm.
    assert (XZ : x <> z) by (intros ->; apply z_not_r; rewrite <- r_removelast; exact X). assert (XF : x <> f) by (intros ->; apply f_not, removelast_incl, X).
    rewrite (filter_ext_in (fun e => Nat.eqb (src (moved e)) x) (fun e => Nat.eqb (src e) x)).
    - rewrite (map_ext_in _ (fun e => e)), map_id; [reflexivity|]. intros d I. apply filter_In in I. destruct I as [I J]. apply Nat.eqb_eq in J. unfold moved, resrc, resnk.
      assert (snk d <> a). { intro SA. apply a_not_tl. rewrite <- SA. apply (r_out d I). rewrite J, <- r_removelast. exact X. }
      rewrite (proj2 (Nat.eqb_neq _ _) H). rewrite J, (proj2 (Nat.eqb_neq _ _) XZ). reflexivity.
    - intros d I. rewrite (moved_src d I). unfold rename. destruct (Nat.eqb_spec (src d) z) as [->|D]; [|reflexivity]. rewrite (proj2 (Nat.eqb_neq f x)), (proj2 (Nat.eqb_neq z x)); congruence. }
  { exact ND. } { auto. }
  rewrite E3. cbn [bind].
  assert (P' : Permutation (g_edges g3) (map (collapse ns f) (filter (fun e => negb (enters_late ns e)) (g_edges g)))).
  { rewrite P3, (filter_perm _ _ _ P), filter_map_comm. rewrite (filter_ext_in _ (fun e => negb (enters_late ns e))) by (intros e I; apply (moved_late e I)).
    rewrite (map_ext_in moved (collapse ns f)); [reflexivity|]. intros e I. apply filter_In in I. destruct I as [I J]. apply negb_true_iff in J. apply (moved_collapse e I J). }
  assert (OG : g_out g3 = g_out g) by (rewrite S3; cbn; congruence). assert (IG : g_in g3 = g_in g) by (rewrite S3; cbn; congruence).
  assert (NG : g_nodes g3 = g_nodes g2) by (rewrite S3; reflexivity).
  assert (NN : forall m, In m (g_nodes g2) -> In m (g_nodes g) \/ m = f). { intros m. rewrite N2, N1. tauto. }
  assert (NM : forall m, In m (g_nodes g) -> In m (g_nodes g2)). { intros m. rewrite N2, N1. tauto. }
  rewrite OG.
  assert (NE : forall e n, In e (g_edges g3) -> In n ns -> src e <> n /\ snk e <> n).
  { intros e n I J. apply (Permutation_in _ P') in I. apply in_map_iff in I. destruct I as (d & <- & I). cbn. unfold rep.
    split; (destruct (mem _ ns) eqn:M; [intros <-; exact (f_not J)|intros <-; apply mem_false in M; exact (M J)]). }
  assert (RO : forall n, In n r -> ~ In n (map fst (g_out g))).
  { intros n I J. apply in_map_iff in J. destruct J as (o & <- & J). apply z_not_r. rewrite <- (FO3 o J); [exact I|]. apply in_rz. left. exact I. }
  assert (ND' : NoDup r) by (rewrite HZ in ND; apply NoDup_remove_1 in ND; rewrite app_nil_r in ND; exact ND).
  destruct (drop_nodes no_check f (map fst (g_out g)) (fun _ => eq_refl) r g3) as (g4 & E4 & Q1 & Q2 & Q3 & Q4).
  { exact ND'. }
  { intros n I. assert (In n ns) as J by (apply in_rz; left; exact I). rewrite NG, OG, IG. split; [apply NM, NO, J|]. split; [apply RO, I|]. split; [apply RO, I|apply NI, J]. }
  { intros e n I J. apply (NE e n I). apply in_rz. left. exact J. }
  assert (E5 : foldM (drop_loop no_check f (map fst (g_out g))) ns g3 = drop_loop no_check f (map fst (g_out g)) g4 z).
  { transitivity (foldM (drop_loop no_check f (map fst (g_out g))) (r ++ [z]) g3); [rewrite <- HZ; reflexivity|]. rewrite foldM_app, E4. cbn [bind foldM]. destruct (drop_loop _ _ _ g4 z); reflexivity. }
  rewrite E5. unfold drop_loop.
  assert (ZN : In z (g_nodes g4)). { rewrite Q4. apply filter_In. split; [rewrite NG; apply NM, NO, z_in|]. apply negb_true_iff, mem_false, z_not_r. }
  assert (ZE : forall e, In e (g_edges g4) -> src e <> z /\ snk e <> z). { intros e I. rewrite Q1 in I. apply (NE e z I z_in). }
  assert (ZI : ~ In z (g_in g4)). { rewrite Q2, IG. apply NI, z_in. }
  assert (OUT : map (fun o => (rep ns f (fst o), snd o)) (g_out g) = map (fun o => (rename z f (fst o), snd o)) (g_out g)).
  { apply map_ext_in. intros o I. f_equal. unfold rep, rename. destruct (mem (fst o) ns) eqn:M.
    - apply mem_spec in M. rewrite (FO3 o I M), Nat.eqb_refl. reflexivity.
    - apply mem_false in M. destruct (Nat.eqb_spec (fst o) z) as [E|]; [|reflexivity]. exfalso. apply M. rewrite E. exact z_in. }
  assert (FIN : forall h, g_edges h = g_edges g4 -> g_nodes h = filter (fun m => negb (Nat.eqb z m)) (g_nodes g4) -> g_in h = g_in g4 -> g_out h = map (fun o => (rename z f (fst o), snd o)) (g_out g) ->
                 fused_with (fun e => negb (enters_late ns e)) g ns f (add_node_nx h f) /\ wf (add_node_nx h f)).
  { intros h H1 H2 H3 H4.
    assert (A1 : g_edges (add_node_nx h f) = g_edges h /\ g_in (add_node_nx h f) = g_in h /\ g_out (add_node_nx h f) = g_out h) by (unfold add_node_nx; destruct (mem f (g_nodes h)); auto).
    destruct A1 as (A1 & A2 & A3).
    assert (NODES : forall m, In m (g_nodes (add_node_nx h f)) <-> (In m (g_nodes g) /\ ~ In m ns) \/ m = f).
    { intro m. rewrite add_node_in, H2, Q4, !filter_In, NG. rewrite !negb_true_iff, mem_false, Nat.eqb_neq. split.
      - intros [((A & B) & C)|A]; [|right; exact A]. destruct (NN m A) as [A'|A']; [|right; exact A']. left. split; [exact A'|]. rewrite in_rz. intuition congruence.
      - intros [[A B]|A]; [|right; exact A]. left. rewrite in_rz in B. split; [split; [apply NM, A|tauto]|]. intro E. apply B. right. symmetry. exact E. }
    split.
    - split; [rewrite A1, H1, Q1; exact P'|]. split; [exact NODES|]. split; [rewrite A2, H3, Q2; exact IG|]. rewrite A3, H4, OUT. reflexivity.
    - split.
      + assert (NoDup (g_nodes h)). { rewrite H2, Q4, NG. apply NoDup_filter, NoDup_filter, (wf_nodes _ W2). }
        unfold add_node_nx. destruct (mem f (g_nodes h)) eqn:M; [exact H|]. cbn. apply NoDup_snoc; [exact H|]. apply mem_false, M.
      + intros e I. rewrite A1, H1, Q1 in I. apply (Permutation_in _ P') in I. apply in_map_iff in I. destruct I as (d & <- & I). apply filter_In in I. destruct I as [I _]. destruct (wf_ends g W d I) as [D1 D2].
        cbn. rewrite !NODES. unfold rep. split; (destruct (mem _ ns) eqn:M; [right; reflexivity|left; split; [assumption|apply mem_false, M]]). }
  destruct (mem z (map fst (g_out g))) eqn:M.
  - rewrite Q3, OG. rewrite (repl_spec z f (g_out g) FO4). set (outs := map _ (g_out g)). set (h0 := set_out g4 outs).
    assert (ZO : ~ In z (map fst (g_out h0))).
    { cbn. unfold outs. rewrite map_map. cbn. intro I. apply in_map_iff in I. destruct I as (o & E & _). unfold rename in E. destruct (Nat.eqb_spec (fst o) z); congruence. }
    destruct (remove_node_succeeds h0 z None (Some outs)) as [h R].
    { split; [exact ZN|]. split; [exact ZE|]. split; [discriminate|intro I; contradiction]. }
    rewrite R. cbn [bind]. eexists. split; [reflexivity|]. destruct (remove_node_removes _ _ _ _ _ _ R) as [_ (R1 & R2 & R3 & R4)]. change (g_in h0) with (g_in g4) in R3. rewrite (proj2 (mem_false z _) ZI) in R3. rewrite (proj2 (mem_false z _) ZO) in R4.
    apply FIN; assumption.
  - apply mem_false in M. destruct (remove_node_succeeds g4 z None None) as [h R].
    { split; [exact ZN|]. split; [exact ZE|]. rewrite Q3, OG. split; intro I; contradiction. }
    rewrite R. cbn [bind]. eexists. split; [reflexivity|]. destruct (remove_node_removes _ _ _ _ _ _ R) as [_ (R1 & R2 & R3 & R4)]. rewrite (proj2 (mem_false z _) ZI) in R3. rewrite Q3, OG, (proj2 (mem_false z _) M) in R4.
    apply FIN; try assumption. rewrite R4. symmetry. rewrite (map_ext_in _ (fun o => o)), map_id; [reflexivity|]. intros o I. unfold rename. destruct (Nat.eqb_spec (fst o) z) as [E|]; [|destruct o; reflexivity].
    exfalso. apply M. rewrite <- E. apply in_map, I.
Qed.
End One.
