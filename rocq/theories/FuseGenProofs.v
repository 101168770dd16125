(* FuseGenProofs.v -- lemmas about the generation of fused operations. *)
From Coq Require Import Permutation Sorted String Lia.
From Verif Require Import Base GraphModel GraphSpec GraphProofs FuseModel FuseSpec FuseProofs FuseProps.
Open Scope list_scope.
Open Scope res_scope.
Local Open Scope nat_scope.

(* ---- chains ---- *)
Lemma steps_app R l : forall r, steps R (l ++ r) <-> steps R l /\ steps R r /\ forall a b, In a (match rev l with [] => [] | x :: _ => [x] end) -> hd_error r = Some b -> R a b.
Proof.
  induction l as [|a l IH]; intro r; [cbn; intuition|].
  destruct l as [|b l]; [destruct r as [|c r]; cbn; [intuition discriminate|]; split; [intros [A B]; split; [exact I|split; [exact B|]]; intros x y [<-|[]] Q; injection Q as <-; exact A|intros (_ & B & C); split; [apply C; auto|exact B]]|].
  change (steps R ((a :: b :: l) ++ r)) with (R a b /\ steps R ((b :: l) ++ r)). change (steps R (a :: b :: l)) with (R a b /\ steps R (b :: l)). rewrite IH.
  assert (rev (a :: b :: l) = rev (b :: l) ++ [a]) as -> by reflexivity. destruct (rev (b :: l)) as [|z q] eqn:Q; [apply (f_equal (@length _)) in Q; rewrite rev_length in Q; discriminate|]. cbn [app]. tauto.
Qed.
Lemma steps_snoc R l a b : steps R (l ++ [a; b]) <-> steps R (l ++ [a]) /\ R a b.
Proof.
  change [a; b] with ([a] ++ [b]). rewrite app_assoc. rewrite (steps_app R (l ++ [a]) [b]). rewrite rev_app_distr. cbn. split.
  - intros (A & _ & B). split; [exact A|]. apply B; auto.
  - intros [A B]. split; [exact A|]. split; [exact I|]. intros x y [<-|[]] Q. injection Q as <-. exact B.
Qed.
Lemma steps_prefix R l r : steps R (l ++ r) -> steps R l.
Proof. intro H. apply steps_app in H. apply H. Qed.
Lemma only_next_unique g a b c : only_next g a b -> only_next g a c -> b = c.
Proof. intros (e & H & <-) (e' & H' & <-). rewrite H in H'. injection H' as ->. reflexivity. Qed.
Lemma only_prev_unique g a b c : only_prev g a c -> only_prev g b c -> a = b.
Proof. intros (e & H & <-) (e' & H' & <-). rewrite H in H'. injection H' as ->. reflexivity. Qed.
Lemma only_next_edge g a b : only_next g a b -> exists e, In e (g_edges g) /\ src e = a /\ snk e = b.
Proof. intros (e & H & Q). assert (In e (filter (fun x => Nat.eqb (src x) a) (g_edges g))) as I by (rewrite H; left; reflexivity). apply filter_In in I. destruct I as [I J]. apply Nat.eqb_eq in J. eauto. Qed.
Lemma only_prev_edge g a b : only_prev g a b -> exists e, In e (g_edges g) /\ src e = a /\ snk e = b.
Proof. intros (e & H & Q). assert (In e (filter (fun x => Nat.eqb (snk x) b) (g_edges g))) as I by (rewrite H; left; reflexivity). apply filter_In in I. destruct I as [I J]. apply Nat.eqb_eq in J. eauto. Qed.
(* two chains from the same node: one continues the other *)
Lemma chain_comparable g : forall l l', chain g l -> chain g l' -> hd_error l = hd_error l' -> (exists r, l' = l ++ r) \/ (exists r, l = l' ++ r).
Proof.
  induction l as [|a l IH]; intros l' A B H; [left; exists l'; reflexivity|]. destruct l' as [|a' l']; [discriminate|]. injection H as <-.
  destruct l as [|b l]; [left; exists l'; reflexivity|]. destruct l' as [|b' l']; [right; exists (b :: l); reflexivity|].
  destruct A as [A1 A2]. destruct B as [B1 B2]. assert (b = b') by exact (only_next_unique g a b b' A1 B1). subst b'.
  destruct (IH (b :: l') A2 B2 eq_refl) as [[r E]|[r E]]; [left|right]; exists r; rewrite E; reflexivity.
Qed.

Lemma Forall2_length {A B} {R : A -> B -> Prop} {l l'} : Forall2 R l l' -> length l = length l'.
Proof. induction 1; cbn; congruence. Qed.

Section Gen.
Context {E : Type}.
Variable name : nat -> string.
Variable matches : E -> nat -> bool.
Notation begins := (begins matches).
Notation full_match := (full_match matches).
Notation longest := (longest matches).

Lemma begins_snoc p acc n : begins p (acc ++ [n]) <-> begins p acc /\ exists x, nth_error p (length acc) = Some x /\ matches x n = true.
Proof.
  unfold FuseSpec.begins, FuseSpec.full_match. split.
  - intros (a & b & -> & F). apply Forall2_app_inv_r in F. destruct F as (a1 & a2 & F1 & F2 & ->). inversion F2 as [|x ? ? ? M F3]; subst. inversion F3; subst.
    split; [exists a1, (x :: b); split; [rewrite <- app_assoc; reflexivity|exact F1]|]. exists x. split; [|exact M]. rewrite <- app_assoc, nth_error_app2; rewrite (Forall2_length F1); [rewrite Nat.sub_diag; reflexivity|lia].
  - intros [(a & b & -> & F) (x & N & M)]. rewrite nth_error_app2 in N by (rewrite (Forall2_length F); lia). rewrite (Forall2_length F), Nat.sub_diag in N. destruct b as [|y b]; [discriminate|]. injection N as ->.
    exists (a ++ [x]), b. split; [rewrite <- app_assoc; reflexivity|]. apply Forall2_app; [exact F|]. constructor; [exact M|constructor].
Qed.
Lemma begins_prefix p l r : begins p (l ++ r) -> begins p l.
Proof. intros (a & b & -> & F). apply Forall2_app_inv_r in F. destruct F as (a1 & a2 & F1 & F2 & ->). exists a1, (a2 ++ b). split; [rewrite app_assoc; reflexivity|exact F1]. Qed.
Lemma begins_length p l : begins p l -> length l <= length p.
Proof. intros (a & b & -> & F). rewrite app_length, (Forall2_length F). lia. Qed.
Lemma full_begins p l : full_match p l -> begins p l.
Proof. intro F. exists p, []. rewrite app_nil_r. auto. Qed.

Lemma search_spec g layers n : forall fuel acc ps next,
  (forall p, In p ps <-> In p layers /\ begins p acc) -> (forall p, In p layers -> length p <= fuel + length acc) ->
  chain g (acc ++ [next]) -> hd_error (acc ++ [next]) = Some n -> (acc = [] \/ exists p, In p layers /\ begins p acc) ->
  longest g layers n (search matches g fuel (length acc) ps next acc).
Proof.
  assert (STOP : forall acc, (acc = [] \/ (hd_error acc = Some n /\ exists p, In p layers /\ begins p acc)) -> chain g acc ->
     (forall ns' p, hd_error ns' = Some n -> chain g ns' -> In p layers -> begins p ns' -> exists r, acc = ns' ++ r) -> longest g layers n acc).
  { intros acc A C M. split; [exact C|]. split; [|exact M]. destruct A as [A|(A & p & B & D)]; [left; exact A|right; exists p; auto]. }
  assert (HD : forall (acc : list nat) next, hd_error (acc ++ [next]) = Some n -> acc = [] \/ hd_error acc = Some n) by (intros [|x acc] next; cbn; auto).
  induction fuel as [|fuel IH]; intros acc ps next PS LE CH HN AC; cbn [search].
  - apply STOP; [destruct AC as [AC|AC]; [auto|]; destruct (HD acc next HN); auto|exact (steps_prefix _ _ _ CH)|]. intros ns' p H C I B.
    destruct (chain_comparable g (acc ++ [next]) ns' CH C (eq_trans HN (eq_sym H))) as [[r ->]|[r Q]].
    + exfalso. apply begins_length in B. specialize (LE p I). rewrite !app_length in B. cbn in B, LE. lia.
    + destruct r as [|x r] using rev_ind; [exfalso; rewrite app_nil_r in Q; subst ns'; apply begins_length in B; specialize (LE p I); rewrite app_length in B; cbn in B, LE; lia|].
      rewrite app_assoc in Q. apply app_inj_tail in Q. destruct Q as [-> _]. exists r. reflexivity.
  - assert (VP : forall p, In p (valid_patterns matches ps next (length acc)) <-> In p layers /\ begins p (acc ++ [next])).
    { intro p. unfold valid_patterns. rewrite filter_In, PS, begins_snoc. split.
      - intros [[A B] C]. split; [exact A|]. split; [exact B|]. destruct (nth_error p (length acc)) as [x|]; [exists x; auto|discriminate].
      - intros (A & B & x & C & D). split; [auto|]. rewrite C. exact D. }
    destruct (valid_patterns matches ps next (length acc)) as [|p0 ps'] eqn:V.
    + apply STOP; [destruct AC as [AC|AC]; [auto|]; destruct (HD acc next HN); auto|exact (steps_prefix _ _ _ CH)|]. intros ns' p H C I B.
      destruct (chain_comparable g (acc ++ [next]) ns' CH C (eq_trans HN (eq_sym H))) as [[r ->]|[r Q]].
      * exfalso. apply begins_prefix in B. exact (proj2 (VP p) (conj I B)).
      * destruct r as [|x r] using rev_ind; [exfalso; rewrite app_nil_r in Q; subst ns'; exact (proj2 (VP p) (conj I B))|]. rewrite app_assoc in Q. apply app_inj_tail in Q. destruct Q as [-> _]. exists r. reflexivity.
    + assert (P0 : In p0 layers /\ begins p0 (acc ++ [next])) by (apply VP; left; reflexivity).
      assert (END : (forall s, next_nodes g next <> [s]) -> longest g layers n (acc ++ [next])).
      { intro NS. apply STOP; [right; split; [exact HN|exists p0; exact P0]|exact CH|]. intros ns' p H C I B.
        destruct (chain_comparable g (acc ++ [next]) ns' CH C (eq_trans HN (eq_sym H))) as [[r ->]|[r Q]]; [|eauto].
        destruct r as [|x r]; [exists []; rewrite !app_nil_r; reflexivity|]. exfalso. unfold chain in C. rewrite <- app_assoc in C. cbn [app] in C. change (acc ++ next :: x :: r) with (acc ++ [next; x] ++ r) in C. rewrite app_assoc in C. apply steps_prefix, steps_snoc in C. destruct C as [_ C]. apply one_next in C. destruct C as (s & C & _). exact (NS s C). }
      destruct (next_nodes g next) as [|s [|s' q]] eqn:NX; [apply END; congruence| |apply END; congruence].
      replace (S (length acc)) with (length (acc ++ [next])) by (rewrite app_length; cbn; lia). apply IH; [exact VP| | | |right; exists p0; exact P0].
      * intros p I. specialize (LE p I). rewrite app_length. cbn. lia.
      * unfold chain. rewrite <- app_assoc. cbn. apply steps_snoc. split; [exact CH|]. apply one_next. exists s. auto.
      * rewrite <- HN. destruct acc; reflexivity.
Qed.
Lemma longest_unique g layers n l l' : longest g layers n l -> longest g layers n l' -> l = l'.
Proof.
  intros (A1 & A2 & A3) (B1 & B2 & B3).
  assert (P : forall l l' : list nat, (exists r, l = l' ++ r) -> (exists r, l' = l ++ r) -> l = l').
  { clear. intros l l' [r ->] [q H]. rewrite <- app_assoc in H. rewrite <- (app_nil_r l') in H at 1. apply app_inv_head in H. destruct r; [apply app_nil_r|discriminate]. }
  destruct A2 as [->|(p & Hp & Ip & Bp)]; destruct B2 as [->|(q & Hq & Iq & Bq)].
  - reflexivity.
  - apply P; [apply (A3 l' q Hq B1 Iq Bq)|exists l'; reflexivity].
  - apply P; [exists l; reflexivity|apply (B3 l p Hp A1 Ip Bp)].
  - apply P; [apply (A3 l' q Hq B1 Iq Bq)|apply (B3 l p Hp A1 Ip Bp)].
Qed.

(* ---- the loop over the nodes ---- *)
Variable g : graph.
Variable layers : list (list E).
Variable depth : nat.
Hypothesis Hdepth : forall p, In p layers -> length p <= depth.
Definition fits (ns : list nat) : Prop := 2 <= length ns /\ exists p, In p layers /\ full_match p ns.
Record gen_inv (pre : list nat) (st : list (string * list nat) * list nat) : Prop := {
  gi_keys : NoDup (map fst (fst st));
  gi_fused : forall n, In n (snd st) <-> exists op ns, In (op, ns) (fst st) /\ In n ns;
  gi_ops : forall op ns, In (op, ns) (fst st) -> op = op_id name ns /\ fits ns /\ exists n, In n pre /\ hd_error ns = Some n /\ longest g layers n ns;
  gi_all : forall n, In n pre -> In n (snd st) \/ forall ns, longest g layers n ns -> ~ fits ns;
  gi_order : forall a kv b kv' c, fst st = a ++ kv :: b ++ kv' :: c -> exists n n' p q r, hd_error (snd kv) = Some n /\ hd_error (snd kv') = Some n' /\ ~ In n' (snd kv) /\ pre = p ++ n :: q ++ n' :: r
}.
Lemma gen_step_inv pre st n st' : gen_inv pre st -> gen_step name matches g layers depth st n = Ok st' -> gen_inv (pre ++ [n]) st'.
Proof.
  intros [K F O A D] H. destruct st as [data fused]. cbn [fst snd] in *. unfold gen_step in H.
  assert (KEEP : (In n fused \/ forall ns, longest g layers n ns -> ~ fits ns) -> gen_inv (pre ++ [n]) (data, fused)).
  { intro Q. split; cbn [fst snd]; [exact K|exact F| | |].
    - intros op ns I. destruct (O op ns I) as (O1 & O2 & m & O3 & O4). split; [exact O1|]. split; [exact O2|]. exists m. split; [apply in_or_app; left; exact O3|exact O4].
    - intros m I. apply in_app_or in I. destruct I as [I|[<-|[]]]; [apply A, I|exact Q].
    - intros a kv b kv' c Eq. destruct (D a kv b kv' c Eq) as (x & y & p & q & r & D1 & D2 & D3 & D4). exists x, y, p, q, (r ++ [n]). split; [exact D1|]. split; [exact D2|]. split; [exact D3|]. rewrite D4, <- app_assoc. cbn. rewrite <- app_assoc. reflexivity. }
  destruct (mem n fused) eqn:M; [apply mem_spec in M; injection H as <-; apply KEEP; left; exact M|].
  assert (L : longest g layers n (search matches g depth 0 layers n [])).
  { apply (search_spec g layers n depth [] layers n); [|intros p I; cbn; rewrite Nat.add_0_r; auto|exact I|reflexivity|left; reflexivity]. intro p. split; [intro I; split; [exact I|exists [], p; split; [reflexivity|constructor]]|tauto]. }
  set (ns := search matches g depth 0 layers n []) in *. destruct (is_valid_fusion name matches layers ns []) eqn:V.
  2:{ injection H as <-. apply KEEP. right. intros ns' L' Q. rewrite <- (longest_unique g layers n ns ns' L L') in Q. assert (is_valid_fusion name matches layers ns [] = true) by (apply valid_fusion_spec; right; exact Q). congruence. }
  apply valid_fusion_spec in V. destruct V as [[]|V]. unfold sin in H. destruct (sget (op_id name ns) data) eqn:G; [discriminate|]. injection H as <-. rewrite (sset_new _ _ _ G). apply sget_none in G. apply mem_false in M.
  assert (HD : hd_error ns = Some n). { destruct L as (_ & [L|(p & L & _)] & _); [|exact L]. destruct V as [V _]. rewrite L in V. cbn in V. lia. }
  split; cbn [fst snd].
  - rewrite map_app. apply NoDup_snoc; [exact K|exact G].
  - intro m. rewrite in_app_iff, F. split.
    + intros [(op & l & I & J)|I]; [exists op, l; split; [apply in_or_app; left; exact I|exact J]|exists (op_id name ns), ns; split; [apply in_or_app; right; left; reflexivity|exact I]].
    + intros (op & l & I & J). apply in_app_or in I. destruct I as [I|[I|[]]]; [left; eauto|injection I as <- <-; right; exact J].
  - intros op l I. apply in_app_or in I. destruct I as [I|[I|[]]].
    + destruct (O op l I) as (O1 & O2 & m & O3 & O4). split; [exact O1|]. split; [exact O2|]. exists m. split; [apply in_or_app; left; exact O3|exact O4].
    + injection I as <- <-. split; [reflexivity|]. split; [exact V|]. exists n. split; [apply in_or_app; right; left; reflexivity|]. auto.
  - intros m I. apply in_app_or in I. destruct I as [I|[<-|[]]]; [destruct (A m I) as [Q|Q]; [left; apply in_or_app; left; exact Q|right; exact Q]|left; apply in_or_app; right]. destruct ns; [discriminate|]. injection HD as ->. left. reflexivity.
  - intros a kv b kv' c Eq. destruct c as [|z c] using rev_ind.
    + change (a ++ kv :: b ++ [kv']) with (a ++ (kv :: b) ++ [kv']) in Eq. rewrite app_assoc in Eq. apply app_inj_tail in Eq. destruct Eq as [Eq <-]. cbn [snd].
      assert (In kv data) as I by (rewrite Eq; apply in_or_app; right; left; reflexivity). destruct kv as [op l]. destruct (O op l I) as (_ & _ & m & O3 & O4 & _). apply in_split in O3. destruct O3 as (p & q & ->).
      exists m, n, p, q, []. split; [exact O4|]. split; [exact HD|]. split; [intro J; apply M, F; eauto|]. rewrite <- app_assoc. reflexivity.
    + clear IHc. change (a ++ kv :: b ++ kv' :: c ++ [z]) with (a ++ (kv :: b ++ (kv' :: c ++ [z]))) in Eq. assert (Eq' : data ++ [(op_id name ns, ns)] = (a ++ kv :: b ++ kv' :: c) ++ [z]) by (rewrite Eq, <- app_assoc; cbn; rewrite <- app_assoc; reflexivity).
      apply app_inj_tail in Eq'. destruct Eq' as [Eq' _]. destruct (D a kv b kv' c Eq') as (x & y & p & q & r & D1 & D2 & D3 & D4). exists x, y, p, q, (r ++ [n]). split; [exact D1|]. split; [exact D2|]. split; [exact D3|]. rewrite D4, <- app_assoc. cbn. rewrite <- app_assoc. reflexivity.
Qed.
Lemma gen_loop_inv l : forall pre st st', gen_inv pre st -> foldM (gen_step name matches g layers depth) l st = Ok st' -> gen_inv (pre ++ l) st'.
Proof.
  induction l as [|n l IH]; intros pre st st' I H; cbn [foldM] in H; [injection H as <-; rewrite app_nil_r; exact I|].
  destruct (gen_step _ _ _ _ _ st n) as [st1|] eqn:S; cbn [bind] in H; [|discriminate]. change (pre ++ n :: l) with (pre ++ [n] ++ l). rewrite app_assoc. apply (IH _ st1 _ (gen_step_inv pre st n st1 I S) H).
Qed.
Lemma gen_start : gen_inv [] ([], []).
Proof. split; cbn; [constructor|intro n; split; [intros []|intros (op & ns & [] & _)]|intros ? ? []|intros ? []|intros a kv b kv' c Q; destruct a; discriminate]. Qed.
End Gen.

(* ---- positions in a topological order ---- *)
Fixpoint idx (l : list nat) (n : nat) : nat := match l with [] => 0 | x :: r => if Nat.eqb x n then 0 else S (idx r n) end.
Lemma idx_app p n r : ~ In n p -> idx (p ++ n :: r) n = length p.
Proof. induction p as [|x p IH]; cbn; intro N; [rewrite Nat.eqb_refl; reflexivity|]. destruct (Nat.eqb_spec x n); [exfalso; apply N; left; assumption|]. rewrite IH; [reflexivity|tauto]. Qed.
Lemma idx_order l p a q b r : NoDup l -> l = p ++ a :: q ++ b :: r -> idx l a < idx l b.
Proof.
  intros N ->. assert (N1 := NoDup_remove_2 _ _ _ N). rewrite idx_app; [|intro I; apply N1, in_or_app; left; exact I].
  assert (Q : p ++ a :: q ++ b :: r = (p ++ a :: q) ++ b :: r) by (rewrite <- app_assoc; reflexivity). rewrite Q in N |- *.
  rewrite idx_app; [rewrite app_length; cbn; lia|]. apply NoDup_remove_2 in N. intro I. apply N, in_or_app. left. exact I.
Qed.
Lemma topo_steps g topo l : NoDup topo -> topological g topo -> chain g l -> forall a r x, l = a :: r -> In x r -> idx topo a < idx topo x.
Proof.
  intros N [_ T]. assert (ST : forall a b, only_next g a b -> idx topo a < idx topo b).
  { intros a b H. apply only_next_edge in H. destruct H as (e & I & <- & <-). destruct (T e I) as (p & q & r & Q). exact (idx_order _ _ _ _ _ _ N Q). }
  induction l as [|y l IH]; intros C a r x Q I; [discriminate|]. injection Q as -> ->. destruct r as [|b r]; [destruct I|]. destruct C as [C1 C2]. apply ST in C1. destruct I as [<-|I]; [exact C1|]. specialize (IH C2 b r x eq_refl I). lia.
Qed.
Lemma topo_nodup g topo l : NoDup topo -> topological g topo -> chain g l -> NoDup l.
Proof.
  intros N T. induction l as [|a l IH]; intro C; [constructor|]. constructor; [|apply IH; destruct l; [exact I|apply C]]. intro J. assert (idx topo a < idx topo a) by exact (topo_steps g topo (a :: l) N T C a l a eq_refl J). lia.
Qed.
