(* KCallProofs.v -- lemmas on reading and rebuilding one Keras call (C81). *)
From Coq Require Import Permutation Sorted Lia.
From Verif Require Import Base GraphModel HessianModel HessianProofs KCallModel KCallSpec.
Local Open Scope nat_scope.
Open Scope res_scope.

Lemma kc_mapM {A B} (f : A -> result B) (h : A -> B) l : (forall x, In x l -> f x = Ok (h x)) -> mapM f l = Ok (map h l).
Proof. induction l as [|x l IH]; intro H; [reflexivity|]. cbn [mapM map]. rewrite H by (left; reflexivity). cbn [bind]. rewrite IH by (intros; apply H; right; assumption). reflexivity. Qed.

(* ---- parameters ---- *)
Lemma position_nth ps k i : position k ps = Some i -> nth_error ps i = Some k.
Proof.
  revert i. induction ps as [|p ps IH]; intros i; cbn [position]; [discriminate|]. destruct (Nat.eqb_spec p k) as [->|N]; [intro E; injection E as <-; reflexivity|].
  destruct (position k ps) as [j|]; [|discriminate]. cbn. intro E. injection E as <-. apply IH. reflexivity.
Qed.
Lemma nth_position ps k i : NoDup ps -> nth_error ps i = Some k -> position k ps = Some i.
Proof.
  revert i. induction ps as [|p ps IH]; intros i N E; [destruct i; discriminate|]. inversion N as [|? ? N1 N2]; subst. cbn [position]. destruct i as [|i]; cbn in E.
  - injection E as ->. rewrite Nat.eqb_refl. reflexivity.
  - destruct (Nat.eqb_spec p k) as [->|_]; [apply nth_error_In in E; contradiction|]. rewrite (IH i N2 E). reflexivity.
Qed.
Lemma position_in ps k : In k ps -> exists i, position k ps = Some i.
Proof.
  induction ps as [|p ps IH]; intros []; cbn [position].
  - subst. rewrite Nat.eqb_refl. eauto.
  - destruct (Nat.eqb p k); [eauto|]. destruct (IH H) as [i ->]. cbn. eauto.
Qed.
Lemma position_none ps k : position k ps = None -> ~ In k ps.
Proof. intros E I. destruct (position_in ps k I) as [i F]. congruence. Qed.

(* ---- values ---- *)
Definition isc (v : val) : bool := match is_const v with Ok b => b | Err _ => false end.
Definition arr (v : val) : val := match to_numpy v with Ok w => w | Err _ => v end.
Lemma simple_const v : simple v -> is_const v = Ok (isc v).
Proof. unfold isc. destruct v as [| | | |b [|x l]|]; cbn; try reflexivity; [intros [N _]; contradiction|]. destruct x; reflexivity. Qed.
Lemma const_array v : simple v -> isc v = true -> to_numpy v = Ok (arr v).
Proof. unfold arr. intros S1 S2. destruct v; cbn in *; try discriminate; try reflexivity. destruct S1 as [_ ->]. reflexivity. Qed.
Lemma plain_arr v : plain (arr v) = plain v.
Proof. unfold arr. destruct v as [| | | |b l|]; cbn; try reflexivity. destruct (flat_map tensors_in l); reflexivity. Qed.
Lemma isc_constant v : isc v = true <-> constant v.
Proof. unfold isc, constant. destruct (is_const v) as [b|]; split; intro E; congruence. Qed.
Lemma const_not_tensor v : isc v = true -> is_tensor v = false.
Proof. destruct v; cbn; try reflexivity; discriminate. Qed.
Lemma is_tensor_spec v : is_tensor v = true <-> tensor v.
Proof. unfold tensor. destruct v; cbn; split; try discriminate; try (intros [t E]; discriminate); [intros _; eauto|reflexivity]. Qed.
Lemma tensors_simple v : simple v -> tensors_in v = match v with VT t => [t] | _ => [] end.
Proof. destruct v; cbn; try reflexivity. intros [_ H]. exact H. Qed.

(* ---- dictionaries ---- *)
Lemma dict_get_none {V} k (d : list (nat * V)) : ~ In k (map fst d) -> dict_get k d = None.
Proof. intro N. destruct (dict_get k d) as [v|] eqn:E; [|reflexivity]. exfalso. apply N, dict_get_key. eauto. Qed.
Lemma has_key_in {V} k (d : list (nat * V)) : has_key k d = true <-> In k (map fst d).
Proof. unfold has_key. rewrite dict_get_key. destruct (dict_get k d) as [v|]; split; try reflexivity; try discriminate; [eauto|intros [v E]; discriminate]. Qed.
Lemma dict_get_filter {V} (p : nat * V -> bool) d k : NoDup (map fst d) ->
  dict_get k (filter p d) = match dict_get k d with Some v => if p (k, v) then Some v else None | None => None end.
Proof.
  induction d as [|[a v] d IH]; intro N; [reflexivity|]. cbn [map fst] in N. inversion N as [|? ? N1 N2]; subst. cbn [filter dict_get]. destruct (p (a, v)) eqn:P; cbn [dict_get].
  - destruct (Nat.eqb_spec k a) as [->|_]; [rewrite P; reflexivity|apply IH, N2].
  - destruct (Nat.eqb_spec k a) as [->|_]; [|apply IH, N2]. rewrite P. rewrite (IH N2). rewrite (dict_get_none a d N1). reflexivity.
Qed.
Lemma filter_keys {V} (p : nat * V -> bool) d : NoDup (map fst d) -> NoDup (map fst (filter p d)).
Proof.
  induction d as [|[a v] d IH]; intro N; [constructor|]. cbn [map fst] in N. inversion N as [|? ? N1 N2]; subst. cbn [filter]. destruct (p (a, v)); [|apply IH, N2]. cbn [map fst]. constructor; [|apply IH, N2].
  intro I. apply N1. apply in_map_iff in I. destruct I as ([a' v'] & E & I). apply filter_In in I. apply in_map_iff. exists (a', v'). split; [exact E|apply I].
Qed.

(* ---- the constants among the positional arguments ---- *)
Lemma extract_args allocs : NoDup allocs -> nonempty allocs = true -> forall l j ws kw, (forall v, In v l -> simple v) -> j + length l <= length allocs ->
  exists ws' kw', foldM (extract_step false allocs) (enumerate_from j l) (ws, kw) = Ok (ws', kw') /\
    (forall i v, nth_error l i = Some v -> dict_get (j + i) ws' = if isc v then Some (arr v) else dict_get (j + i) ws) /\
    (forall i, i < j \/ j + length l <= i -> dict_get i ws' = dict_get i ws) /\
    (forall i v k, nth_error l i = Some v -> nth_error allocs (j + i) = Some k -> dict_get k kw' = if isc v then dict_get k kw else Some v) /\
    (forall k, (forall i, i < length l -> nth_error allocs (j + i) <> Some k) -> dict_get k kw' = dict_get k kw) /\
    (NoDup (map fst kw) -> NoDup (map fst kw')).
Proof.
  intros ND NE. induction l as [|v l IH]; intros j ws kw SI LE.
  - exists ws, kw. split; [reflexivity|]. repeat split; try tauto; intros [|i] x; intros; discriminate.
  - cbn [enumerate_from foldM]. cbn [length] in LE. unfold extract_step at 1. cbn [fst snd]. rewrite (simple_const v (SI v (or_introl eq_refl))). cbn [bind].
    assert (forall x, In x l -> simple x) as SI' by (intros x I; apply SI; right; exact I).
    destruct (isc v) eqn:C.
    + rewrite (const_array v (SI v (or_introl eq_refl)) C). cbn [bind]. destruct (IH (S j) (dict_set j (arr v) ws) kw SI' ltac:(lia)) as (ws' & kw' & E & A & B & D & F & G).
      exists ws', kw'. split; [exact E|]. split; [|split; [|split; [|split; [|exact G]]]].
      * intros [|i] x N; cbn in N.
        -- injection N as <-. rewrite C, Nat.add_0_r, B by lia. rewrite dict_get_set, Nat.eqb_refl. reflexivity.
        -- replace (j + S i) with (S j + i) by lia. rewrite (A i x N). rewrite dict_get_set. destruct (Nat.eqb_spec (S j + i) j); [lia|reflexivity].
      * intros i H. cbn [length] in H. rewrite B by lia. rewrite dict_get_set. destruct (Nat.eqb_spec i j); [lia|reflexivity].
      * intros [|i] x k N K; cbn in N.
        -- injection N as <-. rewrite C. apply F. intros i I Q. rewrite Nat.add_0_r in K. assert (S j + i = j); [|lia]. apply (proj1 (NoDup_nth_error allocs) ND); [lia|congruence].
        -- apply (D i x k N). replace (S j + i) with (j + S i) by lia. exact K.
      * intros k H. apply F. intros i I. replace (S j + i) with (j + S i) by lia. apply H. cbn. lia.
    + rewrite NE. cbn [negb andb]. destruct (nth_error allocs j) as [k0|] eqn:K0; [|apply nth_error_None in K0; lia]. cbn [bind].
      destruct (IH (S j) ws (dict_set k0 v kw) SI' ltac:(lia)) as (ws' & kw' & E & A & B & D & F & G).
      assert (forall i k, i < length l -> nth_error allocs (S j + i) = Some k -> k <> k0) as NK by (intros i k I Q ->; assert (S j + i = j); [|lia]; apply (proj1 (NoDup_nth_error allocs) ND); [lia|congruence]).
      exists ws', kw'. split; [exact E|]. split; [|split; [|split; [|split]]].
      * intros [|i] x N; cbn in N.
        -- injection N as <-. rewrite C, Nat.add_0_r, B by lia. reflexivity.
        -- replace (j + S i) with (S j + i) by lia. exact (A i x N).
      * intros i H. cbn [length] in H. apply B. lia.
      * intros [|i] x k N K; cbn in N.
        -- injection N as <-. rewrite C. rewrite Nat.add_0_r, K0 in K. injection K as <-. rewrite F by (intros i I Q; exact (NK i k0 I Q eq_refl)). rewrite dict_get_set, Nat.eqb_refl. reflexivity.
        -- replace (j + S i) with (S j + i) in K by lia. rewrite (D i x k N K). rewrite dict_get_set. destruct (Nat.eqb_spec k k0) as [->|_]; [|reflexivity]. exfalso. apply (NK i k0); [|exact K|reflexivity]. apply nth_error_Some. congruence.
      * intros k H. rewrite F by (intros i I; replace (S j + i) with (j + S i) by lia; apply H; cbn; lia). rewrite dict_get_set. destruct (Nat.eqb_spec k k0) as [->|_]; [|reflexivity]. exfalso. apply (H 0); [cbn; lia|rewrite Nat.add_0_r; exact K0].
      * intro N. apply G, dict_set_nodup, N.
Qed.

(* ---- the constants among the keywords ---- *)
Lemma extract_keywords ps : NoDup ps -> forall kw ws, NoDup (map fst kw) -> (forall k v, In (k, v) kw -> simple v /\ In k ps) ->
  exists ws', foldM (fun ws (kv : nat * val) => let! c := is_const (snd kv) in
                                 if c then match position (fst kv) ps with
                                           | Some i => let! w := to_numpy (snd kv) in Ok (dict_set i w ws)
                                           | None => Err E_key
                                           end
                                 else Ok ws) kw ws = Ok ws' /\
    forall i, dict_get i ws' = match nth_error ps i with
                               | Some k => match dict_get k kw with Some v => if isc v then Some (arr v) else dict_get i ws | None => dict_get i ws end
                               | None => dict_get i ws
                               end.
Proof.
  intro ND. induction kw as [|[k v] kw IH]; intros ws N H.
  - exists ws. split; [reflexivity|]. intro i. cbn. destruct (nth_error ps i); reflexivity.
  - cbn [foldM snd fst]. cbn [map fst] in N. inversion N as [|? ? N1 N2]; subst. destruct (H k v (or_introl eq_refl)) as [SI IN]. rewrite (simple_const v SI). cbn [bind].
    assert (forall k v, In (k, v) kw -> simple v /\ In k ps) as H' by (intros; apply H; right; assumption).
    assert (forall i k', nth_error ps i = Some k' -> k' = k -> dict_get k' kw = None) as X by (intros i k' _ ->; apply dict_get_none, N1).
    destruct (isc v) eqn:C.
    + destruct (position_in ps k IN) as [i0 P]. rewrite P, (const_array v SI C). cbn [bind]. destruct (IH (dict_set i0 (arr v) ws) N2 H') as (ws' & E & A). exists ws'. split; [exact E|].
      intro i. rewrite A, dict_get_set. apply position_nth in P. destruct (nth_error ps i) as [k'|] eqn:Q.
      * cbn [dict_get]. destruct (Nat.eqb_spec k' k) as [->|NK].
        -- assert (i = i0) as -> by (apply (proj1 (NoDup_nth_error ps) ND); [apply nth_error_Some; congruence|congruence]). rewrite C, Nat.eqb_refl, (X i0 k Q eq_refl). reflexivity.
        -- destruct (Nat.eqb_spec i i0) as [->|_]; [congruence|]. reflexivity.
      * destruct (Nat.eqb_spec i i0) as [->|_]; [congruence|reflexivity].
    + destruct (IH ws N2 H') as (ws' & E & A). exists ws'. split; [exact E|]. intro i. rewrite A. destruct (nth_error ps i) as [k'|] eqn:Q; [|reflexivity]. cbn [dict_get].
      destruct (Nat.eqb_spec k' k) as [->|NK]; [|reflexivity]. rewrite C, (X i k Q eq_refl). reflexivity.
Qed.

(* ---- building ---- *)
Definition ten (o : option val) : list nat := match o with Some (VT t) => [t] | _ => [] end.
Lemma alloc_steps ws (b : nat -> option val) : forall A j kw, NoDup A -> (forall k, In k A -> b k <> None) ->
  (forall k, In k A -> dict_get k kw = match b k with Some v => if isc v || is_tensor v then None else Some v | None => None end) ->
  (forall i k v, nth_error A i = Some k -> b k = Some v -> (isc v = true -> dict_get (j + i) ws = Some (arr v)) /\ (is_tensor v = true -> dict_get (j + i) ws = None)) ->
  exists kw', foldM (alloc_step ws) (enumerate_from j A) (kw, map VT (flat_map (fun k => ten (b k)) A)) = Ok (kw', []) /\
    (forall k, In k A -> option_map plain (dict_get k kw') = option_map plain (b k)) /\
    (forall k, ~ In k A -> dict_get k kw' = dict_get k kw) /\
    (NoDup (map fst kw) -> NoDup (map fst kw')).
Proof.
  induction A as [|k A IH]; intros j kw ND NB K W.
  - exists kw. split; [reflexivity|]. split; [intros ? []|]. split; [reflexivity|tauto].
  - inversion ND as [|? ? N1 N2]; subst. cbn [enumerate_from foldM flat_map]. pose proof (NB k (or_introl eq_refl)) as NBk. destruct (b k) as [v|] eqn:Bk; [|contradiction]. clear NBk.
    pose proof (K k (or_introl eq_refl)) as Kk. rewrite Bk in Kk. destruct (W 0 k v eq_refl Bk) as [W1 W2]. rewrite Nat.add_0_r in W1, W2.
    assert (forall x, In x A -> b x <> None) as NB' by (intros x I; apply NB; right; exact I).
    assert (forall i x v, nth_error A i = Some x -> b x = Some v -> (isc v = true -> dict_get (S j + i) ws = Some (arr v)) /\ (is_tensor v = true -> dict_get (S j + i) ws = None)) as W' by (intros i x y E1 E2; replace (S j + i) with (j + S i) by lia; apply (W (S i) x y E1 E2)).
    assert (forall u x, In x A -> dict_get x (dict_set k u kw) = match b x with Some v => if isc v || is_tensor v then None else Some v | None => None end) as KS.
    { intros u x I. rewrite dict_get_set. destruct (Nat.eqb_spec x k) as [->|_]; [contradiction|]. apply K. right. exact I. }
    assert (forall kw0 kw', (forall x, ~ In x A -> dict_get x kw' = dict_get x kw0) -> option_map plain (dict_get k kw0) = option_map plain (Some v) ->
       (forall x, In x A -> option_map plain (dict_get x kw') = option_map plain (b x)) -> forall x, In x (k :: A) -> option_map plain (dict_get x kw') = option_map plain (b x)) as FIN.
    { intros kw0 kw' F1 F2 F3 x [<-|I]; [|apply F3, I]. rewrite (F1 k N1), Bk. exact F2. }
    unfold alloc_step at 1. cbn [fst snd]. unfold has_key. rewrite Kk. destruct (isc v) eqn:C; [|destruct (is_tensor v) eqn:T]; cbn [orb].
    + rewrite (W1 eq_refl). cbn [bind]. replace (ten (Some v)) with (@nil nat) by (apply const_not_tensor in C; destruct v; try reflexivity; discriminate). cbn [app].
      destruct (IH (S j) (dict_set k (arr v) kw) N2 NB' (KS _) W') as (kw' & E & A1 & A2 & A3). exists kw'. split; [exact E|]. split; [|split].
      * apply (FIN (dict_set k (arr v) kw) kw'); [exact A2|rewrite dict_get_set, Nat.eqb_refl; cbn; rewrite plain_arr; reflexivity|exact A1].
      * intros x NI. rewrite A2 by (intro I; apply NI; right; exact I). rewrite dict_get_set. destruct (Nat.eqb_spec x k) as [->|_]; [exfalso; apply NI; left; reflexivity|reflexivity].
      * intro N. apply A3, dict_set_nodup, N.
    + rewrite (W2 eq_refl). destruct v; try discriminate. cbn [ten app map bind].
      destruct (IH (S j) (dict_set k (VT t) kw) N2 NB' (KS _) W') as (kw' & E & A1 & A2 & A3). exists kw'. split; [exact E|]. split; [|split].
      * apply (FIN (dict_set k (VT t) kw) kw'); [exact A2|rewrite dict_get_set, Nat.eqb_refl; reflexivity|exact A1].
      * intros x NI. rewrite A2 by (intro I; apply NI; right; exact I). rewrite dict_get_set. destruct (Nat.eqb_spec x k) as [->|_]; [exfalso; apply NI; left; reflexivity|reflexivity].
      * intro N. apply A3, dict_set_nodup, N.
    + cbn [bind]. replace (ten (Some v)) with (@nil nat) by (destruct v; try reflexivity; discriminate). cbn [app].
      assert (forall x, In x A -> dict_get x kw = match b x with Some v => if isc v || is_tensor v then None else Some v | None => None end) as K' by (intros x I; apply K; right; exact I).
      destruct (IH (S j) kw N2 NB' K' W') as (kw' & E & A1 & A2 & A3). exists kw'. split; [exact E|]. split; [|split].
      * apply (FIN kw kw'); [exact A2|rewrite Kk; reflexivity|exact A1].
      * intros x NI. apply A2. intro I. apply NI. right. exact I.
      * exact A3.
Qed.

(* ---- sorting of the keywords ---- *)
Lemma insert_key_perm p l : Permutation (insert_key p l) (p :: l).
Proof. induction l as [|q l IH]; cbn; [reflexivity|]. destruct (Nat.leb (fst p) (fst q)); [reflexivity|]. rewrite IH. apply perm_swap. Qed.
Lemma sort_key_perm l : Permutation (fold_right insert_key [] l) l.
Proof. induction l as [|p l IH]; cbn; [reflexivity|]. rewrite insert_key_perm. apply perm_skip, IH. Qed.
Lemma insert_key_sorted p l : StronglySorted (fun a b : nat * val => fst a <= fst b) l -> StronglySorted (fun a b : nat * val => fst a <= fst b) (insert_key p l).
Proof.
  induction l as [|q l IH]; intro H; cbn; [repeat constructor|]. inversion H as [|? ? H1 H2]; subst. destruct (Nat.leb_spec (fst p) (fst q)) as [L|L].
  - constructor; [exact H|]. constructor; [exact L|]. eapply Forall_impl; [|exact H2]. cbn. intros. lia.
  - constructor; [apply IH, H1|]. apply Forall_forall. intros x I. apply (Permutation_in _ (insert_key_perm p l)) in I. destruct I as [<-|I]; [lia|]. rewrite Forall_forall in H2. exact (H2 x I).
Qed.
Lemma sort_key_sorted l : StronglySorted (fun a b : nat * val => fst a <= fst b) (fold_right insert_key [] l).
Proof. induction l as [|p l IH]; cbn; [constructor|]. apply insert_key_sorted, IH. Qed.
Lemma insert_key_first p l : (forall q, In q l -> fst p < fst q) -> insert_key p l = p :: l.
Proof. destruct l as [|q l]; intro H; [reflexivity|]. cbn. specialize (H q (or_introl eq_refl)). destruct (Nat.leb_spec (fst p) (fst q)); [reflexivity|lia]. Qed.
Lemma sort_key_id l : StronglySorted (fun a b : nat * val => fst a < fst b) l -> fold_right insert_key [] l = l.
Proof. induction 1 as [|p l H1 IH H2]; cbn; [reflexivity|]. rewrite IH. apply insert_key_first. rewrite Forall_forall in H2. exact H2. Qed.
