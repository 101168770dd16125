(* SmcProofs.v -- C98: proofs *)
From Coq Require Import List Arith Reals String Bool Lia Lra.
From Verif Require Import Base SmcModel SmcSpec.
Import ListNotations.
Open Scope R_scope.
Open Scope res_scope.

Lemma ema_step : forall d m0 x l, ema d m0 (x :: l) = ema d (d * m0 + (1 - d) * x) l.
Proof. intros d m0 x l. unfold ema. cbn [weighted List.length pow]. ring. Qed.

Section P.
  Variable fw : framework.
  Variable nodes : list gnode.
  Definition bn_same (b b' : bn) : Prop := gamma b = gamma b' /\ beta b = beta b' /\ eps b = eps b' /\ decay b = decay b'.
  Definition same (l l' : layer) : Prop :=
    l_name l = l_name l' /\ l_in l = l_in l' /\
    match l_body l, l_body l' with
    | Op f g, Op f' g' => f = f' /\ g = g'
    | Bn b, Bn b' => if in_training fw nodes l then bn_same b b' else b = b'
    | _, _ => False
    end.
  Lemma same_refl : forall l, same l l.
  Proof. intros l. repeat split. destruct (l_body l); [now split|]. destruct (in_training fw nodes l); repeat split. Qed.
  Lemma training_same : forall l l', same l l' -> in_training fw nodes l = in_training fw nodes l'.
  Proof.
    intros l l' (N & _ & B). unfold in_training. rewrite <- N. destruct fw; [|reflexivity]. destruct (node_of nodes (l_name l)); [|reflexivity].
    destruct (l_body l), (l_body l'); try reflexivity; destruct B.
  Qed.
  Lemma same_trans : forall a b c, same a b -> same b c -> same a c.
  Proof.
    intros a b c H1 H2. pose proof (training_same _ _ H1) as T. destruct H1 as (N1 & I1 & B1), H2 as (N2 & I2 & B2). split; [congruence|]. split; [congruence|].
    destruct (l_body a), (l_body b), (l_body c); try tauto.
    - destruct B1, B2. split; congruence.
    - rewrite T in *. destruct (in_training fw nodes b); [|congruence]. destruct B1 as (?&?&?&?), B2 as (?&?&?&?). repeat split; congruence.
  Qed.
  Lemma same_sym : forall a b, same a b -> same b a.
  Proof.
    intros a b H. pose proof (training_same _ _ H) as T. destruct H as (N & I & B). split; [congruence|]. split; [congruence|]. destruct (l_body a), (l_body b); try tauto.
    - destruct B. now split.
    - rewrite <- T. destruct (in_training fw nodes a); [|congruence]. destruct B as (?&?&?&?). repeat split; congruence.
  Qed.
  Lemma normalize_same : forall b b' m v x, bn_same b b' -> normalize b m v x = normalize b' m v x.
  Proof. intros b b' m v x (G & B & E & _). unfold normalize. now rewrite G, B, E. Qed.

  Definition input_of (env : list tensor) (l : layer) : tensor := hd [] (map (fun k => nth k env []) (l_in l)).
  Lemma call_bn : forall env l b o l1, l_body l = Bn b -> in_training fw nodes l = true -> call_layer fw nodes env l = Ok (o, l1) ->
    o = normalize b (chan_mean (input_of env l)) (chan_var (input_of env l)) (input_of env l) /\ l1 = mk_layer (l_name l) (l_in l) (Bn (moved fw b (input_of env l))).
  Proof.
    intros env l b o l1 B T. unfold call_layer. rewrite B, T. fold (input_of env l). unfold bn_train. generalize (input_of env l). intros x.
    destruct fw; [destruct (Nat.leb (List.length x) 1); [discriminate|]|]; cbn [bind fst snd]; intros [= <- <-]; now split.
  Qed.
  Lemma call_keeps : forall env l o l1, call_layer fw nodes env l = Ok (o, l1) -> same l l1.
  Proof.
    intros env l o l1 H. destruct (l_body l) as [f g|b] eqn:B.
    - unfold call_layer in H. rewrite B in H. injection H as _ <-. apply same_refl.
    - destruct (in_training fw nodes l) eqn:T.
      + destruct (call_bn env l b o l1 B T H) as [_ ->]. unfold same. cbn [l_name l_in l_body]. rewrite B, T. repeat split.
      + unfold call_layer in H. rewrite B, T in H. injection H as _ <-. apply same_refl.
  Qed.
  Lemma call_same : forall env l l' o l1, same l l' -> call_layer fw nodes env l = Ok (o, l1) -> exists l1', call_layer fw nodes env l' = Ok (o, l1').
  Proof.
    intros env l l' o l1 S H. pose proof (training_same _ _ S) as T. pose proof S as (N & I & B). unfold call_layer in *. rewrite <- I, <- T.
    destruct (l_body l) as [f g|b], (l_body l') as [f' g'|b']; try destruct B.
    - subst f' g'. injection H as <- _. eexists. reflexivity.
    - fold (input_of env l) in *. destruct (in_training fw nodes l).
      + assert (E : bn_same b b') by exact B. unfold bn_train in *. generalize dependent (input_of env l). intros x H.
        destruct fw; [destruct (Nat.leb (List.length x) 1); [discriminate H|]|]; cbn [bind fst snd] in *; injection H as <- _; rewrite (normalize_same _ _ _ _ _ E); eexists; reflexivity.
      + subst b'. injection H as <- _. eexists. reflexivity.
  Qed.
  Lemma fwd_same : forall ls ls' env e r, Forall2 same ls ls' -> forward fw nodes env ls = Ok (e, r) -> exists r', forward fw nodes env ls' = Ok (e, r').
  Proof.
    intros ls ls' env e r F. revert env e r. induction F as [|l l' ls ls' S F IH]; intros env e r H.
    - cbn in *. injection H as <- <-. now exists [].
    - cbn [forward] in *. destruct (call_layer fw nodes env l) as [[o l1]|] eqn:C; [|discriminate H]. cbn [bind fst snd] in H.
      destruct (forward fw nodes (env ++ [o]) ls) as [[e1 r1]|] eqn:Fw; [|discriminate H]. cbn [bind fst snd] in H. injection H as <- <-.
      destruct (call_same env l l' o l1 S C) as [l1' C']. destruct (IH _ _ _ Fw) as [r1' F']. rewrite C'. cbn [bind fst snd]. rewrite F'. cbn [bind fst snd]. eexists. reflexivity.
  Qed.
  Lemma fwd_keeps : forall ls env e r, forward fw nodes env ls = Ok (e, r) -> Forall2 same ls r.
  Proof.
    induction ls as [|l ls IH]; intros env e r H; cbn [forward] in H; [injection H as <- <-; constructor|].
    destruct (call_layer fw nodes env l) as [[o l1]|] eqn:C; [|discriminate H]. cbn [bind fst snd] in H.
    destruct (forward fw nodes (env ++ [o]) ls) as [[e1 r1]|] eqn:Fw; [|discriminate H]. cbn [bind fst snd] in H. injection H as <- <-.
    constructor; [exact (call_keeps _ _ _ _ C)|exact (IH _ _ _ Fw)].
  Qed.
  Lemma fwd_at : forall ls env e r i l, forward fw nodes env ls = Ok (e, r) -> nth_error ls i = Some l ->
    exists env' r' o l1, forward fw nodes env (firstn i ls) = Ok (env', r') /\ call_layer fw nodes env' l = Ok (o, l1) /\ nth_error r i = Some l1.
  Proof.
    induction ls as [|l0 ls IH]; intros env e r i l H N; [destruct i; discriminate N|]. cbn [forward] in H.
    destruct (call_layer fw nodes env l0) as [[o l1]|] eqn:C; [|discriminate H]. cbn [bind fst snd] in H.
    destruct (forward fw nodes (env ++ [o]) ls) as [[e1 r1]|] eqn:Fw; [|discriminate H]. cbn [bind fst snd] in H. injection H as <- <-.
    destruct i as [|i]; cbn [nth_error firstn forward] in *.
    - injection N as <-. exists env, [], o, l1. now repeat split.
    - destruct (IH _ _ _ _ _ Fw N) as (env' & r' & o' & l1' & F' & C' & N'). exists env', (l1 :: r'), o', l1'. rewrite C. cbn [bind fst snd]. rewrite F'. now repeat split.
  Qed.
  Lemma forall2_nth : forall {A B} (P : A -> B -> Prop) l l' i x, Forall2 P l l' -> nth_error l i = Some x -> exists y, nth_error l' i = Some y /\ P x y.
  Proof.
    intros A B P l l' i x F. revert i. induction F as [|a b l l' H F IH]; intros [|i] N; cbn in *; try discriminate N.
    - injection N as <-. now exists b.
    - exact (IH i N).
  Qed.
  Lemma forall2_firstn : forall {A B} (P : A -> B -> Prop) l l' i, Forall2 P l l' -> Forall2 P (firstn i l) (firstn i l').
  Proof. intros A B P l l' i F. revert i. induction F; intros [|i]; cbn; constructor; auto. Qed.
  Lemma forall2_impl_trans : forall l l' l'', Forall2 same l l' -> Forall2 same l' l'' -> Forall2 same l l''.
  Proof. intros l l' l'' F. revert l''. induction F; intros l2 G; inversion G; subst; constructor; [eapply same_trans; eassumption|auto]. Qed.
  Lemma forall2_same_sym : forall l l', Forall2 same l l' -> Forall2 same l' l.
  Proof. intros l l' F. induction F; constructor; [now apply same_sym|assumption]. Qed.

  (* the statistics of layer i, after any number of batches *)
  Lemma run_stats : forall data ls ls0 lsN i l l0 b0, Forall2 same ls ls0 -> run fw nodes ls0 data = Ok lsN ->
    nth_error ls i = Some l -> nth_error ls0 i = Some l0 -> l_body l0 = Bn b0 -> in_training fw nodes l = true ->
    exists ts lN bN, Forall2 (sees fw nodes ls i l) data ts /\ nth_error lsN i = Some lN /\ l_body lN = Bn bN /\ l_name lN = l_name l /\ bn_same b0 bN
      /\ forall c, mmean bN c = ema (decay b0) (mmean b0 c) (map (fun t => chan_mean t c) ts) /\ mvar bN c = ema (decay b0) (mvar b0 c) (map (fun t => run_var fw t c) ts).
  Proof.
    induction data as [|x data IH]; intros ls ls0 lsN i l l0 b0 F R N N0 B0 T.
    - cbn in R. injection R as <-. exists [], l0, b0. destruct (forall2_nth _ _ _ _ _ F N) as (l0' & N0' & S). rewrite N0 in N0'. injection N0' as <-.
      split; [constructor|]. split; [exact N0|]. split; [exact B0|]. split; [symmetry; exact (proj1 S)|]. split; [repeat split|]. intros c. unfold ema. cbn. split; ring.
    - unfold run in R. cbn [foldM] in R. destruct (forward fw nodes x ls0) as [[e r]|] eqn:Fw; [|discriminate R]. cbn [bind snd] in R. fold (run fw nodes r data) in R.
      destruct (forall2_nth _ _ _ _ _ F N) as (l0' & N0' & S). rewrite N0 in N0'. injection N0' as <-.
      destruct (fwd_at _ _ _ _ _ _ Fw N0) as (env' & r' & o & l1 & F' & C & N1).
      assert (T0 : in_training fw nodes l0 = true) by (rewrite <- (training_same _ _ S); exact T).
      destruct (call_bn env' l0 b0 o l1 B0 T0 C) as [_ E1]. 
      pose proof (fwd_keeps _ _ _ _ Fw) as K. pose proof (forall2_impl_trans _ _ _ F K) as F1.
      assert (B1 : l_body l1 = Bn (moved fw b0 (input_of env' l0))) by (rewrite E1; reflexivity).
      destruct (IH ls r lsN i l l1 _ F1 R N N1 B1 T) as (ts & lN & bN & SS & NN & BN & NM & BS & ST).
      exists (input_of env' l0 :: ts), lN, bN. split.
      + constructor; [|exact SS]. destruct (fwd_same (firstn i ls0) (firstn i ls) x env' r') as [r2 F2]; [apply forall2_firstn, forall2_same_sym, F|exact F'|].
        exists env', r2. split; [exact F2|]. unfold input_of. now rewrite (proj1 (proj2 S)).
      + split; [exact NN|]. split; [exact BN|]. split; [exact NM|]. split; [exact BS|]. intros c. destruct (ST c) as [M V]. cbn [map]. rewrite !ema_step. split; [exact M|exact V].
  Qed.
  Lemma run_keeps : forall data ls lsN, run fw nodes ls data = Ok lsN -> Forall2 same ls lsN.
  Proof.
    induction data as [|x data IH]; intros ls lsN R.
    - cbn in R. injection R as <-. clear. induction ls; constructor; [apply same_refl|assumption].
    - unfold run in R. cbn [foldM] in R. destruct (forward fw nodes x ls) as [[e r]|] eqn:Fw; [|discriminate R]. cbn [bind snd] in R. fold (run fw nodes r data) in R.
      exact (forall2_impl_trans _ _ _ (fwd_keeps _ _ _ _ Fw) (IH _ _ R)).
  Qed.

  (* writing the weights *)
  Lemma write_names : forall ns name b, map g_name (write name b ns) = map g_name ns /\ map g_flag (write name b ns) = map g_flag ns.
  Proof. induction ns as [|n ns IH]; intros name b; cbn; [now split|]. destruct (String.eqb (g_name n) name); cbn; [now split|]. destruct (IH name b) as [E1 E2]. now rewrite E1, E2. Qed.
  Lemma write_other : forall ns name b j n, nth_error ns j = Some n -> g_name n <> name -> nth_error (write name b ns) j = Some n.
  Proof.
    induction ns as [|m ns IH]; intros name b j n N D; [destruct j; discriminate N|]. cbn. destruct (String.eqb_spec (g_name m) name) as [E|E]; destruct j as [|j]; cbn in *; try exact N.
    - injection N as <-. now destruct D.
    - now apply IH.
  Qed.
  Lemma write_hit : forall ns name b j n, NoDup (map g_name ns) -> nth_error ns j = Some n -> g_name n = name -> nth_error (write name b ns) j = Some (mk_gnode (g_name n) (g_flag n) (Some b)).
  Proof.
    induction ns as [|m ns IH]; intros name b j n ND N E; [destruct j; discriminate N|]. cbn in *. apply NoDup_cons_iff in ND. destruct ND as [NI ND].
    destruct j as [|j]; cbn in N.
    - injection N as <-. rewrite E, String.eqb_refl. cbn. now rewrite <- E.
    - destruct (String.eqb_spec (g_name m) name) as [Em|Em]; [|cbn; now apply IH]. exfalso. apply NI. rewrite Em, <- E. apply in_map. exact (nth_error_In _ _ N).
  Qed.
  Definition store1 (ns : list gnode) (l : layer) : list gnode := match node_of nodes (l_name l), l_body l with Some n, Bn b => if g_flag n then write (l_name l) b ns else ns | _, _ => ns end.
  Lemma store_names : forall ls ns, map g_name (fold_left store1 ls ns) = map g_name ns /\ map g_flag (fold_left store1 ls ns) = map g_flag ns.
  Proof.
    induction ls as [|l ls IH]; intros ns; cbn; [now split|]. destruct (IH (store1 ns l)) as [E1 E2]. rewrite E1, E2. unfold store1.
    destruct (node_of nodes (l_name l)) as [n|]; [|now split]. destruct (l_body l); [now split|]. destruct (g_flag n); [apply write_names|now split].
  Qed.
  Lemma node_of_nth : forall j n, NoDup (map g_name nodes) -> nth_error nodes j = Some n -> node_of nodes (g_name n) = Some n.
  Proof.
    intros j n. unfold node_of. revert j. induction nodes as [|m ns IH]; intros j ND N; [destruct j; discriminate N|]. cbn in *. apply NoDup_cons_iff in ND. destruct ND as [NI ND].
    destruct j as [|j]; cbn in N; [injection N as ->; now rewrite String.eqb_refl|]. destruct (String.eqb_spec (g_name m) (g_name n)) as [E|E]; [|now apply (IH j)].
    exfalso. apply NI. rewrite E. apply in_map. exact (nth_error_In _ _ N).
  Qed.
  (* a node without a stored layer stays *)
  Lemma store_other : forall ls ns j n, nth_error ns j = Some n -> (forall l b m, In l ls -> l_body l = Bn b -> l_name l = g_name n -> node_of nodes (g_name n) = Some m -> g_flag m = false) ->
    nth_error (fold_left store1 ls ns) j = Some n.
  Proof.
    induction ls as [|l ls IH]; intros ns j n N H; cbn; [exact N|]. apply IH; [|intros; eapply H; [right; eassumption|..]; eassumption].
    unfold store1. destruct (node_of nodes (l_name l)) as [m|] eqn:E; [|exact N]. destruct (l_body l) as [|b] eqn:B; [exact N|]. destruct (g_flag m) eqn:Fl; [|exact N].
    apply write_other; [exact N|]. intros D. rewrite <- D in E. rewrite (H l b m (or_introl eq_refl) B (eq_sym D) E) in Fl. discriminate Fl.
  Qed.
  Lemma store_hit : forall ls ns i l b j n, NoDup (map l_name ls) -> NoDup (map g_name ns) -> nth_error ls i = Some l -> l_body l = Bn b -> nth_error ns j = Some n -> g_name n = l_name l ->
    (exists m, node_of nodes (l_name l) = Some m /\ g_flag m = true) -> nth_error (fold_left store1 ls ns) j = Some (mk_gnode (g_name n) (g_flag n) (Some b)).
  Proof.
    induction ls as [|l0 ls IH]; intros ns i l b j n NL ND N B Nj E HM; [destruct i; discriminate N|]. cbn in NL. apply NoDup_cons_iff in NL. destruct NL as [NI NL]. cbn [fold_left].
    destruct i as [|i]; cbn in N.
    - injection N as ->. destruct HM as (m & HM & HF). apply store_other.
      + unfold store1. rewrite HM, B, HF. now apply write_hit.
      + cbn [g_name]. intros l' b' m' I _ EN _. exfalso. apply NI. rewrite <- E, <- EN. now apply in_map.
    - assert (D : l_name l0 <> l_name l) by (intros D; apply NI; rewrite D; apply in_map; exact (nth_error_In _ _ N)).
      apply (IH _ i l b j n); auto.
      + unfold store1. destruct (node_of nodes (l_name l0)) as [m|]; [|exact ND]. destruct (l_body l0); [exact ND|]. destruct (g_flag m); [|exact ND]. now rewrite (proj1 (write_names _ _ _)).
      + unfold store1. destruct (node_of nodes (l_name l0)) as [m|]; [|exact Nj]. destruct (l_body l0); [exact Nj|]. destruct (g_flag m); [|exact Nj]. apply write_other; [exact Nj|congruence].
  Qed.
End P.

(* moments of an affine map *)
Lemma sum_affine : forall (f : (nat -> R) -> R) (s t : R) (x : tensor), sumR (map (fun p => t + f p * s) x) = INR (List.length x) * t + sumR (map f x) * s.
Proof. intros f s t x. induction x as [|p x IH]; [cbn; ring|]. cbn [map sumR List.length]. rewrite IH, S_INR. ring. Qed.
Lemma sum_scaled : forall (f : (nat -> R) -> R) (s : R) (x : tensor), sumR (map (fun p => f p * s) x) = sumR (map f x) * s.
Proof. intros f s x. induction x as [|p x IH]; [cbn; ring|]. cbn [map sumR]. rewrite IH. ring. Qed.
