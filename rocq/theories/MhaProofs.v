(* MhaProofs.v -- the nodes replacing an attention layer compute it. *)
From Coq Require Import Lia.
From Verif Require Import Base GraphModel MatMulModel MatMulSpec MatMulProofs MhaModel MhaSpec.
From Coq Require Import Reals Lra.
Open Scope res_scope.
Local Open Scope nat_scope.

Definition is3 (t : tensor) (a b c : nat) (f : nat -> nat -> nat -> R) : Prop :=
  sh t = [a; b; c] /\ forall i j k, i < a -> j < b -> k < c -> at_ t [i; j; k] = f i j k.
Definition is4 (t : tensor) (a b c d : nat) (f : nat -> nat -> nat -> nat -> R) : Prop :=
  sh t = [a; b; c; d] /\ forall i j k l, i < a -> j < b -> k < c -> l < d -> at_ t [i; j; k; l] = f i j k l.

Lemma sum_total n f : sum_n n f = total n f. Proof. reflexivity. Qed.
Lemma total_ext n f g : (forall i, i < n -> f i = g i) -> total n f = total n g.
Proof. intro H. unfold total. f_equal. apply map_ext_in. intros i I. apply H. apply in_seq in I. lia. Qed.
Lemma total_scale n c f : total n (fun i => c * f i)%R = (c * total n f)%R.
Proof. unfold total. induction (seq 0 n) as [|i l IH]; cbn; [lra|]. rewrite IH. lra. Qed.

Lemma list_eqb_refl l : list_eqb l l = true.
Proof. unfold list_eqb. destruct (list_eq_dec Nat.eq_dec l l); congruence. Qed.
Lemma conv1d_ok inc outc w b x B T f : sh w = [outc; inc; 1] -> match b with Some b => sh b = [outc] | None => True end -> is3 x B inc T f ->
  exists t, conv1d inc outc (is_some b) w b x = Ok t /\
    is3 t B outc T (fun n o s => total inc (fun i => at_ w [o; i; 0%nat] * f n i s) + match b with Some b => at_ b [o] | None => 0 end)%R.
Proof.
  intros Hw Hb [Hx Ha]. unfold conv1d. rewrite Hw, list_eqb_refl. cbn [negb].
  assert (match b with Some b => is_some (Some b) && list_eqb (sh b) [outc] | None => negb (is_some (@None tensor)) end = true) as K
    by (destruct b as [b|]; [rewrite Hb, list_eqb_refl|]; reflexivity).
  destruct b as [b|]; cbn [is_some] in *; rewrite K; cbn [negb]; rewrite Hx, Nat.eqb_refl.
  - eexists. split; [reflexivity|]. split; [reflexivity|]. intros n o s Hn Ho Hs. cbn [at_ nth]. rewrite sum_total. f_equal. apply total_ext. intros i Hi. rewrite Ha by assumption. reflexivity.
  - eexists. split; [reflexivity|]. split; [reflexivity|]. intros n o s Hn Ho Hs. cbn [at_ nth]. rewrite sum_total. f_equal. apply total_ext. intros i Hi. rewrite Ha by assumption. reflexivity.
Qed.
Lemma transpose12_3 x a b c f : is3 x a b c f -> is3 (transpose 1 2 x) a c b (fun i j k => f i k j).
Proof. intros [Hs Ha]. split; [unfold transpose; cbn [sh]; rewrite Hs; reflexivity|]. intros i j k Hi Hj Hk. unfold transpose. cbn. apply Ha; assumption. Qed.
Lemma transpose12_4 x a b c d f : is4 x a b c d f -> is4 (transpose 1 2 x) a c b d (fun i j k l => f i k j l).
Proof. intros [Hs Ha]. split; [unfold transpose; cbn [sh]; rewrite Hs; reflexivity|]. intros i j k l Hi Hj Hk Hl. unfold transpose. cbn. apply Ha; assumption. Qed.
Lemma transpose23_4 x a b c d f : is4 x a b c d f -> is4 (transpose 2 3 x) a b d c (fun i j k l => f i j l k).
Proof. intros [Hs Ha]. split; [unfold transpose; cbn [sh]; rewrite Hs; reflexivity|]. intros i j k l Hi Hj Hk Hl. unfold transpose. cbn. apply Ha; assumption. Qed.

Lemma in_group H d h j : h < H -> j < d -> h * d + j < H * d.
Proof. intros. nia. Qed.
(* (B, H * d, T) -> (B, H, d, T) *)
Lemma reshape_heads x B H d T f : is3 x B (H * d) T f -> exists t, reshape_to [B; H; d; T] x = Ok t /\ is4 t B H d T (fun b h j t => f b (h * d + j) t).
Proof.
  intros [Hs Ha]. unfold reshape_to. rewrite Hs. assert (prod [B; H; d; T] = prod [B; H * d; T]) as -> by (unfold prod; cbn [fold_right]; nia). rewrite Nat.eqb_refl.
  eexists. split; [reflexivity|]. split; [reflexivity|]. intros b h j t Hb Hh Hj Ht. cbn [at_].
  replace (ravel [B; H; d; T] [b; h; j; t]) with (ravel [B; H * d; T] [b; h * d + j; t]) by (unfold ravel, prod; cbn [fold_right]; nia).
  rewrite unravel_ravel by (repeat constructor; try assumption; apply in_group; assumption). apply Ha; try assumption. apply in_group; assumption.
Qed.
(* (B, T, H, d) -> (B, T, H * d) *)
Lemma reshape_concat x B T H d f : 0 < d -> is4 x B T H d f -> exists t, reshape_to [B; T; H * d] x = Ok t /\ is3 t B T (H * d) (fun b t e => f b t (e / d) (e mod d)).
Proof.
  intros Pd [Hs Ha]. unfold reshape_to. rewrite Hs. assert (prod [B; T; H * d] = prod [B; T; H; d]) as -> by (unfold prod; cbn [fold_right]; nia). rewrite Nat.eqb_refl.
  eexists. split; [reflexivity|]. split; [reflexivity|]. intros b t e Hb Ht He. cbn [at_].
  assert (e / d < H) as Q by (apply Nat.div_lt_upper_bound; lia). pose proof (Nat.mod_upper_bound e d ltac:(lia)) as M. pose proof (Nat.div_mod_eq e d) as DM.
  replace (ravel [B; T; H * d] [b; t; e]) with (ravel [B; T; H; d] [b; t; e / d; e mod d]) by (unfold ravel, prod; cbn [fold_right]; nia).
  rewrite unravel_ravel by (repeat constructor; assumption). apply Ha; assumption.
Qed.
Lemma split1_nth x B H c d f h : is4 x B H c d f -> h < H -> exists t, nth_error (split1 x) h = Some t /\ is4 t B 1 c d (fun b _ k l => f b h k l).
Proof.
  intros [Hs Ha] Hh. unfold split1. rewrite Hs. cbn [nth]. rewrite nth_error_map, (nth_error_nth' _ 0) by (rewrite seq_length; exact Hh). rewrite seq_nth by exact Hh. cbn [option_map Nat.add].
  eexists. split; [reflexivity|]. split; [reflexivity|]. intros i j k l Hi Hj Hk Hl. cbn [at_]. assert (j = 0) as -> by lia. rewrite Nat.add_0_r. apply Ha; assumption.
Qed.
Lemma matmul4_ok x y B C m p n f g : is4 x B C m p f -> is4 y B C p n g ->
  exists t, matmul4 x y = Ok t /\ is4 t B C m n (fun b c i j => total p (fun l => f b c i l * g b c l j)%R).
Proof.
  intros [Hx Ax] [Hy Ay]. unfold matmul4. rewrite Hx, Hy, !Nat.eqb_refl. cbn [andb]. eexists. split; [reflexivity|]. split; [reflexivity|].
  intros b c i j Hb Hc Hi Hj. cbn [at_ nth]. rewrite sum_total. apply total_ext. intros l Hl. rewrite Ax, Ay by assumption. reflexivity.
Qed.
Lemma softmax_ok x B C m n f : is4 x B C m n f -> exists t, softmax_last x = Ok t /\ is4 t B C m n (fun b c i j => exp (f b c i j) / total n (fun l => exp (f b c i l)))%R.
Proof.
  intros [Hx Ax]. unfold softmax_last. rewrite Hx. eexists. split; [reflexivity|]. split; [reflexivity|].
  intros b c i j Hb Hc Hi Hj. cbn [at_ last removelast app]. rewrite Ax by assumption. rewrite sum_total. f_equal. apply total_ext. intros l Hl. rewrite Ax by assumption. reflexivity.
Qed.
Lemma cat1_ok ts H B T d f t0 : length ts = H -> 0 < H -> (forall h, h < H -> is4 (nth h ts t0) B 1 T d (fun b _ t j => f b h t j)) ->
  exists t, cat1 ts = Ok t /\ is4 t B H T d f.
Proof.
  intros L P K. destruct ts as [|u ts]; [cbn in L; lia|]. unfold cat1.
  assert (forallb (fun v => list_eqb (sh v) (sh u) && Nat.eqb (nth 1 (sh v) 0) 1) (u :: ts) = true) as ->.
  { apply forallb_forall. intros v I. destruct (In_nth _ _ t0 I) as [h [Hh E]]. pose proof (K h ltac:(lia)) as [Sv _]. pose proof (K 0 ltac:(lia)) as [Su _]. cbn [nth] in Su. rewrite <- E, Sv, Su.
    rewrite list_eqb_refl. reflexivity. }
  pose proof (K 0 P) as [Su _]. cbn [nth] in Su. rewrite Su. eexists. split; [reflexivity|]. split; [cbn [sh]; rewrite L; reflexivity|].
  intros b h t j Hb Hh Ht Hj. cbn [at_]. pose proof (K h Hh) as [_ A]. rewrite (nth_indep _ u t0) by lia. apply A; try assumption. lia.
Qed.

(* ---- running ---- *)
Lemma run_happ val l1 l2 env : run_hnodes val env (l1 ++ l2) = bind (run_hnodes val env l1) (fun e => run_hnodes val e l2).
Proof.
  revert env. induction l1 as [|[o ss] l1 IH]; intro env; [reflexivity|]. cbn [app run_hnodes]. destruct (mapM (read_src val env) ss) as [ins|e]; [|reflexivity]. cbn [bind].
  destruct (run_hop o ins) as [v|e]; [|reflexivity]. cbn [bind]. apply IH.
Qed.
Lemma step val env o ss r ins v : mapM (read_src val env) ss = Ok ins -> run_hop o ins = Ok v -> run_hnodes val env ((o, ss) :: r) = run_hnodes val (env ++ [v]) r.
Proof. intros H1 H2. cbn [run_hnodes]. rewrite H1. cbn [bind]. rewrite H2. reflexivity. Qed.
Lemma set_src_app i s l1 l2 : i < length l1 -> set_src i s (l1 ++ l2) = set_src i s l1 ++ l2.
Proof.
  intro H. unfold set_src.
  assert (forall (l : hnodes) j, i < j -> map (fun q => if Nat.eqb (fst q) i then (fst (snd q), snd (snd q) ++ [SG s]) else snd q) (enumerate_from j l) = l) as K.
  { induction l as [|x l IH]; intros j Hj; [reflexivity|]. cbn [enumerate_from map fst snd]. destruct (Nat.eqb_spec j i); [lia|]. f_equal. apply IH. lia. }
  assert (forall l1 j, i < j + length l1 -> map (fun q => if Nat.eqb (fst q) i then (fst (snd q), snd (snd q) ++ [SG s]) else snd q) (enumerate_from j (l1 ++ l2)) =
    map (fun q => if Nat.eqb (fst q) i then (fst (snd q), snd (snd q) ++ [SG s]) else snd q) (enumerate_from j l1) ++ l2) as K2.
  { clear H l1. induction l1 as [|x l1 IH]; intros j Hj; [cbn [app length] in *; rewrite K by lia; reflexivity|]. cbn [app enumerate_from map fst snd length] in *. f_equal. apply IH. lia. }
  apply K2. lia.
Qed.

(* ---- the heads ---- *)
Definition head_nodes (base q k v h : nat) : hnodes :=
  let o := base + 6 * h in
  [(HGetitem h, [SN q]); (HGetitem h, [SN k]); (HMatmul, [SN o; SN (o + 1)]); (HSoftmax, [SN (o + 2)]); (HGetitem h, [SN v]); (HMatmul, [SN (o + 3); SN (o + 4)])].
Lemma heads_length base q k v n : length (flat_map (head_nodes base q k v) (seq 0 n)) = 6 * n.
Proof. induction n as [|n IH]; [reflexivity|]. rewrite seq_S, flat_map_app, app_length, IH. cbn. lia. Qed.
Lemma heads_loop_nodes q k v n ns :
  heads_loop q k v n ns = (ns ++ flat_map (head_nodes (length ns) q k v) (seq 0 n), map (fun h => length ns + 6 * h + 5) (seq 0 n)).
Proof.
  unfold heads_loop. induction n as [|n IH]; [cbn; rewrite app_nil_r; reflexivity|].
  rewrite seq_S, fold_left_app, IH. cbn [fold_left Nat.add]. unfold attention_head, addn. rewrite flat_map_app, map_app. cbn [flat_map map]. rewrite !app_length, heads_length. cbn [length map].
  f_equal.
  - rewrite app_nil_r. unfold head_nodes. rewrite <- !app_assoc. cbn [app]. repeat (f_equal; try lia).
  - f_equal. f_equal. lia.
Qed.

Section Heads.
Variables (val : nat -> tensor) (B T S H d : nat) (tq tk tv : tensor) (fq fk fv : nat -> nat -> nat -> nat -> R).
Hypothesis Hq : is4 tq B H T d fq.
Hypothesis Hk : is4 tk B H d S fk.
Hypothesis Hv : is4 tv B H S d fv.
Definition hscore (b h t s : nat) : R := total d (fun j => fq b h t j * fk b h j s)%R.
Definition hctx (b h t j : nat) : R := total S (fun s => exp (hscore b h t s) / total S (fun s' => exp (hscore b h t s')) * fv b h s j)%R.

Lemma run_heads e q k v c t0 : nth_error e q = Some (VL (split1 tq)) -> nth_error e k = Some (VL (split1 tk)) -> nth_error e v = Some (VL (split1 tv)) -> c <= H ->
  exists e' ts, run_hnodes val e (flat_map (head_nodes (length e) q k v) (seq 0 c)) = Ok (e ++ e') /\ length e' = 6 * c /\ length ts = c /\
    forall h, h < c -> nth_error (e ++ e') (length e + 6 * h + 5) = Some (VT (nth h ts t0)) /\ is4 (nth h ts t0) B 1 T d (fun b _ t j => hctx b h t j).
Proof.
  intros Eq Ek Ev. induction c as [|c IH]; intro Hc.
  - exists [], []. cbn. rewrite app_nil_r. repeat split; try lia.
  - destruct (IH ltac:(lia)) as [e' [ts [R [L1 [L2 A]]]]]. rewrite seq_S, flat_map_app, run_happ, R. cbn [bind flat_map Nat.add]. rewrite app_nil_r. unfold head_nodes.
    set (o := length e + 6 * c). assert (length (e ++ e') = o) as Lo by (rewrite app_length, L1; reflexivity).
    destruct (split1_nth _ _ _ _ _ _ c Hq ltac:(lia)) as [a [Ia Ha]]. destruct (split1_nth _ _ _ _ _ _ c Hk ltac:(lia)) as [b [Ib Hb]]. destruct (split1_nth _ _ _ _ _ _ c Hv ltac:(lia)) as [w [Iw Hw]].
    destruct (matmul4_ok _ _ _ _ _ _ _ _ _ Ha Hb) as [s [Is Hs]]. destruct (softmax_ok _ _ _ _ _ _ Hs) as [p [Ip Hp]]. destruct (matmul4_ok _ _ _ _ _ _ _ _ _ Hp Hw) as [r [Ir Hr]].
    set (env := e ++ e') in *.
    assert (forall l i x, nth_error env i = Some x -> nth_error (env ++ l) i = Some x) as Old by (intros l i x N; apply nth_app_left, N).
    assert (nth_error env q = Some (VL (split1 tq))) as Eq' by (apply nth_app_left, Eq). assert (nth_error env k = Some (VL (split1 tk))) as Ek' by (apply nth_app_left, Ek). assert (nth_error env v = Some (VL (split1 tv))) as Ev' by (apply nth_app_left, Ev).
    assert (forall l i, nth_error (env ++ l) (o + i) = nth_error l i) as New by (intros l i; rewrite nth_error_app2 by lia; f_equal; lia).
    assert (forall l, nth_error (env ++ l) o = nth_error l 0) as New0 by (intro l; rewrite <- (New l 0); f_equal; lia).
    rewrite (step _ _ _ _ _ [VL (split1 tq)] (VT a)); [|cbn [mapM read_src]; rewrite Eq'; reflexivity|cbn [run_hop]; rewrite Ia; reflexivity].
    rewrite (step _ _ _ _ _ [VL (split1 tk)] (VT b)); [|cbn [mapM read_src]; rewrite (Old _ _ _ Ek'); reflexivity|cbn [run_hop]; rewrite Ib; reflexivity]. rewrite <- app_assoc. cbn [app].
    rewrite (step _ _ _ _ _ [VT a; VT b] (VT s)); [|cbn [mapM read_src]; rewrite New0, New; reflexivity|cbn [run_hop]; rewrite Is; reflexivity]. rewrite <- app_assoc. cbn [app].
    rewrite (step _ _ _ _ _ [VT s] (VT p)); [|cbn [mapM read_src]; rewrite New; reflexivity|cbn [run_hop]; rewrite Ip; reflexivity]. rewrite <- app_assoc. cbn [app].
    rewrite (step _ _ _ _ _ [VL (split1 tv)] (VT w)); [|cbn [mapM read_src]; rewrite (Old _ _ _ Ev'); reflexivity|cbn [run_hop]; rewrite Iw; reflexivity]. rewrite <- app_assoc. cbn [app].
    rewrite (step _ _ _ _ _ [VT p; VT w] (VT r)); [|cbn [mapM read_src]; rewrite !New; reflexivity|cbn [run_hop]; rewrite Ir; reflexivity]. rewrite <- app_assoc. cbn [app run_hnodes].
    exists (e' ++ [VT a; VT b; VT s; VT p; VT w; VT r]), (ts ++ [r]). unfold env. rewrite <- app_assoc. split; [reflexivity|]. rewrite !app_length, L1, L2. cbn [length]. split; [lia|]. split; [lia|].
    intros h Hh. destruct (Nat.eq_dec h c) as [->|D].
    + rewrite app_nth2 by lia. rewrite L2, Nat.sub_diag. cbn [nth]. fold o. rewrite app_assoc. fold env. rewrite New. split; [reflexivity|]. exact Hr.
    + destruct (A h ltac:(lia)) as [N Q]. rewrite app_nth1 by lia. split; [|exact Q]. rewrite app_assoc. apply nth_app_left. exact N.
Qed.
End Heads.

(* ---- the whole decomposition ---- *)
Lemma mapM_reads val env l ts : Forall2 (fun i t => nth_error env i = Some (VT t)) l ts -> mapM (read_src val env) (map SN l) = Ok (map VT ts).
Proof. induction 1 as [|i t l ts H _ IH]; [reflexivity|]. cbn [map mapM read_src]. rewrite H. cbn [bind]. rewrite IH. reflexivity. Qed.
Lemma mapM_vt ts : mapM (fun v => match v with VT t => Ok t | VL _ => Err E_type end) (map VT ts) = Ok ts.
Proof. induction ts as [|t ts IH]; [reflexivity|]. cbn [map mapM bind]. rewrite IH. reflexivity. Qed.
Lemma Forall2_from {A B} (P : A -> B -> Prop) l ts (t0 : B) (a : nat -> A) n : l = map a (seq 0 n) -> length ts = n -> (forall h, h < n -> P (a h) (nth h ts t0)) -> Forall2 P l ts.
Proof.
  revert l a n. induction ts as [|t ts IH]; intros l a n -> L K; cbn in L; subst n; [constructor|]. cbn [seq map]. constructor; [apply (K 0); lia|].
  apply (IH _ (fun i => a (S i)) (length ts)); [|reflexivity|].
  - rewrite <- seq_shift, map_map. reflexivity.
  - intros h Hh. apply (K (S h)). lia.
Qed.
Lemma mha_params_ok m B T S : supported m -> mha_params m [[B; T; m_embed m]; [B; S; m_kdim m]; [B; S; m_vdim m]] =
  Ok {| h_B := B; h_qdim := m_embed m / m_heads m; h_qseq := T; h_kvseq := S; h_q_input := [B; T; m_embed m] |}.
Proof.
  intros [_ [Hb [Hz [Hkv [Hh _]]]]]. unfold mha_params. rewrite Hb. cbn [bind].
  assert (match m_zero_attn m with Some true => Err E_critical | _ => Ok tt end = Ok tt) as -> by (destruct (m_zero_attn m) as [[|]|]; congruence). cbn [bind].
  assert (match m_bias_v m with None => Ok tt | Some v => match m_bias_k m with None => Err E_key | Some k => if k && v then Err E_critical else Ok tt end end = Ok tt) as -> by (destruct Hkv as [->|[-> ->]]; reflexivity). cbn [bind].
  destruct (Nat.eqb_spec (m_heads m) 0); [lia|]. cbn [bind get_dim nth_error]. rewrite !Nat.eqb_refl. cbn [andb bind]. reflexivity.
Qed.
(* the weights given to the three projections *)
Definition proj_ok (m : mha) (f : R) (w : which) (dim : nat) (k : tensor) (b : option tensor) : Prop :=
  sh k = [m_embed m; dim; 1] /\ match b with Some b => sh b = [m_embed m] | None => True end /\
  (forall e i : nat, at_ k [e; i; 0] = (f * in_matrix m w e i)%R) /\ (forall e : nat, match b with Some b => at_ b [e] | None => 0%R end = (f * in_bias m w e)%R).
Lemma in_weights_ok m p : weights_ok m -> exists qk kk vk ib, in_weights m p = Ok (qk, kk, vk, ib) /\
  proj_ok m (/ sqrt (INR (h_qdim p))) Wq (m_embed m) qk (bias_of ib (fun b => fst (fst b))) /\
  proj_ok m 1 Wk (m_kdim m) kk (bias_of ib (fun b => snd (fst b))) /\ proj_ok m 1 Wv (m_vdim m) vk (bias_of ib (fun b => snd b)).
Proof.
  intros [HW [HB _]]. unfold in_weights. set (f := (/ sqrt (INR (h_qdim p)))%R).
  assert (forall E, (3 * E) mod 3 = 0 /\ 3 * E / 3 = E) as D3 by (intro E; rewrite (Nat.mul_comm 3 E), Nat.mod_mul, Nat.div_mul by lia; split; reflexivity).
  set (E := m_embed m) in *.
  assert (exists qk kk vk, (match m_in_w m with Some w => let! (q, k, v) := split3 (expand_last w) in Ok (scale f q, k, v)
     | None => let! q := weight_of (m_qw m) in let! k := weight_of (m_kw m) in let! v := weight_of (m_vw m) in Ok (expand_last (scale f q), expand_last k, expand_last v) end = Ok (qk, kk, vk)) /\
     (sh qk = [E; E; 1] /\ (forall e i : nat, at_ qk [e; i; 0] = (f * in_matrix m Wq e i)%R)) /\ (sh kk = [E; m_kdim m; 1] /\ (forall e i : nat, at_ kk [e; i; 0] = (1 * in_matrix m Wk e i)%R)) /\
     (sh vk = [E; m_vdim m; 1] /\ (forall e i : nat, at_ vk [e; i; 0] = (1 * in_matrix m Wv e i)%R))) as [qk [kk [vk [-> [[S1 A1] [[S2 A2] [S3 A3]]]]]]].
  { unfold in_matrix. destruct (m_in_w m) as [w|].
    - destruct HW as [Sw [-> ->]]. unfold split3. cbn [expand_last sh]. rewrite Sw. cbn [app]. destruct (D3 E) as [-> ->]. cbn [Nat.eqb bind]. eexists _, _, _. split; [reflexivity|].
      cbn [scale rows expand_last sh at_ removelast tl number]. rewrite Sw. cbn [app tl]. fold E. repeat split; intros; rewrite ?Rmult_1_l; try (f_equal; f_equal; f_equal; lia). 
    - destruct HW as [tq [tk [tv [-> [-> [-> [Sq [Sk Sv]]]]]]]]. cbn [weight_of bind]. eexists _, _, _. split; [reflexivity|]. cbn [scale expand_last sh at_ removelast app]. rewrite Sq, Sk, Sv.
      repeat split; intros; rewrite ?Rmult_1_l; reflexivity. }
  cbn [bind]. unfold proj_ok, in_bias. fold E. destruct (m_in_b m) as [b|].
  - unfold split3. rewrite HB. destruct (D3 E) as [-> ->]. cbn [Nat.eqb bind]. eexists _, _, _, _. split; [reflexivity|]. cbn [bias_of option_map fst snd scale rows sh at_ number]. rewrite HB. cbn [tl].
    repeat split; try assumption; intros; rewrite ?Rmult_1_l; f_equal; f_equal; f_equal; lia.
  - eexists _, _, _, None. split; [reflexivity|]. cbn [bias_of option_map]. repeat split; try assumption; intros; rewrite Rmult_0_r; reflexivity.
Qed.


Definition pfx (m : mha) (p : hparams) (q k v : nat) (qk kk vk : tensor) (ib : option (tensor * tensor * tensor)) : hnodes :=
  let E := m_embed m in
  [(HTranspose 1 2, [SG q]); (HConv1d E E (is_some ib) qk (bias_of ib (fun b => fst (fst b))), [SN 0]);
   (HTranspose 1 2, [SG k]); (HConv1d (m_kdim m) E (is_some ib) kk (bias_of ib (fun b => snd (fst b))), [SN 2]);
   (HTranspose 1 2, [SG v]); (HConv1d (m_vdim m) E (is_some ib) vk (bias_of ib (fun b => snd b)), [SN 4]);
   (HReshape [h_B p; m_heads m; h_qdim p; h_qseq p], [SN 1]); (HTranspose 2 3, [SN 6]);
   (HReshape [h_B p; m_heads m; h_qdim p; h_kvseq p], [SN 3]); (HReshape [h_B p; m_heads m; h_qdim p; h_kvseq p], [SN 5]); (HTranspose 2 3, [SN 9]);
   (HSplit, [SN 7]); (HSplit, [SN 8]); (HSplit, [SN 10])].
Definition sfx (m : mha) (p : hparams) (n : nat) (outs : list nat) : hnodes :=
  [(HCat, map SN outs); (HTranspose 1 2, [SN n]); (HReshape (h_q_input p), [SN (n + 1)]); (HTranspose 1 2, [SN (n + 2)]);
   (HConv1d (m_embed m) (m_embed m) (is_some (m_out_b m)) (expand_last (m_out_w m)) (m_out_b m), [SN (n + 3)]); (HTranspose 1 2, [SN (n + 4)])].
Lemma structure m shapes p q k v qk kk vk ib : m_reuse m = false -> mha_params m shapes = Ok p -> in_weights m p = Ok (qk, kk, vk, ib) ->
  substitute_mha m shapes [q; k; v] = Ok (pfx m p q k v qk kk vk ib ++ flat_map (head_nodes 14 11 12 13) (seq 0 (m_heads m)) ++
    sfx m p (14 + 6 * m_heads m) (map (fun h => 14 + 6 * h + 5) (seq 0 (m_heads m))), 14 + 6 * m_heads m + 5).
Proof.
  intros Hr HP HI. unfold substitute_mha. rewrite Hr, HP. cbn [bind]. unfold project_input. rewrite HI. cbn [bind].
  unfold arrange, split_projected, addn. cbn [app length map bind]. rewrite heads_loop_nodes. cbn [length]. unfold cat_heads, project_output, addn.
  pose proof (heads_length 14 11 12 13 (m_heads m)) as HL. set (hn := flat_map (head_nodes 14 11 12 13) (seq 0 (m_heads m))) in *.
  rewrite <- !app_assoc. rewrite !app_length, HL. cbn [length map connect_mha]. cbn [bind].
  match goal with |- Ok (set_src 4 v (set_src 2 k (set_src 0 q (?a ++ hn ++ ?b))), _) = _ => set (l1 := a); set (l2 := b) end.
  rewrite !set_src_app by (unfold set_src; rewrite ?map_length; cbn; lia).
  assert (l2 = sfx m p (14 + 6 * m_heads m) (map (fun h => 14 + 6 * h + 5) (seq 0 (m_heads m)))) as -> by (unfold l2, sfx; cbn [app]; repeat f_equal; lia).
  replace (14 + (6 * m_heads m + (1 + (1 + (1 + (1 + 1)))))) with (14 + 6 * m_heads m + 5) by lia. reflexivity.
Qed.

Lemma ctx_ok m x y z S d fq fk fv b t e : m_embed m / m_heads m = d ->
  (forall j, j < d -> fq b (e / d) t j = (/ sqrt (INR d) * projected m Wq (m_embed m) x b t (e / d * d + j)%nat)%R) ->
  (forall j s, j < d -> s < S -> fk b (e / d) j s = projected m Wk (m_kdim m) y b s (e / d * d + j)) ->
  (forall s, s < S -> fv b (e / d) s (e mod d) = projected m Wv (m_vdim m) z b s e) ->
  hctx S d fq fk fv b (e / d) t (e mod d) = total S (fun s => (attention m x y S b (e / d)%nat t s * projected m Wv (m_vdim m) z b s e)%R).
Proof.
  intros Ed Hq Hk Hv. unfold hctx. assert (forall s, s < S -> hscore d fq fk b (e / d) t s = score m x y b (e / d) t s) as K.
  { intros s Hs. unfold hscore, score. rewrite Ed. unfold Rdiv. rewrite Rmult_comm, <- total_scale. apply total_ext. intros j Hj. rewrite Hq, Hk by assumption. ring. }
  apply total_ext. intros s Hs. rewrite Hv by exact Hs. unfold attention. rewrite K by exact Hs. f_equal. f_equal. apply total_ext. intros s' Hs'. rewrite K by exact Hs'. reflexivity.
Qed.
Lemma mha_decomposed_lem m B T S q k v : supported m -> weights_ok m ->
  exists nodes out, substitute_mha m [[B; T; m_embed m]; [B; S; m_kdim m]; [B; S; m_vdim m]] [q; k; v] = Ok (nodes, out) /\
    forall val, sh (val q) = [B; T; m_embed m] -> sh (val k) = [B; S; m_kdim m] -> sh (val v) = [B; S; m_vdim m] ->
      exists t, run_mha val nodes out = Ok t /\ sh t = [B; T; m_embed m] /\
        forall b s o, b < B -> s < T -> o < m_embed m -> at_ t [b; s; o] = mha_output m (val q) (val k) (val v) S b s o.
Proof.
  intros Sup HW. pose proof (mha_params_ok m B T S Sup) as HP. set (p := {| h_B := B; h_qdim := m_embed m / m_heads m; h_qseq := T; h_kvseq := S; h_q_input := [B; T; m_embed m] |}) in *.
  destruct (in_weights_ok m p HW) as [qk [kk [vk [ib [HI [[Sqk [Sqb [Aqk Aqb]]] [[Skk [Skb [Akk Akb]]] [Svk [Svb [Avk Avb]]]]]]]]]].
  destruct Sup as [Hr [_ [_ [_ [PH [d [Pd HE]]]]]]]. assert (m_embed m / m_heads m = d) as Ed by (rewrite HE, Nat.mul_comm; apply Nat.div_mul; lia).
  rewrite (structure _ _ _ q k v _ _ _ _ Hr HP HI). eexists _, _. split; [reflexivity|]. intros val Vq Vk Vv.
  set (E := m_embed m) in *. set (H := m_heads m) in *. cbn [p h_qdim] in Aqk, Aqb. 
  assert (is3 (val q) B T E (fun b t i => at_ (val q) [b; t; i])) as Iq by (split; [exact Vq|reflexivity]).
  assert (is3 (val k) B S (m_kdim m) (fun b t i => at_ (val k) [b; t; i])) as Ik by (split; [exact Vk|reflexivity]).
  assert (is3 (val v) B S (m_vdim m) (fun b t i => at_ (val v) [b; t; i])) as Iv by (split; [exact Vv|reflexivity]).
  apply transpose12_3 in Iq, Ik, Iv.
  assert (forall b : option (tensor * tensor * tensor), forall sel : tensor * tensor * tensor -> tensor, is_some b = is_some (bias_of b sel)) as IS by (intros [x|] sel; reflexivity).
  destruct (conv1d_ok _ E _ _ _ _ _ _ Sqk Sqb Iq) as [cq [Rq Cq]]. destruct (conv1d_ok _ E _ _ _ _ _ _ Skk Skb Ik) as [ck [Rk Ck]]. destruct (conv1d_ok _ E _ _ _ _ _ _ Svk Svb Iv) as [cv [Rv Cv]].
  rewrite HE in Cq, Ck, Cv. destruct (reshape_heads _ _ _ _ _ _ Cq) as [rq [RRq Dq]]. destruct (reshape_heads _ _ _ _ _ _ Ck) as [rk [RRk Dk]]. destruct (reshape_heads _ _ _ _ _ _ Cv) as [rv [RRv Dv]].
  apply transpose23_4 in Dq, Dv.
  set (e0 := [VT (transpose 1 2 (val q)); VT cq; VT (transpose 1 2 (val k)); VT ck; VT (transpose 1 2 (val v)); VT cv; VT rq; VT (transpose 2 3 rq); VT rk; VT rv; VT (transpose 2 3 rv);
     VL (split1 (transpose 2 3 rq)); VL (split1 rk); VL (split1 (transpose 2 3 rv))]).
  assert (run_hnodes val [] (pfx m p q k v qk kk vk ib) = Ok e0) as R0.
  { unfold pfx. fold E. fold H. cbn [p h_B h_qdim h_qseq h_kvseq]. rewrite Ed.
    rewrite (step _ _ _ _ _ [VT (val q)] (VT (transpose 1 2 (val q)))) by reflexivity. cbn [app].
    rewrite (step _ _ _ _ _ [VT (transpose 1 2 (val q))] (VT cq)); [|reflexivity|cbn [run_hop]; rewrite (IS ib (fun b => fst (fst b))), Rq; reflexivity]. cbn [app].
    rewrite (step _ _ _ _ _ [VT (val k)] (VT (transpose 1 2 (val k)))) by reflexivity. cbn [app].
    rewrite (step _ _ _ _ _ [VT (transpose 1 2 (val k))] (VT ck)); [|reflexivity|cbn [run_hop]; rewrite (IS ib (fun b => snd (fst b))), Rk; reflexivity]. cbn [app].
    rewrite (step _ _ _ _ _ [VT (val v)] (VT (transpose 1 2 (val v)))) by reflexivity. cbn [app].
    rewrite (step _ _ _ _ _ [VT (transpose 1 2 (val v))] (VT cv)); [|reflexivity|cbn [run_hop]; rewrite (IS ib (fun b => snd b)), Rv; reflexivity]. cbn [app].
    rewrite (step _ _ _ _ _ [VT cq] (VT rq)); [|reflexivity|cbn [run_hop]; rewrite RRq; reflexivity]. cbn [app].
    rewrite (step _ _ _ _ _ [VT rq] (VT (transpose 2 3 rq))) by reflexivity. cbn [app].
    rewrite (step _ _ _ _ _ [VT ck] (VT rk)); [|reflexivity|cbn [run_hop]; rewrite RRk; reflexivity]. cbn [app].
    rewrite (step _ _ _ _ _ [VT cv] (VT rv)); [|reflexivity|cbn [run_hop]; rewrite RRv; reflexivity]. cbn [app].
    rewrite (step _ _ _ _ _ [VT rv] (VT (transpose 2 3 rv))) by reflexivity. cbn [app].
    rewrite (step _ _ _ _ _ [VT (transpose 2 3 rq)] (VL (split1 (transpose 2 3 rq)))) by reflexivity. cbn [app].
    rewrite (step _ _ _ _ _ [VT rk] (VL (split1 rk))) by reflexivity. cbn [app].
    rewrite (step _ _ _ _ _ [VT (transpose 2 3 rv)] (VL (split1 (transpose 2 3 rv)))) by reflexivity. reflexivity. }
  destruct (run_heads val B T S H d _ _ _ _ _ _ Dq Dk Dv e0 11 12 13 H (val q) eq_refl eq_refl eq_refl (le_n H)) as [e1 [ts [R1 [L1 [L2 A]]]]].
  change (length e0) with 14 in *.
  unfold run_mha. rewrite run_happ, R0. cbn [bind]. rewrite run_happ, R1. cbn [bind].
  set (n := 14 + 6 * H). assert (length (e0 ++ e1) = n) as Ln by (rewrite app_length, L1; reflexivity).
  assert (forall l i, nth_error ((e0 ++ e1) ++ l) (n + i) = nth_error l i) as New by (intros l i; rewrite nth_error_app2 by lia; f_equal; lia).
  assert (forall l, nth_error ((e0 ++ e1) ++ l) n = nth_error l 0) as New0 by (intro l; rewrite <- (New l 0); f_equal; lia).
  destruct (cat1_ok ts H B T d _ (val q) L2 PH (fun h Hh => proj2 (A h Hh))) as [c [Rc Cc]].
  pose proof (transpose12_4 _ _ _ _ _ _ Cc) as Ct. destruct (reshape_concat _ _ _ _ _ _ Pd Ct) as [r [Rr Cr]]. pose proof (transpose12_3 _ _ _ _ _ Cr) as Crt.
  destruct HW as [_ [_ [Sow Sob]]]. fold E in Sow, Sob. rewrite <- HE in Crt.
  destruct (conv1d_ok _ E (expand_last (m_out_w m)) (m_out_b m) _ _ _ _ ltac:(cbn [expand_last sh]; rewrite Sow; reflexivity) Sob Crt) as [o [Ro Co]].
  pose proof (transpose12_3 _ _ _ _ _ Co) as Cf.
  assert (run_hnodes val (e0 ++ e1) (sfx m p n (map (fun h => 14 + 6 * h + 5) (seq 0 H))) = Ok ((e0 ++ e1) ++ [VT c; VT (transpose 1 2 c); VT r; VT (transpose 1 2 r); VT o; VT (transpose 1 2 o)])) as R2.
  { unfold sfx. fold E. cbn [p h_q_input]. fold E.
    rewrite (step _ _ _ _ _ (map VT ts) (VT c)); [| |cbn [run_hop]; destruct ts; cbn [map]; rewrite ?mapM_vt; [cbn in Rc; discriminate|]; change (VT t :: map VT ts) with (map VT (t :: ts)); rewrite mapM_vt; cbn [bind]; rewrite Rc; reflexivity].
    2:{ apply mapM_reads. eapply Forall2_from; [reflexivity|exact L2|]. intros h Hh. exact (proj1 (A h Hh)). }
    rewrite (step _ _ _ _ _ [VT c] (VT (transpose 1 2 c))); [|cbn [mapM read_src]; rewrite New0; reflexivity|reflexivity]. rewrite <- app_assoc. cbn [app].
    rewrite (step _ _ _ _ _ [VT (transpose 1 2 c)] (VT r)); [|cbn [mapM read_src]; rewrite New; reflexivity|cbn [run_hop]; rewrite HE, Rr; reflexivity]. rewrite <- app_assoc. cbn [app].
    rewrite (step _ _ _ _ _ [VT r] (VT (transpose 1 2 r))); [|cbn [mapM read_src]; rewrite New; reflexivity|reflexivity]. rewrite <- app_assoc. cbn [app].
    rewrite (step _ _ _ _ _ [VT (transpose 1 2 r)] (VT o)); [|cbn [mapM read_src]; rewrite New; reflexivity|cbn [run_hop]; rewrite Ro; reflexivity]. rewrite <- app_assoc. cbn [app].
    rewrite (step _ _ _ _ _ [VT o] (VT (transpose 1 2 o))); [|cbn [mapM read_src]; rewrite New; reflexivity|reflexivity]. rewrite <- app_assoc. cbn [app]. reflexivity. }
  rewrite R2. cbn [bind]. rewrite New. cbn [nth_error]. eexists. split; [reflexivity|]. destruct Cf as [Sf Af]. split; [exact Sf|].
  intros b s x Hb Hs Hx. rewrite Af by assumption. unfold mha_output. fold E. f_equal.
  apply total_ext. intros e He. cbn [expand_last at_ removelast]. rewrite Rmult_comm. f_equal.
  unfold context. fold E. fold H. rewrite Ed.
  assert (e / d < H) as Qe by (apply Nat.div_lt_upper_bound; lia). pose proof (Nat.div_mod_eq e d) as DM. pose proof (Nat.mod_upper_bound e d ltac:(lia)) as Me.
  apply (ctx_ok m (val q) (val k) (val v) S d); try assumption.
  - intros j Hj. cbv beta. unfold projected. fold E. rewrite Rmult_plus_distr_l, <- total_scale. rewrite Ed in Aqb, Aqk. rewrite <- Aqb. f_equal. apply total_ext. intros i Hi. rewrite Aqk. ring.
  - intros j s' Hj Hs'. cbv beta. unfold projected. rewrite Akb, Rmult_1_l. f_equal. apply total_ext. intros i Hi. rewrite Akk. ring.
  - intros s' Hs'. cbv beta. unfold projected. rewrite Avb, Rmult_1_l. replace (e / d * d + e mod d) with e by lia. f_equal. apply total_ext. intros i Hi. rewrite Avk. ring.
Qed.
