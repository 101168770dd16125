(* DecompProps.v -- C65: layers replaced by equivalent layers. *)
From Coq Require Import FunctionalExtensionality Permutation Sorted String.
From Verif Require Import LinNode LinSpec BnModel BnSpec LinProofs BnProofs LinGraph GraphModel GraphSpec GraphProofs GraphProps GraphFindProps EqualizeGraphProps DecompModel DecompSpec.

(* ---- depthwise to grouped convolution ---- *)
Theorem depthwise_to_grouped l : lin_wf l -> l_kind l = K_dw -> (l_out l / l_in l <> 1)%nat -> (l_use_bias l = true -> l_bias l <> None) ->
  exists l', dw_to_conv l = Ok (Some l') /\ l_kind l' = K_conv /\ lin_wf l' /\ l_in l' = l_in l /\ l_out l' = l_out l /\ l_groups l' = l_in l /\ (forall hw, out_hw l' hw = out_hw l hw) /\
    forall hw x o p, (o < l_out l)%nat -> lin_val l' hw x o p = lin_val l hw x o p.
Proof.
  intros W K M HB. pose proof (ksize_shape l W) as SH. unfold kernel_shape in SH. rewrite K in SH. pose proof (lw_dw l W K) as DW. pose proof (lw_in l W) as PI. pose proof (lw_out l W) as PO.
  set (m := (l_out l / l_in l)%nat) in *. set (kh := fst (ksize l)) in *. set (kw := snd (ksize l)) in *. assert (PM : (0 < m)%nat) by (destruct m; lia).
  unfold dw_to_conv. fold m. rewrite (proj2 (Nat.eqb_neq m 1) M). rewrite SH.
  assert (RS : exists k, reshape (l_kernel l) [Some kh; Some kw; Some 1%nat; Some (l_in l * m)%nat] = Ok k /\ shp k = [kh; kw; 1; l_in l * m]%nat /\
    forall h w o, (h < kh)%nat -> (w < kw)%nat -> (o < l_in l * m)%nat -> at_ k [h; w; 0; o]%nat = at_ (l_kernel l) [h; w; o / m; o mod m]%nat).
  { unfold reshape. rewrite SH. unfold infer. cbn -[Nat.mul]. assert (E : (kh * (kw * (1 * (l_in l * m * 1))) = kh * (kw * (l_in l * (m * 1))))%nat) by lia. rewrite E, Nat.eqb_refl. eexists. split; [reflexivity|]. split; [reflexivity|].
    intros h w o Hh Hw Ho. unfold reshape_to. rewrite SH. cbn [at_ flat unflat prod]. f_equal. set (c := l_in l) in *. rewrite !Nat.mul_1_r, !Nat.mul_1_l. cbn [Nat.mul]. rewrite !Nat.add_0_r, !Nat.add_0_l.
    assert (PC : (c * m <> 0)%nat) by lia. assert (PK : (kw * (c * m) <> 0)%nat) by nia.
    assert (Q1 : ((h * (kw * (c * m)) + (w * (c * m) + o)) / (kw * (c * m)) = h)%nat). { rewrite Nat.div_add_l by exact PK. rewrite Nat.div_small; [lia|]. nia. }
    assert (Q2 : ((h * (kw * (c * m)) + (w * (c * m) + o)) mod (kw * (c * m)) = w * (c * m) + o)%nat). { rewrite Nat.add_comm, Nat.mod_add by exact PK. apply Nat.mod_small. nia. }
    rewrite Q1, Q2. assert (Q3 : ((w * (c * m) + o) / (c * m) = w)%nat) by (rewrite Nat.div_add_l by exact PC; rewrite Nat.div_small by exact Ho; lia). assert (Q4 : ((w * (c * m) + o) mod (c * m) = o)%nat) by (rewrite Nat.add_comm, Nat.mod_add by exact PC; apply Nat.mod_small, Ho).
    rewrite Q3, Q4. rewrite Nat.div_1_r. reflexivity. }
  destruct RS as (k & RE & RS & RA). rewrite RE. cbn [bind].
  assert (BE : exists b, (if l_use_bias l then match l_bias l with Some b => Ok (Some b) | None => Err E_index end else Ok None) = Ok b /\ match b with Some v => shp v = [l_in l * m]%nat /\ l_use_bias l = true | None => True end /\ forall o, (if l_use_bias l then match b with Some v => at_ v [o] | None => 0 end else 0) = bias_val l o).
  { pose proof (lw_bias l W) as LB. unfold bias_val. destruct (l_use_bias l) eqn:U.
    - destruct (l_bias l) as [b|]; [|destruct (HB eq_refl); reflexivity]. exists (Some b). split; [reflexivity|]. rewrite <- DW. split; [tauto|reflexivity].
    - exists None. split; [reflexivity|]. split; [exact I|]. reflexivity. }
  destruct BE as (b & -> & SB & VB). cbn [bind]. eexists. split; [reflexivity|]. cbn [l_kind l_in l_out l_groups]. rewrite <- DW. split; [reflexivity|].
  assert (DM : (l_out l / l_in l = m)%nat) by reflexivity. assert (II : (l_in l / l_in l = 1)%nat) by (apply Nat.div_same; lia).
  assert (KS : forall g a c, ksize (Lin K_conv k b (l_use_bias l) g a c (l_stride l) (l_dil l) (l_pad l)) = ksize l).
  { intros. unfold ksize at 1. cbn [l_kind l_kernel]. rewrite RS. unfold kh, kw. destruct (ksize l); reflexivity. }
  split; [|split; [reflexivity|split; [reflexivity|split; [reflexivity|split]]]].
  - constructor; cbn [l_kind l_kernel l_bias l_use_bias l_groups l_in l_out]; unfold in_per, out_per; cbn [l_in l_out l_groups]; rewrite ?II, ?DM; try lia; try discriminate; try assumption.
    + exists kh, kw. rewrite RS. unfold kernel_shape, in_per. cbn. rewrite II, <- DW. reflexivity.
    + destruct b; [|exact I]. rewrite DW. exact SB.
  - intro hw. unfold out_hw, out_dim. rewrite KS. cbn [l_kind l_stride l_dil l_pad dense transposed]. rewrite K. reflexivity.
  - intros hw x o p O. unfold lin_val. rewrite KS. unfold bias_val at 1. cbn [l_bias l_use_bias]. rewrite VB. f_equal. apply rsum_ext. intros h Hh. apply rsum_ext. intros w Hw.
    assert (T : tap (Lin K_conv k b (l_use_bias l) (l_in l) (l_in l) (l_out l) (l_stride l) (l_dil l) (l_pad l)) hw h w p = tap l hw h w p). { unfold tap, tap1. rewrite KS. cbn [l_kind l_stride l_dil l_pad dense transposed]. rewrite K. reflexivity. }
    rewrite T. destruct (tap l hw h w p) as [q|]; [|reflexivity]. cbn [l_in]. apply rsum_ext. intros i Hi. f_equal. unfold weight, in_per, out_per. cbn [l_kind l_kernel l_in l_out l_groups]. rewrite K, II, DM, Nat.div_1_r, Nat.mod_1_r.
    destruct (Nat.eqb_spec i (o / m)) as [->|]; [|reflexivity]. apply RA; [exact Hh|exact Hw|lia].
Qed.
Print Assumptions depthwise_to_grouped.
(* with one filter per channel the layer stays *)
Theorem depthwise_left_alone l : (l_out l / l_in l = 1)%nat -> dw_to_conv l = Ok None.
Proof. intro H. unfold dw_to_conv. rewrite H. reflexivity. Qed.
Print Assumptions depthwise_left_alone.

(* ---- separable convolution ---- *)
Theorem separable_decomposed s : sep_wf s -> lin_wf (sep_dw s) /\ lin_wf (sep_pw s) /\ l_in (sep_pw s) = l_out (sep_dw s) /\
  (forall hw, out_hw (sep_pw s) (out_hw (sep_dw s) hw) = sep_hw s hw) /\
  (forall hw x o p, (o < s_out s)%nat -> pos_in (sep_hw s hw) p -> lin_val (sep_pw s) (out_hw (sep_dw s) hw) (lin_val (sep_dw s) hw x) o p = sep_val s hw x o p) /\
  forall args, lin_op (sep_pw s) [lin_op (sep_dw s) args] = sep_op s args.
Proof.
  intro W. destruct (sw_dk s W) as (kh & kw & SD). pose proof (sw_pk s W) as SP. pose proof (sw_bias s W) as SB. destruct (sw_pos s W) as (PI & PM & PO).
  assert (DM : ((s_in s * s_mult s) / s_in s = s_mult s)%nat) by (rewrite Nat.mul_comm; apply Nat.div_mul; lia).
  assert (W1 : lin_wf (sep_dw s)). { constructor; cbn -[Nat.div Nat.mul]; unfold in_per, out_per; cbn [l_in l_out l_groups sep_dw]; rewrite ?Nat.div_1_r, ?DM; try lia; try exact I; try reflexivity. exists kh, kw. rewrite SD. unfold kernel_shape. cbn -[Nat.div Nat.mul]. rewrite ?DM. reflexivity. }
  assert (W2 : lin_wf (sep_pw s)). { constructor; cbn -[Nat.div Nat.mul]; unfold in_per, out_per; cbn [l_in l_out l_groups sep_pw]; rewrite ?Nat.div_1_r; try lia; try exact SB; try discriminate; try reflexivity. exists 1%nat, 1%nat. rewrite SP. unfold kernel_shape, in_per. cbn -[Nat.div Nat.mul]. rewrite ?Nat.div_1_r. reflexivity. }
  assert (K1 : ksize (sep_dw s) = sep_k s) by (unfold ksize, sep_k; cbn; rewrite SD; reflexivity). assert (K2 : ksize (sep_pw s) = (1, 1)%nat) by (unfold ksize; cbn [sep_pw l_kind l_kernel]; rewrite SP; reflexivity).
  assert (HW1 : forall hw, out_hw (sep_dw s) hw = sep_hw s hw). { intro hw. unfold out_hw, out_dim, sep_hw, sep_dim. rewrite K1. cbn [sep_dw l_kind l_stride l_dil l_pad dense transposed]. destruct (s_pad s); reflexivity. }
  assert (HW2 : forall hw, out_hw (sep_pw s) hw = hw). { intros [a b]. unfold out_hw, out_dim. rewrite K2. cbn [sep_pw l_kind l_stride l_dil l_pad dense transposed fst snd]. f_equal; rewrite Z.div_1_r; lia. }
  assert (V : forall hw x o p, (o < s_out s)%nat -> pos_in (sep_hw s hw) p -> lin_val (sep_pw s) (out_hw (sep_dw s) hw) (lin_val (sep_dw s) hw x) o p = sep_val s hw x o p).
  { intros hw x o p O P. assert (T : tap (sep_pw s) (out_hw (sep_dw s) hw) 0 0 p = Some p).
    { rewrite HW1. destruct P as [P1 P2]. unfold tap, tap1. rewrite K2. cbn [sep_pw l_kind l_stride l_dil l_pad dense transposed fst snd before]. unfold conv_tap, within.
      assert (E : forall q d, (Z.of_nat 1 * q + d * Z.of_nat 0 - 0 = q)%Z) by (intros; lia). rewrite !E.
      rewrite (proj2 (Z.leb_le 0 (fst p)) (proj1 P1)), (proj2 (Z.ltb_lt (fst p) _) (proj2 P1)), (proj2 (Z.leb_le 0 (snd p)) (proj1 P2)), (proj2 (Z.ltb_lt (snd p) _) (proj2 P2)). cbn. destruct p; reflexivity. }
    rewrite (lin_val_1x1 _ _ _ _ _ p K2 T). unfold sep_val. f_equal. cbn [sep_pw l_in]. apply rsum_ext. intros j J.
    assert (WP : weight (sep_pw s) 0 0 j o = at_ (s_pk s) [0; 0; j; o]%nat). { unfold weight, in_per, out_per. cbn [sep_pw l_kind l_kernel l_in l_out l_groups]. rewrite !Nat.div_1_r, (Nat.div_small j), (Nat.div_small o), (Nat.mod_small j) by assumption. reflexivity. }
    rewrite WP. f_equal. unfold lin_val, sep_filtered. rewrite K1. unfold bias_val. cbn [sep_dw l_use_bias]. rewrite Rplus_0_l. apply rsum_ext. intros h _. apply rsum_ext. intros w _. unfold tap, tap1, sep_tap1. rewrite K1. cbn [sep_dw l_kind dense transposed l_stride l_dil l_pad].
    destruct (conv_tap _ _ _ (fst hw) _ _) as [a|]; [|reflexivity]. destruct (conv_tap _ _ _ (snd hw) _ _) as [b|]; [|reflexivity]. cbn [l_in].
    assert (JD : (j / s_mult s < s_in s)%nat) by (apply Nat.div_lt_upper_bound; lia). rewrite (rsum_one (s_in s) (j / s_mult s)).
    - unfold weight. cbn [sep_dw l_kind l_kernel l_in l_out]. rewrite DM, Nat.eqb_refl. reflexivity.
    - exact JD.
    - intros i I N. unfold weight. cbn [sep_dw l_kind l_kernel l_in l_out]. rewrite DM, (proj2 (Nat.eqb_neq _ _) N). ring. }
  split; [exact W1|]. split; [exact W2|]. split; [reflexivity|]. split; [intro hw; rewrite HW2; apply HW1|]. split; [exact V|].
  intros [|[[hw x]|] [|v r]]; try reflexivity. cbn [lin_op sep_op]. rewrite HW2. rewrite HW1. f_equal. f_equal. apply clip_ext. intros o p O P. change (l_out (sep_dw s)) with (l_in (sep_pw s)). rewrite <- HW1. rewrite lin_val_clip by reflexivity. apply V; assumption.
Qed.
Print Assumptions separable_decomposed.

(* ---- the edits of the graph ---- *)
Local Open Scope nat_scope.
Local Open Scope list_scope.
Definition rewire (s t : nat -> nat) (e : edge) : edge := Edge (s (src e)) (t (snk e)) (si e) (ti e).
Theorem activation_appended validate g n a g' : wf g -> In n (g_nodes g) -> ~ In a (g_nodes g) -> append_node validate g n a = Ok g' ->
  Permutation (g_edges g') (Edge n a 0 0 :: map (rewire (rename n a) (fun v => v)) (g_edges g)) /\
  (forall x, In x (g_nodes g') <-> In x (g_nodes g) \/ x = a) /\ g_in g' = g_in g /\ g_out g' = map (reout n a) (g_out g).
Proof.
  intros W IN NA H. unfold append_node in H. destruct (add_node_rest g a) as (A1 & A2 & A3). pose proof (add_node_wf g a W) as W0.
  destruct (reconnect_out_edges validate (add_node_nx g a) n a) as [g1|] eqn:E1; cbn [bind] in H; [|discriminate]. destruct (reconnect_out_spec validate _ _ _ _ W0 E1) as (P1 & I1 & O1 & W1 & M1).
  destruct (add_edge validate g1 _) as [g2|] eqn:E2; cbn [bind] in H; [|discriminate]. apply add_edge_ok in E2. subst g2. destruct (add_edge_edges g1 (Edge n a 0 0)) as (B1 & B2 & B3). apply replace_output_renames in H. subst g'. cbn [set_out g_edges g_nodes g_in g_out].
  split; [|split; [|split]].
  - rewrite B1. eapply Permutation_trans; [apply Permutation_app_comm|]. cbn [app]. constructor. rewrite A1 in P1. rewrite P1. apply Permutation_refl'. apply map_ext. intros [s t i j]. unfold resrc, rewire, rename. cbn. destruct (Nat.eqb s n); reflexivity.
  - intro x. rewrite add_edge_in. cbn [src snk]. rewrite M1, add_node_in. intuition (subst; auto).
  - rewrite A2 in I1. congruence.
  - rewrite A3 in O1. congruence.
Qed.
Print Assumptions activation_appended.
Theorem layer_split validate g n d p g' : wf g -> In n (g_nodes g) -> ~ In d (g_nodes g) -> ~ In p (g_nodes g) -> d <> p -> split_node validate g n d p = Ok g' ->
  Permutation (g_edges g') (Edge d p 0 0 :: map (rewire (rename n p) (rename n d)) (g_edges g)) /\
  (forall x, In x (g_nodes g') <-> (In x (g_nodes g) /\ x <> n) \/ x = d \/ x = p) /\ g_in g' = g_in g /\ g_out g' = map (reout n p) (g_out g).
Proof.
  intros W IN ND NP dp H. unfold split_node in H. set (g0 := add_node_nx (add_node_nx g d) p) in *.
  assert (A : g_edges g0 = g_edges g /\ g_in g0 = g_in g /\ g_out g0 = g_out g /\ (forall x, In x (g_nodes g0) <-> In x (g_nodes g) \/ x = d \/ x = p) /\ wf g0).
  { unfold g0. destruct (add_node_rest (add_node_nx g d) p) as (-> & -> & ->). destruct (add_node_rest g d) as (-> & -> & ->). split; [reflexivity|]. split; [reflexivity|]. split; [reflexivity|]. split; [intro x; rewrite !add_node_in; tauto|]. apply add_node_wf, add_node_wf, W. }
  destruct A as (A1 & A2 & A3 & A4 & W0). assert (nd : n <> d) by congruence. assert (np : n <> p) by congruence.
  destruct (add_edge validate g0 _) as [g1|] eqn:E1; cbn [bind] in H; [|discriminate]. apply add_edge_ok in E1. destruct (add_edge_edges g0 (Edge d p 0 0)) as (B1 & B2 & B3). rewrite <- E1 in B1, B2, B3. assert (W1 : wf g1) by (subst g1; apply add_edge_wf, W0).
  assert (N1 : forall x, In x (g_nodes g1) <-> In x (g_nodes g) \/ x = d \/ x = p) by (intro x; subst g1; rewrite add_edge_in; cbn [src snk]; rewrite A4; tauto).
  destruct (reconnect_in_edges validate g1 n d) as [g2|] eqn:E2; cbn [bind] in H; [|discriminate]. destruct (reconnect_in_spec validate _ _ _ _ W1 E2) as (P2 & I2 & O2 & W2 & M2).
  destruct (reconnect_out_edges validate g2 n p) as [g3|] eqn:E3; cbn [bind] in H; [|discriminate]. destruct (reconnect_out_spec validate _ _ _ _ W2 E3) as (P3 & I3 & O3 & W3 & M3).
  destruct (replace_output_node validate g3 n p) as [g4|] eqn:E4; cbn [bind] in H; [|discriminate]. apply replace_output_renames in E4.
  destruct (remove_node_removes _ _ _ _ _ _ H) as [(R1 & R2 & R3 & R4) (D1 & D2 & D3 & D4)]. rewrite E4 in D1, D2, D3, D4. cbn [set_out g_edges g_nodes g_in g_out] in D1, D2, D3, D4.
  assert (PE : Permutation (g_edges g3) (Edge d p 0 0 :: map (rewire (rename n p) (rename n d)) (g_edges g))).
  { rewrite P3, P2, B1, A1. rewrite !map_app, map_map. cbn [map app]. eapply Permutation_trans; [apply Permutation_app_comm|]. cbn [app].
    unfold resnk at 1. cbn [snk]. destruct (Nat.eqb_spec p n); [congruence|]. unfold resrc at 1. cbn [src]. destruct (Nat.eqb_spec d n); [congruence|]. constructor.
    apply Permutation_refl', map_ext. intros [s t i j]. unfold resrc, resnk, rewire, rename. cbn. destruct (Nat.eqb t n); cbn; destruct (Nat.eqb s n); reflexivity. }
  split; [|split; [|split]].
  - rewrite D1. exact PE.
  - intro x. rewrite D2, filter_In, negb_true_iff, Nat.eqb_neq, M3, M2, N1. split; [intros [X Y]|intros [[X Y]|X]].
    + destruct X as [[X|[X _]]|[X _]]; [destruct X as [X|X]; [left; split; [exact X|congruence]|right; exact X]|subst; auto|subst; auto].
    + split; [tauto|congruence].
    + split; [tauto|]. destruct X as [-> | ->]; assumption.
  - destruct (mem n (g_in g3)) eqn:MM; [discriminate|]. congruence.
  - destruct (mem n (map fst (map (reout n p) (g_out g3)))) eqn:MM; [discriminate|]. rewrite D4. congruence.
Qed.
Print Assumptions layer_split.
Lemma single_in g n : in_degree g n = 1 -> exists e rest, in_edges g n = [e] /\ In e (g_edges g) /\ snk e = n /\ filter (fun e => Nat.eqb (snk e) n) (g_edges g) = [e] /\ Permutation (g_edges g) (e :: rest) /\ forall y, In y rest -> snk y <> n.
Proof.
  intro D. unfold in_degree in D. pose proof (in_edges_perm g n) as Q. destruct (filter (fun e => Nat.eqb (snk e) n) (g_edges g)) as [|e [|? ?]] eqn:F; try discriminate. 
  assert (I : In e (filter (fun e => Nat.eqb (snk e) n) (g_edges g))) by (rewrite F; left; reflexivity). apply filter_In in I. destruct I as [I S]. apply Nat.eqb_eq in S.
  apply in_split in I as I'. destruct I' as (l1 & l2 & E). exists e, (l1 ++ l2). split; [apply Permutation_length_1_inv, Permutation_sym, Q|]. split; [exact I|]. split; [exact S|]. split; [reflexivity|]. split; [rewrite E; symmetry; apply Permutation_middle|].
  intros y J K. rewrite E, filter_app in F. cbn [filter] in F. rewrite S, Nat.eqb_refl in F. assert (In y (filter (fun e => Nat.eqb (snk e) n) l1 ++ filter (fun e => Nat.eqb (snk e) n) l2)) as Z by (rewrite <- filter_app; apply filter_In; split; [exact J|apply Nat.eqb_eq, K]).
  apply (f_equal (@List.length _)) in F. rewrite app_length in F. cbn [length] in F. assert (length (filter (fun e => Nat.eqb (snk e) n) l1 ++ filter (fun e => Nat.eqb (snk e) n) l2) = 0) as L by (rewrite app_length; lia). destruct (filter (fun e => Nat.eqb (snk e) n) l1 ++ filter (fun e => Nat.eqb (snk e) n) l2); [destruct Z|discriminate].
Qed.
Lemma in_edges_same g g' n : g_edges g = g_edges g' -> in_edges g n = in_edges g' n.
Proof. intro E. unfold in_edges, between. rewrite E. reflexivity. Qed.
Theorem layer_swapped validate g n m g' : wf g -> In n (g_nodes g) -> ~ In m (g_nodes g) -> in_degree g n = 1 -> swap_node validate g n m = Ok g' ->
  Permutation (g_edges g') (map (rewire (rename n m) (rename n m)) (g_edges g)) /\
  (forall x, In x (g_nodes g') <-> (In x (g_nodes g) /\ x <> n) \/ x = m) /\ g_in g' = g_in g /\ g_out g' = (if mem n (map fst (g_out g)) then [(m, 0)] else g_out g).
Proof.
  intros W IN NM D H. unfold swap_node in H. destruct (single_in g n D) as (e & rest & IE & Ie & Se & _ & PR & NR). assert (nm : n <> m) by congruence.
  destruct (add_node_rest g m) as (A1 & A2 & A3). pose proof (add_node_wf g m W) as W0. rewrite (in_edges_same _ g n A1), IE in H.
  set (e1 := Edge (src e) m (si e) (ti e)) in *. destruct (add_edge validate (add_node_nx g m) e1) as [g1|] eqn:E1; cbn [bind] in H; [|discriminate]. apply add_edge_ok in E1.
  destruct (add_edge_edges (add_node_nx g m) e1) as (B1 & B2 & B3). rewrite <- E1 in B1, B2, B3. assert (W1 : wf g1) by (subst g1; apply add_edge_wf, W0).
  assert (N1 : forall x, In x (g_nodes g1) <-> In x (g_nodes g) \/ x = m). { intro x. subst g1. rewrite add_edge_in, add_node_in. cbn. pose proof (proj1 (wf_ends g W e Ie)). intuition (subst; auto). }
  destruct (remove_edge validate g1 (src e) n) as [g2|] eqn:E2; cbn [bind] in H; [|discriminate]. apply remove_edge_ok in E2. assert (W2 : wf g2) by (apply (remove_edge_wf _ _ _ _ W1 E2)). destruct (remove_edge_spec _ _ _ _ E2) as (x & X1 & X2 & X3 & X4).
  assert (G2 : g_nodes g2 = g_nodes g1 /\ g_in g2 = g_in g1 /\ g_out g2 = g_out g1) by (rewrite X4; auto). destruct G2 as (G2n & G2i & G2o).
  assert (xe : x = e). { assert (J : In x (g_edges g1)) by (apply (Permutation_in x (Permutation_sym X3)); left; reflexivity). rewrite B1, A1, in_app_iff in J. destruct J as [J|[J|[]]].
    - apply (Permutation_in x PR) in J. destruct J as [J|J]; [congruence|]. destruct (NR x J X2).
    - subst x. unfold e1 in X2. cbn in X2. congruence. }
  subst x. assert (P2 : Permutation (g_edges g2) (rest ++ [e1])). { apply (Permutation_cons_inv (a := e)). rewrite <- X3, B1, A1, PR. reflexivity. }
  destruct (reconnect_out_edges validate g2 n m) as [g3|] eqn:E3; cbn [bind] in H; [|discriminate]. destruct (reconnect_out_spec validate _ _ _ _ W2 E3) as (P3 & I3 & O3 & W3 & M3).
  destruct (remove_node_removes _ _ _ _ _ _ H) as [(R1 & R2 & R3 & R4) (D1 & D2 & D3 & D4)].
  split; [|split; [|split]].
  - rewrite D1, P3, P2, PR, map_app. cbn [map]. eapply Permutation_trans; [apply Permutation_app_comm|]. cbn [app]. assert (Ee : resrc n m e1 = rewire (rename n m) (rename n m) e). { unfold resrc, rewire, rename, e1. cbn. rewrite Se, Nat.eqb_refl. destruct (Nat.eqb (src e) n); reflexivity. } rewrite Ee. constructor.
    apply Permutation_refl', map_ext_in. intros y Y. pose proof (NR y Y) as Z. destruct y as [s t i j]. unfold resrc, rewire, rename. cbn in *. destruct (Nat.eqb_spec t n); [contradiction|]. destruct (Nat.eqb s n); reflexivity.
  - intro x. rewrite D2, filter_In, negb_true_iff, Nat.eqb_neq, M3, G2n, N1. split; [intros [[[X|X]|[X _]] Y]|intros [[X Y]| ->]]; auto; try (left; split; congruence).
  - destruct (mem n (g_in g3)) eqn:MM; [discriminate|]. congruence.
  - rewrite O3, G2o, B3, A3 in D4. destruct (mem n (map fst (g_out g))); [injection D4 as D4; congruence|congruence].
Qed.
Print Assumptions layer_swapped.

(* ---- what the edited graphs compute ---- *)
Section Function.
Context {V : Type}.
Lemma reads_rewired g g' (val val' : nat -> nat -> V) s t x x' l :
  Permutation (filter (fun e => Nat.eqb (snk e) x') (g_edges g')) (map (rewire s t) (filter (fun e => Nat.eqb (snk e) x) (g_edges g))) ->
  (forall e, In e (g_edges g) -> snk e = x -> val' (s (src e)) (si e) = val (src e) (si e)) -> reads g' val' x' l -> reads g val x l.
Proof.
  intros P VE (es & P1 & S & ->). rewrite P in P1. destruct (Permutation_map_inv _ _ P1) as (es0 & -> & P0). exists es0. split; [symmetry; exact P0|]. split.
  - clear -S. induction es0 as [|e es IH]; [constructor|]. cbn in S. inversion S; subst. constructor; [apply IH; assumption|]. rewrite Forall_map in H2. exact H2.
  - rewrite map_map. apply map_ext_in. intros e I. cbn. apply (Permutation_in e (Permutation_sym P0)) in I. apply filter_In in I. destruct I as [I E]. apply VE; [exact I|apply Nat.eqb_eq, E].
Qed.
Lemma reads_single g (val : nat -> nat -> V) x e l : filter (fun e => Nat.eqb (snk e) x) (g_edges g) = [e] -> reads g val x l -> l = [val (src e) (si e)].
Proof. intros F (es & P & _ & ->). rewrite F in P. apply Permutation_sym, Permutation_length_1_inv in P. subst. reflexivity. Qed.
Lemma reads_single_intro g (val : nat -> nat -> V) x e : filter (fun e => Nat.eqb (snk e) x) (g_edges g) = [e] -> reads g val x [val (src e) (si e)].
Proof. intro F. exists [e]. rewrite F. split; [apply Permutation_refl|]. split; [repeat constructor|reflexivity]. Qed.
Lemma into_new g m : wf g -> ~ In m (g_nodes g) -> filter (fun e => Nat.eqb (snk e) m) (g_edges g) = [].
Proof. intros W N. apply filter_nil. intros e I. apply Nat.eqb_neq. intro J. apply N. rewrite <- J. apply (wf_ends g W e I). Qed.
Lemma filter_rewired s t g x x' : (forall e, In e (g_edges g) -> Nat.eqb (t (snk e)) x' = Nat.eqb (snk e) x) -> filter (fun e => Nat.eqb (snk e) x') (map (rewire s t) (g_edges g)) = map (rewire s t) (filter (fun e => Nat.eqb (snk e) x) (g_edges g)).
Proof. intro H. rewrite filter_map_comm. f_equal. apply filter_ext_in. exact H. Qed.

Definition outs_in (g : graph) : Prop := forall o, In o (g_out g) -> In (fst o) (g_nodes g).
(* the new node in place of the old one: outputs are kept unless the old node is one of several *)
Theorem swap_preserves validate (op op' : nat -> list V -> nat -> V) g n m g' val : wf g -> outs_in g -> In n (g_nodes g) -> ~ In m (g_nodes g) -> in_degree g n = 1 -> swap_node validate g n m = Ok g' ->
  (forall x, x <> n -> x <> m -> op' x = op x) -> (forall v k, op' m [v] k = op n [v] k) -> computes op g val ->
  exists val', computes op' g' val' /\ (forall x k, x <> m -> val' x k = val x k) /\ (forall k, val' m k = val n k) /\
    (~ In n (map fst (g_out g)) \/ g_out g = [(n, 0)] -> outputs g' val' = outputs g val).
Proof.
  intros W OI IN NM D H OE OM C. destruct (layer_swapped validate g n m g' W IN NM D H) as (P & N & _ & O). destruct (single_in g n D) as (e & _ & _ & Ie & _ & F & _ & _). assert (nm : n <> m) by congruence.
  set (val' := fun x k => if Nat.eqb x m then val n k else val x k). assert (VO : forall x k, x <> m -> val' x k = val x k) by (intros x k X; unfold val'; destruct (Nat.eqb_spec x m); [contradiction|reflexivity]). assert (VM : forall k, val' m k = val n k) by (intro k; unfold val'; rewrite Nat.eqb_refl; reflexivity).
  assert (VE : forall e, In e (g_edges g) -> val' (rename n m (src e)) (si e) = val (src e) (si e)).
  { intros y I. unfold rename. destruct (Nat.eqb_spec (src y) n) as [S|S]; [rewrite VM, S; reflexivity|]. apply VO. intro Z. apply NM. rewrite <- Z. apply (wf_ends g W y I). }
  exists val'. split; [|split; [|split; [exact VM|]]].
  - intros x I l R k. apply N in I.
    assert (FX : forall y, ((x = m /\ y = n) \/ (x <> m /\ x <> n /\ y = x)) -> reads g val y l).
    { intros y Y. apply (reads_rewired g g' val val' (rename n m) (rename n m) y x); [|intros z I2 _; apply VE, I2|exact R]. rewrite (filter_perm _ _ _ P). apply Permutation_refl', filter_rewired. intros z I2.
      assert (snk z <> m) by (intro Z; apply NM; rewrite <- Z; apply (wf_ends g W z I2)). unfold rename. destruct Y as [[-> ->]|(X1 & X2 & ->)].
      - destruct (Nat.eqb_spec (snk z) n); [apply Nat.eqb_refl|]. apply Nat.eqb_neq. assumption.
      - destruct (Nat.eqb_spec (snk z) n) as [Z|Z]; [|reflexivity]. rewrite (proj2 (Nat.eqb_neq m x)) by congruence. reflexivity || (symmetry; apply Nat.eqb_neq; congruence). }
    destruct I as [[I xn]| ->].
    + assert (xm : x <> m) by congruence. rewrite VO, OE by assumption. apply (C x I l). apply FX. right. auto.
    + assert (R0 : reads g val n l) by (apply FX; left; auto). rewrite VM. pose proof (reads_single g val n e l F R0) as L. rewrite L in *. rewrite OM. apply (C n IN _ R0).
  - intros x k X. apply VO, X.
  - unfold outputs. rewrite O. intros [NO|OO].
    + destruct (mem n (map fst (g_out g))) eqn:M; [apply mem_spec in M; contradiction|]. apply map_ext_in. intros y I. apply VO. intro Z. apply NM. rewrite <- Z. apply OI, I.
    + rewrite OO. cbn [map fst mem existsb]. rewrite Nat.eqb_refl. cbn. rewrite VM. reflexivity.
Qed.

(* the layer replaced by two layers *)
Theorem split_preserves validate (op op' : nat -> list V -> nat -> V) g n d p g' val : wf g -> outs_in g -> In n (g_nodes g) -> ~ In d (g_nodes g) -> ~ In p (g_nodes g) -> d <> p -> in_degree g n = 1 -> split_node validate g n d p = Ok g' ->
  (forall x, In x (g_nodes g) -> x <> n -> op' x = op x) -> (forall v k, op' p [op' d [v] 0] k = op n [v] k) -> computes op g val ->
  exists val', computes op' g' val' /\ (forall x k, In x (g_nodes g) -> val' x k = val x k) /\ (forall k, val' p k = val n k) /\ outputs g' val' = outputs g val.
Proof.
  intros W OI IN ND NP dp D H OE OM C. destruct (layer_split validate g n d p g' W IN ND NP dp H) as (P & N & _ & O). destruct (single_in g n D) as (e & _ & _ & Ie & _ & F & _ & _). assert (nd : n <> d) by congruence. assert (np : n <> p) by congruence.
  set (v0 := val (src e) (si e)). set (val' := fun x k => if Nat.eqb x d then op' d [v0] k else if Nat.eqb x p then val n k else val x k).
  assert (VO : forall x k, x <> d -> x <> p -> val' x k = val x k) by (intros x k X Y; unfold val'; rewrite (proj2 (Nat.eqb_neq _ _) X), (proj2 (Nat.eqb_neq _ _) Y); reflexivity).
  assert (VN : forall x k, In x (g_nodes g) -> val' x k = val x k) by (intros x k I; apply VO; congruence).
  assert (VD : forall k, val' d k = op' d [v0] k) by (intro k; unfold val'; rewrite Nat.eqb_refl; reflexivity). assert (VP : forall k, val' p k = val n k) by (intro k; unfold val'; rewrite (proj2 (Nat.eqb_neq p d)), Nat.eqb_refl by congruence; reflexivity).
  assert (VE : forall e, In e (g_edges g) -> val' (rename n p (src e)) (si e) = val (src e) (si e)).
  { intros y I. unfold rename. destruct (Nat.eqb_spec (src y) n) as [S|S]; [rewrite VP, S; reflexivity|]. apply VN, (wf_ends g W y I). }
  assert (SN : forall z, In z (g_edges g) -> snk z <> d /\ snk z <> p) by (intros z I; pose proof (proj2 (wf_ends g W z I)); split; congruence).
  exists val'. split; [|split; [exact VN|split; [exact VP|]]].
  - intros x I l R k. apply N in I.
    assert (FX : forall y, x <> p -> ((x = d /\ y = n) \/ (x <> d /\ x <> n /\ y = x)) -> reads g val y l).
    { intros y XP Y. apply (reads_rewired g g' val val' (rename n p) (rename n d) y x); [|intros z I2 _; apply VE, I2|exact R]. rewrite (filter_perm _ _ _ P). cbn [filter snk]. rewrite (proj2 (Nat.eqb_neq p x)) by congruence. apply Permutation_refl', filter_rewired. intros z I2. destruct (SN z I2) as [Z1 Z2].
      unfold rename. destruct Y as [[-> ->]|(X1 & X2 & ->)].
      - destruct (Nat.eqb_spec (snk z) n); [apply Nat.eqb_refl|]. apply Nat.eqb_neq. assumption.
      - destruct (Nat.eqb_spec (snk z) n) as [Z|Z]; [|reflexivity]. rewrite (proj2 (Nat.eqb_neq d x)) by congruence. reflexivity || (symmetry; apply Nat.eqb_neq; congruence). }
    destruct I as [[I xn]|[-> | ->]].
    + rewrite VN, OE by assumption. apply (C x I l). apply FX; [congruence|]. right. split; [congruence|auto].
    + assert (R0 : reads g val n l) by (apply FX; [exact dp|left; auto]). rewrite VD. rewrite (reads_single g val n e l F R0). reflexivity.
    + assert (FP : filter (fun e => Nat.eqb (snk e) p) (g_edges g') = [Edge d p 0 0]).
      { apply Permutation_length_1_inv. rewrite (filter_perm _ _ _ P). cbn [filter snk]. rewrite Nat.eqb_refl. rewrite filter_map_comm, filter_nil; [reflexivity|]. intros z I. destruct (SN z I). unfold rewire, rename. cbn [snk]. destruct (Nat.eqb_spec (snk z) n); apply Nat.eqb_neq; assumption. }
      rewrite (reads_single g' val' p _ l FP R). cbn [src si]. rewrite VD, OM, VP. apply (C n IN). apply reads_single_intro, F.
  - unfold outputs. rewrite O, map_map. apply map_ext_in. intros y I. cbn [reout fst snd]. unfold rename. destruct (Nat.eqb_spec (fst y) n) as [->|]; [apply VP|]. apply VN, OI, I.
Qed.

(* the activation function of a layer as a node behind it *)
Theorem append_preserves validate (op op' : nat -> list V -> nat -> V) g n a g' val : wf g -> outs_in g -> In n (g_nodes g) -> ~ In a (g_nodes g) -> in_degree g n = 1 -> append_node validate g n a = Ok g' ->
  (forall x, In x (g_nodes g) -> x <> n -> op' x = op x) -> (forall v k, op' a [op' n [v] 0] k = op n [v] k) -> computes op g val ->
  exists val', computes op' g' val' /\ (forall x k, In x (g_nodes g) -> x <> n -> val' x k = val x k) /\ (forall k, val' a k = val n k) /\ outputs g' val' = outputs g val.
Proof.
  intros W OI IN NA D H OE OM C. destruct (activation_appended validate g n a g' W IN NA H) as (P & N & _ & O). destruct (single_in g n D) as (e & _ & _ & Ie & Se & F & _ & _). assert (na : n <> a) by congruence.
  set (v0 := val (src e) (si e)). set (val' := fun x k => if Nat.eqb x n then op' n [v0] k else if Nat.eqb x a then val n k else val x k).
  assert (VN : forall x k, In x (g_nodes g) -> x <> n -> val' x k = val x k) by (intros x k I X; unfold val'; rewrite (proj2 (Nat.eqb_neq _ _) X), (proj2 (Nat.eqb_neq x a)) by congruence; reflexivity).
  assert (V0 : forall k, val' n k = op' n [v0] k) by (intro k; unfold val'; rewrite Nat.eqb_refl; reflexivity). assert (VA : forall k, val' a k = val n k) by (intro k; unfold val'; rewrite (proj2 (Nat.eqb_neq a n)), Nat.eqb_refl by congruence; reflexivity).
  assert (VE : forall e, In e (g_edges g) -> val' (rename n a (src e)) (si e) = val (src e) (si e)).
  { intros y I. unfold rename. destruct (Nat.eqb_spec (src y) n) as [S|S]; [rewrite VA, S; reflexivity|]. apply VN; [apply (wf_ends g W y I)|exact S]. }
  assert (SN : forall z, In z (g_edges g) -> snk z <> a) by (intros z I; pose proof (proj2 (wf_ends g W z I)); congruence).
  exists val'. split; [|split; [exact VN|split; [exact VA|]]].
  - intros x I l R k. apply N in I.
    assert (FX : x <> a -> reads g val x l).
    { intros XA. apply (reads_rewired g g' val val' (rename n a) (fun v => v) x x); [|intros z I2 _; apply VE, I2|exact R]. rewrite (filter_perm _ _ _ P). cbn [filter snk]. rewrite (proj2 (Nat.eqb_neq a x)) by congruence. apply Permutation_refl', filter_rewired. intros z I2. reflexivity. }
    destruct I as [I| ->]; [assert (xa : x <> a) by congruence; destruct (Nat.eq_dec x n) as [->|xn]|].
    + rewrite V0, (reads_single g val n e l F (FX na)). reflexivity.
    + rewrite VN, OE by assumption. apply (C x I l), FX, xa.
    + assert (FP : filter (fun e => Nat.eqb (snk e) a) (g_edges g') = [Edge n a 0 0]).
      { apply Permutation_length_1_inv. rewrite (filter_perm _ _ _ P). cbn [filter snk]. rewrite Nat.eqb_refl. rewrite filter_map_comm, filter_nil; [reflexivity|]. intros z I. cbn. apply Nat.eqb_neq, SN, I. }
      rewrite (reads_single g' val' a _ l FP R). cbn [src si]. rewrite V0, OM, VA. apply (C n IN). apply reads_single_intro, F.
  - unfold outputs. rewrite O, map_map. apply map_ext_in. intros y I. cbn [reout fst snd]. unfold rename. destruct (Nat.eqb_spec (fst y) n) as [->|Z]; [apply VA|]. apply VN; [apply OI, I|exact Z].
Qed.
End Function.
Print Assumptions swap_preserves.
Print Assumptions split_preserves.
Print Assumptions append_preserves.

(* ---- the whole passes, with images between the nodes ---- *)
Theorem depthwise_pass_preserves validate (op op' : nat -> list image -> nat -> image) g n m g' val l l' : wf g -> outs_in g -> In n (g_nodes g) -> ~ In m (g_nodes g) -> in_degree g n = 1 ->
  lin_wf l -> l_kind l = K_dw -> dw_to_conv l = Ok (Some l') -> swap_node validate g n m = Ok g' ->
  (forall x, x <> n -> x <> m -> op' x = op x) -> (forall v k, op n [v] k = lin_op l [v]) -> (forall v k, op' m [v] k = lin_op l' [v]) -> computes op g val ->
  ~ In n (map fst (g_out g)) \/ g_out g = [(n, 0)] ->
  exists val', computes op' g' val' /\ (forall x k, x <> m -> val' x k = val x k) /\ outputs g' val' = outputs g val.
Proof.
  intros W OI IN NM D LW K DC H OE ON OM C OO.
  assert (Q : forall v, lin_op l' [v] = lin_op l [v]).
  { assert (M : l_out l / l_in l <> 1) by (intro Z; rewrite (depthwise_left_alone l Z) in DC; discriminate).
    assert (HB : l_use_bias l = true -> l_bias l <> None).
    { intros U B. unfold dw_to_conv in DC. rewrite (proj2 (Nat.eqb_neq _ _) M), U, B in DC. destruct (shp (l_kernel l)) as [|? [|? [|? [|? [|]]]]]; try discriminate. destruct (reshape _ _); discriminate. }
    destruct (depthwise_to_grouped l LW K M HB) as (l2 & E & _ & _ & I1 & I2 & _ & I3 & I4). rewrite DC in E. injection E as <-. intros [[hw x]|]; [|reflexivity]. cbn [lin_op]. rewrite I3, I2. f_equal. f_equal. apply clip_ext. intros o p Ho _. apply I4, Ho. }
  destruct (swap_preserves validate op op' g n m g' val W OI IN NM D H OE) as (val' & A & B & _ & E); [intros; rewrite OM, ON; apply Q|exact C|]. exists val'. split; [exact A|]. split; [exact B|]. exact (E OO).
Qed.
Print Assumptions depthwise_pass_preserves.
Theorem separable_pass_preserves validate (op op' : nat -> list image -> nat -> image) g n d p g' val s : wf g -> outs_in g -> In n (g_nodes g) -> ~ In d (g_nodes g) -> ~ In p (g_nodes g) -> d <> p -> in_degree g n = 1 ->
  sep_wf s -> split_node validate g n d p = Ok g' ->
  (forall x, In x (g_nodes g) -> x <> n -> op' x = op x) -> (forall v k, op n [v] k = sep_op s [v]) -> (forall v k, op' d [v] k = lin_op (sep_dw s) [v]) -> (forall v k, op' p [v] k = lin_op (sep_pw s) [v]) -> computes op g val ->
  exists val', computes op' g' val' /\ (forall x k, In x (g_nodes g) -> val' x k = val x k) /\ outputs g' val' = outputs g val.
Proof.
  intros W OI IN ND NP dp D SW H OE ON OD OP C. destruct (split_preserves validate op op' g n d p g' val W OI IN ND NP dp D H OE) as (val' & A & B & _ & E); [|exact C|exists val'; auto].
  intros v k. rewrite OP, OD, ON. apply (separable_decomposed s SW).
Qed.
Print Assumptions separable_pass_preserves.

(* activation functions: `fn` gives what Keras means by an activation name, `softmax` the Softmax layer along an axis *)
Theorem activation_pass_preserves validate (fn : string -> image -> image) (softmax : Z -> image -> image) (op op' : nat -> list image -> nat -> image) (lin : image -> image) g n a g' val act post left : wf g -> outs_in g -> In n (g_nodes g) -> ~ In a (g_nodes g) -> in_degree g n = 1 ->
  (forall v, fn "linear"%string v = v) -> (forall v, fn "softmax"%string v = softmax (-1)%Z v) ->
  decompose_activation (Some act) = Some (post, left) -> append_node validate g n a = Ok g' ->
  (forall x, In x (g_nodes g) -> x <> n -> op' x = op x) -> (forall v k, op n [v] k = fn act (lin v)) -> (forall v k, op' n [v] k = fn left (lin v)) ->
  (forall v k, op' a [v] k = match post with N_softmax ax => softmax ax v | N_activation s => fn s v end) -> computes op g val ->
  exists val', computes op' g' val' /\ (forall x k, In x (g_nodes g) -> x <> n -> val' x k = val x k) /\ outputs g' val' = outputs g val.
Proof.
  intros W OI IN NA D FL FS DA H OE ON ON' OA C. destruct (append_preserves validate op op' g n a g' val W OI IN NA D H OE) as (val' & A & B & _ & E); [|exact C|exists val'; auto].
  intros v k. rewrite OA, ON, ON'. unfold decompose_activation in DA. destruct (String.eqb_spec act "linear"); [discriminate|]. injection DA as <- <-. rewrite FL. destruct (String.eqb_spec act "softmax") as [->|]; [symmetry; apply FS|reflexivity].
Qed.
Print Assumptions activation_pass_preserves.
(* every activation but linear is moved to a node of its own *)
Theorem activation_decomposed_iff act : (exists post left, decompose_activation act = Some (post, left)) <-> act <> None /\ act <> Some "linear"%string.
Proof.
  destruct act as [a|]; cbn; [|split; [intros (? & ? & ?); discriminate|intros [H _]; destruct H; reflexivity]]. destruct (String.eqb_spec a "linear") as [->|N].
  - split; [intros (? & ? & ?); discriminate|]. intros [_ H]. destruct H; reflexivity.
  - split; [intros _; split; congruence|]. intros _. destruct (String.eqb a "softmax"); eauto.
Qed.
Print Assumptions activation_decomposed_iff.

(* the edits never fail on a layer of the graph that reads one tensor and is no input of the model *)
Theorem append_succeeds g n a : exists g', append_node no_check g n a = Ok g'.
Proof. unfold append_node. destruct (reconnect_never_fails (add_node_nx g a) n a) as [(g1 & ->) _]. cbn. eexists. reflexivity. Qed.
Print Assumptions append_succeeds.
Theorem split_succeeds g n d p : wf g -> In n (g_nodes g) -> ~ In d (g_nodes g) -> ~ In p (g_nodes g) -> ~ In n (g_in g) -> exists g', split_node no_check g n d p = Ok g'.
Proof.
  intros W IN ND NP NI. unfold split_node. set (g0 := add_node_nx (add_node_nx g d) p). assert (nd : n <> d) by congruence. assert (np : n <> p) by congruence.
  assert (A : g_in g0 = g_in g /\ In n (g_nodes g0) /\ wf g0). { unfold g0. destruct (add_node_rest (add_node_nx g d) p) as (_ & -> & _). destruct (add_node_rest g d) as (_ & -> & _). split; [reflexivity|]. split; [rewrite !add_node_in; tauto|]. apply add_node_wf, add_node_wf, W. }
  destruct A as (A2 & A4 & W0). destruct (add_edge no_check g0 (Edge d p 0 0)) as [g1|] eqn:E1; [|discriminate]. apply add_edge_ok in E1. destruct (add_edge_edges g0 (Edge d p 0 0)) as (B1 & B2 & B3). rewrite <- E1 in B1, B2, B3. assert (W1 : wf g1) by (subst g1; apply add_edge_wf, W0). cbn [bind].
  assert (N1 : In n (g_nodes g1)) by (subst g1; rewrite add_edge_in; tauto).
  destruct (reconnect_never_fails g1 n d) as [_ (g2 & E2)]. rewrite E2. cbn [bind]. destruct (reconnect_in_spec _ _ _ _ _ W1 E2) as (P2 & I2 & O2 & W2 & M2).
  destruct (reconnect_never_fails g2 n p) as [(g3 & E3) _]. rewrite E3. cbn [bind]. destruct (reconnect_out_spec _ _ _ _ _ W2 E3) as (P3 & I3 & O3 & W3 & M3).
  destruct (replace_output_node no_check g3 n p) as [g4|] eqn:E4; [|discriminate]. cbn [bind]. apply replace_output_renames in E4.
  apply remove_node_succeeds. subst g4. unfold removable. cbn [set_out g_edges g_nodes g_in g_out]. split; [rewrite M3, M2; tauto|]. split; [|split].
  - intros e I. apply (Permutation_in e P3) in I. apply in_map_iff in I. destruct I as (y & <- & I). apply (Permutation_in y P2) in I. apply in_map_iff in I. destruct I as (z & <- & I).
    destruct (resrc_props n p (resnk n d z)) as (-> & _ & _ & ->). split.
    + unfold rename. destruct (Nat.eqb_spec (src (resnk n d z)) n); congruence.
    + unfold resnk. destruct (Nat.eqb_spec (snk z) n); cbn [snk]; congruence.
  - rewrite in_map_iff. intros ((x & k) & E & I) _. cbn in E. subst x. apply in_map_iff in I. destruct I as ([y j] & E & _). unfold reout, rename in E. cbn in E. destruct (Nat.eqb_spec y n); congruence.
  - intro I. exfalso. congruence.
Qed.
Print Assumptions split_succeeds.
Theorem swap_succeeds g n m : wf g -> In n (g_nodes g) -> ~ In m (g_nodes g) -> ~ In n (g_in g) -> in_degree g n = 1 -> exists g', swap_node no_check g n m = Ok g'.
Proof.
  intros W IN NM NI D. unfold swap_node. destruct (single_in g n D) as (e & rest & IE & Ie & Se & _ & PR & NR). assert (nm : n <> m) by congruence.
  destruct (add_node_rest g m) as (A1 & A2 & A3). pose proof (add_node_wf g m W) as W0. rewrite (in_edges_same _ g n A1), IE.
  set (e1 := Edge (src e) m (si e) (ti e)) in *. destruct (add_edge no_check (add_node_nx g m) e1) as [g1|] eqn:E1; [|discriminate]. cbn [bind]. apply add_edge_ok in E1.
  destruct (add_edge_edges (add_node_nx g m) e1) as (B1 & B2 & B3). rewrite <- E1 in B1, B2, B3. assert (W1 : wf g1) by (subst g1; apply add_edge_wf, W0).
  assert (N1 : In n (g_nodes g1)) by (subst g1; rewrite add_edge_in, add_node_in; tauto).
  destruct (remove_edge_total g1 (src e) n e) as (g2 & E2); [rewrite B1, A1; apply in_app_iff; auto|reflexivity|exact Se|]. unfold remove_edge. rewrite E2. cbn [bind checked no_check].
  assert (W2 : wf g2) by (apply (remove_edge_wf _ _ _ _ W1 E2)). destruct (remove_edge_spec _ _ _ _ E2) as (x & X1 & X2 & X3 & X4).
  assert (xe : x = e). { assert (J : In x (g_edges g1)) by (apply (Permutation_in x (Permutation_sym X3)); left; reflexivity). rewrite B1, A1, in_app_iff in J. destruct J as [J|[J|[]]].
    - apply (Permutation_in x PR) in J. destruct J as [J|J]; [congruence|]. destruct (NR x J X2).
    - subst x. unfold e1 in X2. cbn in X2. congruence. }
  subst x. assert (P2 : Permutation (g_edges g2) (rest ++ [e1])). { apply (Permutation_cons_inv (a := e)). rewrite <- X3, B1, A1, PR. reflexivity. }
  assert (G2 : g_nodes g2 = g_nodes g1 /\ g_in g2 = g_in g1) by (rewrite X4; auto). destruct G2 as (G2n & G2i).
  destruct (reconnect_never_fails g2 n m) as [(g3 & E3) _]. cbn [bind]. rewrite E3. cbn [bind]. destruct (reconnect_out_spec _ _ _ _ _ W2 E3) as (P3 & I3 & O3 & W3 & M3).
  apply remove_node_succeeds. split; [rewrite M3, G2n; tauto|]. split; [|split].
  - intros y I. apply (Permutation_in y P3) in I. apply in_map_iff in I. destruct I as (z & <- & I). apply (Permutation_in z P2) in I. destruct (resrc_props n m z) as (-> & _ & _ & ->). split; [unfold rename; destruct (Nat.eqb_spec (src z) n); congruence|].
    apply in_app_iff in I. destruct I as [I|[<-|[]]]; [exact (NR z I)|]. unfold e1. cbn. congruence.
  - intros _ Z. discriminate.
  - intro I. exfalso. apply NI. congruence.
Qed.
Print Assumptions swap_succeeds.

(* a depthwise layer that is one of several outputs of the model: all others are dropped *)
Theorem depthwise_output_refuted : exists g n m g', wf g /\ In n (g_nodes g) /\ ~ In m (g_nodes g) /\ in_degree g n = 1 /\ swap_node no_check g n m = Ok g' /\ length (g_out g) = 2 /\ g_out g' = [(m, 0)].
Proof.
  exists (Graph [0; 1; 2] [Edge 0 1 0 0; Edge 1 2 0 0] [0] [(1, 0); (2, 0)]), 1, 3. eexists. split; [|split; [cbn; auto|split; [cbn; intuition lia|split; [reflexivity|split; [vm_compute; reflexivity|split; reflexivity]]]]].
  split; [repeat (constructor; [cbn; intuition lia|]); constructor|]. intros e I. cbn in *. intuition (subst; cbn; tauto).
Qed.
Print Assumptions depthwise_output_refuted.

(* ---- instances ---- *)
Definition chain3 : graph := Graph [0; 1; 2] [Edge 0 1 0 0; Edge 1 2 0 0] [0] [(2, 0)].
Example swap_runs : exists g', swap_node no_check chain3 1 3 = Ok g' /\ g_edges g' = [Edge 0 3 0 0; Edge 3 2 0 0] /\ g_out g' = [(2, 0)] /\ in_degree chain3 1 = 1 /\ wf chain3.
Proof. eexists. split; [vm_compute; reflexivity|]. repeat split; try reflexivity; [repeat (constructor; [cbn; intuition lia|]); constructor| |]; cbn in *; intuition (subst; cbn; tauto). Qed.
Example split_runs : exists g', split_node no_check chain3 1 3 4 = Ok g' /\ g_edges g' = [Edge 3 4 0 0; Edge 0 3 0 0; Edge 4 2 0 0] /\ g_nodes g' = [0; 2; 3; 4].
Proof. eexists. split; [vm_compute; reflexivity|]. split; reflexivity. Qed.
Example append_runs : exists g', append_node no_check chain3 2 3 = Ok g' /\ g_edges g' = [Edge 0 1 0 0; Edge 1 2 0 0; Edge 2 3 0 0] /\ g_out g' = [(3, 0)].
Proof. eexists. split; [vm_compute; reflexivity|]. split; reflexivity. Qed.
Definition dw2 : lin := Lin K_dw (Nd [1; 1; 1; 2] (fun i => INR (nth 3 i 0))) None false 1 1 2 (1, 1) (1, 1) P_valid.
Example depthwise_meets : lin_wf dw2 /\ l_out dw2 / l_in dw2 <> 1.
Proof. split; [|discriminate]. constructor; cbn; try lia; try exact I; try reflexivity. exists 1, 1. reflexivity. Qed.
Example separable_meets : sep_wf (Sep (Nd [2; 2; 1; 2] (fun _ => 1%R)) (Nd [1; 1; 2; 3] (fun i => INR (nth 3 i 0))) None false 1 2 3 (1, 1) (1, 1) P_same).
Proof. constructor; cbn; try lia; try exact I; try reflexivity. exists 2, 2. reflexivity. Qed.
