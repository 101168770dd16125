(* RescaleProps.v -- C62, C63, C64: rescaled and shifted layers. *)
From Coq Require Import FunctionalExtensionality Permutation Sorted.
From Verif Require Import LinNode LinSpec BnModel BnSpec LinProofs BnProofs LinGraph EqualizeSpec GraphModel GraphSpec GraphFindProps EqualizeGraphProps RescaleModel RescaleSpec.

(* ---- powers of two ---- *)
Lemma int_part_IZR z : Int_part (IZR z) = z.
Proof. destruct (base_Int_part (IZR z)) as [A B]. apply le_IZR in A. assert (IZR z - 1 < IZR (Int_part (IZR z))) by lra. rewrite <- minus_IZR in H. apply lt_IZR in H. lia. Qed.
Lemma trunc_IZR z : trunc (IZR z) = z.
Proof. unfold trunc. destruct (Rle_dec 0 (IZR z)); [apply int_part_IZR|]. rewrite <- opp_IZR, int_part_IZR. lia. Qed.
Lemma ln2_pos : 0 < ln 2.
Proof. rewrite <- ln_1. apply ln_increasing; lra. Qed.
Lemma rlog2_pot z : rlog2 (powerRZ 2 z) = IZR z.
Proof. unfold rlog2. rewrite powerRZ_Rpower by lra. unfold Rpower. rewrite ln_exp. field. pose proof ln2_pos. lra. Qed.
(* the bounds that are left alone are the powers of two *)
Theorem pot_bound_exact m : pot_bound m = true <-> power_of_two m.
Proof.
  unfold pot_bound, power_of_two. split.
  - destruct (Rlt_dec 0 m) as [P|]; [|discriminate]. destruct (Req_EM_T _ 0) as [Q|]; [|discriminate]. intros _. exists (trunc (rlog2 m)). rewrite powerRZ_Rpower by lra. unfold Rpower. replace (IZR (trunc (rlog2 m))) with (rlog2 m) by lra. unfold rlog2. replace (ln m / ln 2 * ln 2) with (ln m) by (field; pose proof ln2_pos; lra). rewrite exp_ln by exact P. reflexivity.
  - intros [z ->]. destruct (Rlt_dec 0 (powerRZ 2 z)) as [_|N]; [|destruct N; apply powerRZ_lt; lra]. rewrite rlog2_pot, trunc_IZR. destruct (Req_EM_T _ 0) as [|N]; [reflexivity|]. destruct N. ring.
Qed.
Print Assumptions pot_bound_exact.
Lemma eight_pot : power_of_two relu_pot_bound.
Proof. exists 3%Z. unfold relu_pot_bound. change (powerRZ 2 3) with (2 ^ 3). ring. Qed.

Lemma six_not_pot : ~ power_of_two 6.
Proof.
  intros [z Z]. destruct (Z.le_gt_cases z 2) as [L|L].
    - assert (Q : powerRZ 2 z <= powerRZ 2 2). { rewrite !powerRZ_Rpower by lra. destruct (Req_dec (IZR z) (IZR 2)) as [->|N]; [lra|]. left. apply Rpower_lt; [lra|]. apply IZR_le in L. lra. } change (powerRZ 2 2) with (2 ^ 2) in Q. lra.
    - assert (Q : powerRZ 2 3 <= powerRZ 2 z). { rewrite !powerRZ_Rpower by lra. destruct (Req_dec (IZR z) (IZR 3)) as [->|N]; [lra|]. left. apply Rpower_lt; [lra|]. assert (Q' : (3 <= z)%Z) by lia. apply IZR_le in Q'. lra. } change (powerRZ 2 3) with (2 ^ 3) in Q. lra. 
Qed.

(* ---- a kernel multiplied by a number ---- *)
Lemma weight_nmap l f b u h w i o : f 0 = 0 -> weight (set_weights l (nmap f (l_kernel l)) b u) h w i o = f (weight l h w i o).
Proof. intro Z. unfold weight, in_per, out_per. cbn [set_weights l_kind l_kernel l_in l_out l_groups nmap at_]. destruct (l_kind l); try destruct (Nat.eqb _ _); try reflexivity; symmetry; exact Z. Qed.
Lemma first_scaled l s b c hw x p : s <> 0 -> l_bias l = Some b ->
  lin_val (set_weights l (nmap (fun v => v / s) (l_kernel l)) (Some (nmap (fun v => v / s) b)) (l_use_bias l)) hw x c p = / s * lin_val l hw x c p.
Proof.
  intros N B. rewrite (lin_val_affine l _ _ _ (fun _ => / s) (fun _ => 0)); [ring|reflexivity| |].
  - intros h w i _ _ _. rewrite weight_nmap by (unfold Rdiv; ring). unfold Rdiv. ring.
  - unfold bias_val. cbn [set_weights l_use_bias l_bias]. rewrite B. destruct (l_use_bias l); [|ring]. cbn [nmap at_]. unfold Rdiv. ring.
Qed.
Lemma second_scaled l s hw x o p : s <> 0 -> lin_val (set_kernel l (nmap (fun v => s * v) (l_kernel l))) hw (fun c q => / s * x c q) o p = lin_val l hw x o p.
Proof.
  intro N. unfold lin_val, set_kernel. rewrite ksize_set by reflexivity. cbn [set_weights l_in]. f_equal. apply rsum_ext. intros h _. apply rsum_ext. intros w _. rewrite tap_set by reflexivity. destruct (tap l hw h w p) as [q|]; [|reflexivity].
  apply rsum_ext. intros i _. rewrite weight_nmap by ring. field. exact N.
Qed.
Lemma lin_val_fun l hw x y o p : (forall c q, x c q = y c q) -> lin_val l hw x o p = lin_val l hw y o p.
Proof. intro H. f_equal. apply functional_extensionality. intro c. apply functional_extensionality. intro q. apply H. Qed.

(* ---- moving the bound ---- *)
Lemma RminRmult p q r : 0 <= r -> Rmin (r * p) (r * q) = r * Rmin p q.
Proof. intro H. unfold Rmin at 2. destruct (Rle_dec p q); [apply Rmin_left|apply Rmin_right]; apply Rmult_le_compat_l; lra. Qed.
Lemma clamp_scaled s hi y : 0 < s -> clamp 0 hi (/ s * y) = / s * clamp 0 (hi * s) y.
Proof.
  intro P. assert (I : 0 < / s) by (apply Rinv_0_lt_compat, P). unfold clamp. rewrite <- RmaxRmult by lra. rewrite <- RminRmult by lra. rewrite Rmult_0_r. f_equal. f_equal. field. lra.
Qed.
Lemma keras_relu_scaled s m g y : 0 < s -> keras_relu (Some m) 0 g (/ s * y) = / s * keras_relu (Some (m * s)) 0 g y.
Proof.
  intro P. assert (I : 0 < / s) by (apply Rinv_0_lt_compat, P). assert (A : m <= / s * y <-> m * s <= y).
  { split; intro H; [replace y with (/ s * y * s) by (field; lra); apply Rmult_le_compat_r; lra|replace m with (/ s * (m * s)) by (field; lra); apply Rmult_le_compat_l; lra]. }
  assert (B : 0 <= / s * y <-> 0 <= y). { split; intro H; [replace y with (/ s * y * s) by (field; lra); apply Rmult_le_pos; lra|apply Rmult_le_pos; lra]. }
  unfold keras_relu. destruct (Rle_dec m (/ s * y)), (Rle_dec (m * s) y); try tauto; [field; lra|]. destruct (Rle_dec 0 (/ s * y)), (Rle_dec 0 y); try tauto; ring.
Qed.
(* what a change amounts to: the first layer is divided by s, the bound too, and the second layer multiplied by s *)
Lemma relu_bound_changes d l1 a l2 l1' a' l2' d' : movable a -> relu_bound d l1 a l2 = Ok (l1', a', l2', d') ->
  (l1', a', l2', d') = (l1, a, l2, d) \/
  (exists s, 0 < s /\ same_node l1' l1 /\ same_node l2' l2 /\ (forall hw x c p, lin_val l1' hw x c p = / s * lin_val l1 hw x c p) /\
    (forall y, act_fun d' a' (/ s * y) = / s * act_fun d a y) /\ (forall hw x o p, lin_val l2' hw (fun c q => / s * x c q) o p = lin_val l2 hw x o p) /\ (exists b, bound_of d a = Some b /\ ~ power_of_two b) /\ bound_of d' a' = Some relu_pot_bound).
Proof.
  intros M H. assert (X : forall s a0 d0, 0 < s -> with_act l1 l2 s a0 d0 = Ok (l1', a', l2', d') -> a' = a0 /\ d' = d0 /\ same_node l1' l1 /\ same_node l2' l2 /\ (forall hw x c p, lin_val l1' hw x c p = / s * lin_val l1 hw x c p) /\ (forall hw x o p, lin_val l2' hw (fun c q => / s * x c q) o p = lin_val l2 hw x o p)).
  { clear M H. intros s a0 d0 P H. unfold with_act, rescale in H. destruct (l_bias l1) as [b|] eqn:B; [|discriminate]. cbn [bind fst snd] in H. injection H as <- <- <- <-. split; [reflexivity|]. split; [reflexivity|]. split; [apply same_set; reflexivity|]. split; [apply same_set; reflexivity|].
    split; [intros; apply first_scaled; [lra|exact B]|intros; apply second_scaled; lra]. }
  pose proof six_not_pot as NP6.
  assert (NP : forall m, pot_bound m = false -> ~ power_of_two m) by (intros m F Q; apply pot_bound_exact in Q; congruence).
  destruct a as [[m|] t g| |lo hi| |lo hi ip]; cbn [relu_bound movable] in *; try (left; congruence); try contradiction.
  - destruct M as [P ->]. destruct (pot_bound m) eqn:PB; [left; congruence|]. right. exists (m / relu_pot_bound). assert (S : 0 < m / relu_pot_bound) by (unfold relu_pot_bound; lra). destruct (X _ _ _ S H) as (-> & -> & N1 & N2 & H1 & H2). repeat (split; [assumption|]). split; [|split; [assumption|split; [exists m; split; [reflexivity|apply NP, PB]|reflexivity]]].
    intro y. cbn [act_fun]. rewrite keras_relu_scaled by exact S. do 3 f_equal. unfold relu_pot_bound. field.
  - right. exists (6 / relu_pot_bound). assert (S : 0 < 6 / relu_pot_bound) by (unfold relu_pot_bound; lra). destruct (X _ _ _ S H) as (-> & -> & N1 & N2 & H1 & H2). repeat (split; [assumption|]). split; [|split; [assumption|split; [exists 6; split; [reflexivity|exact NP6]|reflexivity]]].
    intro y. cbn [act_fun]. rewrite clamp_scaled by exact S. f_equal. f_equal. unfold relu_pot_bound. field.
  - destruct (Req_EM_T lo 0) as [->|]; [|left; congruence]. specialize (M eq_refl). destruct (pot_bound hi) eqn:PB; [left; congruence|]. right. exists (hi / relu_pot_bound). assert (S : 0 < hi / relu_pot_bound) by (unfold relu_pot_bound; lra). destruct (X _ _ _ S H) as (-> & -> & N1 & N2 & H1 & H2). repeat (split; [assumption|]). split; [|split; [assumption|split; [exists hi; split; [reflexivity|apply NP, PB]|reflexivity]]].
    intro y. cbn [act_fun]. rewrite clamp_scaled by exact S. f_equal. f_equal. unfold relu_pot_bound. field.
  - right. exists (6 / relu_pot_bound). assert (S : 0 < 6 / relu_pot_bound) by (unfold relu_pot_bound; lra). destruct (X _ _ _ S H) as (-> & -> & N1 & N2 & H1 & H2). repeat (split; [assumption|]). split; [|split; [assumption|split; [exists 6; split; [reflexivity|exact NP6]|reflexivity]]].
    intro y. cbn [act_fun opt_or fst snd]. rewrite clamp_scaled by exact S. f_equal. f_equal. unfold relu_pot_bound. field.
Qed.
(* the two layers and the activation compute the same function as before *)
Theorem relu_bound_preserves d l1 a l2 l1' a' l2' d' : movable a -> relu_bound d l1 a l2 = Ok (l1', a', l2', d') ->
  forall hw hw' x o p, two_layers l1' (act_fun d' a') l2' hw hw' x o p = two_layers l1 (act_fun d a) l2 hw hw' x o p.
Proof.
  intros M H hw hw' x o p. destruct (relu_bound_changes d l1 a l2 l1' a' l2' d' M H) as [Q|(s & P & _ & _ & H1 & HA & H2 & _)]; [injection Q as -> -> -> ->; reflexivity|].
  unfold two_layers. rewrite <- (H2 hw' (fun c q => act_fun d a (lin_val l1 hw x c q))). apply lin_val_fun. intros c q. rewrite H1, HA. reflexivity.
Qed.
Print Assumptions relu_bound_preserves.
(* a bound that is not a power of two is replaced by one; attributes and shapes of the layers stay *)
Theorem relu_bound_result d l1 a l2 b : movable a -> bound_of d a = Some b -> ~ power_of_two b -> (forall lo hi, a = A_hardtanh lo hi -> lo = 0) -> l_bias l1 <> None ->
  exists l1' a' l2' d', relu_bound d l1 a l2 = Ok (l1', a', l2', d') /\ bound_of d' a' = Some relu_pot_bound /\ power_of_two relu_pot_bound /\ same_node l1' l1 /\ same_node l2' l2 /\ l_bias l2' = l_bias l2 /\
    (forall x, 0 <= x <= b -> act_fun d' a' (x * (relu_pot_bound / b)) = x * (relu_pot_bound / b)) /\ (forall x, relu_pot_bound <= x -> act_fun d' a' x = relu_pot_bound).
Proof.
  intros M BO NP HT B. assert (PB : pot_bound b = false) by (destruct (pot_bound b) eqn:Q; [apply pot_bound_exact in Q; contradiction|reflexivity]).
  assert (X : forall s a0 d0, exists l1' l2', with_act l1 l2 s a0 d0 = Ok (l1', a0, l2', d0) /\ same_node l1' l1 /\ same_node l2' l2 /\ l_bias l2' = l_bias l2).
  { intros s a0 d0. unfold with_act, rescale. destruct (l_bias l1) as [v|]; [|congruence]. cbn [bind fst snd]. eexists. eexists. split; [reflexivity|]. split; [apply same_set; reflexivity|]. split; [apply same_set; reflexivity|reflexivity]. }
  assert (C : forall x, 0 < b -> 0 <= x <= b -> 0 <= x * (relu_pot_bound / b) <= relu_pot_bound).
  { intros x P [A1 A2]. assert (I : 0 < / b) by (apply Rinv_0_lt_compat, P). unfold relu_pot_bound. split; [unfold Rdiv; apply Rmult_le_pos; [exact A1|lra]|]. replace 8 with (b * (8 / b)) at 2 by (field; lra). apply Rmult_le_compat_r; [unfold Rdiv; lra|exact A2]. }
  assert (CL : forall x, 0 < b -> 0 <= x <= b -> clamp 0 relu_pot_bound (x * (relu_pot_bound / b)) = x * (relu_pot_bound / b)). { intros x P A. destruct (C x P A). unfold clamp. rewrite Rmin_right, Rmax_right by lra. reflexivity. }
  assert (CU : forall x, relu_pot_bound <= x -> clamp 0 relu_pot_bound x = relu_pot_bound). { intros x A. unfold clamp, relu_pot_bound in *. rewrite Rmin_left, Rmax_right by lra. reflexivity. }
  pose proof eight_pot as EP. destruct a as [[m|] t g| |lo hi| |lo hi ip]; cbn [relu_bound movable bound_of] in *; try discriminate BO; try contradiction.
  - injection BO as ->. destruct M as [P ->]. rewrite PB. destruct (X (b / relu_pot_bound) (A_relu (Some relu_pot_bound) 0 g) d) as (l1' & l2' & E & N1 & N2 & N3). exists l1', (A_relu (Some relu_pot_bound) 0 g), l2', d. repeat (split; [first [assumption|reflexivity]|]). split; [|intros x A; cbn [act_fun]; unfold keras_relu; destruct (Rle_dec relu_pot_bound x); [reflexivity|contradiction]].
    intros x A. destruct (C x P A) as [A1 A2]. cbn [act_fun]. unfold keras_relu. destruct (Rle_dec relu_pot_bound (x * (relu_pot_bound / b))); [lra|]. destruct (Rle_dec 0 _); [reflexivity|contradiction].
  - injection BO as <-. destruct (X (6 / relu_pot_bound) (A_hardtanh 0 relu_pot_bound) d) as (l1' & l2' & E & N1 & N2 & N3). exists l1', (A_hardtanh 0 relu_pot_bound), l2', d. repeat (split; [first [assumption|reflexivity]|]). split; [intros x A; apply CL; [lra|exact A]|exact CU].
  - injection BO as ->. pose proof (HT lo b eq_refl) as ->. destruct (Req_EM_T 0 0) as [_|N]; [|congruence]. rewrite PB. destruct (X (b / relu_pot_bound) (A_hardtanh 0 relu_pot_bound) d) as (l1' & l2' & E & N1 & N2 & N3). exists l1', (A_hardtanh 0 relu_pot_bound), l2', d. repeat (split; [first [assumption|reflexivity]|]). split; [intros x A; apply CL; [apply M; reflexivity|exact A]|exact CU].
  - injection BO as <-. destruct (X (6 / relu_pot_bound) (A_f_hardtanh None None false) (0, relu_pot_bound)) as (l1' & l2' & E & N1 & N2 & N3). exists l1', (A_f_hardtanh None None false), l2', (0, relu_pot_bound). repeat (split; [first [assumption|reflexivity]|]). split; [intros x A; apply CL; [lra|exact A]|exact CU].
Qed.
Print Assumptions relu_bound_result.
(* no bound, a bound that is a power of two already, or a lower bound other than 0: nothing changes *)
Theorem relu_bound_left_alone d l1 a l2 : match a with A_relu None _ _ => True | A_relu (Some m) _ _ => power_of_two m | A_hardtanh lo hi => lo <> 0 \/ power_of_two hi | _ => False end -> relu_bound d l1 a l2 = Ok (l1, a, l2, d).
Proof.
  destruct a as [[m|] t g| |lo hi| |lo hi ip]; cbn [relu_bound]; intro H; try contradiction; [apply pot_bound_exact in H; rewrite H; reflexivity|reflexivity|]. destruct (Req_EM_T lo 0) as [->|]; [|reflexivity]. destruct H as [H|H]; [congruence|]. apply pot_bound_exact in H. rewrite H. reflexivity.
Qed.
Print Assumptions relu_bound_left_alone.
(* a second run changes nothing (for the functional form it raises) *)
Theorem relu_bound_once d l1 a l2 l1' a' l2' d' : movable a -> a <> A_f_relu6 -> relu_bound d l1 a l2 = Ok (l1', a', l2', d') -> relu_bound d' l1' a' l2' = Ok (l1', a', l2', d').
Proof.
  intros M F H. destruct a as [[m|] t g| |lo hi| |lo hi ip]; cbn [relu_bound movable] in *; try contradiction; try congruence.
  - destruct (pot_bound m) eqn:PB; [injection H as <- <- <- <-; apply relu_bound_left_alone, pot_bound_exact, PB|]. unfold with_act in H. destruct (rescale l1 l2 _) as [r|]; [|discriminate]. injection H as <- <- <- <-. apply relu_bound_left_alone, eight_pot.
  - injection H as <- <- <- <-. reflexivity.
  - unfold with_act in H. destruct (rescale l1 l2 _) as [r|]; [|discriminate]. injection H as <- <- <- <-. apply relu_bound_left_alone. right. apply eight_pot.
  - destruct (Req_EM_T lo 0) as [E|N]; [|injection H as <- <- <- <-; apply relu_bound_left_alone; left; exact N]. destruct (pot_bound hi) eqn:PB; [injection H as <- <- <- <-; apply relu_bound_left_alone; right; apply pot_bound_exact, PB|]. unfold with_act in H. destruct (rescale l1 l2 _) as [r|]; [|discriminate]. injection H as <- <- <- <-. apply relu_bound_left_alone. right. apply eight_pot.
Qed.
Print Assumptions relu_bound_once.
Lemma same_out_hw l l' hw : same_node l' l -> out_hw l' hw = out_hw l hw.
Proof. intros (Q1 & _ & _ & _ & Q5 & Q6 & Q7 & Q8). unfold out_hw, out_dim. rewrite Q1, Q5, Q6, Q7, Q8. reflexivity. Qed.
Lemma lin_op_scaled l l' c args : same_node l' l -> (forall hw x o p, lin_val l' hw x o p = c * lin_val l hw x o p) -> lin_op l' args = scale_image (fun _ => c) (lin_op l args).
Proof.
  intros N H. destruct args as [|[[hw x]|] [|]]; try reflexivity. cbn [lin_op scale_image]. rewrite (same_out_hw l l' hw N). f_equal. f_equal. apply functional_extensionality. intro o. apply functional_extensionality. intro p. unfold clip. destruct N as (_ & _ & _ & -> & _). destruct (_ && _)%bool; [apply H|ring].
Qed.
Lemma lin_op_unscaled l l' c args : same_node l' l -> (forall hw x o p, lin_val l' hw (fun i q => c * x i q) o p = lin_val l hw x o p) -> lin_op l' (map (scale_image (fun _ => c)) args) = lin_op l args.
Proof.
  intros N H. destruct args as [|[[hw x]|] [|v r]]; try reflexivity. cbn [map scale_image lin_op]. rewrite (same_out_hw l l' hw N). f_equal. f_equal. destruct N as (_ & _ & _ & -> & _). apply clip_ext. intros o p _ _. apply H.
Qed.
(* in a model: the activation between the two layers found by the walk search *)
Theorem relu_bound_in_graph g ms n1 n2 n3 d l1 a l2 l1' a' l2' d' (op : nat -> list image -> nat -> image) : wf g -> In [n1; n2; n3] (walk_filter g ms) -> NoDup [n1; n2; n3] ->
  in_degree g n2 = 1%nat -> in_degree g n3 = 1%nat -> ~ In n1 (map fst (g_out g)) -> ~ In n2 (map fst (g_out g)) ->
  (forall args k, op n1 args k = lin_op l1 args) -> (forall args k, op n2 args k = entry_op (l_out l1) (act_fun d a) args) -> (forall args k, op n3 args k = lin_op l2 args) ->
  movable a -> relu_bound d l1 a l2 = Ok (l1', a', l2', d') ->
  forall val, computes op g val -> exists val', computes (fun n args k => if Nat.eqb n n1 then lin_op l1' args else if Nat.eqb n n2 then entry_op (l_out l1) (act_fun d' a') args else if Nat.eqb n n3 then lin_op l2' args else op n args k) g val' /\ outputs g val' = outputs g val.
Proof.
  intros W F ND D2 D3 O1 O2 P1 P2 P3 M H val C.
  assert (N12 : n2 <> n1) by (inversion ND as [|? ? Q _]; intros ->; apply Q; left; reflexivity). assert (N13 : n3 <> n1) by (inversion ND as [|? ? Q _]; intros ->; apply Q; right; left; reflexivity). assert (N23 : n3 <> n2) by (inversion ND as [|? ? _ Q]; inversion Q as [|? ? Q' _]; intros ->; apply Q'; left; reflexivity).
  destruct (relu_bound_changes d l1 a l2 l1' a' l2' d' M H) as [Q|(s & P & S1 & S2 & H1 & HA & H2 & _)].
  - injection Q as -> -> -> ->. exists val. split; [|reflexivity]. intros n IN l R k. rewrite (C n IN l R k). destruct (Nat.eqb_spec n n1) as [->|]; [apply P1|]. destruct (Nat.eqb_spec n n2) as [->|]; [apply P2|]. destruct (Nat.eqb_spec n n3) as [->|]; [apply P3|reflexivity].
  - assert (I : 0 < / s) by (apply Rinv_0_lt_compat, P). edestruct (rescaling_chain g n1 n3 [n2] (scale_image (fun _ => / s))) with (op := op) (val := val) as (val' & C' & O' & _); [| | |..|exists val'; split; [exact C'|exact O']].
    + intros n [<-|[<-|[]]]; assumption.
    + apply (walk_is_chain g ms n1 [n2] n3 W F). intros n [<-|[<-|[]]]; assumption.
    + exact ND.
    + cbv beta. intros n l k N. rewrite !(proj2 (Nat.eqb_neq n _)); [reflexivity| | |]; intros ->; apply N; cbn; auto.
    + cbv beta. intros l k. rewrite Nat.eqb_refl, P1. apply lin_op_scaled; assumption.
    + cbv beta. intros m l k [<-|[]]. rewrite (proj2 (Nat.eqb_neq n2 n1)), Nat.eqb_refl, P2 by exact N12. destruct l as [|[[hw x]|] [|v r]]; try reflexivity. cbn. f_equal. f_equal. apply functional_extensionality. intro c. apply functional_extensionality. intro p. unfold clip. destruct (_ && _)%bool; [apply HA|ring].
    + cbv beta. intros l k. rewrite (proj2 (Nat.eqb_neq n3 n1)), (proj2 (Nat.eqb_neq n3 n2)), Nat.eqb_refl, P3 by assumption. apply lin_op_unscaled; assumption.
    + exact C.
Qed.
Print Assumptions relu_bound_in_graph.

(* ---- input scaling ---- *)
Lemma scaled_kernel l s hw x o p : s <> 0 -> lin_val (set_kernel l (nmap (fun v => v * s) (l_kernel l))) hw (fun c q => 1 / s * x c q) o p = lin_val l hw x o p.
Proof.
  intro N. rewrite <- (second_scaled l s hw x o p N). replace (nmap (fun v => v * s) (l_kernel l)) with (nmap (fun v => s * v) (l_kernel l)) by (unfold nmap; f_equal; apply functional_extensionality; intro; ring). apply lin_val_fun. intros c q. field. exact N.
Qed.
(* on an input multiplied by the reported scale the layer computes what it computed before; the scaled range reaches the threshold *)
Theorem input_scaling_preserves t range l : fst range <= snd range -> 0 < reach range -> reach range < t ->
  exists c l', input_scaling (Some t) range l = Ok (Some c, l', (c * fst range, c * snd range)) /\ 1 < c /\ c * reach range = t /\ reach (c * fst range, c * snd range) = t /\ same_node l' l /\ l_bias l' = l_bias l /\
    forall hw x o p, lin_val l' hw (fun i q => c * x i q) o p = lin_val l hw x o p.
Proof.
  intros L P T. assert (TF : Rmax (Rabs (fst range)) (snd range) = reach range).
  { unfold reach, Rmax, Rabs in *. repeat (destruct (Rle_dec _ _) || destruct (Rcase_abs _)); lra. }
  unfold input_scaling. rewrite TF. destruct (Rlt_dec (reach range) t) as [_|N]; [|contradiction]. set (r := reach range) in *. assert (S : 0 < r / t) by (apply Rdiv_lt_0_compat; lra). destruct (Req_EM_T (r / t) 0) as [Z|_]; [lra|].
  assert (C : 1 / (r / t) = t / r) by (field; lra). assert (CR : t / r * r = t) by (field; lra). assert (C1 : 1 < t / r) by (apply Rmult_lt_reg_r with r; [exact P|]; rewrite CR; lra).
  exists (1 / (r / t)). eexists. split; [reflexivity|]. rewrite C. split; [exact C1|]. split; [exact CR|]. split.
  - unfold reach. cbn [fst snd]. rewrite !Rabs_mult, !(Rabs_right (t / r)) by lra. rewrite RmaxRmult by lra. exact CR.
  - split; [apply same_set; reflexivity|]. split; [reflexivity|]. intros hw x o p. rewrite <- C. apply scaled_kernel. lra.
Qed.
Print Assumptions input_scaling_preserves.
(* without a threshold, or with a range that reaches it, nothing changes *)
Theorem input_scaling_left_alone thr range l : fst range <= snd range -> (forall t, thr = Some t -> t <= reach range) -> input_scaling thr range l = Ok (None, l, range).
Proof.
  intros L H. destruct thr as [t|]; [|reflexivity]. specialize (H t eq_refl). cbn [input_scaling]. destruct (Rlt_dec _ t) as [Q|]; [|reflexivity]. unfold reach, Rmax, Rabs in *. repeat (destruct (Rle_dec _ _) in * || destruct (Rcase_abs _) in * ); lra.
Qed.
Print Assumptions input_scaling_left_alone.
(* a model whose only scaled input is multiplied by the reported scale has the outputs it had before *)
Theorem input_scaling_in_graph g ms n0 mids n1 t range l (inp : image) (op : nat -> list image -> nat -> image) : wf g -> In (n0 :: mids ++ [n1]) (walk_filter g ms) -> NoDup (n0 :: mids ++ [n1]) ->
  (forall n, In n (mids ++ [n1]) -> in_degree g n = 1%nat) -> (forall n, In n (n0 :: mids) -> ~ In n (map fst (g_out g))) ->
  (forall args k, op n0 args k = inp) -> (forall args k, op n1 args k = lin_op l args) -> (forall m, In m mids -> exists C size G, (forall hw, homogeneous (G hw)) /\ forall args k, op m args k = channel_op C size G args) ->
  fst range <= snd range -> 0 < reach range -> reach range < t ->
  exists c l' range', input_scaling (Some t) range l = Ok (Some c, l', range') /\
    forall val, computes op g val -> exists val', computes (fun n args k => if Nat.eqb n n0 then scale_image (fun _ => c) inp else if Nat.eqb n n1 then lin_op l' args else op n args k) g val' /\ outputs g val' = outputs g val.
Proof.
  intros W F ND D O P0 P1 PM L P T. destruct (input_scaling_preserves t range l L P T) as (c & l' & E & C1 & _ & _ & S & _ & H). exists c, l', (c * fst range, c * snd range). split; [exact E|]. intros val C.
  assert (N : n1 <> n0). { intros ->. inversion ND as [|? ? Q _]. apply Q, in_or_app. right. left. reflexivity. }
  edestruct (rescaling_chain g n0 n1 mids (scale_image (fun _ => c))) with (op := op) (val := val) as (val' & C' & O' & _); [| | |..|exists val'; split; [exact C'|exact O']].
  - exact O.
  - apply (walk_is_chain g ms n0 mids n1 W F). exact D.
  - exact ND.
  - cbv beta. intros n a k NI. rewrite !(proj2 (Nat.eqb_neq n _)); [reflexivity| |]; intros ->; apply NI; [right; apply in_or_app; right; left; reflexivity|left; reflexivity].
  - cbv beta. intros a k. rewrite Nat.eqb_refl, P0. reflexivity.
  - cbv beta. intros m a k IM. rewrite (proj2 (Nat.eqb_neq m n0)), (proj2 (Nat.eqb_neq m n1)).
    + destruct (PM m IM) as (K & size & G & HG & HO). rewrite !HO. apply channel_op_scales; [intros; lra|exact HG].
    + intros ->. inversion ND as [|? ? _ Q]. apply NoDup_remove_2 in Q. apply Q. rewrite app_nil_r. exact IM.
    + intros ->. inversion ND as [|? ? Q _]. apply Q, in_or_app. left. exact IM.
  - cbv beta. intros a k. rewrite (proj2 (Nat.eqb_neq n1 n0)), Nat.eqb_refl, P1 by exact N. apply lin_op_unscaled; assumption.
  - exact C.
Qed.
Print Assumptions input_scaling_in_graph.

(* ---- softmax shift ---- *)
Lemma softmax_shifted C hw a x c0 c p : softmax C hw a (fun i q => x i q + c0) c p = softmax C hw a x c p.
Proof.
  unfold softmax. assert (S : rsum (fst (line C hw a (fun i q => x i q + c0) c p)) (fun j => exp (snd (line C hw a (fun i q => x i q + c0) c p) j)) = exp c0 * rsum (fst (line C hw a x c p)) (fun j => exp (snd (line C hw a x c p) j))).
  { rewrite <- rsum_scal. destruct a; cbn [line fst snd]; apply rsum_ext; intros j _; rewrite exp_plus; ring. }
  rewrite S, exp_plus. set (r := rsum _ _). destruct (Req_dec r 0) as [->|N]; [rewrite Rmult_0_r; unfold Rdiv; rewrite Rinv_0; ring|]. field. split; [exact N|]. pose proof (exp_pos c0). lra.
Qed.
(* every output of the layer is shifted by one number, the recorded range with it: the range becomes symmetric, and no other shift
   makes its largest absolute value smaller *)
Theorem softmax_shift_layer lo hi l b : l_bias l = Some b -> l_use_bias l = true -> exists c l' lo' hi', softmax_shift true (Some (lo, hi)) l = (l', Some (lo', hi')) /\ same_node l' l /\ l_kernel l' = l_kernel l /\
  (forall hw x o p, lin_val l' hw x o p = lin_val l hw x o p + c) /\ (forall hw x o p, in_range (lo, hi) (lin_val l hw x o p) -> in_range (lo', hi') (lin_val l' hw x o p)) /\
  lo' = - hi' /\ (forall s, lo <= hi -> reach (lo', hi') <= reach (lo + s, hi + s)).
Proof.
  intros B U. cbn [softmax_shift]. rewrite B, U. set (c := - 1 * (hi + lo) / 2). exists c. eexists. exists (lo + c), (hi + c). split; [reflexivity|].
  assert (V : forall hw x o p, lin_val (set_weights l (l_kernel l) (Some (nmap (fun v => v + c) b)) true) hw x o p = lin_val l hw x o p + c).
  { intros hw x o p. rewrite (lin_val_affine l _ _ _ (fun _ => 1) (fun _ => c)); [ring|reflexivity| |].
    - intros h w i _ _ _. unfold weight, in_per, out_per. cbn. destruct (l_kind l); ring.
    - unfold bias_val. cbn. rewrite B, U. ring. }
  split; [apply same_set; reflexivity|]. split; [reflexivity|]. split; [exact V|]. split; [intros hw x o p [A1 A2]; cbn [fst snd] in *; rewrite V; split; cbn [fst snd]; lra|]. split; [unfold c; lra|].
  intros s L. unfold reach. cbn [fst snd]. assert (Q : Rabs (lo + c) = (hi - lo) / 2 /\ Rabs (hi + c) = (hi - lo) / 2). { unfold c. split; [rewrite Rabs_left1 by lra|rewrite Rabs_right by lra]; lra. } destruct Q as [-> ->]. rewrite Rmax_left by lra.
  unfold Rmax, Rabs. repeat (destruct (Rle_dec _ _) || destruct (Rcase_abs _)); lra.
Qed.
Print Assumptions softmax_shift_layer.
(* the softmax after the layer gives the same result, along whichever axis *)
Theorem softmax_shift_preserves quantized stats l C hw hw' a x c p : (l_bias l <> None -> l_use_bias l = true) ->
  softmax C hw' a (lin_val (fst (softmax_shift quantized stats l)) hw x) c p = softmax C hw' a (lin_val l hw x) c p.
Proof.
  intro HU. destruct quantized; [|reflexivity]. destruct stats as [[lo hi]|]; [|reflexivity]. destruct (l_bias l) as [b|] eqn:B.
  - destruct (softmax_shift_layer lo hi l b B (HU ltac:(discriminate))) as (c0 & l' & lo' & hi' & E & _ & _ & V & _). rewrite E. cbn [fst]. rewrite <- (softmax_shifted C hw' a (lin_val l hw x) c0). f_equal. apply functional_extensionality. intro i. apply functional_extensionality. intro q. apply V.
  - cbn [softmax_shift]. rewrite B. set (c0 := - 1 * (hi + lo) / 2). cbn [fst].
    assert (V : exists k, forall o p', lin_val (set_weights l (l_kernel l) (Some (scalar (0 + c0))) (l_use_bias l)) hw x o p' = lin_val l hw x o p' + k).
    { exists (if l_use_bias l then c0 else 0). intros o p'. rewrite (lin_val_affine l _ _ _ (fun _ => 1) (fun _ => if l_use_bias l then c0 else 0)); [ring|reflexivity| |].
      - intros h w i _ _ _. unfold weight, in_per, out_per. cbn. destruct (l_kind l); ring.
      - unfold bias_val. cbn. rewrite B. destruct (l_use_bias l); ring. }
    destruct V as [k V]. rewrite <- (softmax_shifted C hw' a (lin_val l hw x) k). f_equal. apply functional_extensionality. intro i. apply functional_extensionality. intro q. apply V.
Qed.
Print Assumptions softmax_shift_preserves.
(* nothing changes if the output is not quantized or has no statistics *)
Theorem softmax_shift_left_alone quantized stats l : quantized = false \/ stats = None -> softmax_shift quantized stats l = (l, stats).
Proof. intros [->| ->]; [reflexivity|]. destruct quantized; reflexivity. Qed.
Print Assumptions softmax_shift_left_alone.
(* in a model: a layer followed by a softmax, found by the walk search *)
Theorem softmax_shift_in_graph g ms n1 n2 a l b stats (op : nat -> list image -> nat -> image) : wf g -> In [n1; n2] (walk_filter g ms) -> n1 <> n2 -> in_degree g n2 = 1%nat -> ~ In n1 (map fst (g_out g)) ->
  (forall args k, op n1 args k = lin_op l args) -> (forall args k, op n2 args k = softmax_op (l_out l) a args) -> l_bias l = Some b -> l_use_bias l = true ->
  forall val, computes op g val -> exists val', computes (fun n args k => if Nat.eqb n n1 then lin_op (fst (softmax_shift true stats l)) args else op n args k) g val' /\ outputs g val' = outputs g val.
Proof.
  intros W F N12 D O P1 P2 B U val C. destruct stats as [[lo hi]|].
  2:{ exists val. split; [|reflexivity]. intros n IN l0 R k. rewrite (C n IN l0 R k). destruct (Nat.eqb_spec n n1) as [->|]; [apply P1|reflexivity]. }
  destruct (softmax_shift_layer lo hi l b B U) as (c & l' & lo' & hi' & E & S & _ & V & _). rewrite E. cbn [fst].
  set (sc := fun v : image => match v with Some (hw, x) => Some (hw, clip (l_out l) hw (fun i q => x i q + c)) | None => None end).
  assert (ND : NoDup (n1 :: [] ++ [n2])) by (constructor; [intros [Q|[]]; congruence|constructor; [intros []|constructor]]).
  edestruct (rescaling_chain g n1 n2 [] sc) with (op := op) (val := val) as (val' & C' & O' & _); [| | |..|exists val'; split; [exact C'|exact O']].
  - intros n [<-|[]]. exact O.
  - apply (walk_is_chain g ms n1 [] n2 W F). intros n [<-|[]]. exact D.
  - exact ND.
  - cbv beta. intros n a0 k NI. rewrite (proj2 (Nat.eqb_neq n n1)); [reflexivity|]. intros ->. apply NI. left. reflexivity.
  - cbv beta. intros a0 k. rewrite Nat.eqb_refl, P1. destruct a0 as [|[[hw x]|] [|]]; try reflexivity. cbn [lin_op sc]. rewrite (same_out_hw l l' hw S). f_equal. f_equal. destruct S as (_ & _ & _ & -> & _). apply clip_ext. intros o p LO LP. rewrite V, clip_in by assumption. reflexivity.
  - intros m a0 k [].
  - cbv beta. intros a0 k. rewrite (proj2 (Nat.eqb_neq n2 n1)), !P2 by congruence. destruct a0 as [|[[hw x]|] [|v r]]; try reflexivity. cbn [map sc softmax_op]. f_equal. f_equal. apply clip_ext. intros i p LI LP.
    rewrite <- (softmax_shifted (l_out l) hw a x c i p). unfold softmax. rewrite clip_in by assumption. f_equal. destruct LP as [LP1 LP2].
    destruct a; cbn [line fst snd]; apply rsum_ext; intros j LJ; rewrite clip_in; try reflexivity; try assumption; split; cbn [fst snd]; try assumption; lia.
  - exact C.
Qed.
Print Assumptions softmax_shift_in_graph.
