(* CollapseProps.v -- C37 and C38: collapsing two convolutions, a convolution and a constant, a convolution and
   a residual connection keeps the function. *)
From Coq Require Import Permutation.
From Verif Require Import LinNode LinSpec BnModel BnSpec LinProofs BnProofs LinGraph CollapseModel CollapseSpec CollapseProofs.
From Verif Require GraphModel GraphSpec FuseSpec JoinModel JoinSpec JoinProps BnGraphProps.

Lemma weight_conv l h w i o : (l_kind l = K_conv \/ l_kind l = T_conv) -> l_groups l = 1%nat -> (i < l_in l)%nat -> (o < l_out l)%nat ->
  weight l h w i o = at_ (l_kernel l) (match l_kind l with K_conv => [h; w; i; o] | _ => [o; i; h; w] end).
Proof.
  intros K G I O. unfold weight, in_per, out_per. rewrite G, !Nat.div_1_r, !Nat.div_small, Nat.mod_small by assumption. rewrite Nat.eqb_refl. destruct K as [-> | ->]; reflexivity.
Qed.
(* which pairs are considered: exactly a convolution followed by a plain 1x1 convolution *)
Theorem collapsing_skips l1 l2 : ~ pointwise_after l1 l2 -> collapse_convs l1 l2 = Ok None.
Proof. intro N. unfold collapse_convs. destruct (collapsible l1 l2) eqn:C; [|reflexivity]. destruct N. apply collapsible_spec, C. Qed.
Print Assumptions collapsing_skips.

Theorem conv_collapsing l1 l2 : lin_wf l1 -> lin_wf l2 -> conv_pair l1 l2 -> l_in l2 = l_out l1 -> pointwise_after l1 l2 -> (0 < fst (ksize l1))%nat -> (0 < snd (ksize l1))%nat ->
  (l_kind l1 = T_conv -> fst (ksize l1) = snd (ksize l1)) ->
  (l_kind l1 = K_conv -> l_out l2 = 1%nat -> l_bias l1 = None \/ l_bias l2 <> None) ->
  let params l := prod (shp (l_kernel l)) in
  let merged := (fst (ksize l1) * snd (ksize l1) * l_in l1 * l_out l2)%nat in
  (params l1 + params l2 < merged /\ collapse_convs l1 l2 = Ok None)%nat \/
  (merged <= params l1 + params l2 /\ exists l', collapse_convs l1 l2 = Ok (Some l') /\ lin_wf l' /\ params l' = merged /\ l_in l' = l_in l1 /\ l_out l' = l_out l2 /\ l_kind l' = l_kind l1 /\
     forall hw, out_hw l' hw = out_hw l2 (out_hw l1 hw) /\
     forall x o p, (o < l_out l2)%nat -> pos_in (out_hw l2 (out_hw l1 hw)) p -> lin_val l' hw x o p = lin_val l2 (out_hw l1 hw) (lin_val l1 hw x) o p)%nat.
Proof.
  intros W1 W2 CP CI PA KH KW SQ KB params merged. unfold collapse_convs. rewrite (proj2 (collapsible_spec l1 l2) PA). cbn [negb].
  pose proof PA as (K2 & (ST1 & ST2 & DI1 & DI2) & G1 & G2 & P2). destruct (conv_kind l1 l2 CP) as (D1 & T1 & D2 & T2 & KE).
  pose proof (ksize_shape l1 W1) as S1. pose proof (ksize_shape l2 W2) as S2. rewrite K2 in S2. cbn [fst snd] in S2. unfold kernel_shape, in_per in S1, S2. rewrite G1, Nat.div_1_r in S1. rewrite G2, Nat.div_1_r, CI in S2.
  pose proof (wf_bias l1 W1) as B1. pose proof (wf_bias l2 W2) as B2.
  set (kh := fst (ksize l1)) in *. set (kw := snd (ksize l1)) in *. set (wsum := fun h w i f => rsum (l_out l1) (fun j => weight l1 h w i j * weight l2 0 0 j f)). set (bsum := fun f => rsum (l_out l1) (fun j => weight l2 0 0 j f * par (l_bias l1) 0 j)).
  (* the new weights *)
  assert (X : exists k b, (match l_kind l1 with K_conv => match l_kind l2 with K_conv => keras_collapse l1 l2 | _ => Err E_critical end | T_conv => match l_kind l2 with T_conv => torch_collapse l1 l2 | _ => Err E_critical end | _ => Err E_critical end) = Ok (k, b) /\
    shp k = (match l_kind l1 with K_conv => [kh; kw; l_in l1; l_out l2] | _ => [l_out l2; l_in l1; kh; kw] end) /\
    (forall h w i f, (h < kh)%nat -> (w < kw)%nat -> (i < l_in l1)%nat -> (f < l_out l2)%nat -> at_ k (match l_kind l1 with K_conv => [h; w; i; f] | _ => [f; i; h; w] end) = wsum h w i f) /\
    match b with Some v => shp v = [l_out l2] | None => True end /\ forall f, (f < l_out l2)%nat -> par b 0 f = bsum f + par (l_bias l2) 0 f).
  { destruct CP as [[E1 E2]|[E1 E2]]; rewrite E1, E2 in *.
    - destruct (keras_kernel (l_kernel l1) (l_kernel l2) kh kw (l_in l1) (l_out l1) (l_out l2) KH KW S1 S2) as (y1 & y2 & Y1 & Y2 & SK & HK). unfold keras_collapse. rewrite S1, S2, ST1, ST2, Y1. cbn [bind]. rewrite Y2. cbn [bind].
      assert (Q : exists b, (match l_bias l1 with Some b1 => let! r := reshape b1 [Some 1%nat; None] in let! m := row_mul r (nsum [0; 1]%nat (l_kernel l2)) in Ok (Some (squeeze m)) | None => Ok None end) = Ok b /\
        (match b with Some v => isvec (l_out l2) v bsum /\ (l_out l2 <> 1%nat -> shp v = [l_out l2]) | None => forall o, (o < l_out l2)%nat -> bsum o = 0 end)).
      { unfold bsum. destruct (l_bias l1) as [b1|].
        - destruct (keras_bias b1 (l_kernel l2) (l_out l1) (l_out l2) B1 S2) as (r & q & R1 & R2 & R3 & R4). rewrite R1. cbn [bind]. rewrite R2. cbn [bind]. eexists. split; [reflexivity|]. split.
          + apply (isvec_ext _ _ _ _ R4). intros f F. apply rsum_ext. intros j J. rewrite weight_conv by (rewrite ?CI; auto). rewrite E2. reflexivity.
          + intro N. rewrite R3, (proj2 (Nat.eqb_neq _ _) N). reflexivity.
        - exists None. split; [reflexivity|]. intros o O. apply rsum_zero. intros. cbn. ring. }
      destruct Q as (b & QE & QB). rewrite QE. cbn [bind]. destruct (plus_bias_spec (l_out l2) b (l_bias l2) bsum (par (l_bias l2) 0)) as (r & RE & RS); [destruct b; [apply QB|exact QB]|exact B2|reflexivity|]. rewrite RE. cbn [bind].
      eexists. exists r. split; [reflexivity|]. split; [exact SK|]. split; [|split].
      + intros h w i f H1 H2 H3 H4. rewrite HK by assumption. unfold wsum. apply rsum_ext. intros j J. rewrite !weight_conv by (rewrite ?CI; auto). rewrite E1, E2. reflexivity.
      + destruct r as [v|]; [|exact I]. apply RS. destruct (l_bias l2); [left; discriminate|]. right. destruct b as [u|]; [|cbn in RE; discriminate]. exists u. split; [reflexivity|]. apply QB. intro O1. destruct (KB eq_refl O1) as [N|N]; [|congruence]. rewrite N in QE. discriminate.
      + intros f F. destruct r as [v|]; cbn [par]; [|symmetry; apply RS, F]. destruct RS as [IV SV]. rewrite <- (proj2 IV f F). rewrite bget_same; [reflexivity|].
        rewrite SV; [apply inb1, F|]. destruct (l_bias l2); [left; discriminate|]. right. destruct b as [u|]; [|cbn in RE; discriminate]. exists u. split; [reflexivity|]. apply QB. intro O1. destruct (KB eq_refl O1) as [N|N]; [|congruence]. rewrite N in QE. discriminate.
    - pose proof (SQ eq_refl) as SQ'. rewrite <- SQ' in S1. destruct (torch_kernel (l_kernel l1) (l_kernel l2) kh (l_in l1) (l_out l1) (l_out l2) KH S1 S2) as (y1 & y2 & Y1 & Y2 & SK & HK). unfold torch_collapse. rewrite S1, S2, ST1, ST2, Y1. cbn [bind]. rewrite Y2. cbn [bind].
      assert (Q : exists b, (match l_bias l1 with Some b1 => let! m := mat_vec (nsum [2; 3]%nat (l_kernel l2)) b1 in Ok (Some m) | None => Ok None end) = Ok b /\
        (match b with Some v => isvec (l_out l2) v bsum /\ shp v = [l_out l2] | None => forall o, (o < l_out l2)%nat -> bsum o = 0 end)).
      { unfold bsum. destruct (l_bias l1) as [b1|].
        - destruct (torch_bias b1 (l_kernel l2) (l_out l1) (l_out l2) B1 S2) as (q & R2 & R3 & R4). rewrite R2. cbn [bind]. eexists. split; [reflexivity|]. split; [|exact R3].
          apply (isvec_ext _ _ _ _ R4). intros f F. apply rsum_ext. intros j J. rewrite weight_conv by (rewrite ?CI; auto). rewrite E2. reflexivity.
        - exists None. split; [reflexivity|]. intros o O. apply rsum_zero. intros. cbn. ring. }
      destruct Q as (b & QE & QB). rewrite QE. cbn [bind]. destruct (plus_bias_spec (l_out l2) b (l_bias l2) bsum (par (l_bias l2) 0)) as (r & RE & RS); [destruct b; [apply QB|exact QB]|exact B2|reflexivity|]. rewrite RE. cbn [bind].
      assert (SV : match r with Some v => shp v = [l_out l2] | None => True end).
      { destruct r as [v|]; [|exact I]. apply RS. destruct (l_bias l2); [left; discriminate|]. right. destruct b as [u|]; [|cbn in RE; discriminate]. exists u. split; [reflexivity|apply QB]. }
      eexists. exists r. split; [reflexivity|]. split; [rewrite <- SQ'; exact SK|]. split; [|split; [exact SV|]].
      + intros h w i f H1 H2 H3 H4. rewrite HK by (rewrite ?SQ'; try assumption; rewrite <- SQ'; assumption). unfold wsum. apply rsum_ext. intros j J. rewrite !weight_conv by (rewrite ?CI; auto). rewrite E1, E2. reflexivity.
      + intros f F. destruct r as [v|]; cbn [par]; [|symmetry; apply RS, F]. destruct RS as [IV _]. rewrite <- (proj2 IV f F). rewrite bget_same; [reflexivity|]. rewrite SV. apply inb1, F. }
  destruct X as (k & b & XE & SK & HK & SB & HB).
  assert (XE' : (match l_kind l1, l_kind l2 with K_conv, K_conv => keras_collapse l1 l2 | T_conv, T_conv => torch_collapse l1 l2 | _, _ => Err E_critical end) = Ok (k, b)) by (rewrite <- XE; destruct CP as [[-> ->]|[-> ->]]; reflexivity).
  rewrite XE'. cbn [bind]. clear XE XE'.
  assert (PK : prod (shp k) = merged). { rewrite SK. unfold merged. destruct CP as [[-> _]|[-> _]]; cbn [prod]; ring. } rewrite PK. fold (params l1) (params l2).
  destruct (Nat.ltb_spec (params l1 + params l2) merged) as [L|L]; [left; split; [exact L|reflexivity]|]. right. split; [exact L|].
  set (l' := Lin (l_kind l1) k b _ _ _ _ _ _ _). exists l'. split; [reflexivity|].
  assert (KS : ksize l' = ksize l1). { unfold ksize at 1. cbn [l_kind l_kernel l']. rewrite SK. rewrite (surjective_pairing (ksize l1)). fold kh kw. destruct CP as [[-> _]|[-> _]]; reflexivity. }
  assert (BV : forall f, (f < l_out l2)%nat -> bias_val l' f = par b 0 f) by (intros f _; unfold bias_val; cbn [l_use_bias l_bias l']; destruct b; reflexivity).
  assert (OH : forall hw, out_hw l' hw = out_hw l1 hw) by (intro hw; unfold out_hw, out_dim; rewrite KS; reflexivity).
  split; [|split; [exact PK|split; [reflexivity|split; [reflexivity|split; [reflexivity|]]]]].
  - constructor; cbn [l_kind l_kernel l_bias l_use_bias l_in l_out l_groups l']; unfold kernel_shape, in_per, out_per; cbn [l_kind l_in l_out l_groups l']; rewrite ?G1, ?Nat.div_1_r.
    + exists kh, kw. rewrite SK. destruct CP as [[-> _]|[-> _]]; reflexivity.
    + destruct b; [split; [exact SB|reflexivity]|exact I].
    + apply (lw_in l1 W1).
    + apply (lw_out l2 W2).
    + lia.
    + lia.
    + lia.
    + reflexivity.
    + intro E. destruct CP as [[Q _]|[Q _]]; congruence.
  - intro hw. rewrite OH, (out_pointwise l2 (out_hw l1 hw) D2 T2 K2 ST2 P2). split; [reflexivity|]. intros x o p O P. apply collapse_val; try assumption; try reflexivity.
    + intros h w i H1 H2 H3. rewrite (weight_conv l') by (try assumption; cbn [l_kind l_groups l_in l_out l']; destruct CP as [[Q _]|[Q _]]; auto). cbn [l_kind l_kernel l']. apply HK; assumption.
    + rewrite BV, HB, bias_val_par by assumption. unfold bsum. f_equal. apply rsum_ext. intros j _. rewrite bias_val_par by assumption. reflexivity.
Qed.
Print Assumptions conv_collapsing.

(* a constant with one number for each channel, or a single number when there is a bias already *)
Theorem const_collapsing l c : lin_wf l -> shp c = [l_out l] \/ (shp c = [] /\ l_bias l <> None) ->
  exists l', collapse_const l (Some c) = Ok l' /\ lin_wf l' /\ same_node l' l /\ forall hw x o p, (o < l_out l)%nat -> lin_val l' hw x o p = lin_val l hw x o p + bget c [o].
Proof.
  intros W SC. unfold collapse_const. pose proof (wf_bias l W) as B.
  assert (X : exists b, (match l_bias l with None => Ok c | Some b => bop Rplus c b end) = Ok b /\ shp b = [l_out l] /\ forall o, (o < l_out l)%nat -> at_ b [o] = par (l_bias l) 0 o + bget c [o]).
  { destruct (l_bias l) as [b|].
    - assert (IC : isvec (l_out l) c (fun o => bget c [o])) by (split; [destruct SC as [S|[S _]]; auto|reflexivity]). destruct (isvec_bop (l_out l) Rplus c b _ _ IC (isvec_of (l_out l) b B)) as (r & R1 & R2 & R3). exists r. split; [exact R1|]. assert (SR : shp r = [l_out l]) by (apply R3; auto). split; [exact SR|].
      intros o O. rewrite <- (bget_same r [o]) by (rewrite SR; apply inb1, O). rewrite (proj2 R2 o O). cbn. ring.
    - destruct SC as [S|[_ N]]; [|congruence]. exists c. split; [reflexivity|]. split; [exact S|]. intros o O. rewrite bget_same by (rewrite S; apply inb1, O). cbn. ring. }
  destruct X as (b & XE & SB & HB). rewrite XE. cbn [bind]. eexists. split; [reflexivity|]. split; [apply wf_set; auto|]. split; [apply same_set; reflexivity|].
  intros hw x o p O. unfold lin_val. rewrite ksize_set by reflexivity. cbn [set_weights l_in]. replace (bias_val _ o) with (bias_val l o + bget c [o]).
  - match goal with |- _ + _ + ?A = _ + ?B + _ => replace A with B; [ring|] end. apply rsum_ext. intros h _. apply rsum_ext. intros w _. rewrite tap_set by reflexivity. reflexivity.
  - rewrite bias_val_par by exact W. unfold bias_val. cbn [set_weights l_use_bias l_bias]. rewrite HB by exact O. reflexivity.
Qed.
Print Assumptions const_collapsing.

(* ---- residual connections ---- *)
Lemma centred_dim l prj n : dense (l_kind l) = false -> transposed (l_kind l) = false -> l_stride l = (1, 1)%nat -> (prj (1, 1)%nat = 1)%nat -> (0 < prj (ksize l))%nat ->
  centred1 (prj (ksize l)) (prj (l_dil l)) (match l_pad l with P_num a b => prj (a, b) | _ => 0%nat end) (l_pad l) ->
  out_dim l prj n = n /\ forall y, (0 <= y < n)%Z -> tap1 l prj n ((prj (ksize l) - 1) / 2) y = Some y.
Proof.
  intros D T S PR K C. unfold out_dim, tap1. rewrite D, T, S, PR. change (Z.of_nat 1) with 1%Z. set (k := prj (ksize l)) in *. set (d := prj (l_dil l)) in *.
  assert (O : Nat.odd k = true -> (k = 1 + 2 * ((k - 1) / 2))%nat). { intro O. apply Nat.odd_spec in O. destruct O as [m M]. rewrite M. replace (2 * m + 1 - 1)%nat with (m * 2)%nat by lia. rewrite Nat.div_mul by lia. lia. }
  assert (OD : match l_pad l with P_valid => (n - Z.of_nat d * (Z.of_nat k - 1) - 1) / 1 + 1 | P_same => ceil_div n 1 | P_num a b => (n + 2 * Z.of_nat (prj (a, b)) - Z.of_nat d * (Z.of_nat k - 1) - 1) / 1 + 1 end%Z = n).
  { unfold centred1 in C. destruct (l_pad l) as [| |a b].
    - rewrite C. rewrite Z.div_1_r. change (Z.of_nat 1) with 1%Z. lia.
    - unfold ceil_div. rewrite Z.div_1_r. lia.
    - destruct C as [CO ->]. specialize (O CO). rewrite Z.div_1_r. rewrite O at 2. nia. }
  split; [exact OD|]. intros y Y.
  assert (BE : (Z.of_nat d * Z.of_nat ((k - 1) / 2) = before (l_pad l) (same_before n (Z.of_nat k) 1 (Z.of_nat d)) prj)%Z).
  { unfold centred1 in C. destruct (l_pad l) as [| |a b]; cbn [before].
    - rewrite C. cbn. lia.
    - unfold same_before, ceil_div. rewrite Z.div_1_r. replace (_ + _ + 1 - n)%Z with ((Z.of_nat k - 1) * Z.of_nat d)%Z by lia. destruct C as [CO| -> ].
      + specialize (O CO). set (m := ((k - 1) / 2)%nat) in *. rewrite O. replace ((Z.of_nat (1 + 2 * m) - 1) * Z.of_nat d)%Z with (Z.of_nat d * Z.of_nat m * 2)%Z by lia. rewrite Z.max_r by lia. rewrite Z.div_mul by lia. reflexivity.
      + rewrite Z.mul_1_l. rewrite Z.max_r by lia. change (Z.of_nat 1) with 1%Z. rewrite Z.mul_1_r. rewrite Nat2Z.inj_div, Nat2Z.inj_sub by lia. reflexivity.
    - destruct C as [_ ->]. lia. }
  unfold conv_tap, within. rewrite <- BE. replace (1 * y + _ - _)%Z with y by lia. rewrite (proj2 (Z.leb_le 0 y)), (proj2 (Z.ltb_lt y n)) by lia. reflexivity.
Qed.
Lemma residual_core l l' m n hw x o p : same_node l' l -> bias_val l' o = bias_val l o -> (m < fst (ksize l))%nat -> (n < snd (ksize l))%nat -> (o < l_in l)%nat ->
  (forall h w i, (i < l_in l)%nat -> weight l' h w i o = weight l h w i o + (if Nat.eqb h m && Nat.eqb w n && Nat.eqb i o then 1 else 0)) ->
  tap l hw m n p = Some p -> lin_val l' hw x o p = lin_val l hw x o p + x o p.
Proof.
  intros (E1 & _ & E3 & _ & E5 & E6 & E7 & E8) BV M N O HW T. unfold lin_val. rewrite E8, E3, BV. rewrite Rplus_assoc. f_equal.
  assert (TE : forall h w, tap l' hw h w p = tap l hw h w p) by (intros; unfold tap, tap1; rewrite E1, E5, E6, E7, E8; reflexivity).
  set (F := fun (h w : nat) => match tap l hw h w p with Some q => rsum (l_in l) (fun i => weight l h w i o * x i q) | None => 0 end).
  set (D := fun (h w : nat) => if Nat.eqb h m && Nat.eqb w n then x o p else 0).
  rewrite (rsum_ext (fst (ksize l)) _ (fun h => rsum (snd (ksize l)) (fun w => F h w) + rsum (snd (ksize l)) (fun w => D h w))).
  - rewrite rsum_plus. f_equal. rewrite (rsum_one _ m); [|exact M|].
    + rewrite (rsum_one _ n); [unfold D; rewrite !Nat.eqb_refl; reflexivity|exact N|]. intros j _ J. unfold D. rewrite (proj2 (Nat.eqb_neq j n)) by congruence. rewrite andb_false_r. reflexivity.
    + intros j _ J. apply rsum_zero. intros w _. unfold D. rewrite (proj2 (Nat.eqb_neq j m)) by congruence. reflexivity.
  - intros h _. rewrite <- rsum_plus. apply rsum_ext. intros w _. rewrite TE. unfold F, D. destruct (Nat.eqb_spec h m) as [->|HM]; cbn [andb].
    + destruct (Nat.eqb_spec w n) as [->|WN]; cbn [andb].
      * rewrite T. rewrite (rsum_ext (l_in l) (fun i => weight l' m n i o * x i p) (fun i => weight l m n i o * x i p + (if Nat.eqb i o then x i p else 0))).
        -- rewrite rsum_plus. f_equal. rewrite (rsum_one _ o); [rewrite Nat.eqb_refl; reflexivity|exact O|]. intros j _ J. rewrite (proj2 (Nat.eqb_neq j o)) by congruence. reflexivity.
        -- intros i I. rewrite HW by exact I. rewrite !Nat.eqb_refl. cbn [andb]. destruct (Nat.eqb i o); ring.
      * rewrite Rplus_0_r. destruct (tap l hw m w p); [|reflexivity]. apply rsum_ext. intros i I. rewrite HW by exact I. rewrite (proj2 (Nat.eqb_neq w n)) by exact WN. rewrite andb_false_r. cbn. ring.
    + rewrite Rplus_0_r. destruct (tap l hw h w p); [|reflexivity]. apply rsum_ext. intros i I. rewrite HW by exact I. rewrite (proj2 (Nat.eqb_neq h m)) by exact HM. cbn. ring.
Qed.
Theorem residual_collapsing l : lin_wf l -> (l_kind l = K_conv \/ l_kind l = T_conv) -> l_groups l = 1%nat -> l_out l = l_in l -> (0 < fst (ksize l))%nat -> (0 < snd (ksize l))%nat -> centred l ->
  exists l', collapse_residual l = Ok l' /\ lin_wf l' /\ same_node l' l /\ forall hw, out_hw l hw = hw /\
    forall x o p, (o < l_out l)%nat -> pos_in hw p -> lin_val l' hw x o p = lin_val l hw x o p + x o p.
Proof.
  intros W K G IO KH KW (ST & CH & CW). pose proof (ksize_shape l W) as S. unfold kernel_shape, in_per in S. rewrite G, Nat.div_1_r, IO in S. set (kh := fst (ksize l)) in *. set (kw := snd (ksize l)) in *.
  assert (D : dense (l_kind l) = false) by (destruct K as [-> | ->]; reflexivity). assert (T : transposed (l_kind l) = false) by (destruct K as [-> | ->]; reflexivity).
  assert (X : exists k, collapse_residual l = Ok (set_kernel l k) /\ shp k = shp (l_kernel l) /\ forall h w i o, at_ k (match l_kind l with K_conv => [h; w; i; o] | _ => [o; i; h; w] end) =
     at_ (l_kernel l) (match l_kind l with K_conv => [h; w; i; o] | _ => [o; i; h; w] end) + (if Nat.eqb h ((kh - 1) / 2) && Nat.eqb w ((kw - 1) / 2) && Nat.eqb i o then 1 else 0)).
  { unfold collapse_residual. destruct K as [E|E]; rewrite E in *; rewrite S, Nat.ltb_irrefl, (proj2 (Nat.eqb_neq kh 0)), (proj2 (Nat.eqb_neq kw 0)) by lia; cbn [orb]; eexists; (split; [reflexivity|]); (split; [exact S|]); intros h w i o; cbn [add_one at_]; destruct (_ && _ && _)%bool; ring. }
  destruct X as (k & XE & SK & HK). rewrite XE. eexists. split; [reflexivity|].
  assert (SN : same_node (set_kernel l k) l) by (apply same_set, SK).
  assert (BV : forall o, bias_val (set_kernel l k) o = bias_val l o) by reflexivity.
  split; [|split; [exact SN|]].
  - destruct W as [[a [b W1]] W2 W3 W4 W5 W6 W7 W8 W9]. constructor; try assumption. exists a, b. cbn [set_kernel l_kernel set_weights]. rewrite SK. exact W1.
  - intros [hh ww]. destruct (centred_dim l fst hh D T ST eq_refl KH CH) as [OH TH]. destruct (centred_dim l snd ww D T ST eq_refl KW CW) as [OW TW]. split; [unfold out_hw; cbn [fst snd]; rewrite OH, OW; reflexivity|].
    intros x o p O [P1 P2]. cbn [fst snd] in *. apply (residual_core l (set_kernel l k) ((kh - 1) / 2) ((kw - 1) / 2)); try assumption; try reflexivity.
    + unfold kh. apply Nat.div_lt_upper_bound; lia.
    + unfold kw. apply Nat.div_lt_upper_bound; lia.
    + lia.
    + intros h w i I. rewrite !weight_conv by (try assumption; lia). cbn [set_kernel set_weights l_kernel l_kind]. apply HK.
    + unfold tap. rewrite D. cbn [fst snd]. fold kh kw in TH, TW. rewrite TH, TW by assumption. destruct p; reflexivity.
Qed.
Print Assumptions residual_collapsing.
