(* FnLayProofs.v -- lemmas about calls replaced by layers. *)
From Coq Require Import String FunctionalExtensionality.
From Verif Require Import LinNode LinSpec GraphModel HessianModel HessianProofs KCallModel KCallSpec KCallProofs KCallFnProofs FnLayModel FnLaySpec.
Local Open Scope nat_scope.

Lemma inside_inb s idx : inside s idx = true <-> inb s idx.
Proof.
  revert idx. induction s as [|d s IH]; intros [|i idx]; cbn; split; intro H; try discriminate; try constructor; try (inversion H; fail).
  - apply andb_prop in H. apply Nat.ltb_lt, (proj1 H).
  - apply IH. apply andb_prop in H. apply H.
  - inversion H; subst. apply andb_true_intro. split; [apply Nat.ltb_lt; assumption|apply IH; assumption].
Qed.
Lemma array_ext s f g : (forall idx, inside s idx = true -> f idx = g idx) -> array s f = array s g.
Proof. intro H. unfold array. f_equal. apply functional_extensionality. intro idx. destruct (inside s idx) eqn:E; [apply H, E|reflexivity]. Qed.

Section Call.
Variable obj : nat -> pyobj.
Variable array_of : val -> nd.
Variables (ps : params) (args : list val) (kw : kwargs).
Notation a := (gives ps args kw).
Definition read_as (n : fnode) : Prop :=
  f_args n = [] /\
  (forall i, dict_get i (f_weights n) = match nth_error ps i with Some k => match a k with Some v => if isc v then Some (arr v) else None | None => None end | None => None end) /\
  (forall k, dict_get k (f_kw n) = match a k with Some v => if isc v || is_tensor v then None else Some v | None => None end).
Lemma call_read k : NoDup ps -> valid_call ps args kw -> plain_call args kw -> constant_given (a k) -> exists n, read_function ps false args kw = Ok n /\ read_as n.
Proof.
  intros ND VC [P1 P2] (c & E & C). apply read_with_constants; try assumption; [reflexivity|]. exists c. split; [|exact C].
  unfold gives in E. destruct (position k ps); [|discriminate]. destruct (nth_error args n) eqn:N; [left; injection E as <-; eapply nth_error_In, N|right]. apply dict_get_in in E. apply in_map_iff. exists (k, c). split; [reflexivity|exact E].
Qed.
Lemma const_isc v : constant v -> isc v = true.
Proof. apply isc_constant. Qed.
Lemma not_array_isc v : not_array (Some v) -> isc v = false.
Proof. unfold not_array. intros H. destruct (isc v) eqn:Q; [|reflexivity]. apply isc_constant in Q. contradiction. Qed.
Lemma contents_arr v : contents array_of (arr v) = contents array_of v.
Proof. unfold arr. destruct v as [| | | |b l|]; cbn; try reflexivity. destruct (flat_map tensors_in l); reflexivity. Qed.

Lemma parse_pair_ok n key first s : read_as n -> not_array (a key) -> spatial obj first (a key) = Some s ->
  (first = false \/ ~ four_numbers (a key)) -> parse_pair obj n key = Ok (Some s).
Proof.
  intros (_ & _ & K) NA S F. unfold parse_pair. rewrite K. unfold spatial, none_or in S. destruct (a key) as [v|] eqn:E; [|injection S as <-; reflexivity].
  rewrite (not_array_isc v NA). cbn [orb]. destruct (is_none obj v) eqn:N.
  - assert (is_tensor v = false) as -> by (destruct v; try discriminate; reflexivity). rewrite N. exact (f_equal Ok S).
  - destruct v as [t|c|i|o|b l|w]; try discriminate; cbn [is_tensor].
    + cbn [is_none]. exact (f_equal Ok S).
    + cbn [is_none]. destruct (ints l) as [[|x1 [|x2 [|x3 [|x4 [|x5 r]]]]]|] eqn:I; try discriminate; try exact (f_equal Ok S).
      destruct first.
      * destruct F as [F|F]; [discriminate|]. exfalso. apply F. cbn. assert (forall l q, ints l = Some q -> length l = length q) as L.
        { clear. induction l as [|v l IH]; intros q H; cbn in H; [injection H as <-; reflexivity|]. destruct v; try discriminate. destruct (ints l) as [r|] eqn:R; [|discriminate]. injection H as <-. cbn. f_equal. apply IH. reflexivity. }
        apply (L _ _ I).
      * destruct (Nat.eqb_spec x1 1) as [->|]; [|discriminate]. destruct (Nat.eqb_spec x4 1) as [->|]; [|discriminate]. exact (f_equal Ok S).
Qed.
Lemma parse_padding_ok n first p : read_as n -> not_array (a p_padding) -> pads obj first (a p_padding) = Some p ->
  (p = TP_valid /\ parse_padding obj (dict_get p_padding (f_kw n)) = Ok (Some P_valid)) \/ (p = TP_same /\ parse_padding obj (dict_get p_padding (f_kw n)) = Ok (Some P_same)).
Proof.
  intros (_ & _ & K) NA S. rewrite K. unfold pads, none_or in S. destruct (a p_padding) as [v|] eqn:E; [|injection S as <-; left; split; reflexivity].
  pose proof (not_array_isc v NA) as C. rewrite C. cbn [orb]. destruct v as [t|c|i|o|b l|w]; cbn [is_none is_tensor] in *; try discriminate.
  - destruct (obj o) as [|s|] eqn:OB; cbn in S; rewrite ?OB in S; [injection S as <-; left; split; [reflexivity|]; unfold parse_padding; rewrite OB; reflexivity| |discriminate].
    unfold parse_padding. rewrite OB. destruct (String.eqb_spec s "VALID") as [->|]; [injection S as <-; left; split; reflexivity|]. destruct (String.eqb_spec s "SAME") as [->|]; [injection S as <-; right; split; reflexivity|discriminate].
  - exfalso. destruct l as [|[| | | |b' n'|] l]; try discriminate.
Qed.
Lemma parse_format_ok n first : read_as n -> not_array (a p_data_format) -> (forall v, a p_data_format = Some v -> is_none obj v = false) -> format obj (a p_data_format) = Some first ->
  parse_format obj (dict_get p_data_format (f_kw n)) = Ok first.
Proof.
  intros (_ & _ & K) NA NN S. rewrite K. unfold format, none_or in S. destruct (a p_data_format) as [v|] eqn:E; [|injection S as <-; reflexivity].
  rewrite (not_array_isc v NA). rewrite (NN v eq_refl) in S. destruct v as [t|c|i|o|b l|w]; cbn [orb is_tensor] in *; try discriminate. unfold parse_format. destruct (obj o); try discriminate.
  destruct (String.eqb s "NHWC"); [injection S as <-; reflexivity|]. destruct (String.eqb s "NCHW"); [injection S as <-; reflexivity|discriminate].
Qed.
End Call.

(* ---- convolution with a bias ---- *)
Lemma lin_val_bias kd k b u g i o s d p hw x ch q b0 : 
  (lin_val (Lin kd k (Some b) true g i o s d p) hw x ch q = lin_val (Lin kd k b0 false g i o s d p) hw x ch q + at_ b [ch] * (if u : bool then 1 else 1))%R.
Proof.
  unfold lin_val. unfold bias_val. cbn [l_use_bias l_bias l_in]. 
  assert (E : ksize (Lin kd k (Some b) true g i o s d p) = ksize (Lin kd k b0 false g i o s d p)) by reflexivity. rewrite E.
  match goal with |- (_ + ?A = 0 + ?B + _)%R => assert (A = B) as -> by reflexivity end. destruct u; ring.
Qed.
Lemma layer_bias dw k b s d p first x y : run_layer (CLayer dw k None s d p first) x = Some y ->
  forall n, shp b = [n] -> (match dims first (shp y) with Some (_, _, c) => c = n | None => False end) ->
  run_layer (CLayer dw k (Some b) s d p first) x = Some (array (shp y) (fun idx => at_ y idx + at_ b [fst (where_ first idx)])%R).
Proof.
  intros R n SB DY. unfold run_layer in *. cbn [cl_first cl_kernel cl_bias cl_dw cl_strides cl_dil cl_pad] in *. destruct (dims first (shp x)) as [[[h w] c]|] eqn:DX; [|discriminate].
  destruct (shp k) as [|kh [|kw' [|ci [|o [|]]]]]; try discriminate. cbn [fits_bias has_bias] in *. set (out := if dw then c * o else o) in *.
  destruct (Nat.eqb ci c && Nat.ltb 0 c) eqn:Q; [|discriminate]. cbn [andb] in *. unfold convolve in *. rewrite DX in *. cbv zeta in R. injection R as R.
  assert (SY : shp y = place first (Z.to_nat (fst (out_hw (Lin (if dw then K_dw else K_conv) k None false 1 c out s d p) (Z.of_nat h, Z.of_nat w)))) (Z.to_nat (snd (out_hw (Lin (if dw then K_dw else K_conv) k None false 1 c out s d p) (Z.of_nat h, Z.of_nat w)))) out) by (rewrite <- R; reflexivity).
  assert (N : n = out). { rewrite SY in DY. unfold place in DY. destruct first; cbn in DY; congruence. }
  rewrite SB, N, Nat.eqb_refl. cbv zeta. f_equal. cbn [l_out].
  match goal with |- array ?S1 ?F1 = array ?S2 ?F2 => assert (S1 = S2) as -> by (rewrite SY; reflexivity) end.
  apply array_ext. intros idx I. rewrite <- R. unfold array. cbn [at_]. cbn [l_out]. rewrite SY in I. match goal with |- context [if inside ?S9 idx then _ else _] => assert (inside S9 idx = true) as -> by exact I end. destruct (where_ first idx) as [ch q]. cbn [fst].
  rewrite (lin_val_bias _ _ _ true _ _ _ _ _ _ _ _ _ _ None). ring.
Qed.

(* ---- the layers made of calls ---- *)
Lemma conv_sig_nodup : NoDup conv_sig.
Proof. unfold conv_sig, p_input, p_filters, p_strides, p_padding, p_data_format, p_dilations, p_name. repeat constructor; cbn; intuition discriminate. Qed.
Lemma dw_sig_nodup : NoDup dw_sig.
Proof. unfold dw_sig, p_input, p_filter, p_strides, p_padding, p_data_format, p_dilations, p_name. repeat constructor; cbn; intuition discriminate. Qed.
Lemma add_sig_nodup : NoDup add_sig.
Proof. unfold add_sig, p_x, p_y, p_name. repeat constructor; cbn; intuition discriminate. Qed.
Lemma bias_sig_nodup : NoDup bias_sig.
Proof. unfold bias_sig, p_value, p_bias, p_data_format, p_name. repeat constructor; cbn; intuition discriminate. Qed.
Lemma matmul_sig_nodup : NoDup matmul_sig.
Proof. unfold matmul_sig, p_a, p_b, p_transpose_a, p_transpose_b, p_adjoint_a, p_adjoint_b, p_name. repeat constructor; cbn; intuition discriminate. Qed.

Section Layers.
Variable obj : nat -> pyobj.
Variable array_of : val -> nd.
Lemma padded_plain first p mk x y : (p = TP_valid \/ p = TP_same) -> padded_conv first p mk x = Some y ->
  convolve first (mk (match p with TP_same => P_same | _ => P_valid end)) x = Some y.
Proof. intros [-> | ->] H; exact H. Qed.

Lemma conv_converted args kw x y :
  valid_call conv_sig args kw -> plain_call args kw ->
  let a := gives conv_sig args kw in
  constant_given (a p_filters) -> not_array (a p_strides) -> not_array (a p_padding) -> not_array (a p_data_format) -> not_array (a p_dilations) ->
  (forall v, a p_data_format = Some v -> is_none obj v = false) ->
  (format obj (a p_data_format) = Some false \/ (~ four_numbers (a p_strides) /\ ~ four_numbers (a p_dilations))) ->
  (forall first h w c, format obj (a p_data_format) = Some first -> dims first (shp x) = Some (h, w, c) -> forall v, a p_filters = Some v -> nth 2 (shp (contents array_of v)) 0 = c) ->
  tf_conv2d obj array_of args kw x = Some y ->
  exists n k s d p first co, read_function conv_sig false args kw = Ok n /\ format obj (a p_data_format) = Some first /\
    (forall v, a p_filters = Some v -> shp (contents array_of v) = shp k) /\ nth 3 (shp k) 0 = co /\ (exists h w, dims first (shp y) = Some (h, w, co)) /\
    (forall b, convert_conv obj array_of n b = Ok (Some (CLayer false k b s d p first))) /\
    run_layer (CLayer false k None s d p first) x = Some y.
Proof.
  cbv zeta. intros VC PC CF NS NP NF ND NN FO G1 T. destruct (call_read conv_sig args kw p_filters conv_sig_nodup VC PC CF) as (n & RD & RA). destruct CF as (kv & EK & CK).
  unfold tf_conv2d in T. rewrite EK in T. destruct (format obj (gives conv_sig args kw p_data_format)) as [first|] eqn:EF; [|discriminate].
  destruct (shp (contents array_of kv)) as [|kh [|kw' [|ci [|co [|]]]]] eqn:SK; try discriminate. destruct (dims first (shp x)) as [[[h w] c]|] eqn:DX; [|discriminate].
  pose proof (G1 first h w c eq_refl DX kv EK) as HC. rewrite SK in HC. cbn in HC. subst ci.
  destruct (spatial obj first (gives conv_sig args kw p_strides)) as [s|] eqn:ES; [|discriminate]. destruct (spatial obj first (gives conv_sig args kw p_dilations)) as [d|] eqn:ED; [|discriminate].
  destruct (pads obj first (gives conv_sig args kw p_padding)) as [p|] eqn:EP; [|discriminate]. cbv zeta in T.
  destruct (Nat.eqb c (c / c * c) && Nat.ltb 0 (c / c) && Nat.eqb (co mod (c / c)) 0) eqn:Q; [|discriminate]. apply andb_prop in Q. destruct Q as [Q _]. apply andb_prop in Q. destruct Q as [_ Q]. apply Nat.ltb_lt in Q.
  assert (C0 : 0 < c) by (destruct c; [cbn in Q; lia|lia]). rewrite Nat.div_same in T by lia.
  assert (FS : first = false \/ ~ four_numbers (gives conv_sig args kw p_strides)) by (destruct FO as [FO|FO]; [left; congruence|right; tauto]).
  assert (FD : first = false \/ ~ four_numbers (gives conv_sig args kw p_dilations)) by (destruct FO as [FO|FO]; [left; congruence|right; tauto]).
  pose proof (parse_pair_ok obj conv_sig args kw n p_strides first s RA NS ES FS) as PS. pose proof (parse_pair_ok obj conv_sig args kw n p_dilations first d RA ND ED FD) as PD.
  pose proof (parse_format_ok obj conv_sig args kw n first RA NF NN EF) as PF.
  exists n, (contents array_of kv), s, d, (match p with TP_same => P_same | _ => P_valid end), first, co. split; [exact RD|]. split; [reflexivity|]. split; [intros v E; congruence|]. split; [rewrite SK; reflexivity|].
  assert (PP : (p = TP_valid \/ p = TP_same) /\ parse_padding obj (dict_get p_padding (f_kw n)) = Ok (Some (match p with TP_same => P_same | _ => P_valid end))).
  { destruct (parse_padding_ok obj conv_sig args kw n first p RA NP EP) as [[-> E]|[-> E]]; auto. }
  destruct PP as [PV PP]. pose proof (padded_plain _ _ _ _ _ PV T) as CV.
  split; [|split].
  - unfold convolve in CV. rewrite DX in CV. cbv zeta in CV. injection CV as <-. unfold array, place. cbn [shp l_out]. destruct first; cbn; eauto.
  - intro b. destruct RA as (RA1 & RA2 & RA3). unfold convert_conv, conv_kernel. rewrite RA2. cbn [nth_error conv_sig]. rewrite EK, (const_isc kv CK). cbn [first_some option_map]. rewrite contents_arr, SK. cbn [length Nat.eqb negb]. rewrite RA1, PS. cbn [bind]. rewrite PP. cbn [bind]. rewrite PD. cbn [bind]. rewrite PF. reflexivity.
  - unfold run_layer. cbn [cl_first cl_kernel cl_bias cl_dw cl_strides cl_dil cl_pad fits_bias has_bias]. rewrite DX, SK, Nat.eqb_refl, (proj2 (Nat.ltb_lt 0 c) C0). exact CV.
Qed.

Lemma ints_length l q : ints l = Some q -> length l = length q.
Proof.
  revert q. induction l as [|v l IH]; intros q H; cbn in H; [injection H as <-; reflexivity|]. destruct v; try discriminate. destruct (ints l) as [r|] eqn:R; [|discriminate]. injection H as <-. cbn. f_equal. apply IH. reflexivity.
Qed.
Lemma dw_strides_ok args kw n s : read_as dw_sig args kw n -> not_array (gives dw_sig args kw p_strides) -> spatial obj false (gives dw_sig args kw p_strides) = Some s ->
  four (gives dw_sig args kw p_strides) = true -> dw_strides n = Ok (Some s).
Proof.
  intros (_ & _ & K) NA S F. unfold dw_strides. rewrite K. unfold spatial, none_or in S. destruct (gives dw_sig args kw p_strides) as [[| | | |b l|]|]; try discriminate. rewrite (not_array_isc _ NA). cbn [is_none is_tensor orb] in *.
  cbn [four] in F. apply Nat.eqb_eq in F. destruct (ints l) as [q|] eqn:I; [|discriminate]. apply ints_length in I. rewrite I in F. destruct q as [|x1 [|x2 [|x3 [|x4 [|]]]]]; try discriminate.
  destruct (Nat.eqb_spec x1 1) as [->|]; [|discriminate]. destruct (Nat.eqb_spec x4 1) as [->|]; [|discriminate]. exact (f_equal Ok S).
Qed.
Lemma dw_padding_ok args kw n p : read_as dw_sig args kw n -> not_array (gives dw_sig args kw p_padding) -> (forall v, gives dw_sig args kw p_padding = Some v -> is_none obj v = false) ->
  pads obj false (gives dw_sig args kw p_padding) = Some p ->
  (p = TP_valid \/ p = TP_same) /\ dw_padding obj n = Ok (Some (match p with TP_same => P_same | _ => P_valid end)).
Proof.
  intros (_ & _ & K) NA NN S. unfold dw_padding. rewrite K. unfold pads, none_or in S. destruct (gives dw_sig args kw p_padding) as [v|]; [|injection S as <-; auto].
  pose proof (not_array_isc v NA) as C. rewrite C, (NN v eq_refl) in *. cbn [orb]. destruct v as [t|c|i|o|b l|w]; cbn [is_tensor] in *; try discriminate.
  - cbn iota beta in S. destruct (obj o) as [|s|]; try discriminate. unfold layer_padding. destruct (String.eqb s "VALID"); [injection S as <-; auto|]. destruct (String.eqb s "SAME"); [injection S as <-; auto|discriminate].
  - exfalso. destruct l as [|[| | | |b' n'|] l]; try discriminate.
Qed.
Lemma dw_dilation_ok args kw n d : read_as dw_sig args kw n -> not_array (gives dw_sig args kw p_dilations) -> spatial obj false (gives dw_sig args kw p_dilations) = Some d ->
  pair_or_none obj (gives dw_sig args kw p_dilations) = true -> dw_dilation obj n = Ok d.
Proof.
  intros (_ & _ & K) NA S F. unfold dw_dilation, given. rewrite !K. replace (gives dw_sig args kw p_rate) with (@None val) by reflexivity. unfold pair_or_none in F. unfold spatial in S. unfold none_or in *.
  destruct (gives dw_sig args kw p_dilations) as [v|]; [|injection S as <-; reflexivity]. rewrite (not_array_isc v NA). destruct (is_none obj v) eqn:N.
  - destruct v; try discriminate. cbn [is_tensor orb]. rewrite N. injection S as <-. reflexivity.
  - destruct v as [| | | |b l|]; try discriminate. cbn [is_tensor orb is_none layer_pair]. apply Nat.eqb_eq in F. destruct (ints l) as [q|] eqn:I; [|discriminate]. apply ints_length in I. rewrite I in F. destruct q as [|x1 [|x2 [|]]]; try discriminate. injection S as <-. reflexivity.
Qed.
Lemma dw_converted args kw x y :
  valid_call dw_sig args kw -> plain_call args kw ->
  let a := gives dw_sig args kw in
  constant_given (a p_filter) -> not_array (a p_strides) -> not_array (a p_padding) -> not_array (a p_dilations) ->
  (forall v, a p_padding = Some v -> is_none obj v = false) ->
  format obj (a p_data_format) = Some false ->
  tf_depthwise_conv2d obj array_of args kw x = Some y ->
  exists n k s d p c m, read_function dw_sig false args kw = Ok n /\
    (forall v, a p_filter = Some v -> shp (contents array_of v) = shp k) /\ nth 2 (shp k) 0 = c /\ nth 3 (shp k) 0 = m /\ (exists h w, dims false (shp y) = Some (h, w, c * m)) /\
    (forall b, convert_dw obj array_of n b = Ok (Some (CLayer true k b s d p false))) /\
    run_layer (CLayer true k None s d p false) x = Some y.
Proof.
  cbv zeta. intros VC PC CF NS NP ND NPN EF T. destruct (call_read dw_sig args kw p_filter dw_sig_nodup VC PC CF) as (n & RD & RA). destruct CF as (kv & EK & CK).
  unfold tf_depthwise_conv2d in T. rewrite EK, EF in T. destruct (shp (contents array_of kv)) as [|kh [|kw' [|ci [|m [|]]]]] eqn:SK; try discriminate. destruct (dims false (shp x)) as [[[h w] c]|] eqn:DX; [|discriminate].
  destruct (spatial obj false (gives dw_sig args kw p_strides)) as [s|] eqn:ES; [|discriminate]. destruct (spatial obj false (gives dw_sig args kw p_dilations)) as [d|] eqn:ED; [|discriminate].
  destruct (pads obj false (gives dw_sig args kw p_padding)) as [p|] eqn:EP; [|discriminate].
  destruct (Nat.eqb c ci && Nat.ltb 0 c && Nat.ltb 0 m && four (gives dw_sig args kw p_strides) && pair_or_none obj (gives dw_sig args kw p_dilations)) eqn:Q; [|discriminate].
  repeat (apply andb_prop in Q; destruct Q as [Q ?]). apply Nat.eqb_eq in Q. subst ci. rename H into QD. rename H0 into QS. rename H1 into QM. rename H2 into QC.
  destruct (dw_padding_ok args kw n p RA NP NPN EP) as [PV PP]. pose proof (dw_strides_ok args kw n s RA NS ES QS) as PS. pose proof (dw_dilation_ok args kw n d RA ND ED QD) as PD.
  exists n, (contents array_of kv), s, d, (match p with TP_same => P_same | _ => P_valid end), c, m. split; [exact RD|]. split; [intros v E; congruence|]. split; [rewrite SK; reflexivity|]. split; [rewrite SK; reflexivity|].
  pose proof (padded_plain _ _ _ _ _ PV T) as CV. split; [|split].
  - unfold convolve in CV. rewrite DX in CV. cbv zeta in CV. injection CV as <-. unfold array, place. cbn. eauto.
  - intro b. destruct RA as (RA1 & RA2 & RA3). unfold convert_dw. rewrite RA2. cbn [nth_error dw_sig]. rewrite EK, (const_isc kv CK), contents_arr, SK. cbn [length]. rewrite RA1, PS. cbn [bind]. rewrite PP. cbn [bind]. rewrite PD. reflexivity.
  - unfold run_layer. cbn [cl_first cl_kernel cl_bias cl_dw cl_strides cl_dil cl_pad fits_bias has_bias]. rewrite DX, SK, Nat.eqb_refl, QC. exact CV.
Qed.

(* ---- the additions that follow ---- *)
Lemma last_axis_add a h w c b : shp a = [h; w; c] -> shp b = [c] ->
  broadcast_add a b = Some (array [h; w; c] (fun idx => at_ a idx + at_ b [fst (where_ false idx)])%R) /\
  broadcast_add b a = Some (array [h; w; c] (fun idx => at_ a idx + at_ b [fst (where_ false idx)])%R).
Proof.
  intros SA SB. assert (M : forall idx, inside [h; w; c] idx = true -> bget a idx = at_ a idx /\ bget b idx = at_ b [fst (where_ false idx)]).
  { intros idx I. apply inside_inb in I. split; [apply bget_same; rewrite SA; exact I|]. unfold bget. rewrite SB. inversion I as [|? i1 ? l1 ? I1]; subst. inversion I1 as [|? i2 ? l2 ? I2]; subst. inversion I2 as [|? i3 ? l3 ? I3]; subst. inversion I3; subst. cbn. destruct (Nat.eqb_spec c 1) as [->|]; [|reflexivity]. destruct i3; [reflexivity|lia]. }
  assert (D1 : bdims [h; w; c] [1; 1; c] = Some [h; w; c]) by (apply bdims_sub; repeat constructor; auto).
  assert (D2 : bdims [1; 1; c] [h; w; c] = Some [h; w; c]) by (apply bdims_sub'; repeat constructor; auto).
  unfold broadcast_add, bop, bshape. rewrite SA, SB. unfold pad_left. cbn [length Nat.max Nat.sub repeat app]. rewrite D1, D2. cbn [shp at_]. split; f_equal; apply array_ext; intros idx I; destruct (M idx I) as [-> ->]; ring.
Qed.
Lemma add_read args kw v : valid_call add_sig args kw -> plain_call args kw ->
  (gives add_sig args kw p_y = Some v /\ (exists t, gives add_sig args kw p_x = Some (VT t)) \/ gives add_sig args kw p_x = Some v /\ (exists t, gives add_sig args kw p_y = Some (VT t))) -> constant v ->
  exists n, read_function add_sig false args kw = Ok n /\ first_some (dict_get 0 (f_weights n)) (dict_get 1 (f_weights n)) = Some (arr v).
Proof.
  intros VC PC G C. assert (CG : exists k, constant_given (gives add_sig args kw k)) by (destruct G as [[G _]|[G _]]; [exists p_y|exists p_x]; exists v; auto). destruct CG as [k CG].
  destruct (call_read add_sig args kw k add_sig_nodup VC PC CG) as (n & RD & _ & W & _). exists n. split; [exact RD|]. rewrite !W. cbn [nth_error add_sig]. destruct G as [[-> [t ->]]|[-> [t ->]]]; rewrite (const_isc v C); reflexivity.
Qed.
Lemma bias_read args kw v : valid_call bias_sig args kw -> plain_call args kw -> gives bias_sig args kw p_bias = Some v -> constant v ->
  exists n, read_function bias_sig false args kw = Ok n /\ dict_get 1 (f_weights n) = Some (arr v).
Proof.
  intros VC PC G C. destruct (call_read bias_sig args kw p_bias bias_sig_nodup VC PC) as (n & RD & _ & W & _); [exists v; auto|]. exists n. split; [exact RD|]. rewrite W. cbn [nth_error bias_sig]. rewrite G, (const_isc v C). reflexivity.
Qed.
End Layers.

(* ---- matrix products ---- *)
Section Matmul.
Variable obj : nat -> pyobj.
Variable array_of : val -> nd.
Lemma swap_product x w y : length (shp w) = 2 -> product x (swap_last w) = Some y -> run_dense (transpose [1; 0] w) x = Some y.
Proof.
  intros L P. destruct (shp w) as [|a [|b [|]]] eqn:SW; try discriminate. unfold product, swap_last in P. rewrite SW in P. cbn [rev app] in P. unfold run_dense. cbn [shp transpose map nth]. rewrite SW. cbn [nth]. cbn [shp array] in P.
  destruct (rev (shp x)) as [|c [|d r]]; try discriminate. destruct (Nat.eqb_spec c b) as [->|]; [|discriminate]. injection P as <-. f_equal. apply array_ext. intros idx I. apply rsum_ext. intros k K. f_equal. cbn [at_ transpose array]. rewrite SW. cbn [length seq map index_of Nat.eqb nth inside].
  assert (LI : last idx 0 < a). { clear -I. revert I. cbn [rev]. generalize (rev r ++ [d]). intro s. revert idx. induction s as [|q s IH]; intros [|i idx] I; cbn [app inside] in I; try discriminate; apply andb_prop in I; destruct I as [I0 I1].
    - destruct idx; [|discriminate]. apply Nat.ltb_lt, I0.
    - destruct idx as [|i2 idx]; [destruct s; discriminate|]. apply (IH _ I1). }
  rewrite (proj2 (Nat.ltb_lt k b) K), (proj2 (Nat.ltb_lt _ _) LI). reflexivity.
Qed.
Lemma matmul_converted args kw x y cfg t :
  valid_call matmul_sig args kw -> plain_call args kw ->
  let a := gives matmul_sig args kw in
  a p_a = Some (VT t) -> constant_given (a p_b) -> not_array (a p_transpose_b) -> (forall t, a p_transpose_b <> Some (VT t)) ->
  truth obj (a p_transpose_a) = false -> truth obj (a p_adjoint_a) = false -> truth obj (a p_adjoint_b) = false ->
  truth obj (dict_get p_adjoint_a cfg) = false -> truth obj (dict_get p_adjoint_b cfg) = false -> truth obj (dict_get p_transpose_a cfg) = false ->
  tf_matmul obj array_of args kw x = Some y ->
  exists n w, read_function matmul_sig false args kw = Ok n /\ convert_matmul obj array_of cfg 1 n = Ok (Some w) /\ run_dense w x = Some y.
Proof.
  cbv zeta. intros VC PC EA CB NB NT FA FAA FAB C1 C2 C3 T. destruct (call_read matmul_sig args kw p_b matmul_sig_nodup VC PC CB) as (n & RD & R1 & R2 & R3). destruct CB as (v & EB & CV). exists n.
  unfold tf_matmul in T. rewrite EA, EB, FA, FAA, FAB in T. cbn [andb orb] in T. rewrite andb_false_r in T. rewrite orb_false_r in T. destruct (shp (contents array_of v)) as [|d1 [|d2 [|]]] eqn:SW; try discriminate.
  assert (TB : truth obj (dict_get p_transpose_b (f_kw n)) = truth obj (gives matmul_sig args kw p_transpose_b)). { rewrite R3. destruct (gives matmul_sig args kw p_transpose_b) as [q|]; [|reflexivity]. rewrite (not_array_isc q NB). destruct q; try reflexivity. destruct (NT t0 eq_refl). }
  unfold convert_matmul. cbn [Nat.ltb Nat.leb]. rewrite C1, C2, C3. cbn [orb]. rewrite R2. cbn [nth_error matmul_sig]. rewrite EB, (const_isc v CV). cbn [first_some option_map]. rewrite contents_arr, SW, R1, TB. cbn [length Nat.eqb negb nth_error truth]. rewrite orb_false_r.
  eexists. split; [exact RD|]. split; [reflexivity|]. destruct (truth obj (gives matmul_sig args kw p_transpose_b)).
  - apply swap_product; [rewrite SW; reflexivity|exact T].
  - exact T.
Qed.
End Matmul.
