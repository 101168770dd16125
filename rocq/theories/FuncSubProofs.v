(* FuncSubProofs.v -- proofs about replacing functional normalization and attention. *)
From Coq Require Import String Lia.
From Verif Require Import Base GraphModel GraphProofs FxModel FxSpec FxProofs FuncSubModel FuncSubSpec.
From Coq Require Import Reals Lra.
Local Open Scope nat_scope.

Lemma kwget_keyword kw k : kwget kw k = keyword k kw.
Proof.
  unfold kwget. induction kw as [|[k' a] kw IH]; [reflexivity|]. cbn [find fst keyword]. rewrite String.eqb_sym.
  destruct (String.eqb k k'); [reflexivity|exact IH].
Qed.
Lemma keyword_in kw k a : keyword k kw = Some a -> In (k, a) kw.
Proof.
  induction kw as [|[k' b] kw IH]; [discriminate|]. cbn [keyword]. destruct (String.eqb_spec k k') as [E|_].
  - intros [= ->]. left. rewrite E. reflexivity.
  - intro H. right. apply IH, H.
Qed.
Lemma keyword_none kw k : keyword k kw = None <-> ~ In k (map fst kw).
Proof.
  induction kw as [|[k' b] kw IH]; [split; [intros _ []|reflexivity]|]. cbn [keyword map fst In]. destruct (String.eqb_spec k k') as [E|E].
  - split; [discriminate|]. intro H. exfalso. apply H. left. symmetry. exact E.
  - rewrite IH. split; intro H; [intros [Q|Q]; [apply E; symmetry; exact Q|exact (H Q)]|intro Q; apply H; right; exact Q].
Qed.
Lemma in_keyword kw k a : NoDup (map fst kw) -> In (k, a) kw -> keyword k kw = Some a.
Proof.
  induction kw as [|[k' b] kw IH]; [intros _ []|]. cbn [map fst]. intro N. apply NoDup_cons_iff in N. destruct N as [N1 N2]. intros [E|I]; cbn [keyword].
  - injection E as -> ->. rewrite String.eqb_refl. reflexivity.
  - destruct (String.eqb_spec k k') as [E|_]; [|exact (IH N2 I)]. exfalso. apply N1. rewrite <- E. apply (in_map fst) in I. exact I.
Qed.
Lemma op_kw_keyword nd k : keyword k (op_call_kwargs nd) = match keyword k (f_kwargs nd) with Some a => if is_node a then keyword k (op_call_kwargs nd) else Some a | None => None end.
Proof.
  unfold op_call_kwargs. induction (f_kwargs nd) as [|[k' a] kw IH]; [reflexivity|]. cbn [filter snd keyword]. destruct (String.eqb_spec k k') as [E|E].
  - destruct (is_node a) eqn:N; [reflexivity|]. cbn [negb keyword]. rewrite E, String.eqb_refl. reflexivity.
  - destruct (is_node a) eqn:N; cbn [negb keyword]; [exact IH|]. destruct (String.eqb_spec k k') as [Q|_]; [contradiction|exact IH].
Qed.
Lemma op_kw_node nd k n : NoDup (map fst (f_kwargs nd)) -> keyword k (f_kwargs nd) = Some (ANode n) -> keyword k (op_call_kwargs nd) = None.
Proof.
  intros N H. apply keyword_none. intro I. apply in_map_iff in I. destruct I as ([k' a] & E & I). cbn [fst] in E. subst k'. unfold op_call_kwargs in I. apply filter_In in I. destruct I as [I Q].
  rewrite (in_keyword _ _ _ N I) in H. injection H as ->. discriminate Q.
Qed.
Lemma op_kw_val nd k a : keyword k (f_kwargs nd) = Some a -> is_node a = false -> keyword k (op_call_kwargs nd) = Some a.
Proof. intros H N. rewrite op_kw_keyword, H, N. reflexivity. Qed.
Lemma op_kw_none nd k : keyword k (f_kwargs nd) = None -> keyword k (op_call_kwargs nd) = None.
Proof. intros H. rewrite op_kw_keyword, H. reflexivity. Qed.

Lemma wget_enum consts l i n j : nth_error l i = Some n -> In n consts -> wget (filter (fun p => mem (snd p) consts) (enumerate_from j l)) (j + i) = Ok n.
Proof.
  revert i j. induction l as [|x l IH]; intros [|i] j H C; try discriminate.
  - cbn in H. injection H as ->. cbn [enumerate_from filter snd]. assert (mem n consts = true) as -> by (apply mem_spec, C). cbn [wget]. rewrite Nat.add_0_r, Nat.eqb_refl. reflexivity.
  - cbn [nth_error] in H. cbn [enumerate_from filter snd]. specialize (IH i (S j) H C). rewrite Nat.add_succ_comm in IH.
    destruct (mem x consts); [|exact IH]. cbn [wget]. destruct (Nat.eqb_spec (j + S i) j) as [E|_]; [lia|exact IH].
Qed.
Lemma nodup_repeats l : NoDup l -> repeats_last (S (list_max l)) 0 l.
Proof.
  intro N. exists l. split; [|rewrite app_nil_r; reflexivity]. constructor; [|exact N]. intro I.
  assert (S (list_max l) <= list_max l); [|lia]. pose proof (proj1 (list_max_le l (list_max l)) (le_n _)) as F. rewrite Forall_forall in F. exact (F _ I).
Qed.

Lemma key_index_some k (T : list (nat * alloc)) i : key_index k (map snd T) = Some i -> exists n, nth_error T i = Some (n, Key k).
Proof.
  revert i. induction T as [|[n a] T IH]; intros i H; [discriminate|]. cbn [map snd key_index] in H. destruct a as [p|k'].
  - destruct (key_index k (map snd T)) as [m|]; [|discriminate]. injection H as <-. exact (IH m eq_refl).
  - destruct (String.eqb_spec k k') as [E|_]; [injection H as <-; exists n; rewrite E; reflexivity|].
    destruct (key_index k (map snd T)) as [m|]; [|discriminate]. injection H as <-. exact (IH m eq_refl).
Qed.
Lemma key_index_none k (T : list (nat * alloc)) : key_index k (map snd T) = None -> forall n, ~ In (n, Key k) T.
Proof.
  induction T as [|[n a] T IH]; intros H m I; [destruct I|]. cbn [map snd key_index] in H. destruct a as [p|k'].
  - destruct (key_index k (map snd T)); [discriminate|]. destruct I as [E|I]; [discriminate|exact (IH eq_refl m I)].
  - destruct (String.eqb_spec k k') as [E|E]; [discriminate|].
    destruct (key_index k (map snd T)); [discriminate|]. destruct I as [Q|I]; [injection Q as _ Q; apply E; symmetry; exact Q|exact (IH eq_refl m I)].
Qed.
Lemma tagged_no_key j args n k : ~ In (n, Key k) (tagged j args).
Proof.
  intro I. unfold tagged in I. apply in_flat_map in I. destruct I as ([p a] & _ & I). cbn [snd fst] in I. destruct a; cbn in I; intuition discriminate.
Qed.
Lemma ktagged_in kw n k : In (n, Key k) (ktagged kw) <-> In (k, ANode n) kw.
Proof.
  unfold ktagged. rewrite in_flat_map. split.
  - intros ([k' a] & I & J). cbn [snd fst] in J. destruct a; cbn in J; [|contradiction|contradiction]. destruct J as [J|[]]. injection J as -> ->. exact I.
  - intro I. exists (k, ANode n). split; [exact I|left; reflexivity].
Qed.

(* what a parameter of the call is, when given as the pos-th tensor or by keyword *)
Definition node_of (a : option arg) : option nat := match a with Some (ANode n) => Some n | _ => None end.
Lemma affine_ok consts nd k pos given x :
  first_list nd = None -> flat (f_args nd) -> flat (map snd (f_kwargs nd)) -> NoDup (map fst (f_kwargs nd)) -> NoDup (occ nd) ->
  (forall n, In n (occ nd) -> n = x \/ In n consts) -> hd_error (nodes_in (f_args nd)) = Some x -> 0 < pos ->
  (exists n, nth_error (nodes_in (f_args nd)) pos = Some n /\ given = ANode n /\ ~ In k (map fst (f_kwargs nd))) \/ keyword k (f_kwargs nd) = Some given ->
  affine_param nd (const_weights consts nd) k pos = Ok (node_of (Some given)).
Proof.
  intros Fl Fa Fk Nk No C Hx Pp H.
  assert (const_weights consts nd = filter (fun p => mem (snd p) consts) (enumerate_from 0 (occ nd))) as Ew.
  { unfold const_weights. rewrite Fl, ains_occ, firsts_id by exact No. reflexivity. }
  assert (tensor_args nd = f_args nd) as Ta by (unfold tensor_args; rewrite Fl; reflexivity).
  assert (forall i n, nth_error (occ nd) i = Some n -> 0 < i -> In n consts) as Cc.
  { intros i n E P. destruct (C n (nth_error_In _ _ E)) as [Q|Q]; [|exact Q]. subst n. exfalso.
    assert (nth_error (occ nd) 0 = Some x) as E0. { unfold occ. destruct (nodes_in (f_args nd)); [discriminate Hx|exact Hx]. }
    assert (i = 0); [|lia]. apply (proj1 (NoDup_nth_error (occ nd)) No); [apply nth_error_Some; rewrite E; discriminate|]. rewrite E, E0. reflexivity. }
  unfold affine_param. rewrite (alloc_tagged nd _ _ Ta Fa Fk (nodup_repeats _ No)). set (T := tagged 0 (f_args nd) ++ ktagged (f_kwargs nd)).
  assert (occ nd = map fst T) as Eo by (unfold T; rewrite map_app, tagged_nodes, ktagged_nodes by assumption; reflexivity).
  destruct (key_index k (map snd T)) as [i|] eqn:K.
  - destruct (key_index_some _ _ _ K) as (n & E). pose proof (nth_error_In _ _ E) as I. unfold T in I. apply in_app_or in I. destruct I as [I|I]; [destruct (tagged_no_key _ _ _ _ I)|].
    apply ktagged_in in I. assert (keyword k (f_kwargs nd) = Some (ANode n)) as Kw by (apply in_keyword; assumption).
    assert (given = ANode n) as ->. { destruct H as [(m & _ & _ & H)|H]; [exfalso; apply H; apply (in_map fst) in I; exact I|]. rewrite Kw in H. injection H as <-. reflexivity. }
    assert (nth_error (occ nd) i = Some n) as En by (rewrite Eo, nth_error_map, E; reflexivity).
    rewrite Ew. change i with (0 + i). rewrite (wget_enum consts (occ nd) i n 0 En); [reflexivity|]. apply (Cc i n En).
    assert (i <> 0); [|lia]. intros ->. unfold T in E. destruct (nodes_in (f_args nd)) as [|y r] eqn:Q; [discriminate Hx|]. pose proof (tagged_nodes (f_args nd) Fa 0) as Tn. rewrite Q in Tn.
    destruct (tagged 0 (f_args nd)) as [|[n0 a0] t] eqn:Et; [discriminate|]. cbn [app nth_error] in E. injection E as -> ->.
    apply (tagged_no_key 0 (f_args nd) n k). rewrite Et. left. reflexivity.
  - pose proof (key_index_none _ _ K) as Kn. unfold in_kw. rewrite kwget_keyword. destruct H as [(n & E & -> & H)|H].
    + rewrite op_kw_none by (apply keyword_none; exact H).
      assert (nth_error (occ nd) pos = Some n) as En. { unfold occ. rewrite nth_error_app1; [exact E|]. apply nth_error_Some. rewrite E. discriminate. }
      rewrite Ew. change pos with (0 + pos) at 1. rewrite (wget_enum consts (occ nd) pos n 0 En) by exact (Cc pos n En Pp). reflexivity.
    + destruct (is_node given) eqn:G.
      * exfalso. destruct given as [n| |]; try discriminate. apply (Kn n). unfold T. apply in_or_app. right. apply ktagged_in, keyword_in, H.
      * rewrite (op_kw_val _ _ _ H G). destruct given; [discriminate| |]; reflexivity.
Qed.

Lemma wget_pos consts nd i n x : first_list nd = None -> NoDup (occ nd) -> (forall n, In n (occ nd) -> n = x \/ In n consts) -> hd_error (occ nd) = Some x -> 0 < i ->
  nth_error (occ nd) i = Some n -> wget (const_weights consts nd) i = Ok n.
Proof.
  intros Fl No C Hx P E. unfold const_weights. rewrite Fl, ains_occ, firsts_id by exact No. change i with (0 + i). apply wget_enum; [exact E|].
  destruct (C n (nth_error_In _ _ E)) as [Q|Q]; [|exact Q]. subst n. exfalso.
  assert (nth_error (occ nd) 0 = Some x) as E0 by (destruct (occ nd); [discriminate Hx|exact Hx]).
  assert (i = 0); [|lia]. apply (proj1 (NoDup_nth_error (occ nd)) No); [apply nth_error_Some; rewrite E; discriminate|]. rewrite E, E0. reflexivity.
Qed.
Lemma nodes_in_map l : nodes_in (map ANode l) = l.
Proof. unfold nodes_in. induction l as [|x l IH]; [reflexivity|]. cbn [map flat_map arg_nodes app]. rewrite IH. reflexivity. Qed.
Lemma flat_map_nodes l : flat (map ANode l).
Proof. intros a I. apply in_map_iff in I. destruct I as (n & <- & _). left. reflexivity. Qed.
Lemma wget_has ws i n : wget ws i = Ok n -> has_pos ws i = true.
Proof.
  induction ws as [|[j c] ws IH]; [discriminate|]. cbn [wget has_pos existsb fst]. rewrite Nat.eqb_sym. destruct (Nat.eqb j i); [reflexivity|]. exact IH.
Qed.

Section Dec.
Variable dec : nat -> pv.
Lemma eps_keyword nd sig p : (forall k n, In (k, ANode n) (f_kwargs nd) -> (k = "weight" \/ k = "bias")%string) ->
  nth_error (f_args nd) p = None -> param_index "eps"%string sig = p ->
  eps_of dec (kwget (op_call_kwargs nd) "eps"%string) = number dec (1 / 100000) (arg_for sig nd "eps"%string).
Proof.
  intros T E P. unfold arg_for. rewrite P, E, kwget_keyword. destruct (keyword "eps"%string (f_kwargs nd)) as [a|] eqn:K.
  - assert (is_node a = false) as N. { destruct a as [n| |]; [|reflexivity|reflexivity]. exfalso. destruct (T "eps"%string n (keyword_in _ _ _ K)) as [Q|Q]; discriminate Q. }
    rewrite (op_kw_val _ _ _ K N). unfold eps_of, number, default_eps. destruct a as [n|c|l]; [discriminate| |reflexivity]. destruct (dec c); reflexivity.
  - rewrite (op_kw_none _ _ K). reflexivity.
Qed.

Lemma batch_norm_lem consts nd x m v aff cv : batch_norm_call consts nd x m v aff -> flag dec (arg_for bn_sig nd "training"%string) = false ->
  exists l, substitute_batch_norm consts 4 nd = Ok (Some l) /\ forall xs, run_batch_norm dec cv l xs = torch_batch_norm dec cv nd xs.
Proof.
  intros [Ba Bl Bx Bk Bo Bf Bd Bc Bt [Bw Bb]] Ft.
  assert (first_list nd = None) as Fl by (unfold first_list; rewrite Ba; reflexivity).
  assert (nodes_in (f_args nd) = x :: m :: v :: aff) as Na by (rewrite Ba; apply nodes_in_map).
  assert (hd_error (occ nd) = Some x) as Hx by (unfold occ; rewrite Na; reflexivity).
  assert (flat (f_args nd)) as Fa by (rewrite Ba; apply flat_map_nodes).
  assert (hd_error (nodes_in (f_args nd)) = Some x) as Hx' by (rewrite Na; reflexivity).
  pose proof (wget_pos consts nd 1 m x Fl Bd Bc Hx ltac:(lia) ltac:(unfold occ; rewrite Na; reflexivity)) as Wm.
  pose proof (wget_pos consts nd 2 v x Fl Bd Bc Hx ltac:(lia) ltac:(unfold occ; rewrite Na; reflexivity)) as Wv.
  assert (forall k, (k = "weight" \/ k = "bias")%string -> affine_param nd (const_weights consts nd) k (param_index k bn_sig) = Ok (node_of (arg_for bn_sig nd k))) as Af.
  { intros k Hk. destruct (arg_for bn_sig nd k) as [gv|] eqn:Gv.
    2: { exfalso. destruct Hk as [-> | ->]; [exact (Bw Gv)|exact (Bb Gv)]. }
    apply affine_ok with (x := x); try assumption. { destruct Hk as [-> | ->]; cbn; lia. }
    unfold arg_for in Gv. destruct (nth_error (f_args nd) (param_index k bn_sig)) as [a|] eqn:E; [|right; exact Gv].
    left. injection Gv as <-. rewrite Ba in E. rewrite nth_error_map in E. rewrite Na. destruct (nth_error (x :: m :: v :: aff) (param_index k bn_sig)) as [n|] eqn:E'; [|discriminate]. injection E as <-.
    exists n. split; [reflexivity|]. split; [reflexivity|]. apply Bo. assert (param_index k bn_sig < 3 + length aff) as L. { apply (proj1 (nth_error_Some (x :: m :: v :: aff) _)). rewrite E'. discriminate. }
    destruct Hk as [-> | ->]; cbn [param_index bn_sig String.eqb Ascii.eqb Bool.eqb] in L; cbn in L.
    - destruct aff as [|w aff]; [cbn in L; lia|]. cbn. tauto.
    - destruct aff as [|w [|b aff]]; cbn in L; try lia. cbn. tauto. }
  pose proof (Af "weight"%string (or_introl eq_refl)) as Aw. pose proof (Af "bias"%string (or_intror eq_refl)) as Ab. cbn [param_index bn_sig] in Aw, Ab. cbn in Aw, Ab.
  unfold substitute_batch_norm. rewrite (wget_has _ _ _ Wm), Wm, Wv. cbn [Nat.eqb negb andb bind]. rewrite Aw, Ab. cbn [bind]. eexists. split; [reflexivity|]. intro xs.
  unfold run_batch_norm, torch_batch_norm. rewrite Ft. cbn [nl_mean nl_var nl_eps nl_gamma nl_beta].
  rewrite (eps_keyword nd bn_sig 7 Bt) by (try reflexivity; rewrite Ba; apply nth_error_None; rewrite map_length; cbn; lia).
  assert (arg_for bn_sig nd "running_mean"%string = Some (ANode m)) as -> by (unfold arg_for; rewrite Ba; reflexivity).
  assert (arg_for bn_sig nd "running_var"%string = Some (ANode v)) as -> by (unfold arg_for; rewrite Ba; reflexivity).
  cbn [vector]. apply map_ext. intro f.
  destruct (arg_for bn_sig nd "weight"%string) as [[w|w|w]|], (arg_for bn_sig nd "bias"%string) as [[b|b|b]|]; reflexivity.
Qed.

(* ---- layer norm ---- *)
Local Open Scope R_scope.
Lemma imap_nth {A} (f : nat -> A -> R) l d i : (i < length l)%nat -> nth i (imap f l) 0 = f i (nth i l d).
Proof.
  intro H. unfold imap. rewrite (nth_indep _ _ (f (fst (0%nat, d)) (snd (0%nat, d)))) by (rewrite map_length, combine_length, seq_length, Nat.min_id; exact H).
  rewrite (map_nth (fun p => f (fst p) (snd p))). rewrite combine_nth by apply seq_length. cbn [fst snd]. rewrite seq_nth by exact H. reflexivity.
Qed.
Lemma imap_length {A B} (f : nat -> A -> B) l : length (imap f l) = length l.
Proof. unfold imap. rewrite map_length, combine_length, seq_length, Nat.min_id. reflexivity. Qed.
Lemma skipn_skipn' {A} a b (l : list A) : skipn a (skipn b l) = skipn (b + a) l.
Proof. revert l. induction b as [|b IH]; intro l; [reflexivity|]. destruct l as [|x l]; [rewrite !skipn_nil; reflexivity|]. cbn [skipn Nat.add]. apply IH. Qed.
Lemma pieces_concat (G : list R -> list R) n : (forall l, length (G l) = length l) -> (0 < n)%nat -> forall fuel x, (length x <= fuel)%nat ->
  length (concat (map G (pieces fuel n x))) = length x /\
  forall b i, (i < n)%nat -> (b * n + i < length x)%nat -> nth (b * n + i) (concat (map G (pieces fuel n x))) 0 = nth i (G (firstn n (skipn (b * n) x))) 0.
Proof.
  intros GL Np. induction fuel as [|fuel IH]; intros x L.
  { destruct x; [|cbn in L; lia]. split; [reflexivity|]. intros b i _ H. cbn in H. lia. }
  destruct x as [|a x]; [split; [reflexivity|]; intros b i _ H; cbn in H; lia|]. cbn [pieces map concat]. set (y := a :: x) in *.
  assert (length (skipn n y) <= fuel)%nat as L' by (rewrite skipn_length; unfold y in *; cbn [length] in *; lia).
  destruct (IH _ L') as [I1 I2]. split.
  - rewrite app_length, I1, GL, firstn_length, skipn_length. lia.
  - intros b i Hi H. destruct b as [|b].
    + cbn [Nat.mul Nat.add skipn] in *. rewrite app_nth1; [reflexivity|]. rewrite GL, firstn_length. lia.
    + assert (length (firstn n y) = n) as Ln by (rewrite firstn_length; apply Nat.min_l; nia).
      rewrite app_nth2 by (rewrite GL, Ln; nia). rewrite GL, Ln. replace (S b * n + i - n)%nat with (b * n + i)%nat by nia.
      rewrite I2 by (try exact Hi; rewrite skipn_length; nia). rewrite skipn_skipn'. reflexivity.
Qed.
Lemma nth_firstn_skipn {A} (l : list A) d n a i : (i < n)%nat -> nth i (firstn n (skipn a l)) d = nth (a + i) l d.
Proof.
  intro H. revert l. induction a as [|a IH]; intro l.
  - cbn [skipn Nat.add]. revert i l H. induction n as [|n IHn]; intros i l H; [lia|]. destruct l as [|x l]; [destruct i; reflexivity|]. destruct i as [|i]; [reflexivity|]. cbn. apply IHn. lia.
  - destruct l as [|x l]; [cbn [skipn]; rewrite firstn_nil; destruct i; reflexivity|]. cbn [skipn Nat.add nth]. apply IH.
Qed.

Lemma layer_norm_lem consts nd x shape aff cv dim ishape : layer_norm_call consts nd x shape aff ->
  length (dims_of dim (arg_for ln_sig nd "normalized_shape"%string)) = 1%nat -> (exists outer, ishape = outer ++ dims_of dim (arg_for ln_sig nd "normalized_shape"%string)) ->
  Forall (fun d => 0 < d)%nat ishape ->
  exists l, substitute_layer_norm consts (last ishape 0%nat) nd = Ok l /\ forall t, torch_layer_norm dec cv dim nd t (run_layer_norm dec cv l t).
Proof.
  intros [La Lsh Ll Lx Lk Lo Lf Ld Lc Lt [Lw Lb]] D1 (outer & Eo) Dp. destruct Lsh as [Sn Sl].
  assert (first_list nd = None) as Fl by (unfold first_list; rewrite La; reflexivity).
  assert (nodes_in (f_args nd) = x :: aff) as Na. { rewrite La. change (ANode x :: shape ++ map ANode aff) with ([ANode x] ++ shape ++ map ANode aff). unfold nodes_in in *. rewrite !flat_map_app. rewrite Sn. cbn [app]. cbn [flat_map arg_nodes app]. f_equal. apply nodes_in_map. }
  assert (hd_error (nodes_in (f_args nd)) = Some x) as Hx' by (rewrite Na; reflexivity).
  assert (flat (f_args nd)) as Fa. { rewrite La. intros a [<-|I]; [left; reflexivity|]. apply in_app_or in I. destruct I as [I|I]; [right|exact (flat_map_nodes aff a I)].
    unfold no_nodes. destruct (arg_nodes a) as [|n r] eqn:E; [reflexivity|]. exfalso. assert (In n (nodes_in shape)) as Q; [|rewrite Sn in Q; exact Q]. apply in_flat_map. exists a. split; [exact I|]. rewrite E. left. reflexivity. }
  assert (forall k, (k = "weight" \/ k = "bias")%string -> affine_param nd (const_weights consts nd) k (param_index k ln_sig - 1) = Ok (node_of (arg_for ln_sig nd k))) as Af.
  { intros k Hk. destruct (arg_for ln_sig nd k) as [gv|] eqn:Gv.
    2: { exfalso. destruct Hk as [-> | ->]; [exact (Lw Gv)|exact (Lb Gv)]. }
    apply affine_ok with (x := x); try assumption. { destruct Hk as [-> | ->]; cbn; lia. }
    unfold arg_for in Gv. destruct (nth_error (f_args nd) (param_index k ln_sig)) as [a|] eqn:E; [|right; exact Gv].
    left. injection Gv as <-. rewrite Na. rewrite La in E.
    assert (exists p, param_index k ln_sig = S (S p)) as (p & Ep) by (destruct Hk as [-> | ->]; [exists 0%nat|exists 1%nat]; reflexivity). rewrite Ep in *.
    destruct Sl as [Sl|[-> ->]]; [|destruct p; discriminate E]. destruct shape as [|s0 [|s1 shape]]; try discriminate Sl. cbn [app nth_error] in E. rewrite nth_error_map in E.
    destruct (nth_error aff p) as [n|] eqn:E'; [|discriminate]. injection E as <-.
    exists n. replace (S (S p) - 1)%nat with (S p) by lia. cbn [nth_error]. split; [exact E'|]. split; [reflexivity|]. apply Lo.
    assert (p < length aff)%nat as L by (apply (proj1 (nth_error_Some aff _)); rewrite E'; discriminate).
    destruct Hk as [-> | ->]; injection Ep as <-.
    - destruct aff as [|w aff]; [cbn in L; lia|]. cbn. tauto.
    - destruct aff as [|w [|b aff]]; cbn in L; try lia. cbn. tauto. }
  pose proof (Af "weight"%string (or_introl eq_refl)) as Aw. pose proof (Af "bias"%string (or_intror eq_refl)) as Ab. cbn in Aw, Ab.
  unfold substitute_layer_norm. rewrite Aw, Ab. cbn [bind]. eexists. split; [reflexivity|]. intro t.
  destruct (dims_of dim (arg_for ln_sig nd "normalized_shape"%string)) as [|d [|? ?]] eqn:Ed; try discriminate D1.
  assert (last ishape 0%nat = d) as El by (rewrite Eo; apply last_last). rewrite El.
  assert (0 < d)%nat as Hd. { rewrite Eo in Dp. apply Forall_app in Dp. destruct Dp as [_ Dp]. inversion Dp. assumption. }
  unfold torch_layer_norm, run_layer_norm. cbn [ln_size ln_eps ln_gamma ln_beta]. rewrite Ed. cbn [fold_right]. rewrite Nat.mul_1_r.
  set (G := normalize _ _ _). assert (forall l, length (G l) = length l) as GL by (intro l; apply imap_length).
  destruct (pieces_concat G d GL Hd (length t) t (le_n _)) as [P1 P2]. split; [exact P1|]. intros b i Hi H. rewrite (P2 b i Hi H).
  set (blk := firstn d (skipn (b * d) t)). unfold G, normalize. rewrite (imap_nth _ blk 0) by (unfold blk; rewrite firstn_length, skipn_length; lia).
  assert (nth i blk 0 = nth (b * d + i) t 0) as -> by (apply nth_firstn_skipn, Hi).
  rewrite (eps_keyword nd ln_sig 4 Lt) by (try reflexivity; rewrite La; apply nth_error_None; cbn [length]; rewrite app_length, map_length; destruct Sl as [Sl|[-> ->]]; cbn; lia).
  destruct (arg_for ln_sig nd "weight"%string) as [[w|w|w]|], (arg_for ln_sig nd "bias"%string) as [[bb|bb|bb]|]; reflexivity.
Qed.
End Dec.
