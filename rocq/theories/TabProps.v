(* TabProps.v -- C105: operations of the frameworks and the operator sets of a platform. *)
From Coq Require Import String.
From Verif Require Import Base SDict FilterModel PlatModel LookupModel LookupSpec LookupProps TabModel TabSpec TabProofs.
Local Open Scope list_scope.

Fixpoint distinctb (l : list string) : bool := match l with [] => true | x :: r => negb (existsb (String.eqb x) r) && distinctb r end.
Lemma distinctb_nodup l : distinctb l = true -> NoDup l.
Proof.
  induction l as [|x l IH]; cbn; [constructor|]. intro H. apply andb_true_iff in H. destruct H as [A B]. constructor; [|auto].
  intro I. apply negb_true_iff in A. apply not_true_iff_false in A. apply A. apply existsb_exists. exists x. split; [exact I|apply String.eqb_refl].
Qed.
Lemma tags_distinct f : NoDup (tags (fw_rows f)).
Proof. apply distinctb_nodup. destruct f; reflexivity. Qed.
Lemma names_distinct f : NoDup (map fst (fw_rows f)).
Proof. apply distinctb_nodup. destruct f; reflexivity. Qed.
Lemma names_covered f s : In s standard_names -> In s (map fst (fw_rows f)).
Proof.
  assert (forallb (fun s => existsb (String.eqb s) (map fst (fw_rows f))) standard_names = true) as H by (destruct f; reflexivity).
  intro I. rewrite forallb_forall in H. specialize (H s I). apply existsb_exists in H. destruct H as [x [J E]]. apply String.eqb_eq in E. subst x. exact J.
Qed.

(* Every platform whose operator sets have standard names, each once, can be attached to either framework. *)
Theorem standard_platform_attaches f (t : tpc2) :
  NoDup (map os_name (or_old (t2_opsets t) [])) -> (forall s, In s (or_old (t2_opsets t) []) -> In (os_name s) standard_names) ->
  exists a, attach [] (builtin f) t = Ok a.
Proof. intros N H. apply (attach_ok (fw_attrs f) (fw_rows f) (tags_distinct f) t N). intros s I. apply names_covered, H, I. Qed.
Print Assumptions standard_platform_attaches.

(* The standard names are exactly the names with a row in the tables: a platform with any other set is refused. *)
Theorem standard_names_exact f s : In s standard_names <-> exists ops, In (s, ops) (fw_rows f).
Proof.
  split.
  - intro I. apply (names_covered f) in I. apply in_map_iff in I. destruct I as [[s' ops] [E I]]. cbn in E. subst s'. exists ops. exact I.
  - intros [ops I]. apply (in_map fst) in I. cbn [fst] in I.
    assert (forallb (fun s => existsb (String.eqb s) standard_names) (map fst (fw_rows f)) = true) as H by (destruct f; reflexivity).
    rewrite forallb_forall in H. specialize (H s I). apply existsb_exists in H. destruct H as [x [J E]]. apply String.eqb_eq in E. subst x. exact J.
Qed.
Print Assumptions standard_names_exact.

Lemma attached_names b l s : forall acc ops, foldM (attach_step [] b) l acc = Ok ops -> In s l -> exists o, sget (os_name s) b = Some o.
Proof.
  induction l as [|x l IH]; intros acc ops E I; [destruct I|].
  cbn [foldM] in E. destruct (attach_step [] b acc x) as [acc'|] eqn:S; [|discriminate]. cbn [bind] in E. destruct I as [->|I]; [|exact (IH _ _ E I)].
  unfold attach_step in S. cbn [sget] in S. destruct (sget (os_name s) b) as [o|] eqn:G; [exists o; reflexivity|discriminate].
Qed.
(* Conversely, a platform that attaches has only operator sets that the table of the framework knows. *)
Theorem unknown_set_refused f (t : tpc2) a s :
  attach [] (builtin f) t = Ok a -> In s (or_old (t2_opsets t) []) -> In (os_name s) (map fst (fw_rows f)).
Proof.
  unfold attach. destruct (foldM (attach_step [] (builtin f)) (or_old (t2_opsets t) []) []) as [ops|] eqn:E; [|discriminate]. intros _.
  intro I. destruct (attached_names _ _ _ _ _ E I) as [o G]. destruct (table_get _ _ _ _ G) as [r [J [<- _]]]. apply in_map, J.
Qed.
Print Assumptions unknown_set_refused.

Definition pair_eqb (a b : string * string) : bool := String.eqb (fst a) (fst b) && String.eqb (snd a) (snd b).
Definition names_eqb (a b : option (list (string * string))) : bool := opt_eqb (list_eqb pair_eqb) a b.
Lemma names_eqb_eq a b : names_eqb a b = true -> a = b.
Proof.
  destruct a as [a|], b as [b|]; cbn; try discriminate; [|reflexivity]. intro H. f_equal. revert b H.
  induction a as [|[x y] a IH]; intros [|[z w] b] H; cbn in H; try discriminate; [reflexivity|].
  apply andb_true_iff in H. destruct H as [P H]. unfold pair_eqb in P. cbn in P. apply andb_true_iff in P. destruct P as [P1 P2].
  apply String.eqb_eq in P1. apply String.eqb_eq in P2. subst. f_equal. apply IH, H.
Qed.
Lemma attr_table f set o : listed f set o ->
  option_map (map (fun kv => (fst kv, dd_get (snd kv) (key (fw_rows f) o)))) (sget set (fw_attrs f)) = weight_names f set o.
Proof.
  intros [l [I J]].
  assert (forallb (fun r => forallb (fun o => names_eqb (option_map (map (fun kv => (fst kv, dd_get (snd kv) (key (fw_rows f) o)))) (sget (fst r) (fw_attrs f)))
      (weight_names f (fst r) o)) (snd r)) (fw_rows f) = true) as H by (destruct f; reflexivity).
  rewrite forallb_forall in H. specialize (H _ I). rewrite forallb_forall in H. specialize (H _ J). apply names_eqb_eq, H.
Qed.

(* In an attached platform an entry of the table has exactly the options of the operator set of its row, under the names that
   the framework gives to kernel and bias; it has none if the platform has no such set. *)
Theorem operation_options f (t : tpc2) a set o :
  NoDup (map os_name (or_old (t2_opsets t) [])) -> attach [] (builtin f) t = Ok a -> listed f set o ->
  forall q, has_options a f o q <-> exists q0, set_options t set q0 /\ q = qco_map_keys (weight_names f set o) q0.
Proof.
  intros N A L q. destruct (attached_tables _ _ _ _ N A) as [TF [TL _]]. pose proof (attr_table f set o L) as W.
  destruct L as [l [I J]].
  assert (forall k, kid k = kid (key (fw_rows f) o) -> k = key (fw_rows f) o -> (entry [] (builtin f) t k q <-> exists q0, set_options t set q0 /\ q = qco_map_keys (weight_names f set o) q0)) as G.
  { intros k K Ek. split.
    - intro E. destruct (entry_row (fw_attrs f) (fw_rows f) (tags_distinct f) t (set, l) o k q I J K E) as [s [S1 [S2 S3]]]. cbn [fst] in *.
      exists (or_old (os_qco s) (t2_default t)). split; [exists s; auto|]. rewrite S3, Ek, W. reflexivity.
    - intros [q0 [[s [S1 [S2 S3]]] Q]]. subst k. rewrite Q, S3, <- W. apply (row_entry (fw_attrs f) (fw_rows f) t (set, l) o s (names_distinct f) I J S1 S2). }
  unfold has_options. destruct (key (fw_rows f) o) as [i n|i x] eqn:Ek.
  - rewrite TL. apply G; reflexivity.
  - rewrite TF. split; [|intro H; exists i; apply G; auto].
    intros [j E]. apply (G (K_filter i x)); [reflexivity|reflexivity|].
    assert (j = i) as ->; [|exact E].
    destruct E as [s [y [_ [[X|[_ X]] [L' _]]]]]; [discriminate|]. destruct (table_get _ _ _ _ X) as [r [R1 [_ [R3 _]]]]. rewrite R3 in L'.
    apply in_map_iff in L'. destruct L' as [o' [E' J']].
    destruct o as [p|p c b]; [discriminate|]. destruct o' as [p'|p' c' b']; [discriminate|]. cbn [key] in Ek, E'. injection Ek as <- <-. injection E' as <- E1 _ _ E2.
    assert (p' = p) as ->; [|rewrite E2; reflexivity]. apply (idx_inj (paths (fw_rows f))); [|exact (in_paths _ _ _ I J)|exact E1].
    exact (in_paths _ _ _ R1 J').
Qed.
Print Assumptions operation_options.

(* Every entry of both tables, but for one, is in the row of the operator set of what it computes. *)
Theorem row_of_kind f set o : listed f set o -> o <> Op "tf.nn.avg_pool2d" -> is_kind (computes o) set.
Proof.
  intros [l [I J]] X.
  assert (forallb (fun r => forallb (fun o => String.eqb (tag o) "tf.nn.avg_pool2d" ||
      existsb (fun k => String.eqb (fst k) (fst r) && existsb (String.eqb (computes o)) (snd k)) kinds) (snd r)) (fw_rows f) = true) as H by (destruct f; reflexivity).
  rewrite forallb_forall in H. specialize (H _ I). rewrite forallb_forall in H. specialize (H _ J). cbn [fst] in H. apply orb_true_iff in H. destruct H as [H|H].
  - exfalso. apply String.eqb_eq in H.
    assert (forallb (fun r => forallb (fun o => match o with Flt p _ a => negb (String.eqb (show p a) "tf.nn.avg_pool2d") | _ => true end) (snd r)) (fw_rows f) = true) as Z by (destruct f; reflexivity).
    rewrite forallb_forall in Z. specialize (Z _ I). rewrite forallb_forall in Z. specialize (Z _ J). cbn [fst snd] in *.
    destruct o as [p|p c b]; cbn [tag] in H; [subst p; apply X; reflexivity|]. rewrite H, String.eqb_refl in Z. discriminate.
  - apply existsb_exists in H. destruct H as [[k ns] [K1 K2]]. cbn [fst snd] in K2. apply andb_true_iff in K2. destruct K2 as [K2 K3].
    apply String.eqb_eq in K2. subst k. apply existsb_exists in K3. destruct K3 as [n [K3 K4]]. apply String.eqb_eq in K4. subst n. exists ns. auto.
Qed.
Print Assumptions row_of_kind.
(* the operator sets of the list have no operation in common, so that the set of an operation is unique *)
Theorem kind_unique name s1 s2 : is_kind name s1 -> is_kind name s2 -> s1 = s2.
Proof.
  intros [l1 [I1 J1]] [l2 [I2 J2]].
  assert (NoDup (flat_map snd kinds)) as N by (apply distinctb_nodup; reflexivity).
  pose proof (nodup_flat snd kinds N _ _ name I1 I2 J1 J2) as E. congruence.
Qed.
Print Assumptions kind_unique.

(* FINDING (attach2keras.py L82): tf.nn.avg_pool2d is listed with the maximum pooling.  On every platform it gets the options of
   the operator set MaxPool (none if there is none), and never those of AvgPool, which the layer AveragePooling2D gets. *)
Theorem average_pooling_refuted (t : tpc2) a :
  NoDup (map os_name (or_old (t2_opsets t) [])) -> attach [] (builtin Keras) t = Ok a ->
  is_kind (computes (Op "tf.nn.avg_pool2d")) "AvgPool" /\
  (forall q, has_options a Keras (Op "tf.nn.avg_pool2d") q <-> exists q0, set_options t "MaxPool" q0 /\ q = qco_map_keys None q0) /\
  (forall q, has_options a Keras (Op "keras.layers.AveragePooling2D") q <-> exists q0, set_options t "AvgPool" q0 /\ q = qco_map_keys None q0).
Proof.
  intros N A. split; [exists ["AveragePooling2D"; "AvgPool2d"; "avg_pool2d"]%string; split; [apply (nth_error_In _ 42); reflexivity|cbn; auto]|].
  split; intro q.
  - rewrite (operation_options Keras t a "MaxPool" (Op "tf.nn.avg_pool2d") N A).
    + reflexivity.
    + eexists. split; [apply (nth_error_In _ 36); reflexivity|cbn; auto].
  - rewrite (operation_options Keras t a "AvgPool" (Op "keras.layers.AveragePooling2D") N A).
    + reflexivity.
    + eexists. split; [apply (nth_error_In _ 37); reflexivity|cbn; auto].
Qed.
Print Assumptions average_pooling_refuted.

(* FINDING (attach2keras.py L82): the function tf.nn.max_pool2d is in no row of the Keras table, so that on every platform it
   falls back to the default options, unlike the layer MaxPooling2D and unlike max_pool2d in PyTorch. *)
Theorem max_pooling_refuted :
  (forall set, ~ listed Keras set (Op "tf.nn.max_pool2d")) /\ listed Keras "MaxPool" (Op "keras.layers.MaxPooling2D") /\
  listed Pytorch "MaxPool" (Op "torch.nn.functional.max_pool2d").
Proof.
  split; [|split].
  - intros set [l [I J]].
    assert (forallb (fun r => forallb (fun o => match o with Op p => negb (String.eqb p "tf.nn.max_pool2d") | _ => true end) (snd r)) keras_rows = true) as H by reflexivity.
    rewrite forallb_forall in H. specialize (H _ I). rewrite forallb_forall in H. specialize (H _ J). discriminate.
  - eexists. split; [apply (nth_error_In _ 36); reflexivity|cbn; auto].
  - eexists. split; [apply (nth_error_In _ 37); reflexivity|cbn; auto].
Qed.
Print Assumptions max_pooling_refuted.

(* FINDING (attach2pytorch.py L56-57): the operator set HardTanh means different functions in the two frameworks: in Keras the hard
   tanh itself, in PyTorch only Hardtanh(min_val=0), so that hard tanh with its default range is in no operator set. *)
Theorem hard_tanh_refuted x : listed Pytorch "HardTanh" x ->
  exists c, (x = Flt "torch.nn.Hardtanh" [] [("min_val"%string, c)] \/ x = Flt "torch.nn.functional.hardtanh" [] [("min_val"%string, c)]) /\ c = V_num 0.
Proof.
  intros [l [I J]].
  assert (l = [Flt "torch.nn.Hardtanh" [] [("min_val"%string, V_num 0)]; Flt "torch.nn.functional.hardtanh" [] [("min_val"%string, V_num 0)]]) as ->.
  { assert (("HardTanh"%string, [Flt "torch.nn.Hardtanh" [] [("min_val"%string, V_num 0)]; Flt "torch.nn.functional.hardtanh" [] [("min_val"%string, V_num 0)]]) = ("HardTanh"%string, l)) as E; [|congruence].
    assert (forall (t : rows) a b, NoDup (map fst t) -> In a t -> In b t -> fst a = fst b -> a = b) as U.
    { clear. induction t as [|y t IH]; intros a b N Ia Ib E; [destruct Ia|]. cbn in N. inversion N as [|? ? N1 N2]; subst.
      destruct Ia as [->|Ia], Ib as [->|Ib]; [reflexivity| | |exact (IH a b N2 Ia Ib E)]; exfalso; apply N1; [rewrite E|rewrite <- E]; apply in_map; assumption. }
    apply (U pytorch_rows _ _ (names_distinct Pytorch)); [apply (nth_error_In _ 13); reflexivity|exact I|reflexivity]. }
  exists (V_num 0). split; [|reflexivity]. destruct J as [<-|[<-|[]]]; auto.
Qed.
Print Assumptions hard_tanh_refuted.

(* the hypotheses are met: a platform with three sets *)
Example three_sets q : exists a, attach [] (builtin Pytorch) (Tpc2 q (Some [OpSet "Conv" None; OpSet "AvgPool" (Some q); OpSet "SSDPostProcess" None]) None None None None false None false false) = Ok a.
Proof. apply standard_platform_attaches; [apply distinctb_nodup; reflexivity|]. intros s [<-|[<-|[<-|[]]]]; cbn [os_name]; [apply (nth_error_In _ 0)|apply (nth_error_In _ 42)|apply (nth_error_In _ 56)]; reflexivity. Qed.
Example depthwise_name : listed Keras "DepthwiseConv2D" (Op "keras.layers.DepthwiseConv2D") /\
  weight_names Keras "DepthwiseConv2D" (Op "keras.layers.DepthwiseConv2D") = Some [("kernel_attr", "depthwise_kernel"); ("bias_attr", "bias")]%string.
Proof. split; [eexists; split; [apply (nth_error_In _ 1); reflexivity|cbn; auto]|reflexivity]. Qed.
