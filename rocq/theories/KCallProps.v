(* KCallProps.v -- C81: a call of a function or a layer, read from a Keras model and made again by the model builder,
   gives every parameter the value it had. *)
From Coq Require Import Permutation Sorted Lia.
From Verif Require Import Base GraphModel HessianModel HessianProofs KCallModel KCallSpec KCallProofs KCallFnProofs.
Local Open Scope nat_scope.
Open Scope res_scope.

Lemma not_operand_list list_fn args : ~ operand_list list_fn args -> inputs_as_list list_fn args = false.
Proof.
  intro H. unfold inputs_as_list. destruct list_fn; [|reflexivity]. destruct args as [|[| | | |[|] l|] r]; try reflexivity. destruct H. split; [reflexivity|eauto].
Qed.
(* A function called with constants (arrays, lists of numbers that do not start with an integer), anywhere among the
   arguments and keywords: every parameter gets its value again, provided no parameter in front of a constant keyword
   is left out and the tensors given by keyword come in the order of the parameters when sorted by name. *)
Theorem call_with_constants_rebuilt : forall ps list_fn args kw, NoDup ps -> valid_call ps args kw ->
  (forall v, In v args \/ In v (map snd kw) -> simple v) -> ~ operand_list list_fn args ->
  (exists v, (In v args \/ In v (map snd kw)) /\ constant v) -> keras_inputs args kw <> [] ->
  no_gap ps args kw -> names_ordered ps kw ->
  exists n args' kw', read_function ps list_fn args kw = Ok n /\ build_function n (keras_inputs args kw) = Ok (args', kw') /\
    same_call ps args kw args' kw'.
Proof.
  intros ps list_fn args kw ND VC SI NL EC NT NG NO. apply not_operand_list in NL. apply with_constants; try assumption.
  - intros v I. apply SI. left. exact I.
  - intros k v I. apply SI. right. apply in_map_iff. exists (k, v). split; [reflexivity|exact I].
Qed.
Print Assumptions call_with_constants_rebuilt.

(* A function called without constants: the same call is made again when the tensors are its first arguments. *)
Theorem call_without_constants_rebuilt : forall ps list_fn args kw, valid_call ps args kw ->
  (forall v, In v args \/ In v (map snd kw) -> simple v /\ ~ constant v) -> ~ operand_list list_fn args ->
  keras_inputs args kw <> [] -> tensors_first args kw ->
  exists n, read_function ps list_fn args kw = Ok n /\ build_function n (keras_inputs args kw) = Ok (args, kw).
Proof.
  intros ps list_fn args kw VC SI NL NT [(ts & others & EA & NO) NK]. apply not_operand_list in NL.
  assert (forall v, In v args -> is_const v = Ok false) as CA.
  { intros v I. destruct (SI v (or_introl I)) as [S1 C]. rewrite (simple_const v S1). f_equal. destruct (isc v) eqn:E; [exfalso; apply C, isc_constant, E|reflexivity]. }
  assert (forall kv, In kv kw -> is_const (snd kv) = Ok false) as CK.
  { intros [k v] I. assert (In v (map snd kw)) as J by (apply in_map_iff; exists (k, v); split; [reflexivity|exact I]). destruct (SI v (or_intror J)) as [S1 C]. cbn. rewrite (simple_const v S1). f_equal. destruct (isc v) eqn:E; [exfalso; apply C, isc_constant, E|reflexivity]. }
  assert (forall A (l : list A), existsb id (map (fun _ => false) l) = false) as EX by (intros A l; induction l; [reflexivity|assumption]).
  assert (keras_inputs args kw = ts) as EI.
  { unfold keras_inputs. replace (flat_map (fun kv => tensors_in (snd kv)) (fold_right insert_key [] kw)) with (@nil nat).
    - rewrite app_nil_r, EA, flat_map_app. replace (flat_map tensors_in others) with (@nil nat); [rewrite app_nil_r; clear; induction ts; [reflexivity|cbn; f_equal; assumption]|].
      symmetry. assert (forall v, In v others -> tensors_in v = []) as Q. { intros v I. rewrite tensors_simple by (apply SI; left; rewrite EA; apply in_or_app; right; exact I). specialize (NO v I). destruct v; try reflexivity. exfalso. apply NO. exists t. reflexivity. }
      clear -Q. induction others as [|v l IH]; [reflexivity|]. cbn. rewrite Q by (left; reflexivity). apply IH. intros; apply Q; right; assumption.
    - symmetry. assert (forall kv, In kv (fold_right insert_key [] kw) -> tensors_in (snd kv) = []) as Q.
      { intros [k v] I. apply (Permutation_in _ (sort_key_perm kw)) in I. cbn. rewrite tensors_simple by (apply SI; right; apply in_map_iff; exists (k, v); split; [reflexivity|exact I]). specialize (NK k v I). destruct v; try reflexivity. exfalso. apply NK. exists t. reflexivity. }
      clear -Q. induction (fold_right insert_key [] kw) as [|kv l IH]; [reflexivity|]. cbn. rewrite Q by (left; reflexivity). apply IH. intros; apply Q; right; assumption. }
  unfold read_function. rewrite NL. unfold has_const. rewrite (kc_mapM is_const (fun _ => false)) by exact CA. cbn [bind]. rewrite (kc_mapM (fun kv => is_const (snd kv)) (fun _ => false)) by exact CK. cbn [bind]. rewrite !EX. cbn [orb].
  assert (foldM (extract_step false []) (enumerate_from 0 args) ([], kw) = Ok ([], kw)) as ->.
  { clear -CA. generalize 0. induction args as [|v l IH]; intro j; [reflexivity|]. cbn [enumerate_from foldM]. unfold extract_step at 1. cbn [snd]. rewrite CA by (left; reflexivity). cbn [bind negb nonempty andb]. apply IH. intros; apply CA; right; assumption. }
  cbn [bind fst snd]. unfold kept_args. rewrite (kc_mapM _ (fun p => negb (is_tensor (snd p)))) by (intros [i v] _; cbn; destruct (is_tensor v); reflexivity). cbn [bind].
  assert (map snd (filter fst (combine (map (fun p : nat * val => negb (is_tensor (snd p))) (enumerate_from 0 args)) args)) = others) as ->.
  { rewrite EA. generalize 0. clear -NO. induction ts as [|t ts IH]; intro j; cbn [map app enumerate_from combine filter snd fst is_tensor negb]; [|apply IH]. revert j. induction others as [|v l IH]; intro j; [reflexivity|].
    cbn [enumerate_from map combine filter fst snd]. destruct (is_tensor v) eqn:T; [exfalso; apply (NO v (or_introl eq_refl)), is_tensor_spec, T|]. cbn [negb]. cbn [map snd]. f_equal. apply IH. intros; apply NO; right; assumption. }
  unfold extract_kw. match goal with |- context[foldM ?f kw []] => assert (foldM f kw [] = Ok []) as -> end.
  { clear -CK. induction kw as [|kv l IH]; [reflexivity|]. cbn [foldM]. rewrite CK by (left; reflexivity). cbn [bind]. apply IH. intros; apply CK; right; assumption. }
  cbn [bind fst snd]. match goal with |- context[filter ?f kw] => assert (filter f kw = kw) as -> end.
  { assert (forall kv, In kv kw -> is_tensor (snd kv) = false) as Q by (intros [k v] I; destruct (is_tensor v) eqn:T; [exfalso; apply (NK k v I), is_tensor_spec, T|exact T]).
    clear -Q. induction kw as [|kv l IH]; [reflexivity|]. cbn [filter]. rewrite Q by (left; reflexivity). replace (match position (fst kv) ps with Some i => has_key i [] | None => false end) with false by (destruct (position (fst kv) ps); reflexivity). cbn [orb negb]. f_equal. apply IH. intros; apply Q; right; assumption. }
  eexists. split; [reflexivity|]. unfold build_function. cbn [f_aslist f_weights f_allocs f_kw f_args enumerate_from foldM bind fst snd]. rewrite EI in *. destruct ts as [|t r]; [contradiction|]. cbn [nonempty negb]. rewrite <- EA. reflexivity.
Qed.
Print Assumptions call_without_constants_rebuilt.

(* ---- lists ---- *)
Definition item (v : val) : Prop := tensor v \/ (constant v /\ simple v).
Lemma list_weights l j (f : list (nat * val) -> nat * val -> result (list (nat * val))) ws :
  (forall v, In v l -> item v) -> (forall ws i v, constant v -> simple v -> f ws (i, v) = Ok (dict_set i (arr v) ws)) ->
  (forall ws i v, tensor v -> f ws (i, v) = Ok ws) -> (forall k, In k (map fst ws) -> k < j) ->
  foldM f (enumerate_from j l) ws = Ok (ws ++ flat_map (fun p => if isc (snd p) then [(fst p, arr (snd p))] else []) (enumerate_from j l)).
Proof.
  intros I F1 F2. revert j ws. induction l as [|v l IH]; intros j ws L; [cbn; rewrite app_nil_r; reflexivity|]. cbn [enumerate_from foldM flat_map fst snd].
  assert (forall v, In v l -> item v) as I' by (intros; apply I; right; assumption).
  destruct (I v (or_introl eq_refl)) as [T|[C S1]].
  - rewrite F2 by exact T. cbn [bind]. rewrite IH by (try assumption; intros k K; specialize (L k K); lia). destruct T as [t ->]. reflexivity.
  - rewrite F1 by assumption. cbn [bind]. assert (dict_set j (arr v) ws = ws ++ [(j, arr v)]) as ->.
    { clear -L. induction ws as [|[k w] ws IH]; [reflexivity|]. cbn. destruct (Nat.eqb_spec j k) as [->|_]; [exfalso; assert (k < k) by (apply L; left; reflexivity); lia|]. f_equal. apply IH. intros; apply L; right; assumption. }
    rewrite IH; [|exact I'|]. { apply isc_constant in C. rewrite C, <- app_assoc. reflexivity. }
    intros k K. rewrite map_app, in_app_iff in K. destruct K as [K|[<-|[]]]; [specialize (L k K); lia|cbn; lia].
Qed.
Lemma insert_at_length {A} (pre : list A) x l : insert_at (length pre) x (pre ++ l) = pre ++ x :: l.
Proof. induction pre as [|y pre IH]; [destruct l; reflexivity|]. cbn [length insert_at app]. f_equal. exact IH. Qed.
Definition restored (v : val) : val := if isc v then arr v else v.
Lemma weights_sorted l : forall j, StronglySorted (fun a b : nat * val => fst a < fst b) (flat_map (fun p => if isc (snd p) then [(fst p, arr (snd p))] else []) (enumerate_from j l)) /\
  forall p, In p (flat_map (fun p => if isc (snd p) then [(fst p, arr (snd p))] else []) (enumerate_from j l)) -> j <= fst p.
Proof.
  induction l as [|v l IH]; intro j; [split; [constructor|intros ? []]|]. cbn [enumerate_from flat_map fst snd]. destruct (IH (S j)) as [A B]. destruct (isc v); cbn [app].
  - split; [constructor; [exact A|]|]; [apply Forall_forall; intros p I; apply B in I; cbn; lia|]. intros p [<-|I]; [cbn; lia|]. apply B in I. lia.
  - split; [exact A|]. intros p I. apply B in I. lia.
Qed.
Lemma list_restored l ts : (forall v, In v l -> item v) -> ts = flat_map tensors_in l ->
  insert_weights (flat_map (fun p => if isc (snd p) then [(fst p, arr (snd p))] else []) (enumerate_from 0 l)) (map VT ts) = Ok (map restored l).
Proof.
  intros I ->. unfold insert_weights. rewrite sort_key_id by apply weights_sorted.
  assert (forall r pre, (forall v, In v r -> item v) -> foldM (fun ts (p : nat * val) => if Nat.ltb (length ts) (fst p) then Err E_critical else Ok (insert_at (fst p) (snd p) ts))
    (flat_map (fun p => if isc (snd p) then [(fst p, arr (snd p))] else []) (enumerate_from (length pre) r)) (pre ++ map VT (flat_map tensors_in r)) = Ok (pre ++ map restored r)) as K; [|apply (K l [] I)].
  clear l I. induction r as [|v r IH]; intros pre H; [cbn; reflexivity|]. cbn [enumerate_from flat_map map snd fst]. assert (forall v, In v r -> item v) as H' by (intros; apply H; right; assumption).
  unfold restored at 1. destruct (H v (or_introl eq_refl)) as [[t ->]|[C S1]].
  - cbn [isc is_const tensors_in app map]. specialize (IH (pre ++ [VT t]) H'). rewrite app_length, <- !app_assoc in IH. cbn [length app] in IH. rewrite Nat.add_1_r in IH. exact IH.
  - apply isc_constant in C. rewrite C. rewrite (tensors_simple v S1). replace (match v with VT t => [t] | _ => [] end) with (@nil nat) by (destruct v; try reflexivity; discriminate). cbn [app foldM fst snd].
    replace (Nat.ltb _ _) with false by (symmetry; apply Nat.ltb_ge; rewrite app_length; lia). cbn [bind]. rewrite insert_at_length.
    specialize (IH (pre ++ [arr v]) H'). rewrite app_length, <- !app_assoc in IH. cbn [length app] in IH. rewrite Nat.add_1_r in IH. exact IH.
Qed.
Lemma plain_restored l : map plain (map restored l) = map plain l.
Proof. rewrite map_map. apply map_ext. intro v. unfold restored. destruct (isc v); [apply plain_arr|reflexivity]. Qed.

(* concat, stack or add_n of a list of tensors and constants: the list is put together again and the other arguments are
   kept, provided they contain neither tensors nor constant keywords, and no keyword stands, among the parameters, where
   the list has a constant. *)
Theorem list_call_rebuilt : forall ps l rest kw, valid_call ps (VSeq true l :: rest) kw -> (forall v, In v l -> item v) -> (exists t, In (VT t) l) ->
  (forall v, In v rest -> tensors_in v = []) -> (forall k v, In (k, v) kw -> simple v /\ ~ constant v /\ ~ tensor v) ->
  (forall k i v, In k (map fst kw) -> position k ps = Some i -> nth_error l i = Some v -> ~ constant v) ->
  exists n args' kw', read_function ps true (VSeq true l :: rest) kw = Ok n /\
    build_function n (keras_inputs (VSeq true l :: rest) kw) = Ok (args', kw') /\
    same_call ps (VSeq true l :: rest) kw args' kw' /\ tl args' = rest /\ kw' = kw.
Proof.
  intros ps l rest kw VC I (t0 & T0) NR NK NP. unfold read_function. cbn [inputs_as_list andb]. unfold has_const. cbn [hd_error elems].
  rewrite (kc_mapM is_const isc). 2: { intros v J. destruct (I v J) as [[t ->]|[_ S1]]; [reflexivity|apply simple_const, S1]. }
  cbn [bind]. replace (if existsb id (map isc l) then arguments_alloc ps (VSeq true l :: rest) kw true else []) with (@nil nat) by (destruct (existsb id (map isc l)); reflexivity).
  set (ws := flat_map (fun p => if isc (snd p) then [(fst p, arr (snd p))] else []) (enumerate_from 0 l)).
  assert (foldM (extract_step true []) (enumerate_from 0 l) ([], kw) = Ok (ws, kw)) as ->.
  { assert (foldM (fun w p => let! r := extract_step true [] (w, kw) p in Ok (fst r)) (enumerate_from 0 l) [] = Ok ws) as E.
    { rewrite (list_weights l 0); [reflexivity|exact I| | |intros ? []].
      - intros w i v C S1. unfold extract_step. cbn [fst snd]. rewrite C. cbn [bind]. rewrite (const_array v S1) by (apply isc_constant, C). reflexivity.
      - intros w i v [t ->]. reflexivity. }
    revert E. generalize ws (@nil (nat * val)) (enumerate_from 0 l). clear. intros ws w e. revert w. induction e as [|p e IH]; intros w E; [cbn in *; congruence|]. cbn [foldM] in *.
    unfold extract_step in E at 1. unfold extract_step at 1. cbn [fst snd negb andb] in *. destruct (is_const (snd p)) as [[|]|x]; cbn [bind] in *; try discriminate.
    - destruct (to_numpy (snd p)) as [w'|x]; cbn [bind fst] in *; [apply IH, E|discriminate].
    - apply IH, E. }
  cbn [bind fst snd]. unfold kept_args. cbn [tl bind]. unfold extract_kw.
  match goal with |- context[foldM ?f kw ws] => assert (foldM f kw ws = Ok ws) as -> end.
  { assert (forall kv, In kv kw -> is_const (snd kv) = Ok false) as Q.
    { intros [k v] J. destruct (NK k v J) as (S1 & C & _). cbn. rewrite (simple_const v S1). f_equal. destruct (isc v) eqn:E; [exfalso; apply C, isc_constant, E|reflexivity]. }
    clear -Q. induction kw as [|kv r IH]; [reflexivity|]. cbn [foldM]. rewrite Q by (left; reflexivity). cbn [bind]. apply IH. intros; apply Q; right; assumption. }
  cbn [bind fst snd].
  assert (forall i, has_key i ws = true -> exists v, nth_error l i = Some v /\ constant v) as HW.
  { intros i H. apply has_key_in in H. apply in_map_iff in H. destruct H as ([j w] & E & H). cbn in E. subst j. unfold ws in H. apply in_flat_map in H. destruct H as ([j v] & J & H). cbn in H. destruct (isc v) eqn:C; [|destruct H]. destruct H as [E|[]]. injection E as -> _.
    apply enum_in in J. exists v. split; [exact J|apply isc_constant, C]. }
  match goal with |- context[filter ?f kw] => assert (filter f kw = kw) as -> end.
  { assert (forall kv, In kv kw -> is_tensor (snd kv) = false /\ match position (fst kv) ps with Some i => has_key i ws | None => false end = false) as Q.
    { intros [k v] J. cbn. destruct (NK k v J) as (_ & _ & T). split; [destruct (is_tensor v) eqn:E; [exfalso; apply T, is_tensor_spec, E|reflexivity]|]. destruct (position k ps) as [i|] eqn:P; [|reflexivity]. destruct (has_key i ws) eqn:H; [|reflexivity]. exfalso.
      destruct (HW i H) as (w & W & C). apply (NP k i w); [apply in_map_iff; exists (k, v); split; [reflexivity|exact J]|exact P|exact W|exact C]. }
    clear -Q. induction kw as [|kv r IH]; [reflexivity|]. cbn [filter]. destruct (Q kv (or_introl eq_refl)) as [-> ->]. cbn [orb negb]. f_equal. apply IH. intros; apply Q; right; assumption. }
  assert (keras_inputs (VSeq true l :: rest) kw = flat_map tensors_in l) as EI.
  { unfold keras_inputs. cbn [flat_map tensors_in]. replace (flat_map tensors_in rest) with (@nil nat).
    2: { clear -NR. induction rest as [|v r IH]; [reflexivity|]. cbn. rewrite NR by (left; reflexivity). apply IH. intros; apply NR; right; assumption. }
    replace (flat_map (fun kv => tensors_in (snd kv)) (fold_right insert_key [] kw)) with (@nil nat); [rewrite !app_nil_r; reflexivity|].
    assert (forall kv, In kv (fold_right insert_key [] kw) -> tensors_in (snd kv) = []) as Q.
    { intros [k v] J. apply (Permutation_in _ (sort_key_perm kw)) in J. destruct (NK k v J) as (S1 & _ & T). cbn. rewrite (tensors_simple v S1). destruct v; try reflexivity. exfalso. apply T. exists t. reflexivity. }
    clear -Q. induction (fold_right insert_key [] kw) as [|kv r IH]; [reflexivity|]. cbn. rewrite <- IH by (intros; apply Q; right; assumption). rewrite Q by (left; reflexivity). reflexivity. }
  exists (FNode ws rest kw [] true), (VSeq true (map restored l) :: rest), kw. split; [reflexivity|]. split; [|split; [|split; reflexivity]].
  - unfold build_function. rewrite EI. cbn [f_aslist f_weights f_args f_kw]. assert (nonempty (flat_map tensors_in l) = true) as ->.
    { assert (In t0 (flat_map tensors_in l)) as J by (apply in_flat_map; exists (VT t0); split; [exact T0|left; reflexivity]). destruct (flat_map tensors_in l); [destruct J|reflexivity]. }
    cbn [negb]. unfold ws. rewrite (list_restored l _ I eq_refl). reflexivity.
  - split; [exact VC|]. intro k. unfold gives. destruct (position k ps) as [[|i]|]; [|reflexivity|reflexivity]. cbn. rewrite plain_restored. reflexivity.
Qed.
Print Assumptions list_call_rebuilt.

(* A layer called on one tensor gets that tensor again; a layer called on a list or tuple of tensors and constants gets
   the list again, if the list has two elements or the layer is a merge layer. *)
Theorem layer_call_rebuilt :
  (forall merge t, exists n, read_layer merge [VT t] = Ok n /\ build_layer n (keras_inputs [VT t] []) = Ok (VT t)) /\
  forall merge b l, (forall v, In v l -> item v) -> (exists t, In (VT t) l) -> merge = true \/ 2 <= length l ->
    exists n l', read_layer merge [VSeq b l] = Ok n /\ build_layer n (keras_inputs [VSeq b l] []) = Ok (VSeq true l') /\ map plain l' = map plain l.
Proof.
  split.
  - intros merge t. exists ([], merge && false). split; [reflexivity|]. destruct merge; reflexivity.
  - intros merge b l I (t0 & T0) H. unfold read_layer. cbn [hd_error elems]. rewrite (list_weights l 0); [|exact I| | |intros ? []].
    + cbn [bind app]. eexists _, (map restored l). split; [reflexivity|]. split; [|apply plain_restored]. unfold build_layer, keras_inputs. cbn [fold_right flat_map tensors_in fst snd]. rewrite !app_nil_r.
      assert (nonempty (flat_map tensors_in l) = true) as ->. { assert (In t0 (flat_map tensors_in l)) as J by (apply in_flat_map; exists (VT t0); split; [exact T0|left; reflexivity]). destruct (flat_map tensors_in l); [destruct J|reflexivity]. }
      cbn [negb]. rewrite (list_restored l _ I eq_refl). cbn [bind]. destruct l as [|x [|y l]]; cbn [map]; [reflexivity| |reflexivity]. destruct H as [->|H]; [reflexivity|cbn in H; lia].
    + intros ws i v C S1. cbn [snd fst]. rewrite C. cbn [bind]. rewrite (const_array v S1) by (apply isc_constant, C). reflexivity.
    + intros ws i v [t ->]. reflexivity.
Qed.
Print Assumptions layer_call_rebuilt.
