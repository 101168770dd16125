(* MatMulProofs.v -- proofs about the decomposition of matmul. *)
From Coq Require Import Lia.
From Verif Require Import Base GraphModel MatMulModel MatMulSpec.
From Coq Require Import Reals Lra.
Local Open Scope nat_scope.

(* ---- row-major order ---- *)
Lemma prod_app a b : prod (a ++ b) = prod a * prod b.
Proof. unfold prod. induction a as [|x a IH]; cbn [app fold_right]; [lia|]. rewrite IH. lia. Qed.
Lemma prod_pos s : Forall (fun d => 0 < d) s -> 0 < prod s.
Proof. induction 1 as [|d s H _ IH]; cbn; [lia|]. unfold prod in IH. nia. Qed.
Lemma ravel_bound s idx : valid_index s idx -> ravel s idx < prod s.
Proof.
  induction 1 as [|d i s idx H _ IH]; cbn; [lia|]. fold (prod s). nia.
Qed.
Lemma unravel_ravel s idx : valid_index s idx -> unravel s (ravel s idx) = idx.
Proof.
  induction 1 as [|d i s idx H V IH]; [reflexivity|]. pose proof (ravel_bound _ _ V) as B. cbn [unravel ravel]. f_equal.
  - rewrite Nat.add_comm, Nat.div_add by lia. rewrite Nat.div_small by exact B. reflexivity.
  - rewrite Nat.add_comm, Nat.mod_add by lia. rewrite Nat.mod_small by exact B. exact IH.
Qed.
Lemma ravel_app s1 i1 s2 i2 : length s1 = length i1 -> ravel (s1 ++ s2) (i1 ++ i2) = ravel s1 i1 * prod s2 + ravel s2 i2.
Proof.
  revert i1. induction s1 as [|d s1 IH]; intros [|i i1] L; try discriminate; [reflexivity|]. cbn [app ravel]. injection L as L. rewrite (IH i1 L), prod_app. nia.
Qed.
(* the middle dimensions seen as one *)
Lemma ravel_group B E m n b mid i j : length E = length mid ->
  ravel (B :: E ++ [m; n]) (b :: mid ++ [i; j]) = ravel [B; prod E; m; n] [b; ravel E mid; i; j].
Proof.
  intro L. cbn [ravel]. rewrite ravel_app by exact L. rewrite prod_app. cbn [ravel prod fold_right]. unfold prod. cbn [fold_right]. lia.
Qed.
Lemma valid_app s1 i1 s2 i2 : valid_index s1 i1 -> valid_index s2 i2 -> valid_index (s1 ++ s2) (i1 ++ i2).
Proof. apply Forall2_app. Qed.
Lemma valid_length s idx : valid_index s idx -> length s = length idx.
Proof. induction 1; cbn; congruence. Qed.

Lemma clip_own s idx : clip s idx = own_index s idx.
Proof. unfold clip. revert idx. induction s as [|d s IH]; intros [|i idx]; try reflexivity. cbn [combine map fst snd own_index own]. unfold own. f_equal. apply IH. Qed.
Lemma own_valid d i : i < d -> own d i = i.
Proof. intro H. unfold own. destruct (Nat.eqb_spec d 1); [lia|reflexivity]. Qed.
Lemma own_index_valid s idx : valid_index s idx -> own_index s idx = idx.
Proof. induction 1 as [|d i s idx H _ IH]; [reflexivity|]. cbn [own_index]. rewrite own_valid by exact H. f_equal. exact IH. Qed.
Lemma own_index_app s1 i1 s2 i2 : length s1 = length i1 -> own_index (s1 ++ s2) (i1 ++ i2) = own_index s1 i1 ++ own_index s2 i2.
Proof. revert i1. induction s1 as [|d s1 IH]; intros [|i i1] L; try discriminate; [reflexivity|]. cbn [app own_index]. injection L as L. rewrite (IH i1 L). reflexivity. Qed.

(* ---- each operand before it is split ---- *)
Definition prepared (ea rs : bool) (E : list nat) (m p : nat) (a : tensor) : tensor :=
  let a := if ea then expand a (None :: map Some E ++ map Some [m; p]) else a in
  if rs then reshape a (None :: Some (prod E) :: map Some [m; p]) else a.
Lemma expand_shape E m p B D : length D = length E -> map (fun q : option nat * nat => match fst q with Some d => d | None => snd q end) (combine (None :: map Some E ++ map Some [m; p]) (B :: D ++ [m; p])) = B :: E ++ [m; p].
Proof.
  intro L. cbn [combine map fst snd]. f_equal. revert D L. induction E as [|e E IH]; intros [|d D] L; try discriminate; [reflexivity|]. cbn [map app combine fst snd]. f_equal. apply IH. injection L as L. exact L.
Qed.
Lemma resolve_front B x rest : 0 < prod rest -> x = B * prod rest -> resolve x (None :: map Some rest) = B :: rest.
Proof.
  intros P E. unfold resolve. cbn [map fold_right]. rewrite map_map.
  replace (prod (1 :: map (fun x => x) rest)) with (prod rest) by (rewrite map_id; unfold prod; cbn; lia).
  rewrite E, Nat.div_mul by lia. f_equal. rewrite map_map, map_id. reflexivity.
Qed.

Lemma prepared_ok ea rs E m p B D a : sh a = B :: D ++ [m; p] -> length D = length E -> (ea = false -> D = E) -> (rs = false -> length E = 1) ->
  Forall (fun d => 0 < d) (m :: p :: E) ->
  sh (prepared ea rs E m p a) = [B; prod E; m; p] /\
  forall b mid i l, b < B -> valid_index E mid -> i < m -> l < p -> at_ (prepared ea rs E m p a) [b; ravel E mid; i; l] = at_ a (b :: own_index D mid ++ [i; l]).
Proof.
  intros Sa L He Hr F. inversion_clear F as [|? ? Pm F']. inversion_clear F' as [|? ? Pp PE]. pose proof (prod_pos E PE) as PP.
  set (t := if ea then expand a (None :: map Some E ++ map Some [m; p]) else a).
  assert (sh t = B :: E ++ [m; p]) as St. { unfold t. destruct ea; [|rewrite Sa, (He eq_refl); reflexivity]. cbn [expand sh]. rewrite Sa. apply expand_shape, L. }
  assert (forall b mid i l, b < B -> valid_index E mid -> i < m -> l < p -> at_ t (b :: mid ++ [i; l]) = at_ a (b :: own_index D mid ++ [i; l])) as At.
  { intros b mid i l Hb Hm Hi Hl. unfold t. pose proof (valid_length _ _ Hm) as Lm. destruct ea.
    - cbn [expand at_]. rewrite Sa, clip_own. cbn [own_index]. rewrite own_valid by exact Hb. rewrite own_index_app by congruence. cbn [own_index]. rewrite !own_valid by assumption. reflexivity.
    - rewrite (He eq_refl), own_index_valid by exact Hm. reflexivity. }
  unfold prepared. fold t. destruct rs.
  - assert (resolve (prod (sh t)) (None :: Some (prod E) :: map Some [m; p]) = [B; prod E; m; p]) as Rs.
    { change (Some (prod E) :: map Some [m; p]) with (map Some [prod E; m; p]). apply resolve_front; [cbn; nia|]. rewrite St. unfold prod at 1. cbn [fold_right]. fold (prod (E ++ [m; p])). rewrite prod_app. cbn. lia. }
    cbn [reshape sh at_]. rewrite Rs. split; [reflexivity|]. intros b mid i l Hb Hm Hi Hl. rewrite <- ravel_group by exact (valid_length _ _ Hm). rewrite St, unravel_ravel.
    + apply At; assumption.
    + constructor; [exact Hb|]. apply valid_app; [exact Hm|]. repeat constructor; assumption.
  - specialize (Hr eq_refl). destruct E as [|e [|? ?]]; try discriminate Hr. split; [rewrite St; cbn; rewrite Nat.mul_1_r; reflexivity|].
    intros b mid i l Hb Hm Hi Hl. inversion Hm as [|? x ? r Hx Hrest]; subst. inversion Hrest; subst. cbn [ravel prod fold_right]. rewrite Nat.mul_1_r, Nat.add_0_r. exact (At b [x] i l Hb Hm Hi Hl).
Qed.

(* ---- the added nodes ---- *)
Lemma run_app val l1 l2 env : run_nodes val env (l1 ++ l2) = bind (run_nodes val env l1) (fun e => run_nodes val e l2).
Proof.
  revert env. induction l1 as [|[o ss] l1 IH]; intro env; [reflexivity|]. cbn [app run_nodes]. destruct (mapM (read_src val env) ss) as [ins|e]; [|reflexivity]. cbn [bind].
  destruct (run_mop o ins) as [v|e]; [|reflexivity]. cbn [bind]. apply IH.
Qed.
Definition loop_nodes (base si so : nat) (l : list nat) : list (mop * list msrc) :=
  flat_map (fun q => [(MGetitem (snd q), [SN si]); (MGetitem (snd q), [SN so]); (MMatmul, [SN (base + 3 * fst q); SN (base + 3 * fst q + 1)])]) (enumerate_from 0 l).
Definition with_nodes (st : bstate) (nodes : list (mop * list msrc)) : bstate :=
  {| b_nodes := nodes; b_head_in := b_head_in st; b_head_other := b_head_other st; b_prev_in := b_prev_in st; b_prev_other := b_prev_other st |}.
Definition one_round (base si so : nat) (idx : nat) : list (mop * list msrc) :=
  [(MGetitem idx, [SN si]); (MGetitem idx, [SN so]); (MMatmul, [SN (base + 3 * idx); SN (base + 3 * idx + 1)])].
Lemma matmul_loop_nodes si so st count :
  matmul_loop si so count st = (with_nodes st (b_nodes st ++ flat_map (one_round (length (b_nodes st)) si so) (seq 0 count)), map (fun idx => length (b_nodes st) + 3 * idx + 2) (seq 0 count)).
Proof.
  unfold matmul_loop. induction count as [|c IH]; [cbn; rewrite app_nil_r; destruct st; reflexivity|].
  rewrite seq_S, fold_left_app, IH. cbn [fold_left Nat.add]. unfold single_matmul, add_node. cbn [with_nodes b_nodes b_head_in b_head_other b_prev_in b_prev_other].
  assert (length (flat_map (one_round (length (b_nodes st)) si so) (seq 0 c)) = 3 * c) as Lc.
  { rewrite flat_map_concat_map. clear. induction c as [|c IH]; [reflexivity|]. rewrite seq_S, map_app, concat_app, app_length, IH. cbn. lia. }
  rewrite flat_map_app, map_app. cbn [flat_map map app]. rewrite app_nil_r, !app_length, Lc. cbn [length].
  unfold with_nodes. rewrite <- !app_assoc. cbn [app]. apply f_equal2; [unfold one_round; reflexivity|]. f_equal. f_equal. lia.
Qed.

(* ---- running the loop ---- *)
Section Loop.
Variables (val : nat -> tensor) (ta tb : tensor) (mm : nat -> tensor) (P : nat).
Hypothesis Pa : nth 1 (sh ta) 0 = P.
Hypothesis Pb : nth 1 (sh tb) 0 = P.
Hypothesis Hmm : forall i, i < P -> matmul3 (select1 ta i) (select1 tb i) = Ok (mm i).
Definition round_values (i : nat) : list value := [VT (select1 ta i); VT (select1 tb i); VT (mm i)].
Lemma rounds_length c : length (flat_map round_values (seq 0 c)) = 3 * c.
Proof using. clear. induction c as [|c IH]; [reflexivity|]. rewrite seq_S, flat_map_app, app_length, IH. cbn. lia. Qed.
Lemma unbind_nth t i : i < nth 1 (sh t) 0 -> nth_error (unbind t) i = Some (select1 t i).
Proof using. intro H. unfold unbind. rewrite nth_error_map, (nth_error_nth' _ 0) by (rewrite seq_length; exact H). rewrite seq_nth by exact H. reflexivity. Qed.
Lemma nth_app_left {A} (a b : list A) i x : nth_error a i = Some x -> nth_error (a ++ b) i = Some x.
Proof. intro H. rewrite nth_error_app1; [exact H|]. apply nth_error_Some. rewrite H. discriminate. Qed.
Lemma run_loop e si so c : nth_error e si = Some (VL (unbind ta)) -> nth_error e so = Some (VL (unbind tb)) -> c <= P ->
  run_nodes val e (flat_map (one_round (length e) si so) (seq 0 c)) = Ok (e ++ flat_map round_values (seq 0 c)).
Proof.
  intros Hi Ho. induction c as [|c IH]; intro Hc; [cbn; rewrite app_nil_r; reflexivity|].
  rewrite seq_S, !flat_map_app, run_app, IH by lia. cbn [bind flat_map Nat.add]. rewrite !app_nil_r. unfold one_round.
  set (env := e ++ flat_map round_values (seq 0 c)). assert (length env = length e + 3 * c) as Le by (unfold env; rewrite app_length, rounds_length; reflexivity).
  assert (nth_error env si = Some (VL (unbind ta))) as Hi' by (apply nth_app_left, Hi).
  assert (nth_error env so = Some (VL (unbind tb))) as Ho' by (apply nth_app_left, Ho).
  cbn [run_nodes mapM read_src]. rewrite Hi'. cbn [bind run_mop]. rewrite unbind_nth by (rewrite Pa; lia). cbn [bind].
  rewrite (nth_app_left env [_] so _ Ho'). cbn [bind]. rewrite unbind_nth by (rewrite Pb; lia). cbn [bind].
  rewrite <- app_assoc. cbn [app]. rewrite nth_error_app2 by lia. replace (length e + 3 * c - length env) with 0 by lia. cbn [nth_error bind].
  rewrite nth_error_app2 by lia. replace (length e + 3 * c + 1 - length env) with 1 by lia. cbn [nth_error bind]. rewrite Hmm by lia. cbn [bind].
  unfold env. rewrite <- !app_assoc. reflexivity.
Qed.
Lemma nth_rounds i c : i < c -> nth_error (flat_map round_values (seq 0 c)) (3 * i + 2) = Some (VT (mm i)).
Proof using.
  clear Pa Pb Hmm.
  induction c as [|c IH]; intro H; [lia|]. rewrite seq_S, flat_map_app. cbn [flat_map Nat.add]. destruct (Nat.eq_dec i c) as [->|D].
  - rewrite nth_error_app2 by (rewrite rounds_length; lia). rewrite rounds_length. replace (3 * c + 2 - 3 * c) with 2 by lia. reflexivity.
  - apply nth_app_left, IH. lia.
Qed.
Lemma read_rounds e : mapM (read_src val (e ++ flat_map round_values (seq 0 P))) (map SN (map (fun idx => length e + 3 * idx + 2) (seq 0 P))) = Ok (map VT (map mm (seq 0 P))).
Proof using.
  clear Pa Pb Hmm.
  assert (forall l, (forall i, In i l -> i < P) -> mapM (read_src val (e ++ flat_map round_values (seq 0 P))) (map SN (map (fun idx => length e + 3 * idx + 2) l)) = Ok (map VT (map mm l))) as K.
  { induction l as [|i l IH]; intro H; [reflexivity|]. cbn [map mapM read_src]. rewrite nth_error_app2 by lia. replace (length e + 3 * i + 2 - length e) with (3 * i + 2) by lia.
    rewrite nth_rounds by (apply H; left; reflexivity). cbn [bind]. rewrite IH by (intros j J; apply H; right; exact J). reflexivity. }
  apply K. intros i I. apply in_seq in I. lia.
Qed.
Lemma stack_read : mapM (fun v => match v with VT t => Ok t | VL _ => Err E_type end) (map VT (map mm (seq 0 P))) = Ok (map mm (seq 0 P)).
Proof using. induction (map mm (seq 0 P)) as [|t l IH]; [reflexivity|]. cbn [map mapM]. cbn [bind]. rewrite IH. reflexivity. Qed.
End Loop.

Lemma list_natb_spec a b : list_natb a b = true <-> a = b.
Proof. unfold list_natb. destruct (list_eq_dec Nat.eq_dec a b); split; congruence. Qed.
Lemma list_onatb_spec a b : list_onatb a b = true <-> a = b.
Proof. unfold list_onatb. destruct (list_eq_dec _ a b); split; congruence. Qed.
Lemma map_Some_inj (a b : list nat) : map Some a = map Some b -> a = b.
Proof. revert b. induction a as [|x a IH]; intros [|y b] H; try discriminate; [reflexivity|]. injection H as -> H. f_equal. apply IH, H. Qed.
Lemma mids_eq b D m p : mids (b :: D ++ [m; p]) = D.
Proof.
  unfold mids. cbn [tl length]. rewrite app_length. cbn [length]. replace (S (length D + 2) - 3) with (length D + 0) by lia. rewrite firstn_app_2. cbn. apply app_nil_r.
Qed.
Lemma last2_eq b D m p : last2 (b :: D ++ [m; p]) = [m; p].
Proof.
  unfold last2. cbn [length]. rewrite app_length. cbn [length]. replace (S (length D + 2) - 2) with (length (b :: D)) by (cbn [length]; lia).
  change (b :: D ++ [m; p]) with ((b :: D) ++ [m; p]). rewrite skipn_app, skipn_all, Nat.sub_diag. reflexivity.
Qed.
Lemma max_dims_common a b : max_dims a b = common a b.
Proof. unfold common. revert b. induction a as [|x a IH]; intros [|y b]; try reflexivity. cbn. f_equal. apply IH. Qed.
Lemma set_source_app i s l1 l2 : i < length l1 -> set_source (Some i) s (l1 ++ l2) = set_source (Some i) s l1 ++ l2.
Proof.
  intro H. unfold set_source.
  assert (forall (l : list (mop * list msrc)) j, i < j -> map (fun q : nat * (mop * list msrc) => if Nat.eqb (fst q) i then (fst (snd q), snd (snd q) ++ [s]) else snd q) (enumerate_from j l) = l) as K.
  { induction l as [|x l IH]; intros j Hj; [reflexivity|]. cbn [enumerate_from map fst snd]. destruct (Nat.eqb_spec j i); [lia|]. f_equal. apply IH. lia. }
  assert (forall l1 j, i < j + length l1 -> map (fun q : nat * (mop * list msrc) => if Nat.eqb (fst q) i then (fst (snd q), snd (snd q) ++ [s]) else snd q) (enumerate_from j (l1 ++ l2)) =
    map (fun q : nat * (mop * list msrc) => if Nat.eqb (fst q) i then (fst (snd q), snd (snd q) ++ [s]) else snd q) (enumerate_from j l1) ++ l2) as K2.
  { clear H l1. induction l1 as [|x l1 IH]; intros j Hj; cbn [app enumerate_from map length] in *; [apply K; lia|]. f_equal. apply IH. lia. }
  apply K2. lia.
Qed.
Lemma set_source_length i s l : length (set_source i s l) = length l.
Proof.
  destruct i as [i|]; [|reflexivity]. unfold set_source. rewrite map_length. generalize 0 as j. induction l as [|x l IH]; intro j; [reflexivity|]. cbn. f_equal. apply IH.
Qed.

Definition start : bstate := {| b_nodes := []; b_head_in := None; b_head_other := None; b_prev_in := None; b_prev_other := None |}.
Definition pre_expand (ei eo : bool) (p : params) : bstate :=
  let '(st, i) := if ei then let '(st, n) := add_after start (MExpand (p_in_expand p)) None in (st, Some n) else (start, None) in
  let '(st, o) := if eo then let '(st, n) := add_after st (MExpand (p_other_expand p)) None in (st, Some n) else (st, None) in
  update_nodes st i o.
Definition pre_split (ei eo rs : bool) (p : params) : bstate :=
  let st := pre_expand ei eo p in if rs then reshape_inputs p st else st.
Definition prep_with (ea rs : bool) (es rsh : list (option nat)) (a : tensor) : tensor :=
  let a := if ea then expand a es else a in if rs then reshape a rsh else a.
Lemma prefix_ok ei eo rs p x y edges val : edges = [(x, 0); (y, 1)] \/ edges = [(y, 1); (x, 0)] ->
  let '(st, (i, o)) := split_inputs (pre_split ei eo rs p) in
  forall rest, exists pfx env, connect edges (with_nodes st (b_nodes st ++ rest)) = Ok (pfx ++ rest) /\ length pfx = length (b_nodes st) /\
    run_nodes val [] pfx = Ok env /\ length env = length pfx /\
    nth_error env i = Some (VL (unbind (prep_with ei rs (p_in_expand p) (p_in_reshape p) (val x)))) /\
    nth_error env o = Some (VL (unbind (prep_with eo rs (p_other_expand p) (p_other_reshape p) (val y)))).
Proof.
  intro He. destruct (split_inputs (pre_split ei eo rs p)) as [st [i o]] eqn:E. intro rest.
  destruct ei, eo, rs; cbv [split_inputs pre_split pre_expand reshape_inputs add_after update_nodes start b_nodes b_head_in b_head_other b_prev_in b_prev_other app length] in E; injection E as <- <- <-;
    destruct He as [-> | ->]; cbn [connect Nat.eqb with_nodes b_nodes b_head_in b_head_other];
    rewrite !set_source_app by (rewrite ?set_source_length; cbn [length]; lia);
    eexists; eexists; (split; [reflexivity|]); (split; [reflexivity|]); (split; [reflexivity|]); (split; [reflexivity|]); split; reflexivity.
Qed.

Lemma split_in_reshape {A} (l : list A) : length l = 1 -> exists e, l = [e].
Proof. destruct l as [|e [|? ?]]; try discriminate. intro. exists e. reflexivity. Qed.
Lemma common_same D : common D D = D.
Proof. unfold common. induction D as [|d D IH]; [reflexivity|]. cbn. rewrite Nat.max_id. f_equal. exact IH. Qed.
Lemma common_length a b : compatible a b -> length (common a b) = length a /\ length (common a b) = length b.
Proof. unfold common. induction 1 as [|x y a b _ _ IH]; [split; reflexivity|]. cbn. destruct IH as [I1 I2]. split; f_equal; assumption. Qed.

Lemma sum_ext n (f g : nat -> R) : (forall l, l < n -> f l = g l) -> sum_n n f = sum_n n g.
Proof. intro H. unfold sum_n. f_equal. apply map_ext_in. intros l I. apply in_seq in I. apply H. lia. Qed.

Lemma decomposition_lem b1 b2 D1 D2 m p n x y edges :
  1 <= length D1 -> compatible D1 D2 -> Forall (fun d => 0 < d) (m :: p :: n :: D1 ++ D2) ->
  edges = [(x, 0); (y, 1)] \/ edges = [(y, 1); (x, 0)] ->
  exists nodes out, substitute [b1 :: D1 ++ [m; p]; b2 :: D2 ++ [p; n]] edges = Ok (Some (nodes, out)) /\
    forall val B1 B2, sh (val x) = B1 :: D1 ++ [m; p] -> sh (val y) = B2 :: D2 ++ [p; n] -> 0 < B1 -> 0 < B2 -> compatible [B1] [B2] ->
      exists t, run_matmul val nodes out = Ok t /\ torch_matmul (val x) (val y) t (B1 :: D1) (B2 :: D2) m p n.
Proof.
  intros L C F He. set (si := b1 :: D1 ++ [m; p]). set (so := b2 :: D2 ++ [p; n]). set (E := common D1 D2).
  destruct (common_length _ _ C) as [L1 L2]. fold E in L1, L2.
  assert (length si = length D1 + 3) as Lsi by (unfold si; cbn [length]; rewrite app_length; cbn; lia).
  assert (length so = length D2 + 3) as Lso by (unfold so; cbn [length]; rewrite app_length; cbn; lia).
  set (P := matmul_params si so).
  assert (p_in_expand P = None :: map Some E ++ map Some [m; p]) as Eie by (cbn [P matmul_params p_in_expand]; unfold si, so; rewrite !mids_eq, last2_eq, max_dims_common; reflexivity).
  assert (p_other_expand P = None :: map Some E ++ map Some [p; n]) as Eoe by (cbn [P matmul_params p_other_expand]; unfold si, so; rewrite !mids_eq, last2_eq, max_dims_common; reflexivity).
  assert (p_in_reshape P = None :: Some (prod E) :: map Some [m; p]) as Eir by (cbn [P matmul_params p_in_reshape]; unfold si, so; rewrite !mids_eq, last2_eq, max_dims_common; reflexivity).
  assert (p_other_reshape P = None :: Some (prod E) :: map Some [p; n]) as Eor by (cbn [P matmul_params p_other_reshape]; unfold si, so; rewrite !mids_eq, last2_eq, max_dims_common; reflexivity).
  assert (p_count P = prod E) as Ec by (cbn [P matmul_params p_count]; unfold si, so; rewrite !mids_eq, max_dims_common; reflexivity).
  assert (p_stack P = [None; Some (prod E); Some m; Some n]) as Es by (cbn [P matmul_params p_stack]; unfold si, so; rewrite !mids_eq, !last2_eq, max_dims_common; reflexivity).
  assert (p_output P = None :: map Some (E ++ [m; n])) as Eo by (cbn [P matmul_params p_output]; unfold si, so; rewrite !mids_eq, !last2_eq, max_dims_common; cbn [map nth]; rewrite map_app; cbn [app]; rewrite <- app_assoc; reflexivity).
  set (ei := negb (list_onatb (map Some (tl si)) (tl (p_in_expand P)))). set (eo := negb (list_onatb (map Some (tl so)) (tl (p_other_expand P)))). set (rs := Nat.ltb 4 (length si)).
  assert (ei = false -> D1 = E) as Hei.
  { unfold ei. intro Q. apply negb_false_iff in Q. apply list_onatb_spec in Q. rewrite Eie in Q. unfold si in Q. cbn [tl] in Q. rewrite map_app in Q. apply app_inv_tail in Q. apply map_Some_inj, Q. }
  assert (eo = false -> D2 = E) as Heo.
  { unfold eo. intro Q. apply negb_false_iff in Q. apply list_onatb_spec in Q. rewrite Eoe in Q. unfold so in Q. cbn [tl] in Q. rewrite map_app in Q. apply app_inv_tail in Q. apply map_Some_inj, Q. }
  assert (rs = false -> length E = 1) as Hrs. { unfold rs. intro Q. apply Nat.ltb_ge in Q. lia. }
  assert ((if list_natb (mids si) (mids so) then start else expand_inputs P start) = pre_expand ei eo P) as Ex.
  { destruct (list_natb (mids si) (mids so)) eqn:Q.
    - apply list_natb_spec in Q. unfold si, so in Q. rewrite !mids_eq in Q.
      assert (E = D1) as ED by (unfold E; rewrite <- Q; apply common_same).
      assert (ei = false) as -> by (unfold ei; apply negb_false_iff, list_onatb_spec; rewrite Eie; unfold si; cbn [tl]; rewrite map_app, ED; reflexivity).
      assert (eo = false) as -> by (unfold eo; apply negb_false_iff, list_onatb_spec; rewrite Eoe; unfold so; cbn [tl]; rewrite map_app, ED, Q; reflexivity). reflexivity.
    - unfold expand_inputs, pre_expand, ei, eo. change (p_in P) with si. change (p_other P) with so. destruct (list_onatb (map Some (tl si)) (tl (p_in_expand P))), (list_onatb (map Some (tl so)) (tl (p_other_expand P))); reflexivity. }
  assert (Forall (fun d => 0 < d) E) as PE.
  { inversion_clear F as [|? ? _ F1]. inversion_clear F1 as [|? ? _ F2]. inversion_clear F2 as [|? ? _ F3]. apply Forall_app in F3. destruct F3 as [F3 _]. unfold E, common. clear -F3 C.
    induction C as [|a b D1 D2 _ C IH]; [constructor|]. inversion_clear F3. constructor; [cbn; lia|]. apply IH. assumption. }
  pose proof (prod_pos E PE) as PP.
  pose proof (prefix_ok ei eo rs P x y edges) as Pre.
  destruct (split_inputs (pre_split ei eo rs P)) as [st [i o]] eqn:Sp.
  pose (loop := flat_map (one_round (length (b_nodes st)) i o) (seq 0 (prod E))). pose (ms := map (fun idx => length (b_nodes st) + 3 * idx + 2) (seq 0 (prod E))).
  pose (tail := loop ++ (MStack, map SN ms) :: (if list_onatb (p_stack P) (p_output P) then [] else [(MReshape (p_output P), [SN (length (b_nodes st) + length loop)])])).
  pose (out := if list_onatb (p_stack P) (p_output P) then length (b_nodes st) + length loop else S (length (b_nodes st) + length loop)).
  destruct (Pre (fun _ => {| sh := []; at_ := fun _ => 0%R |}) He tail) as (pfx & env0 & Cn & Lp & _).
  exists (pfx ++ tail), out. split.
  { unfold substitute. cbn [nth_error bind]. fold si so.
    assert (Nat.leb (length si) 3 = false) as -> by (apply Nat.leb_gt; lia). cbn [andb]. assert (Nat.eqb (length si) (length so) = true) as -> by (apply Nat.eqb_eq; lia). cbn [negb].
    fold start. fold P. rewrite Ex. fold rs. change (if rs then reshape_inputs P (pre_expand ei eo P) else pre_expand ei eo P) with (pre_split ei eo rs P). rewrite Sp.
    rewrite Ec, matmul_loop_nodes. fold loop ms. unfold stack_outputs, add_node. cbn [with_nodes b_nodes b_head_in b_head_other b_prev_in b_prev_other].
    assert (connect edges (with_nodes st (b_nodes st ++ tail)) = Ok (pfx ++ tail)) as Cn' by exact Cn. unfold tail, out in *. destruct (list_onatb (p_stack P) (p_output P)).
    - unfold with_nodes in Cn'. rewrite <- app_assoc. cbn [app]. rewrite Cn'. cbn [bind]. rewrite app_length. reflexivity.
    - unfold with_nodes in Cn'. rewrite !app_length. rewrite <- !app_assoc. cbn [app length]. rewrite Cn'. cbn [bind]. match goal with |- Ok (Some (_, ?a)) = Ok (Some (_, ?b)) => replace a with b by lia end. reflexivity. }
  intros val B1 B2 Sx Sy HB1 HB2 CB.
  destruct (Pre val He tail) as (pfx' & env & Cn' & _ & Rn & Le & Ni & No). rewrite Cn in Cn'. injection Cn' as Cn'. apply app_inv_tail in Cn'. subst pfx'.
  rewrite Eie, Eir in Ni. rewrite Eoe, Eor in No.
  change (prep_with ei rs (None :: map Some E ++ map Some [m; p]) (None :: Some (prod E) :: map Some [m; p])) with (prepared ei rs E m p) in Ni.
  change (prep_with eo rs (None :: map Some E ++ map Some [p; n]) (None :: Some (prod E) :: map Some [p; n])) with (prepared eo rs E p n) in No.
  inversion_clear F as [|? ? Hm F1]. inversion_clear F1 as [|? ? Hp F2]. inversion_clear F2 as [|? ? Hn _].
  destruct (prepared_ok ei rs E m p B1 D1 (val x) Sx ltac:(congruence) Hei Hrs ltac:(repeat constructor; assumption)) as [Sa Va].
  destruct (prepared_ok eo rs E p n B2 D2 (val y) Sy ltac:(congruence) Heo Hrs ltac:(repeat constructor; assumption)) as [Sb Vb].
  set (ta := prepared ei rs E m p (val x)) in *. set (tb := prepared eo rs E p n (val y)) in *.
  inversion CB as [|? ? ? ? CB1 _]; subst.
  set (BB := if Nat.eqb B1 1 then B2 else B1).
  pose (mm := fun r => {| sh := [BB; m; n]; at_ := fun idx => sum_n p (fun l => (at_ (select1 ta r) (clip [B1] (firstn 1 idx) ++ [nth 1 idx 0%nat; l]) * at_ (select1 tb r) (clip [B2] (firstn 1 idx) ++ [l; nth 2 idx 0%nat]))%R) |}).
  assert (forall r, r < prod E -> matmul3 (select1 ta r) (select1 tb r) = Ok (mm r)) as Hmm.
  { intros r _. unfold matmul3. cbn [select1 sh]. rewrite Sa, Sb. rewrite Nat.eqb_refl. cbn [andb].
    assert (Nat.eqb B1 B2 || Nat.eqb B1 1 || Nat.eqb B2 1 = true) as ->; [|reflexivity].
    destruct CB1 as [->|[->| ->]]; rewrite ?Nat.eqb_refl, ?orb_true_r; reflexivity. }
  assert (run_nodes val [] (pfx ++ loop) = Ok (env ++ flat_map (round_values ta tb mm) (seq 0 (prod E)))) as Rl.
  { rewrite run_app, Rn. cbn [bind]. unfold loop. replace (length (b_nodes st)) with (length env) by lia.
    apply (run_loop val ta tb mm (prod E)); [rewrite Sa; reflexivity|rewrite Sb; reflexivity|exact Hmm|exact Ni|exact No|lia]. }
  set (env1 := env ++ flat_map (round_values ta tb mm) (seq 0 (prod E))) in *.
  assert (length env1 = length (b_nodes st) + length loop) as Le1.
  { unfold env1. rewrite app_length. rewrite rounds_length. assert (length loop = 3 * prod E) as ->; [|lia]. unfold loop. generalize (prod E). clear. induction n as [|c IH]; [reflexivity|]. rewrite seq_S, flat_map_app, app_length, IH. cbn. lia. }
  pose (sk := {| sh := [BB; prod E; m; n]; at_ := fun idx => at_ (nth (nth 1 idx 0%nat) (map mm (seq 0 (prod E))) (mm 0)) (match idx with b :: _ :: r => b :: r | i => i end) |}).
  assert (stack1 (map mm (seq 0 (prod E))) = Ok sk) as Hst.
  { assert (exists l, map mm (seq 0 (prod E)) = mm 0 :: l) as (l & El) by (destruct (prod E); [lia|]; cbn [seq map]; eexists; reflexivity).
    unfold stack1. rewrite El. rewrite <- El. cbn [sh mm]. unfold sk. rewrite map_length, seq_length. reflexivity. }
  assert (forall b r i0 j, r < prod E -> at_ sk [b; r; i0; j] = sum_n p (fun l => (at_ ta [own B1 b; r; i0; l] * at_ tb [own B2 b; r; l; j])%R)) as Vs.
  { intros b r i0 j Hr. cbn [sk at_ nth]. rewrite (map_nth mm). rewrite seq_nth by exact Hr. cbn [mm at_ firstn nth Nat.add]. rewrite !clip_own. cbn [own_index app select1 at_]. reflexivity. }
  assert (run_mop MStack (map VT (map mm (seq 0 (prod E)))) = Ok (VT sk)) as Rst. { cbn [run_mop]. rewrite stack_read. cbn [bind]. rewrite Hst. reflexivity. }
  assert (mapM (read_src val env1) (map SN ms) = Ok (map VT (map mm (seq 0 (prod E))))) as Rms.
  { unfold ms, env1. replace (length (b_nodes st)) with (length env) by lia. apply read_rounds. }
  assert (BB = Nat.max B1 B2) as HBB. { unfold BB. destruct (Nat.eqb_spec B1 1) as [->|]; [lia|]. destruct CB1 as [->|[Q| ->]]; lia. }
  assert (forall b, b < BB -> own B1 b < B1 /\ own B2 b < B2) as Hown.
  { intros b Hb. unfold own. destruct (Nat.eqb_spec B1 1), (Nat.eqb_spec B2 1); lia. }
  assert (forall b mid i0 j, b < BB -> valid_index E mid -> i0 < m -> j < n -> at_ sk [b; ravel E mid; i0; j] =
    fold_right Rplus 0%R (map (fun l => (at_ (val x) (own_index (B1 :: D1) (b :: mid) ++ [i0; l]) * at_ (val y) (own_index (B2 :: D2) (b :: mid) ++ [l; j]))%R) (seq 0 p))) as Vf.
  { intros b mid i0 j Hb Vm Hi Hj. rewrite Vs by (apply ravel_bound, Vm). change (fold_right Rplus 0%R (map ?f (seq 0 p))) with (sum_n p f). apply sum_ext. intros l Hl. destruct (Hown b Hb).
    cbn [own_index app]. rewrite Va, Vb by assumption. reflexivity. }
  unfold run_matmul, tail, out in *. destruct (list_onatb (p_stack P) (p_output P)) eqn:Q.
  - apply list_onatb_spec in Q. rewrite Es, Eo in Q. injection Q as Q. destruct E as [|e [|e' E']] eqn:EE; [cbn in Q; discriminate Q || (cbn in L1; lia)| |].
    2: { exfalso. apply (f_equal (@length _)) in Q. cbn in Q. rewrite map_length, app_length in Q. cbn in Q. lia. }
    exists sk. rewrite app_assoc, run_app, Rl. cbn [bind run_nodes]. rewrite Rms. cbn [bind]. rewrite Rst. cbn [bind]. rewrite nth_error_app2 by lia. replace (length (b_nodes st) + length loop - length env1) with 0 by lia. cbn [nth_error].
    split; [reflexivity|]. assert (common (B1 :: D1) (B2 :: D2) = [BB; e]) as Ecm. { unfold common in *. cbn [combine map fst snd]. rewrite HBB. f_equal. exact EE. }
    split; [rewrite Ecm; cbn [sk sh app prod fold_right]; rewrite Nat.mul_1_r; reflexivity|].
    intros idx i0 j Vi Hi Hj. rewrite Ecm in Vi. inversion Vi as [|? b ? r Hb Vr]; subst. inversion Vr as [|? r0 ? r1 Hr0 V1]; subst. inversion V1; subst.
    specialize (Vf b [r0] i0 j Hb ltac:(repeat constructor; exact Hr0) Hi Hj). cbn [ravel prod fold_right] in Vf. rewrite Nat.mul_1_r, Nat.add_0_r in Vf. exact Vf.
  - exists (reshape sk (p_output P)). rewrite app_assoc, run_app, Rl. cbn [bind run_nodes]. rewrite Rms. cbn [bind]. rewrite Rst. cbn [bind mapM read_src].
    rewrite nth_error_app2 by lia. replace (length (b_nodes st) + length loop - length env1) with 0 by lia. change (nth_error [VT sk] 0) with (Some (VT sk)). cbn [bind run_mop].
    rewrite nth_error_app2 by (rewrite app_length; cbn; lia). rewrite app_length. cbn [length]. replace (S (length (b_nodes st) + length loop) - (length env1 + 1)) with 0 by lia. cbn [nth_error].
    split; [reflexivity|]. assert (common (B1 :: D1) (B2 :: D2) = BB :: E) as Ecm. { unfold common in *. cbn [combine map fst snd]. rewrite HBB. reflexivity. }
    assert (resolve (prod (sh sk)) (p_output P) = BB :: E ++ [m; n]) as Rv.
    { rewrite Eo. apply resolve_front; [rewrite prod_app; cbn; nia|]. cbn [sk sh]. rewrite prod_app. cbn. lia. }
    unfold torch_matmul. cbn [reshape sh at_]. rewrite Rv, Ecm. split; [reflexivity|].
    intros idx i0 j Vi Hi Hj. inversion Vi as [|? b ? mid Hb Vm]; subst. cbn [app]. rewrite ravel_group by exact (valid_length _ _ Vm). cbn [sk sh].
    rewrite (unravel_ravel [BB; prod E; m; n]). 2: { repeat constructor; try assumption. apply ravel_bound, Vm. }
    exact (Vf b mid i0 j Hb Vm Hi Hj).
Qed.
