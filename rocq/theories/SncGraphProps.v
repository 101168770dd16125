(* SncGraphProps.v -- C40 in whole graphs: the search for the corrected layer, and the outputs after the pass. *)
From Coq Require Import FunctionalExtensionality Permutation Sorted.
From Verif Require Import LinNode LinSpec BnModel BnSpec LinProofs BnProofs LinGraph GraphModel GraphSpec GraphProps GraphFindProps EqualizeModel EqualizeSpec EqualizeGraphProps SncModel SncSpec SncProofs SncProps SncGraphProofs.
From Verif Require GraphProofs FuserProofs.
Open Scope R_scope.

(* ---- the search ---- *)
Definition opt_list {A} (o : option A) : list A := match o with Some a => [a] | None => [] end.
Lemma next_one g n m : next_nodes g n = [m] <-> out_degree g n = 1%nat /\ linked g n m.
Proof.
  split.
  - intro H. split; [rewrite <- next_degree, H; reflexivity|apply next_linked; rewrite H; left; reflexivity].
  - intros [O L]. rewrite <- next_degree in O. apply next_linked in L. destruct (next_nodes g n) as [|x [|? ?]]; try discriminate O. destruct L as [->|[]]. reflexivity.
Qed.
Section Search.
Variables (linear bypass is_pad : nat -> bool) (clash : option nat -> nat -> bool) (g : graph).
Lemma next_search_gen : forall fuel n pad0 by0 m pad by_, next_to_correct linear bypass is_pad clash g fuel n pad0 by0 = Ok (Some (m, pad, by_)) ->
  exists mids, chain_to linear bypass is_pad g n mids m /\ by_ = by0 ++ filter bypass mids /\ opt_list pad = opt_list pad0 ++ filter (fun k => negb (bypass k)) mids /\ clash pad m = false.
Proof.
  induction fuel as [|fuel IH]; intros n pad0 by0 m pad by_ H; [discriminate|]. cbn [next_to_correct] in H. destruct (next_nodes g n) as [|x [|? ?]] eqn:N; try discriminate. apply next_one in N. destruct N as [O L].
  destruct (linear x) eqn:LX.
  - destruct (clash pad0 x) eqn:CL; [discriminate|]. injection H as <- <- <-. exists []. split; [|cbn; rewrite !app_nil_r; auto]. split; [split; [exact L|exact I]|]. split; [|split; [exact LX|intros k []]]. intros k [<-|[]]. exact O.
  - assert (EXT : forall pad1 by1, next_to_correct linear bypass is_pad clash g fuel x pad1 by1 = Ok (Some (m, pad, by_)) -> bypass x = true \/ is_pad x = true -> exists mids, chain_to linear bypass is_pad g n (x :: mids) m /\ by_ = by1 ++ filter bypass mids /\ opt_list pad = opt_list pad1 ++ filter (fun k => negb (bypass k)) mids /\ clash pad m = false).
    { intros pad1 by1 H1 B. destruct (IH _ _ _ _ _ _ H1) as (mids & (W & D & LM & F) & A1 & A2 & A3). exists mids. split; [|auto]. split; [split; [exact L|exact W]|]. split; [intros k [<-|J]; [exact O|apply D, J]|]. split; [exact LM|]. intros k [<-|J]; [split; [exact LX|exact B]|apply F, J]. }
    destruct (bypass x) eqn:BX.
    + destruct (EXT _ _ H (or_introl eq_refl)) as (mids & A & B & C & D). exists (x :: mids). split; [exact A|]. cbn [filter]. rewrite BX. cbn [negb]. split; [rewrite B, <- app_assoc; reflexivity|]. split; [exact C|exact D].
    + destruct (is_pad x) eqn:PX; [|discriminate]. destruct pad0 as [|]; [discriminate|]. destruct (EXT _ _ H (or_intror eq_refl)) as (mids & A & B & C & D). exists (x :: mids). split; [exact A|]. cbn [filter]. rewrite BX. cbn [negb]. split; [exact B|]. split; [exact C|exact D].
Qed.
(* the pass finds a layer at the end of a chain of single successors, with at most one pad node on it *)
Theorem snc_search fuel n m pad by_ : next_to_correct linear bypass is_pad clash g fuel n None [] = Ok (Some (m, pad, by_)) ->
  exists mids, chain_to linear bypass is_pad g n mids m /\ by_ = filter bypass mids /\ opt_list pad = filter (fun k => negb (bypass k)) mids /\ clash pad m = false.
Proof. intro H. apply next_search_gen in H. exact H. Qed.
(* and finds every such layer *)
Theorem snc_search_complete fuel n m pad mids : chain_to linear bypass is_pad g n mids m -> opt_list pad = filter (fun k => negb (bypass k)) mids -> clash pad m = false -> (length mids < fuel)%nat ->
  next_to_correct linear bypass is_pad clash g fuel n None [] = Ok (Some (m, pad, filter bypass mids)).
Proof.
  assert (GEN : forall mids fuel n pad0 by0, chain_to linear bypass is_pad g n mids m -> opt_list pad = opt_list pad0 ++ filter (fun k => negb (bypass k)) mids -> clash pad m = false -> (length mids < fuel)%nat ->
    next_to_correct linear bypass is_pad clash g fuel n pad0 by0 = Ok (Some (m, pad, by0 ++ filter bypass mids))).
  { clear mids n fuel. induction mids as [|x mids IH]; intros fuel n pad0 by0 (W & D & LM & F) P C L; (destruct fuel as [|fuel]; [cbn in L; lia|]); cbn [next_to_correct].
    - destruct W as [W _]. rewrite (proj2 (next_one g n m)) by (split; [apply D; left; reflexivity|exact W]). rewrite LM. cbn [filter] in *. rewrite app_nil_r in P. assert (pad = pad0) as -> by (destruct pad, pad0; cbn in P; congruence). rewrite C, app_nil_r. reflexivity.
    - destruct W as [W1 W2]. rewrite (proj2 (next_one g n x)) by (split; [apply D; left; reflexivity|exact W1]). destruct (F x (or_introl eq_refl)) as [LX BX]. rewrite LX.
      assert (CT : chain_to linear bypass is_pad g x mids m) by (split; [exact W2|]; split; [intros k J; apply D; right; exact J|]; split; [exact LM|]; intros k J; apply F; right; exact J). cbn [length] in L. cbn [filter] in *.
      destruct (bypass x) eqn:B; cbn [negb] in P.
      + rewrite (IH fuel x pad0 (by0 ++ [x]) CT P C ltac:(lia)), <- app_assoc. reflexivity.
      + destruct BX as [BX|BX]; [discriminate|]. rewrite BX. destruct pad0 as [p0|].
        * destruct pad; discriminate P.
        * apply IH; [exact CT|exact P|exact C|lia]. }
  intros CT P C L. rewrite (GEN mids fuel n None [] CT P C L). reflexivity.
Qed.
(* the search ends in a graph without cycles *)
Theorem snc_search_ends (rank : nat -> nat) N : (forall e, In e (g_edges g) -> (rank (src e) < rank (snk e))%nat) -> (forall n, (rank n <= N)%nat) ->
  forall n fuel pad0 by0, (N - rank n < fuel)%nat -> exists r, next_to_correct linear bypass is_pad clash g fuel n pad0 by0 = Ok r.
Proof.
  intros R B n fuel. revert n. induction fuel as [|fuel IH]; intros n pad0 by0 F; [lia|]. cbn [next_to_correct]. destruct (next_nodes g n) as [|x [|? ?]] eqn:X; eauto. apply next_one in X. destruct X as [_ (e & E1 & E2 & E3)].
  specialize (R e E1). rewrite E2, E3 in R. pose proof (B x). assert (F' : (N - rank x < fuel)%nat) by lia. destruct (linear x); [destruct (clash pad0 x); eauto|]. destruct (bypass x); [apply IH, F'|]. destruct (is_pad x); [|eauto]. destruct pad0; [eauto|apply IH, F'].
Qed.
End Search.
Print Assumptions snc_search. Print Assumptions snc_search_complete. Print Assumptions snc_search_ends.

(* ---- the edit ---- *)
Lemma walk_chained g nl mids b : walk g (nl :: mids ++ [b]) -> (forall n, In n (nl :: mids) -> out_degree g n = 1%nat) -> (forall n, In n (mids ++ [b]) -> in_deg g n = 1%nat) -> chained g (nl :: mids) (mids ++ [b]).
Proof.
  intros WK O D e IE. assert (RL : removelast (nl :: mids ++ [b]) = nl :: mids) by (rewrite app_comm_cons; apply removelast_snoc). split; intro I.
  - change (mids ++ [b]) with (tl (nl :: mids ++ [b])). apply (walk_pairs g _ e WK); [rewrite RL; exact O|exact IE|rewrite RL; exact I].
  - rewrite <- RL. apply (walk_pairs' g _ e WK); [exact D|exact IE|exact I].
Qed.
Lemma linked_nodes g a b : wf g -> linked g a b -> In a (g_nodes g) /\ In b (g_nodes g).
Proof. intros W (e & I & <- & <-). exact (wf_ends g W e I). Qed.
Lemma walk_nodes g : forall l, wf g -> walk g l -> (2 <= length l)%nat -> forall n, In n l -> In n (g_nodes g).
Proof.
  induction l as [|a l IH]; intros W K L n I; [destruct I|]. destruct l as [|b l]; [cbn in L; lia|]. destruct K as [K1 K2]. destruct (linked_nodes g a b W K1) as [A B]. destruct I as [<-|I]; [exact A|]. destruct l as [|c l]; [destruct I as [<-|[]]; exact B|]. apply IH; [exact W|exact K2|cbn; lia|exact I].
Qed.
Lemma insert_total g n a b : length (between g a b) = 1%nat -> exists g', insert_between no_check g n a b = Ok g'.
Proof.
  intro L. unfold insert_between. destruct (GraphProofs.add_node_rest g n) as (R1 & _). assert (B : between (add_node_nx g n) a b = between g a b) by (unfold between; rewrite R1; reflexivity). rewrite B. destruct (between g a b) as [|e [|? ?]] eqn:E; try discriminate L.
  change (add_edge no_check (add_node_nx g n) (Edge a n (si e) (ti e))) with (Ok (add_edge_nx (add_node_nx g n) (Edge a n (si e) (ti e)))). cbn [bind]. change (add_edge no_check ?h ?x) with (Ok (add_edge_nx h x)). cbn [bind].
  rewrite FuserProofs.remove_edge_no_check. assert (Ie : In e (between g a b)) by (rewrite E; left; reflexivity). apply GraphProofs.between_in in Ie. destruct Ie as (I1 & I2 & I3). eapply GraphProofs.remove_edge_total; [|exact I2|exact I3].
  destruct (GraphProofs.add_edge_edges (add_edge_nx (add_node_nx g n) (Edge a n (si e) (ti e))) (Edge n b (si e) (ti e))) as (-> & _). apply in_or_app. left. destruct (GraphProofs.add_edge_edges (add_node_nx g n) (Edge a n (si e) (ti e))) as (-> & _). apply in_or_app. left. rewrite R1. exact I1.
Qed.
Lemma between_one g a b (p : edge -> bool) : length (filter p (g_edges g)) = 1%nat -> linked g a b -> (forall e, src e = a -> snk e = b -> p e = true) -> length (between g a b) = 1%nat.
Proof.
  intros L (e & I & A & B) P. unfold between. assert (F : filter (is_between a b) (g_edges g) = filter (is_between a b) (filter p (g_edges g))).
  { clear -P. induction (g_edges g) as [|x l IH]; [reflexivity|]. cbn [filter]. destruct (is_between a b x) eqn:E.
    - assert (p x = true) as ->. { unfold is_between in E. apply andb_prop in E. destruct E as [E1 E2]. apply P; apply Nat.eqb_eq; assumption. } cbn [filter]. rewrite E, IH. reflexivity.
    - destruct (p x); [cbn [filter]; rewrite E|]; exact IH. }
  rewrite F. assert (J : In e (filter p (g_edges g))) by (apply filter_In; auto). destruct (filter p (g_edges g)) as [|x [|? ?]]; try discriminate L. destruct J as [->|[]]. cbn [filter]. unfold is_between. rewrite A, B, !Nat.eqb_refl. reflexivity.
Qed.
Lemma prev_one g b : in_deg g b = 1%nat -> exists a, prev_nodes g b = [a] /\ linked g a b.
Proof.
  intro D. assert (L : length (prev_nodes g b) = 1%nat). { unfold prev_nodes. rewrite map_length. rewrite <- D. apply Permutation_length, GraphProofs.in_edges_perm. }
  destruct (prev_nodes g b) as [|a [|? ?]] eqn:E; try discriminate L. exists a. split; [reflexivity|]. assert (I : In a (prev_nodes g b)) by (rewrite E; left; reflexivity). unfold prev_nodes in I. apply in_map_iff in I. destruct I as (e & <- & I). apply GraphProofs.in_edges_in in I. destruct I. exists e. auto.
Qed.
Theorem snc_edit_succeeds g nl b add pad : wf g -> In nl (g_nodes g) -> In b (g_nodes g) -> out_degree g nl = 1%nat -> in_deg g b = 1%nat -> ~ In add (g_nodes g) -> (forall p, pad = Some p -> p <> add /\ ~ In p (g_nodes g)) ->
  exists g', snc_graph no_check g nl b add None pad = Ok g'.
Proof.
  intros W Inl Ib O D FA FP. unfold snc_graph. cbn [bind].
  assert (X : exists c, linked g nl c /\ next_nodes g nl = [c]). { rewrite <- next_degree in O. destruct (next_nodes g nl) as [|c [|? ?]] eqn:N; try discriminate O. exists c. split; [apply next_linked; rewrite N; left; reflexivity|reflexivity]. }
  destruct X as (c & L & N). unfold insert_after at 1. rewrite N. destruct (insert_total g add nl c) as [g2 E2]. { apply (between_one g nl c (fun e => Nat.eqb (src e) nl)); [exact O|exact L|]. intros e A _. apply Nat.eqb_eq, A. } rewrite E2. cbn [bind]. destruct pad as [p|]; [|eauto].
  assert (H1 : insert_after no_check g add nl = Ok g2) by (unfold insert_after; rewrite N; exact E2). destruct (inserted_after _ _ _ _ _ W Inl FA H1) as (e1 & _ & _ & I1).
  assert (D2 : in_deg g2 b = 1%nat). { rewrite (ins_in_deg g add e1 g2 b W I1). destruct (Nat.eqb_spec b add); [reflexivity|exact D]. }
  destruct (prev_one g2 b D2) as (a & PV & L2). unfold insert_before. rewrite PV. apply insert_total. apply (between_one g2 a b (fun e => Nat.eqb (snk e) b)); [exact D2|exact L2|]. intros e _ B. apply Nat.eqb_eq, B.
Qed.
Print Assumptions snc_edit_succeeds.

(* ---- the outputs ---- *)
Definition one_input (f : image -> image) (args : list image) : image := match args with [v] => f v | _ => None end.
(* operations after the pass *)
Definition snc_op (op : nat -> list image -> nat -> image) (nl b add pad C : nat) (l' : lin) (d : option pads) (s : R) (G : (Z * Z -> R) -> Z * Z -> R) : nat -> list image -> nat -> image :=
  fun n args k => if Nat.eqb n add then one_input (add_op C s) args else if Nat.eqb n b then activated (l_out l') G (lin_op l' args) else
    match d with Some z => if Nat.eqb n pad then one_input (pad_op (l_in l') z s) args else op n args k | None => op n args k end.
Definition pad_name (d : option pads) (pad : nat) : option nat := match d with Some _ => Some pad | None => None end.

(* what the corrected layer reads *)
Lemma corrected_reads l l' d hw s (f : tensor) ohw x : l_in l' = l_in l -> l_out l' = l_out l -> (d <> None -> dense (l_kind l') = false) -> out_hw l' (hw_of d hw) = ohw ->
  (forall y o p, (o < l_out l)%nat -> pos_in ohw p -> (forall c q, (c < l_in l)%nat -> pos_in hw q -> y c q = x c q + s) -> lin_val l' (hw_of d hw) (val_of d s hw y) o p = f o p) ->
  lin_op l' [opt_pad (l_in l') d s (add_op (l_in l) s (Some (hw, x)))] = Some (ohw, clip (l_out l) ohw f).
Proof.
  intros CI CO ND OH H. cbn [add_op]. set (y := clip (l_in l) hw (fun c p => x c p + s)).
  assert (Y : forall c q, (c < l_in l)%nat -> pos_in hw q -> y c q = x c q + s) by (intros c q A B; unfold y; apply clip_in; assumption).
  destruct d as [z|]; cbn [opt_pad pad_op hw_of val_of] in *; cbn [lin_op]; rewrite OH, CO; f_equal; f_equal; apply clip_ext; intros o p O P.
  - rewrite lin_val_clip by (apply ND; discriminate). apply H; assumption.
  - apply H; assumption.
Qed.
(* the activation, nodes that commute with the shift, and the corrected layer *)
Theorem snc_in_graph validate g nl mids b add pad l hw s G (ch : nat -> nat) (op : nat -> list image -> nat -> image) val : wf g -> walk g (nl :: mids ++ [b]) -> NoDup (nl :: mids ++ [b]) ->
  (forall n, In n (nl :: mids) -> out_degree g n = 1%nat) -> (forall n, In n (mids ++ [b]) -> in_deg g n = 1%nat) ->
  (forall o, In o (g_out g) -> In (fst o) (g_nodes g)) -> (forall n, In n mids -> ~ In n (map fst (g_out g))) -> ~ In add (g_nodes g) -> ~ In pad (g_nodes g) -> pad <> add ->
  (forall args k, op b args k = activated (l_out l) G (lin_op l args)) ->
  (forall a m v k, linked g a m -> In a (nl :: mids) -> In m mids -> op m [add_op (ch a) s v] k = add_op (ch m) s (op m [v] k)) ->
  computes op g val -> (forall e, In e (g_edges g) -> snk e = b -> ch (src e) = l_in l /\ exists x, val (src e) (si e) = Some (hw, x)) ->
  lin_wf l -> corrected_kind (l_kind l) = true -> strided l -> (0 < fst (ksize l))%nat -> (0 < snd (ksize l))%nat -> pad_replaceable l hw ->
  exists l' d, correct_layer l hw (out_hw l hw) None s = Ok (l', d) /\ (exists g', snc_graph no_check g nl b add None (pad_name d pad) = Ok g') /\
    forall g', snc_graph validate g nl b add None (pad_name d pad) = Ok g' -> g_in g' = g_in g /\ g_out g' = g_out g /\
      exists val', computes (snc_op op nl b add pad (ch nl) l' d s G) g' val' /\ outputs g' val' = outputs g val.
Proof.
  intros W WK ND OD ID OI MO FA FP PA OB OM C VB LW CK ST K1 K2 PR.
  destruct (snc_layer l hw s LW CK ST K1 K2 PR) as (l' & d & CL & LW' & KD & CI & CO & KK & NN & OH & LV). exists l', d. split; [exact CL|].
  assert (Nodes : forall n, In n (nl :: mids ++ [b]) -> In n (g_nodes g)) by (apply walk_nodes; [exact W|exact WK|cbn; rewrite app_length; cbn; lia]).
  assert (Inl : In nl (g_nodes g)) by (apply Nodes; left; reflexivity). assert (Ib : In b (g_nodes g)) by (apply Nodes; right; apply in_or_app; right; left; reflexivity).
  assert (FPN : forall p, pad_name d pad = Some p -> p <> add /\ ~ In p (g_nodes g)) by (intros p Q; destruct d; [injection Q as <-; auto|discriminate]).
  split; [apply snc_edit_succeeds; try assumption; [apply OD; left; reflexivity|apply ID, in_or_app; right; left; reflexivity]|].
  intros g' H. assert (NDS : d <> None -> dense (l_kind l') = false). { intro Q. rewrite KD. destruct (dense (l_kind l)) eqn:DN; [|reflexivity]. exfalso. apply Q. unfold correct_layer in CL. cbn [bind] in CL. assert (GP : get_padding_values l hw (out_hw l hw) = (None, l)) by (unfold get_padding_values; destruct (l_kind l); discriminate || reflexivity). rewrite GP in CL. cbn [fst snd] in CL. destruct (op2d_bias_correction l s); cbn [bind] in CL; [|discriminate]. injection CL as _ <-. reflexivity. }
  inversion ND as [|? ? NA ND']; subst x l0. assert (NBM : ~ In b mids) by (apply NoDup_remove_2 in ND'; rewrite app_nil_r in ND'; exact ND').
  destruct (snc_values validate g nl mids b add (pad_name d pad) g' op (snc_op op nl b add pad (ch nl) l' d s G) (fun n => add_op (ch n) s) (fun v => opt_pad (l_in l') d s v) val) as (R1 & R2 & _ & _ & R3); try assumption.
  - apply walk_chained; assumption.
  - apply OD. left. reflexivity.
  - intros n J. split; [apply Nodes; right; apply in_or_app; left; exact J|apply MO, J].
  - intros n l0 k N1 N2 N3. unfold snc_op. rewrite (proj2 (Nat.eqb_neq _ _) N1), (proj2 (Nat.eqb_neq _ _) N2). destruct d as [z|]; [|reflexivity]. cbn [pad_name] in N3. rewrite (proj2 (Nat.eqb_neq n pad)) by congruence. reflexivity.
  - intros v k. unfold snc_op. rewrite Nat.eqb_refl. reflexivity.
  - intros p v k Q. unfold snc_op. destruct d as [z|]; [|discriminate]. injection Q as <-. rewrite (proj2 (Nat.eqb_neq pad add)) by congruence. rewrite (proj2 (Nat.eqb_neq pad b)) by (intros ->; contradiction). rewrite Nat.eqb_refl. reflexivity.
  - intros e k J JM. apply OM; [exists e; auto| |exact JM]. apply (walk_chained g nl mids b WK OD ID e J). apply in_or_app. left. exact JM.
  - intros e k J Sb. destruct (VB e J Sb) as (CH & x & EV). rewrite EV. rewrite CH. unfold snc_op. rewrite (proj2 (Nat.eqb_neq b add)) by (intros ->; contradiction). rewrite Nat.eqb_refl, OB, CO. f_equal.
    assert (QQ : match pad_name d pad with Some _ => opt_pad (l_in l') d s (add_op (l_in l) s (Some (hw, x))) | None => add_op (l_in l) s (Some (hw, x)) end = opt_pad (l_in l') d s (add_op (l_in l) s (Some (hw, x)))) by (destruct d; reflexivity). rewrite QQ.
    apply (eq_trans (corrected_reads l l' d hw s (lin_val l hw x) (out_hw l hw) x CI CO NDS OH ltac:(intros y o p O P Y; apply LV; assumption))). reflexivity.
  - split; [exact R1|]. split; [exact R2|exact R3].
Qed.
Print Assumptions snc_in_graph.

(* ---- a zero padding node between the activation and the layer ---- *)
Lemma count_zero {A} (p : A -> bool) l : length (filter p l) = 0%nat -> forall x, In x l -> p x = false.
Proof. intros L x I. destruct (p x) eqn:E; [|reflexivity]. assert (J : In x (filter p l)) by (apply filter_In; auto). destruct (filter p l); [destruct J|discriminate L]. Qed.
Lemma remove_total g nl z b : wf g -> linked g nl z -> linked g z b -> nl <> z -> z <> b -> out_degree g nl = 1%nat -> out_degree g z = 1%nat -> in_deg g z = 1%nat -> ~ In z (g_in g) -> ~ In z (map fst (g_out g)) -> exists g', remove_between no_check g z nl b = Ok g'.
Proof.
  intros W L1 L2 N1 N2 O1 O2 D NI NO. unfold remove_between. assert (B : length (between g nl z) = 1%nat) by (apply (between_one g nl z (fun e => Nat.eqb (src e) nl)); [exact O1|exact L1|intros e A _; apply Nat.eqb_eq, A]).
  destruct (between g nl z) as [|e [|? ?]] eqn:E; try discriminate B. change (add_edge no_check ?h ?x) with (Ok (add_edge_nx h x)). cbn [bind]. set (g1 := add_edge_nx g (Edge nl b (si e) (ti e))).
  destruct (GraphProofs.add_edge_edges g (Edge nl b (si e) (ti e))) as (F1 & F2 & F3). fold g1 in F1, F2, F3.
  destruct L1 as (x0 & X1 & X2 & X3). destruct L2 as (f & Y1 & Y2 & Y3).
  destruct (GraphProofs.remove_edge_total g1 nl z x0) as [g2 E2]; [rewrite F1; apply in_or_app; left; exact X1|exact X2|exact X3|]. rewrite FuserProofs.remove_edge_no_check, E2. cbn [bind]. destruct (GraphProofs.remove_edge_spec _ _ _ _ E2) as (x & A1 & A2 & P2 & G2).
  assert (If : In f (g_edges g2)). { assert (J : In f (g_edges g1)) by (rewrite F1; apply in_or_app; left; exact Y1). apply (Permutation_in _ P2) in J. destruct J as [<-|J]; [congruence|exact J]. }
  destruct (GraphProofs.remove_edge_total g2 z b f If Y2 Y3) as [g3 E3]. rewrite FuserProofs.remove_edge_no_check, E3. cbn [bind]. destruct (GraphProofs.remove_edge_spec _ _ _ _ E3) as (y & B1 & B2 & P3 & G3).
  assert (P : Permutation (g_edges g ++ [Edge nl b (si e) (ti e)]) (x :: y :: g_edges g3)) by (rewrite <- F1, P2; constructor; exact P3).
  apply remove_node_succeeds. split; [|split; [|split; intro Q; exfalso]].
  - rewrite G3, G2. cbn. unfold g1, add_edge_nx. cbn. assert (Iz : In z (g_nodes g)) by (rewrite <- Y2; apply (wf_ends g W f Y1)). apply GraphProofs.add_node_in. left. apply GraphProofs.add_node_in. left. exact Iz.
  - intros k Ik. split.
    + apply Nat.eqb_neq. apply (count_zero (fun e => Nat.eqb (src e) z) (g_edges g3)); [|exact Ik]. pose proof (GraphProofs.filter_length_perm (fun e => Nat.eqb (src e) z) _ _ P) as Q. rewrite filter_app, app_length in Q. unfold out_degree in O2. rewrite O2 in Q. cbn [filter src] in Q. rewrite (proj2 (Nat.eqb_neq nl z) N1), A1, (proj2 (Nat.eqb_neq nl z) N1), B1, Nat.eqb_refl in Q. cbn [length] in Q. lia.
    + apply Nat.eqb_neq. apply (count_zero (fun e => Nat.eqb (snk e) z) (g_edges g3)); [|exact Ik]. pose proof (GraphProofs.filter_length_perm (fun e => Nat.eqb (snk e) z) _ _ P) as Q. rewrite filter_app, app_length in Q. unfold in_deg in D. rewrite D in Q. cbn [filter snk] in Q. rewrite (proj2 (Nat.eqb_neq b z)), A2, Nat.eqb_refl, B2, (proj2 (Nat.eqb_neq b z)) in Q by congruence. cbn [length] in Q. lia.
  - apply NO. rewrite <- F3. rewrite G3, G2 in Q. cbn [set_edges g_out] in Q. exact Q.
  - apply NI. rewrite <- F2. rewrite G3, G2 in Q. cbn [set_edges g_in] in Q. exact Q.
Qed.
Theorem snc_zero_in_graph validate g nl z b add pad l hw zp s G (op : nat -> list image -> nat -> image) val : wf g -> linked g nl z -> linked g z b -> NoDup [nl; z; b] ->
  out_degree g nl = 1%nat -> out_degree g z = 1%nat -> in_deg g z = 1%nat -> in_deg g b = 1%nat ->
  (forall o, In o (g_out g) -> In (fst o) (g_nodes g)) -> ~ In z (g_in g) -> ~ In z (map fst (g_out g)) -> ~ In add (g_nodes g) -> ~ In pad (g_nodes g) -> pad <> add ->
  (forall args k, op z args k = one_input (pad_op (l_in l) zp 0) args) -> (forall args k, op b args k = activated (l_out l) G (lin_op l args)) ->
  computes op g val -> (forall e, In e (g_edges g) -> snk e = z -> exists x, val (src e) (si e) = Some (hw, x)) ->
  lin_wf l -> l_kind l = K_conv \/ l_kind l = K_dw -> strided l -> l_pad l = P_valid -> nonneg zp ->
  exists l' d, correct_layer l (pad_hw zp hw) (out_hw l (pad_hw zp hw)) (Some zp) s = Ok (l', d) /\ (exists g', snc_graph no_check g nl b add (Some z) (pad_name d pad) = Ok g') /\
    forall g', snc_graph validate g nl b add (Some z) (pad_name d pad) = Ok g' -> g_in g' = g_in g /\ g_out g' = g_out g /\
      exists val', computes (snc_op op nl b add pad (l_in l) l' d s G) g' val' /\ outputs g' val' = outputs g val.
Proof.
  intros W L1 L2 ND O1 O2 D1 D2 OI ZI ZO FA FP PA OZ OB C VZ LW KD ST PV NN.
  destruct (snc_zero_padding l hw zp s LW KD ST PV NN) as (l' & d & CL & LW' & KD' & CI & CO & KK & DZ & OH & LV). exists l', d. split; [exact CL|].
  destruct (linked_nodes g nl z W L1) as [Inl Iz]. destruct (linked_nodes g z b W L2) as [_ Ib].
  assert (N1 : nl <> z) by (inversion ND as [|? ? Q _]; subst; intros ->; apply Q; left; reflexivity). assert (N2 : z <> b) by (inversion ND as [|? ? _ ND2]; inversion ND2 as [|? ? Q _]; subst; intros ->; apply Q; left; reflexivity). assert (N3 : nl <> b) by (inversion ND as [|? ? Q _]; subst; intros ->; apply Q; right; left; reflexivity).
  assert (REM : forall g1, remove_between validate g z nl b = Ok g1 \/ remove_between no_check g z nl b = Ok g1 -> exists e f, In e (g_edges g) /\ In f (g_edges g) /\ src e = nl /\ snk e = z /\ src f = z /\ snk f = b /\ g_in g1 = g_in g /\ g_out g1 = g_out g /\ wf g1 /\ (forall m, In m (g_nodes g1) <-> In m (g_nodes g) /\ m <> z) /\
    exists rest, Permutation (g_edges g) (e :: f :: rest) /\ Permutation (g_edges g1) (Edge nl b (si e) (ti e) :: rest) /\ forall x, In x rest -> In x (g_edges g) /\ src x <> nl /\ src x <> z /\ snk x <> z /\ snk x <> b).
  { intros g1 H. assert (X : exists e f rest, src e = nl /\ snk e = z /\ src f = z /\ snk f = b /\ Permutation (g_edges g) (e :: f :: rest) /\ (forall x, In x rest -> src x <> z /\ snk x <> z) /\ Permutation (g_edges g1) (Edge nl b (si e) (ti e) :: rest) /\ same_interface g g1 /\ wf g1 /\ (forall m, In m (g_nodes g1) <-> In m (g_nodes g) /\ m <> z) /\ ~ In z (g_in g) /\ ~ In z (map fst (g_out g))) by (destruct H as [H|H]; eapply remove_between_removes; try exact H; congruence || assumption).
    destruct X as (e & f & rest & A1 & A2 & A3 & A4 & P & R & P1 & [I1 I2] & W1 & M & _). exists e, f.
    assert (Ie : In e (g_edges g)) by (apply (Permutation_in _ (Permutation_sym P)); left; reflexivity). assert (If : In f (g_edges g)) by (apply (Permutation_in _ (Permutation_sym P)); right; left; reflexivity).
    do 10 (split; [assumption|]). exists rest. split; [exact P|]. split; [exact P1|]. intros x J. split; [apply (Permutation_in _ (Permutation_sym P)); right; right; exact J|]. destruct (R x J) as [R1 R2]. split; [|split; [exact R1|split; [exact R2|]]].
    - apply Nat.eqb_neq. apply (count_zero (fun e => Nat.eqb (src e) nl) rest); [|exact J]. pose proof (GraphProofs.filter_length_perm (fun e => Nat.eqb (src e) nl) _ _ P) as Q. unfold out_degree in O1. rewrite O1 in Q. cbn [filter] in Q. rewrite A1, Nat.eqb_refl, A3, (proj2 (Nat.eqb_neq z nl)) in Q by congruence. cbn [length] in Q. lia.
    - apply Nat.eqb_neq. apply (count_zero (fun e => Nat.eqb (snk e) b) rest); [|exact J]. pose proof (GraphProofs.filter_length_perm (fun e => Nat.eqb (snk e) b) _ _ P) as Q. unfold in_deg in D2. rewrite D2 in Q. cbn [filter] in Q. rewrite A2, A4, Nat.eqb_refl, (proj2 (Nat.eqb_neq z b)) in Q by congruence. cbn [length] in Q. lia. }
  assert (DEG : forall g1 e rest, src e = nl -> Permutation (g_edges g1) (Edge nl b (si e) (ti e) :: rest) -> (forall x, In x rest -> In x (g_edges g) /\ src x <> nl /\ src x <> z /\ snk x <> z /\ snk x <> b) -> out_degree g1 nl = 1%nat /\ in_deg g1 b = 1%nat).
  { intros g1 e rest _ P1 R. unfold out_degree, in_deg. rewrite !(GraphProofs.filter_length_perm _ _ _ P1). cbn [filter src snk]. rewrite !Nat.eqb_refl. rewrite !GraphProofs.filter_nil; [auto| |]; intros x J; apply Nat.eqb_neq; apply R, J. }
  assert (FPN : forall p, pad_name d pad = Some p -> p <> add /\ ~ In p (g_nodes g)) by (intros p Q; destruct d; [injection Q as <-; auto|discriminate]).
  split.
  { destruct (remove_total g nl z b W L1 L2 N1 N2 O1 O2 D1 ZI ZO) as [g1 E1]. destruct (REM g1 (or_intror E1)) as (e & f & Ie & If & A1 & A2 & A3 & A4 & I1 & I2 & W1 & M & rest & P & P1 & R). destruct (DEG g1 e rest A1 P1 R) as [O' D'].
    destruct (snc_edit_succeeds g1 nl b add (pad_name d pad)) as [g' E']; try assumption; try (apply M; split; assumption || congruence).
    - intro Q. apply M in Q. apply FA, Q.
    - intros p Q. destruct (FPN p Q). split; [assumption|]. intro J. apply M in J. destruct J. contradiction.
    - exists g'. unfold snc_graph in *. rewrite E1. exact E'. }
  intros g' H. unfold snc_graph in H. destruct (remove_between validate g z nl b) as [g1|] eqn:E1; cbn [bind] in H; [|discriminate]. assert (H' : snc_graph validate g1 nl b add None (pad_name d pad) = Ok g') by exact H. clear H.
  destruct (REM g1 (or_introl eq_refl)) as (e & f & Ie & If & A1 & A2 & A3 & A4 & I1 & I2 & W1 & M & rest & P & P1 & R). destruct (DEG g1 e rest A1 P1 R) as [O' D'].
  set (op1 := fun n args k => if Nat.eqb n b then match args with [v] => op b [op z [v] (si f)] k | _ => op b args k end else op n args k).
  assert (RZ : forall k, val z k = op z [val nl (si e)] k). { intro k. apply C; [exact Iz|]. exists [e]. split; [|split; [repeat constructor|cbn; rewrite A1; reflexivity]]. unfold in_deg in D1. assert (J : In e (filter (fun x => Nat.eqb (snk x) z) (g_edges g))) by (apply filter_In; split; [exact Ie|apply Nat.eqb_eq, A2]). destruct (filter _ (g_edges g)) as [|q [|? ?]]; try discriminate D1. destruct J as [->|[]]. reflexivity. }
  assert (RB : forall k, val b k = op b [val z (si f)] k). { intro k. apply C; [exact Ib|]. exists [f]. split; [|split; [repeat constructor|cbn; rewrite A3; reflexivity]]. unfold in_deg in D2. assert (J : In f (filter (fun x => Nat.eqb (snk x) b) (g_edges g))) by (apply filter_In; split; [exact If|apply Nat.eqb_eq, A4]). destruct (filter _ (g_edges g)) as [|q [|? ?]]; try discriminate D2. destruct J as [->|[]]. reflexivity. }
  assert (C1 : computes op1 g1 val).
  { intros n In1 a (es & PE & SE & ->) k. apply M in In1. destruct In1 as [In1 Nz]. assert (PE' : Permutation es (filter (fun x => Nat.eqb (snk x) n) (Edge nl b (si e) (ti e) :: rest))) by (rewrite PE; apply GraphProofs.filter_perm, P1). cbn [filter snk] in PE'. unfold op1. destruct (Nat.eqb_spec n b) as [->|Nb].
    - rewrite Nat.eqb_refl in PE'. rewrite GraphProofs.filter_nil in PE' by (intros x J; apply Nat.eqb_neq; apply R, J). apply Permutation_sym, Permutation_length_1_inv in PE'. subst es. cbn [map src si]. rewrite RB, RZ. reflexivity.
    - rewrite (proj2 (Nat.eqb_neq b n)) in PE' by congruence. apply C; [exact In1|]. exists es. split; [|split; [exact SE|reflexivity]]. rewrite PE'. apply Permutation_trans with (filter (fun x => Nat.eqb (snk x) n) (e :: f :: rest)); [|apply Permutation_sym, GraphProofs.filter_perm, P]. cbn [filter]. rewrite A2, A4, (proj2 (Nat.eqb_neq z n)), (proj2 (Nat.eqb_neq b n)) by congruence. reflexivity. }
  destruct (snc_values validate g1 nl [] b add (pad_name d pad) g' op1 (snc_op op nl b add pad (l_in l) l' d s G) (fun _ => add_op (l_in l) s) (fun v => opt_pad (l_in l') d s v) val) as (R1 & R2 & _ & _ & R3); try assumption.
  - apply M. split; [exact Inl|exact N1].
  - apply M. split; [exact Ib|congruence].
  - constructor; [intros [Q|[]]; congruence|]. constructor; [intros []|constructor].
  - intros x J. apply (Permutation_in _ P1) in J. cbn [app In]. destruct J as [<-|J]; cbn [src snk]; [tauto|]. destruct (R x J) as (_ & Q1 & _ & _ & Q2). split; intros [Q|[]]; congruence.
  - intros n [<-|[]]. exact D'.
  - intros o J. rewrite I2 in J. apply M. split; [apply OI, J|]. intros Q. apply ZO. rewrite <- Q. apply in_map, J.
  - intros n [].
  - intro Q. apply M in Q. apply FA, Q.
  - intros p Q. destruct (FPN p Q). split; [assumption|]. intro J. apply M in J. destruct J. contradiction.
  - intros n l0 k Q1 Q2 Q3. unfold snc_op, op1. rewrite (proj2 (Nat.eqb_neq _ _) Q1), (proj2 (Nat.eqb_neq _ _) Q2). destruct d as [zz|]; [|reflexivity]. cbn [pad_name] in Q3. rewrite (proj2 (Nat.eqb_neq n pad)) by congruence. reflexivity.
  - intros v k. unfold snc_op. rewrite Nat.eqb_refl. reflexivity.
  - intros p v k Q. unfold snc_op. destruct d as [zz|]; [|discriminate]. injection Q as <-. rewrite (proj2 (Nat.eqb_neq pad add)) by congruence. rewrite (proj2 (Nat.eqb_neq pad b)) by (intros ->; contradiction). rewrite Nat.eqb_refl. reflexivity.
  - intros x k _ [].
  - intros x k J Sb. apply (Permutation_in _ P1) in J. destruct J as [<-|J]; [|destruct (R x J) as (_ & _ & _ & _ & Q); contradiction]. cbn [src si]. destruct (VZ e Ie A2) as (v & EV). rewrite A1 in EV. rewrite EV. unfold snc_op, op1. rewrite (proj2 (Nat.eqb_neq b add)) by (intros ->; contradiction). rewrite Nat.eqb_refl, OB, OZ, CO. f_equal.
    assert (QQ : match pad_name d pad with Some _ => opt_pad (l_in l') d s (add_op (l_in l) s (Some (hw, v))) | None => add_op (l_in l) s (Some (hw, v)) end = opt_pad (l_in l') d s (add_op (l_in l) s (Some (hw, v)))) by (destruct d; reflexivity). rewrite QQ.
    assert (NDS : d <> None -> dense (l_kind l') = false) by (intros _; rewrite KD'; destruct KD as [-> | ->]; reflexivity).
    apply (eq_trans (corrected_reads l l' d hw s (lin_val l (pad_hw zp hw) (pad_val zp 0 hw v)) (out_hw l (pad_hw zp hw)) v CI CO NDS OH ltac:(intros y o p O PP Y; apply LV; assumption))). cbn [one_input pad_op lin_op]. f_equal. f_equal. apply clip_ext. intros o p O PP. symmetry. apply lin_val_clip. destruct KD as [-> | ->]; reflexivity.
  - split; [congruence|]. split; [congruence|]. destruct R3 as (val' & V1 & V2). exists val'. split; [exact V1|]. rewrite V2. unfold outputs. rewrite I2. reflexivity.
Qed.
Print Assumptions snc_zero_in_graph.

(* ---- nodes that commute with the shift: averages of values inside the image (reshaping, pooling without padding) ---- *)
Fixpoint wsum (ws : list (R * (nat * (Z * Z)))) (x : tensor) : R := match ws with [] => 0 | (w, (c, q)) :: r => w * x c q + wsum r x end.
Definition average_op (C' : nat) (size : Z * Z -> Z * Z) (at_pos : Z * Z -> nat -> Z * Z -> list (R * (nat * (Z * Z)))) (args : list image) : image :=
  match args with [Some (hw, x)] => Some (size hw, clip C' (size hw) (fun c p => wsum (at_pos hw c p) x)) | _ => None end.
Lemma wsum_shift C hw x s : forall ws, (forall w c q, In (w, (c, q)) ws -> (c < C)%nat /\ pos_in hw q) -> wsum ws (clip C hw (fun c p => x c p + s)) = wsum ws x + fold_right (fun w r => fst w + r) 0 ws * s.
Proof.
  induction ws as [|[w [c q]] ws IH]; intro H; cbn [wsum fold_right fst]; [ring|]. destruct (H w c q (or_introl eq_refl)) as [A B]. rewrite IH by (intros w' c' q' J; apply (H w'); right; exact J). rewrite clip_in by assumption. ring.
Qed.
Theorem average_commutes C C' size at_pos s v : (forall hw c p w c' q, (c < C')%nat -> pos_in (size hw) p -> In (w, (c', q)) (at_pos hw c p) -> (c' < C)%nat /\ pos_in hw q) ->
  (forall hw c p, (c < C')%nat -> pos_in (size hw) p -> fold_right (fun w r => fst w + r) 0 (at_pos hw c p) = 1) ->
  average_op C' size at_pos [add_op C s v] = add_op C' s (average_op C' size at_pos [v]).
Proof.
  intros I S. destruct v as [[hw x]|]; [|reflexivity]. cbn [add_op average_op]. f_equal. f_equal. apply clip_ext. intros c p Hc Hp. rewrite (wsum_shift C hw x s) by (intros w c' q J; apply (I hw c p w c' q); assumption). rewrite S, clip_in by assumption. ring.
Qed.
Print Assumptions average_commutes.
