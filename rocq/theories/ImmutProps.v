(* ImmutProps.v -- C49: frozen platform objects; C57: the block that defines one. *)
From Coq Require Import String.
From Verif Require Import Base SDict ImmutModel.
Local Open Scope list_scope.

(* ---- C49 ---- *)
Definition assigning (a : act) : Prop := match a with A_del _ => False | _ => True end.

(* once marked initialised, every assignment (and marking it again) raises and changes nothing, for ever *)
Theorem frozen_forever : forall o l, is_init o = true -> Forall assigning l ->
  history l o = (map (fun _ => Some E_critical) l, o).
Proof.
  intros o l F H. induction H as [|a l A H IH]; cbn [history map]; [reflexivity|].
  assert (perform a o = Err E_critical) as ->.
  { destruct a as [k v| |k]; cbn [perform]; [unfold set_attr|unfold init_done|destruct A]; rewrite F; reflexivity. }
  rewrite IH. reflexivity.
Qed.
Print Assumptions frozen_forever.

(* until then assignments work; marking it initialised succeeds, freezes it and keeps every other attribute *)
Theorem assignable_until_done : forall o, is_init o = false ->
  (forall k v, exists o', set_attr k v o = Ok o' /\ sget k o' = Some v /\ forall j, j <> k -> sget j o' = sget j o) /\
  exists o', init_done o = Ok o' /\ is_init o' = true /\ forall j, j <> init_attr -> sget j o' = sget j o.
Proof.
  intros o F. assert (A : forall k v, exists o', set_attr k v o = Ok o' /\ sget k o' = Some v /\ forall j, j <> k -> sget j o' = sget j o).
  { intros k v. unfold set_attr. rewrite F. eexists. split; [reflexivity|]. split; [rewrite sget_sset, String.eqb_refl; reflexivity|].
    intros j Nj. rewrite sget_sset. destruct (String.eqb_spec j k); [congruence|reflexivity]. }
  split; [exact A|]. destruct (A init_attr (V_bool true)) as [o' [E [G O]]]. exists o'. unfold init_done. rewrite F. split; [exact E|]. split; [unfold is_init; rewrite G; reflexivity|exact O].
Qed.
Print Assumptions assignable_until_done.

(* deleting attributes is not guarded: deleting the mark makes the object assignable again *)
Theorem deletion_unfreezes_refuted : exists o l o', is_init o = true /\ sget "name" o = Some (V_data 1) /\
  history l o = ([None; None], o') /\ sget "name" o' = Some (V_data 2).
Proof.
  exists [("name"%string, V_data 1); (init_attr, V_bool true)], [A_del init_attr; A_set "name" (V_data 2)], [("name"%string, V_data 2)].
  split; [reflexivity|]. split; [reflexivity|]. split; reflexivity.
Qed.
Print Assumptions deletion_unfreezes_refuted.

Example frozen_case : let o := [("name"%string, V_data 1); (init_attr, V_bool true)] in
  history [A_set "name" (V_data 2); A_done; A_set init_attr (V_bool false); A_set "name" (V_data 3)] o =
  ([Some E_critical; Some E_critical; Some E_critical; Some E_critical], o).
Proof. reflexivity. Qed.

(* ---- C57 ---- *)
Lemma add_layers_spec ls : forall seen, NoDup seen ->
  match add_layers ls seen with Ok s => s = seen ++ ls /\ NoDup (seen ++ ls) | Err _ => ~ NoDup (seen ++ ls) end.
Proof.
  induction ls as [|l ls IH]; intros seen N; cbn [add_layers]; [rewrite app_nil_r; auto|].
  destruct (existsb (Nat.eqb l) seen) eqn:E.
  - apply existsb_exists in E. destruct E as [x [I E]]. apply Nat.eqb_eq in E. subst x. intro D. apply NoDup_remove_2 in D. apply D, in_app_iff. auto.
  - assert (~ In l seen) as Ni.
    { intro I. enough (existsb (Nat.eqb l) seen = true) by congruence. apply existsb_exists. exists l. split; [exact I|apply Nat.eqb_refl]. }
    specialize (IH (seen ++ [l])). rewrite <- app_assoc in IH. cbn [app] in IH. apply IH. clear -N Ni. induction seen as [|x s IH]; cbn; [repeat constructor; tauto|]. inversion N as [|? ? N1 N2]; subst. constructor; [rewrite in_app_iff; cbn in *; intuition congruence|apply IH; cbn in *; tauto].
Qed.
Definition all_names (l : list opset) : list string := map fst l.
Definition all_layers (l : list opset) : list nat := concat (map snd l).
Lemma NoDup_app_l {A} (a b : list A) : NoDup (a ++ b) -> NoDup a.
Proof. induction a as [|x a IH]; cbn; intro N; [constructor|]. inversion N as [|? ? N1 N2]; subst. constructor; [intro I; apply N1, in_app_iff; auto|auto]. Qed.
Lemma validate_spec l : forall names seen, NoDup names -> NoDup seen ->
  (validate l names seen = Ok tt <-> NoDup (names ++ all_names l) /\ NoDup (seen ++ all_layers l)).
Proof.
  unfold all_names, all_layers. induction l as [|[n ls] l IH]; intros names seen N1 N2; cbn [validate map concat fst snd].
  - rewrite !app_nil_r. tauto.
  - destruct (existsb (String.eqb n) names) eqn:E.
    + split; [discriminate|]. intros [D _]. exfalso. apply existsb_exists in E. destruct E as [x [I E]]. apply String.eqb_eq in E. subst x.
      apply NoDup_remove_2 in D. apply D, in_app_iff. auto.
    + pose proof (add_layers_spec ls seen N2) as A. destruct (add_layers ls seen) as [s|e]; cbn [bind].
      * destruct A as [-> A]. rewrite IH; [| |exact A].
        -- rewrite <- !app_assoc. cbn [app]. tauto.
        -- assert (~ In n names) as Ni.
           { intro I. enough (existsb (String.eqb n) names = true) by congruence. apply existsb_exists. exists n. split; [exact I|apply String.eqb_refl]. }
           clear -N1 Ni. induction names as [|x s IH]; cbn; [repeat constructor; tauto|]. inversion N1 as [|? ? M1 M2]; subst. constructor; [rewrite in_app_iff; cbn in *; intuition congruence|apply IH; cbn in *; tauto].
      * split; [discriminate|]. intros [_ D]. exfalso. apply A. rewrite app_assoc in D. apply NoDup_app_l in D. exact D.
Qed.
(* no operator set is given twice and no layer belongs to two of them *)
Definition disjoint_opsets (l : list opset) : Prop := NoDup (all_names l) /\ NoDup (all_layers l).
Lemma validate_iff l : validate l [] [] = Ok tt <-> disjoint_opsets l.
Proof. apply (validate_spec l [] []); constructor. Qed.
Lemma disjoint_app a b : disjoint_opsets (a ++ b) -> disjoint_opsets a.
Proof. unfold disjoint_opsets, all_names, all_layers. rewrite !map_app, concat_app. intros [A B]. split; eapply NoDup_app_l; eassumption. Qed.

Definition same_objs_but (i : nat) (w w' : world) : Prop := forall j, j <> i -> w_objs w' j = w_objs w j.
Lemma component_ok c w w' : happen (Component c) w = Ok w' -> exists i, w_current w = Some i /\ q_frozen (w_objs w i) = false /\
  disjoint_opsets (q_ops (w_objs w i) ++ [c]) /\ w_current w' = Some i /\ same_objs_but i w w' /\
  w_objs w' i = FQC false (q_ops (w_objs w i) ++ [c]) (q_mapped (w_objs w i)).
Proof.
  cbn [happen]. destruct (w_current w) as [i|] eqn:C; [|discriminate]. destruct (validate _ [] []) as [[]|] eqn:V; cbn [bind]; [|discriminate].
  destruct (q_frozen (w_objs w i)) eqn:F; [discriminate|]. intro H. inversion H; subst w'. exists i. cbn [upd w_current w_objs]. split; [reflexivity|]. split; [exact F|].
  split; [apply validate_iff, V|]. split; [exact C|]. split; [intros j Nj; cbn; destruct (Nat.eqb_spec j i); [congruence|reflexivity]|]. rewrite Nat.eqb_refl. reflexivity.
Qed.
Lemma component_total c w i : w_current w = Some i -> q_frozen (w_objs w i) = false -> disjoint_opsets (q_ops (w_objs w i) ++ [c]) ->
  happen (Component c) w = Ok (upd i (FQC false (q_ops (w_objs w i) ++ [c]) (q_mapped (w_objs w i))) w).
Proof. intros C F D. cbn [happen]. rewrite C. apply validate_iff in D. rewrite D. cbn [bind]. rewrite F. reflexivity. Qed.

Lemma body_spec i cs : forall w, w_current w = Some i -> q_frozen (w_objs w i) = false ->
  let '(w', e) := block_body cs w in
  w_current w' = Some i /\ same_objs_but i w w' /\ q_frozen (w_objs w' i) = false /\ q_mapped (w_objs w' i) = q_mapped (w_objs w i) /\
  match e with
  | None => q_ops (w_objs w' i) = q_ops (w_objs w i) ++ cs /\ (cs <> [] -> disjoint_opsets (q_ops (w_objs w i) ++ cs))
  | Some _ => ~ disjoint_opsets (q_ops (w_objs w i) ++ cs)
  end.
Proof.
  induction cs as [|c cs IH]; intros w C F.
  - cbn [block_body]. split; [exact C|]. split; [intros j _; reflexivity|]. split; [exact F|]. split; [reflexivity|]. rewrite app_nil_r. split; [reflexivity|congruence].
  - cbn [block_body]. destruct (happen (Component c) w) as [w1|e] eqn:E.
    + destruct (component_ok _ _ _ E) as [i' [C' [_ [D [C1 [S1 O1]]]]]]. assert (i' = i) by congruence. subst i'.
      specialize (IH w1 C1). rewrite O1 in IH. cbn [q_frozen q_mapped q_ops] in IH. specialize (IH eq_refl). destruct (block_body cs w1) as [w2 e2].
      destruct IH as [A1 [A2 [A3 [A4 A5]]]]. split; [exact A1|]. split; [intros j Nj; rewrite (A2 j Nj); apply S1, Nj|]. split; [exact A3|]. split; [exact A4|].
      rewrite <- app_assoc in A5. cbn [app] in A5. destruct e2; [exact A5|]. destruct A5 as [A5 A6]. split; [exact A5|]. intros _. destruct cs as [|c2 cs]; [exact D|apply A6; discriminate].
    + split; [exact C|]. split; [intros j _; reflexivity|]. split; [exact F|]. split; [reflexivity|]. intro D. change (c :: cs) with ([c] ++ cs) in D. rewrite app_assoc in D. apply disjoint_app in D.
      rewrite (component_total c w i C F D) in E. discriminate.
Qed.

(* a definition block on an object that is not frozen succeeds exactly when its operator sets have distinct names and share no
   layer; it then records them all, in order, freezes the object, touches no other object and leaves no object current *)
Theorem definition_block : forall i cs w, q_frozen (w_objs w i) = false -> q_ops (w_objs w i) = [] ->
  (snd (with_block i cs w) = None <-> disjoint_opsets cs) /\
  (snd (with_block i cs w) = None -> let w' := fst (with_block i cs w) in
     w_objs w' i = FQC true cs cs /\ (forall j, j <> i -> w_objs w' j = w_objs w j) /\ w_current w' = None).
Proof.
  intros i cs w F O. unfold with_block. pose proof (body_spec i cs (World (w_objs w) (Some i)) eq_refl F) as B. cbn [w_objs w_current] in B.
  destruct (block_body cs _) as [w1 [e|]]; destruct B as [B1 [B2 [B3 [B4 B5]]]]; rewrite O in B5; cbn [app] in B5.
  - cbn [fst snd]. split; [split; [discriminate|tauto]|discriminate].
  - destruct B5 as [B5 B6]. cbn [happen]. rewrite B3. cbn [fst snd]. split.
    + split; [intros _|reflexivity]. destruct cs as [|c cs]; [split; constructor|apply B6; discriminate].
    + intros _. cbn [upd w_objs w_current]. rewrite Nat.eqb_refl, B5. split; [reflexivity|]. split; [|reflexivity]. intros j Nj. destruct (Nat.eqb_spec j i); [congruence|]. apply B2, Nj.
Qed.
Print Assumptions definition_block.

(* whatever happens afterwards, a frozen object stays as it is *)
Theorem defined_object_stays : forall l i w, q_frozen (w_objs w i) = true -> w_objs (world_after l w) i = w_objs w i.
Proof.
  assert (S1 : forall e i w w', q_frozen (w_objs w i) = true -> happen e w = Ok w' -> w_objs w' i = w_objs w i).
  { intros e i w w' F H. destruct e as [j|c|j|j]; [cbn [happen] in H; inversion H; reflexivity| | |discriminate].
    - destruct (component_ok _ _ _ H) as [k [_ [Fk [_ [_ [Sk _]]]]]]. apply Sk. congruence.
    - cbn [happen] in H. destruct (q_frozen (w_objs w j)) eqn:Fj; [discriminate|]. inversion H; subst w'. cbn. destruct (Nat.eqb_spec i j); [congruence|reflexivity]. }
  induction l as [|e l IH]; intros i w F; cbn [world_after]; [reflexivity|]. destruct (happen e w) as [w'|] eqn:H; [|apply IH, F].
  rewrite IH; [apply (S1 e i w w' F H)|]. rewrite (S1 e i w w' F H). exact F.
Qed.
Print Assumptions defined_object_stays.

(* a block that fails leaves its object current: the next component created outside any block is silently added to it *)
Theorem failed_block_stays_current_refuted : exists i cs w w' e, q_frozen (w_objs w i) = false /\ w_current w = None /\
  with_block i cs w = (w', Some e) /\ w_current w' = Some i /\
  exists w2, happen (Component ("stray"%string, [7%nat])) w' = Ok w2 /\ q_ops (w_objs w2 i) = [("a"%string, [1%nat]); ("stray"%string, [7%nat])].
Proof.
  exists 0%nat, [("a"%string, [1%nat]); ("b"%string, [1%nat])], (World (fun _ => FQC false [] []) None).
  eexists. exists E_critical. split; [reflexivity|]. split; [reflexivity|]. split; [reflexivity|]. split; [reflexivity|]. eexists. split; reflexivity.
Qed.
Print Assumptions failed_block_stays_current_refuted.

(* so does a second block on an object already defined *)
Theorem second_block_stays_current_refuted : exists i w w' e, q_frozen (w_objs w i) = true /\ w_current w = None /\
  with_block i [] w = (w', Some e) /\ w_current w' = Some i.
Proof.
  exists 0%nat, (World (fun _ => FQC true [] []) None). eexists. exists E_critical. split; [reflexivity|]. split; [reflexivity|]. split; reflexivity.
Qed.
Print Assumptions second_block_stays_current_refuted.

Example definition_case : let '(w', e) := with_block 0 [("a"%string, [1%nat; 2%nat]); ("b"%string, [3%nat])] (World (fun _ => FQC false [] []) None) in
  e = None /\ q_ops (w_objs w' 0) = [("a"%string, [1%nat; 2%nat]); ("b"%string, [3%nat])] /\ w_current w' = None.
Proof. split; [reflexivity|]. split; reflexivity. Qed.
