(* TrainDataProofs.v -- C92: proofs. *)
From Coq Require Import List Arith Lia Reals Permutation.
From Verif Require Import Nd.
From Verif Require Import Base GptqLossModel GptqLossProofs TrainDataModel TrainDataSpec.
Import ListNotations.
Open Scope nat_scope.
Open Scope res_scope.

Section Zip.
  Context {A : Type} (d : A).
  Lemma map_seq_nth (t : list A) : map (fun i => nth i t d) (seq 0 (length t)) = t.
  Proof.
    induction t as [|x t IH]; [reflexivity|]. cbn [length seq map nth]. f_equal. rewrite <- seq_shift, map_map. exact IH.
  Qed.
  Lemma combine_map {X Y Z} (f : X -> Y) (g : X -> Z) l : combine (map f l) (map g l) = map (fun x => (f x, g x)) l.
  Proof. induction l; [reflexivity|]. cbn. f_equal. exact IHl. Qed.
  Lemma zipn_rows n m b : 0 < n -> batch_of n m b -> zipn b = map (row d b) (seq 0 m).
  Proof.
    revert n. induction b as [|t b IH]; intros n N [L F]; [cbn in L; lia|]. inversion F as [|? ? Lt Fb]; subst.
    destruct b as [|t' b].
    - cbn [zipn]. rewrite <- (map_seq_nth t) at 1. rewrite map_map. reflexivity.
    - change (zipn (t :: t' :: b)) with (map (fun p => fst p :: snd p) (combine t (zipn (t' :: b)))).
      rewrite (IH (length (t' :: b))) by ((cbn; lia) || (split; [reflexivity|exact Fb])). rewrite <- (map_seq_nth t) at 1.
      rewrite combine_map, map_map. reflexivity.
  Qed.
  Lemma batch_size n m (b : batch A) : 0 < n -> batch_of n m b -> size b = m.
  Proof. intros N [L F]. destruct b; [cbn in L; lia|]. inversion F. assumption. Qed.
  Lemma flat_samples n (g : list (batch A)) : well_formed n g -> flat_gen g = samples_of d g.
  Proof.
    intros [N F]. unfold flat_gen, samples_of. induction F as [|b g (m & Hb) F IH]; [reflexivity|]. cbn.
    rewrite IH, (zipn_rows n m b N Hb), (batch_size n m b N Hb). reflexivity.
  Qed.
  Lemma sample_length n (g : list (batch A)) s : well_formed n g -> In s (samples_of d g) -> length s = n.
  Proof.
    intros [N F] I. unfold samples_of in I. apply in_flat_map in I. destruct I as (b & Ib & Is). rewrite Forall_forall in F.
    destruct (F b Ib) as (m & L & _). apply in_map_iff in Is. destruct Is as (i & <- & _). unfold row. rewrite map_length. exact L.
  Qed.
  Lemma columns n m (b : batch A) : 0 < n -> batch_of n m b -> tensors d n (zipn b) = b.
  Proof.
    intros N Hb. rewrite (zipn_rows n m b N Hb). unfold tensors. destruct Hb as [L F].
    transitivity (map (fun j => nth j b []) (seq 0 n)).
    - apply map_ext_in. intros j J. apply in_seq in J. rewrite map_map. unfold row.
      assert (E : length (nth j b []) = m) by (rewrite Forall_forall in F; apply F; apply nth_In; lia).
      rewrite <- (map_seq_nth (nth j b [])), E. apply map_ext. intro i.
      rewrite (nth_indep _ d ((fun t => nth i t d) [])) by (rewrite map_length; lia). rewrite (map_nth (fun t => nth i t d)). reflexivity.
    - rewrite <- L. clear. induction b as [|t b IH]; [reflexivity|]. cbn [length seq map nth]. f_equal. rewrite <- seq_shift, map_map. exact IH.
  Qed.
End Zip.

Section Chunk.
  Context {X : Type}.
  Lemma chunk_batches B : 0 < B -> forall fuel (l : list X), length l <= fuel -> batches_of B l (chunk fuel B l).
  Proof.
    intro P. induction fuel as [|f IH]; intros l L.
    - destruct l; [|cbn in L; lia]. split; [reflexivity|]. split; [constructor|]. cbn. intros; lia.
    - destruct l as [|x l]; [split; [reflexivity|]; split; [constructor|]; cbn; intros; lia|].
      set (l' := x :: l) in *. assert (El : chunk (S f) B l' = firstn B l' :: chunk f B (skipn B l')) by reflexivity.
      assert (Ls : length (skipn B l') <= f) by (rewrite skipn_length; cbn [length l'] in *; lia).
      destruct (IH _ Ls) as (C & F & Fu). rewrite El. split; [|split].
      + cbn [concat]. rewrite C. apply firstn_skipn.
      + constructor; [|exact F]. rewrite firstn_length. cbn [length l']. lia.
      + intros [|i] I; cbn [nth]; [|apply Fu; cbn in I; lia]. rewrite firstn_length. apply Nat.min_l.
        destruct (Nat.le_gt_cases B (length l')) as [H|H]; [exact H|]. exfalso. rewrite skipn_all2 in I by lia. destruct f; cbn in I; lia.
  Qed.
  Lemma batches_unique B (l : list X) bs bs' : batches_of B l bs -> batches_of B l bs' -> bs = bs'.
  Proof.
    intros (C & F & Fu) (C' & F' & Fu'). rewrite <- C' in C. clear C' l. revert bs' C F' Fu'. induction bs as [|b bs IH]; intros [|b' bs'] C F' Fu'.
    - reflexivity.
    - inversion F' as [|? ? Hb _]; subst. destruct b'; cbn in *; [lia|discriminate].
    - inversion F as [|? ? Hb _]; subst. destruct b; cbn in *; [lia|discriminate].
    - cbn [concat] in C. inversion F as [|? ? Hb Fb]; inversion F' as [|? ? Hb' Fb']; subst.
      assert (E : length b = length b').
      { pose proof (f_equal (@length X) C) as CL. rewrite !app_length in CL.
        destruct bs as [|c bs], bs' as [|c' bs']; cbn [concat] in CL; rewrite ?app_length in CL; cbn [length] in CL.
        - lia.
        - assert (length b' = B) by (apply (Fu' 0); cbn; lia). inversion Fb'; subst. lia.
        - assert (length b = B) by (apply (Fu 0); cbn; lia). inversion Fb; subst. lia.
        - assert (length b' = B) by (apply (Fu' 0); cbn; lia). assert (length b = B) by (apply (Fu 0); cbn; lia). lia. }
      assert (Eb : b = b' /\ concat bs = concat bs') by (revert C E; clear; revert b'; induction b as [|x b IH]; intros [|x' b'] C E; cbn in *; try lia; [split; [reflexivity|exact C]|]; injection C as <- C; destruct (IH b' C) as [-> H]; [lia|split; [reflexivity|exact H]]).
      destruct Eb as [-> Ec]. f_equal. apply IH; try assumption; intros i I; [apply (Fu (S i))|apply (Fu' (S i))]; cbn; lia.
  Qed.
  Lemma batches_count B (l : list X) bs : 0 < B -> batches_of B l bs -> length bs = (length l + B - 1) / B.
  Proof.
    intros P (C & F & Fu). subst l. induction bs as [|b bs IH]; [cbn; symmetry; apply Nat.div_small; lia|].
    inversion F as [|? ? Hb Fb]; subst. cbn [length concat]. rewrite app_length. destruct bs as [|c bs].
    - cbn. rewrite Nat.add_0_r. symmetry. replace (length b + B - 1) with (length b - 1 + 1 * B) by lia. rewrite Nat.div_add, Nat.div_small by lia. reflexivity.
    - assert (length b = B) as E by (apply (Fu 0); cbn; lia). rewrite IH; [|exact Fb|intros i I; apply (Fu (S i)); cbn in *; lia].
      rewrite E. replace (B + length (concat (c :: bs)) + B - 1) with (length (concat (c :: bs)) + B - 1 + 1 * B) by lia. rewrite Nat.div_add by lia. lia.
  Qed.
  Lemma loader_ok B (l : list X) : 0 < B -> exists bs, loader B l = Ok bs /\ batches_of B l bs.
  Proof. intro P. unfold loader. destruct B; [lia|]. eexists. split; [reflexivity|]. apply chunk_batches; lia. Qed.
End Chunk.

Section Fixed.
  Context {A : Type}.
  Lemma take_all (g : list (batch A)) acc : take_samples g None acc = acc ++ flat_gen g.
  Proof. revert acc. induction g as [|b g IH]; intro acc; cbn; [rewrite app_nil_r; reflexivity|]. rewrite IH, <- app_assoc. reflexivity. Qed.
  Lemma take_some k (g : list (batch A)) acc : length acc <= k -> take_samples g (Some k) acc = firstn k (acc ++ flat_gen g).
  Proof.
    revert acc. induction g as [|b g IH]; intros acc L; cbn [take_samples flat_gen flat_map].
    - rewrite app_nil_r, firstn_all2 by exact L. reflexivity.
    - cbv zeta. destruct (Nat.leb_spec k (length (acc ++ zipn b))) as [H|H].
      + rewrite app_assoc, (firstn_app k (acc ++ zipn b)). replace (k - length (acc ++ zipn b)) with 0 by lia. rewrite firstn_O, app_nil_r. reflexivity.
      + rewrite IH by lia. rewrite <- app_assoc. reflexivity.
  Qed.
  Lemma fixed_some fw k (g : list (batch A)) : 0 < k ->
    fixed_samples fw g (Some k) = if Nat.ltb (length (flat_gen g)) k then Err E_value else Ok (firstn k (flat_gen g)).
  Proof.
    intro K. unfold fixed_samples. rewrite take_some by (cbn; lia). cbn [app]. rewrite firstn_length.
    destruct (Nat.ltb_spec (length (flat_gen g)) k) as [H|H].
    - rewrite Nat.min_r by lia. destruct (Nat.ltb_spec (length (flat_gen g)) k); [reflexivity|lia].
    - rewrite Nat.min_l by lia. rewrite Nat.ltb_irrefl. destruct fw; [reflexivity|]. destruct (firstn k (flat_gen g)) eqn:E; [|reflexivity].
      apply (f_equal (@length _)) in E. rewrite firstn_length in E. cbn in E. lia.
  Qed.
  Lemma fixed_none fw (g : list (batch A)) : flat_gen g <> [] -> fixed_samples fw g None = Ok (flat_gen g).
  Proof. intro N. unfold fixed_samples. rewrite take_all. cbn [app]. destruct fw; [reflexivity|]. destruct (flat_gen g); [contradiction|reflexivity]. Qed.
End Fixed.

Section Order.
  Context {X : Type}.
  Lemma reorder_nth (d : X) l perm : (forall i, In i perm -> i < length l) -> reorder perm l = map (fun i => nth i l d) perm.
  Proof.
    intro H. unfold reorder. induction perm as [|i perm IH]; [reflexivity|]. cbn [flat_map map].
    rewrite (nth_error_nth' l d) by (apply H; left; reflexivity). cbn [app]. f_equal. apply IH. intros j J. apply H. right. exact J.
  Qed.
  Lemma map_nth_seq (d : X) l : map (fun i => nth i l d) (seq 0 (length l)) = l.
  Proof. apply map_seq_nth. Qed.
  Lemma reorder_perm (l : list X) perm : Permutation perm (seq 0 (length l)) -> Permutation (reorder perm l) l.
  Proof.
    intro P. destruct l as [|d l].
    - apply Permutation_sym, Permutation_nil in P. subst perm. constructor.
    - rewrite (reorder_nth d) by (intros i I; rewrite P in I; apply in_seq in I; lia).
      apply perm_trans with (map (fun i => nth i (d :: l) d) (seq 0 (length (d :: l)))); [apply Permutation_map; exact P|].
      rewrite map_nth_seq. apply Permutation_refl.
  Qed.
End Order.

Section Sla.
  Context {A : Type}.
  Variables (hess : sample A -> list (list R)) (n_layers hb : nat) (samples : list (sample A)).
  Hypotheses (HB : 0 < hb) (NL : 0 < n_layers).
  Hypothesis Ch : forall s layer, In s samples -> layer < n_layers -> nth layer (hess s) [] <> [].
  Definition cmax (l : list R) : R := match l with [] => 0%R | x :: r => rmax x r end.
  Definition weights (s : sample A) : list R := map (fun layer => cmax (nth layer (hess s) [])) (seq 0 n_layers).
  Lemma cmax_spec l : l <> [] -> is_max l (cmax l).
  Proof. destruct l as [|x r]; [contradiction|]. intros _. destruct (rmax_spec r x) as [I M]. split; [exact I|exact M]. Qed.
  Lemma scores_ok layer : layer_scores hess hb samples layer = Ok (map (fun s => nth layer (hess s) []) samples).
  Proof.
    unfold layer_scores. destruct (loader_ok hb samples HB) as (bs & E & C & _). rewrite E. cbn [bind]. f_equal. rewrite <- concat_map, C. reflexivity.
  Qed.
  Lemma vectors_ok : sla_vectors hess hb n_layers samples = Ok (map (fun layer => map (fun s => cmax (nth layer (hess s) [])) samples) (seq 0 n_layers)).
  Proof.
    unfold sla_vectors. apply mapM_ok. intros layer L. apply in_seq in L. rewrite scores_ok. cbn [bind].
    rewrite (mapM_ok _ cmax); [rewrite map_map; reflexivity|]. intros x X. apply in_map_iff in X. destruct X as (s & <- & Is).
    pose proof (Ch s layer Is ltac:(lia)) as N. unfold channel_max, cmax. destruct (nth layer (hess s) []); [contradiction|reflexivity].
  Qed.
  Let vs := map (fun layer => map (fun s => cmax (nth layer (hess s) [])) samples) (seq 0 n_layers).
  Lemma info_ok d i : i < length samples -> info_at vs i = weights (nth i samples d).
  Proof.
    intro I. unfold info_at, vs, weights. rewrite map_map. apply map_ext. intro layer.
    rewrite (nth_indep _ 0%R ((fun s => cmax (nth layer (hess s) [])) d)) by (rewrite map_length; exact I). apply (map_nth (fun s => cmax (nth layer (hess s) []))).
  Qed.
  Lemma rows_ok : map (info_at vs) (seq 0 (length samples)) = map weights samples.
  Proof.
    destruct (hd_error samples) as [d|] eqn:E; [|destruct samples; [reflexivity|discriminate]].
    transitivity (map weights (map (fun i => nth i samples d) (seq 0 (length samples)))); [|rewrite map_nth_seq; reflexivity].
    rewrite map_map. apply map_ext_in. intros i I. apply in_seq in I. apply info_ok. lia.
  Qed.
  Lemma combine_self {Y} (F : sample A -> Y) l : combine l (map F l) = map (fun s => (s, F s)) l.
  Proof. induction l; [reflexivity|]. cbn. f_equal. assumption. Qed.
  Lemma dataset_ok fw : sla_dataset fw samples vs = Ok (map (fun s => (s, weights s)) samples).
  Proof.
    destruct fw; cbn [sla_dataset].
    - assert (length (hd [] vs) = length samples) as -> by (unfold vs; destruct n_layers; [lia|]; cbn; apply map_length).
      rewrite rows_ok, map_length, Nat.eqb_refl, combine_self. reflexivity.
    - assert (forallb (fun v => Nat.eqb (length v) (length samples)) vs = true) as ->.
      { apply forallb_forall. intros v V. unfold vs in V. apply in_map_iff in V. destruct V as (k & <- & _). rewrite map_length. apply Nat.eqb_refl. }
      f_equal. destruct (hd_error samples) as [d|] eqn:E; [|destruct samples; [reflexivity|discriminate]].
      transitivity (map (fun p => (snd p, weights (nth (fst p) samples d))) (combine (seq 0 (length samples)) samples)).
      + apply map_ext_in. intros [i s] I. cbn [fst snd]. apply in_combine_l in I. apply in_seq in I. rewrite (info_ok d i) by lia. reflexivity.
      + transitivity (map (fun p => (snd p, weights (nth (fst p) samples d))) (combine (map (fun i => i) (seq 0 (length samples))) (map (fun i => nth i samples d) (seq 0 (length samples))))).
        * rewrite map_id, map_nth_seq. reflexivity.
        * rewrite combine_map, map_map. cbn [fst snd]. rewrite <- (map_map (fun i => nth i samples d) (fun s => (s, weights s))), map_nth_seq. reflexivity.
  Qed.
  Lemma reg_at layer : layer < n_layers -> nth layer (reg_weights vs) 0%R = (fold_right Rplus 0 (map (fun s => nth layer (weights s) 0) samples) / INR (length samples))%R.
  Proof.
    intro L. unfold reg_weights, vs. rewrite map_map.
    set (F := fun layer => _). rewrite (nth_indep _ 0%R (F 0)) by (rewrite map_length, seq_length; exact L). rewrite (map_nth F), seq_nth by exact L. cbn [Nat.add]. unfold F.
    unfold vmean. rewrite map_length. f_equal.
    assert (W : forall s, nth layer (weights s) 0%R = cmax (nth layer (hess s) [])).
    { intro s. unfold weights. rewrite (nth_indep _ 0%R (cmax (nth 0 (hess s) []))) by (rewrite map_length, seq_length; exact L).
      rewrite (map_nth (fun l => cmax (nth l (hess s) []))), seq_nth by exact L. reflexivity. }
    rewrite (map_ext _ _ W). generalize (fun s => cmax (nth layer (hess s) [])). clear. intro F. generalize samples. clear. intro l.
    induction l as [|s l IH] using rev_ind; [reflexivity|].
    rewrite app_length, Nat.add_comm. cbn [length Nat.add rsum]. rewrite !map_app, fold_right_app. cbn [map fold_right].
    rewrite app_nth2, map_length, Nat.sub_diag by (rewrite map_length; lia). cbn [nth].
    assert (E : rsum (length l) (fun i => nth i (map F l ++ [F s]) 0%R) = rsum (length l) (fun i => nth i (map F l) 0%R)) by (apply rsum_ext; intros k K; apply app_nth1; rewrite map_length; exact K).
    rewrite E, IH. clear. generalize (F s). intro x. induction (map F l) as [|y r IHr]; cbn; [lra|]. rewrite <- IHr. lra.
  Qed.
End Sla.
