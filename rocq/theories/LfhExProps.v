(* LfhExProps.v -- C78: an instance, and what the score of a group does not say. *)
From Coq Require Import Permutation Sorted Lia.
From Verif Require Import Base HessianModel SearchModel PruneModel PruneSpec LfhModel LfhSpec LfhProofs LfhProps.
From Coq Require Import Lqa.
Open Scope Q_scope.
Open Scope res_scope.

(* a sort of the indices by decreasing score *)
Fixpoint insert_desc (s : list Q) (i : nat) (l : list nat) : list nat :=
  match l with [] => [i] | j :: r => if Qle_bool (nth j s 0) (nth i s 0) then i :: l else j :: insert_desc s i r end.
Definition sort_desc (s : list Q) : list nat := fold_right (insert_desc s) [] (seq 0 (length s)).
Lemma insert_perm s i l : Permutation (insert_desc s i l) (i :: l).
Proof. induction l as [|j l IH]; [reflexivity|]. cbn [insert_desc]. destruct (Qle_bool _ _); [reflexivity|]. eapply Permutation_trans; [apply perm_skip, IH|apply perm_swap]. Qed.
Lemma insert_sorted s i l : StronglySorted (fun a b => nth b s 0 <= nth a s 0) l -> StronglySorted (fun a b => nth b s 0 <= nth a s 0) (insert_desc s i l).
Proof.
  induction l as [|j l IH]; intro H; [repeat constructor|]. cbn [insert_desc]. inversion H; subst. destruct (Qle_bool (nth j s 0) (nth i s 0)) eqn:E.
  - apply Qle_bool_iff in E. constructor; [exact H|]. constructor; [exact E|]. eapply Forall_impl; [|exact H3]. cbn. intros a Ha. lra.
  - assert (nth i s 0 < nth j s 0) as E' by (apply Qnot_le_lt; intro K; apply Qle_bool_iff in K; congruence). constructor; [exact (IH H2)|]. eapply Permutation_Forall; [symmetry; apply insert_perm|]. constructor; [lra|exact H3].
Qed.
Lemma sort_desc_ok s : by_decreasing_score s (sort_desc s).
Proof.
  unfold sort_desc. split.
  - induction (seq 0 (length s)) as [|i l IH]; [reflexivity|]. cbn [fold_right]. eapply Permutation_trans; [apply insert_perm|apply perm_skip, IH].
  - assert (StronglySorted (fun a b => nth b s 0 <= nth a s 0) (fold_right (insert_desc s) [] (seq 0 (length s)))) as K by (induction (seq 0 (length s)); [constructor|]; cbn [fold_right]; apply insert_sorted; assumption).
    intros a b pre mid post E. rewrite E in K. clear E. induction pre as [|x pre IH]; cbn [app] in K; inversion K; subst; [|exact (IH H1)]. rewrite Forall_forall in H2. apply H2. apply in_or_app. right. left. reflexivity.
Qed.

(* a convolution of 3 output channels on the last axis and a dense layer of two on the first, two samples *)
Definition n_conv : enode := ENode 1 10 (Kernel [2; 3]%nat [1; 0; 2; 1; 3; 0]) (Some 1%nat) [2%Z].
Definition n_dense : enode := ENode 2 20 (Kernel [2; 2]%nat [1; 1; 2; 0]) (Some 0%nat) [1; 4]%Z.
Definition ex_fetch (e : enode) : result (list (list Q)) := if Nat.eqb (e_id e) 1 then Ok [[1; 2; 3]; [3; 2; 5]] else Ok [[4; 1]].
Example lfh_ex : exists s1 s2, lfh_scores ex_fetch sort_desc [n_conv; n_dense] = Ok ([(1%nat, s1); (2%nat, s2)], [(1%nat, [[1; 2]; [0]]%nat); (2%nat, [[0]; [1]]%nat)]) /\
  Forall2 Qeq s1 [(2 + 4) * (9 + 4) / 4; 2 * 2 / 2] /\ Forall2 Qeq s2 [4 * 2 / 2; 1 * 4 / 2].
Proof. eexists _, _. split; [vm_compute; reflexivity|]. split; repeat constructor. Qed.
Example lfh_ex_meets : NoDup (map e_id [n_conv; n_dense]) /\ NoDup (map e_name [n_conv; n_dense]) /\ (forall s, by_decreasing_score s (sort_desc s)) /\
  (forall e, In e [n_conv; n_dense] -> exists a dim r rows, e_axis e = Some a /\ nth_error (k_shape (e_kernel e)) a = Some dim /\ ex_fetch e = Ok (r :: rows) /\ length r = dim /\
     e_simd e <> [] /\ forall s, In s (e_simd e) -> (0 < s)%Z).
Proof.
  split; [repeat constructor; cbn; lia|]. split; [repeat constructor; cbn; lia|]. split; [apply sort_desc_ok|].
  intros e [<-|[<-|[]]]; [exists 1%nat, 3%nat, [1; 2; 3], [[3; 2; 5]]|exists 0%nat, 2%nat, [4; 1], []]; repeat (split; [reflexivity|]); (split; [discriminate|]); cbn; intros s I; decompose [or] I; subst; lia.
Qed.

(* FINDING (lfh_importance_metric.py L95-97): the sums over a group are multiplied, not the terms.  Two channels of
   importance zero, one with zero weights and one with zero Hessian score, form a group of positive importance. *)
Theorem unimportant_channels_refuted : exists h shape data axis dim c d, (forall c, 0 <= h c) /\
  importance h shape data axis dim [c] == 0 /\ importance h shape data axis dim [d] == 0 /\ 0 < importance h shape data axis dim [c; d] /\
  exists e fetch s, lfh_scores fetch sort_desc [e] = Ok ([(1%nat, [s])], [(1%nat, [[c; d]])]) /\ 0 < s.
Proof.
  exists (fun c => if Nat.eqb c 0 then 1 else 0), [2; 1]%nat, [0; 1], 0%nat, 2%nat, 0%nat, 1%nat. split; [intro c; destruct (Nat.eqb c 0); lra|]. split; [reflexivity|]. split; [reflexivity|]. split; [reflexivity|].
  exists (ENode 1 1 (Kernel [2; 1]%nat [0; 1]) (Some 0%nat) [2%Z]), (fun _ => Ok [[1; 0]]). eexists. split; vm_compute; reflexivity.
Qed.
Print Assumptions unimportant_channels_refuted.
(* FINDING (same lines): for the same reason the groups, which are in the order of their channels' importance, need not be
   in the order of their own; the greedy search, which always keeps the first group of a layer and takes the groups of a
   layer in turn, keeps the group of lower score. *)
Theorem group_scores_out_of_order_refuted : exists e fetch s0 s1, lfh_scores fetch sort_desc [e] = Ok ([(1%nat, [s0; s1])], [(1%nat, [[0; 1]; [2; 3]]%nat)]) /\ s0 < s1 /\
  exists m, compute_mask [(1%nat, [[0; 1]; [2; 3]]%nat)] (fun _ => 4%nat) [(1%nat, [Some s0; Some s1])] (fun _ => Ok 1) (Some 1) 5 [1%nat] = Ok m /\ dict_get 1 (m_chan m) = Some [1; 1; 0; 0]%Z.
Proof.
  exists (ENode 1 1 (Kernel [4; 1]%nat [2; 2; 0; 9]) (Some 0%nat) [2%Z]), (fun _ => Ok [[2; 2; 9; 0]]). eexists _, _. split; [vm_compute; reflexivity|]. split; [reflexivity|]. eexists. split; vm_compute; reflexivity.
Qed.
Print Assumptions group_scores_out_of_order_refuted.
