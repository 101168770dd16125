(* KLReal.v -- the divergence itself, over the reals: sum p ln(p/q) >= 0 (error_functions.py L249) *)
From Verif Require Import Base QuantModel SearchModel KLModel KLProofs.
From Coq Require Import Reals Lra Qreals.
Open Scope R_scope.

(* np.sum(p_float * np.log(p_float / p_fxp)) *)
Definition kl_value (p q : list Q) : R :=
  fold_right Rplus 0 (map (fun pq => Q2R (fst pq) * ln (Q2R (fst pq) / Q2R (snd pq))) (combine p q)).

Lemma Q2R_sum l : Q2R (sumQ l) = fold_right Rplus 0 (map Q2R l).
Proof.
  induction l as [|x l IH]; [apply RMicromega.Q2R_0|]. cbn [map fold_right].
  rewrite <- IH, <- Q2R_plus. apply Qeq_eqR. reflexivity.
Qed.
Lemma ln_le_sub1 x : 0 < x -> ln x <= x - 1.
Proof.
  intro H. destruct (Rle_lt_dec (ln x) (x - 1)) as [L|L]; [exact L|].
  exfalso. apply exp_increasing in L. rewrite exp_ln in L by exact H.
  pose proof (exp_ineq1_le (x - 1)). lra.
Qed.
Lemma gibbs p : forall q, length p = length q ->
  (forall x, In x p -> (0 < x)%Q) -> (forall x, In x q -> (0 < x)%Q) ->
  fold_right Rplus 0 (map Q2R p) - fold_right Rplus 0 (map Q2R q) <= kl_value p q.
Proof.
  induction p as [|x p IH]; intros [|y q] Hl Hp Hq; try discriminate; unfold kl_value in *; cbn [map combine fold_right fst snd]; [lra|].
  specialize (IH q ltac:(cbn in Hl; lia) (fun z Hz => Hp z (or_intror Hz)) (fun z Hz => Hq z (or_intror Hz))).
  pose proof (Qlt_Rlt _ _ (Hp x (or_introl eq_refl))) as Px. pose proof (Qlt_Rlt _ _ (Hq y (or_introl eq_refl))) as Py.
  rewrite RMicromega.Q2R_0 in Px, Py.
  assert (Q2R x - Q2R y <= Q2R x * ln (Q2R x / Q2R y)); [|lra].
  assert (ln (Q2R x / Q2R y) = - ln (Q2R y / Q2R x)) as ->.
  { rewrite <- ln_Rinv by (apply Rdiv_lt_0_compat; assumption). f_equal. field. lra. }
  pose proof (ln_le_sub1 (Q2R y / Q2R x) ltac:(apply Rdiv_lt_0_compat; assumption)) as L.
  assert (Q2R x * (Q2R y / Q2R x - 1) = Q2R y - Q2R x) as E by (field; lra). nra.
Qed.
Lemma kl_nonneg_lem : forall p q, length p = length q -> distribution p -> distribution q -> 0 <= kl_value p q.
Proof.
  intros p q Hl [Pp Sp] [Pq Sq]. pose proof (gibbs p q Hl Pp Pq) as G.
  rewrite <- !Q2R_sum in G. apply Qeq_eqR in Sp. apply Qeq_eqR in Sq. lra.
Qed.
