(* XqSimProofs.v -- proofs for C96. *)
From Coq Require Import List Arith Lia Reals Lra String Bool.
From Verif Require Import Base XqSimModel XqSimSpec.
Import ListNotations.
Open Scope R_scope.
Open Scope res_scope.

Lemma mapM_ok {A B} (f : A -> result B) (g : A -> B) l : (forall x, In x l -> f x = Ok (g x)) -> mapM f l = Ok (map g l).
Proof. induction l as [|x l IH]; intro H; [reflexivity|]. cbn. rewrite (H x (or_introl eq_refl)). cbn. rewrite IH by (intros y Y; apply H; right; exact Y). reflexivity. Qed.
Section D.
  Context {A : Type}.
  Lemma dget_dset (d : dict A) k v k' : dget (dset d k v) k' = if String.eqb k k' then Ok v else dget d k'.
  Proof.
    induction d as [|[c w] d IH]; cbn; [reflexivity|]. destruct (String.eqb_spec c k) as [->|N]; cbn.
    - destruct (String.eqb_spec k k'); reflexivity.
    - rewrite IH. destruct (String.eqb_spec c k') as [->|N']; [|reflexivity]. destruct (String.eqb_spec k k'); [congruence|reflexivity].
  Qed.
  Lemma dset_new (d : dict A) k v : ~ In k (map fst d) -> dset d k v = (d ++ [(k, v)])%list.
  Proof. induction d as [|[c w] d IH]; cbn; intro H; [reflexivity|]. destruct (String.eqb_spec c k) as [->|N]; [tauto|]. rewrite IH by tauto. reflexivity. Qed.
  Lemma dset_keys (d : dict A) k v k' : In k' (map fst (dset d k v)) <-> k' = k \/ In k' (map fst d).
  Proof.
    induction d as [|[c w] d IH]; cbn; [intuition|]. destruct (String.eqb_spec c k) as [->|N]; cbn; [intuition|]. rewrite IH. intuition.
  Qed.
  Lemma dset_nodup (d : dict A) k v : NoDup (map fst d) -> NoDup (map fst (dset d k v)).
  Proof.
    induction d as [|[c w] d IH]; cbn; intro H; [repeat constructor; intros []|]. inversion H as [|? ? Hn H']. subst. destruct (String.eqb_spec c k) as [->|N]; cbn; [exact H|].
    constructor; [rewrite dset_keys; intros [E|E]; [congruence|contradiction]|exact (IH H')].
  Qed.
  Lemma dget_in (d : dict A) k v : NoDup (map fst d) -> In (k, v) d -> dget d k = Ok v.
  Proof.
    induction d as [|[c w] d IH]; cbn; intros H I; [contradiction|]. inversion H as [|? ? Hn H']. subst. destruct I as [E|I]; [injection E as -> ->; rewrite String.eqb_refl; reflexivity|].
    destruct (String.eqb_spec c k) as [->|N]; [exfalso; apply Hn; change k with (fst (k, v)); apply in_map; exact I|exact (IH H' I)].
  Qed.
  Lemma dget_ok (d : dict A) k v : dget d k = Ok v -> In (k, v) d.
  Proof. induction d as [|[c w] d IH]; cbn; [discriminate|]. destruct (String.eqb_spec c k) as [->|N]; [intro E; injection E as ->; left; reflexivity|intro E; right; exact (IH E)]. Qed.
  (* replacing in the middle *)
  Lemma dset_mid (p : dict A) k v v' s : ~ In k (map fst p) -> dset (p ++ (k, v) :: s)%list k v' = (p ++ (k, v') :: s)%list.
  Proof. induction p as [|[c w] p IH]; cbn; intro H; [rewrite String.eqb_refl; reflexivity|]. destruct (String.eqb_spec c k) as [->|N]; [tauto|]. rewrite IH by tauto. reflexivity. Qed.
  Lemma dget_mid (p : dict A) k v s : ~ In k (map fst p) -> dget (p ++ (k, v) :: s)%list k = Ok v.
  Proof. induction p as [|[c w] p IH]; cbn; intro H; [rewrite String.eqb_refl; reflexivity|]. destruct (String.eqb_spec c k) as [->|N]; [tauto|]. apply IH. tauto. Qed.
  Lemma dget_fold (h : string -> A) names n : forall d, dget (fold_left (fun d n => dset d n (h n)) names d) n = if existsb (String.eqb n) names then Ok (h n) else dget d n.
  Proof.
    induction names as [|m names IH]; intro d; cbn; [reflexivity|]. rewrite IH. rewrite dget_dset. destruct (existsb (String.eqb n) names); [rewrite orb_true_r; reflexivity|]. rewrite orb_false_r.
    rewrite (String.eqb_sym m n). destruct (String.eqb_spec n m) as [->|N]; reflexivity.
  Qed.
  Lemma fold_new (v : A) names : forall d, NoDup names -> (forall n, In n names -> ~ In n (map fst d)) -> fold_left (fun d q => dset d q v) names d = (d ++ map (fun q => (q, v)) names)%list.
  Proof.
    induction names as [|m names IH]; intros d N H; cbn; [rewrite app_nil_r; reflexivity|]. inversion N as [|? ? Hn N']. subst. rewrite dset_new by (apply H; left; reflexivity). rewrite IH.
    - rewrite <- app_assoc. reflexivity.
    - exact N'.
    - intros n I. rewrite map_app, in_app_iff. intros [J|[J|[]]]; [exact (H n (or_intror I) J)|]. cbn in J. subst. contradiction.
  Qed.
End D.

(* ---- the metrics ---- *)
Lemma metrics_nodup fw custom : NoDup (map fst (metrics_of fw custom)).
Proof.
  unfold metrics_of. assert (H : forall d : dict metric, NoDup (map fst d) -> NoDup (map fst (fold_left (fun d kv => dset d (fst kv) (snd kv)) custom d))).
  { induction custom as [|[k f] l IH]; intros d H; [exact H|]. cbn. apply IH. apply dset_nodup. exact H. }
  apply H. cbn. repeat constructor; cbn; intuition discriminate.
Qed.
Lemma default_standard fw k f : In (k, f) (default_metrics fw) <-> standard fw k f.
Proof.
  unfold standard. cbn. split.
  - intros [E|[E|[E|[]]]]; injection E as <- <-; auto.
  - intros [[-> ->]|[[-> ->]|[-> ->]]]; auto.
Qed.
Lemma metrics_get fw custom k : NoDup (map fst custom) -> forall f, In (k, f) (metrics_of fw custom) <-> metric_named fw custom k f.
Proof.
  intros N f. unfold metric_named. rewrite <- default_standard.
  assert (Nd0 : NoDup (map fst (default_metrics fw))) by (cbn; repeat constructor; cbn; intuition discriminate).
  unfold metrics_of. revert Nd0. generalize (default_metrics fw). induction custom as [|[c g] l IH]; intros d Nd0; cbn [fold_left fst snd].
  - cbn. tauto.
  - cbn in N. inversion N as [|? ? Hn N']. subst. rewrite IH; [|exact N'|apply dset_nodup; exact Nd0]. cbn [In map fst].
    assert (Hin : In (k, f) (dset d c g) <-> (c = k /\ g = f) \/ (c <> k /\ In (k, f) d)).
    { split.
      - intro I. apply dget_in in I; [|apply dset_nodup; exact Nd0]. rewrite dget_dset in I. destruct (String.eqb_spec c k) as [E|E]; [left; split; [exact E|congruence]|right; split; [exact E|apply dget_ok; exact I]].
      - intros [[-> ->]|[E I]]; apply dget_ok; rewrite dget_dset; [rewrite String.eqb_refl; reflexivity|]. rewrite (proj2 (String.eqb_neq c k) E). apply dget_in; assumption. }
    rewrite Hin. split.
    + intros [I|[H [[-> ->]|[E I]]]]; [left; right; exact I|left; left; reflexivity|right; split; [tauto|exact I]].
    + intros [[E|I]|[H I]]; [injection E as -> ->; right; split; [exact Hn|left; split; reflexivity]|left; exact I|right; split; [tauto|right; split; [tauto|exact I]]].
Qed.

(* ---- compare points ---- *)
Lemma points_ok qp fl fo : NoDup (map fo (matched_layers qp fl fo)) -> compare_points qp fl fo = Ok (map (fun q => (fo q, q)) (matched_layers qp fl fo)).
Proof.
  intro N. unfold compare_points.
  assert (H : forall qp d, NoDup (map fst d ++ map fo (matched_layers qp fl fo)) -> foldM (fun d q => let f := fo q in
    if existsb (String.eqb f) fl then (if existsb (String.eqb f) (map fst d) then Err E_critical else Ok (dset d f q)) else Ok d) qp d = Ok (d ++ map (fun q => (fo q, q)) (matched_layers qp fl fo))%list).
  { clear. induction qp as [|q qp IH]; intros d N; cbn; [rewrite app_nil_r; reflexivity|]. unfold matched_layers in *. cbn [filter] in N |- *. destruct (existsb (String.eqb (fo q)) fl) eqn:E.
    - cbn [map] in N. assert (Hn : ~ In (fo q) (map fst d)) by (intro I; apply NoDup_remove_2 in N; apply N; apply in_or_app; left; exact I).
      assert (Ex : existsb (String.eqb (fo q)) (map fst d) = false).
      { apply not_true_iff_false. intro T. apply existsb_exists in T. destruct T as (y & I & T). apply String.eqb_eq in T. subst y. contradiction. }
      rewrite Ex. cbn [bind]. rewrite dset_new by exact Hn. rewrite IH; [rewrite <- app_assoc; reflexivity|]. rewrite map_app. cbn [map fst]. rewrite <- app_assoc. exact N.
    - cbn [bind]. apply IH. exact N. }
  apply (H qp []). exact N.
Qed.
Lemma points_dup qp fl fo : ~ NoDup (map fo (matched_layers qp fl fo)) -> compare_points qp fl fo = Err E_critical.
Proof.
  intro N. unfold compare_points.
  assert (H : forall qp d, NoDup (map fst d) -> ~ NoDup (map fst d ++ map fo (matched_layers qp fl fo)) -> foldM (fun d q => let f := fo q in
    if existsb (String.eqb f) fl then (if existsb (String.eqb f) (map fst d) then Err E_critical else Ok (dset d f q)) else Ok d) qp d = Err E_critical).
  { clear. induction qp as [|q qp IH]; intros d Nd N; cbn; [exfalso; apply N; cbn; rewrite app_nil_r; exact Nd|]. unfold matched_layers in *. cbn [filter] in N. destruct (existsb (String.eqb (fo q)) fl) eqn:E.
    - destruct (existsb (String.eqb (fo q)) (map fst d)) eqn:Ex; [reflexivity|]. cbn [bind].
      assert (Hn : ~ In (fo q) (map fst d)).
      { intro I. assert (T : existsb (String.eqb (fo q)) (map fst d) = true) by (apply existsb_exists; exists (fo q); split; [exact I|apply String.eqb_refl]). congruence. }
      apply IH; [apply dset_nodup; exact Nd|]. rewrite dset_new by exact Hn. rewrite map_app. cbn [map fst]. rewrite <- app_assoc. exact N.
    - cbn [bind]. apply IH; assumption. }
  apply (H qp []); [constructor|exact N].
Qed.

Section Calc.
  Context {X : Type}.
  Variables fl ql : string -> X -> tensor.
  Variables fout qout : X -> list tensor.
  Variable fw : framework.
  Variables fo qo : X -> tensor.
  Variable ms : dict metric.
  Variable float_of : string -> string.
  Variable qs : list string.
  Hypothesis Nms : NoDup (map fst ms).
  Hypothesis Nf : NoDup (map float_of qs).
  Hypothesis Kf : ~ In output_key (map float_of qs).
  Hypothesis Kq : ~ In output_key qs.
  Hypothesis Kr : fw = Keras -> qs <> [].
  Lemma Nq : NoDup qs. Proof. exact (NoDup_map_inv _ _ Nf). Qed.
  Let points := map (fun q => (float_of q, q)) qs.
  Lemma act_ok layer out o names x : out x = [o] -> ~ In output_key names -> (fw = Keras -> names <> []) ->
    exists d, activations X fw layer out names x = Ok d /\ dget d output_key = Ok o /\ forall n, In n names -> dget d n = Ok (layer n x).
  Proof.
    intros E K R. unfold activations. rewrite E. eexists. split; [reflexivity|]. split.
    - rewrite dget_dset, String.eqb_refl. destruct fw; [reflexivity|]. destruct names; [exfalso; exact (R eq_refl eq_refl)|reflexivity].
    - intros n I. rewrite dget_dset. destruct (String.eqb_spec output_key n) as [<-|N]; [contradiction|]. rewrite (dget_fold (fun n => layer n x)).
      rewrite (proj2 (existsb_exists _ _)); [reflexivity|]. exists n. split; [exact I|apply String.eqb_refl].
  Qed.
  Lemma append_ok (l : string * metric -> list R) x y : append_all (map (fun kf => (fst kf, l kf)) ms) (similarity ms x y) = Ok (map (fun kf => (fst kf, (l kf ++ [snd kf x y])%list)) ms).
  Proof.
    unfold append_all. assert (H : forall s, incl s ms -> mapM (fun kl : string * list R => let! v := dget (similarity ms x y) (fst kl) in Ok (fst kl, (snd kl ++ [v])%list)) (map (fun kf => (fst kf, l kf)) s)
        = Ok (map (fun kf => (fst kf, (l kf ++ [snd kf x y])%list)) s)).
    { induction s as [|[k f] s IH]; intro I; [reflexivity|]. cbn [map mapM fst snd]. rewrite (dget_in (similarity ms x y) k (f x y)).
      - cbn [bind]. rewrite IH by (intros z Z; apply I; right; exact Z). reflexivity.
      - unfold similarity. rewrite map_map. cbn. exact Nms.
      - unfold similarity. apply in_map_iff. exists (k, f). split; [reflexivity|]. apply I. left. reflexivity. }
    apply H. intros z Z. exact Z.
  Qed.
  Definition outs (xs : list X) : dict (list R) := map (fun kf => (fst kf, map (fun x => snd kf (fo x) (qo x)) xs)) ms.
  Definition inters (xs : list X) (q : string) : string * dict (list R) := (q, map (fun kf => (fst kf, map (fun x => snd kf (fl (float_of q) x) (ql q x)) xs)) ms).
  Lemma batch xs x : fout x = [fo x] -> qout x = [qo x] ->
    one_batch X fl ql fout qout fw ms points (outs xs, map (inters xs) qs) x = Ok (outs (xs ++ [x]), map (inters (xs ++ [x])) qs).
  Proof.
    intros Ef Eq. unfold one_batch. cbn [fst snd].
    assert (E1 : map fst points = map float_of qs) by (unfold points; rewrite map_map; reflexivity).
    assert (E2 : map snd points = qs) by (unfold points; rewrite map_map; apply map_id).
    destruct (act_ok fl fout (fo x) (map fst points) x Ef) as (fa & -> & Fo & Fa); [rewrite E1; exact Kf|rewrite E1; intros K M; apply (Kr K); destruct qs; [reflexivity|discriminate]|].
    destruct (act_ok ql qout (qo x) (map snd points) x Eq) as (qa & -> & Qo & Qa); [rewrite E2; exact Kq|rewrite E2; exact Kr|]. cbn [bind]. rewrite Fo, Qo. cbn [bind].
    unfold outs at 1. rewrite append_ok. cbn [bind]. rewrite E1 in Fa. rewrite E2 in Qa.
    assert (H : forall s p, (forall q, In q s -> In q qs) -> NoDup (p ++ s) -> foldM (fun inter fq =>
        let! fx := dget fa (fst fq) in let! qx := dget qa (snd fq) in let! d := dget inter (snd fq) in
        let! d := append_all d (similarity ms fx qx) in Ok (dset inter (snd fq) d)) (map (fun q => (float_of q, q)) s) (map (inters (xs ++ [x])) p ++ map (inters xs) s)%list
        = Ok (map (inters (xs ++ [x])) p ++ map (inters (xs ++ [x])) s)%list).
    { induction s as [|q s IH]; intros p I N; [reflexivity|]. cbn [map foldM fst snd]. rewrite Fa by (apply in_map; apply I; left; reflexivity). rewrite Qa by (apply I; left; reflexivity). cbn [bind].
      assert (Np : ~ In q (map fst (map (inters (xs ++ [x])) p))).
      { rewrite map_map. cbn. rewrite map_id. intro J. apply NoDup_remove_2 in N. apply N. apply in_or_app. left. exact J. }
      unfold inters at 2. rewrite dget_mid by exact Np. cbn [bind]. rewrite append_ok. cbn [bind]. unfold inters at 2. rewrite dset_mid by exact Np.
      specialize (IH (p ++ [q])%list). rewrite map_app in IH. cbn [map] in IH. rewrite <- !app_assoc in IH. cbn [app] in IH.
      replace (inters (xs ++ [x]) q) with (q, map (fun kf : string * metric => (fst kf, (map (fun x0 : X => snd kf (fl (float_of q) x0) (ql q x0)) xs ++ [snd kf (fl (float_of q) x) (ql q x)])%list)) ms) in IH |- *
        by (unfold inters; f_equal; apply map_ext; intro kf; rewrite map_app; reflexivity).
      rewrite <- IH; [|intros r J; apply I; right; exact J|exact N]. reflexivity. }
    specialize (H qs [] (fun q I => I) Nq). cbn [map app] in H. unfold points. rewrite H. cbn [bind]. f_equal. f_equal. unfold outs. apply map_ext. intro kf. rewrite map_app. reflexivity.
  Qed.
  Lemma loop : forall data xs, (forall x, In x data -> fout x = [fo x] /\ qout x = [qo x]) ->
    foldM (one_batch X fl ql fout qout fw ms points) data (outs xs, map (inters xs) qs) = Ok (outs (xs ++ data), map (inters (xs ++ data)) qs).
  Proof.
    induction data as [|x data IH]; intros xs H; cbn [foldM]; [rewrite app_nil_r; reflexivity|]. destruct (H x (or_introl eq_refl)) as [Ef Eq]. rewrite (batch xs x Ef Eq). cbn [bind].
    rewrite IH by (intros y Y; apply H; right; exact Y). rewrite <- app_assoc. reflexivity.
  Qed.
  Lemma averages_ok e (g : string * metric -> list R) : (forall kf, In kf ms -> g kf <> []) -> averages e (map (fun kf => (fst kf, g kf)) ms) = Ok (map (fun kf => (fst kf, mean (g kf))) ms).
  Proof.
    unfold averages. clear Nms. induction ms as [|kf s IH]; intro H; [reflexivity|]. cbn [map mapM fst snd]. pose proof (H kf (or_introl eq_refl)) as N. unfold average at 1. destruct (g kf) eqn:E; [congruence|]. cbn [bind].
    rewrite IH by (intros z Z; apply H; right; exact Z). cbn [bind]. rewrite ?E. reflexivity.
  Qed.
End Calc.
