(* MpEvalBuildProofs.v -- lemmas for MpEvalProps.v: the PyTorch and the Keras model. *)
From Coq Require Import Permutation Lia String.
From Verif Require Import Base SDict SensModel SensSpec MpEvalModel MpEvalSpec MpEvalProofs.
Open Scope res_scope.
Local Open Scope list_scope.

(* ---- dictionaries ---- *)
Lemma sset_fresh {V} k (v : V) d : ~ In k (skeys d) -> sset k v d = d ++ [(k, v)].
Proof. induction d as [|[k1 v1] r IH]; cbn; intro N; [reflexivity|]. destruct (String.eqb_spec k k1) as [->|]; [exfalso; apply N; left; reflexivity|]. rewrite IH; [reflexivity|]. intro I. apply N. right. exact I. Qed.
Lemma skeys_app {V} (a b : list (string * V)) : skeys (a ++ b) = skeys a ++ skeys b.
Proof. unfold skeys. apply map_app. Qed.
Lemma nodup_app_fresh {A} (l : list A) x r : NoDup (l ++ x :: r) -> ~ In x l.
Proof. intros N I. apply NoDup_remove_2 in N. apply N, in_app_iff. left. exact I. Qed.
Lemma sget_blocks {V} (h : mnode -> list V) g n : (forall x, (length (h x) <= 1)%nat) -> NoDup (map m_name g) -> In n g ->
  sget (m_name n) (concat (map (fun x => map (fun v => (m_name x, v)) (h x)) g)) = hd_error (h n).
Proof.
  intros L N I. induction g as [|x g IH]; [destruct I|]. cbn [map concat]. cbn in N. inversion N as [|? ? N1 N2]; subst.
  assert (forall (a b : list (string * V)) k, sget k (a ++ b) = match sget k a with Some v => Some v | None => sget k b end) as SA.
  { clear. induction a as [|[k1 v1] a IH]; intros b k; [reflexivity|]. cbn. destruct (String.eqb k k1); [reflexivity|apply IH]. }
  rewrite SA. destruct I as [->|I].
  - specialize (L n). destruct (h n) as [|v [|u r]]; cbn in *; [|rewrite String.eqb_refl; reflexivity|lia].
    apply sget_none. intro K. apply N1. unfold skeys in K. apply in_map_iff in K. destruct K as ([k v] & E & K). cbn in E. subst k. apply in_concat in K. destruct K as (b & B & K). apply in_map_iff in B. destruct B as (y & <- & Y). apply in_map_iff in K. destruct K as (u & E & _). injection E as E _. rewrite <- E. apply in_map, Y.
  - assert (sget (m_name n) (map (fun v => (m_name x, v)) (h x)) = None) as ->; [|apply IH; assumption]. apply sget_none. intro K. unfold skeys in K. rewrite map_map in K. apply in_map_iff in K. destruct K as (u & E & _). apply N1. cbn in E. rewrite E. apply in_map, I.
Qed.

Lemma NoDup_app_l {A} (a b : list A) : NoDup (a ++ b) -> NoDup a.
Proof. induction a as [|x a IH]; intro N; [constructor|]. inversion N as [|? ? N1 N2]; subst. constructor; [intro I; apply N1, in_app_iff; left; exact I|apply IH, N2]. Qed.

(* ---- strings ---- *)
Fixpoint drop (k : nat) (s : string) : string := match k, s with S k, String _ r => drop k r | _, _ => s end.
Lemma prefix_short : forall u p s, prefix p (u ++ s) = true -> (String.length u <= String.length p)%nat -> exists q, p = (u ++ q)%string /\ prefix q s = true.
Proof.
  induction u as [|a u IH]; intros p s H L; [exists p; auto|]. destruct p as [|b p]; [cbn in L; lia|]. cbn in H. destruct (Ascii.ascii_dec b a) as [->|]; [|discriminate]. destruct (IH p s H) as (q & -> & Q); [cbn in L; lia|]. exists q. auto.
Qed.
Lemma prefix_long : forall p u s, prefix p (u ++ s) = true -> (String.length p <= String.length u)%nat -> exists b, u = (p ++ b)%string.
Proof.
  induction p as [|b p IH]; intros u s H L; [exists u; reflexivity|]. destruct u as [|a u]; [cbn in L; lia|]. cbn in H. destruct (Ascii.ascii_dec b a) as [->|]; [|discriminate]. destruct (IH u s H) as (q & ->); [cbn in L; lia|]. exists q. reflexivity.
Qed.
Lemma drop_app u q : drop (String.length u) (u ++ q)%string = q.
Proof. induction u; [destruct q; reflexivity|exact IHu]. Qed.
Lemma length_app u q : String.length (u ++ q)%string = (String.length u + String.length q)%nat.
Proof. induction u; cbn; [reflexivity|rewrite IHu; reflexivity]. Qed.
Lemma no_border : forall u q, holder_suffix = (u ++ q)%string -> u <> EmptyString -> q <> EmptyString -> prefix q holder_suffix = false.
Proof.
  intros u q E U Q. assert (q = drop (String.length u) holder_suffix) as D by (rewrite E, drop_app; reflexivity).
  assert (String.length u + String.length q = 28)%nat as L by (rewrite <- length_app, <- E; reflexivity).
  assert (0 < String.length u < 28)%nat as B by (destruct u, q; try congruence; cbn [String.length] in *; lia).
  rewrite D. clear - B. generalize dependent (String.length u). intros k B. do 28 (destruct k as [|k]; [first [lia|reflexivity]|]). lia.
Qed.
Lemma suffix_twice u : u <> EmptyString -> ~ contains holder_suffix u -> prefix holder_suffix (u ++ holder_suffix) = false.
Proof.
  intros U C. destruct (prefix holder_suffix (u ++ holder_suffix)) eqn:P; [|reflexivity]. exfalso. destruct (Nat.le_gt_cases (String.length holder_suffix) (String.length u)) as [L|L].
  - destruct (prefix_long _ _ _ P L) as [b ->]. apply C. exists EmptyString, b. reflexivity.
  - destruct (prefix_short _ _ _ P) as (q & E & Q); [lia|]. rewrite (no_border u q E U) in Q; [discriminate|]. intros ->. rewrite E, length_app in L. cbn in L. lia.
Qed.
Lemma cut_suffix : forall u fuel, (String.length u < fuel)%nat -> ~ contains holder_suffix u -> cut_all fuel holder_suffix (u ++ holder_suffix) = u.
Proof.
  induction u as [|a u IH]; intros fuel L C.
  - destruct fuel as [|[|f]]; [cbn in L; lia|reflexivity|reflexivity].
  - destruct fuel as [|f]; [cbn in L; lia|]. cbn [cut_all]. rewrite (suffix_twice (String a u)) by (auto; discriminate). cbn [append]. f_equal. apply IH; [cbn in L; lia|]. intros (x & y & E). apply C. exists (String a x), y. cbn. rewrite E. reflexivity.
Qed.
Lemma remove_suffix u : ~ contains holder_suffix u -> py_remove holder_suffix (u ++ holder_suffix) = u.
Proof. intro C. unfold py_remove. apply cut_suffix; [rewrite length_app; lia|exact C]. Qed.
Lemma app_suffix_inj u v : ~ contains holder_suffix u -> ~ contains holder_suffix v -> (u ++ holder_suffix)%string = (v ++ holder_suffix)%string -> u = v.
Proof. intros U V E. rewrite <- (remove_suffix u U), <- (remove_suffix v V), E. reflexivity. Qed.
Lemma contains_suffix u : contains holder_suffix (u ++ holder_suffix)%string.
Proof. exists u, EmptyString. assert (forall s, (s ++ "")%string = s) as -> by (induction s; cbn; congruence). reflexivity. Qed.

(* ---- PyTorch ---- *)
Section Torch.
Variables (da : bool) (g : list mnode) (G : graph_ok da g).
Hypothesis NAMES : forall n, In n g -> ~ contains holder_suffix (m_name n).
Definition owner (n : mnode) : mnode := match find (fun f => negb (m_reuse f) && String.eqb (m_name f) (m_owner n)) g with Some f => f | None => n end.
Lemma owner_spec n : In n g -> In (owner n) g /\ m_reuse (owner n) = false /\ m_name (owner n) = m_owner n.
Proof using G.
  intro I. unfold owner. destruct (find _ g) as [f|] eqn:F.
  - apply find_some in F. destruct F as [J F]. apply andb_true_iff in F. destruct F as [F1 F2]. apply negb_true_iff in F1. apply String.eqb_eq in F2. auto.
  - exfalso. assert (exists f, In f g /\ m_reuse f = false /\ m_name f = m_owner n) as (f & J & R & E).
    { destruct (m_reuse n) eqn:R; [apply (go_again _ _ G); assumption|]. exists n. split; [exact I|]. split; [exact R|]. symmetry. apply (go_first _ _ G); assumption. }
    pose proof (find_none _ _ F f J) as Q. cbn in Q. rewrite R, E, String.eqb_refl in Q. discriminate.
Qed.
Lemma owner_is n f : In n g -> In f g -> m_name f = m_owner n -> owner n = f.
Proof using G. intros I J E. destruct (owner_spec n I) as (K & _ & E'). apply (name_inj da g G); congruence. Qed.
Lemma owner_first n : In n g -> m_reuse n = false -> owner n = n.
Proof using G. intros I R. apply owner_is; [exact I|exact I|]. symmetry. apply (go_first _ _ G); assumption. Qed.

Lemma node_choice n : In n g -> cwb n = true \/ cab da n = true -> choice_ok n.
Proof using G. intros I [C|C]; apply (go_choice _ _ G n I); [left; apply cwb_spec|right; apply cab_spec]; auto; apply (go_node _ _ G n I). Qed.
Lemma node_out n : In n g -> cab da n = true -> m_outs n = None \/ m_outs n = Some 1%nat.
Proof using G. intros I C. apply cab_spec in C; [|apply (go_node _ _ G n I)]. destruct C. apply (go_out _ _ G); assumption. Qed.
Lemma node_op n : In n g -> op_of (eval_of da n) = Ok (op_m da n).
Proof using G. intro I. apply op_ok; [apply (go_node _ _ G n I)|apply node_choice, I]. Qed.
Lemma node_hold n : In n g -> hold (eval_of da n) = Ok (hd_error (hold_m da n)).
Proof using G. intro I. rewrite hold_ok; [destruct (hold_m da n); reflexivity|apply (go_node _ _ G n I)|apply node_choice, I|apply node_out, I]. Qed.
Lemma hold_one n : (length (hold_m da n) <= 1)%nat.
Proof. unfold hold_m. destruct (cab da n); cbn; lia. Qed.

Definition holders (n : mnode) : list (string * modl) := map (fun h => (m_name n ++ holder_suffix, h)%string) (hold_m da n).
Definition blk (n : mnode) : list (string * modl) := (m_name n, op_m da (owner n)) :: holders n.
Definition blks (l : list mnode) := concat (map blk l).
Definition first (n : mnode) : bool := negb (m_reuse n).
Definition ops_of (l : list mnode) : list (string * modl) := map (fun n => (m_name n, op_m da n)) l.

Lemma blks_keys l k : In k (skeys (blks l)) -> exists n, In n l /\ (k = m_name n \/ k = (m_name n ++ holder_suffix)%string /\ cab da n = true).
Proof.
  clear. unfold blks. induction l as [|n l IH]; [intros []|]. cbn [map concat]. rewrite skeys_app. intro I. apply in_app_iff in I. destruct I as [I|I]; [|destruct (IH I) as (m & M & E); exists m; split; [right; exact M|exact E]].
  exists n. split; [left; reflexivity|]. cbn in I. destruct I as [<-|I]; [left; reflexivity|]. right. unfold holders, hold_m in I. destruct (cab da n); cbn in I; [destruct I as [<-|[]]; auto|destruct I].
Qed.
Lemma blks_nodup l : incl l g -> NoDup (map m_name l) -> NoDup (skeys (blks l)).
Proof using NAMES.
  unfold blks. induction l as [|n l IH]; intros I N; [constructor|]. cbn [map concat]. cbn in N. inversion N as [|? ? N1 N2]; subst.
  assert (incl l g) as I' by (intros x X; apply I; right; exact X). assert (In n g) as In_n by (apply I; left; reflexivity). specialize (IH I' N2). rewrite skeys_app.
  assert (~ In (m_name n) (skeys (blks l))) as A1.
  { intro K. apply blks_keys in K. destruct K as (m & M & [E|[E _]]); [apply N1; rewrite E; apply in_map, M|]. apply (NAMES n In_n). rewrite E. apply contains_suffix. }
  assert (~ In (m_name n ++ holder_suffix)%string (skeys (blks l))) as A2.
  { intro K. apply blks_keys in K. destruct K as (m & M & [E|[E _]]); [apply (NAMES m (I' m M)); rewrite <- E; apply contains_suffix|]. apply app_suffix_inj in E; auto. apply N1. rewrite E. apply in_map, M. }
  unfold blk at 1. cbn. constructor.
  - intro K. apply in_app_iff in K. destruct K as [K|K]; [|exact (A1 K)]. unfold holders, hold_m in K. destruct (cab da n); cbn in K; [destruct K as [K|[]]|destruct K]. apply (NAMES n In_n). rewrite <- K. apply contains_suffix.
  - unfold holders, hold_m. destruct (cab da n); cbn; [constructor; assumption|exact IH].
Qed.
Lemma ops_keys l : skeys (ops_of l) = map m_name l.
Proof. unfold ops_of, skeys. rewrite map_map. reflexivity. Qed.

Lemma add_block n d op : In n g -> NoDup (skeys (d ++ (m_name n, op) :: holders n)) -> add_holder (eval_of da n) (sset (m_name n) op d) = Ok (d ++ (m_name n, op) :: holders n).
Proof using G.
  intros I N. rewrite skeys_app in N. cbn in N. pose proof (nodup_app_fresh _ _ _ N) as F1. unfold add_holder. rewrite (node_hold n I). cbn [bind m_name eval_of with_cands]. rewrite sset_fresh by exact F1.
  unfold holders, hold_m in *. destruct (cab da n); cbn in *; [|reflexivity]. rewrite sset_fresh; [rewrite <- app_assoc; reflexivity|]. rewrite skeys_app. cbn. intro K. refine (nodup_app_fresh (skeys d ++ [m_name n]) _ [] _ K). rewrite <- app_assoc. exact N.
Qed.
Lemma firsts_fold : forall l o d, incl l g -> NoDup (skeys (o ++ ops_of (filter first l))) -> NoDup (skeys (d ++ blks (filter first l))) ->
  foldM add_first (map (eval_of da) l) (o, d) = Ok (o ++ ops_of (filter first l), d ++ blks (filter first l)).
Proof using G.
  induction l as [|n l IH]; intros o d I N1 N2; [cbn; rewrite !app_nil_r; reflexivity|].
  assert (In n g) as In_n by (apply I; left; reflexivity). assert (incl l g) as I' by (intros x X; apply I; right; exact X).
  cbn [map foldM]. unfold add_first at 1. cbn [m_reuse eval_of with_cands]. cbn [filter] in *. destruct (m_reuse n) eqn:R.
  - assert (first n = false) as F by (unfold first; rewrite R; reflexivity). rewrite F in *. cbn [bind]. apply IH; assumption.
  - assert (first n = true) as F by (unfold first; rewrite R; reflexivity). rewrite F in *. rewrite (node_op n In_n). cbn [bind fst snd]. change (m_name (eval_of da n)) with (m_name n).
    unfold blks in N2 |- *. cbn [map concat] in N2 |- *. fold (blks (filter first l)) in N2 |- *. unfold blk in N2 |- *. rewrite (owner_first n In_n R) in N2 |- *. rewrite app_assoc in N2.
    rewrite add_block; [|exact In_n|rewrite skeys_app in N2; apply NoDup_app_l in N2; exact N2]. cbn [bind].
    cbn [ops_of map] in N1 |- *. fold (ops_of (filter first l)) in N1 |- *. rewrite sset_fresh; [|rewrite skeys_app in N1; cbn in N1; apply (nodup_app_fresh _ _ _ N1)].
    change ((m_name n, op_m da n) :: ops_of (filter first l)) with ([(m_name n, op_m da n)] ++ ops_of (filter first l)) in N1 |- *. rewrite app_assoc in N1. rewrite IH; [rewrite <- !app_assoc; reflexivity|exact I'|exact N1|exact N2].
Qed.
Lemma agains_fold : forall l o d, incl l g -> (forall n, In n l -> m_reuse n = true -> sget (m_owner n) o = Some (op_m da (owner n))) -> NoDup (skeys (d ++ blks (filter m_reuse l))) ->
  foldM add_again (map (eval_of da) l) (o, d) = Ok (o, d ++ blks (filter m_reuse l)).
Proof using G.
  induction l as [|n l IH]; intros o d I O N2; [cbn; rewrite !app_nil_r; reflexivity|].
  assert (In n g) as In_n by (apply I; left; reflexivity). assert (incl l g) as I' by (intros x X; apply I; right; exact X).
  cbn [map foldM]. unfold add_again at 1. cbn [m_reuse m_owner eval_of with_cands]. cbn [filter] in *. destruct (m_reuse n) eqn:R.
  - cbn [fst snd]. rewrite (O n (or_introl eq_refl) R). change (m_name (eval_of da n)) with (m_name n).
    unfold blks in N2 |- *. cbn [map concat] in N2 |- *. fold (blks (filter m_reuse l)) in N2 |- *. unfold blk in N2 |- *. rewrite app_assoc in N2.
    rewrite add_block; [|exact In_n|rewrite skeys_app in N2; apply NoDup_app_l in N2; exact N2]. cbn [bind]. rewrite IH; [rewrite <- !app_assoc; reflexivity|exact I'|intros m M; apply O; right; exact M|exact N2].
  - cbn [bind]. apply IH; [exact I'|intros m M; apply O; right; exact M|exact N2].
Qed.
Definition ordered : list mnode := filter first g ++ filter m_reuse g.
Lemma ordered_in n : In n ordered <-> In n g.
Proof. unfold ordered, first. rewrite in_app_iff, !filter_In. destruct (m_reuse n); cbn; intuition congruence. Qed.
Lemma ordered_names : NoDup (map m_name ordered).
Proof using G.
  pose proof (go_names _ _ G) as N. unfold ordered. clear G NAMES. induction g as [|n l IH]; [constructor|]. cbn in N. inversion N as [|? ? N1 N2]; subst. specialize (IH N2).
  assert (~ In (m_name n) (map m_name (filter first l ++ filter m_reuse l))) as F.
  { intro K. apply in_map_iff in K. destruct K as (m & E & M). apply N1. rewrite <- E. apply in_map. apply in_app_iff in M. rewrite !filter_In in M. tauto. }
  cbn [filter]. unfold first at 1. destruct (m_reuse n); cbn [negb].
  - rewrite map_app in *. cbn [map]. apply NoDup_Add with (a := m_name n) (l := map m_name (filter first l) ++ map m_name (filter m_reuse l)); [apply Add_app|split; assumption].
  - cbn. constructor; assumption.
Qed.
Lemma ordered_nodup : NoDup ordered.
Proof using G. apply (NoDup_map_inv m_name), ordered_names. Qed.
Definition mods : list (string * modl) := blks ordered.
Lemma mods_nodup : NoDup (skeys mods).
Proof using G NAMES. apply blks_nodup; [intros n I; apply ordered_in, I|apply ordered_names]. Qed.
Lemma torch_folds : (let! st := foldM add_first (map (eval_of da) g) ([], []) in foldM add_again (map (eval_of da) g) st) = Ok (ops_of (filter first g), mods).
Proof using G NAMES.
  pose proof mods_nodup as N. unfold mods, ordered, blks in N. rewrite map_app, concat_app in N. fold (blks (filter first g)) in N. fold (blks (filter m_reuse g)) in N.
  assert (NoDup (skeys (ops_of (filter first g)))) as N1 by (rewrite ops_keys; apply nodup_filter, (go_names _ _ G)).
  rewrite firsts_fold; [|apply incl_refl|exact N1|rewrite skeys_app in N; apply NoDup_app_l in N; exact N]. cbn [bind app]. rewrite agains_fold; [|apply incl_refl| |exact N].
  - unfold mods, ordered, blks. rewrite map_app, concat_app. reflexivity.
  - intros n I R. destruct (owner_spec n I) as (J & RO & E). apply in_sget; [exact N1|]. unfold ops_of. apply in_map_iff. exists (owner n). rewrite E. split; [reflexivity|]. apply filter_In. split; [exact J|]. unfold first. rewrite RO. reflexivity.
Qed.

(* named_children *)
Lemma nc_fresh : forall l seen, NoDup (map (fun km => obj (snd km)) l) -> (forall km, In km l -> ~ In (obj (snd km)) seen) -> named_children seen l = l.
Proof.
  clear. induction l as [|[k m] l IH]; intros seen N F; [reflexivity|]. cbn. inversion N as [|? ? N1 N2]; subst. cbn in N1. destruct (existsb (Nat.eqb (obj m)) seen) eqn:E.
  - apply existsb_exists in E. destruct E as (x & X & E). apply Nat.eqb_eq in E. subst x. exfalso. apply (F (k, m) (or_introl eq_refl)), X.
  - f_equal. apply IH; [exact N2|]. intros km I [Q|Q]; [|apply (F km (or_intror I) Q)]. apply N1. rewrite Q. apply in_map with (f := fun km => obj (snd km)), I.
Qed.
Lemma nc_app : forall l1 l2 seen, exists seen', named_children seen (l1 ++ l2) = named_children seen l1 ++ named_children seen' l2 /\ forall o, In o seen' <-> In o seen \/ In o (map (fun km => obj (snd km)) l1).
Proof.
  clear. induction l1 as [|[k m] l1 IH]; intros l2 seen; [exists seen; split; [reflexivity|cbn; tauto]|]. cbn. destruct (existsb (Nat.eqb (obj m)) seen) eqn:E.
  - destruct (IH l2 seen) as (s & Q & H). exists s. split; [exact Q|]. intro o. rewrite H. apply existsb_exists in E. destruct E as (x & X & E). apply Nat.eqb_eq in E. subst x. intuition (subst; auto).
  - destruct (IH l2 (obj m :: seen)) as (s & Q & H). exists s. split; [rewrite Q; reflexivity|]. intro o. rewrite H. cbn. tauto.
Qed.
Lemma op_obj n : obj (op_m da n) = (2 * m_id n)%nat.
Proof. unfold op_m. destruct (cwb n); reflexivity. Qed.
Lemma holders_obj n km : In km (holders n) -> obj (snd km) = (2 * m_id n + 1)%nat /\ cab da n = true.
Proof. unfold holders, hold_m. destruct (cab da n); cbn; [intros [<-|[]]; auto|intros []]. Qed.
Lemma firsts_children : forall l seen, incl l g -> (forall n, In n l -> m_reuse n = false) -> NoDup (map m_id l) -> (forall n o, In n l -> In o seen -> o <> 2 * m_id n /\ o <> 2 * m_id n + 1)%nat -> named_children seen (blks l) = blks l.
Proof using G.
  induction l as [|n l IH]; intros seen I R N F; [reflexivity|]. unfold blks. cbn [map concat]. fold (blks l). cbn in N. inversion N as [|? ? N1 N2]; subst.
  destruct (nc_app (blk n) (blks l) seen) as (s & -> & H). rewrite nc_fresh.
  - f_equal. apply IH; [intros x X; apply I; right; exact X|intros x X; apply R; right; exact X|exact N2|]. intros m o M O. apply H in O. destruct O as [O|O]; [apply F; [right; exact M|exact O]|].
    assert (m_id m <> m_id n) as NE by (intro Q; apply N1; rewrite <- Q; apply in_map, M). apply in_map_iff in O. destruct O as (km & <- & K). destruct K as [<-|K]; [cbn [snd]; rewrite op_obj, owner_first; [lia|apply I; left; reflexivity|apply R; left; reflexivity]|]. apply holders_obj in K. lia.
  - unfold blk. cbn [map snd]. rewrite op_obj, owner_first; [|apply I; left; reflexivity|apply R; left; reflexivity]. unfold holders, hold_m. destruct (cab da n); cbn; repeat constructor; cbn; intuition lia.
  - intros km [<-|K] S; [|apply holders_obj in K; destruct K as [K _]; rewrite K in S; destruct (F n _ (or_introl eq_refl) S); lia]. cbn [snd] in S. rewrite op_obj, owner_first in S; [|apply I; left; reflexivity|apply R; left; reflexivity]. destruct (F n _ (or_introl eq_refl) S); lia.
Qed.
Lemma agains_children : forall l seen, incl l g -> (forall n, In n l -> In (2 * m_id (owner n))%nat seen) -> NoDup (map m_id l) -> (forall n, In n l -> ~ In (2 * m_id n + 1)%nat seen) -> named_children seen (blks l) = concat (map holders l).
Proof using G.
  induction l as [|n l IH]; intros seen I R N F; [reflexivity|]. unfold blks. cbn [map concat]. fold (blks l). cbn in N. inversion N as [|? ? N1 N2]; subst.
  unfold blk. cbn [app named_children]. rewrite op_obj. assert (existsb (Nat.eqb (2 * m_id (owner n))) seen = true) as -> by (apply existsb_exists; eexists; split; [apply (R n (or_introl eq_refl))|apply Nat.eqb_refl]).
  destruct (nc_app (holders n) (blks l) seen) as (s & -> & H). rewrite nc_fresh.
  - f_equal. apply IH; [intros x X; apply I; right; exact X|intros x X; apply H; left; apply R; right; exact X|exact N2|]. intros m M S. apply H in S. destruct S as [S|S]; [apply (F m (or_intror M) S)|]. apply in_map_iff in S. destruct S as (km & E & K). apply holders_obj in K. apply N1. assert (m_id n = m_id m) as -> by lia. apply in_map, M.
  - unfold holders, hold_m. destruct (cab da n); cbn; repeat constructor; cbn; intuition lia.
  - intros km K S. apply holders_obj in K. destruct K as [K _]. rewrite K in S. apply (F n (or_introl eq_refl) S).
Qed.
Definition chb (n : mnode) : list (string * modl) := if m_reuse n then holders n else blk n.
Lemma torch_children : named_children [] mods = concat (map chb ordered).
Proof using G.
  unfold mods, ordered, blks. rewrite !map_app, !concat_app. fold (blks (filter first g)). fold (blks (filter m_reuse g)). destruct (nc_app (blks (filter first g)) (blks (filter m_reuse g)) []) as (s & -> & H). f_equal.
  - rewrite firsts_children.
    + unfold blks. f_equal. apply map_ext_in. intros n I. apply filter_In in I. destruct I as [_ F]. unfold first in F. unfold chb. destruct (m_reuse n); [discriminate|reflexivity].
    + intros n I. apply filter_In in I. apply I.
    + intros n I. apply filter_In in I. destruct I as [_ F]. unfold first in F. destruct (m_reuse n); [discriminate|reflexivity].
    + apply nodup_filter, (go_ids _ _ G).
    + intros n o _ [].
  - rewrite agains_children.
    + f_equal. apply map_ext_in. intros n I. apply filter_In in I. unfold chb. destruct I as [_ ->]. reflexivity.
    + intros n I. apply filter_In in I. apply I.
    + intros n I. apply H. right. apply filter_In in I. destruct (owner_spec n (proj1 I)) as (J & RO & _). apply in_map_iff. exists (m_name (owner n), op_m da (owner n)). cbn [snd]. rewrite op_obj. split; [reflexivity|].
      unfold blks. apply in_concat. exists (blk (owner n)). split; [apply in_map, filter_In; unfold first; rewrite RO; auto|]. unfold blk. rewrite (owner_first (owner n) J RO). left. reflexivity.
    + apply nodup_filter, (go_ids _ _ G).
    + intros n I S. apply H in S. destruct S as [[]|S]. apply in_map_iff in S. destruct S as (km & E & K). unfold blks in K. apply in_concat in K. destruct K as (b & B & K). apply in_map_iff in B. destruct B as (f & <- & F). apply filter_In in F, I. destruct F as [F RF]. unfold first in RF. apply negb_true_iff in RF.
      destruct K as [<-|K]; [cbn [snd] in E; rewrite op_obj in E; lia|]. apply holders_obj in K. assert (f = n) as -> by (apply (id_inj da g G); [exact F|apply I|lia]). destruct I. congruence.
Qed.
Lemma cands_len n : length (cands_of da n) = length (m_cands n).
Proof. unfold cands_of, eval_of. cbn. apply map_length. Qed.
Lemma torch_conf_ok n : In n g -> wsw n || cab da n = true -> torch_conf (concat (map chb ordered)) (eval_of da n) = Ok (m_name n, lay da n).
Proof using G NAMES.
  intros I C. unfold torch_conf. change (m_name (eval_of da n)) with (m_name n).
  rewrite (filter_block _ chb n), (filter_block _ chb n); try apply ordered_nodup; try (apply ordered_in, I).
  - rewrite (layers_eval da n _ _ (go_node _ _ G n I) C). cbn [bind]. do 2 f_equal. unfold chb, blk, lay, wsw. destruct (m_reuse n) eqn:R.
    + rewrite andb_false_r. unfold holders, hold_m. destruct (cab da n) eqn:CA; cbn [map filter snd fst is_wrap is_hold andb].
      * rewrite (remove_suffix _ (NAMES n I)), String.eqb_refl. destruct (cwb n); cbn [concat map qlayer_of app snd]; rewrite cands_len; reflexivity.
      * destruct (cwb n); reflexivity.
    + rewrite (owner_first n I R), andb_true_r. unfold op_m, holders, hold_m. destruct (cwb n) eqn:CW, (cab da n) eqn:CA; cbn [map filter snd fst is_wrap is_hold andb app]; try rewrite String.eqb_refl; try rewrite (remove_suffix _ (NAMES n I)), String.eqb_refl; cbn [map snd concat qlayer_of app]; try rewrite cands_len; reflexivity.
  - intros y Y NE. apply ordered_in in Y. assert (m_name y <> m_name n) as NN by (intro E; apply NE, (name_inj da g G); assumption). unfold chb, blk, holders, hold_m, op_m.
    destruct (m_reuse y), (cwb (owner y)), (cab da y); cbn [map filter snd fst is_wrap is_hold andb app]; try rewrite (remove_suffix _ (NAMES y Y)); destruct (String.eqb_spec (m_name y) (m_name n)); try contradiction; reflexivity.
  - intros y Y NE. apply ordered_in in Y. assert (m_name y <> m_name n) as NN by (intro E; apply NE, (name_inj da g G); assumption). unfold chb, blk, holders, hold_m, op_m.
    destruct (m_reuse y), (cwb (owner y)), (cab da y); cbn [map filter snd fst is_wrap is_hold andb app]; destruct (String.eqb_spec (m_name y) (m_name n)); try contradiction; reflexivity.
Qed.
Lemma filter_map {A B} (f : A -> B) (p : B -> bool) l : filter p (map f l) = map f (filter (fun x => p (f x)) l).
Proof. clear. induction l as [|x l IH]; [reflexivity|]. cbn. destruct (p (f x)); cbn; rewrite IH; reflexivity. Qed.
Lemma conf_ok (F : mnode -> result (string * list qlayer)) : (forall n, In n g -> wsw n || cab da n = true -> F (eval_of da n) = Ok (m_name n, lay da n)) ->
  (let! cn := filterM configurable (map (eval_of da) g) in mapM F cn) = Ok (conf_list da g).
Proof using G.
  intro H. assert (filterM configurable (map (eval_of da) g) = Ok (map (eval_of da) (filter (fun n => wsw n || cab da n) g))) as ->.
  { pose proof (go_node _ _ G) as GN. clear - GN. induction g as [|n l IH]; [reflexivity|]. cbn [map filterM filter]. rewrite (configurable_eval da n (GN n (or_introl eq_refl))). cbn [bind]. rewrite IH by (intros x X; apply GN; right; exact X). cbn [bind]. destruct (wsw n || cab da n); reflexivity. }
  cbn [bind]. unfold conf_list. assert (forall n, In n (filter (fun n => wsw n || cab da n) g) -> F (eval_of da n) = Ok (m_name n, lay da n)) as H' by (intros n I; apply filter_In in I; apply H; apply I). clear H. induction (filter _ g) as [|n l IH]; [reflexivity|]. cbn [map mapM]. rewrite (H' n (or_introl eq_refl)). cbn [bind]. rewrite IH; [reflexivity|]. intros x X. apply H'. right. exact X.
Qed.
Lemma conf_has n l : In n g -> In l (lay da n) -> In l (concat (map snd (conf_list da g))).
Proof.
  clear. intros I L. unfold conf_list. rewrite map_map. cbn [snd]. apply in_concat. exists (lay da n). split; [|exact L]. apply in_map, filter_In. split; [exact I|]. unfold lay in L. destruct (wsw n), (cab da n); cbn in *; tauto.
Qed.
Lemma torch_serves : exists mp, torch_model da g = Ok mp /\ mp_conf mp = conf_list da g /\ serves_requests da g mp.
Proof using G NAMES.
  pose proof torch_folds as TF. unfold torch_model. rewrite (mapM_total _ (eval_of da)) by (intros n I; apply evaluation_total, (go_node _ _ G n I)). cbn [bind].
  destruct (foldM add_first (map (eval_of da) g) ([], [])) as [st|]; cbn [bind] in *; [|discriminate]. rewrite TF. cbn [bind snd]. rewrite torch_children.
  pose proof (conf_ok (torch_conf (concat (map chb ordered))) torch_conf_ok) as CO. destruct (filterM configurable (map (eval_of da) g)) as [cn|]; cbn [bind] in *; [|discriminate]. rewrite CO. cbn [bind].
  eexists. split; [reflexivity|]. split; [reflexivity|]. apply serve; cbn [mp_conf mp_all mp_op mp_hold]; [exact G|reflexivity| | |].
  - intros m M Q. apply in_map_iff in M. destruct M as (km & <- & K). apply in_concat in K. destruct K as (b & B & K). apply in_map_iff in B. destruct B as (n & <- & I). apply ordered_in in I.
    assert (In km (holders n) \/ (m_reuse n = false /\ km = (m_name n, op_m da n))) as [K'|[R ->]].
    { unfold chb in K. destruct (m_reuse n) eqn:R; [left; exact K|]. destruct K as [<-|K]; [right; rewrite (owner_first n I R); auto|left; exact K]. }
    + apply holders_obj in K'. destruct K' as [E C]. exists (QL QAct (2 * m_id n + 1) (Z.of_nat (length (m_cands n)))). split; [|cbn; rewrite E; reflexivity]. apply (conf_has n); [exact I|]. unfold lay. rewrite C. apply in_app_iff. right. left. reflexivity.
    + cbn [snd] in *. unfold op_m in *. destruct (cwb n) eqn:CW; [|discriminate]. exists (QL QWt (2 * m_id n) (Z.of_nat (length (m_cands n)))). split; [|reflexivity]. apply (conf_has n); [exact I|]. unfold lay, wsw. rewrite CW, R. left. reflexivity.
  - intros n f In_n In_f E. pose proof (owner_is n f In_n In_f E) as O. split; [rewrite <- O; apply owner_spec, In_n|]. apply in_sget; [apply mods_nodup|]. unfold mods, blks. apply in_concat. exists (blk n). split; [apply in_map, ordered_in, In_n|]. unfold blk. rewrite O. left. reflexivity.
  - intros n I. assert (forall x, In x g -> match sget (m_name x ++ holder_suffix)%string mods with Some m => [(m_name x, m)] | None => [] end = map (fun v => (m_name x, v)) (hold_m da x)) as HB.
    { intros x X. unfold hold_m. destruct (cab da x) eqn:C.
      - assert (sget (m_name x ++ holder_suffix)%string mods = Some (MHold (2 * m_id x + 1) (cands_of da x) (top_of da x))) as ->; [|reflexivity]. apply in_sget; [apply mods_nodup|]. unfold mods, blks. apply in_concat. exists (blk x). split; [apply in_map, ordered_in, X|]. unfold blk, holders, hold_m. rewrite C. right. left. reflexivity.
      - assert (sget (m_name x ++ holder_suffix)%string mods = None) as ->; [|reflexivity]. apply sget_none. intro K. apply blks_keys in K. destruct K as (y & Y & [E|[E CY]]); apply ordered_in in Y; [apply (NAMES y Y); rewrite <- E; apply contains_suffix|]. apply app_suffix_inj in E; auto. apply (name_inj da g G) in E; [congruence|exact X|exact Y]. }
    rewrite map_map. change (fun x => match sget (m_name (eval_of da x) ++ holder_suffix)%string mods with Some m => [(m_name (eval_of da x), m)] | None => [] end) with (fun x => match sget (m_name x ++ holder_suffix)%string mods with Some m => [(m_name x, m)] | None => [] end).
    rewrite (map_ext_in _ _ _ HB). apply sget_blocks; [apply hold_one|apply (go_names _ _ G)|exact I].
Qed.
End Torch.

(* ---- Keras ---- *)
Section KerasModel.
Variables (wname fname : string -> string) (used : string -> bool).
Variables (da : bool) (g : list mnode) (G : graph_ok da g).
Hypothesis AGAIN : forall n, In n g -> m_reuse n = true -> cab da n = false.
Hypothesis WRAPPED : forall n f, In n g -> In f g -> wname (m_name n) <> m_name f.
Hypothesis FUNC : forall n, In n g -> m_func n = true -> cab da n = true -> fname (m_name n) = m_name n.
Hypothesis USED : forall n, In n g -> wsw n = true \/ cab da n = true -> used (m_name n) = true.
Definition kop (n : mnode) : klayer :=
  if cwb n then KL (op_m da n) (wname (m_name n)) (Some (m_name n)) None else KL (op_m da n) (if m_func n then fname (m_name n) else m_name n) None None.
Definition kops (l : list mnode) : list (string * klayer) := map (fun n => (m_name n, kop n)) l.
Definition khold (n : mnode) : list klayer := map (fun h => KL h (m_name n) None (Some (k_name (kop (owner g n)), k_inner (kop (owner g n))))) (hold_m da n).
Lemma keras_op_ok n : In n g -> keras_op wname fname (eval_of da n) = Ok (kop n).
Proof using G. intro I. unfold keras_op. rewrite (node_op da g G n I). cbn [bind]. unfold kop, op_m. destruct (cwb n); reflexivity. Qed.
Lemma kops_keys l : skeys (kops l) = map m_name l.
Proof. unfold kops, skeys. rewrite map_map. reflexivity. Qed.
Lemma kfold : forall l o, incl l g -> NoDup (skeys (o ++ kops (filter first l))) -> foldM (keras_first wname fname) (map (eval_of da) l) o = Ok (o ++ kops (filter first l)).
Proof using G.
  induction l as [|n l IH]; intros o I N; [cbn; rewrite app_nil_r; reflexivity|].
  assert (In n g) as In_n by (apply I; left; reflexivity). assert (incl l g) as I' by (intros x X; apply I; right; exact X).
  cbn [map foldM]. unfold keras_first at 1. cbn [m_reuse eval_of with_cands]. cbn [filter] in *. destruct (m_reuse n) eqn:R.
  - assert (first n = false) as F by (unfold first; rewrite R; reflexivity). rewrite F in *. cbn [bind]. apply IH; assumption.
  - assert (first n = true) as F by (unfold first; rewrite R; reflexivity). rewrite F in *. rewrite (keras_op_ok n In_n). cbn [bind]. change (m_name (eval_of da n)) with (m_name n).
    cbn [kops map] in N |- *. fold (kops (filter first l)) in N |- *. rewrite sset_fresh; [|rewrite skeys_app in N; cbn in N; apply (nodup_app_fresh _ _ _ N)].
    change ((m_name n, kop n) :: kops (filter first l)) with ([(m_name n, kop n)] ++ kops (filter first l)) in N |- *. rewrite app_assoc in N. rewrite IH; [rewrite <- app_assoc; reflexivity|exact I'|exact N].
Qed.
Lemma kops_nodup : NoDup (skeys (kops (filter first g))).
Proof using G. rewrite kops_keys. apply nodup_filter, (go_names _ _ G). Qed.
Lemma kop_get n : In n g -> sget (m_owner n) (kops (filter first g)) = Some (kop (owner g n)).
Proof using G.
  intro I. destruct (owner_spec da g G n I) as (J & R & E). apply in_sget; [apply kops_nodup|]. unfold kops. apply in_map_iff. exists (owner g n). rewrite E. split; [reflexivity|]. apply filter_In. split; [exact J|]. unfold first. rewrite R. reflexivity.
Qed.
Definition khs (n : mnode) : list (string * klayer) := map (fun v => (m_name n, v)) (khold n).
Lemma khold_ok n : In n g -> keras_holder (kops (filter first g)) (eval_of da n) = Ok (khs n).
Proof using G.
  intro I. unfold keras_holder. change (m_owner (eval_of da n)) with (m_owner n). rewrite (kop_get n I), (node_hold da g G n I). cbn [bind]. unfold khs, khold, hold_m. destruct (cab da n); reflexivity.
Qed.
Definition kls : list klayer := map snd (filter (fun x => used (fst x)) (kops (filter first g) ++ concat (map khs g))).
Lemma kls_split p : map k_mod (filter p kls) = map k_mod (filter p (concat (map (fun n => if used (m_name n) then [kop n] else []) (filter first g)))) ++ map k_mod (filter p (concat (map (fun n => if used (m_name n) then khold n else []) g))).
Proof.
  unfold kls. rewrite filter_app, map_app, filter_app, map_app. f_equal; do 2 f_equal.
  - clear. unfold kops. induction (filter first g) as [|n l IH]; [reflexivity|]. cbn [map filter fst concat]. destruct (used (m_name n)); cbn; rewrite IH; reflexivity.
  - clear. induction g as [|n l IH]; [reflexivity|]. cbn [map concat]. rewrite filter_app, map_app, IH. f_equal. unfold khs. destruct (used (m_name n)) eqn:U.
    + induction (khold n) as [|x k IHk]; [reflexivity|]. cbn. rewrite U. cbn. rewrite IHk. reflexivity.
    + induction (khold n) as [|x k IHk]; [reflexivity|]. cbn. rewrite U. exact IHk.
Qed.
Lemma g_nodup : NoDup g.
Proof using G. apply (NoDup_map_inv m_name), (go_names _ _ G). Qed.
Lemma keras_ws n : In n g -> wsw n || cab da n = true -> map k_mod (filter (fun l => is_wrap (k_mod l) && named_layer (eval_of da n) l) kls) = if wsw n then [op_m da n] else [].
Proof using G USED.
  intros I C. rewrite kls_split. rewrite (filter_none _ (fun n => if used (m_name n) then khold n else [])).
  2:{ intros y Y. destruct (used (m_name y)); [|reflexivity]. unfold khold, hold_m. destruct (cab da y); reflexivity. }
  cbn [map]. rewrite app_nil_r.
  assert (forall y, In y g -> y <> n -> filter (fun l => is_wrap (k_mod l) && named_layer (eval_of da n) l) (if used (m_name y) then [kop y] else []) = []) as O.
  { intros y Y NE. destruct (used (m_name y)); [|reflexivity]. assert (m_name y <> m_name n) as NN by (intro E; apply NE, (name_inj da g G); assumption). unfold kop, op_m. destruct (cwb y); cbn [filter k_mod is_wrap andb]; [|reflexivity]. unfold named_layer. cbn [k_inner]. change (m_name (eval_of da n)) with (m_name n). destruct (String.eqb_spec (m_name y) (m_name n)); [contradiction|reflexivity]. }
  destruct (m_reuse n) eqn:R.
  - assert (wsw n = false) as -> by (unfold wsw; rewrite R, andb_false_r; reflexivity). rewrite filter_none; [reflexivity|]. intros y Y. apply filter_In in Y. destruct Y as [Y F]. apply O; [exact Y|]. intros ->. unfold first in F. rewrite R in F. discriminate.
  - rewrite (filter_block _ (fun n => if used (m_name n) then [kop n] else []) n).
    + assert (wsw n = cwb n) as WW by (unfold wsw; rewrite R, andb_true_r; reflexivity). rewrite USED; [|exact I|apply orb_true_iff, C]. rewrite WW. unfold kop, op_m. destruct (cwb n); cbn [filter k_mod is_wrap andb]; [|reflexivity]. unfold named_layer. cbn [k_inner]. change (m_name (eval_of da n)) with (m_name n). rewrite String.eqb_refl. reflexivity.
    + apply NoDup_filter, g_nodup.
    + intros y Y NE. apply filter_In in Y. apply O; [apply Y|exact NE].
    + apply filter_In. split; [exact I|]. unfold first. rewrite R. reflexivity.
Qed.
Lemma held n y h : In n g -> In y g -> In h (khold y) -> held_layer (eval_of da n) h = String.eqb (m_name y) (m_name n).
Proof using G AGAIN WRAPPED FUNC.
  intros I Y H. unfold khold, hold_m in H. destruct (cab da y) eqn:C; [|destruct H]. destruct H as [<-|[]]. assert (m_reuse y = false) as R by (destruct (m_reuse y) eqn:R; [rewrite (AGAIN y Y R) in C; discriminate|reflexivity]).
  unfold held_layer. cbn [k_from]. change (m_name (eval_of da n)) with (m_name n). rewrite (owner_first da g G y Y R). unfold kop. destruct (cwb y) eqn:CW; cbn [k_name k_inner].
  - destruct (String.eqb_spec (wname (m_name y)) (m_name n)) as [E|E]; [exfalso; apply (WRAPPED y n Y I E)|reflexivity].
  - rewrite orb_false_r. destruct (m_func y) eqn:FU; [|reflexivity]. rewrite (FUNC y Y FU C). reflexivity.
Qed.
Lemma keras_acts n : In n g -> wsw n || cab da n = true -> map k_mod (filter (fun l => is_hold (k_mod l) && held_layer (eval_of da n) l) kls) = hold_m da n.
Proof using G USED AGAIN WRAPPED FUNC.
  intros I C. rewrite kls_split. rewrite (filter_none _ (fun n => if used (m_name n) then [kop n] else [])).
  2:{ intros y Y. destruct (used (m_name y)); [|reflexivity]. unfold kop, op_m. destruct (cwb y); reflexivity. }
  cbn [map app]. rewrite (filter_block _ (fun n => if used (m_name n) then khold n else []) n).
  - rewrite USED; [|exact I|apply orb_true_iff, C]. pose proof (held n n) as H. unfold khold, hold_m in *. destruct (cab da n); [|reflexivity]. cbn [map filter k_mod is_hold andb] in *. rewrite H; [|exact I|exact I|left; reflexivity]. rewrite String.eqb_refl. reflexivity.
  - apply g_nodup.
  - intros y Y NE. destruct (used (m_name y)); [|reflexivity]. assert (m_name y <> m_name n) as NN by (intro E; apply NE, (name_inj da g G); assumption). pose proof (held n y) as H. unfold khold, hold_m in *. destruct (cab da y); [|reflexivity]. cbn [map filter k_mod is_hold andb] in *. rewrite H; [|exact I|exact Y|left; reflexivity]. destruct (String.eqb_spec (m_name y) (m_name n)); [contradiction|reflexivity].
  - exact I.
Qed.
Lemma keras_conf_ok n : In n g -> wsw n || cab da n = true -> keras_conf kls (eval_of da n) = Ok (m_name n, lay da n).
Proof using G USED AGAIN WRAPPED FUNC.
  intros I C. unfold keras_conf. rewrite (keras_ws n I C), (keras_acts n I C), (layers_eval da n _ _ (go_node _ _ G n I) C). cbn [bind]. change (m_name (eval_of da n)) with (m_name n). do 2 f_equal. unfold lay, wsw, op_m, hold_m. destruct (cwb n), (cab da n), (m_reuse n); cbn [andb negb app map concat qlayer_of]; try rewrite cands_len; reflexivity.
Qed.
Lemma keras_serves : exists mp, keras_search_model wname fname used da g = Ok mp /\ mp_conf mp = conf_list da g /\ serves_requests da g mp.
Proof using G USED AGAIN WRAPPED FUNC.
  unfold keras_search_model. rewrite (mapM_total _ (eval_of da)) by (intros n I; apply evaluation_total, (go_node _ _ G n I)). cbn [bind].
  rewrite kfold; [|apply incl_refl|apply kops_nodup]. cbn [bind app]. 
  assert (mapM (keras_holder (kops (filter first g))) (map (eval_of da) g) = Ok (map khs g)) as ->.
  { pose proof khold_ok as KO. revert KO. generalize (kops (filter first g)). intros o KO. clear - KO. induction g as [|n l IH]; [reflexivity|]. cbn [map mapM]. rewrite KO by (left; reflexivity). cbn [bind]. rewrite IH; [reflexivity|]. intros x X. apply KO. right. exact X. }
  cbn [bind]. fold kls. pose proof (conf_ok da g G (keras_conf kls) keras_conf_ok) as CO. destruct (filterM configurable (map (eval_of da) g)) as [cn|]; cbn [bind] in *; [|discriminate]. rewrite CO. cbn [bind].
  eexists. split; [reflexivity|]. split; [reflexivity|]. apply serve; cbn [mp_conf mp_all mp_op mp_hold]; [exact G|reflexivity| | |].
  - intros m M Q. unfold kls in M. rewrite map_map in M. apply in_map_iff in M. destruct M as ([s l] & <- & K). apply filter_In in K. destruct K as [K _]. cbn [snd] in *. apply in_app_iff in K. destruct K as [K|K].
    + unfold kops in K. apply in_map_iff in K. destruct K as (n & E & I). injection E as <- <-. apply filter_In in I. destruct I as [I F]. unfold first in F. apply negb_true_iff in F. assert (k_mod (kop n) = op_m da n) as E by (unfold kop; destruct (cwb n); reflexivity). rewrite E in *. unfold op_m in *. destruct (cwb n) eqn:CW; [|discriminate].
      exists (QL QWt (2 * m_id n) (Z.of_nat (length (m_cands n)))). split; [|reflexivity]. apply (conf_has da g n); [exact I|]. unfold lay, wsw. rewrite CW, F. left. reflexivity.
    + apply in_concat in K. destruct K as (b & B & K). apply in_map_iff in B. destruct B as (n & <- & I). unfold khs, khold, hold_m in K. destruct (cab da n) eqn:C; [|destruct K]. destruct K as [E|[]]. injection E as <- <-. cbn [k_mod obj] in *.
      exists (QL QAct (2 * m_id n + 1) (Z.of_nat (length (m_cands n)))). split; [|reflexivity]. apply (conf_has da g n); [exact I|]. unfold lay. rewrite C. apply in_app_iff. right. left. reflexivity.
  - intros n f In_n In_f E. pose proof (owner_is da g G n f In_n In_f E) as O. split; [rewrite <- O; apply (owner_spec da g G), In_n|]. rewrite map_map.
    assert (forall x, In x g -> match sget (m_owner (eval_of da x)) (kops (filter first g)) with Some l => [(m_name (eval_of da x), k_mod l)] | None => [] end = map (fun v => (m_name x, v)) [op_m da (owner g x)]) as HB.
    { intros x X. change (m_owner (eval_of da x)) with (m_owner x). rewrite (kop_get x X). unfold kop. destruct (cwb (owner g x)); reflexivity. }
    rewrite (map_ext_in _ _ _ HB). rewrite (sget_blocks (fun x => [op_m da (owner g x)])); [rewrite O; reflexivity|intro; cbn; lia|apply (go_names _ _ G)|exact In_n].
  - intros n I. rewrite concat_map, map_map. assert (forall x, In x g -> map (fun y => (fst y, k_mod (snd y))) (khs x) = map (fun v => (m_name x, v)) (hold_m da x)) as HB.
    { intros x X. unfold khs, khold. rewrite !map_map. reflexivity. }
    rewrite (map_ext_in _ _ _ HB). apply sget_blocks; [apply hold_one|apply (go_names _ _ G)|exact I].
Qed.
End KerasModel.
