(* FnConvProofs.v -- C97: proofs *)
From Coq Require Import List Arith ZArith String Bool Lia.
From Verif Require Import Base FnConvModel FnConvSpec.
Import ListNotations.
Open Scope res_scope.
Open Scope string_scope.
Open Scope nat_scope.

Definition isT (pa : string * arg) : bool := match snd pa with AVal _ => false | _ => true end.
Definition istn (a : arg) : Prop := match a with AVal _ => False | _ => True end.

(* the tensors among keywords *)
Definition ktens (l : list (string * arg)) : list (slot * nat) := flat_map (fun ka => match tensor_id (snd ka) with Some i => [(Key (fst ka), i)] | None => [] end) l.
Lemma flat_map_map : forall {A B C} (g : A -> B) (f : B -> list C) l, flat_map f (map g l) = flat_map (fun x => f (g x)) l.
Proof. induction l as [|x l IH]; cbn; [reflexivity|]. now rewrite IH. Qed.
Lemma ktens_map : forall l, flat_map (fun sa : slot * arg => match tensor_id (snd sa) with Some i => [(fst sa, i)] | None => [] end)
                              (map (fun ka : string * arg => (Key (fst ka), snd ka)) l) = ktens l.
Proof. intros l. now rewrite flat_map_map. Qed.
Lemma ktens_filter : forall l, ktens l = ktens (filter isT l).
Proof. unfold ktens. induction l as [|[k a] l IH]; cbn; [reflexivity|]. destruct a; cbn; now rewrite IH. Qed.
Lemma kw_in : forall {A} (l : list (string * A)) k v, kw l k = Some v -> In (k, v) l.
Proof.
  induction l as [|[k' v'] l IH]; intros k v; cbn; [discriminate|]. destruct (String.eqb_spec k' k) as [->|N].
  - intros [= ->]. now left.
  - intros E. right. now apply IH.
Qed.
Lemma in_kw : forall {A} (l : list (string * A)) k v, NoDup (map fst l) -> In (k, v) l -> kw l k = Some v.
Proof.
  induction l as [|[k' v'] l IH]; intros k v ND I; cbn in *; [destruct I|]. apply NoDup_cons_iff in ND. destruct ND as [NI ND].
  destruct I as [[= -> ->]|I].
  - now rewrite String.eqb_refl.
  - destruct (String.eqb_spec k' k) as [->|N]; [|now apply IH]. exfalso. apply NI. change k with (fst (k, v)). now apply in_map.
Qed.
Lemma kw_app : forall {A} (a b : list (string * A)) k, kw (a ++ b) k = match kw a k with Some v => Some v | None => kw b k end.
Proof. induction a as [|[k' v'] a IH]; intros b k; cbn; [reflexivity|]. destruct (String.eqb k' k); [reflexivity|apply IH]. Qed.

Lemma filter_names_nodup : forall (l : list (string * arg)), NoDup (map fst l) -> NoDup (map fst (filter isT l)).
Proof.
  induction l as [|[k a] l IH]; cbn; intros ND; [constructor|]. apply NoDup_cons_iff in ND. destruct ND as [NI ND].
  destruct (isT (k, a)); cbn; [constructor|]; auto. intros I. apply NI. apply in_map_iff in I. destruct I as [[k' a'] [E I]]. cbn in E. subst k'.
  apply filter_In in I. destruct I as [I _]. change k with (fst (k, a')). now apply in_map.
Qed.

(* the tensors of a valid call, in order *)
Definition slot_name (f : fn) (s : slot) : string := match s with Pos i => nth i (sig f) "" | Key k => k end.

Lemma sig3 : forall f, exists r, sig f = "input" :: "weight" :: "bias" :: r /\ ~ In "input" r /\ ~ In "weight" r /\ ~ In "bias" r.
Proof. intros [| |]; eexists; (split; [reflexivity|]); cbn; repeat split; intros H; repeat (destruct H as [H|H]; [discriminate H|]); exact H. Qed.

(* filtered keyword tensors restricted to three names *)
Lemma ktens_vals : forall l, (forall p a, In (p, a) l -> exists v, a = AVal v) -> filter isT l = [].
Proof.
  induction l as [|[k a] l IH]; intros H; [reflexivity|]. cbn. destruct (H k a (or_introl eq_refl)) as [v ->]. cbn. apply IH. intros p a I. exact (H p a (or_intror I)).
Qed.
Lemma filter_app' : forall (a b : list (string * arg)), filter isT (a ++ b) = (filter isT a ++ filter isT b)%list.
Proof. induction a as [|x a IH]; intros b; cbn; [reflexivity|]. destruct (isT x); cbn; now rewrite IH. Qed.

(* all tensor bindings of a const call, input first *)
Definition Tb (f : fn) (c : call) : list (string * arg) := filter isT (bindings f c).
Lemma tb_cases : forall f c x w b, valid_call f c -> const_call f c x w b -> input_first f c ->
  match b with
  | None => Tb f c = [("input", AVar x); ("weight", AConst w)]
  | Some b => Tb f c = [("input", AVar x); ("weight", AConst w); ("bias", AConst b)] \/ Tb f c = [("input", AVar x); ("bias", AConst b); ("weight", AConst w)]
  end.
Proof.
  intros f c x w b (_ & ND & _ & HV) (BX & BW & _ & BB) (pre & a & post & E & HP).
  assert (EA : a = AVar x).
  { pose proof (in_kw _ "input" a ND) as H. unfold bound in BX. rewrite H in BX; [now injection BX|]. rewrite E. apply in_or_app. right. now left. }
  subst a. assert (T1 : Tb f c = ("input", AVar x) :: filter isT post).
  { unfold Tb. rewrite E, filter_app', (ktens_vals pre HP). reflexivity. }
  pose proof (filter_names_nodup _ ND) as NT. fold (Tb f c) in NT. rewrite T1 in NT. cbn [map fst] in NT. apply NoDup_cons_iff in NT. destruct NT as [NI NT].
  set (K := filter isT post) in *.
  assert (IK : forall p a, In (p, a) K -> In (p, a) (bindings f c) /\ istn a).
  { intros p a I. apply filter_In in I. destruct I as [I T]. split; [rewrite E; apply in_or_app; right; now right|]. destruct a; cbn in T; try discriminate; exact I0 || exact Logic.I. }
  assert (NK : forall p a, In (p, a) K -> (p = "weight" /\ a = AConst w) \/ (p = "bias" /\ exists b', b = Some b' /\ a = AConst b')).
  { intros p a I. destruct (IK p a I) as [IB Ta]. pose proof (in_kw _ p a ND IB) as KB. destruct (string_dec p "input") as [->|N1].
    - exfalso. apply NI. change "input" with (fst ("input", a)). now apply in_map.
    - destruct (string_dec p "weight") as [->|N2].
      + left. split; [reflexivity|]. unfold bound in BW. rewrite KB in BW. now injection BW.
      + destruct (string_dec p "bias") as [->|N3].
        * right. split; [reflexivity|]. unfold bound in BB. rewrite KB in BB. destruct b as [b|].
          -- destruct BB as [BB _]. exists b. split; [reflexivity|]. now injection BB.
          -- destruct BB as [BB|BB]; [discriminate BB|]. injection BB as ->. destruct Ta.
        * exfalso. destruct (HV p a IB N1 N2 N3) as [v ->]. exact Ta. }
  assert (IW : In ("weight", AConst w) K).
  { apply filter_In. split; [|reflexivity]. pose proof (kw_in _ _ _ BW) as I. rewrite E in I. apply in_app_or in I. destruct I as [I|I].
    - destruct (HP _ _ I) as [v V]. discriminate V.
    - destruct I as [I|I]; [discriminate I|exact I]. }
  assert (IBs : forall b', b = Some b' -> In ("bias", AConst b') K).
  { intros b' ->. destruct BB as [BB _]. apply filter_In. split; [|reflexivity]. pose proof (kw_in _ _ _ BB) as I. rewrite E in I. apply in_app_or in I. destruct I as [I|I].
    - destruct (HP _ _ I) as [v V]. discriminate V.
    - destruct I as [I|I]; [discriminate I|exact I]. }
  rewrite T1. clearbody K. clear T1 NI IK HP E BX BW BB ND HV.
  destruct K as [|[p1 a1] K]; [destruct IW|]. destruct K as [|[p2 a2] K].
  - destruct b as [b|]; destruct IW as [IW|[]]; injection IW as -> ->; [|reflexivity].
    destruct (IBs b eq_refl) as [I|[]]. discriminate I.
  - destruct K as [|[p3 a3] K].
    + cbn in NT. assert (NE : p1 <> p2) by (intros ->; apply NoDup_cons_iff in NT; destruct NT as [N _]; apply N; now left).
      destruct (NK p1 a1 (or_introl eq_refl)) as [[-> ->]|[-> (b1 & B1 & ->)]]; destruct (NK p2 a2 (or_intror (or_introl eq_refl))) as [[-> ->]|[-> (b2 & B2 & ->)]]; try (now destruct NE).
      * rewrite B2. now left.
      * rewrite B1. now right.
    + exfalso. cbn in NT. apply NoDup_cons_iff in NT. destruct NT as [N1 NT]. apply NoDup_cons_iff in NT. destruct NT as [N2 _].
      assert (Q1 : p1 = "weight" \/ p1 = "bias") by (destruct (NK p1 a1 (or_introl eq_refl)) as [[-> _]|[-> _]]; auto).
      assert (Q2 : p2 = "weight" \/ p2 = "bias") by (destruct (NK p2 a2 (or_intror (or_introl eq_refl))) as [[-> _]|[-> _]]; auto).
      assert (Q3 : p3 = "weight" \/ p3 = "bias") by (destruct (NK p3 a3 (or_intror (or_intror (or_introl eq_refl)))) as [[-> _]|[-> _]]; auto).
      cbn in N1, N2. destruct Q1 as [-> | ->], Q2 as [-> | ->], Q3 as [-> | ->]; tauto.
Qed.

(* slots of the bindings *)
Definition lab (f : fn) (c : call) : list (slot * arg) := slots c.
Lemma slots_names_gen : forall (sg : list string) (args : list arg) off (full : list string), List.length args <= List.length sg ->
  (forall i, nth i sg "" = nth (off + i) full "") ->
  map (fun sa : slot * arg => (match fst sa with Pos i => nth i full "" | Key k => k end, snd sa)) (combine (map Pos (seq off (List.length args))) args) = combine sg args.
Proof.
  induction sg as [|s sg IH]; intros args off full L H.
  - destruct args; [reflexivity|cbn in L; lia].
  - destruct args as [|a args]; [reflexivity|]. cbn [List.length seq map combine fst snd]. f_equal.
    + f_equal. specialize (H 0). rewrite Nat.add_0_r in H. now rewrite <- H.
    + apply IH; [cbn in L; lia|]. intros i. specialize (H (S i)). cbn in H. rewrite H. f_equal. lia.
Qed.
Lemma slots_bindings : forall f c, valid_call f c -> map (fun sa => (slot_name f (fst sa), snd sa)) (slots c) = bindings f c.
Proof.
  intros f c (L & _). unfold slots, bindings. rewrite map_app. f_equal.
  - apply (slots_names_gen (sig f) (c_args c) 0 (sig f) L). reflexivity.
  - rewrite map_map. cbn. induction (c_kwargs c) as [|[k a] l IH]; cbn; [reflexivity|]. now rewrite IH.
Qed.
(* tensors with their names and arguments *)
Definition ts (c : call) : list (slot * arg) := filter (fun sa => match snd sa with AVal _ => false | _ => true end) (slots c).
Lemma tensors_ts : forall c, tensors c = map (fun sa => (fst sa, match snd sa with AVar i | AConst i => i | AVal _ => 0 end)) (ts c).
Proof. intros c. unfold tensors, ts. induction (slots c) as [|[s a] l IH]; cbn; [reflexivity|]. destruct a; cbn; now rewrite IH. Qed.
Lemma ts_names : forall f c, valid_call f c -> map (fun sa => (slot_name f (fst sa), snd sa)) (ts c) = Tb f c.
Proof.
  intros f c V. unfold Tb. rewrite <- (slots_bindings f c V). unfold ts. induction (slots c) as [|[s a] l IH]; cbn; [reflexivity|].
  destruct a; cbn; now rewrite IH.
Qed.
Lemma is_const_ts : forall c i, is_const c i = existsb (fun sa => match snd sa with AConst j => Nat.eqb i j | _ => false end) (ts c).
Proof. intros c i. unfold is_const, ts. induction (slots c) as [|[s a] l IH]; cbn; [reflexivity|]. destruct a; cbn; now rewrite IH. Qed.

(* positional slots come first, in order of the position; a keyword slot never names a position that is given *)
Lemma slots_pos : forall c i a, In (Pos i, a) (slots c) <-> nth_error (c_args c) i = Some a.
Proof.
  intros c i a. unfold slots. rewrite in_app_iff.
  assert (G : forall (l : list arg) off, In (Pos i, a) (combine (map Pos (seq off (List.length l))) l) <-> off <= i /\ nth_error l (i - off) = Some a).
  { induction l as [|y l IH]; intros off; cbn.
    - split; [intros []|]. intros [_ N]. destruct (i - off); discriminate N.
    - rewrite IH. split.
      + intros [[= -> ->]|[L N]]; [split; [lia|]; now rewrite Nat.sub_diag|]. split; [lia|]. replace (i - off) with (S (i - S off)) by lia. exact N.
      + intros [L N]. destruct (Nat.eq_dec off i) as [->|D]; [left; rewrite Nat.sub_diag in N; cbn in N; congruence|]. right. split; [lia|].
        replace (i - off) with (S (i - S off)) in N by lia. exact N. }
  rewrite (G (c_args c) 0), Nat.sub_0_r. split.
  - intros [[_ N]|I]; [exact N|]. apply in_map_iff in I. destruct I as [x [D _]]. discriminate D.
  - intros N. left. split; [lia|exact N].
Qed.
Lemma sig_nodup : forall f, NoDup (sig f).
Proof. intros [| |]; cbn; repeat (constructor; [cbn; intros H; repeat (destruct H as [H|H]; [discriminate H|]); exact H|]); constructor. Qed.
Lemma nth_sig : forall f i j, i < List.length (sig f) -> j < List.length (sig f) -> nth i (sig f) "" = nth j (sig f) "" -> i = j.
Proof. intros f i j Hi Hj E. exact (proj1 (NoDup_nth (sig f) "") (sig_nodup f) i j Hi Hj E). Qed.

(* the slots of weight and bias *)
Lemma pos_of : forall f c i a n, valid_call f c -> In (Pos i, a) (slots c) -> slot_name f (Pos i) = nth n (sig f) "" -> n < List.length (sig f) -> i = n.
Proof.
  intros f c i a n (L & _) I E Hn. apply (nth_sig f); [|exact Hn|exact E]. apply slots_pos in I. assert (i < List.length (c_args c)) by (apply nth_error_Some; congruence). lia.
Qed.
(* with a positional argument n every earlier parameter is positional *)
Lemma earlier_pos : forall f c s n m a a', valid_call f c -> In (Pos n, a) (slots c) -> In (s, a') (slots c) -> slot_name f s = nth m (sig f) "" -> m < n -> s = Pos m.
Proof.
  intros f c s n m a a' V I I' E L. pose proof V as (LA & ND & _).
  assert (Hn : n < List.length (c_args c)) by (apply slots_pos in I; apply nth_error_Some; congruence).
  destruct s as [j|k].
  - f_equal. apply (pos_of f c j a' m V I'); [exact E|lia].
  - exfalso. cbn in E. unfold slots in I'. apply in_app_or in I'. destruct I' as [I'|I'].
    + assert (G : forall l off, ~ In (Key k, a') (combine (map Pos (seq off (List.length l))) l)).
      { induction l as [|y l IH]; intros off; cbn; [tauto|]. intros [D|D]; [discriminate D|]. exact (IH _ D). }
      exact (G _ _ I').
    + apply in_map_iff in I'. destruct I' as [[k' a2] [D I']]. cbn in D. injection D as -> ->.
      unfold bindings in ND. rewrite map_app in ND.
      assert (K1 : In k (map fst (combine (sig f) (c_args c)))).
      { subst k. clear - Hn L LA. revert m n Hn L LA. generalize (sig f). induction (c_args c) as [|y l IH]; intros sg m n Hn L LA; [cbn in Hn; lia|].
        destruct sg as [|s sg]; [cbn in LA; lia|]. cbn. destruct m as [|m]; [now left|]. right. destruct n as [|n]; [lia|]. cbn in Hn, LA. apply (IH sg m n); lia. }
      assert (K2 : In k (map fst (c_kwargs c))) by (change k with (fst (k, a')); now apply in_map).
      clear - ND K1 K2. induction (map fst (combine (sig f) (c_args c))) as [|y l IH]; [destruct K1|]. cbn in ND. apply NoDup_cons_iff in ND. destruct ND as [N ND].
      destruct K1 as [->|K1]; [apply N; apply in_or_app; now right|]. exact (IH ND K1).
Qed.
(* order: a positional slot before anything that is not an earlier position *)
Lemma sorted_pos : forall c pre s a post n, slots c = (pre ++ (s, a) :: post)%list -> (exists a', In (Pos n, a') post) -> exists m, s = Pos m /\ m < n.
Proof.
  intros c pre s a post n. unfold slots. intros E [a' I].
  assert (G : forall (l : list arg) off tl pre, (combine (map Pos (seq off (List.length l))) l ++ map (fun ka : string * arg => (Key (fst ka), snd ka)) tl)%list = (pre ++ (s, a) :: post)%list ->
    exists m, s = Pos m /\ m < n).
  { induction l as [|y l IH]; intros off tl pre0 Q; cbn in Q.
    - exfalso. assert (J : In (Pos n, a') (map (fun ka : string * arg => (Key (fst ka), snd ka)) tl)) by (rewrite Q; apply in_or_app; right; now right).
      apply in_map_iff in J. destruct J as [z [D _]]. discriminate D.
    - destruct pre0 as [|z pre0].
      + cbn in Q. injection Q as Q1 Q2 Q3. subst s. exists off. split; [reflexivity|].
        rewrite <- Q3 in I. apply in_app_or in I. destruct I as [I|I].
        * clear - I. assert (H : forall (l0 : list arg) o, In (Pos n, a') (combine (map Pos (seq o (List.length l0))) l0) -> o <= n).
          { induction l0 as [|y0 l0 IH]; intros o J; cbn in J; [destruct J|]. destruct J as [[= -> _]|J]; [lia|]. apply IH in J. lia. }
          apply H in I. lia.
        * apply in_map_iff in I. destruct I as [z [D _]]. discriminate D.
      + cbn in Q. injection Q as _ Q. exact (IH _ _ _ Q). }
  exact (G _ _ _ _ E).
Qed.

Lemma combine_nil : forall {A B} (l : list A), combine l (@nil B) = [].
Proof. destruct l; reflexivity. Qed.

Section P.
  Variable W : Type.
  Variable wshape : W -> list nat.
  Variable const : nat -> W.

  Lemma kab2 : forall c sx sw x w, ts c = [(sx, AVar x); (sw, AConst w)] -> x <> w ->
    index_of "weight" [sx; sw] = (match sw with Key k => if String.eqb k "weight" then Some 1 else None | Pos _ => None end) -> index_of "bias" [sx; sw] = None ->
    kernel_and_bias W const c = Ok (const w, None).
  Proof.
    intros c sx sw x w T N IW IB.
    assert (E1 : tensors c = [(sx, x); (sw, w)]) by (rewrite tensors_ts, T; reflexivity).
    assert (E2 : all_inputs c = [x; w]).
    { unfold all_inputs. rewrite E1. cbn. destruct (Nat.eqb_spec w x) as [->|]; [now destruct N|reflexivity]. }
    assert (E3 : weights W const c = [(1, const w)]).
    { unfold weights. rewrite E2. cbn. rewrite !is_const_ts, T. cbn. rewrite Nat.eqb_refl. destruct (Nat.eqb_spec x w) as [->|]; [now destruct N|reflexivity]. }
    assert (E4 : allocs c = [sx; sw]).
    { unfold allocs. rewrite E2, E1. cbn. rewrite !Nat.eqb_refl. destruct (Nat.eqb_spec w x) as [->|]; [now destruct N|]. destruct (Nat.eqb_spec x w) as [->|]; [now destruct N|]. reflexivity. }
    unfold kernel_and_bias, wget. rewrite E3, E4, IW, IB. cbn. destruct sw as [|k]; [reflexivity|]. destruct (String.eqb k "weight"); reflexivity.
  Qed.
  Lemma kab3 : forall c s0 s1 s2 x u v wi bi, ts c = [(s0, AVar x); (s1, AConst u); (s2, AConst v)] -> x <> u -> x <> v -> u <> v ->
    (match index_of "weight" [s0; s1; s2] with Some j => j | None => 1 end) = wi -> (match index_of "bias" [s0; s1; s2] with Some j => j | None => 2 end) = bi ->
    (wi = 1 /\ bi = 2 -> kernel_and_bias W const c = Ok (const u, Some (const v))) /\ (wi = 2 /\ bi = 1 -> kernel_and_bias W const c = Ok (const v, Some (const u))).
  Proof.
    intros c s0 s1 s2 x u v wi bi T N1 N2 N3 IW IB.
    assert (B1 : Nat.eqb u x = false) by (apply Nat.eqb_neq; auto). assert (B2 : Nat.eqb v x = false) by (apply Nat.eqb_neq; auto).
    assert (B3 : Nat.eqb v u = false) by (apply Nat.eqb_neq; auto). assert (B4 : Nat.eqb x u = false) by (apply Nat.eqb_neq; auto).
    assert (B5 : Nat.eqb x v = false) by (apply Nat.eqb_neq; auto). assert (B6 : Nat.eqb u v = false) by (apply Nat.eqb_neq; auto).
    assert (E1 : tensors c = [(s0, x); (s1, u); (s2, v)]) by (rewrite tensors_ts, T; reflexivity).
    assert (E2 : all_inputs c = [x; u; v]) by (unfold all_inputs; rewrite E1; cbn; rewrite ?B1, ?B2, ?B3; cbn; rewrite ?B1, ?B2, ?B3; reflexivity).
    assert (E3 : weights W const c = [(1, const u); (2, const v)]).
    { unfold weights. rewrite E2. cbn. rewrite !is_const_ts, T. cbn. rewrite ?Nat.eqb_refl, ?B4, ?B5, ?B3, ?B6. reflexivity. }
    assert (E4 : allocs c = [s0; s1; s2]).
    { unfold allocs. rewrite E2, E1. cbn. rewrite ?Nat.eqb_refl, ?B1, ?B2, ?B3, ?B4, ?B5, ?B6. reflexivity. }
    unfold kernel_and_bias, wget. rewrite E3, E4, IW, IB. split; intros [-> ->]; reflexivity.
  Qed.

  Lemma kab : forall f c x w b, valid_call f c -> const_call f c x w b -> input_first f c ->
    kernel_and_bias W const c = Ok (const w, option_map const b).
  Proof.
    intros f c x w b V C F. pose proof (tb_cases f c x w b V C F) as T. rewrite <- (ts_names f c V) in T. destruct (sig3 f) as (r & SG & _).
    assert (N0 : nth 0 (sig f) "" = "input") by (rewrite SG; reflexivity). assert (N1 : nth 1 (sig f) "" = "weight") by (rewrite SG; reflexivity).
    assert (N2 : nth 2 (sig f) "" = "bias") by (rewrite SG; reflexivity). assert (LS : 2 < List.length (sig f)) by (rewrite SG; cbn; lia).
    destruct C as (_ & _ & XW & CB).
    assert (IN : forall sa, In sa (ts c) -> In sa (slots c)) by (intros sa I; apply filter_In in I; exact (proj1 I)).
    destruct b as [b|].
    - destruct CB as (_ & BX & BW). destruct T as [T|T].
      + destruct (ts c) as [|[s0 a0] [|[s1 a1] [|[s2 a2] [|? ?]]]] eqn:TS; try discriminate T. cbn in T. injection T as T1 T2 T3 T4 T5 T6. subst a0 a1 a2.
        refine (proj1 (kab3 c s0 s1 s2 x w b 1 2 TS XW (not_eq_sym BX) (not_eq_sym BW) _ _) (conj eq_refl eq_refl)).
        * destruct s0 as [i0|k0]; destruct s1 as [i1|k1]; destruct s2 as [i2|k2]; cbn in T1, T3, T5; subst; cbn; reflexivity.
        * destruct s0 as [i0|k0]; destruct s1 as [i1|k1]; destruct s2 as [i2|k2]; cbn in T1, T3, T5; subst; cbn; reflexivity.
      + destruct (ts c) as [|[s0 a0] [|[s1 a1] [|[s2 a2] [|? ?]]]] eqn:TS; try discriminate T. cbn in T. injection T as T1 T2 T3 T4 T5 T6. subst a0 a1 a2.
        assert (I1 : In (s1, AConst b) (slots c)) by (apply IN; right; now left). assert (I2 : In (s2, AConst w) (slots c)) by (apply IN; right; right; now left).
        (* the weight after the bias: both are keywords *)
        assert (K2 : s2 = Key "weight").
        { destruct s2 as [i2|k2]; [|cbn in T5; now subst]. exfalso.
          assert (Z : i2 = 1) by (apply (pos_of f c i2 _ 1 V I2); [congruence|lia]). subst i2.
          assert (S1 : exists m, s1 = Pos m /\ m < 1).
          { unfold ts in TS. clear - TS. revert TS. set (P := fun sa : slot * arg => match snd sa with AVal _ => false | _ => true end).
            assert (G : forall l, filter P l = [(s0, AVar x); (s1, AConst b); (Pos 1, AConst w)] -> exists pre post, l = (pre ++ (s1, AConst b) :: post)%list /\ In (Pos 1, AConst w) post).
            { assert (G2 : forall l q r, filter P l = q :: r -> exists pre post, l = (pre ++ q :: post)%list /\ filter P post = r).
              { induction l as [|z l IH]; intros q r Q; cbn in Q; [discriminate Q|]. destruct (P z).
                - injection Q as -> Q. exists [], l. now split.
                - destruct (IH _ _ Q) as (p & o & -> & O). exists (z :: p), o. now split. }
              intros l Q. destruct (G2 _ _ _ Q) as (p & o & -> & O). destruct (G2 _ _ _ O) as (p' & o' & -> & O'). exists (p ++ (s0, AVar x) :: p')%list, o'. split.
              - rewrite <- app_assoc. reflexivity.
              - assert (J : In (Pos 1, AConst w) (filter P o')) by (rewrite O'; now left). apply filter_In in J. exact (proj1 J). }
            intros TS. destruct (G _ TS) as (p & o & E & I). apply (sorted_pos c p s1 (AConst b) o 1 E). now exists (AConst w). }
          destruct S1 as (m & -> & Hm). assert (m = 0) by lia. subst m. cbn in T3. rewrite SG in T3. cbn in T3. discriminate T3. }
        assert (K1 : s1 = Key "bias").
        { destruct s1 as [i1|k1]; [|cbn in T3; now subst]. exfalso.
          assert (Z : i1 = 2) by (apply (pos_of f c i1 _ 2 V I1); [congruence|lia]). subst i1.
          pose proof (earlier_pos f c s2 2 1 _ _ V I1 I2) as Q. rewrite T5, N1 in Q. specialize (Q eq_refl ltac:(lia)). rewrite K2 in Q. discriminate Q. }
        subst s1 s2. refine (proj2 (kab3 c s0 _ _ x b w 2 1 TS (not_eq_sym BX) XW BW _ _) (conj eq_refl eq_refl)).
        * destruct s0 as [i0|k0]; cbn in T1; subst; reflexivity.
        * destruct s0 as [i0|k0]; cbn in T1; subst; reflexivity.
    - destruct (ts c) as [|[s0 a0] [|[s1 a1] [|? ?]]] eqn:TS; try discriminate T. cbn in T. injection T as T1 T2 T3 T4. subst a0 a1.
      apply (kab2 c s0 s1 x w TS XW).
      + destruct s0 as [i0|k0]; destruct s1 as [i1|k1]; cbn in T1, T3; subst; reflexivity.
      + destruct s0 as [i0|k0]; destruct s1 as [i1|k1]; cbn in T1, T3; subst; reflexivity.
  Qed.

  (* values given by keyword *)
  Lemma kw_values : forall l p, NoDup (map fst l) -> kw (flat_map (fun ka : string * arg => match snd ka with AVal v => [(fst ka, v)] | _ => [] end) l) p =
    match kw l p with Some (AVal v) => Some v | _ => None end.
  Proof.
    induction l as [|[k a] l IH]; intros p ND; [reflexivity|]. cbn in ND. apply NoDup_cons_iff in ND. destruct ND as [NI ND]. cbn.
    destruct (String.eqb_spec k p) as [->|N].
    - destruct a as [i|i|v]; cbn; [| |now rewrite String.eqb_refl].
      + rewrite (IH p ND). destruct (kw l p) as [a|] eqn:E; [|reflexivity]. exfalso. apply NI. apply kw_in in E. change p with (fst (p, a)). now apply in_map.
      + rewrite (IH p ND). destruct (kw l p) as [a|] eqn:E; [|reflexivity]. exfalso. apply NI. apply kw_in in E. change p with (fst (p, a)). now apply in_map.
    - destruct a as [i|i|v]; cbn; try (now apply IH). destruct (String.eqb_spec k p) as [->|]; [now destruct N|]. now apply IH.
  Qed.
  Lemma nodup_app_r : forall {A} (a b : list A), NoDup (a ++ b) -> NoDup b.
  Proof. induction a as [|x a IH]; intros b; cbn; [tauto|]. intros H. apply NoDup_cons_iff in H. apply IH. exact (proj2 H). Qed.
  Lemma param_kw : forall f c p, valid_call f c -> by_keyword c -> In p (params f) -> attr (value_kwargs c) p = param f c p.
  Proof.
    intros f c p (L & ND & _) BK IP. unfold attr, param, bound. assert (NK : NoDup (map fst (c_kwargs c))) by (unfold bindings in ND; rewrite map_app in ND; exact (nodup_app_r _ _ ND)).
    assert (E : kw (bindings f c) p = kw (c_kwargs c) p).
    { unfold bindings. rewrite kw_app. destruct (kw (combine (sig f) (c_args c)) p) as [a|] eqn:K; [|reflexivity]. exfalso. apply kw_in in K.
      unfold params in IP. destruct (sig3 f) as (r & SG & Ni & Nw & Nb). rewrite SG in K, IP. cbn [skipn] in IP. unfold by_keyword in BK.
      destruct (c_args c) as [|a0 [|a1 [|a2 [|? ?]]]]; cbn in BK; try lia; cbn in K; repeat (destruct K as [K|K]; [injection K as <- _; auto|]); try (now destruct K); rewrite combine_nil in K; destruct K. }
    unfold value_kwargs. rewrite (kw_values _ p NK), E. destruct (kw (c_kwargs c) p) as [[| |]|]; reflexivity.
  Qed.
  Lemma same_shape_refl : forall s, same_shape s s = true.
  Proof. intros s. unfold same_shape. destruct (list_eq_dec Nat.eq_dec s s); [reflexivity|congruence]. Qed.
End P.
