(* SDict.v -- Python dictionaries with string keys as insertion-ordered association lists, and their
   order-insensitive equality (dict.__eq__).  No part of /repo is modelled here. *)
From Coq Require Import String.
From Verif Require Import Base.
Local Open Scope list_scope.

Fixpoint sget {V} (k : string) (d : list (string * V)) : option V :=
  match d with [] => None | (k', v) :: r => if String.eqb k k' then Some v else sget k r end.

(* d[k] = v: replaces in place, otherwise appends *)
Fixpoint sset {V} (k : string) (v : V) (d : list (string * V)) : list (string * V) :=
  match d with
  | [] => [(k, v)]
  | (k', v') :: r => if String.eqb k k' then (k', v) :: r else (k', v') :: sset k v r
  end.

Definition skeys {V} (d : list (string * V)) : list string := map fst d.

(* a == b for dictionaries *)
Definition sdict_eqb {V} (veqb : V -> V -> bool) (a b : list (string * V)) : bool :=
  Nat.eqb (length a) (length b) &&
  forallb (fun kv => match sget (fst kv) b with Some v => veqb (snd kv) v | None => false end) a.

Lemma sget_in {V} k (v : V) d : sget k d = Some v -> In (k, v) d.
Proof.
  induction d as [|[k' v'] r IH]; cbn; [discriminate|].
  destruct (String.eqb_spec k k') as [->|N]; intro H; [left; congruence|right; auto].
Qed.

Lemma sget_key {V} k (d : list (string * V)) : In k (skeys d) <-> exists v, sget k d = Some v.
Proof.
  induction d as [|[k' v'] r IH]; cbn; [split; [tauto|intros [? ?]; discriminate]|].
  destruct (String.eqb_spec k k') as [->|N].
  - split; eauto.
  - rewrite <- IH. split; [intros [E|I]; [congruence|exact I]|auto].
Qed.

Lemma sget_none {V} k (d : list (string * V)) : sget k d = None <-> ~ In k (skeys d).
Proof.
  rewrite sget_key. destruct (sget k d) as [v|]; split; try congruence; try tauto.
  - intro H. exfalso. eauto.
  - intros _ [v E]. discriminate.
Qed.

Lemma in_sget {V} k (v : V) d : NoDup (skeys d) -> In (k, v) d -> sget k d = Some v.
Proof.
  induction d as [|[k' v'] r IH]; cbn; [tauto|]. intros N [E|I].
  - inversion E; subst. rewrite String.eqb_refl. reflexivity.
  - inversion N as [|? ? N1 N2]; subst. destruct (String.eqb_spec k k') as [->|_]; [|auto].
    exfalso. apply N1. unfold skeys. apply in_map_iff. exists (k', v). auto.
Qed.

Lemma sget_sset {V} k k' (v : V) d : sget k (sset k' v d) = if String.eqb k k' then Some v else sget k d.
Proof.
  induction d as [|[k0 v0] r IH]; cbn; [reflexivity|].
  destruct (String.eqb_spec k' k0) as [->|N]; cbn.
  - destruct (String.eqb_spec k k0); reflexivity.
  - rewrite IH. destruct (String.eqb_spec k k0) as [->|N1]; [|reflexivity].
    destruct (String.eqb_spec k0 k'); congruence.
Qed.

Lemma sset_keys {V} k (v : V) d k0 : In k0 (skeys (sset k v d)) <-> k0 = k \/ In k0 (skeys d).
Proof.
  induction d as [|[k1 v1] r IH]; cbn; [intuition congruence|].
  destruct (String.eqb_spec k k1) as [->|N]; cbn; [intuition congruence|rewrite IH; tauto].
Qed.

Lemma sset_nodup {V} k (v : V) d : NoDup (skeys d) -> NoDup (skeys (sset k v d)).
Proof.
  induction d as [|[k1 v1] r IH]; cbn; [repeat constructor; tauto|]. intro N.
  inversion N as [|? ? N1 N2]; subst. destruct (String.eqb_spec k k1) as [->|Ne]; cbn; [constructor; assumption|].
  constructor; [|auto]. intro I. apply sset_keys in I. destruct I; [congruence|tauto].
Qed.

Lemma sget_map {V W} (f : V -> W) k d : sget k (map (fun kv => (fst kv, f (snd kv))) d) = option_map f (sget k d).
Proof. induction d as [|[k' v'] r IH]; cbn; [reflexivity|]. destruct (String.eqb k k'); [reflexivity|exact IH]. Qed.

Lemma skeys_map {V W} (f : V -> W) (d : list (string * V)) : skeys (map (fun kv => (fst kv, f (snd kv))) d) = skeys d.
Proof. unfold skeys. rewrite map_map. apply map_ext. reflexivity. Qed.

(* for genuine dictionaries (distinct keys) == is: every key is looked up to equal values *)
Lemma sdict_eqb_spec {V} (veqb : V -> V -> bool) (a b : list (string * V)) :
  NoDup (skeys a) -> NoDup (skeys b) ->
  sdict_eqb veqb a b = true <->
  (forall k, match sget k a, sget k b with
             | Some x, Some y => veqb x y = true
             | None, None => True
             | _, _ => False end).
Proof.
  intros Na Nb. unfold sdict_eqb. rewrite andb_true_iff, Nat.eqb_eq, forallb_forall. split.
  - intros [L F] k.
    assert (incl (skeys a) (skeys b)) as I1.
    { intros x Hx. apply sget_key in Hx. destruct Hx as [v E]. apply sget_in in E. apply F in E. cbn in E.
      destruct (sget x b) as [w|] eqn:G; [apply sget_key; eauto|discriminate]. }
    assert (incl (skeys b) (skeys a)) as I2.
    { apply NoDup_length_incl; [assumption| |assumption]. unfold skeys. rewrite !map_length. lia. }
    destruct (sget k a) as [x|] eqn:Ea.
    + apply sget_in in Ea. apply F in Ea. cbn in Ea. destruct (sget k b); [exact Ea|discriminate].
    + destruct (sget k b) as [y|] eqn:Eb; [|exact I]. apply sget_none in Ea. apply Ea, I2, sget_key. eauto.
  - intro H. split.
    + assert (incl (skeys a) (skeys b)) as I1.
      { intros x Hx. apply sget_key in Hx. destruct Hx as [v E]. specialize (H x). rewrite E in H.
        destruct (sget x b) eqn:G; [apply sget_key; eauto|tauto]. }
      assert (incl (skeys b) (skeys a)) as I2.
      { intros x Hx. apply sget_key in Hx. destruct Hx as [v E]. specialize (H x). rewrite E in H.
        destruct (sget x a) eqn:G; [apply sget_key; eauto|tauto]. }
      apply (NoDup_incl_length Na) in I1. apply (NoDup_incl_length Nb) in I2.
      unfold skeys in I1, I2. rewrite !map_length in I1, I2. lia.
    + intros [k v] I. cbn. specialize (H k). rewrite (in_sget _ _ _ Na I) in H.
      destruct (sget k b); [exact H|tauto].
Qed.
