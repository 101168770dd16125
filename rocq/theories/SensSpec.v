(* SensSpec.v -- what the sensitivity evaluation must do with images, points and quantizers. *)
From Coq Require Import String.
From Verif Require Import Base SDict SensModel.
Local Open Scope list_scope.
Local Open Scope Z_scope.

(* ---- images ---- *)
(* every batch has [m] >= 1 inputs, all with the same number of samples *)
Definition regular {I} (m : nat) (gen : list (batch I)) : Prop :=
  (0 < m)%nat /\
  forall b, In b gen -> length b = m /\ exists n, forall x, In x b -> length x = n.
(* the samples of input [i], in the order of the source *)
Definition samples {I} (i : nat) (gen : list (batch I)) : list I := concat (map (fun b => nth i b []) gen).
(* [b] is an initial part of the batch [b0] *)
Definition part_of {I} (b b0 : batch I) : Prop := exists n, b = map (firstn n) b0.

(* ---- points ---- *)
(* [l] is obtained from [l0] by leaving out elements *)
Inductive subseq {N} : list N -> list N -> Prop :=
| ss_nil l : subseq [] l
| ss_take x l l0 : subseq l l0 -> subseq (x :: l) (x :: l0)
| ss_skip x l l0 : subseq l l0 -> subseq l (x :: l0).

(* ---- quantizers ---- *)
(* [ord] enumerates the elements of a set, in some order *)
Definition set_order (ord : list string -> list string) : Prop :=
  forall l, NoDup (ord l) /\ forall x, In x (ord l) <-> In x l.
(* the model maps each name once, and no quantization layer belongs to two names *)
Definition proper (conf : list (string * list qlayer)) : Prop :=
  NoDup (skeys conf) /\ NoDup (map ql_id (concat (map snd conf))).
(* the first quantization layer of a kind *)
Definition first_of (q : qkind) (ls : list qlayer) : option qlayer := find (fun l => qkind_eqb (ql_kind l) q) ls.
(* the configuration (a, w) asks layer [k] to be set to [v] *)
Definition asks (conf : list (string * list qlayer)) (a w : cfg) (k : nat) (v : option Z) : Prop :=
  exists n ls l, sget n conf = Some ls /\ ql_id l = k /\
    (first_of QAct ls = Some l /\ sget n a = Some v \/ first_of QWt ls = Some l /\ sget n w = Some v).
(* the layer has the candidate *)
Definition valid_index (l : qlayer) (v : option Z) : Prop :=
  match v with
  | None => True
  | Some i => match ql_kind l with QAct => i < ql_cands l | QWt => i = 0 \/ i < ql_cands l end
  end.
(* every entry of the configuration has a layer to go to *)
Definition serves (conf : list (string * list qlayer)) (q : qkind) (c : cfg) : Prop :=
  forall n v, sget n c = Some v -> exists ls l, sget n conf = Some ls /\ first_of q ls = Some l /\ valid_index l v.
Definition applicable conf (a w : cfg) : Prop :=
  NoDup (skeys a) /\ NoDup (skeys w) /\ serves conf QAct a /\ serves conf QWt w.
Definition disabled (s : qstate) : Prop := forall k, s k = None.
(* inference looks at the settings only *)
Definition observes {V} (metric : qstate -> result V) : Prop :=
  forall s s', (forall k, s k = s' k) -> metric s = metric s'.
(* the settings a configuration stands for: what it asks for, everything else disabled *)
Definition stands_for conf (a w : cfg) (s : qstate) : Prop :=
  (forall k v, asks conf a w k v -> s k = v) /\ (forall k, (forall v, ~ asks conf a w k v) -> s k = None).
