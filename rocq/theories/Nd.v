(* Nd.v -- arrays of real numbers with the numpy operations used by the graph substitutions: broadcasting,
   reshape, sums over axes, transposition.  No part of /repo is modelled here; numpy (and the tensor
   functions of the frameworks with the same meaning) belongs to the trusted base. *)
From Coq Require Export Reals Lra.
From Verif Require Export Base.
Open Scope res_scope.
Open Scope R_scope.

(* an array: its shape and its entries; entries are meaningful at indices within the shape only *)
Record nd := Nd { shp : list nat; at_ : list nat -> R }.
Definition scalar (x : R) : nd := Nd [] (fun _ => x).
(* Sum of f over 0 .. n-1 *)
Fixpoint rsum (n : nat) (f : nat -> R) : R := match n with O => 0 | S k => rsum k f + f k end.

(* idx is an index of an array of shape s *)
Definition inb (s idx : list nat) : Prop := Forall2 (fun d i => (i < d)%nat) s idx.
Fixpoint prod (s : list nat) : nat := match s with [] => 1%nat | d :: r => (d * prod r)%nat end.
(* row-major position *)
Fixpoint flat (s idx : list nat) : nat :=
  match s, idx with d :: s', i :: idx' => (i * prod s' + flat s' idx')%nat | _, _ => 0%nat end.
Fixpoint unflat (s : list nat) (n : nat) : list nat :=
  match s with [] => [] | d :: s' => (n / prod s')%nat :: unflat s' (n mod prod s')%nat end.

(* ---- broadcasting ---- *)
Definition pad_left (n : nat) (s : list nat) : list nat := repeat 1%nat (n - length s) ++ s.
Fixpoint bdims (a b : list nat) : option (list nat) :=
  match a, b with
  | [], [] => Some []
  | x :: a', y :: b' =>
      match bdims a' b' with
      | Some r => if Nat.eqb x y then Some (x :: r) else if Nat.eqb x 1 then Some (y :: r) else if Nat.eqb y 1 then Some (x :: r) else None
      | None => None
      end
  | _, _ => None
  end.
Definition bshape (a b : list nat) : option (list nat) :=
  let n := Nat.max (length a) (length b) in bdims (pad_left n a) (pad_left n b).
Fixpoint mask (s idx : list nat) : list nat :=
  match s, idx with d :: s', i :: idx' => (if Nat.eqb d 1 then 0%nat else i) :: mask s' idx' | _, _ => [] end.
(* the entry of a that takes part in position idx of a broadcast result *)
Definition bget (a : nd) (idx : list nat) : R := at_ a (mask (shp a) (skipn (length idx - length (shp a)) idx)).
Definition bop (f : R -> R -> R) (a b : nd) : result nd :=
  match bshape (shp a) (shp b) with
  | Some s => Ok (Nd s (fun idx => f (bget a idx) (bget b idx)))
  | None => Err E_value
  end.
Definition nmap (f : R -> R) (a : nd) : nd := Nd (shp a) (fun idx => f (at_ a idx)).

(* ---- reshape; None stands for -1 ---- *)
Definition infer (size : nat) (s : list (option nat)) : result (list nat) :=
  let known := prod (map (fun d => match d with Some k => k | None => 1%nat end) s) in
  if existsb (fun d => match d with None => true | _ => false end) s
  then if Nat.eqb known 0 then Err E_value
       else if Nat.eqb (size mod known) 0 then Ok (map (fun d => match d with Some k => k | None => (size / known)%nat end) s) else Err E_value
  else Ok (map (fun d => match d with Some k => k | None => 1%nat end) s).
Definition reshape_to (a : nd) (s : list nat) : nd := Nd s (fun idx => at_ a (unflat (shp a) (flat s idx))).
Definition reshape (a : nd) (s : list (option nat)) : result nd :=
  let! s' := infer (prod (shp a)) s in
  if Nat.eqb (prod s') (prod (shp a)) then Ok (reshape_to a s') else Err E_value.
Definition flatten (a : nd) : nd := reshape_to a [prod (shp a)].

(* ---- sums over axes ---- *)
Definition memb (k : nat) (l : list nat) : bool := existsb (Nat.eqb k) l.
Fixpoint drop_axes (k : nat) (axes s : list nat) : list nat :=
  match s with [] => [] | d :: r => if memb k axes then drop_axes (S k) axes r else d :: drop_axes (S k) axes r end.
Fixpoint sum_at (f : list nat -> R) (k : nat) (axes s idx : list nat) : R :=
  match s with
  | [] => f []
  | d :: r =>
      if memb k axes then rsum d (fun j => sum_at (fun t => f (j :: t)) (S k) axes r idx)
      else match idx with i :: idx' => sum_at (fun t => f (i :: t)) (S k) axes r idx' | [] => 0 end
  end.
Definition nsum (axes : list nat) (a : nd) : nd :=
  Nd (drop_axes 0 axes (shp a)) (fun idx => sum_at (at_ a) 0 axes (shp a) idx).
(* np.transpose(a, perm): axis j of the result is axis perm[j] of a *)
Fixpoint index_of (k : nat) (l : list nat) : nat := match l with [] => 0%nat | x :: r => if Nat.eqb k x then 0%nat else S (index_of k r) end.
Definition transpose (perm : list nat) (a : nd) : nd :=
  Nd (map (fun k => nth k (shp a) 0%nat) perm)
     (fun idx => at_ a (map (fun k => nth (index_of k perm) idx 0%nat) (seq 0 (length (shp a))))).

(* ================= lemmas ================= *)
Lemma rsum_ext n f g : (forall k, (k < n)%nat -> f k = g k) -> rsum n f = rsum n g.
Proof. induction n as [|n IH]; intro H; [reflexivity|]. cbn. rewrite IH, (H n) by (intros; try apply H; lia). reflexivity. Qed.
Lemma rsum_scal n f c : rsum n (fun k => c * f k) = c * rsum n f.
Proof. induction n as [|n IH]; cbn; [ring|]. rewrite IH. ring. Qed.
Lemma rsum_scal_r n f c : rsum n (fun k => f k * c) = rsum n f * c.
Proof. induction n as [|n IH]; cbn; [ring|]. rewrite IH. ring. Qed.
Lemma rsum_plus n f g : rsum n (fun k => f k + g k) = rsum n f + rsum n g.
Proof. induction n as [|n IH]; cbn; [ring|]. rewrite IH. ring. Qed.
Lemma rsum_minus n f g : rsum n (fun k => f k - g k) = rsum n f - rsum n g.
Proof. induction n as [|n IH]; cbn; [ring|]. rewrite IH. ring. Qed.
Lemma rsum_zero n f : (forall k, (k < n)%nat -> f k = 0) -> rsum n f = 0.
Proof. induction n as [|n IH]; intro H; [reflexivity|]. cbn. rewrite IH, (H n) by (intros; try apply H; lia). ring. Qed.
Lemma rsum_swap n m f : rsum n (fun i => rsum m (fun j => f i j)) = rsum m (fun j => rsum n (fun i => f i j)).
Proof.
  induction n as [|n IH]; cbn.
  - symmetry. apply rsum_zero. reflexivity.
  - rewrite IH, <- rsum_plus. reflexivity.
Qed.
Lemma rsum_one n k0 f : (k0 < n)%nat -> (forall k, (k < n)%nat -> k <> k0 -> f k = 0) -> rsum n f = f k0.
Proof.
  induction n as [|n IH]; intros L H; [lia|]. cbn. destruct (Nat.eq_dec k0 n) as [->|N].
  - rewrite rsum_zero; [ring|]. intros k K. apply H; lia.
  - rewrite IH, (H n) by (intros; try apply H; lia). ring.
Qed.
Lemma rsum_const n c : rsum n (fun _ => c) = INR n * c.
Proof. induction n as [|n IH]; [cbn; ring|]. cbn [rsum]. rewrite IH, S_INR. ring. Qed.
Lemma rsum_add n m f : rsum (n + m) f = rsum n f + rsum m (fun k => f (n + k)%nat).
Proof. induction m as [|m IH]; [rewrite Nat.add_0_r; cbn; ring|]. rewrite Nat.add_succ_r. cbn. rewrite IH. ring. Qed.

Lemma mask_id s idx : inb s idx -> mask s idx = idx.
Proof. induction 1 as [|d i s idx H F IH]; [reflexivity|]. cbn. rewrite IH. destruct (Nat.eqb_spec d 1); [f_equal; lia|reflexivity]. Qed.
Lemma inb_length s idx : inb s idx -> length idx = length s.
Proof. induction 1; cbn; congruence. Qed.
Lemma bget_same a idx : inb (shp a) idx -> bget a idx = at_ a idx.
Proof. intro H. unfold bget. rewrite (inb_length _ _ H), Nat.sub_diag. cbn [skipn]. rewrite mask_id by exact H. reflexivity. Qed.
Lemma pad_left_same s : pad_left (length s) s = s.
Proof. unfold pad_left. rewrite Nat.sub_diag. reflexivity. Qed.
Lemma bdims_sub s k : Forall2 (fun d e => d = 1%nat \/ d = e) s k -> bdims k s = Some k.
Proof.
  induction 1 as [|d e s k H F IH]; [reflexivity|]. cbn. rewrite IH. destruct (Nat.eqb_spec e d) as [E|E]; [reflexivity|].
  destruct H as [->|H]; [|congruence]. destruct (Nat.eqb_spec e 1); [congruence|]. reflexivity.
Qed.
Lemma bdims_sub' s k : Forall2 (fun d e => d = 1%nat \/ d = e) s k -> bdims s k = Some k.
Proof.
  induction 1 as [|d e s k H F IH]; [reflexivity|]. cbn. rewrite IH. destruct (Nat.eqb_spec d e) as [E|E]; [rewrite E; reflexivity|].
  destruct H as [->|H]; [|congruence]. reflexivity.
Qed.
(* the array s broadcasts to the shape of k *)
Definition fits (s k : list nat) : Prop := Forall2 (fun d e => d = 1%nat \/ d = e) s k.
Lemma fits_refl s : fits s s.
Proof. induction s; constructor; auto. Qed.
Lemma bop_fits f a b : fits (shp b) (shp a) ->
  exists r, bop f a b = Ok r /\ shp r = shp a /\ forall idx, inb (shp a) idx -> at_ r idx = f (at_ a idx) (at_ b (mask (shp b) idx)).
Proof.
  intro H. unfold bop, bshape. assert (L : length (shp b) = length (shp a)) by (clear -H; induction H; cbn; congruence).
  rewrite L, Nat.max_id, pad_left_same, <- L, pad_left_same, (bdims_sub _ _ H). eexists. split; [reflexivity|]. split; [reflexivity|].
  intros idx I. cbn [at_]. rewrite bget_same by exact I. unfold bget. rewrite (inb_length _ _ I), L, Nat.sub_diag. reflexivity.
Qed.

Lemma inb1 C c : (c < C)%nat -> inb [C] [c].
Proof. intro L. constructor; [exact L|constructor]. Qed.
(* v stands for the function g on the channels 0 .. C-1: a scalar or a vector of C entries *)
Definition isvec (C : nat) (v : nd) (g : nat -> R) : Prop := (shp v = [] \/ shp v = [C]) /\ forall c, (c < C)%nat -> bget v [c] = g c.
Lemma isvec_scalar C x : isvec C (scalar x) (fun _ => x).
Proof. split; [left; reflexivity|]. intros. reflexivity. Qed.
Lemma isvec_of C v : shp v = [C] -> isvec C v (fun c => at_ v [c]).
Proof. intro H. split; [right; exact H|]. intros c L. apply bget_same. rewrite H. apply inb1. exact L. Qed.
Lemma isvec_at C v g : isvec C v g -> shp v = [C] -> forall c, (c < C)%nat -> at_ v [c] = g c.
Proof. intros [_ H] S c L. rewrite <- H by exact L. symmetry. apply bget_same. rewrite S. apply inb1. exact L. Qed.
Lemma isvec_ext C v f g : isvec C v f -> (forall c, (c < C)%nat -> f c = g c) -> isvec C v g.
Proof. intros [H1 H2] E. split; [exact H1|]. intros c L. rewrite <- E by exact L. apply H2. exact L. Qed.
Lemma isvec_bop C f a b g h : isvec C a g -> isvec C b h ->
  exists r, bop f a b = Ok r /\ isvec C r (fun c => f (g c) (h c)) /\ (shp a = [C] \/ shp b = [C] -> shp r = [C]).
Proof.
  intros [A1 A2] [B1 B2]. unfold bop, bshape.
  destruct A1 as [A1|A1], B1 as [B1|B1]; rewrite A1, B1; cbn.
  - eexists. split; [reflexivity|]. split; [|intros [E|E]; congruence]. split; [left; reflexivity|]. intros c L. unfold bget at 1. cbn. f_equal; [rewrite <- A2 by exact L; unfold bget; rewrite A1|rewrite <- B2 by exact L; unfold bget; rewrite B1]; reflexivity.
  - destruct C as [|[|C]]; (eexists; split; [reflexivity|]; split; [|intros _; reflexivity]; split; [right; reflexivity|]); intros c L; rewrite bget_same by (apply inb1; exact L); cbn [at_]; rewrite <- A2, <- B2 by exact L; reflexivity.
  - destruct C as [|[|C]]; (eexists; split; [reflexivity|]; split; [|intros _; reflexivity]; split; [right; reflexivity|]); intros c L; rewrite bget_same by (apply inb1; exact L); cbn [at_]; rewrite <- A2, <- B2 by exact L; reflexivity.
  - rewrite Nat.eqb_refl. eexists; split; [reflexivity|]; split; [|intros _; reflexivity]; split; [right; reflexivity|]; intros c L; rewrite bget_same by (apply inb1; exact L); cbn [at_]; rewrite <- A2, <- B2 by exact L; reflexivity.
Qed.
Lemma isvec_map C f a g : isvec C a g -> isvec C (nmap f a) (fun c => f (g c)).
Proof. intros [A1 A2]. split; [exact A1|]. intros c L. rewrite <- A2 by exact L. reflexivity. Qed.

Lemma inb4 a b c d i j k l : inb [a;b;c;d] [i;j;k;l] <-> ((i < a)%nat /\ (j < b)%nat /\ (k < c)%nat /\ (l < d)%nat).
Proof.
  split.
  - intro H. inversion H as [|? ? ? ? H1 F1]; subst. inversion F1 as [|? ? ? ? H2 F2]; subst. inversion F2 as [|? ? ? ? H3 F3]; subst. inversion F3 as [|? ? ? ? H4 F4]; subst. auto.
  - intros (A & B & C & D). repeat constructor; assumption.
Qed.
Lemma inb2 a b i j : inb [a;b] [i;j] <-> ((i < a)%nat /\ (j < b)%nat).
Proof.
  split.
  - intro H. inversion H as [|? ? ? ? H1 F1]; subst. inversion F1 as [|? ? ? ? H2 F2]; subst. auto.
  - intros (A & B). repeat constructor; assumption.
Qed.
Lemma flat_lt s idx : inb s idx -> (flat s idx < prod s)%nat.
Proof. induction 1 as [|d i s idx H F IH]; cbn; [lia|]. nia. Qed.
Lemma unflat_flat s idx : inb s idx -> unflat s (flat s idx) = idx.
Proof.
  induction 1 as [|d i s idx H F IH]; [reflexivity|]. cbn. pose proof (flat_lt _ _ F) as L.
  rewrite Nat.div_add_l by lia. rewrite Nat.div_small by exact L. rewrite Nat.add_0_r. f_equal.
  rewrite Nat.add_comm, Nat.mod_add by lia. rewrite Nat.mod_small by exact L. exact IH.
Qed.
Lemma flat_unflat s n : (n < prod s)%nat -> flat s (unflat s n) = n /\ inb s (unflat s n).
Proof.
  revert n. induction s as [|d s IH]; intros n L; cbn in *; [split; [lia|constructor]|].
  destruct (Nat.eq_dec (prod s) 0) as [Z|Z]; [rewrite Z in L; lia|].
  pose proof (Nat.mod_upper_bound n (prod s) Z) as M. destruct (IH _ M) as [E I]. split.
  - rewrite E, Nat.mul_comm. symmetry. apply Nat.div_mod. exact Z.
  - constructor; [|exact I]. apply Nat.div_lt_upper_bound; [exact Z|]. lia.
Qed.
