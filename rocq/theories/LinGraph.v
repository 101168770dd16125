(* LinGraph.v -- layers as nodes of a graph: tensors with their extent, and the functions that nodes compute. *)
From Coq Require Import FunctionalExtensionality.
From Verif Require Import LinNode LinSpec BnModel BnSpec.

(* an image: height and width, and the entries of its C channels; entries elsewhere are 0.  None stands for
   the result of a layer that cannot be applied to its arguments. *)
Definition image : Type := option ((Z * Z) * tensor).
Definition inside_hw (hw p : Z * Z) : bool := ((0 <=? fst p) && (fst p <? fst hw) && (0 <=? snd p) && (snd p <? snd hw))%Z.
Definition clip (C : nat) (hw : Z * Z) (t : tensor) : tensor := fun c p => if Nat.ltb c C && inside_hw hw p then t c p else 0.
Definition lin_op (l : lin) (args : list image) : image :=
  match args with [Some (hw, x)] => Some (out_hw l hw, clip (l_out l) (out_hw l hw) (lin_val l hw x)) | _ => None end.
Definition bn_op (C : nat) (b : bn) (args : list image) : image :=
  match args with [Some (hw, x)] => Some (hw, clip C hw (bn_val b x)) | _ => None end.

Lemma inside_hw_spec hw p : inside_hw hw p = true <-> pos_in hw p.
Proof. unfold inside_hw, pos_in. rewrite !andb_true_iff, !Z.leb_le, !Z.ltb_lt. tauto. Qed.
Lemma clip_ext C hw s t : (forall c p, (c < C)%nat -> pos_in hw p -> s c p = t c p) -> clip C hw s = clip C hw t.
Proof.
  intro H. apply functional_extensionality. intro c. apply functional_extensionality. intro p. unfold clip. destruct (Nat.ltb_spec c C); [|reflexivity]. cbn [andb]. destruct (inside_hw hw p) eqn:I; [|reflexivity]. apply H; [assumption|apply inside_hw_spec, I].
Qed.
Lemma clip_in C hw t c p : (c < C)%nat -> pos_in hw p -> clip C hw t c p = t c p.
Proof. intros L I. unfold clip. rewrite (proj2 (Nat.ltb_lt c C) L), (proj2 (inside_hw_spec hw p) I). reflexivity. Qed.
Lemma tap_in l hw h w p q : dense (l_kind l) = false -> tap l hw h w p = Some q -> pos_in hw q.
Proof.
  intros D T. unfold tap in T. rewrite D in T. destruct (tap1 l fst (fst hw) h (fst p)) as [a|] eqn:A; [|discriminate]. destruct (tap1 l snd (snd hw) w (snd p)) as [b|] eqn:B; [|discriminate]. injection T as <-.
  assert (X : forall prj n k y r, tap1 l prj n k y = Some r -> (0 <= r < n)%Z).
  { clear. intros prj n k y r H. unfold tap1, convT_tap, conv_tap, within in H. destruct (transposed (l_kind l)).
    - destruct (Z.eqb _ _); [|discriminate]. destruct (_ && _)%bool eqn:Q in H; [|discriminate]. injection H as <-. apply andb_prop in Q. destruct Q as [Q1 Q2]. apply Z.leb_le in Q1. apply Z.ltb_lt in Q2. lia.
    - destruct (_ && _)%bool eqn:Q in H; [|discriminate]. injection H as <-. apply andb_prop in Q. destruct Q as [Q1 Q2]. apply Z.leb_le in Q1. apply Z.ltb_lt in Q2. lia. }
  split; cbn; [apply (X _ _ _ _ _ A)|apply (X _ _ _ _ _ B)].
Qed.
(* a convolution sees its input channels and the positions of its input only *)
Lemma lin_val_ext l hw x y o p : dense (l_kind l) = false -> (forall i q, (i < l_in l)%nat -> pos_in hw q -> x i q = y i q) -> lin_val l hw x o p = lin_val l hw y o p.
Proof.
  intros D H. unfold lin_val. f_equal. apply rsum_ext. intros h _. apply rsum_ext. intros w _. destruct (tap l hw h w p) as [q|] eqn:T; [|reflexivity]. apply rsum_ext. intros i I. rewrite H; [reflexivity|exact I|]. exact (tap_in l hw h w p q D T).
Qed.
Lemma lin_val_clip l hw x o p : dense (l_kind l) = false -> lin_val l hw (clip (l_in l) hw x) o p = lin_val l hw x o p.
Proof. intro D. apply lin_val_ext; [exact D|]. intros i q I Q. apply clip_in; assumption. Qed.
Lemma not_dense l : foldable_kind (l_kind l) = true -> dense (l_kind l) = false.
Proof. destruct (l_kind l); try discriminate; reflexivity. Qed.
