(* MatMulProps.v -- C74: a matmul of tensors with more than three dimensions is decomposed into the same product. *)
From Coq Require Import Lia.
From Verif Require Import Base GraphModel GraphProofs FxModel MatMulModel MatMulSpec MatMulProofs.
From Coq Require Import Reals Lra.
Local Open Scope nat_scope.

(* operands with the same number of dimensions (at least four), traced with any batch size: the added nodes compute
   torch.matmul, broadcasting included, for every run-time batch size, whatever the order of the incoming edges.
   Every added matmul is of two tensors of three dimensions: matmul3 accepts nothing else *)
Theorem matmul_decomposed b1 b2 D1 D2 m p n x y edges :
  1 <= length D1 -> compatible D1 D2 -> Forall (fun d => 0 < d) (m :: p :: n :: D1 ++ D2) ->
  edges = [(x, 0); (y, 1)] \/ edges = [(y, 1); (x, 0)] ->
  exists nodes out, substitute [b1 :: D1 ++ [m; p]; b2 :: D2 ++ [p; n]] edges = Ok (Some (nodes, out)) /\
    forall val B1 B2, sh (val x) = B1 :: D1 ++ [m; p] -> sh (val y) = B2 :: D2 ++ [p; n] -> 0 < B1 -> 0 < B2 -> compatible [B1] [B2] ->
      exists t, run_matmul val nodes out = Ok t /\ torch_matmul (val x) (val y) t (B1 :: D1) (B2 :: D2) m p n.
Proof. exact (decomposition_lem b1 b2 D1 D2 m p n x y edges). Qed.
Print Assumptions matmul_decomposed.

(* small matmuls are left alone *)
Theorem small_matmul_unchanged si so edges : length si <= 3 -> length so <= 3 -> substitute [si; so] edges = Ok None.
Proof. intros H1 H2. unfold substitute. cbn [nth_error bind]. apply Nat.leb_le in H1, H2. rewrite H1, H2. reflexivity. Qed.
Print Assumptions small_matmul_unchanged.

(* a matmul that is the only output, or no output, leaves the other outputs alone *)
Theorem matmul_outputs mm new outs : outs = [mm] \/ ~ In mm outs -> new_outputs mm new outs = map (fun o => if Nat.eqb o mm then new else o) outs.
Proof.
  unfold new_outputs. intros [->|H].
  - cbn. rewrite Nat.eqb_refl. reflexivity.
  - destruct (mem mm outs) eqn:Q; [apply mem_spec in Q; contradiction|]. clear Q. induction outs as [|o outs IH]; [reflexivity|]. cbn [map]. destruct (Nat.eqb_spec o mm) as [E|_]; [exfalso; apply H; left; exact E|].
    f_equal. apply IH. intro I. apply H. right. exact I.
Qed.
Print Assumptions matmul_outputs.

Definition ones (s : list nat) : tensor := {| sh := s; at_ := fun _ => 1%R |}.
(* (2, 1, 3, 1, 2) x (1, 2, 1, 2, 1): both operands are expanded and reshaped *)
Example decomposed_example : match substitute [[2; 1; 3; 1; 2]; [1; 2; 1; 2; 1]] [(7, 1); (5, 0)] with
  | Ok (Some (nodes, out)) => length nodes = 26 /\ out = 25 /\ firstn 7 nodes =
      [(MExpand [None; Some 2; Some 3; Some 1; Some 2], [SG 5]); (MExpand [None; Some 2; Some 3; Some 2; Some 1], [SG 7]);
       (MReshape [None; Some 6; Some 1; Some 2], [SN 0]); (MReshape [None; Some 6; Some 2; Some 1], [SN 1]); (MUnbind, [SN 2]); (MUnbind, [SN 3]); (MGetitem 0, [SN 4])]
  | _ => False end.
Proof. vm_compute. repeat split. Qed.
Example decomposed_example_applies : compatible [1; 3] [2; 1] /\ Forall (fun d => 0 < d) (1 :: 2 :: 1 :: [1; 3] ++ [2; 1]).
Proof. split; repeat (constructor; [cbn; lia|]); constructor. Qed.

(* FINDING (matmul_decomposition.py L136): input_shape holds one shape per distinct input tensor, so torch.matmul(x, x) of any
   number of dimensions raises IndexError. *)
Theorem matmul_with_itself_refuted : exists nd (shape : nat -> list nat), f_args nd = [ANode 0; ANode 0] /\ substitute (map shape (all_input_nodes nd)) [(0, 0); (0, 1)] = Err E_index.
Proof. exists (Fx 9 FFunction 1 [ANode 0; ANode 0] []), (fun _ => [3; 3]). split; reflexivity. Qed.
Print Assumptions matmul_with_itself_refuted.

(* FINDING (matmul_decomposition.py L490): a constant operand has no edge; unpacking the incoming edges raises ValueError. *)
Theorem matmul_constant_operand_refuted : exists si so, substitute [si; so] [(5, 0)] = Err E_value /\ length si = 4.
Proof. exists [1; 2; 3; 4], [1; 2; 4; 3]. split; reflexivity. Qed.
Print Assumptions matmul_constant_operand_refuted.

(* FINDING (matmul_decomposition.py L139-140): torch.matmul of operands with different numbers of dimensions, such as
   (2, 3, 4, 5) x (5, 6), is valid but refused. *)
Theorem matmul_different_ranks_refuted si so edges : 3 < length si -> length si <> length so -> substitute [si; so] edges = Err E_critical.
Proof.
  intros H D. unfold substitute. cbn [nth_error bind]. assert (Nat.leb (length si) 3 = false) as -> by (apply Nat.leb_gt; exact H). cbn [andb]. apply Nat.eqb_neq in D. rewrite D. reflexivity.
Qed.
Print Assumptions matmul_different_ranks_refuted.

(* FINDING (matmul_decomposition.py L208): when the matmul is one of several outputs of the model, the other outputs are lost. *)
Theorem matmul_other_outputs_refuted : exists mm new outs o, In o outs /\ o <> mm /\ ~ In o (new_outputs mm new outs).
Proof. exists 5, 6, [4; 5], 4. split; [left; reflexivity|]. split; [discriminate|]. cbn. intros [Q|[]]; discriminate. Qed.
Print Assumptions matmul_other_outputs_refuted.
