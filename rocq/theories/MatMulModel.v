(* MatMulModel.v -- decomposing a matmul of tensors with more than three dimensions into matmuls of 3-D tensors (PyTorch).
   Source: model_compression_toolkit/core/pytorch/graph_substitutions/substitutions/matmul_decomposition.py L29-499.
   A dimension given as -1 is None.  The added nodes are listed in the order of creation with the sources of their inputs: a
   node of the graph or an added node, by number.  Node names, classes and recorded shapes are not modelled.
   Tensors (at the end) are functions on multi-indices; torch.reshape keeps the row-major order of the elements. *)
From Verif Require Import Base GraphModel.
From Coq Require Import Reals.
Open Scope res_scope.
Local Open Scope nat_scope.

Definition prod (l : list nat) : nat := fold_right Nat.mul 1 l.
Inductive mop := MExpand (sh : list (option nat)) | MReshape (sh : list (option nat)) | MUnbind | MGetitem (i : nat) | MMatmul | MStack.
Inductive msrc := SG (n : nat) | SN (i : nat).

(* x[1:-2] and x[-2:] *)
Definition mids (sh : list nat) : list nat := firstn (length sh - 3) (tl sh).
Definition last2 (sh : list nat) : list nat := skipn (length sh - 2) sh.

(* MatMulParams: L34-87 *)
Record params := { p_in : list nat; p_other : list nat; p_expand : list nat;
  p_in_expand : list (option nat); p_other_expand : list (option nat);
  p_in_reshape : list (option nat); p_other_reshape : list (option nat);
  p_count : nat; p_stack : list (option nat); p_output : list (option nat) }.
Fixpoint max_dims (a b : list nat) : list nat :=
  match a, b with x :: a, y :: b => Nat.max x y :: max_dims a b | _, _ => [] end.
Definition matmul_params (si so : list nat) : params :=
  let e := max_dims (mids si) (mids so) in
  let rin := None :: Some (prod e) :: map Some (last2 si) in
  let rother := None :: Some (prod e) :: map Some (last2 so) in
  let stack := [None; Some (prod e); nth 0 (map Some (last2 si)) None; nth 1 (map Some (last2 so)) None] in
  {| p_in := si; p_other := so; p_expand := e;
     p_in_expand := None :: map Some e ++ map Some (last2 si); p_other_expand := None :: map Some e ++ map Some (last2 so);
     p_in_reshape := rin; p_other_reshape := rother; p_count := prod e; p_stack := stack;
     p_output := (None :: map Some e ++ [nth 0 (map Some (last2 si)) None]) ++ [nth 1 (map Some (last2 so)) None] |}.

(* the nodes added so far; head and prev nodes of each operand: L45-46, L89-103 *)
Record bstate := { b_nodes : list (mop * list msrc); b_head_in : option nat; b_head_other : option nat; b_prev_in : option nat; b_prev_other : option nat }.
Definition update_nodes (st : bstate) (i o : option nat) : bstate :=
  {| b_nodes := b_nodes st; b_head_in := match b_head_in st with None => i | h => h end;
     b_head_other := match b_head_other st with None => o | h => h end; b_prev_in := i; b_prev_other := o |}.
(* add_node or add_node_with_in_edges; the number of the new node *)
Definition add_after (st : bstate) (op : mop) (prev : option nat) : bstate * nat :=
  ({| b_nodes := b_nodes st ++ [(op, match prev with Some i => [SN i] | None => [] end)]; b_head_in := b_head_in st;
      b_head_other := b_head_other st; b_prev_in := b_prev_in st; b_prev_other := b_prev_other st |}, length (b_nodes st)).
Definition list_natb (a b : list nat) : bool := if list_eq_dec Nat.eq_dec a b then true else false.
Definition list_onatb (a b : list (option nat)) : bool := if list_eq_dec (fun x y : option nat => ltac:(decide equality; apply Nat.eq_dec)) a b then true else false.
(* L212-259 *)
Definition expand_inputs (p : params) (st : bstate) : bstate :=
  let '(st, i) := if list_onatb (map Some (tl (p_in p))) (tl (p_in_expand p)) then (st, None)
                  else let '(st, n) := add_after st (MExpand (p_in_expand p)) None in (st, Some n) in
  let '(st, o) := if list_onatb (map Some (tl (p_other p))) (tl (p_other_expand p)) then (st, None)
                  else let '(st, n) := add_after st (MExpand (p_other_expand p)) None in (st, Some n) in
  update_nodes st i o.
(* L261-309 *)
Definition reshape_inputs (p : params) (st : bstate) : bstate :=
  let '(st, i) := add_after st (MReshape (p_in_reshape p)) (b_prev_in st) in
  let '(st, o) := add_after st (MReshape (p_other_reshape p)) (b_prev_other st) in
  update_nodes st (Some i) (Some o).
(* L311-359 *)
Definition split_inputs (st : bstate) : bstate * (nat * nat) :=
  let '(st, i) := add_after st MUnbind (b_prev_in st) in
  let '(st, o) := add_after st MUnbind (b_prev_other st) in
  (update_nodes st (Some i) (Some o), (i, o)).
(* L361-422 *)
Definition add_node (st : bstate) (op : mop) (srcs : list msrc) : bstate * nat :=
  ({| b_nodes := b_nodes st ++ [(op, srcs)]; b_head_in := b_head_in st; b_head_other := b_head_other st;
      b_prev_in := b_prev_in st; b_prev_other := b_prev_other st |}, length (b_nodes st)).
Definition single_matmul (si so : nat) (idx : nat) (st : bstate) : bstate * nat :=
  let '(st, i) := add_node st (MGetitem idx) [SN si] in
  let '(st, o) := add_node st (MGetitem idx) [SN so] in
  add_node st MMatmul [SN i; SN o].
(* L176-186 *)
Definition matmul_loop (si so : nat) (count : nat) (st : bstate) : bstate * list nat :=
  fold_left (fun acc idx => let '(st, ms) := acc in let '(st, m) := single_matmul si so idx st in (st, ms ++ [m])) (seq 0 count) (st, []).
(* L424-472 *)
Definition stack_outputs (p : params) (ms : list nat) (st : bstate) : bstate * nat :=
  let '(st, c) := add_node st MStack (map SN ms) in
  if list_onatb (p_stack p) (p_output p) then (st, c) else add_node st (MReshape (p_output p)) [SN c].
(* L474-499: the incoming edges of the matmul as (source, sink index) *)
Definition set_source (n : option nat) (s : msrc) (nodes : list (mop * list msrc)) : list (mop * list msrc) :=
  match n with
  | Some i => map (fun q => if Nat.eqb (fst q) i then (fst (snd q), snd (snd q) ++ [s]) else snd q) (enumerate_from 0 nodes)
  | None => nodes
  end.
Definition connect (edges : list (nat * nat)) (st : bstate) : result (list (mop * list msrc)) :=
  match edges with
  | [(s1, k1); (s2, _)] =>
      if Nat.eqb k1 0 then Ok (set_source (b_head_other st) (SG s2) (set_source (b_head_in st) (SG s1) (b_nodes st)))
      else Ok (set_source (b_head_in st) (SG s2) (set_source (b_head_other st) (SG s1) (b_nodes st)))
  | _ => Err E_value
  end.
(* L123-210; None: the graph is unchanged.  Otherwise the added nodes and the number of the one replacing the matmul.
   [shapes]: node.input_shape, [edges]: graph.in_edges(node) *)
Definition substitute (shapes : list (list nat)) (edges : list (nat * nat)) : result (option (list (mop * list msrc) * nat)) :=
  let! si := match nth_error shapes 0 with Some s => Ok s | None => Err E_index end in
  let! so := match nth_error shapes 1 with Some s => Ok s | None => Err E_index end in
  if Nat.leb (length si) 3 && Nat.leb (length so) 3 then Ok None
  else if negb (Nat.eqb (length si) (length so)) then Err E_critical
  else
    let p := matmul_params si so in
    let st := {| b_nodes := []; b_head_in := None; b_head_other := None; b_prev_in := None; b_prev_other := None |} in
    let st := if list_natb (mids si) (mids so) then st else expand_inputs p st in
    let st := if Nat.ltb 4 (length si) then reshape_inputs p st else st in
    let '(st, (i, o)) := split_inputs st in
    let '(st, ms) := matmul_loop i o (p_count p) st in
    let '(st, out) := stack_outputs p ms st in
    let! nodes := connect edges st in
    Ok (Some (nodes, out)).
(* base_graph.py L469-474 called from L208: the outputs of the graph after the substitution *)
Definition new_outputs (mm new : nat) (outs : list nat) : list nat := if mem mm outs then [new] else outs.

(* ---- running the nodes ---- *)
Section Run.
Local Open Scope R_scope.
Record tensor := { sh : list nat; at_ : list nat -> R }.
Inductive value := VT (t : tensor) | VL (l : list tensor).
(* row-major position of a multi-index, and back *)
Fixpoint ravel (s idx : list nat) : nat :=
  match s, idx with _ :: s, i :: idx => (i * prod s + ravel s idx)%nat | _, _ => 0%nat end.
Fixpoint unravel (s : list nat) (n : nat) : list nat :=
  match s with [] => [] | _ :: s => (n / prod s)%nat :: unravel s (n mod prod s) end.
(* a shape with one -1 at the front *)
Definition resolve (total : nat) (s : list (option nat)) : list nat :=
  let rest := prod (map (fun o => match o with Some d => d | None => 1%nat end) s) in
  map (fun o => match o with Some d => d | None => (total / rest)%nat end) s.
Definition reshape (t : tensor) (s : list (option nat)) : tensor :=
  let s' := resolve (prod (sh t)) s in {| sh := s'; at_ := fun idx => at_ t (unravel (sh t) (ravel s' idx)) |}.
(* index of the tensor read for an index of the broadcasted one *)
Definition clip (s idx : list nat) : list nat := map (fun p => if Nat.eqb (fst p) 1 then 0%nat else snd p) (combine s idx).
Definition expand (t : tensor) (s : list (option nat)) : tensor :=
  {| sh := map (fun p => match fst p with Some d => d | None => snd p end) (combine s (sh t)); at_ := fun idx => at_ t (clip (sh t) idx) |}.
Definition select1 (t : tensor) (i : nat) : tensor :=
  {| sh := match sh t with b :: _ :: r => b :: r | s => s end;
     at_ := fun idx => at_ t (match idx with b :: r => b :: i :: r | [] => [] end) |}.
Definition unbind (t : tensor) : list tensor := map (select1 t) (seq 0 (nth 1 (sh t) 0%nat)).
Definition sum_n (n : nat) (f : nat -> R) : R := fold_right Rplus 0 (map f (seq 0 n)).
(* matmul of tensors of three dimensions *)
Definition matmul3 (a b : tensor) : result tensor :=
  match sh a, sh b with
  | [ba; m; p], [bb; p'; n] =>
      if Nat.eqb p p' && (Nat.eqb ba bb || Nat.eqb ba 1 || Nat.eqb bb 1) then
        Ok {| sh := [(if Nat.eqb ba 1 then bb else ba); m; n];
              at_ := fun idx => sum_n p (fun l => at_ a (clip [ba] (firstn 1 idx) ++ [nth 1 idx 0%nat; l]) * at_ b (clip [bb] (firstn 1 idx) ++ [l; nth 2 idx 0%nat])) |}
      else Err E_value
  | _, _ => Err E_value
  end.
Definition stack1 (l : list tensor) : result tensor :=
  match l with
  | [] => Err E_value
  | t :: _ => Ok {| sh := match sh t with b :: r => b :: length l :: r | [] => [] end;
                    at_ := fun idx => at_ (nth (nth 1 idx 0%nat) l t) (match idx with b :: _ :: r => b :: r | i => i end) |}
  end.
Definition run_mop (o : mop) (ins : list value) : result value :=
  match o, ins with
  | MExpand s, [VT t] => Ok (VT (expand t s))
  | MReshape s, [VT t] => Ok (VT (reshape t s))
  | MUnbind, [VT t] => Ok (VL (unbind t))
  | MGetitem i, [VL l] => match nth_error l i with Some t => Ok (VT t) | None => Err E_index end
  | MMatmul, [VT a; VT b] => let! t := matmul3 a b in Ok (VT t)
  | MStack, _ => let! l := mapM (fun v => match v with VT t => Ok t | VL _ => Err E_type end) ins in let! t := stack1 l in Ok (VT t)
  | _, _ => Err E_type
  end.
Definition read_src (val : nat -> tensor) (env : list value) (s : msrc) : result value :=
  match s with SG n => Ok (VT (val n)) | SN i => match nth_error env i with Some v => Ok v | None => Err E_key end end.
Fixpoint run_nodes (val : nat -> tensor) (env : list value) (l : list (mop * list msrc)) : result (list value) :=
  match l with
  | [] => Ok env
  | (o, ss) :: r => let! ins := mapM (read_src val env) ss in let! v := run_mop o ins in run_nodes val (env ++ [v]) r
  end.
Definition run_matmul (val : nat -> tensor) (nodes : list (mop * list msrc)) (out : nat) : result tensor :=
  let! env := run_nodes val [] nodes in
  match nth_error env out with Some (VT t) => Ok t | _ => Err E_key end.
End Run.
