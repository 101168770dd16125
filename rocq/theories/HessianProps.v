(* HessianProps.v -- C13: the Hessian score service.  [calc] is the framework's score calculator, arbitrary. *)
From Verif Require Import Base HessianModel HessianProofs.
Open Scope nat_scope.

(* Every target node of a successful cached fetch gets exactly k scores, whatever was cached before. *)
Theorem hessian_fetch_exact_count : forall (T B : Type) (calc : nat -> nat -> list hnode -> B -> list (list T)) bsize graph_nodes
    (r : @request B) k c c' res,
  rq_n r = Some k -> named (rq_targets r) -> fetch_hessian calc bsize graph_nodes r false c = (c', Ok res) ->
  forall n, In n (rq_targets r) -> exists v, dict_get (hn_name n) res = Some v /\ length v = k.
Proof.
  intros T B calc bsize g r k c c' res Hk Hn H n Hi. destruct (fetch_spec _ _ _ _ _ _ _ _ Hk H) as [_ S].
  destruct (S res eq_refl Hn n Hi) as (p & h & _ & _ & Hl & Hd). eexists. split; [exact Hd|]. apply firstn_length_le. exact Hl.
Qed.
Print Assumptions hessian_fetch_exact_count.

(* Whatever requests (successful or failing, forced or not) are served in between, a later request for at least as many
   samples of the same kind returns the same first scores. *)
Theorem hessian_fetch_prefix_stable : forall (T B : Type) (calc : nat -> nat -> list hnode -> B -> list (list T)) bsize graph_nodes
    (r1 r2 : @request B) k1 k2 c c1 c2 res1 res2 rs n,
  rq_n r1 = Some k1 -> rq_n r2 = Some k2 -> k1 <= k2 -> rq_mode r1 = rq_mode r2 -> rq_gran r1 = rq_gran r2 ->
  named (rq_targets r1) -> named (rq_targets r2) -> In n (rq_targets r1) -> In n (rq_targets r2) ->
  fetch_hessian calc bsize graph_nodes r1 false c = (c1, Ok res1) ->
  fetch_hessian calc bsize graph_nodes r2 false (serve_all calc bsize graph_nodes rs c1) = (c2, Ok res2) ->
  exists v1 v2, dict_get (hn_name n) res1 = Some v1 /\ dict_get (hn_name n) res2 = Some v2 /\ firstn k1 v2 = v1.
Proof. intros T B calc bsize g. exact (stable_lem calc bsize g). Qed.
Print Assumptions hessian_fetch_prefix_stable.

(* If enough scores are cached for every target, the fetch succeeds without computing anything: the calculator and the
   data loader are irrelevant and the cache is unchanged. *)
Theorem hessian_cached_not_recomputed : forall (T B : Type) graph_nodes
    (calc' : nat -> nat -> list hnode -> B -> list (list T)) bsize' (r : @request B) k c loader, rq_n r = Some k ->
  Forall (fun n => exists p h, primary graph_nodes n = Ok p /\ c (query_of r (hn_name p)) = Some h /\ k <= length h) (rq_targets r) ->
  exists res, fetch_hessian calc' bsize' graph_nodes
      {| rq_mode := rq_mode r; rq_gran := rq_gran r; rq_targets := rq_targets r; rq_loader := loader; rq_n := Some k;
         rq_from_tensors := rq_from_tensors r |} false c = (c, Ok res).
Proof. intros T B g calc'. exact (no_recompute_lem calc' g calc'). Qed.
Print Assumptions hessian_cached_not_recomputed.

(* When only some targets lack scores, the entries of the others are left alone. *)
Theorem hessian_sufficient_entries_untouched : forall (T B : Type) (calc : nat -> nat -> list hnode -> B -> list (list T)) bsize graph_nodes
    (r : @request B) k c c' x, rq_n r = Some k -> fetch_hessian calc bsize graph_nodes r false c = (c', x) ->
  forall q h, c q = Some h -> k <= length h -> c' q = c q.
Proof. intros T B calc bsize g r k c c' x Hk H. exact (proj1 (fetch_spec calc bsize g r k c c' x Hk H)). Qed.
Print Assumptions hessian_sufficient_entries_untouched.

(* No internal assertion fires (in particular the final completeness check), for any cache and any request, provided the
   calculator returns a tensor per target and every reused node has its one primary node. *)
Theorem hessian_fetch_no_assertion : forall (T B : Type) (calc : nat -> nat -> list hnode -> B -> list (list T)) bsize graph_nodes
    (r : @request B) force c c' e, calc_complete calc ->
  Forall (fun n => exists p, primary graph_nodes n = Ok p) (rq_targets r) ->
  fetch_hessian calc bsize graph_nodes r force c = (c', Err e) -> e <> E_assert.
Proof. intros T B calc bsize g. exact (no_assert_lem calc bsize g). Qed.
Print Assumptions hessian_fetch_no_assertion.

(* With one score per sample and enough samples in the data source, the fetch succeeds. *)
Theorem hessian_fetch_succeeds : forall (T B : Type) (calc : nat -> nat -> list hnode -> B -> list (list T)) bsize graph_nodes
    (r : @request B) k bs c, calc_per_sample calc bsize -> rq_n r = Some k -> rq_loader r = Some bs -> bs <> [] ->
  k <= total_size bsize bs -> Forall (fun n => exists p, primary graph_nodes n = Ok p) (rq_targets r) ->
  exists c' res, fetch_hessian calc bsize graph_nodes r false c = (c', Ok res).
Proof. intros T B calc bsize g. exact (fetch_total_lem calc bsize g). Qed.
Print Assumptions hessian_fetch_succeeds.

(* On nodes never asked for before, the scores of all nodes come from the same samples, in data order. *)
Theorem hessian_first_fetch_aligned : forall (T B : Type) (calc : nat -> nat -> list hnode -> B -> list (list T)) bsize graph_nodes
    (r : @request B) k bs c c' res, rq_n r = Some k -> rq_loader r = Some bs ->
  (forall b, length (calc (rq_mode r) (rq_gran r) (rq_targets r) b) = length (rq_targets r)) ->
  NoDup (map hn_name (rq_targets r)) -> Forall (fun n => hn_reuse n = false) (rq_targets r) ->
  (forall n, In n (rq_targets r) -> c (query_of r (hn_name n)) = None) ->
  fetch_hessian calc bsize graph_nodes r false c = (c', Ok res) ->
  exists used rest, bs = used ++ rest /\ forall i t, nth_error (rq_targets r) i = Some t ->
    dict_get (hn_name t) res = Some (firstn k (concat (map (fun b => nth i (calc (rq_mode r) (rq_gran r) (rq_targets r) b) []) used))).
Proof. intros T B calc bsize g. exact (fresh_aligned_lem calc bsize g). Qed.
Print Assumptions hessian_first_fetch_aligned.

(* a concrete service: batch b is one sample whose score at node n is (n, b) *)
Definition ex_calc (m g : nat) (ts : list hnode) (b : nat) : list (list (nat * nat)) := map (fun n => [(hn_name n, b)]) ts.
Definition ex_node (i : nat) : hnode := {| hn_name := i; hn_reuse := false; hn_group := 0 |}.
Definition ex_request (ts : list hnode) (k : nat) : @request nat :=
  {| rq_mode := 0; rq_gran := 0; rq_targets := ts; rq_loader := Some [1; 2; 3]; rq_n := Some k; rq_from_tensors := false |}.
Example ex_calc_per_sample : calc_per_sample ex_calc (fun _ => 1).
Proof. intros m g ts b. split; [apply map_length|]. apply Forall_forall. intros h Hh. apply in_map_iff in Hh. destruct Hh as (n & <- & _). reflexivity. Qed.
Example ex_fetch : snd (fetch_hessian ex_calc (fun _ => 1) [] (ex_request [ex_node 7; ex_node 8] 2) false empty_cache)
  = Ok [(7, [(7, 1); (7, 2)]); (8, [(8, 1); (8, 2)])].
Proof. reflexivity. Qed.

(* Alignment is lost when one node was asked for earlier: node 7 gets the first sample twice and never the third, so the
   i-th scores of the two nodes belong to different samples. *)
Theorem hessian_alignment_after_earlier_fetch_refuted : exists (c1 c2 : @cache (nat * nat)) x,
  fetch_hessian ex_calc (fun _ => 1) [] (ex_request [ex_node 7] 2) false empty_cache = (c1, x) /\
  fetch_hessian ex_calc (fun _ => 1) [] (ex_request [ex_node 7; ex_node 8] 3) false c1
    = (c2, Ok [(7, [(7, 1); (7, 2); (7, 1)]); (8, [(8, 1); (8, 2); (8, 3)])]).
Proof. eexists _, _, _. split; reflexivity. Qed.
Print Assumptions hessian_alignment_after_earlier_fetch_refuted.
