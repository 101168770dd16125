(* HessianModel.v -- the Hessian information service and its cache.
   Source: model_compression_toolkit/core/common/hessian/hessian_info_service.py L33-40 (Query), L42-109 (HessianCache),
   L112-321 (HessianInfoService).
   Simplifications: a tensor of scores is the list of its per-sample entries; the framework calculator is an arbitrary
   function [calc] of the request's mode, granularity, target nodes and the batch (it may depend on all of them jointly);
   the data loader is the finite list of batches it would yield, restarted at every request. *)
From Verif Require Import Base.
Open Scope nat_scope.

Record hnode := { hn_name : nat; hn_reuse : bool; hn_group : nat }.

(* python dict with insertion order: assignment to an existing key keeps its place *)
Fixpoint dict_set {V} (k : nat) (v : V) (d : list (nat * V)) : list (nat * V) :=
  match d with
  | [] => [(k, v)]
  | (k', v') :: r => if Nat.eqb k k' then (k, v) :: r else (k', v') :: dict_set k v r
  end.
Fixpoint dict_get {V} (k : nat) (d : list (nat * V)) : option V :=
  match d with [] => None | (k', v) :: r => if Nat.eqb k k' then Some v else dict_get k r end.
Definition dict_of {V} (l : list (nat * V)) : list (nat * V) := fold_left (fun d kv => dict_set (fst kv) (snd kv) d) l [].

Section Service.
Context {T B : Type}.                                              (* a sample's score; a batch *)
Variable calc : nat -> nat -> list hnode -> B -> list (list T).     (* fw_hessian_calculator.compute() *)
Variable bsize : B -> nat.                                          (* batch[0].shape[0] *)
Variable graph_nodes : list hnode.

(* L33-40 *)
Definition query := (nat * nat * nat)%type.   (* mode, granularity, node name *)
Definition query_eqb (p q : query) : bool :=
  match p, q with ((a, b), c), ((a', b'), c') => Nat.eqb a a' && Nat.eqb b b' && Nat.eqb c c' end.
Definition cache := query -> option (list T).
Definition cache_set (c : cache) (q : query) (v : list T) : cache := fun q' => if query_eqb q' q then Some v else c q'.

Record request := { rq_mode : nat; rq_gran : nat; rq_targets : list hnode; rq_loader : option (list B); rq_n : option nat;
                    rq_from_tensors : bool }.
Definition with_targets (r : request) (t : list hnode) : request :=
  {| rq_mode := rq_mode r; rq_gran := rq_gran r; rq_targets := t; rq_loader := rq_loader r; rq_n := rq_n r;
     rq_from_tensors := rq_from_tensors r |}.
Definition query_of (r : request) (name : nat) : query := (rq_mode r, rq_gran r, name).

(* L47-77.  set(keys) == set(target names); min of an empty list is a ValueError *)
Definition same_names (d : list (nat * list T)) (t : list hnode) : bool :=
  forallb (fun kv => existsb (fun n => Nat.eqb (fst kv) (hn_name n)) t) d &&
  forallb (fun n => existsb (fun kv => Nat.eqb (fst kv) (hn_name n)) d) t.
Definition update_one (r : request) (st : cache * list nat) (kv : nat * list T) : cache * list nat :=
  let q := query_of r (fst kv) in
  let new := match fst st q with None => snd kv | Some old => old ++ snd kv end in
  (cache_set (fst st) q new, snd st ++ [length new]).
Definition list_min_nat (l : list nat) : result nat :=
  match l with [] => Err E_value | x :: r => Ok (fold_left Nat.min r x) end.
Definition cache_update (c : cache) (d : list (nat * list T)) (r : request) : cache * result nat :=
  if same_names d (rq_targets r)
  then let st := fold_left (update_one r) d (c, []) in (fst st, list_min_nat (snd st))
  else (c, Err E_assert).

(* L79-105 (the caller guarantees that n_samples is not None) *)
Definition fetch_one (c : cache) (r : request) (k : nat) (st : list (nat * list T) * list (nat * nat)) (n : hnode) :=
  match c (query_of r (hn_name n)) with
  | None => (fst st, dict_set (hn_name n) k (snd st))
  | Some h => (dict_set (hn_name n) (firstn k h) (fst st),
               if Nat.ltb (length h) k then dict_set (hn_name n) (k - length h) (snd st) else snd st)
  end.
Definition cache_fetch (c : cache) (r : request) (k : nat) : list (nat * list T) * list (nat * nat) :=
  fold_left (fetch_one c r k) (rq_targets r) ([], []).

(* L277-304 *)
Definition compute_for_batch (r : request) (b : B) : list (nat * list T) :=
  dict_of (combine (map hn_name (rq_targets r)) (calc (rq_mode r) (rq_gran r) (rq_targets r) b)).

(* the loop of L251-259; [n] is n_samples *)
Definition reached (r : request) (n : nat) : bool :=
  match rq_n r with Some (S k) => Nat.leb (S k) n | _ => false end.
Fixpoint compute_loop (by_cache : bool) (r : request) (bs : list B) (c : cache) (acc : list (list (nat * list T))) (n : nat)
  : cache * result (list (list (nat * list T)) * nat) :=
  match bs with
  | [] => (c, Ok (acc, n))
  | b :: rest =>
      let d := compute_for_batch r b in
      match cache_update c d r with
      | (c', Err e) => (c', Err e)
      | (c', Ok mc) =>
          let n' := if by_cache then mc else n + bsize b in
          if reached r n' then (c', Ok (acc ++ [d], n')) else compute_loop by_cache r rest c' (acc ++ [d]) n'
      end
  end.

Definition from_opt {V} (o : option V) : result V := match o with Some v => Ok v | None => Err E_key end.
(* L261-264: np.concatenate of an empty list is a ValueError *)
Definition concat_layers (r : request) (acc : list (list (nat * list T))) : result (list (nat * list T)) :=
  let! l := mapM (fun n => let! parts := mapM (fun d => from_opt (dict_get (hn_name n) d)) acc in
                           match parts with [] => Err E_value | _ => Ok (hn_name n, concat parts) end) (rq_targets r) in
  Ok (dict_of l).
(* L248-275 *)
Definition compute_hessians (by_cache : bool) (r : request) (c : cache) : cache * result (list (nat * list T)) :=
  if by_cache && match rq_n r with None => true | _ => false end then (c, Err E_assert) else
  match rq_loader r with
  | None => (c, Err E_type)
  | Some bs =>
      match compute_loop by_cache r bs c [] 0 with
      | (c', Err e) => (c', Err e)
      | (c', Ok (acc, n)) =>
          (c', let! d := concat_layers r acc in
               match rq_n r with
               | Some (S k) => if Nat.ltb n (S k) then Err E_critical
                               else if Nat.ltb (S k) n then Ok (map (fun kv => (fst kv, firstn (S k) (snd kv))) d) else Ok d
               | _ => Ok d
               end)
      end
  end.

(* L197-225 *)
Definition fetch_with_compute (r : request) (k : nat) (c : cache) : cache * result (list (nat * list T)) :=
  let '(res, missing) := cache_fetch c r k in
  match missing with
  | [] => (c, Ok res)
  | _ =>
      match rq_loader r with
      | None => (c, Err E_critical)
      | Some _ =>
          let r' := match res with
                    | [] => r
                    | _ => with_targets r (filter (fun n => match dict_get (hn_name n) missing with Some _ => true | None => false end)
                                                  (rq_targets r))
                    end in
          match compute_hessians true r' c with
          | (c', Err e) => (c', Err e)
          | (c', Ok _) =>
              let '(res', missing') := cache_fetch c' r k in
              (c', match missing' with [] => Ok res' | _ => Err E_assert end)
          end
      end
  end.

(* L306-321 *)
Definition primary (n : hnode) : result hnode :=
  if negb (hn_reuse n) then Ok n
  else match filter (fun m => negb (hn_reuse m) && Nat.eqb (hn_group m) (hn_group n)) graph_nodes with
       | [m] => Ok m
       | _ => Err E_assert
       end.

(* L190: restore the names of the original request *)
Definition restore (orig prim : list hnode) (res : list (nat * list T)) : result (list (nat * list T)) :=
  let! l := mapM (fun p => let! v := from_opt (dict_get (hn_name (snd p)) res) in Ok (hn_name (fst p), v)) (combine orig prim) in
  Ok (dict_of l).

(* L142-191, without the compute_from_tensors mode, which returns the calculator's output for the given tensors and
   does not touch the cache *)
Definition fetch_hessian (r : request) (force : bool) (c : cache) : cache * result (list (nat * list T)) :=
  match rq_n r, force with
  | None, false => (c, Err E_critical)
  | _, _ =>
      match mapM primary (rq_targets r) with
      | Err e => (c, Err e)
      | Ok prim =>
          let r' := with_targets r prim in
          match (if force then compute_hessians false r' c
                 else match rq_n r with Some k => fetch_with_compute r' k c | None => (c, Err E_critical) end) with
          | (c', Err e) => (c', Err e)
          | (c', Ok res) => (c', restore (rq_targets r) prim res)
          end
      end
  end.

(* a history of requests; a request that raises keeps what it has already stored *)
Definition serve (c : cache) (rf : request * bool) : cache := fst (fetch_hessian (fst rf) (snd rf) c).
Definition serve_all (rs : list (request * bool)) (c : cache) : cache := fold_left serve rs c.
Definition empty_cache : cache := fun _ => None.
End Service.
