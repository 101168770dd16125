(* KLModel.v -- the KL-divergence error used by threshold selection.
   Source: model_compression_toolkit/core/common/quantization/quantization_params_generation/error_functions.py
           L185-375.
   Simplifications: exact rationals; the final sum p*log(p/q) is taken over the reals in KLProofs.v. *)
From Verif Require Import Base RoundQ QuantModel SearchModel.
Open Scope Q_scope.

(* index of the first element satisfying f: np.where(f)[0].min() *)
Fixpoint first_idx {A} (f : A -> bool) (l : list A) : option nat :=
  match l with
  | [] => None
  | x :: r => if f x then Some 0%nat else match first_idx f r with Some i => Some (S i) | None => None end
  end.
(* np.where(f)[0].max() *)
Fixpoint last_idx {A} (f : A -> bool) (l : list A) : option nat :=
  match l with
  | [] => None
  | x :: r => match last_idx f r with
              | Some i => Some (S i)
              | None => if f x then Some 0%nat else None
              end
  end.

(* L274-288 and L252-271 together: None = range not valid (the caller returns infinity) *)
Definition get_bins_indices_from_range (bins : list Q) (range_min range_max : Q) : option (result (nat * nat)) :=
  match first_idx (fun b => Qle_bool range_min b) bins, last_idx (fun b => Qlt_b b range_max) bins with
  | Some i, Some j =>
      Some (if negb (Qlt_b range_min range_max) then Err E_assert
            else let first := (i - 1)%nat in (* max(i - 1, 0) *)
                 if Nat.leb first j then Ok (first, j) else Err E_assert)
  | _, _ => None
  end.

Definition slice {A} (l : list A) (i j : nat) : list A := firstn (j - i) (skipn i l).

(* L355-375 *)
Definition get_sliced_histogram {A} (bins : list A) (counts : list Q) (first last : nat) : list A * list Q :=
  (slice bins first (last + 1), slice counts first last).

Fixpoint add_last (v : Q) (l : list Q) : list Q :=
  match l with
  | [] => []
  | [x] => [x + v]
  | x :: r => x :: add_last v r
  end.
Definition add_first (v : Q) (l : list Q) : list Q := match l with [] => [] | x :: r => x + v :: r end.

(* L328-352 (IndexError on an empty subset) *)
Definition compute_clipped_counts (counts subset : list Q) (first last : nat) : result (list Q) :=
  match subset with
  | [] => Err E_index
  | _ => Ok (add_last (sumQ (skipn last counts)) (add_first (sumQ (firstn first counts)) subset))
  end.

Definition nonzero (q : Q) : bool := negb (Qeq_bool q 0).
Definition countb {A} (f : A -> bool) (l : list A) : nat := length (filter f l).
Definition natQ (n : nat) : Q := inject_Z (Z.of_nat n).

(* L291-325 *)
Definition smooth_distribution (p : list Q) : result (list Q) :=
  let! mn := list_min (filter nonzero p) in
  let s := mn / (2 * natQ (length p)) in
  if negb (Qlt_b 0 s) then Err E_assert else
  let nonzero_count := countb nonzero p in
  let zero_count := (length p - nonzero_count)%nat in
  if Nat.eqb nonzero_count 0 then Err E_assert else
  let reduce := s * natQ zero_count / natQ nonzero_count in
  let hist := map (fun x => if nonzero x then x - reduce else x + s) p in
  if existsb (fun h => Qle_bool h 0) hist then Err E_assert else Ok hist.

(* L235-241: counts of the quantized histogram; bin j gets the average count of the non-empty bins that are
   quantized to the same value *)
Definition TINY : Q := 1 # 1000000.
Definition q_group (qb : list Q) (counts : list Q) (v : Q) : list Q :=
  map snd (filter (fun p => Qeq_bool (fst p) v) (combine qb counts)).
Definition quantized_counts (qb counts : list Q) : list Q :=
  map (fun p => let '(v, c) := p in
        if Qlt_b 0 c
        then let g := q_group qb counts v in sumQ g / (natQ (countb (Qlt_b 0) g) + TINY)
        else 0) (combine qb counts).

Definition normalize (l : list Q) : list Q := map (fun x => x / sumQ l) l.

(* L185-249 up to the final logarithm *)
Inductive kl_out := KL_inf | KL_zero | KL_pair (p_float p_fxp : list Q).
Definition kl_error_histogram (q_bins bins counts : list Q) (range_min range_max : Q) : result kl_out :=
  match get_bins_indices_from_range bins range_min range_max with
  | None => Ok KL_inf
  | Some r =>
      let! (first, last) := r in
      if Nat.eqb first last then Ok KL_zero else
      let '(_, counts_subset) := get_sliced_histogram bins counts first last in
      let '(q_bins_subset, _) := get_sliced_histogram q_bins counts first last in
      if negb (existsb nonzero counts_subset) then Ok KL_inf else
      let! counts_acc := compute_clipped_counts counts counts_subset first last in
      let qbc := quantized_counts (removelast q_bins_subset) counts_subset in
      let! p_fxp := smooth_distribution (normalize qbc) in
      let! p_float := smooth_distribution (normalize counts_acc) in
      Ok (KL_pair p_float p_fxp)
  end.
