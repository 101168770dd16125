(* CollectModel.v -- statistics collectors.
   Sources (model_compression_toolkit/core/common/collectors/): min_max_per_channel_collector.py L22-143,
   mean_collector.py L23-95, histogram_collector.py L21-159, statistics_collector.py L52-122, L212-261,
   base_collector.py L60-70.
   Simplifications: exact rationals; a batch is the list of its channels (each the list of its values), the
   transpose/reshape to channel-major order being outside the model. *)
From Verif Require Import Base RoundQ QuantModel SearchModel.
Open Scope Q_scope.

Definition batch := list (list Q).

Fixpoint map2 {A B C} (f : A -> B -> C) (a : list A) (b : list B) : list C :=
  match a, b with x :: a', y :: b' => f x y :: map2 f a' b' | _, _ => [] end.

(* numpy broadcasting of two vectors *)
Definition bcast2 (f : Q -> Q -> Q) (a b : list Q) : result (list Q) :=
  if Nat.eqb (length a) (length b) then Ok (map2 f a b)
  else match a, b with
       | [x], _ => Ok (map (fun y => f x y) b)
       | _, [y] => Ok (map (fun x => f x y) a)
       | _, _ => Err E_value
       end.

(* ---- MinMaxPerChannelCollector ---- *)
Record minmax := { mm_state : option (list Q * list Q);  (* (max, min) per channel *)
                   mm_init_min : option Q; mm_init_max : option Q; mm_ignore_init : bool }.
Definition mm_new (init_min init_max : option Q) : minmax :=
  {| mm_state := None; mm_init_min := init_min; mm_init_max := init_max; mm_ignore_init := false |}.

(* L124-143 *)
Definition mm_update (m : minmax) (x : batch) : result minmax :=
  let! x_max := mapM list_max x in
  let! x_min := mapM list_min x in
  let! st := match mm_state m with
             | None => Ok (x_max, x_min)
             | Some (mx, mn) => let! a := bcast2 Qmax_ x_max mx in
                                let! b := bcast2 Qmin_ x_min mn in Ok (a, b)
             end in
  Ok {| mm_state := Some st; mm_init_min := mm_init_min m; mm_init_max := mm_init_max m; mm_ignore_init := mm_ignore_init m |}.

(* L45-65 and L67-86; [f] is multiplication or addition; a state that is still None cannot be transposed and
   scaled (TypeError) *)
Definition mm_affine (f : Q -> Q -> Q) (m : minmax) (v : list Q) : result minmax :=
  match mm_state m with
  | None => Err E_type
  | Some (mx, mn) =>
      let! mx' := bcast2 f mx v in
      let! mn' := bcast2 f mn v in
      if Nat.ltb 1 (length v)
      then Ok {| mm_state := Some (mx', mn'); mm_init_min := mm_init_min m; mm_init_max := mm_init_max m; mm_ignore_init := true |}
      else match v with
           | [s] => Ok {| mm_state := Some (mx', mn');
                          mm_init_min := option_map (fun i => f i s) (mm_init_min m);
                          mm_init_max := option_map (fun i => f i s) (mm_init_max m);
                          mm_ignore_init := mm_ignore_init m |}
           | _ => Err E_value
           end
  end.
Definition mm_scale := mm_affine Qmult.
Definition mm_shift := mm_affine Qplus.

(* L88-104 *)
Definition mm_min (m : minmax) : result (option Q) :=
  match mm_state m with None => Ok None | Some (_, mn) => let! v := list_min mn in Ok (Some v) end.
Definition mm_max (m : minmax) : result (option Q) :=
  match mm_state m with None => Ok None | Some (mx, _) => let! v := list_max mx in Ok (Some v) end.

(* statistics_collector.py L104-122 (float(None) raises TypeError; infinite init values are not numbers and are
   represented by None) *)
Definition get_min_max_values (m : minmax) : result (Q * Q) :=
  let! mn := mm_min m in
  let! mx := mm_max m in
  let mn' := if mm_ignore_init m then mn else match mm_init_min m with Some i => Some i | None => mn end in
  let mx' := if mm_ignore_init m then mx else match mm_init_max m with Some i => Some i | None => mx end in
  match mn', mx' with Some a, Some b => Ok (a, b) | _, _ => Err E_type end.

(* a history of operations on the collector *)
Inductive mm_op := MM_update (x : batch) | MM_scale (s : list Q) | MM_shift (s : list Q).
Definition mm_step (m : minmax) (o : mm_op) : result minmax :=
  match o with MM_update x => mm_update m x | MM_scale s => mm_scale m s | MM_shift s => mm_shift m s end.
Definition mm_run (m : minmax) (ops : list mm_op) : result minmax := foldM mm_step ops m.

(* ---- MeanCollector ---- *)
Record meanc := { me_mean : list Q; me_sum : list Q; me_i : nat }.
(* L37-41: python int 0 behaves as the length-1 vector [0] under broadcasting *)
Definition me_new : meanc := {| me_mean := [0]; me_sum := [0]; me_i := 0 |}.
(* L81-95 *)
Definition me_update (m : meanc) (x : batch) : result meanc :=
  let i := S (me_i m) in
  let mu := map meanQ x in
  let! s := bcast2 Qplus (me_sum m) mu in
  Ok {| me_mean := map (fun v => v / inject_Z (Z.of_nat i)) s; me_sum := s; me_i := i |}.
(* L43-69 *)
Definition me_affine (f : Q -> Q -> Q) (m : meanc) (v : list Q) : result meanc :=
  let! mean := bcast2 f (me_mean m) v in
  Ok {| me_mean := mean; me_sum := me_sum m; me_i := me_i m |}.

(* ---- HistogramCollector ---- *)
(* np.interp(x, xp, fp) with xp given by the first components *)
Fixpoint interp (x : Q) (pts : list (Q * Q)) : Q :=
  match pts with
  | [] => 0
  | [(_, f)] => f
  | (x0, f0) :: (((x1, f1) :: _) as r) =>
      if Qle_bool x x0 then f0
      else if Qlt_b x x1 then f0 + (f1 - f0) * ((x - x0) / (x1 - x0))
      else interp x r
  end.
(* np.cumsum starting from acc *)
Fixpoint cumsum (acc : Q) (l : list Q) : list Q :=
  match l with [] => [] | x :: r => (acc + x) :: cumsum (acc + x) r end.
(* np.diff *)
Fixpoint diff (l : list Q) : list Q :=
  match l with
  | x :: ((y :: _) as r) => (y - x) :: diff r
  | _ => []
  end.
(* histogram_collector.py L21-41 *)
Definition interpolate_histogram (current_bins bins counts : list Q) : list Q :=
  let cum := 0 :: cumsum 0 counts in
  diff (map (fun b => interp b (combine bins cum)) current_bins).

(* np.histogram(x, bins=n): n equal bins between min and max (a constant sample gets the range x -+ 0.5);
   half-open bins, the last one closed; None when x is empty or n = 0 *)
Fixpoint count_bins (x : list Q) (edges : list Q) : list Q :=
  match edges with
  | [l; r] => [inject_Z (Z.of_nat (length (filter (fun v => Qle_bool l v && Qle_bool v r) x)))]
  | l :: ((r :: _) as rest) =>
      inject_Z (Z.of_nat (length (filter (fun v => Qle_bool l v && Qlt_b v r) x))) :: count_bins x rest
  | _ => []
  end.
Definition np_histogram (x : list Q) (n : nat) : result (list Q * list Q) :=
  let! lo := list_min x in
  let! hi := list_max x in
  let '(lo, hi) := if Qeq_bool lo hi then (lo - (1#2), hi + (1#2)) else (lo, hi) in
  match n with
  | O => Err E_value
  | _ => let edges := linspace lo hi (S n) in Ok (count_bins x edges, edges)
  end.

Record histc := { h_n : nat; h_bins : option (list Q); h_counts : option (list Q);
                  h_iter : list (list Q * list Q); h_legal : bool }.
Definition h_new (n : nat) : histc := {| h_n := n; h_bins := None; h_counts := None; h_iter := []; h_legal := true |}.
(* L150-159 *)
Definition h_update (h : histc) (x : list Q) : result histc :=
  let! ch := np_histogram x (h_n h) in
  Ok {| h_n := h_n h; h_bins := h_bins h; h_counts := h_counts h; h_iter := h_iter h ++ [ch]; h_legal := h_legal h |}.
(* L61-86; np.vstack requires equal lengths, which holds since every histogram has n+1 edges *)
Definition merge_histograms (n : nat) (hs : list (list Q * list Q)) : result (list Q * list Q) :=
  if match hs with [] => true | _ => false end then Err E_type else
  let edges := concat (map snd hs) in
  let! mn := list_min edges in
  let! mx := list_max edges in
  let bins := linspace mn mx (S n) in
  match map (fun ch => interpolate_histogram bins (snd ch) (fst ch)) hs with
  | [] => Err E_type
  | c0 :: r => Ok (bins, fold_left (map2 Qplus) r c0)
  end.
(* L124-134.  Before any batch the code returns (None, None); every user of that result fails, so it is modelled
   as an error. *)
Definition h_get (h : histc) : result (histc * (list Q * list Q)) :=
  if negb (h_legal h) then Err E_critical else
  match h_bins h, h_counts h with
  | Some b, Some c => Ok (h, (b, c))
  | _, _ =>
      let! (b, c) := merge_histograms (h_n h) (h_iter h) in
      Ok ({| h_n := h_n h; h_bins := Some b; h_counts := Some c; h_iter := h_iter h; h_legal := h_legal h |}, (b, c))
  end.
(* L88-122 *)
Definition h_affine (f : Q -> Q -> Q) (h : histc) (v : list Q) : result histc :=
  if Nat.ltb 1 (length v) || negb (h_legal h)
  then Ok {| h_n := h_n h; h_bins := h_bins h; h_counts := h_counts h; h_iter := h_iter h; h_legal := false |}
  else let! (h', (b, c)) := h_get h in
       let! b' := bcast2 f b v in
       Ok {| h_n := h_n h'; h_bins := Some b'; h_counts := h_counts h'; h_iter := h_iter h'; h_legal := h_legal h' |}.
(* L136-148 *)
Definition h_max (h : histc) : result Q :=
  let! (_, (b, c)) := h_get h in list_max (masked (removelast b) c).
Definition h_min (h : histc) : result Q :=
  let! (_, (b, c)) := h_get h in list_min (masked (removelast b) c).
