(* SchedModel.v -- C88: the learning-rate schedule of data generation.
   Model of data_generation/pytorch/optimization_functions/lr_scheduler.py (ReduceLROnPlateauWithReset) and
   data_generation/keras/optimization_functions/lr_scheduler.py (ReduceLROnPlateau), which are the same up to the number of
   parameter groups, and of the arguments chosen in scheduler_step_functions.py.
   Numbers are rational.  The infinities the best value starts from are the value None, so the products with them are those
   for a relative threshold below one (lr_scheduler.py L174-176); not-a-number losses are outside the model.  The messages of
   `verbose`, `state_dict`, `last_epoch` and `_last_lr` are not modelled: nothing reads them. *)
From Verif Require Import Base.
From Coq Require Import Lia.
Open Scope Q_scope.
Open Scope res_scope.

Inductive smode := Smin | Smax.
Inductive tmode := Trel | Tabs.
Inductive lr_floor := One (q : Q) | Many (l : list Q).
(* lr_scheduler.py L28-30: the arguments besides the optimizer *)
Record sargs := SArgs { s_mode : smode; s_factor : Q; s_patience : nat; s_threshold : Q; s_tmode : tmode; s_cooldown : nat; s_floor : lr_floor; s_eps : Q }.
(* the attributes that change: L67, L81-82, and the rates of the parameter groups of the optimizer *)
Record sstate := SState { st_best : option Q; st_bad : nat; st_cool : nat; st_rates : list Q }.

(* pytorch lr_scheduler.py L66-72: one floor per parameter group *)
Definition floors (a : sargs) (groups : nat) : result (list Q) :=
  match s_floor a with
  | Many l => if Nat.eqb (length l) groups then Ok l else Err E_critical
  | One q => Ok (repeat q groups)
  end.
(* pytorch lr_scheduler.py L56-88, L90-96; keras L56-77 *)
Definition sched_init (a : sargs) (rates : list Q) : result sstate :=
  if Qle_bool 1 (s_factor a) then Err E_critical else
  let! _ := floors a (length rates) in
  Ok (SState None 0 0 rates).

(* pytorch lr_scheduler.py L160-183; keras L138-161 *)
Definition is_better (a : sargs) (x : Q) (best : option Q) : bool :=
  match best with
  | None => true
  | Some b =>
    match s_mode a, s_tmode a with
    | Smin, Trel => negb (Qle_bool (b * (1 - s_threshold a)) x)
    | Smin, Tabs => negb (Qle_bool (b - s_threshold a) x)
    | Smax, Trel => negb (Qle_bool x (b * (s_threshold a + 1)))
    | Smax, Tabs => negb (Qle_bool x (b + s_threshold a))
    end
  end.
(* pytorch lr_scheduler.py L140-144; keras L121-124 *)
Definition lower (a : sargs) (floor old : Q) : Q :=
  let new := if Qle_bool (old * s_factor a) floor then floor else old * s_factor a in
  if Qle_bool (old - new) (s_eps a) then old else new.
Fixpoint reduce_lr (a : sargs) (fl rates : list Q) : list Q :=
  match fl, rates with
  | f :: fl', r :: rs => lower a f r :: reduce_lr a fl' rs
  | _, _ => rates
  end.
(* pytorch lr_scheduler.py L98-131; keras L87-112 *)
Definition sched_step (a : sargs) (fl : list Q) (s : sstate) (x : Q) : sstate :=
  let b := is_better a x (st_best s) in
  let best := if b then Some x else st_best s in
  let bad := if b then 0%nat else S (st_bad s) in
  let cooling := Nat.ltb 0 (st_cool s) in
  let cool := if cooling then Nat.pred (st_cool s) else st_cool s in
  let bad := if cooling then 0%nat else bad in
  if Nat.ltb (s_patience a) bad then SState None 0 (s_cooldown a) (reduce_lr a fl (st_rates s))
  else SState best bad cool (st_rates s).
(* one step per iteration with the loss of the batch (pytorch optimization_utils.py L186, keras L264) *)
Definition sched_run (a : sargs) (rates losses : list Q) : result (list Q) :=
  let! s := sched_init a rates in
  let! fl := floors a (length rates) in
  Ok (st_rates (fold_left (sched_step a fl) losses s)).

(* scheduler_step_functions.py (pytorch L36-46, keras L25-36): the arguments data generation uses; the defaults of the
   constructor (L28-30) for the others *)
Definition data_generation_args (n_iter : nat) : sargs :=
  SArgs Smin (1#2) (n_iter / 50) (1#10000) Trel 0 (One (1#10000)) (1#100000000).
