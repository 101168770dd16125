(* AnnealModel.v -- annealing schedules and gradual activation quantization.
   Sources: trainable_infrastructure/common/annealing_schedulers.py L18-67,
     trainable_infrastructure/pytorch/annealing_schedulers.py and keras/annealing_schedulers.py (_compute_factor),
     gptq/common/gptq_config.py L60-87, gptq/common/gradual_activation_quantization.py L22-80,
     gptq/common/regularization_factory.py L25-58, gptq/keras/gptq_training.py (nano_training_step).
   Rational numbers stand for floating point numbers. *)
From Verif Require Export Base RoundQ.

(* annealing_schedulers.py L19-38 *)
Record sched := Sched { t_start : Z; t_end : Z; initial_val : Q; target_val : Q }.
Definition mk_sched (ts te : Z) (i t : Q) : result sched :=
  if ((0 <=? ts) && (ts <? te))%Z then Ok (Sched ts te i t) else Err E_value.
(* _compute_factor of both frameworks *)
Definition factor (s : sched) (t : Z) : Q := clip (inject_Z (t - t_start s) / inject_Z (t_end s - t_start s)) 0 1.
(* L56-67 *)
Definition sched_at (s : sched) (t : Z) : Q := initial_val s + factor s t * (target_val s - initial_val s).

(* gptq_config.py L60-87 *)
Record qfraction := QFraction { q_initial : Q; q_target : Q; q_start : Z; q_end : option Z }.
Definition mk_qfraction (i t : Q) (s : Z) (e : option Z) : result qfraction :=
  if negb (Qle_bool 0 i && negb (Qle_bool t i) && Qle_bool t 1) then Err E_value
  else if (s <? 0)%Z then Err E_value
  else match e with
       | Some e' => if (e' <=? s)%Z then Err E_value else Ok (QFraction i t s e)
       | None => Ok (QFraction i t s e)
       end.
(* gradual_activation_quantization.py L37-49; None stands for the quantizer as it is.  total: get_total_grad_steps_fn() *)
Definition gradual_schedule (c : option qfraction) (total : Z) : result (option sched) :=
  match c with
  | None => Ok None
  | Some c =>
      (* end_step or total: a step 0 counts as absent *)
      let te := match q_end c with Some e => if Z.eqb e 0 then total else e | None => total end in
      let! s := mk_sched (q_start c) te (q_initial c) (q_target c) in Ok (Some s)
  end.
(* L67-77: one call at step count n *)
Definition gradual_call (s : sched) (quantizer : list Q -> list Q) (n : Z) (x : list Q) : list Q * Z :=
  let f := sched_at s n in
  (map (fun p => (1 - f) * fst p + f * snd p) (combine x (quantizer x)), (n + 1)%Z).
Fixpoint gradual_calls (s : sched) (quantizer : list Q -> list Q) (n : Z) (xs : list (list Q)) : list (list Q) :=
  match xs with [] => [] | x :: r => let (o, n') := gradual_call s quantizer n x in o :: gradual_calls s quantizer n' r end.
(* Keras runs the step inside a tf.function: the Python body, and with it step_cnt, is evaluated once, when the
   function is traced; later steps repeat the traced computation with the number it read *)
Definition traced_calls (s : sched) (quantizer : list Q -> list Q) (n : Z) (xs : list (list Q)) : list (list Q) :=
  map (fun x => fst (gradual_call s quantizer n x)) xs.

(* regularization_factory.py L43-58, for soft rounding; int(0.2 * total) *)
Definition regularization_schedule (total : Z) : result sched := mk_sched (total / 5) total (inject_Z 20) (inject_Z 2).
