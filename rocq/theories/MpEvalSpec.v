(* MpEvalSpec.v -- the graphs that can be searched, and what a request of the search asks for. *)
From Coq Require Import Sorted String.
From Verif Require Import Base SDict SensModel SensSpec MpEvalModel.
Local Open Scope list_scope.
Local Open Scope Z_scope.

(* weight k is quantized, and in different ways by some two candidates *)
Definition w_choice (n : mnode) (k : string) : Prop :=
  (forall c, In c (m_cands n) -> exists x, sget k (c_ws c) = Some x /\ w_on x = true) /\
  exists c d, In c (m_cands n) /\ In d (m_cands n) /\ sget k (c_ws c) <> sget k (c_ws d).
(* the activation is quantized, and in different ways by some two candidates *)
Definition a_choice (n : mnode) : Prop :=
  (forall c, In c (m_cands n) -> a_mode (c_act c) = AQuant) /\
  exists c d, In c (m_cands n) /\ In d (m_cands n) /\ c_act c <> c_act d.
(* more bits for the kernel, or as many and more bits for the activation; without a kernel, more bits for the activation *)
Definition more_bits (k : option string) (c d : cand) : Prop :=
  match k with
  | Some k => exists x y, sget k (c_ws c) = Some x /\ sget k (c_ws d) = Some y /\
                (w_bits y < w_bits x \/ w_bits y = w_bits x /\ a_bits (c_act d) < a_bits (c_act c))
  | None => a_bits (c_act d) < a_bits (c_act c)
  end.
(* the bit-widths of a candidate: of the activation and of all weights *)
Definition bits (c : cand) : list Z := a_bits (c_act c) :: map (fun kw => w_bits (snd kw)) (c_ws c).

(* the candidates of one node configure the same weights, agree on what is quantized, and offer a choice for no weight
   but the kernel *)
Record node_ok (n : mnode) : Prop := {
  no_some : m_cands n <> [];
  no_same : forall c d, In c (m_cands n) -> In d (m_cands n) -> map fst (c_ws c) = map fst (c_ws d);
  no_weights_cfg : forall c k, In c (m_cands n) -> In k (m_weights n) -> exists x, sget k (c_ws c) = Some x;
  no_kernel : forall k, m_kernel n = Some k -> In k (m_weights n);
  no_modes : forall c d, In c (m_cands n) -> In d (m_cands n) -> a_mode (c_act c) = a_mode (c_act d);
  no_only : forall k, In k (m_weights n) -> w_choice n k -> m_kernel n = Some k
}.
(* where there is a choice: candidates in descending order, one of them with the most bits everywhere, one output *)
Record choice_ok (n : mnode) : Prop := {
  ch_sorted : StronglySorted (more_bits (m_kernel n)) (m_cands n);
  ch_best : exists b, In b (m_cands n) /\ forall c, In c (m_cands n) -> Forall2 Z.le (bits c) (bits b)
}.
Record graph_ok (da : bool) (g : list mnode) : Prop := {
  go_ids : NoDup (map m_id g);
  go_names : NoDup (map m_name g);
  go_first : forall n, In n g -> m_reuse n = false -> m_owner n = m_name n;
  go_again : forall n, In n g -> m_reuse n = true -> exists f, In f g /\ m_reuse f = false /\ m_name f = m_owner n;
  go_node : forall n, In n g -> node_ok n;
  go_choice : forall n, In n g -> (exists k, m_kernel n = Some k /\ w_choice n k) \/ a_choice n /\ da = false -> choice_ok n;
  go_out : forall n, In n g -> a_choice n -> da = false -> m_outs n = None \/ m_outs n = Some 1%nat
}.
(* a request of the search: nodes with a choice, and indices of their candidates (or None) *)
Definition request (da : bool) (g : list mnode) (a w : cfg) : Prop :=
  NoDup (skeys a) /\ NoDup (skeys w) /\
  (forall s v, sget s a = Some v -> da = false /\ exists n, In n g /\ m_name n = s /\ a_choice n /\
     forall i, v = Some i -> 0 <= i < Z.of_nat (length (m_cands n))) /\
  (forall s v, sget s w = Some v -> exists n k, In n g /\ m_name n = s /\ m_reuse n = false /\ m_kernel n = Some k /\ w_choice n k /\
     forall i, v = Some i -> 0 <= i < Z.of_nat (length (m_cands n))) /\
  exists s i, sget s a = Some (Some i) \/ sget s w = Some (Some i).
(* the candidate that a request names for a node *)
Definition asked (c : cfg) (n : mnode) : option cand :=
  match sget (m_name n) c with Some (Some i) => nth_error (m_cands n) (Z.to_nat i) | _ => None end.
(* the model does what the search asks: with nothing asked no quantizer is active; for every request the metric is
   computed in a state in which every activation is quantized by the candidate asked for its node, every kernel by the
   candidate asked for the first call of its layer, and nothing else is quantized; afterwards no quantizer is active *)
Definition serves_requests (da : bool) (g : list mnode) (mp : mp_model) : Prop :=
  exists s0, search_state mp = Ok s0 /\ disabled s0 /\
    forall (V : Type) ord (metric : qstate -> result V) a w, set_order ord -> request da g a w ->
      exists s1 s2, compute_metric ord (mp_conf mp) metric s0 a w = (s2, metric s1) /\ disabled s2 /\
        forall n f k, In n g -> In f g -> m_name f = m_owner n ->
          act_run mp s1 n = option_map c_act (asked a n) /\
          kernel_run mp s1 n k = match asked w f with Some c => sget k (c_ws c) | None => None end.
(* s contains p *)
Definition contains (p s : string) : Prop := exists a b, s = (a ++ p ++ b)%string.
