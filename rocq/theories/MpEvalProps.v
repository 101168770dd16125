(* MpEvalProps.v -- the model of the mixed-precision search does what the search asks for (C83). *)
From Coq Require Import Sorted Lia String.
From Verif Require Import Base SDict SensModel SensSpec SensProps MpEvalModel MpEvalSpec MpEvalProofs MpEvalBuildProofs.
Open Scope res_scope.
Local Open Scope list_scope.
Local Open Scope Z_scope.

(* the nodes for which the search may ask: a choice for the activation, or for the kernel at the first call of a layer *)
Definition offers (da : bool) (n : mnode) : Prop :=
  a_choice n /\ da = false \/ m_reuse n = false /\ exists k, m_kernel n = Some k /\ w_choice n k.
Lemma offers_spec da n : node_ok n -> (wsw n || cab da n = true <-> offers da n).
Proof.
  intro OK. unfold offers, wsw. rewrite orb_true_iff, andb_true_iff, negb_true_iff, (cab_spec da n OK), (cwb_spec n OK). tauto.
Qed.
Lemma conf_keys da g s : graph_ok da g -> (In s (skeys (conf_list da g)) <-> exists n, In n g /\ m_name n = s /\ offers da n).
Proof.
  intro G. rewrite sget_key. split.
  - intros [v E]. apply (conf_get da g G) in E. destruct E as (n & I & N & _ & C). exists n. split; [exact I|]. split; [exact N|]. apply offers_spec; [apply (go_node _ _ G n I)|exact C].
  - intros (n & I & N & C). exists (lay da n). apply (conf_get da g G). exists n. repeat split; auto. apply offers_spec; [apply (go_node _ _ G n I)|exact C].
Qed.

(* PyTorch: the model can be built, the nodes that can be configured are those that offer a choice, and every request is
   carried out: the candidates asked for quantize the activation of their node and the kernel of their layer in all its
   calls, and nothing else is quantized. *)
Theorem torch_search_serves : forall (da : bool) (g : list mnode),
  graph_ok da g -> (forall n, In n g -> ~ contains holder_suffix (m_name n)) ->
  exists mp, torch_model da g = Ok mp /\
    (forall s, In s (skeys (mp_conf mp)) <-> exists n, In n g /\ m_name n = s /\ offers da n) /\
    serves_requests da g mp.
Proof.
  intros da g G N. destruct (torch_serves da g G N) as (mp & E & C & S). exists mp. split; [exact E|]. split; [|exact S]. rewrite C. intro s. apply conf_keys, G.
Qed.
Print Assumptions torch_search_serves.

(* Keras: the same, if no further call of a layer offers a choice for its activation, the names that Keras gives to
   wrappers are no names of nodes, layers of functions are named like their nodes, and nodes that offer a choice reach an
   output. *)
Theorem keras_search_serves : forall (wname fname : string -> string) (used : string -> bool) (da : bool) (g : list mnode),
  graph_ok da g ->
  (forall n, In n g -> m_reuse n = true -> a_choice n -> da = true) ->
  (forall n f, In n g -> In f g -> wname (m_name n) <> m_name f) ->
  (forall n, In n g -> m_func n = true -> offers da n -> fname (m_name n) = m_name n) ->
  (forall n, In n g -> offers da n -> used (m_name n) = true) ->
  exists mp, keras_search_model wname fname used da g = Ok mp /\
    (forall s, In s (skeys (mp_conf mp)) <-> exists n, In n g /\ m_name n = s /\ offers da n) /\
    serves_requests da g mp.
Proof.
  intros wname fname used da g G A W F U. pose proof (go_node _ _ G) as GN.
  destruct (keras_serves wname fname used da g G) as (mp & E & C & S).
  - intros n I R. destruct (cab da n) eqn:C; [|reflexivity]. apply (cab_spec da n (GN n I)) in C. destruct C as [C D]. rewrite (A n I R C) in D. discriminate.
  - exact W.
  - intros n I FU C. apply F; [exact I|exact FU|]. apply offers_spec; [apply GN, I|]. rewrite C. apply orb_true_r.
  - intros n I C. apply U; [exact I|]. apply offers_spec; [apply GN, I|]. apply orb_true_iff, C.
  - exists mp. split; [exact E|]. split; [|exact S]. rewrite C. intro s. apply conf_keys, G.
Qed.
Print Assumptions keras_search_serves.

(* Both frameworks evaluate the same requests in the same way: what is quantized by what does not depend on the framework. *)
Theorem frameworks_quantize_alike : forall (wname fname : string -> string) (used : string -> bool) (da : bool) (g : list mnode),
  graph_ok da g -> (forall n, In n g -> ~ contains holder_suffix (m_name n)) ->
  (forall n, In n g -> m_reuse n = true -> a_choice n -> da = true) ->
  (forall n f, In n g -> In f g -> wname (m_name n) <> m_name f) ->
  (forall n, In n g -> m_func n = true -> offers da n -> fname (m_name n) = m_name n) ->
  (forall n, In n g -> offers da n -> used (m_name n) = true) ->
  exists tm km st sk, torch_model da g = Ok tm /\ keras_search_model wname fname used da g = Ok km /\
    search_state tm = Ok st /\ search_state km = Ok sk /\ mp_conf tm = mp_conf km /\
    forall ord a w, set_order ord -> request da g a w ->
      exists s1 s1' s2 s2',
        (forall V (metric : qstate -> result V), compute_metric ord (mp_conf tm) metric st a w = (s2, metric s1)) /\
        (forall V (metric : qstate -> result V), compute_metric ord (mp_conf km) metric sk a w = (s2', metric s1')) /\
        forall n k, In n g -> act_run tm s1 n = act_run km s1' n /\ kernel_run tm s1 n k = kernel_run km s1' n k.
Proof.
  intros wname fname used da g G N A W F U. pose proof (go_node _ _ G) as GN.
  destruct (torch_serves da g G N) as (tm & ET & CT & ST). destruct (keras_serves wname fname used da g G) as (km & EK & CK & SK); auto.
  - intros n I R. destruct (cab da n) eqn:C; [|reflexivity]. apply (cab_spec da n (GN n I)) in C. destruct C as [C D]. rewrite (A n I R C) in D. discriminate.
  - intros n I FU C. apply F; [exact I|exact FU|]. apply offers_spec; [apply GN, I|]. rewrite C. apply orb_true_r.
  - intros n I C. apply U; [exact I|]. apply offers_spec; [apply GN, I|]. apply orb_true_iff, C.
  - destruct ST as (st & E1 & _ & ST). destruct SK as (sk & E2 & _ & SK). exists tm, km, st, sk. split; [exact ET|]. split; [exact EK|]. split; [exact E1|]. split; [exact E2|]. split; [congruence|].
    intros ord a w O R. destruct (ST qstate ord (fun s => Ok s) a w O R) as (s1 & s2 & Q & _ & H). destruct (SK qstate ord (fun s => Ok s) a w O R) as (s1' & s2' & Q' & _ & H').
    assert (forall conf s r q V (metric : qstate -> result V), compute_metric ord conf (fun s => Ok s) s a w = (r, Ok q) -> compute_metric ord conf metric s a w = (r, metric q)) as P.
    { clear. intros conf s r q V metric. unfold compute_metric. destruct (negb (some_value a || some_value w)); [discriminate|]. destruct (apply_config ord conf s a w) as [s1 [e|]]; [discriminate|]. cbn. destruct (apply_config ord conf s1 (all_none a) (all_none w)) as [s2 [e|]]; [discriminate|]. intro E. injection E as -> ->. reflexivity. }
    exists s1, s1', s2, s2'. split; [intros V metric; apply P, Q|]. split; [intros V metric; apply P, Q'|]. intros n k I.
    assert (exists f, In f g /\ m_name f = m_owner n) as (f & J & E).
    { destruct (m_reuse n) eqn:RE; [destruct (go_again _ _ G n I RE) as (f & J & _ & E); exists f; auto|]. exists n. split; [exact I|]. symmetry. apply (go_first _ _ G); assumption. }
    destruct (H n f k I J E) as [-> ->]. destruct (H' n f k I J E) as [-> ->]. auto.
Qed.
Print Assumptions frameworks_quantize_alike.
