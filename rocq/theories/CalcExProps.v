(* CalcExProps.v -- C71: an instance and findings of the parameters loop *)
From Coq Require Import String Lia.
From Verif Require Import Base SDict FilterModel FilterProps CalcModel CalcSpec CalcProps.
Local Open Scope list_scope.
Local Open Scope string_scope.
Local Open Scope nat_scope.

(* tensors are numbers, the remaining configuration is the number of bits, parameters record what they were computed from *)
Definition ex_wfn (w : option nat) (th : Q) (e : werr) (bits : nat) (ax : option Z) : result ((nat * werr * nat) * option Z) :=
  match w, ax with Some t, Some a => Ok ((t, e, bits), Some a) | _, _ => Err E_type end.
Definition ex_attr (en : bool) (e : werr) (bits : nat) : wattr (nat * werr * nat) nat :=
  {| wa_enabled := en; wa_err := e; wa_axis := Some (3%Z, 2%Z); wa_rest := bits; wa_params := None |}.
Definition ex_cand (bits : nat) : cand (nat * werr * nat) nat nat nat :=
  {| cd_named := [("kernel", ex_attr true WE_hmse bits); ("bias", ex_attr true WE_hmse bits)]; cd_pos := [];
     cd_min_th := 0; cd_act := bits; cd_act_params := None |}.
Definition ex_node : cnode nat (nat * werr * nat) nat nat nat :=
  {| kn_weights := [(KN "kernel", 70); (KN "bias", 71)]; kn_kernel := Some "kernel"; kn_act := true; kn_cands := [ex_cand 8; ex_cand 4] |}.
Definition ex_afn (n : cnode nat (nat * werr * nat) nat nat nat) (c : nat) : result nat := Ok (100 + c).

Lemma sub_check s t : str_contains t s = false -> ~ substring s t.
Proof. intros H E. assert (str_contains t s = true); [|congruence]. apply contains_iff. exact E. Qed.
Example own_parameters_instance :
  unambiguous ex_node /\ Forall (well_configured ex_node) (kn_cands ex_node) /\
  exists n', calc_node ex_wfn ex_afn ex_node = Ok n' /\
    map (fun c => (cd_act_params c, map (fun kv => wa_params (snd kv)) (cd_named c))) (kn_cands n') =
    [(Some 108, [Some (70, WE_hmse, 8); Some (71, WE_mse, 8)]); (Some 104, [Some (70, WE_hmse, 4); Some (71, WE_mse, 4)])].
Proof.
  split; [|split].
  - split; [repeat constructor; cbn; intuition congruence|]. intros s t x y H1 H2 E.
    cbn in H1, H2. destruct H1 as [H1|[H1|[]]], H2 as [H2|[H2|[]]]; injection H1 as <- _; injection H2 as <- _; try reflexivity;
      exfalso; revert E; apply sub_check; reflexivity.
  - assert (forall b, well_configured ex_node (ex_cand b)) as W.
    { intro b. split; [repeat constructor; cbn; intuition congruence|]. split; [constructor|].
      intros a t [E|[E|[]]]; injection E as <- _; eexists; cbn; [left|right; left]; reflexivity. }
    constructor; [apply W|]. constructor; [apply W|constructor].
  - eexists. split; reflexivity.
Qed.

(* FINDING (qparams_computation.py L83): an empty list of nodes is read as "all nodes". *)
Theorem empty_list_means_all_refuted : exists (g g' : list (cnode nat (nat * werr * nat) nat nat nat)),
  calc_graph ex_wfn ex_afn [] g = Ok g' /\ g' <> g.
Proof. exists [ex_node]. eexists. split; [reflexivity|]. discriminate. Qed.
Print Assumptions empty_list_means_all_refuted.

(* FINDING (qparams_computation.py L105-108, L129): the loop allows for an attribute without channel axes
   (output_channels_axis = None) and then reads .input of the missing mapping: AttributeError, whatever the
   parameter function returned. *)
Theorem no_channel_axis_refuted : exists (n : cnode nat (nat * werr * nat) nat nat nat),
  calc_node (fun w _ e b ax => Ok ((0, e, b), ax)) ex_afn n = Err E_attr.
Proof.
  exists {| kn_weights := [(KN "weight", 7)]; kn_kernel := None; kn_act := false;
            kn_cands := [{| cd_named := [("weight", {| wa_enabled := true; wa_err := WE_mse; wa_axis := None; wa_rest := 8; wa_params := None |})];
                            cd_pos := []; cd_min_th := 0; cd_act := 8; cd_act_params := None |}] |}.
  reflexivity.
Qed.
Print Assumptions no_channel_axis_refuted.

(* FINDING (base_node.py L306-322 against node_quantization_config.py L472-480): when the name of an attribute is
   part of another attribute's name, the configuration falls back to the exact name but the tensor does not, so the
   parameter function is called on None. *)
Theorem ambiguous_name_loses_tensor_refuted : exists (n : cnode nat (nat * werr * nat) nat nat nat) c cfg,
  In c (kn_cands n) /\ NoDup (map fst (kn_weights n)) /\ In (KN "weight_l0", 1) (kn_weights n) /\
  attr_config c (KN "weight_l0") = Ok cfg /\ has c (KN "weight_l0") cfg /\
  weight_by_key (KN "weight_l0") (kn_weights n) = Ok None /\ calc_node ex_wfn ex_afn n = Err E_type.
Proof.
  set (c := {| cd_named := [("weight_l0", ex_attr true WE_mse 8); ("weight_l0_reverse", ex_attr true WE_mse 8)];
               cd_pos := []; cd_min_th := 0; cd_act := 8; cd_act_params := @None nat |}).
  exists {| kn_weights := [(KN "weight_l0", 1); (KN "weight_l0_reverse", 2)]; kn_kernel := None; kn_act := false; kn_cands := [c] |}.
  exists c, (ex_attr true WE_mse 8). split; [left; reflexivity|]. split; [repeat constructor; cbn; intuition congruence|].
  split; [left; reflexivity|]. split; [reflexivity|]. split; [left; reflexivity|]. split; reflexivity.
Qed.
Print Assumptions ambiguous_name_loses_tensor_refuted.

(* FINDING (base_node.py L302-304): looking up the constant at a position in a node that also has a named weight
   compares an integer with a string by "in": TypeError. *)
Theorem position_beside_name_refuted : exists (ws : list (akey * nat)),
  In (KP 1, 5) ws /\ NoDup (map fst ws) /\ weight_by_key (KP 1) ws = Err E_type.
Proof. exists [(KP 1, 5); (KN "kernel", 6)]. split; [left; reflexivity|]. split; [repeat constructor; cbn; intuition congruence|reflexivity]. Qed.
Print Assumptions position_beside_name_refuted.
