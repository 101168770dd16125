(* PrepSpec.v -- the configuration a node should end up with when the graph is prepared for single precision. *)
From Coq Require Import String.
From Verif Require Import Base SDict MPModel HessianModel FilterModel PlatModel LookupModel LookupSpec CandSpec ManualModel ManualSpec.
Local Open Scope list_scope.

(* the bit-width asked for the output of n, and for its attribute a *)
Definition act_request (bw : option bwconfig) (m : mnode) : option Z := match bw with Some c => wants_act c m | None => None end.
Definition weight_request (bw : option bwconfig) (m : mnode) (a : string) : option Z :=
  match bw with Some c => wants_weight c m a | None => None end.
(* requests select nodes by what the user sees of them, not by their configurations *)
Definition by_identity (bw : option bwconfig) : Prop :=
  forall c, bw = Some c -> forall m m', mn_id m = mn_id m' -> mn_attrs m = mn_attrs m' ->
  (forall r, In r (bw_act c) -> ar_filter r m = ar_filter r m') /\ (forall r, In r (bw_weights c) -> wr_filter r m = wr_filter r m').
(* m stands for the node n *)
Definition stands (n : gnode) (m : mnode) : Prop := mn_id m = gn_id n /\ mn_attrs m = gn_attrs n.
Definition or_else (o : option Z) (z : Z) : Z := match o with Some b => b | None => z end.

(* the platform's option o for the node: the base option, or one of the others *)
Definition an_option (f : fqc) (n : gnode) (o : opcfg) : Prop :=
  exists q, fetch f (gn_f n) = Ok q /\ (o = qo_base q \/ In o (qo_cfgs q)).
(* consumers of n accept b bits *)
Definition accepted (f : fqc) (g : lgraph) (n : gnode) (b : Z) : Prop :=
  forall m qm, feeds f g (gn_id n) m -> opts_at f g m = Ok qm -> takes qm b.

(* how d quantizes the output of n, when n lies inside no fused operation: not at all, like its input, or with the method
   of the option o and with the bit-width of the option or, if there is one, of the request *)
Definition output_of (bw : option bwconfig) (m : mnode) (o : opcfg) (d : cand) : Prop :=
  (cd_mode d = M_no /\ cd_bits d = 32%Z) \/
  (cd_mode d = M_preserve /\ cd_bits d = oc_bits o /\ cd_method d = oc_method o) \/
  (cd_mode d = M_quant /\ cd_bits d = or_else (act_request bw m) (oc_bits o) /\ cd_method d = oc_method o).
(* inside a fused operation: with the configuration of the operation, if it is quantized *)
Definition inner_output_of (fo : option opcfg) (d : cand) : Prop :=
  match fo with
  | Some q => if oc_enable q then cd_mode d = M_fln_quant /\ cd_bits d = oc_bits q /\ cd_method d = oc_method q else cd_mode d = M_fln_no
  | None => cd_mode d = M_fln_no
  end.
(* the quantized attributes of n have the configuration of the option o, with the bit-widths of the requests; the others
   stay unquantized *)
Definition attrs_of (bw : option bwconfig) (m : mnode) (o : opcfg) (d : cand) : Prop :=
  exists p s, new_weights o (mn_attrs m) = Ok (p, s) /\
  cd_pos d = map (fun kv => (fst kv, rebit (weight_request bw m pos_attr) (snd kv))) p /\
  (forall a w, a <> pos_attr -> sget a s = Some w -> exists w', sget a (cd_named d) = Some w' /\ wc_enable w' = wc_enable w /\
     (wc_enable w = true -> w' = rebit (weight_request bw m a) w)).
