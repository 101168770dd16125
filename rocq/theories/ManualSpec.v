(* ManualSpec.v -- what a list of manual bit-width requests asks of a node. *)
From Coq Require Import String.
From Verif Require Import Base SDict MPModel HessianModel FilterModel PlatModel LookupModel CandSpec ManualModel.
Local Open Scope list_scope.

(* the last element of l that satisfies p *)
Fixpoint last_match {R} (p : R -> bool) (l : list R) : option R :=
  match l with
  | [] => None
  | r :: rs => match last_match p rs with Some x => Some x | None => if p r then Some r else None end
  end.
(* the activation bit-width requested for n; the bit-width requested for the attribute named a of n *)
Definition wants_act (c : bwconfig) (n : mnode) : option Z :=
  option_map ar_bits (last_match (fun r => ar_filter r n) (bw_act c)).
Definition is_name (a : string) (w : wname) : bool := match w with W_name s => String.eqb a s | W_pos _ => false end.
Definition wants_weight (c : bwconfig) (n : mnode) (a : string) : option Z :=
  option_map wr_bits (last_match (fun r => wr_filter r n && is_name a (wr_attr r)) (bw_weights c)).

(* the quantized attribute a of x has b bits; the name "pos_attr" stands for all positional weights *)
Definition has_bits (x : cand) (a : string) (b : Z) : Prop :=
  if String.eqb a pos_attr
  then cd_pos x <> [] /\ forall i w, In (i, w) (cd_pos x) -> wc_enable w = true /\ wc_bits w = b
  else exists w, sget a (cd_named x) = Some w /\ wc_enable w = true /\ wc_bits w = b.
(* x is what the requests ask of n *)
Definition asked (c : bwconfig) (n : mnode) (x : cand) : Prop :=
  (forall b, wants_act c n = Some b -> cd_bits x = b) /\
  (forall a b, wants_weight c n a = Some b -> has_bits x a b).

(* b bits, if given; otherwise as before *)
Definition rebit (o : option Z) (w : wcfg) : wcfg :=
  match o with Some b => WCfg (wc_method w) b (wc_per_channel w) (wc_enable w) | None => w end.
(* the base configuration y' is y with the requested bit-widths *)
Definition base_as_asked (c : bwconfig) (n : mnode) (y y' : cand) : Prop :=
  cd_bits y' = match wants_act c n with Some b => b | None => cd_bits y end /\
  cd_method y' = cd_method y /\ cd_mode y' = cd_mode y /\ cd_signed y' = cd_signed y /\ cd_simd y' = cd_simd y /\
  cd_pos y' = map (fun kv => (fst kv, rebit (wants_weight c n pos_attr) (snd kv))) (cd_pos y) /\
  skeys (cd_named y') = skeys (cd_named y) /\
  (forall a, sget a (cd_named y') = option_map (rebit (if String.eqb a pos_attr then None else wants_weight c n a)) (sget a (cd_named y))).

(* some request concerns n *)
Definition concerned (c : bwconfig) (n : mnode) : Prop :=
  (exists r, In r (bw_act c) /\ ar_filter r n = true) \/ (exists r, In r (bw_weights c) /\ wr_filter r n = true).

(* the candidates of a node and its base configuration have the same, distinct, attribute names *)
Definition wf_mnode (n : mnode) : Prop :=
  wf_cand (nc_base (mn_cfg n)) /\ forall x, In x (nc_cands (mn_cfg n)) -> skeys (cd_named x) = skeys (cd_named (nc_base (mn_cfg n))).
