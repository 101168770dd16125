(* MPSpec.v -- what resource utilization means, written without the calculator's helpers. *)
From Verif Require Import Base HessianModel MPModel.

Definition Qsum {A} (f : A -> Q) (l : list A) : Q := fold_right (fun x s => (f x + s)%Q) 0%Q l.

(* the candidate a configuration selects for a node; a node without an entry has its first candidate *)
Definition selected (cfg : mpcfg) (n : node) : option cand :=
  match dict_get (n_name n) cfg with Some i => nth_error (n_cands n) i | None => hd_error (n_cands n) end.

(* an attribute is quantized when every candidate quantizes it *)
Definition quantized_attr (n : node) (a : nat) : bool :=
  forallb (fun c => match dict_get a (c_w c) with Some w => w_enable w | None => false end) (n_cands n).

(* the bit-width of an attribute under a configuration: 32 unless quantized *)
Definition wbits (cfg : mpcfg) (n : node) (a : nat) : Z :=
  match selected cfg n with
  | Some c => match dict_get a (c_w c) with Some w => if w_enable w then w_bits w else 32 | None => 32 end
  | None => 32
  end.

(* weights memory of one node: its quantized attributes, size * bits / 8; nothing if it reuses another node's weights *)
Definition node_weights_memory (cfg : mpcfg) (n : node) : Q :=
  if n_reuse n then 0%Q else
  Qsum (fun p => if quantized_attr n (fst p) then (inject_Z (snd p * wbits cfg n (fst p)) / 8)%Q else 0%Q) (n_wsizes n).
Definition weights_memory (g : graph) (cfg : mpcfg) : Q := Qsum (node_weights_memory cfg) (g_nodes g).

Definition has_mode (n : node) (q : amode) : Prop := n_cands n <> [] /\ forall c, In c (n_cands n) -> a_mode (c_act c) = q.

(* the node whose quantizer determines the bits of [n]'s output: walk back through quantization-preserving nodes *)
Inductive source (g : graph) : node -> node -> Prop :=
| Src_self n : ~ has_mode n A_PRESERVE -> source g n n
| Src_back n m p : has_mode n A_PRESERVE -> g_prev g (n_name n) = [n_name m] -> In m (g_nodes g) -> source g m p ->
                   source g n p.

(* activation bits of a (non-preserving) node *)
Definition abits (cfg : mpcfg) (p : node) : Z :=
  match selected cfg p with
  | Some c => if amode_eqb (a_mode (c_act c)) A_QUANT then a_bits (c_act c) else 32
  | None => 32
  end.

(* memory held by a list of tensors *)
Definition act_memory (g : graph) (cfg : mpcfg) (ns : list node) (q : Q) : Prop :=
  exists ps, Forall2 (source g) ns ps /\
             (q == Qsum (fun np => inject_Z (n_out (fst np) * abits cfg (snd np)) / 8) (combine ns ps))%Q.

(* tensors that count towards activation memory: quantized or quantization-preserving, not inside a fused operation *)
Definition counted (g : graph) (n : node) : Prop :=
  (has_mode n A_QUANT \/ has_mode n A_PRESERVE) /\ ~ In (n_name n) (g_inner g).
(* the counted tensors of a cut given by names *)
Inductive counted_of (g : graph) : list nat -> list node -> Prop :=
| Co_nil : counted_of g [] []
| Co_in n cut ns : In n (g_nodes g) -> counted g n -> counted_of g cut ns -> counted_of g (n_name n :: cut) (n :: ns)
| Co_out n cut ns : In n (g_nodes g) -> ~ counted g n -> counted_of g cut ns -> counted_of g (n_name n :: cut) ns.

(* bit-operations of one node: bits of its input times bits of its kernel times multiply-accumulates *)
Definition node_bit_ops (g : graph) (cfg : mpcfg) (n : node) (z : Z) : Prop :=
  match n_kernel n with
  | None => z = 0%Z
  | Some k => (n_mac n = 0 /\ z = 0)%Z \/
              exists m p, g_prev g (n_name n) = [n_name m] /\ In m (g_nodes g) /\ source g m p /\
                          z = (abits cfg p * wbits cfg n k * n_mac n)%Z
  end.

(* raising bit-widths *)
Definition cand_le (c d : cand) : Prop :=
  a_mode (c_act c) = a_mode (c_act d) /\ (a_bits (c_act c) <= a_bits (c_act d))%Z /\
  forall a, match dict_get a (c_w c), dict_get a (c_w d) with
            | Some x, Some y => w_enable x = w_enable y /\ (w_bits x <= w_bits y)%Z
            | None, None => True
            | _, _ => False
            end.
Definition cfg_le (g : graph) (cfg cfg' : mpcfg) : Prop :=
  forall n, In n (g_nodes g) -> match selected cfg n, selected cfg' n with
                                | Some c, Some d => cand_le c d
                                | None, None => True
                                | _, _ => False
                                end.

Definition field_le (x y : option Q) : Prop := match x, y with Some a, Some b => (a <= b)%Q | None, None => True | _, _ => False end.
Definition ru_le (r s : ru) : Prop :=
  field_le (ru_w r) (ru_w s) /\ field_le (ru_a r) (ru_a s) /\ field_le (ru_t r) (ru_t s) /\ field_le (ru_b r) (ru_b s).

(* graphs as the toolkit builds them: distinct node names, distinct attributes per node, non-negative sizes, and every
   candidate of a node configures the same attributes and agrees on whether they are quantized *)
Record wf_graph (g : graph) : Prop := {
  wf_names : NoDup (map n_name (g_nodes g));
  wf_attrs : forall n, In n (g_nodes g) -> NoDup (map fst (n_wsizes n));
  wf_cuts : forall c, In c (g_cuts g) -> c <> [];
  wf_enable : forall n c d a x y, In n (g_nodes g) -> In c (n_cands n) -> In d (n_cands n) ->
                dict_get a (c_w c) = Some x -> dict_get a (c_w d) = Some y -> w_enable x = w_enable y;
}.
Record nonneg_graph (g : graph) : Prop := {
  nn_sizes : forall n a s, In n (g_nodes g) -> In (a, s) (n_wsizes n) -> (0 <= s)%Z;
  nn_out : forall n, In n (g_nodes g) -> (0 <= n_out n)%Z;
  nn_mac : forall n, In n (g_nodes g) -> (0 <= n_mac n)%Z;
  nn_abits : forall n c, In n (g_nodes g) -> In c (n_cands n) -> (0 <= a_bits (c_act c))%Z;
  nn_wbits : forall n c a w, In n (g_nodes g) -> In c (n_cands n) -> In (a, w) (c_w c) -> (0 <= w_bits w)%Z;
}.
