(* QatSpec.v -- C100: when a class suits a request, the configuration of an attribute, first occurrences *)
From Coq Require Import List Arith Bool.
From Verif Require Import Base QatModel.
Import ListNotations.
Open Scope nat_scope.

Definition suits (t : target) (id : ident) (m : qmethod) (c : qclass) : Prop :=
  c_target c = Some t /\ (exists ms, c_methods c = Some ms /\ In m ms) /\ c_id c = Some id.
(* the methods and training methods for which there are built-in classes *)
Definition plain (m : qmethod) : Prop := m = M_pot \/ m = M_sym \/ m = M_uni.
Definition trainable (id : ident) (m : qmethod) : Prop := (id = I_ste \/ id = I_lsq) /\ plain m.
(* the configuration of attribute k *)
Definition attr_of (w : weights_cfg) (k : nat) (a : attr_cfg) : Prop :=
  exists l1 l2, w_attrs w = l1 ++ (k, a) :: l2 /\ ~ In k (map fst l1).
(* the elements that equal none before them, in order *)
Definition firsts {A} (eqb : A -> A -> bool) (d : A) (l : list A) : list A :=
  map (fun i => nth i l d) (filter (fun i => negb (existsb (fun j => eqb (nth i l d) (nth j l d)) (seq 0 i))) (seq 0 (length l))).
(* candidates of a node agree on the method of attribute k, and of activations *)
Definition agree_weights (n : node) (k : nat) : Prop := exists m, forall c, In c (n_cands n) -> exists a, attr_of (k_weights c) k a /\ a_method a = m.
Definition agree_act (n : node) : Prop := exists m, forall c, In c (n_cands n) -> x_method (k_act c) = m.
(* nothing is asked of a single candidate; of several, the activation methods and, for a kernel, its methods must agree *)
Definition agrees (n : node) (ko : option nat) : Prop := length (n_cands n) <= 1 \/ (forall k, ko = Some k -> agree_weights n k) /\ agree_act n.
(* keyword arguments an activation quantizer accepts *)
Definition accepted (id : ident) (args : list (nat * nat)) : Prop := args = [] \/ id = I_ste /\ forall p, In p args -> fst p = freeze.
(* the candidates handed to the quantizers *)
Definition weight_cands (n : node) (k : nat) (cs : option (list cand_conf)) : Prop :=
  if length (n_cands n) <=? 1 then cs = None
  else exists l, Forall2 (fun c a => attr_of (k_weights c) k a) (n_cands n) l
       /\ cs = Some (map (fun a => CandConf (a_bits a) (a_params a)) (firsts attr_eqb (Attr M_pot 0 0 false (0, 0) false 0) l)).
Definition act_cands (n : node) (cs : option (list cand_conf)) : Prop :=
  if length (n_cands n) <=? 1 then cs = None
  else cs = Some (map (fun a => CandConf (x_bits a) (x_params a)) (firsts act_eqb (Act M_pot 0 0 Q_no 0 0) (map k_act (n_cands n)))).
