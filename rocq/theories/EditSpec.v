(* EditSpec.v -- what an edit rule is supposed to do, in terms of the readable fields of a node. *)
From Coq Require Import String.
From Verif Require Import Base SDict EditModel.
Local Open Scope list_scope.

Definition contains (t s : string) : Prop := exists p q, t = (p ++ s ++ q)%string.

(* which nodes a filter selects *)
Fixpoint matches (m : matcher) (n : node) : Prop :=
  match m with
  | M_type t => t = node_type n
  | M_name s => n_name n = s
  | M_scope s => contains (n_name n) s
  | M_any => True
  | M_and a b => matches a n /\ matches b n
  | M_or a b => matches a n \/ matches b n
  | M_not a => ~ matches a n
  end.

(* the rules, one after the other, on a single node *)
Inductive runs (T : tables) : list rule -> node -> node -> Prop :=
  | R_nil : forall n, runs T [] n n
  | R_skip : forall r rs n n', ~ matches (r_filter r) n -> runs T rs n n' -> runs T (r :: rs) n n'
  | R_hit : forall r rs n n1 n', matches (r_filter r) n -> apply_action T (r_action r) n = Ok n1 ->
      runs T rs n1 n' -> runs T (r :: rs) n n'.

(* the fields of the configuration objects of a node: of candidate i (Some i), or of the node's own final
   configuration (None); and the node's weights and framework attributes *)
Inductive slot :=
  | S_act (o : option nat) (f : string)
  | S_w (o : option nat) (f : string)
  | S_attr (o : option nat) (k : akey) (f : string)
  | S_weights | S_fattr.
Definition obj_act (n : node) (o : option nat) : option cfg :=
  match o with
  | Some i => option_map c_act (nth_error (n_cands n) i)
  | None => match n_fact n with Some (Own c) => Some c | _ => None end
  end.
Definition obj_w (n : node) (o : option nat) : option wcfg :=
  match o with
  | Some i => option_map c_w (nth_error (n_cands n) i)
  | None => match n_fw n with Some (Own c) => Some c | _ => None end
  end.
Definition read (n : node) (s : slot) : option pyv :=
  match s with
  | S_act o f => match obj_act n o with Some c => sget f c | None => None end
  | S_w o f => match obj_w n o with Some w => sget f (w_fields w) | None => None end
  | S_attr o k f => match obj_w n o with
                    | Some w => match aget k (w_attrs w) with Some c => sget f c | None => None end
                    | None => None
                    end
  | S_weights => Some (n_weights n)
  | S_fattr => Some (n_fattr n)
  end.

(* the stored weight an attribute name means: the position, the only stored name that contains it, or, if there are
   several, the stored name that is equal to it *)
Definition names (w : wcfg) (a k : akey) : Prop :=
  aget k (w_attrs w) <> None /\
  match a, k with
  | A_pos i, A_pos j => i = j
  | A_name s, A_name t =>
      contains t s /\
      (s = t \/ forall t', aget (A_name t') (w_attrs w) <> None -> contains t' s -> t' = t)
  | _, _ => False
  end.

(* the configuration objects an action is about *)
Definition is_cand_obj (o : option nat) : Prop := o <> None.
Definition is_final_act (n : node) (o : option nat) : Prop :=
  match n_fact n, o with Some (Own _), None => True | Some (Shared i), Some j => i = j | _, _ => False end.
Definition is_final_w (n : node) (o : option nat) : Prop :=
  match n_fw n, o with Some (Own _), None => True | Some (Shared i), Some j => i = j | _, _ => False end.

(* a method brings its parameter function and its quantizer *)
Definition act_method_sets (T : tables) (m : nat) (f : string) (v : pyv) : Prop :=
  (f = "activation_quantization_params_fn"%string /\ v = t_act_params T m) \/
  (f = "activation_quantization_fn"%string /\ v = t_act_fn T m) \/
  (f = "activation_quantization_method"%string /\ v = Some m).
Definition w_method_sets (T : tables) (m : nat) (f : string) (v : pyv) : Prop :=
  (f = "weights_quantization_params_fn"%string /\ v = t_w_params T m) \/
  (f = "weights_quantization_fn"%string /\ v = t_w_fn T m) \/
  (f = "weights_quantization_method"%string /\ v = Some m).

(* keyword arguments reach the fields that exist *)
Definition kw_act (P : option nat -> Prop) (kw : list (string * pyv)) (n : node) (s : slot) (v : pyv) : Prop :=
  exists o f, s = S_act o f /\ P o /\ In (f, v) kw /\ read n s <> None.
Definition kw_w (P : option nat -> Prop) (attr : option akey) (kw : list (string * pyv)) (n : node) (s : slot) (v : pyv) : Prop :=
  match attr with
  | None => exists o f, s = S_w o f /\ P o /\ In (f, v) kw /\ read n s <> None
  | Some a => exists o w k f, s = S_attr o k f /\ P o /\ obj_w n o = Some w /\ names w a k /\
                In (f, v) kw /\ read n s <> None
  end.
Definition meth_act (T : tables) (P : option nat -> Prop) (m : option nat) (n : node) (s : slot) (v : pyv) : Prop :=
  exists o c f m', s = S_act o f /\ P o /\ obj_act n o = Some c /\ m = Some m' /\ act_method_sets T m' f v.
Definition meth_w (T : tables) (P : option nat -> Prop) (a : akey) (m : option nat) (n : node) (s : slot) (v : pyv) : Prop :=
  exists o w k f m', s = S_attr o k f /\ P o /\ obj_w n o = Some w /\ names w a k /\ m = Some m' /\ w_method_sets T m' f v.

(* action a puts value v into field s of node n *)
Definition writes (T : tables) (a : action) (n : node) (s : slot) (v : pyv) : Prop :=
  match a with
  | Change_cand_w attr kw => kw_w is_cand_obj attr kw n s v
  | Change_final_w attr kw => kw_w (is_final_w n) attr kw n s v
  | Change_cand_act kw => kw_act is_cand_obj kw n s v
  | Change_final_act kw => kw_act (is_final_act n) kw n s v
  | Change_params_fn attr act w =>
      (exists o c g, s = S_act o "activation_quantization_params_fn" /\ is_cand_obj o /\ obj_act n o = Some c /\
         act = Some g /\ v = Some g) \/
      (exists o wc k a g, s = S_attr o k "weights_quantization_params_fn" /\ is_cand_obj o /\ obj_w n o = Some wc /\
         attr = Some a /\ names wc a k /\ w = Some g /\ v = Some g)
  | Final_act_method m => meth_act T (is_final_act n) m n s v
  | Cand_act_method m => meth_act T is_cand_obj m n s v
  | Final_w_method a m => meth_w T (is_final_w n) a m n s v
  | Cand_w_method a m => meth_w T is_cand_obj a m n s v
  | Replace_layer _ fn =>
      exists ws fa, fn (n_weights n) (match final_act n with None => None | Some c => sget "activation_quantization_params" c end)
                       (n_fattr n) = Ok (ws, fa) /\
        ((s = S_weights /\ v = ws) \/ (s = S_fattr /\ v = fa))
  end.

(* when an action goes through: no keyword names a property, the weight names are unambiguous,
   the methods have their functions *)
Definition plain (props : list string) (kw : list (string * pyv)) : Prop := forall f v, In (f, v) kw -> ~ In f props.
Definition kw_w_ok (P : option nat -> Prop) (attr : option akey) (kw : list (string * pyv)) (n : node) : Prop :=
  forall o w, P o -> obj_w n o = Some w -> kw <> [] ->
    match attr with None => plain w_props kw | Some a => exists k, names w a k end.
Definition meth_w_ok (T : tables) (P : option nat -> Prop) (a : akey) (m : option nat) (n : node) : Prop :=
  forall o w m', P o -> obj_w n o = Some w -> m = Some m' ->
    t_w_params T m' <> None /\ t_w_fn T m' <> None /\ exists k, names w a k.
Definition applicable (T : tables) (a : action) (n : node) : Prop :=
  match a with
  | Change_cand_w attr kw => kw_w_ok is_cand_obj attr kw n
  | Change_final_w attr kw => kw_w_ok (is_final_w n) attr kw n
  | Change_cand_act kw => n_cands n <> [] -> plain act_props kw
  | Change_final_act kw => (exists o c, is_final_act n o /\ obj_act n o = Some c) -> plain act_props kw
  | Change_params_fn attr act w =>
      forall o wc g, is_cand_obj o -> obj_w n o = Some wc -> w = Some g -> exists a k, attr = Some a /\ names wc a k
  | Final_act_method m => forall o c m', is_final_act n o -> obj_act n o = Some c -> m = Some m' -> t_act_params T m' <> None
  | Cand_act_method m => forall m', n_cands n <> [] -> m = Some m' -> t_act_params T m' <> None /\ t_act_fn T m' <> None
  | Final_w_method a m => meth_w_ok T (is_final_w n) a m n
  | Cand_w_method a m => meth_w_ok T is_cand_obj a m n
  | Replace_layer _ fn =>
      exists r, fn (n_weights n) (match final_act n with None => None | Some c => sget "activation_quantization_params" c end)
                   (n_fattr n) = Ok r
  end.

(* dictionaries have no duplicate keys *)
Definition wf_w (w : wcfg) : Prop := NoDup (map fst (w_attrs w)).
Definition wf_node (n : node) : Prop := forall o w, obj_w n o = Some w -> wf_w w.
Definition wf_action (a : action) : Prop :=
  match a with
  | Change_cand_w _ kw | Change_final_w _ kw | Change_cand_act kw | Change_final_act kw => NoDup (map fst kw)
  | _ => True
  end.
