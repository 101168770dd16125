(* MhaSpec.v -- multi-head attention of torch.nn.MultiheadAttention (batch first, no masks, no dropout). *)
From Verif Require Import Base GraphModel MatMulModel MhaModel.
From Coq Require Import Reals.
Local Open Scope R_scope.

Inductive which := Wq | Wk | Wv.
Definition number (w : which) : nat := match w with Wq => 0 | Wk => 1 | Wv => 2 end.
(* row e of the projection matrix of query, key or value *)
Definition in_matrix (m : mha) (w : which) (e i : nat) : R :=
  match m_in_w m with
  | Some t => at_ t [(number w * m_embed m + e)%nat; i]
  | None => match (match w with Wq => m_qw m | Wk => m_kw m | Wv => m_vw m end) with Some t => at_ t [e; i] | None => 0 end
  end.
Definition in_bias (m : mha) (w : which) (e : nat) : R :=
  match m_in_b m with Some t => at_ t [(number w * m_embed m + e)%nat] | None => 0 end.
Definition total (n : nat) (f : nat -> R) : R := fold_right Rplus 0 (map f (seq 0 n)).
Definition projected (m : mha) (w : which) (dim : nat) (x : tensor) (b t e : nat) : R :=
  total dim (fun i => at_ x [b; t; i] * in_matrix m w e i) + in_bias m w e.

Section Attention.
Variables (m : mha) (x y z : tensor) (S : nat).
Let d := (m_embed m / m_heads m)%nat.
Let q := projected m Wq (m_embed m) x.
Let k := projected m Wk (m_kdim m) y.
Let v := projected m Wv (m_vdim m) z.
(* q kT / sqrt d in head h *)
Definition score (b h t s : nat) : R := total d (fun j => q b t (h * d + j)%nat * k b s (h * d + j)%nat) / sqrt (INR d).
Definition attention (b h t s : nat) : R := exp (score b h t s) / total S (fun s' => exp (score b h t s')).
(* the heads side by side *)
Definition context (b t e : nat) : R := total S (fun s => attention b (e / d)%nat t s * v b s e).
Definition mha_output (b t o : nat) : R :=
  total (m_embed m) (fun e => context b t e * at_ (m_out_w m) [o; e]) + match m_out_b m with Some c => at_ c [o] | None => 0 end.
End Attention.

(* shapes of the weights of the layer: one matrix for query, key and value, or one each *)
Definition weights_ok (m : mha) : Prop :=
  match m_in_w m with
  | Some t => sh t = [(3 * m_embed m)%nat; m_embed m] /\ m_kdim m = m_embed m /\ m_vdim m = m_embed m
  | None => exists tq tk tv, m_qw m = Some tq /\ m_kw m = Some tk /\ m_vw m = Some tv /\
              sh tq = [m_embed m; m_embed m] /\ sh tk = [m_embed m; m_kdim m] /\ sh tv = [m_embed m; m_vdim m]
  end /\
  match m_in_b m with Some b => sh b = [(3 * m_embed m)%nat] | None => True end /\
  sh (m_out_w m) = [m_embed m; m_embed m] /\ match m_out_b m with Some b => sh b = [m_embed m] | None => True end.
Definition supported (m : mha) : Prop :=
  m_reuse m = false /\ m_batch_first m = Some true /\ m_zero_attn m <> Some true /\ (m_bias_v m = None \/ (m_bias_k m = Some false /\ m_bias_v m = Some false)) /\
  (0 < m_heads m)%nat /\ (exists d, (0 < d)%nat /\ m_embed m = (m_heads m * d)%nat).
