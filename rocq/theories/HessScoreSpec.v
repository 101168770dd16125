(** Specification of the Hessian scores (C84), independent of how they are
    computed.

    An entry of a score covers a set of elements of the target tensor (its
    "cell"): all of them, those of one output channel, one element — and, for
    activations, those of one image.  The true score of a cell is the sum,
    over the elements of the cell and the elements of the outputs, of the
    squared derivatives. *)

From Coq Require Import Reals List Bool Arith Permutation.
From Verif Require Import Base HessScoreModel.
Import ListNotations.
Local Open Scope R_scope.

(** multi-indices of a shape, in row-major order *)
Fixpoint indices (s : list nat) : list (list nat) :=
  match s with
  | [] => [[]]
  | d :: r => flat_map (fun i => map (cons i) (indices r)) (seq 0 d)
  end.

Definition index (s : list nat) (k : nat) : list nat := nth k (indices s) [].

(** the positions whose multi-index satisfies [f] *)
Definition select (s : list nat) (f : list nat -> bool) : list nat :=
  filter (fun k => f (index s k)) (seq 0 (prod s)).

Definition singles (s : list nat) : list (list nat) := map (fun k => [k]) (seq 0 (prod s)).

(** cells of the scores of weights, both frameworks *)
Definition weights_cells (g : gran) (s : list nat) (ax : nat) : list (list nat) :=
  match g with
  | GTensor => [seq 0 (prod s)]
  | GChannel => map (fun c => select s (fun ix => Nat.eqb (nth ax ix 0%nat) c))
                    (seq 0 (nth ax s 1%nat))
  | GElement => singles s
  end.

(** cells of the scores of activations: images are on the first axis, output
    channels on axis 1 in PyTorch and on the last axis in Keras *)
Definition act_cells (chan : list nat -> nat) (nchan : nat) (g : gran) (s : list nat)
  : list (list nat) :=
  match g with
  | GTensor => map (fun b => select s (fun ix => Nat.eqb (nth 0 ix 0%nat) b))
                   (seq 0 (nth 0 s 1%nat))
  | GChannel =>
      flat_map (fun b =>
        map (fun c => select s (fun ix => Nat.eqb (nth 0 ix 0%nat) b && Nat.eqb (chan ix) c))
            (seq 0 nchan)) (seq 0 (nth 0 s 1%nat))
  | GElement => singles s
  end.

Definition torch_act_cells (g : gran) (s : list nat) :=
  act_cells (fun ix => nth 1 ix 0%nat) (nth 1 s 1%nat) g s.
Definition keras_act_cells (g : gran) (s : list nat) :=
  act_cells (fun ix => last ix 0%nat) (last s 1%nat) g s.

(** all elements of the outputs of a model *)
Definition elements {O} (o : outs O) : list O :=
  match o with
  | Bare t => t_data t
  | Items l => concat (map (fun i => match i with
                                     | One t => t_data t
                                     | Several ts => concat (map t_data ts)
                                     end) l)
  end.

Definition tensors {O} (o : outs O) : list (tens O) :=
  match o with
  | Bare t => [t]
  | Items l => flat_map (fun i => match i with One t => [t] | Several ts => ts end) l
  end.

(** tensors of outputs: as many elements as the shape says; the same,
    positive number of images in all of them; a tensor returned alone has at
    least one more axis, of positive size *)
Definition good_outputs {O} (o : outs O) (b : nat) : Prop :=
  (0 < b)%nat /\ tensors o <> [] /\
  (forall t, In t (tensors o) -> length (t_data t) = prod (t_shape t) /\
                                 exists r, t_shape t = b :: r) /\
  match o with
  | Bare t => exists c r, t_shape t = b :: c :: r /\ (0 < c)%nat
  | Items _ => True
  end.

(** true score of a cell *)
Definition true_score {O} (scale : R) (os : list O) (tg : target O) (cell : list nat) : R :=
  sumR (map (fun k => sumR (map (fun o => (scale * tg_jac tg o k) ^ 2) os)) cell).

(** estimate of it from one random vector: squared derivatives of the random
    combination of the outputs *)
Definition derivative {O} (scale : R) (os : list O) (tg : target O) (v : list bool)
           (k : nat) : R :=
  sumR (map (fun p => (if fst p : bool then 1 else -1) * (scale * tg_jac tg (snd p) k))
            (combine v os)).

Definition estimate {O} (scale : R) (os : list O) (tg : target O) (cell : list nat)
           (v : list bool) : R :=
  sumR (map (fun k => derivative scale os tg v k ^ 2) cell).

Definition average {A} (f : A -> R) (l : list A) : R :=
  sumR (map f l) / INR (length l).

(** all sign vectors of length [n]; all sequences of [m] of them *)
Fixpoint all_signs (n : nat) : list (list bool) :=
  match n with
  | 0%nat => [[]]
  | S k => map (cons true) (all_signs k) ++ map (cons false) (all_signs k)
  end.

Fixpoint all_draws (n m : nat) : list (list (list bool)) :=
  match m with
  | 0%nat => [[]]
  | S k => flat_map (fun v => map (cons v) (all_draws n k)) (all_signs n)
  end.

(** entry [q] of the score of target [i] *)
Definition entry (r : result (list vec)) (i q : nat) : R :=
  match r with Ok l => nth q (nth i l []) 0 | Err _ => 0 end.

(** rows of the concatenated output: images, or, for a tensor returned alone,
    the positions of its axis 1 *)
Definition output_rows {O} (o : outs O) (b : nat) : nat :=
  match o with
  | Bare t => nth 1 (t_shape t) 0%nat
  | Items _ => b
  end.

(** ** one image of a batch *)

Definition image_size (s : list nat) : nat := prod (tl s).

(** part [i] of a list cut into parts of [w] elements *)
Definition part {A} (w i : nat) (l : list A) : list A := firstn w (skipn (i * w) l).

Definition image_tensor {O} (i : nat) (t : tens O) : tens O :=
  Tens (1%nat :: tl (t_shape t)) (part (image_size (t_shape t)) i (t_data t)).

Definition image_item {O} (i : nat) (x : item O) : item O :=
  match x with
  | One t => One (image_tensor i t)
  | Several ts => Several (map (image_tensor i) ts)
  end.

Definition image_target {O} (i : nat) (tg : target O) : target O :=
  Target (1%nat :: tl (tg_shape tg)) (tg_axis tg)
         (fun o k => tg_jac tg o (i * image_size (tg_shape tg) + k)%nat) (tg_conn tg).

(** elements of the outputs of one image *)
Definition image_outputs {O} (l : list (item O)) : nat :=
  fold_right Nat.add 0%nat (map (fun t => image_size (t_shape t)) (tensors (Items l))).

(** a network that treats the images of a batch separately *)
Definition separate_images {O} (image_of : O -> nat) (l : list (item O))
           (tgs : list (target O)) : Prop :=
  (forall t k o, In t (tensors (Items l)) -> nth_error (t_data t) k = Some o ->
                 image_of o = nth 0 (index (t_shape t) k) 0%nat) /\
  (forall tg o k, In tg tgs -> In o (elements (Items l)) -> (k < prod (tg_shape tg))%nat ->
                  image_of o <> nth 0 (index (tg_shape tg) k) 0%nat -> tg_jac tg o k = 0).
