(** What quantiles are to be, and what a sketch promises. *)
From Coq Require Import List ZArith QArith Bool Arith Sorting.Sorted.
From Verif Require Import FloatModel QuantileModel.
Import ListNotations.
Local Open Scope Q_scope.

(** A value with its weight. *)
Definition entry : Type := (Q * Q)%type.

(** The weight of the entries with values of a kind, and of all. *)
Definition weight (kind : Q -> bool) (l : list entry) : Q :=
  fold_right Qplus 0 (map snd (filter (fun e => kind (fst e)) l)).
Definition total (l : list entry) : Q := weight (fun _ => true) l.
Definition below (v x : Q) : bool := negb (Qle_bool v x).
Definition at_most (v x : Q) : bool := Qle_bool x v.

(** The entries of a feature among the flattened values of rows of [f] values: values and weights that
    are NaN do not count. *)
Definition entry_of (v w : fl) : list entry :=
  match v, w with Fin v, Fin w => [(v, w)] | _, _ => [] end.
Definition column_entries (f j : nat) (flat : list (fl * fl)) : list entry :=
  flat_map (fun i => if (i mod f =? j)%nat then
                       match nth_error flat i with Some (v, w) => entry_of v w | None => [] end
                     else [])
           (seq 0 (length flat)).

(** The flattened values of a batch of rows of [f] values, with the weights of their rows, or 1. *)
Definition with_row_weights (f : nat) (vs ws : list fl) : list (fl * fl) :=
  combine vs (flat_map (fun w => repeat w f) ws).
Definition flat_of (f : nat) (weights : bool) (b : batch) : list (fl * fl) :=
  if weights then with_row_weights f (fst b) (snd b) else map (fun v => (v, Fin 1)) (fst b).

(** What is promised of quantiles 0/n, 1/n, ..., n/n of the entries [l]: they are in order, they are
    among the values, and the weight of the values below (at most) the i-th is at most (at least) i/n
    of all, up to the error [eps]. *)
Definition fraction (i n : nat) : Q := inject_Z (Z.of_nat i) / inject_Z (Z.of_nat n).
Definition approximates (eps : Q) (n : nat) (l : list entry) (qs : list Q) : Prop :=
  length qs = S n /\ StronglySorted Qle qs /\
  forall i, (i <= n)%nat ->
    let q := nth i qs 0 in
    (exists e, In e l /\ fst e == q) /\
    weight (below q) l <= (fraction i n + eps) * total l /\
    (fraction i n - eps) * total l <= weight (at_most q) l.

(** A batch of rows of [f] values, with a weight for each row if there are weights. *)
Definition batch_ok (f : nat) (weights : bool) (b : batch) : Prop :=
  (exists r, length (fst b) = r * f /\ (weights = true -> length (snd b) = r))%nat.

(** Sketches for [f] features made by the operations, and the flattened values they were made from.  The
    values come in rows of [f]. *)
Inductive built {sketch} (ops : sketch_ops sketch) (eps : Q) (f : nat) : sketch -> list (fl * fl) -> Prop :=
| built_new : built ops eps f (new_sketch ops eps f) []
| built_add s l vs : (exists r, length vs = r * f)%nat -> built ops eps f s l ->
    built ops eps f (add_values ops s vs) (l ++ map (fun v => (v, Fin 1)) vs)
| built_add_weighted s l vs ws : (length vs = length ws * f)%nat -> built ops eps f s l ->
    built ops eps f (add_weighted_values ops s vs ws) (l ++ with_row_weights f vs ws)
| built_merge s l s' l' : built ops eps f s l -> built ops eps f s' l' ->
    built ops eps f (merge ops s s') (l ++ l')
| built_compact s l : built ops eps f s l -> built ops eps f (compact ops s) l.

(** The promise of the sketch: a row for each feature with the approximate quantiles of its entries, if
    all features have entries of weight that is not negative, and some weight. *)
Definition good (l : list entry) : Prop := Forall (fun e => 0 <= snd e) l /\ 0 < total l.
Definition keeps_promise {sketch} (ops : sketch_ops sketch) (eps : Q) (f : nat) : Prop :=
  forall s l n, (1 <= n)%nat -> built ops eps f s l ->
  (forall j, (j < f)%nat -> good (column_entries f j l)) ->
  length (get_quantiles ops s n) = f /\
  forall j, (j < f)%nat -> approximates eps n (column_entries f j l) (nth j (get_quantiles ops s n) []).

(** What is known of rounding to float32. *)
Definition rounding (r : Q -> Q) : Prop :=
  (forall x y, x <= y -> r x <= r y) /\ (forall x, r (r x) == r x).

(** The weight of the entries that are in a bucket. *)
Definition bucket_weight (bucket : Q -> option nat) (i : nat) (l : list entry) : Q :=
  weight (fun v => match bucket v with Some j => (j =? i)%nat | None => false end) l.

(** No class of values that are the same float32 number weighs more than [m]. *)
Definition ties_at_most (r : Q -> Q) (m : Q) (l : list entry) : Prop :=
  forall v, weight (fun x => Qeq_bool (r x) (r v)) l <= m.

(** The error allowed: the one asked for, or by default 1/100 up to 100 buckets and 1/k for more. *)
Definition allowed_error (k : nat) (asked : option Q) : Q :=
  match asked with Some e => e | None => if (k <=? 100)%nat then 1 # 100 else 1 / inject_Z (Z.of_nat k) end.

(** The features whose quantiles are computed, the feature of a value, and the entries of it: all values
    are of one feature unless each element of an instance is one. *)
Definition features (elementwise : bool) (width : nat) : nat := if elementwise then width else 1%nat.
Definition feature (elementwise : bool) (column : nat) : nat := if elementwise then column else 0%nat.
Definition feature_entries (f j : nat) (weights : bool) (batches : list batch) : list entry :=
  column_entries f j (flat_map (flat_of f weights) batches).

(** Datasets: complete batches where each feature has some weight, and no negative weight. *)
Definition dataset (f : nat) (weights : bool) (batches : list batch) : Prop :=
  Forall (batch_ok f weights) batches /\ forall j, (j < f)%nat -> good (feature_entries f j weights batches).

(** Quantiles come as n + 1 numbers for each feature, or not at all. *)
Definition keeps_shape {sketch} (ops : sketch_ops sketch) : Prop :=
  forall eps f s l n, built ops eps f s l ->
  get_quantiles ops s n = [] \/
  (length (get_quantiles ops s n) = f /\ Forall (fun row => length row = S n) (get_quantiles ops s n)).
