(** The rows of a key, and buckets of about the same weight. *)
From Coq Require Import String List ZArith QArith Bool.
From Verif Require Import FloatModel QuantileModel QuantileSpec BpkModel.
Import ListNotations.
Local Open Scope Q_scope.

(** The rows of a batch: a key, a value and a weight, which is 1 if there are no weights.  In a batch that
    is complete there is one of each for every row. *)
Definition complete (weights : bool) (b : input) : Prop :=
  length (values b) = length (keys b) /\ (weights = true -> length (row_weights b) = length (keys b)).
Definition row : Type := (string * (fl * fl))%type.
Definition rows_of (weights : bool) (b : input) : list row :=
  map (fun i => (nth i (keys b) ""%string,
                 (nth i (values b) NaN, if weights then nth i (row_weights b) NaN else Fin 1)))
      (seq 0 (length (keys b))).
Definition rows (weights : bool) (inputs : list input) : list row := flat_map (rows_of weights) inputs.

(** The values of a key with their weights; NaN does not count. *)
Definition key_entries (weights : bool) (inputs : list input) (k : string) : list entry :=
  flat_map (fun x => if String.eqb (fst x) k then entry_of (fst (snd x)) (snd (snd x)) else []) (rows weights inputs).

(** No interval of length [w] has values, as float32 numbers, that weigh more than [m] together. *)
Definition crowds_at_most (r : Q -> Q) (w m : Q) (l : list entry) : Prop :=
  forall v, weight (fun x => Qle_bool v (r x) && Qle_bool (r x) (v + w)) l <= m.
(** Values, as float32 numbers, are at most [d] apart. *)
Definition spread_at_most (r : Q -> Q) (d : Q) (l : list entry) : Prop :=
  forall e e', In e l -> In e' l -> r (fst e') - r (fst e) <= d.
(** The weight of the entries that are in a bucket. *)
Definition in_bucket (bucket : Q -> option Z) (i : nat) (l : list entry) : Q :=
  weight (fun v => match bucket v with Some j => (j =? Z.of_nat i)%Z | None => false end) l.
