(** * Specification of histograms *)
From Coq Require Import String List ZArith QArith Bool Permutation.
From Verif Require Import CombineModel NumericModel FloatModel MeanVarModel PerKeyModel.
Import ListNotations.
Local Notation length := List.length.

(** The bins between neighbouring boundaries [s]: bin [i] holds the values above [s_i] up
    to [s_(i+1)]; the first bin has no lower end and the last bin no upper end.  (NaN is
    not above anything.) *)
Definition in_bin (s : list Q) (i : nat) (v : fl) : bool :=
  ((i =? 0)%nat || fltb (Fin (nth i s 0%Q)) v) &&
  ((i + 2 =? length s)%nat || negb (fltb (Fin (nth (S i) s 0%Q)) v)).

Definition how_many {A} (p : A -> bool) (l : list A) : Z := Z.of_nat (length (filter p l)).

(** What the runner may do with the counts of batches of keys: it collects each key that
    occurs, once, in any order; and combines what the batches contribute to it in any
    order and grouping. *)
Record runner_counts (batches : list (list string)) (sch : string -> sched (sched (list arr)))
    (keys : list string) : Prop := {
  keys_once : NoDup keys;
  keys_occur : forall k, In k keys <-> In k (concat batches);
  keys_inputs : forall k, In k keys ->
    Permutation (batches_of (sch k)) (inputs_of_key k (map batch_count_per_key batches)) }.

(** The bins the caller asks for with the boundaries [b]: bin [i] holds the values from
    [b_i] on, below [b_(i+1)]; the first bin has no lower end and the last bin no upper
    end. *)
Definition from_on (q : Q) (v : fl) : bool :=
  match v with Fin x => Qle_bool q x | Inf negative => negb negative | NaN => false end.
Definition in_given_bin (b : list Q) (i : nat) (v : fl) : bool :=
  ((i =? 0)%nat || from_on (nth i b 0%Q) v) &&
  ((i + 2 =? length b)%nat || negb (from_on (nth (S i) b 0%Q) v)).
(** A value less than 0.0001 below a boundary. *)
Definition just_below (q : Q) (v : fl) : Prop :=
  exists x, v = Fin x /\ (q - (1 # 10000) < x)%Q /\ (x < q)%Q.
