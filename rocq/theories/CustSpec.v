(** What the analyzers of the user are to be, in terms of what their PTransforms do. *)
From Coq Require Import List Permutation.
Import ListNotations.

(** The value of an analyzer made of the three stages on a dataset. *)
Definition value_of {batch acc out : Type} (make : list batch -> list acc) (merge : list acc -> list acc) (extract : list acc -> list out)
    (data : list batch) : list out := extract (merge (make data)).

(** "To ensure the correctness of this analyzer, the following must hold:
     merge(make({D1, ..., Dn})) == merge({make(D1), ..., make(Dn)})" *)
Definition documented_condition {batch acc : Type} (make : list batch -> list acc) (merge : list acc -> list acc) : Prop :=
  forall parts : list (list batch), merge (make (concat parts)) = merge (concat (map make parts)).
(** "produces a single reduced accumulator" *)
Definition one_accumulator {acc : Type} (merge : list acc -> list acc) : Prop := forall xs, exists a, merge xs = [a].
(** "operates on a collection of accumulators, i.e. the results of both the make_accumulators_ptransform and
    merge_accumulators_ptransform stages, ... must be associative and commutative": accumulators that were merged
    stand for those they were merged from, and the order does not matter. *)
Definition associative {acc : Type} (merge : list acc -> list acc) : Prop :=
  forall parts : list (list acc), merge (concat (map merge parts)) = merge (concat parts).
Definition commutative {batch acc : Type} (make : list batch -> list acc) (merge : list acc -> list acc) : Prop :=
  (forall xs ys, Permutation xs ys -> merge xs = merge ys) /\
  (forall xs ys, Permutation xs ys -> merge (make xs) = merge (make ys)).
(** The coder gives back the accumulators it was given. *)
Definition round_trips {acc entry : Type} (encode : acc -> entry) (decode : entry -> acc) : Prop := forall a, decode (encode a) = a.

From Verif Require Import CustModel.
(** Two analyses that do the same with the same input, as far as the cache is concerned. *)
Definition alike {batch acc out entry source dataset : Type} (a a' : analysis batch acc out entry source dataset) : Prop :=
  inputs a = inputs a' /\
  (forall xs, apply (make_accumulators (analyzer a)) xs = apply (make_accumulators (analyzer a')) xs) /\
  (forall xs, apply (merge_accumulators (analyzer a)) xs = apply (merge_accumulators (analyzer a')) xs) /\
  (forall x, encode (cache_coder (analyzer a)) x = encode (cache_coder (analyzer a')) x).
(** An analyzer that is what the documentation asks for. *)
Definition correct {batch acc out entry : Type} (c : cacheable batch acc out entry) : Prop :=
  let make := apply (make_accumulators c) in let merge := apply (merge_accumulators c) in
  documented_condition make merge /\ one_accumulator merge /\ associative merge /\ commutative make merge /\
  round_trips (encode (cache_coder c)) (decode (cache_coder c)).
(** The output of an analysis is that of its analyzer on all of its data. *)
Definition right_output {batch acc out entry source dataset : Type} (batches : source -> dataset -> list batch)
    (a : analysis batch acc out entry source dataset) (outs : list out) : Prop :=
  outs = value_of (apply (make_accumulators (analyzer a))) (apply (merge_accumulators (analyzer a))) (apply (extract_output (analyzer a)))
           (flat_map (batches (inputs a)) (datasets a)).

(** What a PTransform that returns PCollections with one element each has returned. *)
Inductive returns {B : Type} : returned B -> list B -> Prop :=
  | returns_single : forall v, returns (Single [v]) [v]
  | returns_tuple : forall vs, returns (Tuple (map (fun v => [v]) vs)) vs
  | returns_tagged : forall vs more, returns (Tagged (map (fun v => [v]) vs ++ more)) vs.
