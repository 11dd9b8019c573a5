(** * Specification of document frequencies (C53) *)
From Coq Require Import List ZArith QArith.
From Verif Require Import SparseModel.
Import ListNotations.
Open Scope Z_scope.

(** The term in an entry of a batch: ids are taken modulo the size of the vocabulary. *)
Definition has_term (V term : Z) (b : sparse Z) (row : Z) : Prop :=
  exists column id, In ((row, column), id) (combine (indices b) (values b)) /\ id mod V = term.

(** [n] documents of the dataset have the term: they can be listed without repetition, as
    pairs of a batch and a row. *)
Definition documents_have (V term : Z) (batches : list (sparse Z)) (n : Z) : Prop :=
  exists l : list (nat * Z), NoDup l /\ Z.of_nat (List.length l) = n /\
    forall i row, In (i, row) l <-> exists b, nth_error batches i = Some b /\ has_term V term b row.

(** All the documents of the dataset. *)
Definition corpus (batches : list (sparse Z)) : Z := fold_right Z.add 0 (map (fun b => fst (dense_shape b)) batches).

(** A batch whose flattened indices are 64 bit integers. *)
Definition fits (V : Z) (b : sparse Z) : Prop := fst (dense_shape b) * (V + 1) <= 2 ^ 63.

(** A dataset as its documents, each a list of ids: how many contain a term. *)
Definition containing (V term : Z) (docs : list (list Z)) : nat :=
  List.length (filter (fun doc => existsb (fun id => id mod V =? term) doc) docs).

(** The documented inverse document frequency of a term in [df] of [size] documents. *)
Definition idf_value (log : Q -> Q) (smooth add_baseline : bool) (size df : nat) : Q :=
  let n := inject_Z (Z.of_nat size) in let d := inject_Z (Z.of_nat df) in
  ((if smooth then log ((n + 1) / (1 + d)) else log (n / d)) + (if add_baseline then 1 else 0))%Q.
