(** Specification of sparse batches: the rows they stand for. *)
From Coq Require Import String List ZArith QArith.
From Verif Require Import SparseModel.
Import ListNotations.
Open Scope Z_scope.
Open Scope list_scope.
Local Notation length := List.length.

(** The values with row index r, in the order of the tensor. *)
Definition row {A} (t : sparse A) (r : nat) : list A :=
  map snd (filter (fun e => fst (fst e) =? Z.of_nat r) (combine (indices t) (values t))).
Definition rows {A} (t : sparse A) : list (list A) := map (row t) (seq 0 (Z.to_nat (fst (dense_shape t)))).

(** A tensor whose entries lie in its shape. *)
Definition in_shape {A} (t : sparse A) : Prop :=
  length (indices t) = length (values t) /\
  Forall (fun i => 0 <= fst i < fst (dense_shape t) /\ 0 <= snd i < snd (dense_shape t)) (indices t) /\
  0 <= fst (dense_shape t).

(** Row-major order, as TensorFlow requires of its sparse inputs; only the rows matter here. *)
Definition row_major {A} (t : sparse A) : Prop :=
  forall i j a b, (i < j)%nat -> nth_error (indices t) i = Some a -> nth_error (indices t) j = Some b -> fst a <= fst b.

(** The left-aligned tensor with the given rows. *)
Definition aligned_indices {A} (rs : list (list A)) : list (Z * Z) :=
  List.concat (map (fun '(r, vs) => map (fun c => (Z.of_nat r, Z.of_nat c)) (seq 0 (length vs)))
                   (combine (seq 0 (length rs)) rs)).
Definition tensor_of_rows {A} (rs : list (list A)) : sparse A :=
  Sparse (aligned_indices rs) (List.concat rs)
         (Z.of_nat (length rs), Z.of_nat (fold_right Nat.max 0%nat (map (@length A) rs))).

(** All windows of n0 to n1 tokens of one row: by start, then by length. *)
Definition windows (n0 n1 : nat) (sep : string) (tokens : list string) : list string :=
  flat_map (fun start =>
    flat_map (fun len => if (start + len <=? length tokens)%nat then [String.concat sep (firstn len (skipn start tokens))] else [])
             (seq n0 (n1 + 1 - n0)))
  (seq 0 (length tokens)).

(** [out] lists the distinct elements of [l] in the order of their first occurrences: the elements of every
    prefix of [l] are the elements of a prefix of [out]. *)
Definition first_occurrences {A} (l out : list A) : Prop :=
  NoDup out /\ (forall x, In x out <-> In x l) /\
  (forall k, exists m, forall x, In x (firstn m out) <-> In x (firstn k l)).

(** The values of a row in the order of their columns. *)
Definition row_by_column {A} (t : sparse A) (r : nat) : list A :=
  flat_map (fun c => map snd (filter (fun e => (fst (fst e) =? Z.of_nat r) && (snd (fst e) =? Z.of_nat c))
                                     (combine (indices t) (values t))))
           (seq 0 (Z.to_nat (snd (dense_shape t)))).

(** tf-idf of one document (a list of terms): its terms in increasing order with their weights. *)
Definition occurrences (term : Z) (doc : list Z) : nat := length (filter (Z.eqb term) doc).
Definition documents_with (term : Z) (docs : list (list Z)) : nat :=
  length (filter (fun d => negb (occurrences term d =? 0)%nat) docs).
Definition terms_of (vocab_size : Z) (doc : list Z) : list Z :=
  filter (fun term => negb (occurrences term doc =? 0)%nat) (map Z.of_nat (seq 0 (Z.to_nat vocab_size))).
Definition term_frequency_of (doc : list Z) (term : Z) : Q :=
  (inject_Z (Z.of_nat (occurrences term doc)) / inject_Z (Z.of_nat (length doc)))%Q.
Definition idf_of (log : Q -> Q) (smooth : bool) (docs : list (list Z)) (term : Z) : Q :=
  let n := inject_Z (Z.of_nat (length docs)) in
  let df := inject_Z (Z.of_nat (documents_with term docs)) in
  if smooth then (log ((n + 1) / (1 + df)) + 1)%Q else (log (n / df) + 1)%Q.
(** The documents of a batch: its rows with the ids brought into the range of the vocabulary. *)
Definition documents (vocab_size : Z) (t : sparse Z) : list (list Z) := map (map (fun v => v mod vocab_size)) (rows t).
Definition q_sum (l : list Q) : Q := fold_right Qplus 0%Q l.
(** Element (r, c) of a dense matrix; an unknown size of the requested shape is that of the tensor. *)
Definition dense_at {A} (m : list (list A)) (r c : Z) : option A :=
  match nth_error m (Z.to_nat r) with Some l => nth_error l (Z.to_nat c) | None => None end.
Definition size_or {A} (s : option A) (d : A) : A := match s with Some x => x | None => d end.
