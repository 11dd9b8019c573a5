(** What C59 is about: directions, the variance of rows along a direction, and the
    contract of an eigenvalue decomposition. *)
From Coq Require Import List Reals Permutation Sorted.
Import ListNotations.
Local Open Scope R_scope.

Definition sum_of (l : list R) : R := fold_right Rplus 0 l.

(** The sum of f 0, ..., f (n - 1). *)
Definition sum_to (n : nat) (f : nat -> R) : R := sum_of (map f (seq 0 n)).

(** Inner product of vectors with n entries. *)
Definition dot (n : nat) (u v : list R) : R := sum_to n (fun i => nth i u 0 * nth i v 0).

(** Vectors of length 1 at right angles. *)
Definition orthonormal (n : nat) (us : list (list R)) : Prop :=
  forall a b, (a < length us)%nat -> (b < length us)%nat ->
  dot n (nth a us []) (nth b us []) = if (a =? b)%nat then 1 else 0.

(** Column [j] of a matrix that is given by its rows. *)
Definition column (j : nat) (m : list (list R)) : list R := map (fun row => nth j row 0) m.
Definition columns (k : nat) (m : list (list R)) : list (list R) :=
  map (fun j => column j m) (seq 0 k).

Definition has_shape (n k : nat) (m : list (list R)) : Prop :=
  length m = n /\ Forall (fun row => length row = k) m.

(** Mean, and population covariance of two functions of the rows. *)
Definition average (l : list R) : R := sum_of l / INR (length l).
Definition covariance_of (rows : list (list R)) (f g : list R -> R) : R :=
  average (map (fun r => (f r - average (map f rows)) * (g r - average (map g rows))) rows).

(** The variance of the rows along a direction, and in all, along several. *)
Definition variance_along (n : nat) (rows : list (list R)) (u : list R) : R :=
  covariance_of rows (dot n u) (dot n u).
Definition variance_retained (n : nat) (rows : list (list R)) (us : list (list R)) : R :=
  sum_of (map (variance_along n rows) us).

(** The covariance matrix of the n columns. *)
Definition covariance_matrix (n : nat) (rows : list (list R)) : list (list R) :=
  map (fun i => map (fun j => covariance_of rows (fun r => nth i r 0) (fun r => nth j r 0)) (seq 0 n))
      (seq 0 n).

(** An eigenvalue decomposition of a matrix: eigenvalues, and an orthogonal matrix of
    which the columns are eigenvectors. *)
Definition decomposition (n : nat) (m : list (list R)) (vals : list R) (vecs : list (list R)) : Prop :=
  length vals = n /\ has_shape n n vecs
  /\ orthonormal n (columns n vecs) /\ orthonormal n vecs
  /\ forall i j, (i < n)%nat -> (j < n)%nat ->
     dot n (nth i m []) (column j vecs) = nth j vals 0 * nth i (column j vecs) 0.

(** Positions in the order of the values. *)
Definition sorts (vals : list R) (idx : list nat) : Prop :=
  Permutation idx (seq 0 (length vals)) /\ StronglySorted (fun a b => nth a vals 0 <= nth b vals 0) idx.

(** What is assumed of `np.linalg.eigh` and `np.argsort`, for the covariance matrix of the
    rows: an eigenvalue decomposition, and an order of the eigenvalues. *)
Definition numpy_right (eigh : list (list R) -> list R * list (list R)) (argsort : list R -> list nat)
    (n : nat) (rows : list (list R)) : Prop :=
  let (vals, vecs) := eigh (covariance_matrix n rows) in
  decomposition n (covariance_matrix n rows) vals vecs /\ sorts vals (argsort vals).
