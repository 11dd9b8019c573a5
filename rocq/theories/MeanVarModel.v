(** tft.mean, tft.var, their per-key versions, and the covariance combiner. *)
From Coq Require Import String List ZArith QArith Qround Bool.
From Verif Require Import CombineModel NumericModel FloatModel.
Import ListNotations.
Open Scope Z_scope.

(** ** Accumulators *)

(** One coordinate of a _WeightedMeanAndVarAccumulator (analyzers.py:1251-1277) with
    compute_weighted=False: element count, mean, variance.  The [weight] entry is a constant in
    that mode and is left out.  An accumulator is the list of its coordinates: one for
    reduce_instance_dims=True, one per column otherwise.  (In the code these are three arrays of
    the same shape; the initial count is a 0-dimensional zero that numpy broadcasts, which is the
    same as a zero per column.) *)
Record mv := MV { mv_count : Z; mv_mean : fl; mv_var : fl }.
Definition mv_zero : mv := MV 0 (Fin 0) (Fin 0).

(** analyzers.py:1258-1277 ([make_nan_to_num], compute_variance=True) *)
Definition mv_nan_to_num (a : mv) : mv := MV (mv_count a) (nan_to_num (mv_mean a)) (nan_to_num (mv_var a)).

Definition sum_counts (a : list mv) : Z := fold_right Z.add 0 (map mv_count a).

Definition count_fl (z : Z) : fl := Fin (inject_Z z).

(** analyzers.py:1447-1479, one coordinate; compute_variance=True, compute_weighted=False. *)
Definition mv_combine_col (a b : mv) : mv :=
  let total := mv_count a + mv_count b in
  let ratio := fdiv (count_fl (mv_count b)) (count_fl total) in
  let mean := fadd (mv_mean a) (fmul ratio (fsub (mv_mean b) (mv_mean a))) in
  let var := fadd (mv_var a)
               (fmul ratio (fadd (fsub (mv_var b) (mv_var a))
                                 (fmul (fsub (mv_mean b) mean) (fsub (mv_mean b) (mv_mean a))))) in
  MV total mean var.

(** analyzers.py:1483-1517 ([_pad_arrays_to_match]), one dimension: the shorter array is padded with
    zeros. *)
Definition mv_pad (n : nat) (a : list mv) : list mv := a ++ repeat mv_zero (n - List.length a).

(** analyzers.py:1417-1479 ([_combine_mean_and_var_accumulators]). *)
Definition mv_combine (a b : list mv) : list mv :=
  let a := map mv_nan_to_num a in
  let b := map mv_nan_to_num b in
  let (a, b) := if sum_counts a <? sum_counts b then (b, a) else (a, b) in
  if sum_counts a =? 0 then b
  else
    let n := Nat.max (List.length a) (List.length b) in
    map (fun p => mv_combine_col (fst p) (snd p)) (combine (mv_pad n a) (mv_pad n b)).

(** analyzers.py:1319-1331 ([create_accumulator]): zeros of the known output shape ([n]
    coordinates; 0 for an unknown dimension). *)
Definition mv_create (n : nat) : list mv := repeat mv_zero n.

(** analyzers.py:1352-1367 ([merge_accumulators]).  Never called with an empty list by Beam
    (next() would raise). *)
Definition mv_merge (accs : list (list mv)) : list mv :=
  match accs with [] => [] | a :: rest => fold_left mv_combine rest a end.

(** analyzers.py:1369-1394 ([extract_output]); the cast to the output dtype is the identity here. *)
Definition mv_extract (a : list mv) : list (fl * fl) := map (fun c => (mv_mean c, mv_var c)) a.

(** analyzers.py:1280-1394 *)
Definition mv_combiner (n : nat) : combiner (list mv) (list mv) (list (fl * fl)) :=
  {| create_accumulator := mv_create n;
     add_input := mv_combine;
     merge_accumulators := mv_merge;
     extract_output := mv_extract |}.

(** ** Reductions of a batch *)

(** tf.where(is_finite(x), x, 0) *)
Definition zero_nonfinite (x : fl) : fl := if is_finite x then x else Fin 0.

(** tf_utils.py:650-700 ([reduce_batch_count]) on floating point values. *)
Definition batch_count (xs : list fl) : Z := Z.of_nat (List.length (filter is_finite xs)).

(** tf_utils.py:1118-1132 ([_reduce_batch_count_mean_and_var_dense]), one coordinate. *)
Definition batch_dense_col (xs : list fl) : mv :=
  let count := batch_count xs in
  let sum := fsum (map zero_nonfinite xs) in
  let mean := divide_no_nan sum (count_fl count) in
  let minus_mean := map (fun x => if is_finite x then fsub x mean else Fin 0) xs in
  let var := divide_no_nan (fsum (map (fun x => fmul x x) minus_mean)) (count_fl count) in
  MV count mean var.

(** tf_utils.py:1070-1092 ([_reduce_batch_count_mean_and_var_sparse]), one coordinate; [xs] are the
    values present in that column of the sparse batch. *)
Definition batch_sparse_col (xs : list fl) : mv :=
  let count := batch_count xs in
  let finite_x := map zero_nonfinite xs in
  let mean := divide_no_nan (fsum finite_x) (count_fl count) in
  let minus_mean := map (fun x => fsub x mean) finite_x in
  let var := divide_no_nan (fsum (map (fun x => fmul x x) minus_mean)) (count_fl count) in
  MV count mean var.

(** tf_utils.py:1135-1165 and analyzers.py:959-999 ([_mean_and_var]) for a floating point column
    with reduce_instance_dims=True: a batch is the list of all its values (the values of a sparse
    tensor, the flat values of a ragged one).  The result is (mean, var). *)
Definition mean_and_var (s : sched (sched (list fl))) : list (fl * fl) :=
  analyze (mv_combiner 1) (map_sched (map_sched (fun xs => [batch_dense_col xs])) s).

(** The same with reduce_instance_dims=False: a batch is given by its columns; [n] is the number of
    columns if it is statically known, else 0. *)
Definition mean_and_var_elementwise (n : nat) (s : sched (sched (list (list fl)))) : list (fl * fl) :=
  analyze (mv_combiner n) (map_sched (map_sched (map batch_dense_col)) s).
Definition mean_and_var_elementwise_sparse (n : nat) (s : sched (sched (list (list fl)))) : list (fl * fl) :=
  analyze (mv_combiner n) (map_sched (map_sched (map batch_sparse_col)) s).

(** ** Per key *)

(** tf.unique: the distinct keys in order of first appearance. *)
Fixpoint tf_unique (seen : list string) (ks : list string) : list string :=
  match ks with
  | [] => []
  | k :: ks' => if existsb (String.eqb k) seen then tf_unique seen ks' else k :: tf_unique (k :: seen) ks'
  end.

(** tf_utils.py:1778-1804, the entry of key [k] when the values with that key (all of them, or those of
    one column) are [xs]: segment sums, with the variance as E[x^2] - mean^2. *)
Definition batch_key_col (xs : list fl) : mv :=
  let count := batch_count xs in
  let finite_x := map zero_nonfinite xs in
  let mean := divide_no_nan (fsum finite_x) (count_fl count) in
  let sum_sqs := fsum (map (fun x => fmul x x) finite_x) in
  MV count mean (fsub (divide_no_nan sum_sqs (count_fl count)) (fmul mean mean)).

(** The values of the rows with key [k] in a batch of (key, value) pairs. *)
Definition values_of {V} (k : string) (b : list (string * V)) : list V :=
  map snd (filter (fun p => String.eqb k (fst p)) b).

(** The common structure of the per-key batch reductions of tf_utils.py: a row per distinct key, reducing
    the values of the rows with that key (tf.unique_with_counts followed by unsorted segment
    reductions). *)
Definition reduce_per_key {V A} (g : list V -> A) (b : list (string * V)) : list (string * A) :=
  map (fun k => (k, g (values_of k b))) (tf_unique [] (map fst b)).

(** tf_utils.py:1745-1804 ([reduce_batch_count_mean_and_var_per_key], reduce_instance_dims=True,
    flattened values). *)
Definition batch_per_key : list (string * fl) -> list (string * list mv) :=
  reduce_per_key (fun xs => [batch_key_col xs]).

(** beam/analyzer_impls.py:1067-1116 ([_split_inputs_by_key]) followed by grouping: what
    CombinePerKey receives for key [k], in some order. *)
Definition inputs_of_key {A} (k : string) (reduced : list (list (string * A))) : list A :=
  map snd (filter (fun p => String.eqb k (fst p)) (concat reduced)).

(** ** Covariance *)

(** Vectors and matrices are lists of rationals of known length / rows. *)
Definition qsum (l : list Q) : Q := fold_right Qplus 0%Q l.
Definition qcol (j : nat) (rows : list (list Q)) : list Q := map (fun r => nth j r 0%Q) rows.

(** Accumulator: sum of products (entry i, j), sums, number of rows (analyzers.py:2661-2667). *)
Record cov := Cov { cov_prod : list (list Q); cov_sum : list Q; cov_count : Q }.

Section covariance.
  Variable n : nat.
  (** How the inner products of np.matmul are represented in the dtype of the input: the identity for
      floating point columns, reduction to the dtype for integer columns (see [covariance_int]). *)
  Variable represent : Q -> Q.

  Definition cov_create : cov := Cov (repeat (repeat 0%Q n) n) (repeat 0%Q n) 0%Q.

  Definition mat_of (f : nat -> nat -> Q) : list (list Q) :=
    map (fun i => map (fun j => f i j) (seq 0 n)) (seq 0 n).
  Definition vec_of (f : nat -> Q) : list Q := map f (seq 0 n).
  Definition mat_nth (m : list (list Q)) (i j : nat) : Q := nth j (nth i m []) 0%Q.

  (** analyzers.py:2669-2709 ([add_input]); batch: the rows of a rank 2 tensor of width [n].
      np.matmul(transpose(b), b)[i][j] = sum over rows of r[i]*r[j]. *)
  Definition cov_add (a : cov) (batch : list (list Q)) : cov :=
    Cov (mat_of (fun i j => mat_nth (cov_prod a) i j
                            + represent (qsum (map (fun r => nth i r 0 * nth j r 0) batch))))%Q
        (vec_of (fun i => nth i (cov_sum a) 0 + qsum (qcol i batch)))%Q
        (cov_count a + inject_Z (Z.of_nat (List.length batch)))%Q.

  (** analyzers.py:2711-2718 ([merge_accumulators]) *)
  Definition cov_merge (accs : list cov) : cov :=
    Cov (mat_of (fun i j => qsum (map (fun a => mat_nth (cov_prod a) i j) accs)))
        (vec_of (fun i => qsum (map (fun a => nth i (cov_sum a) 0%Q) accs)))
        (qsum (map cov_count accs)).

  (** analyzers.py:2720-2749 ([extract_output]) *)
  Definition cov_extract (a : cov) : list (list Q) :=
    if Qeq_bool (cov_count a) 0 then mat_of (fun _ _ => 0%Q)
    else mat_of (fun i j => mat_nth (cov_prod a) i j / cov_count a
                            - (nth i (cov_sum a) 0 / cov_count a) * (nth j (cov_sum a) 0 / cov_count a))%Q.

  Definition cov_combiner : combiner (list (list Q)) cov (list (list Q)) :=
    {| create_accumulator := cov_create;
       add_input := cov_add;
       merge_accumulators := cov_merge;
       extract_output := cov_extract |}.

  (** analyzers.py:2764-2799 ([covariance]) *)
  Definition covariance_with (s : sched (sched (list (list Q)))) : list (list Q) := analyze cov_combiner s.
End covariance.

Definition covariance (n : nat) := covariance_with n (fun q => q).

(** Integer columns of dtype [d]: np.matmul of integer arrays computes in that dtype (the cast to the
    output dtype, 2696-2698, comes afterwards). *)
Definition covariance_int (d : int_dtype) (n : nat) := covariance_with n (fun q => inject_Z (wrap d (Qfloor q))).
