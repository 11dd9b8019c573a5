(** tft.min, tft.max and tft.sum of SparseTensor columns with reduce_instance_dims=False. *)
From Coq Require Import List ZArith Bool.
From Flocq Require Import Core BinarySingleNaN.
From Verif Require Import CombineModel NumericModel IeeeModel.
Import ListNotations.
Local Open Scope Z_scope.

(** ** NumPyCombiner for elements of any type *)

(** A numpy array: 0-dimensional, or one-dimensional.  [NumericModel.arr] is the case of integers. *)
Inductive garr (X : Type) := GSc (x : X) | GVec (l : list X).
Arguments GSc {X} _.
Arguments GVec {X} _.

Fixpoint all_gsc {X} (l : list (garr X)) : option (list X) :=
  match l with
  | [] => Some []
  | GSc x :: l' => match all_gsc l' with Some xs => Some (x :: xs) | None => None end
  | GVec _ :: _ => None
  end.
Fixpoint all_gvec {X} (n : nat) (l : list (garr X)) : option (list (list X)) :=
  match l with
  | [] => Some []
  | GVec v :: l' =>
      if Nat.eqb (length v) n
      then match all_gvec n l' with Some vs => Some (v :: vs) | None => None end
      else None
  | GSc _ :: _ => None
  end.

Section numpy.
  Context {X : Type}.
  (** [fn]: the numpy reduction.  [default]: default_accumulator_value.  [is_default]: the comparison of a
      0-dimensional array with it, analyzers.py:274-284 (np.isnan if the default is NaN). *)
  Variables (fn : list X -> X) (default : X) (is_default : X -> bool) (shapes : list oshape).

  (** [fn(list_of_arrays, axis=0)]; stacking arrays of different shapes raises (None). *)
  Definition gnp_reduce (l : list (garr X)) : option (garr X) :=
    match l with
    | [] => None
    | GSc _ :: _ => match all_gsc l with Some xs => Some (GSc (fn xs)) | None => None end
    | GVec v :: _ =>
        match all_gvec (length v) l with
        | Some vs =>
            Some (GVec (map (fun j => fn (map (fun r => nth j r default) vs)) (seq 0 (length v))))
        | None => None
        end
    end.

  (** analyzers.py:277-284: arrays with a dimension are never the default. *)
  Definition gnp_is_default (a : garr X) : bool :=
    match a with GSc x => is_default x | GVec _ => false end.

  (** analyzers.py:289-298 *)
  Definition gnp_create : list (garr X) :=
    map (fun s => match s with
                  | UnknownShape | ScalarShape => GSc default
                  | KnownShape n => GVec (repeat default n)
                  end) shapes.

  (** [self._is_default_sub_accumulator(accumulator[0])]; IndexError on an empty accumulator. *)
  Definition gnp_first (acc : list (garr X)) : option bool :=
    match acc with [] => None | a :: _ => Some (gnp_is_default a) end.

  (** analyzers.py:300-311.  None is a raised exception. *)
  Definition gnp_add_input (acc : option (list (garr X))) (batch : list (garr X))
    : option (list (garr X)) :=
    match acc with
    | None => None
    | Some acc =>
        match gnp_first acc with
        | None => None
        | Some true => Some batch
        | Some false => sequence (map (fun p => gnp_reduce [fst p; snd p]) (combine acc batch))
        end
    end.

  (** analyzers.py:313-330 *)
  Definition gnp_merge (accs : list (option (list (garr X)))) : option (list (garr X)) :=
    match sequence accs with
    | None => None
    | Some accs =>
        match sequence (map gnp_first accs) with
        | None => None
        | Some _ =>
            let non_default :=
              filter (fun acc => match gnp_first acc with Some b => negb b | None => true end) accs in
            match non_default with
            | _ :: _ => sequence (map gnp_reduce (zip_star non_default))
            | [] => Some gnp_create
            end
        end
    end.

  (** analyzers.py:250-344; the casts of extract_output (332-338) are applied by the callers below. *)
  Definition gnp_combiner
    : combiner (list (garr X)) (option (list (garr X))) (option (list (garr X))) :=
    {| create_accumulator := Some gnp_create;
       add_input := gnp_add_input;
       merge_accumulators := gnp_merge;
       extract_output := fun a => a |}.
End numpy.

Definition gmap {X Y} (f : X -> Y) (a : garr X) : garr Y :=
  match a with GSc x => GSc (f x) | GVec l => GVec (map f l) end.

(** ** Batches of a SparseTensor *)

(** A batch of a two-dimensional SparseTensor: dense_shape[1], and for each value the two indices and the
    value.  (More instance dimensions only change how the coordinates of an instance are written.) *)
Record sbatch (X : Type) := SBatch { width : nat; entries : list (nat * nat * X) }.
Arguments SBatch {X} _ _.
Arguments width {X} _.
Arguments entries {X} _.

(** The values in column [j]. *)
Definition values_at {X} (j : nat) (b : sbatch X) : list X :=
  map snd (filter (fun e => Nat.eqb (snd (fst e)) j) (entries b)).

(** tf.sparse.reduce_max / tf.sparse.reduce_sum with axis=0 (tf_utils.py:641-647,
    [_sparse_reduce_batch_keep_shape]): [zero] where a column has no values. *)
Definition sparse_reduce {X} (zero : X) (f : list X -> X) (b : sbatch X) : list X :=
  map (fun j => match values_at j b with [] => zero | l => f l end) (seq 0 (width b)).

Definition map_values {X Y} (f : X -> Y) (b : sbatch X) : sbatch Y :=
  SBatch (width b) (map (fun e => (fst e, f (snd e))) (entries b)).

(** tf_utils.py:672-684 ([reduce_batch_count], SparseTensor, reduce_instance_dims=False): the finite values
    of each column. *)
Definition sparse_count {X} (finite : X -> bool) (b : sbatch X) : list Z :=
  sparse_reduce 0 zsum (map_values (fun x => if finite x then 1 else 0) b).

(** tf.where(tf.equal(x_count, 0), missing_value, x) *)
Definition where_missing {X} (missing : X) (counts : list Z) (l : list X) : list X :=
  map (fun p => if fst p =? 0 then missing else snd p) (combine counts l).

(** tf_utils.py:1928-1968 ([_sparse_minus_reduce_min_and_reduce_max]) *)
Definition sparse_minus_min_and_max {X} (zero missing : X) (finite : X -> bool) (neg : X -> X)
  (max : list X -> X) (b : sbatch X) : list (garr X) :=
  let counts := sparse_count finite b in
  [GVec (where_missing missing counts (sparse_reduce zero max (map_values neg b)));
   GVec (where_missing missing counts (sparse_reduce zero max b))].

(** ** Integer columns *)

(** tf_utils.py:1921-1925 ([_get_missing_value], integers): dtype.min + 1. *)
Definition missing_int (w : int_dtype) : Z := dmin w + 1.

(** analyzers.py:504-562 ([_min_and_max], SparseTensor of integers, reduce_instance_dims=False): np.max
    with default -dtype.max; then the casts of 332-338 and 562.  [shape] is the statically known shape of an
    instance.  None is a raised exception. *)
Definition sparse_min_and_max (d : int_dtype) (shape : oshape) (s : sched (sched (sbatch Z)))
  : option (garr Z * garr Z) :=
  match minmax_work_dtype d with
  | None => None
  | Some w =>
      match analyze (gnp_combiner list_max (- dmax d) (Z.eqb (- dmax d)) [shape; shape])
              (map_sched (map_sched (sparse_minus_min_and_max 0 (missing_int w) (fun _ => true)
                                       (fun x => wrap w (0 - x)) list_max)) s) with
      | Some [minus_min; mx] =>
          Some (gmap (fun m => wrap d (wrap w (0 - wrap w m))) minus_min,
                gmap (fun m => wrap d (wrap w m)) mx)
      | _ => None
      end
  end.

(** ** tf.float32 columns *)

(** np.nanmax of two values: NaN only if both are. *)
Definition nanmax32 (x y : f32) : f32 :=
  if is_nan x then y else if is_nan y then x else if Bleb x y then y else x.

(** np.nanmax(..., axis=0): NaN (and a warning) if all are NaN. *)
Definition reduce_nanmax32 (l : list f32) : f32 := fold_left nanmax32 l nan32.

(** analyzers.py:504-562 ([_min_and_max], SparseTensor of tf.float32, reduce_instance_dims=False): np.nanmax
    with default NaN. *)
Definition sparse_min_and_max32 (shape : oshape) (s : sched (sched (sbatch f32)))
  : option (garr f32 * garr f32) :=
  match analyze (gnp_combiner reduce_nanmax32 nan32 is_nan [shape; shape])
          (map_sched (map_sched (sparse_minus_min_and_max zero32 nan32 is_finite (sub32 zero32)
                                   reduce_max32)) s) with
  | Some [minus_min; mx] => Some (gmap (sub32 zero32) minus_min, mx)
  | _ => None
  end.

(** ** Sums of integer columns *)

(** analyzers.py:706-711: the dtype in which a batch is summed; tf.uint32 and tf.uint64 raise. *)
Definition sparse_sum_dtype (d : int_dtype) : option int_dtype :=
  match d with
  | UInt8 | UInt16 => Some Int64
  | UInt32 | UInt64 => None
  | _ => Some d
  end.

(** analyzers.py:672-722 ([sum], SparseTensor, reduce_instance_dims=False).  The result of
    tf.sparse.reduce_sum has no static shape. *)
Definition sparse_sum (d : int_dtype) (s : sched (sched (sbatch Z))) : option (garr Z) :=
  match sparse_sum_dtype d with
  | None => None
  | Some r =>
      let o := sum_output_dtype r in
      match analyze (gnp_combiner (np_sum o) 0 (Z.eqb 0) [UnknownShape])
              (map_sched (map_sched (fun b => [GVec (sparse_reduce 0 (fun l => wrap r (zsum l)) b)])) s)
      with
      | Some [total] => Some (gmap (wrap o) total)
      | _ => None
      end
  end.
