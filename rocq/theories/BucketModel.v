(** tft.apply_buckets, tft.bucketize_per_key and tft.apply_buckets_with_interpolation. *)
From Coq Require Import String List ZArith QArith Qround Bool.
From Verif Require Import NumericModel FloatModel PerKeyModel.
Import ListNotations.
Open Scope Q_scope.

(** ** Assigning buckets *)

(** The numeric dtypes of values and boundaries. *)
Inductive num_dtype := Float16 | Float32 | Float64 | IntT (d : int_dtype).

Definition is_int (t : num_dtype) : bool := match t with IntT _ => true | _ => false end.

(** tf.DType.max *)
Definition num_max (t : num_dtype) : Q :=
  match t with
  | Float16 => 65504
  | Float32 => inject_Z (2 ^ 128 - 2 ^ 104)
  | Float64 => float64_max
  | IntT d => inject_Z (dmax d)
  end.

(** Rounding towards zero. *)
Definition qtrunc (q : Q) : Z := if Qle_bool 0 q then Qfloor q else Qceiling q.

(** tf.cast: casts to floating point do not round here; casts between integer dtypes wrap around; casts
    from floating point to an integer truncate (a value outside of the range of the dtype, or not finite,
    gives the lowest integer, as on x86). *)
Definition num_cast (from to : num_dtype) (x : fl) : fl :=
  match to with
  | IntT d =>
      match x, from with
      | Fin q, IntT _ => Fin (inject_Z (wrap d (Qfloor q)))
      | Fin q, _ =>
          if ((dmin d <=? qtrunc q) && (qtrunc q <=? dmax d))%Z then Fin (inject_Z (qtrunc q)) else Fin (inject_Z (dmin d))
      | _, _ => Fin (inject_Z (dmin d))
      end
  | _ => x
  end.

(** tf.searchsorted(side='right'): the index of the first boundary above the value; NaN is below
    nothing. *)
Fixpoint searchsorted_right (b : list fl) (x : fl) : nat :=
  match b with
  | [] => 0
  | h :: t => if fltb x h then 0 else S (searchsorted_right t x)
  end.
(** tf.searchsorted(side='left'): the index of the first boundary that is not below the value. *)
Fixpoint searchsorted_left (b : list fl) (x : fl) : nat :=
  match b with
  | [] => 0
  | h :: t => if fltb h x then S (searchsorted_left t x) else 0
  end.

Inductive side := LEFT | RIGHT.

(** tf_utils.py:827-870 ([assign_buckets]) for one value [x] of dtype [dx] and boundaries of dtype
    [db]. *)
Definition assign_buckets (dx db : num_dtype) (b : list fl) (sd : side) (x : fl) : nat :=
  let widen_b := negb (Qle_bool (num_max dx) (num_max db)) in
  let b := if widen_b then map (num_cast db dx) b else b in
  let x := if widen_b then x else num_cast dx db x in
  match sd with
  | LEFT => searchsorted_left (removelast b) x
  | RIGHT => searchsorted_right b x
  end.

(** mappers.py:2300-2354 ([apply_buckets]): the bucket, and the (min, max) of the schema override. *)
Definition apply_buckets (dx db : num_dtype) (b : list fl) (x : fl) : nat * (nat * nat) :=
  (assign_buckets dx db b RIGHT x, (0%nat, List.length b)).

(** ** Boundaries per key *)

Definition micro : Q := 1 # 1000000.

(** np.diff *)
Fixpoint np_diff (l : list Q) : list Q :=
  match l with
  | a :: (b :: _) as t => (b - a) :: np_diff t
  | _ => []
  end.
(** np.cumsum starting at [acc] (not included) *)
Fixpoint np_cumsum (acc : Q) (l : list Q) : list Q :=
  match l with [] => [] | d :: t => (acc + d) :: np_cumsum (acc + d) t end.

Definition qmax (a b : Q) : Q := if Qle_bool a b then b else a.
Definition qmin (a b : Q) : Q := if Qle_bool a b then a else b.

(** beam/analyzer_impls.py:1174-1202 ([_make_strictly_increasing_boundaries_rows]), one row;
    boundary_matrix[:, -1] raises on empty rows (None). *)
Definition strict_row (row : list Q) : option (list Q) :=
  match row with
  | [] => None
  | first :: _ =>
      let e := micro * (last row 0 - first) in
      let epsilon := if Qle_bool e 0 then micro else e in
      Some (first :: np_cumsum first (map (fun d => qmax d epsilon) (np_diff row)))
  end.

Fixpoint seq_opt {X} (l : list (option X)) : option (list X) :=
  match l with
  | [] => Some []
  | o :: t => match o, seq_opt t with Some x, Some xs => Some (x :: xs) | _, _ => None end
  end.

Definition row_min (row : list Q) : Q := match row with [] => 0 | a :: t => fold_left qmin t a end.
Definition row_max (row : list Q) : Q := match row with [] => 0 | a :: t => fold_left qmax t a end.

(** The scale and shift of the row of key number [i] (1237-1251). *)
Definition row_scale (row : list Q) : Q :=
  let diff := row_max row - row_min row in if Qeq_bool diff 0 then 1 else 1 / diff.
Definition row_shift (i : nat) (row : list Q) : Q :=
  inject_Z (Z.of_nat i) - row_min row * row_scale row.

(** boundary_matrix[:, 1:] * scale + shift, flattened (1253-1256); [i] is the index of the first row. *)
Fixpoint scaled_rows (i : nat) (m : list (list Q)) : list Q :=
  match m with
  | [] => []
  | row :: rest => map (fun b => b * row_scale row + row_shift i row) (tl row) ++ scaled_rows (S i) rest
  end.

(** beam/analyzer_impls.py:1205-1258 ([_join_boundary_rows]) on a matrix with [width] columns:
    (boundaries, scale, shift, num_buckets).  None: an exception. *)
Record joined := Joined { j_boundaries : list Q; j_scale : list Q; j_shift : list Q; j_num_buckets : nat }.
Fixpoint shifts (i : nat) (m : list (list Q)) : list Q :=
  match m with [] => [] | row :: rest => row_shift i row :: shifts (S i) rest end.
Definition join_boundary_rows (width : nat) (matrix : list (list Q)) : option joined :=
  match width, seq_opt (map strict_row matrix) with
  | O, _ | _, None => None
  | _, Some m =>
      Some (Joined (0 :: scaled_rows 0 m) (map row_scale m) (shifts 0 m) (width + 1))
  end.

(** mappers.py:2079-2152 ([_apply_buckets_with_keys]): one value; result and the schema range that is
    written for the feature (2144-2148).  None: gather of a missing index. *)
Definition apply_buckets_with_keys (vocab : list string) (j : joined) (k : string) (x : Q) : option (Z * (Z * Z)) :=
  let key_index := lookup_key k vocab in
  let adjusted := if (key_index <? 0)%Z then 0%Z else key_index in
  match nth_error (j_scale j) (Z.to_nat adjusted), nth_error (j_shift j) (Z.to_nat adjusted) with
  | Some scale, Some shift =>
      let transformed := x * scale + shift in
      let offset := Z.of_nat (assign_buckets Float32 Float32 (map Fin (j_boundaries j)) RIGHT (Fin transformed)) in
      let max_bucket := (Z.of_nat (j_num_buckets j) - 1)%Z in
      let corrected := (offset - (max_bucket - 1) * adjusted)%Z in
      let bucket := Z.max 0 (Z.min corrected max_bucket) in
      Some (if (key_index <? 0)%Z then key_index else bucket, (0%Z, max_bucket))
  | _, _ => None
  end.

(** mappers.py:1980-2054 ([bucketize_per_key]) given the key vocabulary and the matrix of quantile
    boundaries of the keys (num_buckets - 1 columns). *)
Definition bucketize_per_key (num_buckets : nat) (vocab : list string) (matrix : list (list Q)) (k : string) (x : Q)
  : option (Z * (Z * Z)) :=
  if (num_buckets <? 1)%nat then None
  else match join_boundary_rows (num_buckets - 1) matrix with
       | None => None
       | Some j => apply_buckets_with_keys vocab j k x
       end.

(** ** Interpolation *)

(** mappers.py:2156-2296 ([apply_buckets_with_interpolation]) on one value; the dtypes of [x] and of the
    boundaries are such that [assign_buckets] does not truncate.  None: a failed assertion. *)
Definition interpolate (boundaries : list fl) (x : fl) : option fl :=
  let b := filter is_finite boundaries in
  match b with
  | [] => None
  | b0 :: _ =>
      let n := List.length b in
      let i := searchsorted_right b x in
      let bucket_max := nth i (b ++ [last b NaN]) NaN in
      let bucket_min := nth i (b0 :: b) NaN in
      let width := fsub bucket_max bucket_min in
      let interpolation_value := fdiv (fsub x bucket_min) width in
      let bucket_interpolation :=
        if (i =? 0)%nat || (i =? n)%nat then Fin 0
        else if feqb width (Fin 0) then Fin (1 # 2)
        else interpolation_value in
      if negb (is_finite bucket_interpolation) then None
      else
        let position := fadd (Fin (inject_Z (Z.max (Z.of_nat i - 1) 0))) bucket_interpolation in
        let normalized := fdiv position (Fin (inject_Z (Z.max (Z.of_nat n - 1) 1))) in
        let normalized := match x with NaN => Fin (1 # 2) | _ => normalized end in
        Some (if (n =? 1)%nat then (if (i =? 0)%nat then Fin 0 else Fin 1) else normalized)
  end.
