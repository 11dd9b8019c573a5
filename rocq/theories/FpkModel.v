(** tft.bucketize_per_key in IEEE 754 arithmetic.

    [BucketModel] computes with exact numbers.  The quantile boundaries of the keys are a float32 array, and so
    is everything computed from them; here every operation is the correctly rounded one on binary32. *)
From Coq Require Import String List ZArith Bool Arith.
From Flocq Require Import Core BinarySingleNaN.
From Verif Require Import PerKeyModel IeeeModel.
Import ListNotations.
Local Open Scope Z_scope.

(** 1e-6, which NumPy converts to the dtype of the array it is multiplied with or stored in. *)
Definition micro32 : f32 := binary_normalize 24 128 prec32 emax32 mode_NE 8796093 (-43) false.
Definition one32 : f32 := @Bone 24 128 prec32 emax32.

(** np.minimum: NaN if one argument is NaN. *)
Definition min32 (x y : f32) : f32 :=
  if is_nan x || is_nan y then nan32 else if Bleb x y then x else y.

(** np.diff *)
Fixpoint diff32 (l : list f32) : list f32 :=
  match l with
  | a :: (b :: _) as t => sub32 b a :: diff32 t
  | _ => []
  end.

(** np.cumsum: the first element, and then each sum with the next one. *)
Fixpoint cumsum_from (acc : f32) (l : list f32) : list f32 :=
  match l with [] => [] | d :: t => let c := add32 acc d in c :: cumsum_from c t end.
Definition cumsum32 (l : list f32) : list f32 :=
  match l with [] => [] | d :: t => d :: cumsum_from d t end.

(** beam/analyzer_impls.py:1174-1202 ([_make_strictly_increasing_boundaries_rows]), one row;
    boundary_matrix[:, -1] raises on empty rows (None). *)
Definition strict_row32 (row : list f32) : option (list f32) :=
  match row with
  | [] => None
  | first :: _ =>
      let e := mul32 micro32 (sub32 (last row nan32) first) in
      let epsilon := if Bleb e zero32 then micro32 else e in
      Some (first :: map (fun c => add32 c first) (cumsum32 (map (fun d => max32 d epsilon) (diff32 row))))
  end.

Fixpoint all_rows (l : list (option (list f32))) : option (list (list f32)) :=
  match l with
  | [] => Some []
  | o :: t => match o, all_rows t with Some x, Some xs => Some (x :: xs) | _, _ => None end
  end.

(** np.min and np.max of a row. *)
Definition row_min32 (row : list f32) : f32 := match row with [] => nan32 | a :: t => fold_left min32 t a end.
Definition row_max32 (row : list f32) : f32 := match row with [] => nan32 | a :: t => fold_left max32 t a end.

(** The scale and shift of the row of key number [i] (beam/analyzer_impls.py:1233-1251). *)
Definition row_scale32 (row : list f32) : f32 :=
  let diff := sub32 (row_max32 row) (row_min32 row) in
  if Beqb diff zero32 then one32 else div32 one32 diff.
Definition row_shift32 (i : nat) (row : list f32) : f32 :=
  sub32 (cast_int (Z.of_nat i)) (mul32 (row_min32 row) (row_scale32 row)).

(** x * scale + shift, on boundaries (1253-1255) and on values (mappers.py:2126). *)
Definition place32 (scale shift x : f32) : f32 := add32 (mul32 x scale) shift.

(** beam/analyzer_impls.py:1253-1256: the rows without their first boundary, scaled, shifted and flattened. *)
Fixpoint scaled_rows32 (i : nat) (m : list (list f32)) : list f32 :=
  match m with
  | [] => []
  | row :: rest => map (place32 (row_scale32 row) (row_shift32 i row)) (tl row) ++ scaled_rows32 (S i) rest
  end.
Fixpoint shifts32 (i : nat) (m : list (list f32)) : list f32 :=
  match m with [] => [] | row :: rest => row_shift32 i row :: shifts32 (S i) rest end.

(** beam/analyzer_impls.py:1205-1258 ([_join_boundary_rows]) on a matrix with [width] columns:
    (boundaries, scale, shift, num_buckets).  None: an exception. *)
Record joined32 := Joined32 { j_boundaries32 : list f32; j_scale32 : list f32; j_shift32 : list f32; j_num_buckets32 : nat }.
Definition join_boundary_rows32 (width : nat) (matrix : list (list f32)) : option joined32 :=
  match width, all_rows (map strict_row32 matrix) with
  | O, _ | _, None => None
  | _, Some m =>
      Some (Joined32 (zero32 :: scaled_rows32 0 m) (map row_scale32 m) (shifts32 0 m) (width + 1))
  end.

(** tf.searchsorted(side='right') on tf.float32: std::upper_bound, a binary search, which does not look at all
    boundaries and assumes that they are sorted; rounding may put them out of order.  The loop of the C++
    library: [first] is the current position, [count] the number of boundaries still in question. *)
Fixpoint upper_bound_loop (fuel : nat) (b : list f32) (v : f32) (first count : nat) : nat :=
  match fuel with
  | O => first
  | S fuel' =>
      if (count =? 0)%nat then first
      else
        let step := (count / 2)%nat in
        let it := (first + step)%nat in
        if Bltb v (nth it b nan32) then upper_bound_loop fuel' b v first step
        else upper_bound_loop fuel' b v (S it) (count - S step)
  end.
Definition upper_bound32 (b : list f32) (v : f32) : nat := upper_bound_loop (S (List.length b)) b v 0 (List.length b).

(** mappers.py:2079-2152 ([_apply_buckets_with_keys]): one value; tf_utils.assign_buckets (tf_utils.py:827-870)
    with values and boundaries of the same dtype.  None: gather of a missing index. *)
Definition apply_buckets_with_keys32 (vocab : list string) (j : joined32) (k : string) (x : number) : option Z :=
  let x_value := to_f32 x in
  let key_index := lookup_key k vocab in
  let adjusted := if key_index <? 0 then 0 else key_index in
  match nth_error (j_scale32 j) (Z.to_nat adjusted), nth_error (j_shift32 j) (Z.to_nat adjusted) with
  | Some scale, Some shift =>
      let offset := Z.of_nat (upper_bound32 (j_boundaries32 j) (place32 scale shift x_value)) in
      let max_bucket := Z.of_nat (j_num_buckets32 j) - 1 in
      let corrected := offset - (max_bucket - 1) * adjusted in
      let bucket := Z.max 0 (Z.min corrected max_bucket) in
      Some (if key_index <? 0 then key_index else bucket)
  | _, _ => None
  end.

(** mappers.py:1980-2054 ([bucketize_per_key]) given the key vocabulary and the float32 matrix of the quantile
    boundaries of the keys (num_buckets - 1 columns). *)
Definition bucketize_per_key32 (num_buckets : nat) (vocab : list string) (matrix : list (list f32)) (k : string) (x : number)
  : option Z :=
  if (num_buckets <? 1)%nat then None
  else match join_boundary_rows32 (num_buckets - 1) matrix with
       | None => None
       | Some j => apply_buckets_with_keys32 vocab j k x
       end.
