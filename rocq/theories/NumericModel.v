(** tft.min, tft.max, tft.sum and tft.size on integer columns. *)
From Coq Require Import List ZArith Bool.
From Verif Require Import CombineModel.
Import ListNotations.
Open Scope Z_scope.

(** ** Machine integers *)

Inductive int_dtype := UInt8 | UInt16 | UInt32 | UInt64 | Int8 | Int16 | Int32 | Int64.

Definition bits (d : int_dtype) : Z :=
  match d with
  | UInt8 | Int8 => 8 | UInt16 | Int16 => 16 | UInt32 | Int32 => 32 | UInt64 | Int64 => 64
  end.
Definition signed (d : int_dtype) : bool :=
  match d with Int8 | Int16 | Int32 | Int64 => true | _ => false end.

(** tf.DType.min / tf.DType.max. *)
Definition dmin (d : int_dtype) : Z := if signed d then - 2 ^ (bits d - 1) else 0.
Definition dmax (d : int_dtype) : Z := if signed d then 2 ^ (bits d - 1) - 1 else 2 ^ bits d - 1.
Definition in_range (d : int_dtype) (z : Z) : Prop := dmin d <= z <= dmax d.

(** Two's complement reduction of an exact result to dtype [d] (what TensorFlow and numpy do on
    overflow and on casts between integer types). *)
Definition wrap (d : int_dtype) (z : Z) : Z := (z - dmin d) mod 2 ^ bits d + dmin d.

(** ** NumPyCombiner (analyzers.py:250-344) *)

(** A numpy array as used by the combiner: 0-dimensional, or flattened elements of an array of a
    known shape. *)
Inductive arr := Sc (z : Z) | Vec (l : list Z).

(** The entries of [output_shapes]: [()], a fully defined shape with [n] elements, or None. *)
Inductive oshape := ScalarShape | KnownShape (n : nat) | UnknownShape.

Fixpoint all_sc (l : list arr) : option (list Z) :=
  match l with
  | [] => Some []
  | Sc z :: l' => match all_sc l' with Some zs => Some (z :: zs) | None => None end
  | Vec _ :: _ => None
  end.
Fixpoint all_vec (n : nat) (l : list arr) : option (list (list Z)) :=
  match l with
  | [] => Some []
  | Vec v :: l' =>
      if Nat.eqb (length v) n
      then match all_vec n l' with Some vs => Some (v :: vs) | None => None end
      else None
  | Sc _ :: _ => None
  end.

(** Column [j] of a list of equally long rows. *)
Definition column (j : nat) (vs : list (list Z)) : list Z := map (fun v => nth j v 0) vs.

(** [fn(list_of_arrays, axis=0)]: arrays are stacked and reduced along the new first axis;
    stacking arrays of different shapes raises (None). *)
Definition np_reduce (fn : list Z -> Z) (l : list arr) : option arr :=
  match l with
  | [] => None
  | Sc _ :: _ => match all_sc l with Some zs => Some (Sc (fn zs)) | None => None end
  | Vec v :: _ =>
      match all_vec (length v) l with
      | Some vs => Some (Vec (map (fun j => fn (column j vs)) (seq 0 (length v))))
      | None => None
      end
  end.

(** All results present, or an exception. *)
Fixpoint sequence {X} (l : list (option X)) : option (list X) :=
  match l with
  | [] => Some []
  | Some x :: l' => match sequence l' with Some xs => Some (x :: xs) | None => None end
  | None :: _ => None
  end.

(** Python's [zip( *lists)]: the i-th tuple holds the i-th element of each list; stops at the
    shortest list. *)
Definition zip_star {X} (ls : list (list X)) : list (list X) :=
  match ls with
  | [] => []
  | l :: rest => fold_left (fun acc l' => map (fun p => fst p ++ [snd p]) (combine acc l')) rest
                           (map (fun x => [x]) l)
  end.

Section numpy.
  Variables (fn : list Z -> Z) (default : Z) (shapes : list oshape).

  (* analyzers.py:280-284: np.array_equal(array, np.array(default)); False on shape mismatch.
     (The NaN variant, 277-278, only exists for floating dtypes.) *)
  Definition is_default_sub_accumulator (a : arr) : bool :=
    match a with Sc z => z =? default | Vec _ => false end.

  (* analyzers.py:292-298 *)
  Definition create_sub_accumulator (s : oshape) : arr :=
    match s with
    | UnknownShape | ScalarShape => Sc default
    | KnownShape n => Vec (repeat default n)
    end.

  (* analyzers.py:289-290 *)
  Definition np_create : list arr := map create_sub_accumulator shapes.

  (* [self._is_default_sub_accumulator(accumulator[0])]; IndexError on an empty accumulator. *)
  Definition first_is_default (acc : list arr) : option bool :=
    match acc with [] => None | a :: _ => Some (is_default_sub_accumulator a) end.

  (* analyzers.py:300-311.  None is a raised exception. *)
  Definition np_add_input (acc : option (list arr)) (batch : list arr) : option (list arr) :=
    match acc with
    | None => None
    | Some acc =>
        match first_is_default acc with
        | None => None
        | Some true => Some batch
        | Some false => sequence (map (fun p => np_reduce fn [fst p; snd p]) (combine acc batch))
        end
    end.

  (* analyzers.py:313-330 *)
  Definition np_merge (accs : list (option (list arr))) : option (list arr) :=
    match sequence accs with
    | None => None
    | Some accs =>
        match sequence (map first_is_default accs) with
        | None => None
        | Some _ =>
            let non_default :=
              filter (fun acc => match first_is_default acc with Some b => negb b | None => true end) accs in
            match non_default with
            | _ :: _ => sequence (map (np_reduce fn) (zip_star non_default))
            | [] => Some np_create
            end
        end
    end.

  (* analyzers.py:332-338; the casts are applied by the callers below. *)
  Definition np_combiner : combiner (list arr) (option (list arr)) (option (list arr)) :=
    {| create_accumulator := Some np_create;
       add_input := np_add_input;
       merge_accumulators := np_merge;
       extract_output := fun a => a |}.
End numpy.

(** ** Batch reductions *)

(** np.max over a non-empty list.  Only applied to non-empty lists. *)
Definition list_max (l : list Z) : Z :=
  match l with [] => 0 | x :: l' => fold_left Z.max l' x end.

(** tf.reduce_max over all elements of a tensor of dtype [w]: the lowest value of the dtype for an
    empty tensor. *)
Definition reduce_max (w : int_dtype) (l : list Z) : Z := fold_left Z.max l (dmin w).

(** tf_utils.py:1993-1997: the dtype on which -min and max are computed; uint32/uint64 raise. *)
Definition minmax_work_dtype (d : int_dtype) : option int_dtype :=
  match d with
  | UInt8 | UInt16 | Int16 => Some Int32
  | UInt32 | UInt64 => None
  | Int8 | Int32 | Int64 => Some d
  end.

(** tf_utils.py:1999-2007 ([reduce_batch_minus_min_and_max] with reduce_instance_dims=True; the
    values of a dense, sparse or ragged batch are given as a list). *)
Definition batch_minus_min_and_max (w : int_dtype) (xs : list Z) : list arr :=
  [Sc (reduce_max w (map (fun x => wrap w (0 - x)) xs)); Sc (reduce_max w xs)].

(** tf_utils.py:2012-2023, dense tensors with reduce_instance_dims=False: rows of width [n], reduced
    along axis 0. *)
Definition batch_minus_min_and_max_elementwise (w : int_dtype) (n : nat) (rows : list (list Z)) : list arr :=
  [Vec (map (fun j => reduce_max w (map (fun x => wrap w (0 - x)) (column j rows))) (seq 0 n));
   Vec (map (fun j => reduce_max w (column j rows)) (seq 0 n))].

(** analyzers.py:504-562 ([_min_and_max], reduce_instance_dims=True, integer dtype [d]):
    np.max combine with default -dtype.max, outputs cast (332-338) to the dtype of the batch
    reductions, then 0 - minus_min and casts to the input dtype (562).
    None is a raised exception. *)
Definition min_and_max_in (d w : int_dtype) (s : sched (sched (list Z))) : option (Z * Z) :=
  match analyze (np_combiner list_max (- dmax d) [ScalarShape; ScalarShape])
                (map_sched (map_sched (batch_minus_min_and_max w)) s) with
  | Some [Sc minus_min; Sc mx] =>
      Some (wrap d (wrap w (0 - wrap w minus_min)), wrap d (wrap w mx))
  | _ => None
  end.
Definition min_and_max (d : int_dtype) (s : sched (sched (list Z))) : option (Z * Z) :=
  match minmax_work_dtype d with
  | None => None
  | Some w => min_and_max_in d w s
  end.

(** The same with reduce_instance_dims=False on dense rows of known width [n]. *)
Definition min_and_max_elementwise (d : int_dtype) (n : nat) (s : sched (sched (list (list Z))))
  : option (list Z * list Z) :=
  match minmax_work_dtype d with
  | None => None
  | Some w =>
      match analyze (np_combiner list_max (- dmax d) [KnownShape n; KnownShape n])
                    (map_sched (map_sched (batch_minus_min_and_max_elementwise w n)) s) with
      | Some [Vec minus_min; Vec mx] =>
          Some (map (fun m => wrap d (wrap w (0 - wrap w m))) minus_min,
                map (fun m => wrap d (wrap w m)) mx)
      | _ => None
      end
  end.

(** ** Sums *)

(** analyzers.py:96-108 ([_SUM_OUTPUT_DTYPE_MAP]), integer part. *)
Definition sum_output_dtype (d : int_dtype) : int_dtype := if signed d then Int64 else UInt64.

Definition zsum (l : list Z) : Z := fold_right Z.add 0 l.

(** analyzers.py:662-669: np.sum(_, dtype=output_dtype). *)
Definition np_sum (o : int_dtype) (l : list Z) : Z := wrap o (zsum l).

(** analyzers.py:672-722 ([sum], reduce_instance_dims=True): each batch is reduced by
    tf.reduce_sum in the dtype of the input, accumulators are summed in the output dtype. *)
Definition tft_sum (d : int_dtype) (s : sched (sched (list Z))) : option Z :=
  let o := sum_output_dtype d in
  match analyze (np_combiner (np_sum o) 0 [ScalarShape])
                (map_sched (map_sched (fun xs => [Sc (wrap d (zsum xs))])) s) with
  | Some [Sc total] => Some (wrap o total)
  | _ => None
  end.

(** analyzers.py:803-833 ([size]): the sum of int64 ones. *)
Definition tft_size {X} (s : sched (sched (list X))) : option Z :=
  tft_sum Int64 (map_sched (map_sched (map (fun _ => 1))) s).
