(** * Model of tft.histogram and tft.estimated_probability_density

    Values are exact, with NaN and infinities; `tf.cast` to float32 does not round. *)
From Coq Require Import String List ZArith QArith Bool.
From Coq Require DecimalString DecimalZ.
From Verif Require Import CombineModel NumericModel FloatModel MeanVarModel SortModel PerKeyModel BucketModel.
Import ListNotations.
Local Notation length := List.length.
Open Scope Z_scope.

(** All the results, or [None] if one of them is an error *)
Fixpoint all_some {A} (l : list (option A)) : option (list A) :=
  match l with
  | [] => Some []
  | Some x :: l => option_map (cons x) (all_some l)
  | None :: _ => None
  end.

(** tf.strings.as_string of an integer *)
Definition as_string (z : Z) : string := DecimalString.NilZero.string_of_int (Z.to_int z).

(** tf.strings.to_number: [None] if the text is not a number of the dtype.  Simplified:
    only the form that `as_string` writes is read. *)
Definition to_number (d : int_dtype) (s : string) : option Z :=
  match DecimalString.NilZero.int_of_string s with
  | None => None
  | Some i =>
      let z := Z.of_int i in
      if (dmin d <=? z) && (z <=? dmax d) then Some z else None
  end.

(** analyzers.py:836-888 `count_per_key` of string keys: the keys and the counts.
    [sch] and [keys] are how the runner combines the keys (see [per_key_analysis]). *)
Definition count_per_key (sch : string -> sched (sched (list arr))) (keys : list string)
  : option (list string * list Z) :=
  let (vocab, counts) := per_key_analysis key_count sch keys in
  option_map (pair vocab) (all_some counts).

(** tf.argsort *)
Definition argsort (l : list Z) : list nat :=
  map snd (py_sorted (fun a b => fst a <=? fst b) (combine l (seq 0 (length l)))).

(** tf_utils.py:774-818 `reorder_histogram`: `tf.range`, `tf.pad` and `tf.gather` raise on
    a negative size, a negative padding and an index out of range. *)
Definition reorder_histogram (bucket_vocab : list string) (counts : list Z) (boundary_size : Z)
  : option (list Z) :=
  match all_some (map (to_number Int32) bucket_vocab) with
  | None => None
  | Some vocab =>
      if boundary_size <? 0 then None
      else
        let missing := filter (fun i => negb (existsb (Z.eqb i) vocab))
                         (map Z.of_nat (seq 0 (Z.to_nat boundary_size))) in
        let ordering := argsort (vocab ++ missing) in
        if boundary_size - Z.of_nat (length counts) <? 0 then None
        else
          let counts := (counts ++ repeat 0 (Z.to_nat (boundary_size - Z.of_nat (length counts))))%list in
          all_some (map (nth_error counts) ordering)
  end.

(** analyzers.py:791 *)
Definition shifted (boundaries : list Q) : list Q := map (fun q => (q - (1 # 10000))%Q) boundaries.

(** analyzers.py:778 *)
Definition default_boundaries : list Q :=
  map (fun i => (inject_Z (Z.of_nat i) / 10)%Q) (seq 0 11).

(** analyzers.py:783-787: tf.linspace, which needs at least one point *)
Definition linspace (start stop : Q) (num : Z) : option (list Q) :=
  if num <? 1 then None
  else if num =? 1 then Some [start]
  else Some (map (fun i => (start + inject_Z (Z.of_nat i) * ((stop - start) / inject_Z (num - 1)))%Q)
               (seq 0 (Z.to_nat num))).

(** analyzers.py:777-787: the boundaries before the shift.  [mn] and [mx] are what
    `_min_and_max` gives (see C01). *)
Inductive boundaries_arg := NoBoundaries | Count (n : Z) | Vector (b : list Q).
Definition boundaries_of (arg : boundaries_arg) (mn mx : Q) : option (list Q) :=
  match arg with
  | NoBoundaries => Some default_boundaries
  | Count n => linspace mn mx n
  | Vector b => Some b
  end.

(** analyzers.py:793-795, 725-727 `remove_leftmost_boundary`; also mappers.py:2483-2485.
    The argument is already shifted. *)
Definition bucket_index (boundaries : list Q) (x : fl) : nat :=
  assign_buckets Float32 Float32 (tl (map Fin boundaries)) LEFT x.

(** analyzers.py:796: the keys of the values of a batch *)
Definition bucket_keys (boundaries : list Q) (batch : list fl) : list string :=
  map (fun x => as_string (Z.of_nat (bucket_index boundaries x))) batch.

(** analyzers.py:789-800 `histogram`, not categorical: counts and boundaries *)
Definition histogram (boundaries : list Q) (sch : string -> sched (sched (list arr))) (keys : list string)
  : option (list Z * list Q) :=
  let boundaries := shifted boundaries in
  match count_per_key sch keys with
  | None => None
  | Some (bucket_vocab, counts) =>
      option_map (fun counts => (counts, boundaries))
        (reorder_histogram bucket_vocab counts (Z.of_nat (length boundaries) - 1))
  end.

(** analyzers.py:769-775 `histogram`, categorical, of strings: `count_per_key` itself; of
    integers: *)
Definition histogram_of_integers (sch : string -> sched (sched (list arr))) (keys : list string)
  : option (list Z * list Z) :=
  match count_per_key sch keys with
  | None => None
  | Some (elements, counts) =>
      option_map (pair counts) (all_some (map (to_number Int64) elements))
  end.

(** mappers.py:2467-2468 *)
Definition probabilities (counts : list Z) : list fl :=
  map (fun c => fdiv (Fin (inject_Z c)) (Fin (inject_Z (fold_right Z.add 0 counts)))) counts.

(** mappers.py:2490-2500: the density of an index, zero for a negative one; `tf.gather`
    raises out of range. *)
Definition density_at (densities : list fl) (i : Z) : option fl :=
  let adjusted := if i <? 0 then 0 else i in
  match nth_error densities (Z.to_nat adjusted) with
  | None => None
  | Some d => Some (if i <? 0 then Fin 0 else d)
  end.

(** mappers.py:2476-2485 `estimated_probability_density`, not categorical, at one value *)
Definition bucket_densities (counts : list Z) (boundaries : list Q) : list fl :=
  let width := fdiv (Fin (last boundaries 0%Q - hd 0%Q boundaries))
                    (Fin (inject_Z (Z.of_nat (length counts)))) in
  map (fun p => fdiv p width) (probabilities counts).
Definition density (counts : list Z) (boundaries : list Q) (x : fl) : option fl :=
  density_at (bucket_densities counts boundaries) (Z.of_nat (bucket_index boundaries x)).

(** tf_utils.py:1605-1661 `lookup_key` of integers (for strings see [lookup_key]) *)
Fixpoint matching_indices (i : Z) (k : Z) (vocab : list Z) : list Z :=
  match vocab with
  | [] => []
  | k' :: v => (if k =? k' then i else -1) :: matching_indices (i + 1) k v
  end.
Definition lookup_integer (k : Z) (vocab : list Z) : Z :=
  match vocab with [] => -1 | _ => list_max (matching_indices 0 k vocab) end.

(** mappers.py:2472-2474 `estimated_probability_density`, categorical, at one value *)
Definition mass_of_string (counts : list Z) (elements : list string) (x : string) : option fl :=
  density_at (probabilities counts) (lookup_key x elements).
Definition mass_of_integer (counts : list Z) (elements : list Z) (x : Z) : option fl :=
  density_at (probabilities counts) (lookup_integer x elements).
