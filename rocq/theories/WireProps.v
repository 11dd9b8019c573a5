(** C67: protocol messages written in the graph. *)
From Coq Require Import String List Bool Arith NArith ZArith Lia Permutation.
From Verif Require Import WireModel WireSpec WireProofs WireMessages WireExample.
Import ListNotations.
Local Notation length := List.length.

(** serialize_example makes an Example for each row, from which every feature of the dict is read back
    with the values of that row, and no other feature; rows of sparse tensors have their values at
    the columns 0, 1, .... *)
Theorem c67_example features b :
  features <> [] ->
  Forall (fun kv => tensor_ok (snd kv) /\ left_aligned (snd kv) /\
                    dtype_of (snd kv) <> DOther /\ batch_of (snd kv) = b) features ->
  exists rows, serialize_example features = Some rows /\ length rows = b /\
  forall i, i < b -> exists parsed, parse_example (nth i rows []) = Some parsed /\
    Permutation parsed
      (map (fun kv => (octets (fst kv), feature_of (dtype_of (snd kv)) (row (snd kv) i))) features).
Proof. exact (aligned_rows features b). Qed.

Example c67_example_applies :
  some_features <> [] /\
  Forall (fun kv => tensor_ok (snd kv) /\ left_aligned (snd kv) /\
                    dtype_of (snd kv) <> DOther /\ batch_of (snd kv) = 2) some_features /\
  option_map (map parse_example) (serialize_example some_features)
  = Some [Some [(octets "floats", FloatFeature []); (octets "matrix", Int64Feature [1; -1]%Z);
                (octets "words", BytesFeature [[104; 105]; []]%N)];
          Some [(octets "floats", FloatFeature [1065353216%N]);
                (octets "matrix", Int64Feature [300; - 2 ^ 63]%Z);
                (octets "words", BytesFeature [[33]]%N)]].
Proof.
  split; [discriminate|]. split; [|vm_compute; reflexivity].
  assert (O : forall i j (l : list (nat * nat)), indices_valid 2 3 l = true -> i < j < length l ->
            index_lt (nth i l (0, 0)) (nth j l (0, 0))) by (intros i j l V; now apply (order_of_valid 2 3)).
  constructor; [|constructor; [|constructor; [|constructor]]]; cbn [snd]; split.
  - split; [|intros i j H; apply O; [reflexivity|exact H]].
    repeat (constructor; [cbn; repeat split; lia|]). constructor.
  - split; [|split; [discriminate|reflexivity]]. intros i H. destruct i as [|[|i]]; [reflexivity|reflexivity|lia].
  - split; [reflexivity|]. repeat (constructor; [cbn; lia|]). constructor.
  - split; [exact Logic.I|split; [discriminate|reflexivity]].
  - split; [|intros i j H; apply O; [reflexivity|exact H]].
    repeat (constructor; [cbn; repeat split; lia|]). constructor.
  - split; [|split; [discriminate|reflexivity]]. intros i H. destruct i as [|[|i]]; [reflexivity|reflexivity|lia].
Qed.

(** For all other sparse tensors, what is written for a row with n values are the cells of its first
    n columns. *)
Theorem c67_columns features b :
  features <> [] ->
  Forall (fun kv => tensor_ok (snd kv) /\ dtype_of (snd kv) <> DOther /\ batch_of (snd kv) = b) features ->
  exists rows, serialize_example features = Some rows /\ length rows = b /\
  forall i, i < b -> exists parsed, parse_example (nth i rows []) = Some parsed /\
    Permutation parsed
      (map (fun kv => (octets (fst kv), feature_of (dtype_of (snd kv)) (first_columns (snd kv) i))) features).
Proof. exact (example_rows features b). Qed.

(** So the documented rule, that indices within each row are ignored, is false: the value of a row
    whose only value is not in the first column is replaced by zero. *)
Theorem c67_gaps_refuted :
  exists features rows,
    Forall (fun kv => tensor_ok (snd kv) /\ dtype_of (snd kv) <> DOther /\ batch_of (snd kv) = 1) features /\
    serialize_example features = Some rows /\
    parse_example (nth 0 rows []) = Some [(octets "x", Int64Feature [0%Z])] /\
    map (fun kv => (octets (fst kv), feature_of (dtype_of (snd kv)) (row (snd kv) 0))) features
    = [(octets "x", Int64Feature [7%Z])].
Proof.
  exists gap. eexists. split; [|split; [vm_compute; reflexivity|split; vm_compute; reflexivity]].
  constructor; [|constructor]. cbn [snd gap]. split; [|split; [discriminate|reflexivity]].
  split; [repeat constructor; cbn; lia|cbn; intros; lia].
Qed.

(** The order of insertion into the dict plays no role. *)
Theorem c67_order f1 f2 :
  Permutation f1 f2 -> NoDup (map fst f1) -> serialize_example f1 = serialize_example f2.
Proof. exact (order_irrelevant f1 f2). Qed.

Example c67_order_applies :
  NoDup (map fst some_features) /\ rev some_features <> some_features /\
  serialize_example (rev some_features) = serialize_example some_features.
Proof.
  assert (N : NoDup (map fst some_features)) by (repeat constructor; cbn; intuition discriminate).
  split; [exact N|]. split; [discriminate|]. symmetry. apply c67_order; [apply Permutation_rev|exact N].
Qed.

(** It is an error exactly for an empty dict, for other types and for different batch sizes. *)
Theorem c67_error features :
  Forall (fun kv => dtype_of (snd kv) = DOther \/ tensor_ok (snd kv)) features ->
  (serialize_example features = None <->
   features = [] \/ (exists kv, In kv features /\ dtype_of (snd kv) = DOther) \/
   (exists kv1 kv2, In kv1 features /\ In kv2 features /\ batch_of (snd kv1) <> batch_of (snd kv2))).
Proof. exact (error_iff features). Qed.

Example c67_error_applies :
  Forall (fun kv => dtype_of (snd kv) = DOther \/ tensor_ok (snd kv)) (ids ++ gap) /\
  serialize_example (ids ++ gap) = None /\ serialize_example gap <> None.
Proof.
  split; [|split; [reflexivity|vm_compute; discriminate]].
  constructor; [left; reflexivity|]. constructor; [right|constructor]. cbn [snd gap].
  split; [repeat constructor; cbn; lia|cbn; intros; lia].
Qed.

(** The annotation of a vocabulary says its name and its sizes before and after filtering. *)
Theorem c67_vocabulary_metadata name unfiltered filtered :
  (- 2 ^ 63 <= unfiltered < 2 ^ 63)%Z -> (- 2 ^ 63 <= filtered < 2 ^ 63)%Z ->
  exists m, vocabulary_metadata name unfiltered filtered = Some m /\
  parse_vocabulary_metadata m = Some (octets name, Some unfiltered, Some filtered).
Proof. exact (metadata_read name unfiltered filtered). Qed.

Example c67_vocabulary_metadata_applies :
  exists m, vocabulary_metadata "vocab" 1000 100 = Some m /\
  parse_vocabulary_metadata m = Some (octets "vocab", Some 1000%Z, Some 100%Z).
Proof. apply c67_vocabulary_metadata; lia. Qed.

(** The annotation of a bucketized feature says its boundaries in order, as float32 numbers. *)
Theorem c67_bucket_boundaries boundaries :
  Forall (fun n => n < 2 ^ 32)%N boundaries ->
  exists m, bucket_boundaries boundaries = Some m /\ parse_bucket_boundaries m = Some boundaries.
Proof. exact (boundaries_read boundaries). Qed.

Example c67_bucket_boundaries_applies :
  exists m, bucket_boundaries [1048576000; 1056964608]%N = Some m /\
  parse_bucket_boundaries m = Some [1048576000; 1056964608]%N.
Proof. apply c67_bucket_boundaries. repeat constructor. Qed.

Print Assumptions c67_example.
Print Assumptions c67_columns.
Print Assumptions c67_gaps_refuted.
Print Assumptions c67_order.
Print Assumptions c67_error.
Print Assumptions c67_vocabulary_metadata.
Print Assumptions c67_bucket_boundaries.
