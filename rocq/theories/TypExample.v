(** Features of queries with lists of words, as examples. *)
From Coq Require Import String List ZArith.
From Verif Require Import TypModel TypSpec.
Import ListNotations.
Open Scope string_scope.

Definition points := Ragged "points" [Rows; Uniform 2] Float32.
(** Two examples, of which the second has three polygons *)
Definition points_data := Ragged_data [[1; 3]; [4; 0; 5; 3]] [2].
Definition words := Ragged "words" [] String.
(** Two sequence examples with 1 and 2 steps *)
Definition words_data := Ragged_data [[1; 2]; [4; 0; 7]] [].
Definition image := FixedLen (Shape_list [28; 28]) Float32.
Definition bag := Sparse "bag_values" (Size_list [100%Z; (-1)%Z]) Int64.
Definition queries : list (string * feature_spec) := [("image", image); ("ids", VarLen Int64); ("bag", bag)].
Definition query_schema : schema := Schema
  [Leaf "country" (Domain "countries"); Leaf "age" (Own_domain "0..130"); Leaf "bag_values" (Own_domain "0..9");
   Struct "##SEQUENCE##" [Leaf "words" (Domain "english"); Leaf "clicks" No_domain]]
  [("countries", "ISO 3166"); ("english", "a list of words")].
Definition context : list (string * feature_spec) := [("country", VarLen String); ("age", FixedLen (Shape_list []) Int64); ("bag", bag)].
Definition lists : list (string * feature_spec) := [("words", words); ("clicks", Ragged "clicks" [] Int64)].
(** A column of that name in the context and in the feature lists *)
Definition clash : schema := Schema [Leaf "id" (Own_domain "0..9"); Struct "##SEQUENCE##" [Leaf "id" (Own_domain "0..999999")]] [].
