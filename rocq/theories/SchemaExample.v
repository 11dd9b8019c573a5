(** * Outputs and annotations for the theorems about schemas *)
From Coq Require Import String Ascii List ZArith Bool Arith.
From Verif Require Import SchemaModel SchemaSpec.
Import ListNotations.
Local Open Scope string_scope.
Local Open Scope list_scope.

(** A session in which tensors have values. *)
Definition ses : session :=
  Session (fun t => if String.eqb t "max:0" then 9%Z else 0%Z) (fun t => "value of " ++ t)%string (fun _ => [4%Z; 7%Z]).

(** Three outputs, with a range, annotations and the shape of a sparse one. *)
Definition outputs : dict output :=
  [("label", Dense "label:0" Int64 (Some [None; Some 3]));
   ("ids", Sparse "indices:0" "ids:0" Int64 (Some [None; None; None]));
   ("words", Ragged "flat:0" String_type (Some [None; None; Some 2]))].
Definition calls : list call :=
  [Set_tensor_schema_override "label:0" Int64 "min:0" "min:0";
   Annotate "url:0" "proto:0" (To_tensor "label:0" Int64);
   Annotate "url:1" "proto:1" (To_schema "scope/tft_schema_override_global_sentinel_1:0");
   Annotate_sparse_output_shape "indices:0" "ids:0" "shape:0";
   Annotate_true_sparse_output "indices:0" "ids:0";
   Set_tensor_schema_override "label:0" Int64 "min:0" "max:0"].
Definition sparse_call : call := Annotate "url:2" "proto:2" (To_sparse "indices:0" "ids:0").
Definition traced_calls (calls : list call) : graph :=
  match trace_calls empty_graph calls with Returned g => g | Raised => empty_graph end.

Definition label_column (domain : int_domain) (metadata : list any) : feature :=
  Feature "label" INT true (Some [Some 3]) (Some domain) metadata.
Definition label_annotation : any := Any "value of url:0" "value of proto:0".
Definition schema_annotation : any := Any "value of url:1" "value of proto:1".
Definition ids_annotation : any := Any "value of url:2" "value of proto:2".
(** The schema, with or without an annotation of the sparse tensor. *)
Definition the_schema (ids_metadata : list any) : schema :=
  Schema [Feature "ids$sparse_indices_0" INT false None (Some (IntDomain (Some 0%Z) (Some 3%Z) false)) [];
          Feature "ids$sparse_indices_1" INT false None (Some (IntDomain (Some 0%Z) (Some 6%Z) false)) [];
          Feature "ids$sparse_values" INT false None None ids_metadata;
          label_column (IntDomain (Some 0%Z) (Some 9%Z) true) [label_annotation];
          Feature "words$ragged_values" BYTES false None None [];
          Feature "words$row_lengths_1" INT false None None []]
         [Sparse_feature "ids" true ["ids$sparse_indices_0"; "ids$sparse_indices_1"] "ids$sparse_values"]
         [("words", Ragged_representation "words$ragged_values" [Row_lengths "words$row_lengths_1"; Uniform_row_length 2])]
         [schema_annotation].
Definition deferred_schema : schema :=
  Schema [Feature "ids$sparse_indices_0" INT false None None [];
          Feature "ids$sparse_indices_1" INT false None None [];
          Feature "ids$sparse_values" INT false None None [];
          label_column (IntDomain None None true) [];
          Feature "words$ragged_values" BYTES false None None [];
          Feature "words$row_lengths_1" INT false None None []]
         [Sparse_feature "ids" true ["ids$sparse_indices_0"; "ids$sparse_indices_1"] "ids$sparse_values"]
         [("words", Ragged_representation "words$ragged_values" [Row_lengths "words$row_lengths_1"; Uniform_row_length 2])]
         [].

(** A tensor that is output twice, with a range. *)
Definition twice : dict output := [("a", Dense "t:0" Int64 (Some [None])); ("b", Dense "t:0" Int64 (Some [None]))].
Definition range_call : list call := [Set_tensor_schema_override "t:0" Int64 "min:0" "max:0"].

(** A sparse tensor, and the same reshaped, which has the same values. *)
Definition reshaped : dict output :=
  [("a", Sparse "indices:0" "v:0" Int64 (Some [None; None])); ("b", Sparse "new_indices:0" "v:0" Int64 (Some [None; None]))].
Definition only_a_sparse : list call := [Annotate_true_sparse_output "indices:0" "v:0"].

(** An output named like a column. *)
Definition like_a_column : dict output :=
  [("x", Sparse "indices:0" "v:0" Int64 (Some [None; None; None])); ("x$sparse_values", Dense "t:0" Int64 (Some [None]))].

(** Names of constants. *)
Lemma no_slash_text rest : ~ In "/"%char (list_ascii_of_string rest) -> ~ has_slash rest.
Proof.
  intros N (a & b & ->). apply N. clear N. induction a as [|c a IH]; cbn in *; auto.
Qed.
Lemma example_sentinel : sentinel "scope/tft_schema_override_global_sentinel_1:0".
Proof.
  exists "_1:0". split; [apply no_slash_text; cbn; intuition discriminate|]. right. exists "scope". reflexivity.
Qed.
Lemma ends_differ (scope : string) : forall t, ~ In "/"%char (list_ascii_of_string t) -> forall rest, t <> (scope ++ "/tft_schema_override_global_sentinel" ++ rest)%string.
Proof.
  intros t N rest ->. apply N. clear N. induction scope as [|c s IH]; cbn in *; auto.
Qed.
Lemma not_sentinel_text c t : c <> "t"%char -> ~ In "/"%char (list_ascii_of_string (String c t)) -> ~ sentinel (String c t).
Proof.
  intros D N (rest & _ & [E|(scope & E)]); [injection E as E _; congruence|]. exact (ends_differ scope _ N rest E).
Qed.
Lemma label_not_sentinel : ~ sentinel "label:0".
Proof. apply not_sentinel_text; [discriminate|]. cbn. intuition discriminate. Qed.
Lemma ids_not_sentinel : ~ sentinel "ids:0".
Proof. apply not_sentinel_text; [discriminate|]. cbn. intuition discriminate. Qed.

Ltac in_cases := repeat match goal with
  | H : In _ (_ :: _) |- _ => destruct H as [H|H]
  | H : In _ [] |- _ => destruct H
  end.
Lemma example_sane : sane outputs calls /\ sane outputs (calls ++ [sparse_call]).
Proof.
  assert (S : sane outputs (calls ++ [sparse_call])).
  { constructor.
    - intros t d lo hi n o I J. cbn [calls app] in I. unfold outputs in J. in_cases; try discriminate; injection I as <- <- <- <-; injection J as <- <-; intros E; try discriminate; reflexivity.
    - intros u p c I. cbn [calls app] in I. in_cases; try discriminate. injection I as <- <- <-. split; [exact example_sentinel|].
      intros n o J. unfold outputs in J. in_cases; injection J as <- <-; discriminate.
    - intros u p t d I. cbn [calls app] in I. in_cases; try discriminate. injection I as <- <- <- <-. exact label_not_sentinel.
    - intros u p i v I. cbn [calls app] in I. in_cases; try discriminate. injection I as <- <- <- <-. exact ids_not_sentinel. }
  split; [|exact S]. destruct S as [S1 S2 S3 S4]. constructor.
  - intros t d lo hi n o I. apply (S1 t d lo hi). apply in_or_app. auto.
  - intros u p c I. apply (S2 u p). apply in_or_app. auto.
  - intros u p t d I. apply (S3 u p t d). apply in_or_app. auto.
  - intros u p i v I. apply (S4 u p i). apply in_or_app. auto.
Qed.
Lemma example_not_shared : values_not_shared outputs calls /\ values_not_shared outputs (calls ++ [sparse_call]).
Proof.
  assert (S : values_not_shared outputs (calls ++ [sparse_call])).
  { intros n o i v J V. unfold outputs in J. in_cases; injection J as <- <-; cbn in V; subst v; repeat split.
    all: try (intros u p I; cbn [calls app] in I; in_cases; try discriminate; injection I as <- <- <-; eexists; eexists; reflexivity).
    all: try (intros s d j shape I; cbn [calls app] in I; in_cases; try discriminate; injection I as <- <-; intros E; injection E as <-; reflexivity).
    all: try (intros d j shape I; cbn [calls app] in I; in_cases; try discriminate; injection I as <-; intros E; injection E as <-; reflexivity). }
  split; [|exact S]. intros n o i v J V. destruct (S n o i v J V) as (A & B & C). repeat split.
  - intros u p I. apply (A u p). apply in_or_app. auto.
  - intros s d j shape I. apply (B s d j shape). apply in_or_app. auto.
  - intros d j shape I. apply (C d j shape). apply in_or_app. auto.
Qed.
