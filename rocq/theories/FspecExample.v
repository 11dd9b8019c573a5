(** * Feature specs to look at *)
From Coq Require Import String List ZArith Bool.
From Verif Require Import SchemaModel FspecModel FspecSpec.
Import ListNotations.

(** A feature spec with a feature of each kind, not in the order of names, and its domains; the sparse feature
    has the name of its column of values. *)
Definition kinds : dict fspec :=
  [("words", Ragged_spec String_type (Some "words$values") [By_row_lengths "words$rows"; By_uniform_length 2] Int64 false);
   ("age", Fixed_len [] Int64 None);
   ("image", Fixed_len [28; 28]%Z Float32 None);
   ("scores", Sparse_spec (Key_list ["row"; "column"]) "scores" Float32 (Size_list [Some 100; Some (-1)]%Z) true);
   ("tags", Var_len String_type)]%string.
Definition kinds_domains : dict domain :=
  [("tags", String_domain (Some "colours") ["red"; "green"]); ("age", Int_domain (Some 0%Z) (Some 150%Z) true);
   ("scores", Float_domain (Some "0.0") None)]%string.
Definition kinds_schema : proto_schema :=
  match from_feature_spec kinds kinds_domains with Returned s => s | Raised => PSchema [] [] [] [] [] end.
Definition kinds_reordered : dict fspec := rev kinds.

(** A schema nobody made from a feature spec: a shared string domain, a deprecated feature, annotations. *)
Definition curated : proto_schema :=
  PSchema [PF "colour" T_BYTES false None (Some (Named "colours")) false ["note"];
           PF "old" T_INT true (Some [])  None true [];
           PF "size" T_INT true (Some [3%Z]) (Some (Own (Int_domain None (Some 9%Z) false))) false []]%string
          [] [] [("colours", String_domain (Some "colours") ["red"])]%string ["owner"]%string.
Definition with_default : proto_schema :=
  PSchema [PF "x" T_INT false None None false []; PF "y" T_INT false None None false []]%string []
          [("x", PR_dense [] (Some ["7"]))]%string [] [].

Definition one_index : dict fspec := [("x", Sparse_spec (One_key "i") "v" Float32 (One_size 10) false)]%string.
Definition listed_index : dict fspec := [("x", Sparse_spec (Key_list ["i"]) "v" Float32 (Size_list [Some 10%Z]) false)]%string.
Definition own_name : dict fspec := [("r", Ragged_spec Int64 None [] Int64 false)]%string.
Definition checked_rows : dict fspec := [("r", Ragged_spec Int64 (Some "r") [] Other_type true)]%string.
Definition own_name_written : dict fspec := [("r", Ragged_spec Int64 (Some "r") [] Int64 false)]%string.
(** A column that is a feature and the indices of another. *)
Definition shared : dict fspec := [("i", Var_len Int64); ("x", Sparse_spec (Key_list ["i"]) "v" Float32 (Size_list [Some 10%Z]) false)]%string.
