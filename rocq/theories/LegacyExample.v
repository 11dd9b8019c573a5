(** * Old signatures and schemas for the examples of C72 *)
From Coq Require Import String Ascii List ZArith Bool.
From Verif Require Import SchemaModel FspecModel FspecSpec LegacyModel LegacySpec LegacyProofs.
Import ListNotations.
Local Open Scope string_scope.

Definition info (dt : nat) (n : string) : tensor_info := Tensor_info dt (Some [(-1)%Z]) (Tensor_name n).
Definition old_features : list (string * feature) :=
  [("x", Dense (info 1 "x:0")); ("words", Sparse (info 9 "w/indices:0") (info 7 "w/values:0") (info 9 "w/shape:0")); ("dense_shape", Dense (info 1 "d:0"))].
(** A map has no order: one the items come in. *)
Definition old_signature : dict tensor_info :=
  [("words$values", info 7 "w/values:0"); ("dense_shape$dense_tensor", info 1 "d:0"); ("words$dense_shape", info 9 "w/shape:0");
   ("x$dense_tensor", info 1 "x:0"); ("words$indices", info 9 "w/indices:0")].

Lemma told_apart_by fs : NoDup (map fst fs) -> (forall n, In n (map fst fs) -> has_newline n = false) ->
  (forall n, In n (map fst fs) -> mangled n = None) -> told_apart fs.
Proof.
  intros A B C. split; [exact A|]. split.
  - intros n f I a b E. assert (H : has_newline n = true) by (apply has_newline_iff; exists a, b; exact E). rewrite (B n) in H; [discriminate|]. apply (in_map fst) in I; exact I.
  - intros n f [m g] k t I J K ->. apply old_item_component in K as (c & _ & E). assert (H : mangled n = Some (m, c)).
    { rewrite E. apply mangled_mangle, B. apply (in_map fst) in J; exact J. }
    rewrite (C n) in H; [discriminate|]. apply (in_map fst) in I; exact I.
Qed.
Ltac by_cases H := cbn in H; repeat (destruct H as [H|H]; [subst; reflexivity|]); destruct H.
Ltac nodup := repeat (constructor; [let H := fresh in intros H; cbn in H; repeat (destruct H as [H|H]; [discriminate H|]); destruct H|]); constructor.
Lemma old_features_meet : told_apart old_features /\ ~ sparse_dense_shape old_features /\ same_items old_signature (flat_map old_items old_features).
Proof.
  split; [|split].
  - apply told_apart_by; [cbn; nodup|intros n H; by_cases H..].
  - intros (i & v & s & H). cbn in H. repeat (destruct H as [H|H]; [discriminate H|]). destruct H.
  - split; [cbn; nodup|]. split; [cbn; nodup|]. intros k v. cbn. tauto.
Qed.

(** A sparse feature whose name is that of a component. *)
Definition shape_features : list (string * feature) := [("dense_shape", Sparse (info 9 "i:0") (info 7 "v:0") (info 9 "s:0"))].
Lemma shape_features_meet : told_apart shape_features /\ sparse_dense_shape shape_features /\
  same_items (flat_map old_items shape_features) (flat_map old_items shape_features).
Proof.
  split; [|split].
  - apply told_apart_by; [cbn; nodup|intros n H; by_cases H..].
  - do 3 eexists. left. reflexivity.
  - split; [cbn; nodup|]. split; [cbn; nodup|]. tauto.
Qed.

(** ** JSON *)
Definition digits_only (s : string) : option Z := if String.eqb s "10" then Some 10%Z else if String.eqb s "-1" then Some (-1)%Z else None.
Definition tf_options (o : json) : json := J_object [("tfOptions", o)].
Definition old_document : json :=
  J_object [("feature", J_list
    [J_object [("name", J_string "age"); ("fixedShape", J_object [("axis", J_list [J_object [("size", J_int 2)]; J_object [("size", J_string "10")]])]);
               ("type", J_string "INT"); ("domain", J_object [("ints", J_object [("min", J_string "-1"); ("max", J_string "10"); ("isCategorical", J_bool true)])]);
               ("parsingOptions", tf_options (J_object [("fixedLenFeature", J_object [])]))];
     J_object [("name", J_string "words"); ("domain", J_object [("strings", J_object [])]); ("parsingOptions", tf_options (J_object [("varLenFeature", J_object [])]))];
     J_object [("name", J_string "price"); ("fixedShape", J_object []); ("domain", J_object [("floats", J_object [])]);
               ("parsingOptions", tf_options (J_object [("fixedLenFeature", J_object [])]))]])].
Definition old_schema : list old_feature :=
  [Old_feature "age" (Ints (Some (-1)%Z) (Some 10%Z) true) (Fixed [2; 10]%Z false); Old_feature "words" Strings Variable_length; Old_feature "price" Floats (Fixed [] false)].
Definition default_document : json :=
  J_object [("feature", J_list
    [J_object [("name", J_string "age"); ("fixedShape", J_object []); ("domain", J_object [("ints", J_object [])]);
               ("parsingOptions", tf_options (J_object [("fixedLenFeature", J_object [("intDefaultValue", J_string "-1")])]))]])].
Definition default_schema : list old_feature := [Old_feature "age" (Ints None None false) (Fixed [] true)].
(** The sparse feature of metadata_io_test.py's document. *)
Definition sparse_document : json :=
  J_object [("sparseFeature", J_list [J_object [("name", J_string "my_key"); ("indexFeature", J_list []);
    ("valueFeature", J_list [J_object [("name", J_string "value_key"); ("type", J_string "INT"); ("domain", J_object [("ints", J_object [])])]])]])].

Ltac has_ := eexists; split; [reflexivity|split; [cbn; nodup|cbn; tauto]].
Ltac hasno := eexists; split; [reflexivity|cbn; let H := fresh in intros H; repeat (destruct H as [H|H]; [discriminate H|]); destruct H].
Lemma old_document_meets : describes digits_only old_document old_schema /\ forall f, In f old_schema -> ~ has_default f.
Proof.
  split.
  - split; [cbn; nodup|]. left. eexists. split; [has_|]. constructor; [|constructor; [|constructor; [|constructor]]].
    + split; [has_|]. split.
      * eexists. split; [has_|]. eexists. split; [has_|]. split; [eexists; split; [has_|right; eexists; split; reflexivity]|].
        split; [eexists; split; [has_|right; eexists; split; reflexivity]|]. left. has_.
      * do 2 eexists. split; [has_|]. split; [has_|]. do 2 eexists. split; [has_|]. split; [split; [hasno|split; hasno]|]. split; [has_|].
        left. eexists. split; [has_|]. constructor; [|constructor; [|constructor]]; eexists; (split; [has_|]); [left; reflexivity|right; eexists; split; reflexivity].
    + split; [has_|]. split.
      * eexists. split; [has_|]. split; [hasno|]. split; [hasno|]. eexists. split; [has_|discriminate].
      * do 2 eexists. split; [has_|]. split; [has_|]. split; [hasno|]. eexists. split; [has_|discriminate].
    + split; [has_|]. split.
      * eexists. split; [has_|]. split; [hasno|]. eexists. split; [has_|discriminate].
      * do 2 eexists. split; [has_|]. split; [has_|]. do 2 eexists. split; [has_|]. split; [split; [hasno|split; hasno]|]. split; [has_|]. right. split; [hasno|reflexivity].
  - intros f H. cbn in H. repeat (destruct H as [H|H]; [subst f; cbn; discriminate || tauto|]). destruct H.
Qed.
Lemma default_document_meets : describes digits_only default_document default_schema /\ exists f, In f default_schema /\ has_default f.
Proof.
  split.
  - split; [cbn; nodup|]. left. eexists. split; [has_|]. constructor; [|constructor]. split; [has_|]. split.
    + eexists. split; [has_|]. eexists. split; [has_|]. split; [hasno|]. split; [hasno|]. right. split; [hasno|reflexivity].
    + do 2 eexists. split; [has_|]. split; [has_|]. do 2 eexists. split; [has_|]. split; [left; do 2 eexists; split; [has_|right; eexists; split; reflexivity]|].
      split; [has_|]. right. split; [hasno|reflexivity].
  - eexists. split; [left; reflexivity|reflexivity].
Qed.
