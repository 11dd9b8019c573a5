(** A concrete coder and history for the `tf.train.Example` theorems. *)
From Coq Require Import String List Bool Arith.
From Verif Require Import ExampleProtoModel ExampleProtoSpec.
Import ListNotations.
Open Scope string_scope.

(** Numbers, and [None] for an object no list accepts. *)
Definition x_payload (k : kind) (v : option nat) : outcome nat :=
  match v with Some n => Ok n | None => Raise TypeError end.

Definition x_reshape (k : kind) (v : field_value (option nat)) : outcome (list (option nat)) :=
  match v with
  | FList l | FArray l => Ok l
  | FScalar x | FArray0 x => Ok [x]
  | FNone => Raise TypeError
  end.

(** Two sparse features share an index key. *)
Definition x_features : list (string * feature_spec) :=
  [("s", SparseFeature KFloat ["idx"] "s_values"); ("n", FixedLen KInt64 [2]);
   ("t", SparseFeature KBytes ["idx"] "t_values");
   ("r", RaggedFeature KFloat [RowLengths "r_lengths"; UniformRowLength] "r_values")].

Definition x_handlers : list handler :=
  match make_handlers x_features with Ok hs => hs | Raise _ => [] end.

Lemma x_made : make_handlers x_features = Ok x_handlers.
Proof. reflexivity. Qed.

Lemma x_consistent : consistent x_features.
Proof.
  intros f f' c k k' s s' Hf Hf' Hc Hc'.
  repeat (destruct Hf as [Hf|Hf]; [subst f; cbn in Hc|]); try (now destruct Hf);
    repeat (destruct Hc as [Hc|Hc]; [inversion Hc; subst|]); try (now destruct Hc);
    repeat (destruct Hf' as [Hf'|Hf']; [subst f'; cbn in Hc'|]); try (now destruct Hf');
    repeat (destruct Hc' as [Hc'|Hc']; [inversion Hc'; subst; auto|]); now destruct Hc'.
Qed.

Definition x_good (a : nat) : list (string * field_value (option nat)) :=
  [("idx", FList [Some a]); ("s_values", FArray [Some a]); ("n", FList [Some 1; Some 2]);
   ("t_values", FScalar (Some a)); ("r_lengths", FList []); ("r_values", FNone)].

(** Fails after the shared key has been cleared by the first of its handlers. *)
Definition x_bad : list (string * field_value (option nat)) :=
  [("idx", FNone); ("s_values", FList [Some 7; None; Some 8]); ("n", FList [Some 1; Some 2]);
   ("t_values", FNone); ("r_lengths", FNone); ("r_values", FNone)].

Definition x_missing : list (string * field_value (option nat)) :=
  [("idx", FNone); ("s_values", FNone); ("n", FArray [Some 1; Some 2]);
   ("t_values", FNone); ("r_lengths", FNone); ("r_values", FNone)].

Definition x_history := [x_good 3; x_bad; x_good 4; x_missing; []; x_good 5].
