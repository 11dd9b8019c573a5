(** Concrete coders and instances for the CSV theorems. *)
From Coq Require Import NArith String Ascii List Bool.
From Verif Require Import CsvModel CsvSpec.
Import ListNotations.
Local Notation length := List.length.

(** The text of an ASCII literal. *)
Fixpoint txt (s : string) : text :=
  match s with
  | EmptyString => []
  | String a s => N_of_ascii a :: txt s
  end.

Definition comma : N := 44%N.
Definition bar : N := 124%N.

Definition e_columns : list string := ["id"; "tags"; "text"; "idx"; "val"]%string.

Definition e_features : list (string * feature_spec) :=
  [("text", FixedLen []); ("tags", VarLen); ("id", FixedLen [1]);
   ("y", SparseFeature ["idx"] "val")]%string.

Definition e_multivalent : list string := ["tags"]%string.

(** str(list) and the dtype conversion, of no effect here. *)
Definition e_cast (v : value) : value := v.
Definition e_show (l : list value) : text := [].

Definition e_coder : coder :=
  match make_coder e_columns e_features comma (Some bar) e_multivalent with
  | Ok c => c
  | Raise _ => Coder [] 0 None []
  end.

Definition e_instance : list (string * field_value) :=
  [("id", PyList [VOther (txt "12") true]);
   ("tags", NdArray [VBytes (Some (txt "a|b")); VBytes (Some []); VStr (txt "c,d")]);
   ("text", One (VBytes (Some (quote :: txt "hi, you" ++ [quote]))));
   ("idx", PyList []); ("val", PyList [])]%string.

Definition e_texts (column : string) : list text :=
  if String.eqb column "id" then [txt "12"]
  else if String.eqb column "tags" then [txt "a|b"; []; txt "c,d"]
  else if String.eqb column "text" then [quote :: txt "hi, you" ++ [quote]]
  else [].

Lemma e_made : make_coder e_columns e_features comma (Some bar) e_multivalent = Ok e_coder.
Proof. vm_compute. reflexivity. Qed.

Lemma e_matching : matching_columns e_columns e_features.
Proof.
  split; [|split].
  - repeat constructor; cbn; intros H; repeat (destruct H as [H|H]; [discriminate H|]); now destruct H.
  - repeat constructor; cbn; intros H; repeat (destruct H as [H|H]; [discriminate H|]); now destruct H.
  - intro c. cbn. tauto.
Qed.

Lemma e_encodable : forall s, forallb encodable_char s = true -> encodable s.
Proof. intros s H. exact (proj1 (forallb_forall _ _) H). Qed.

Lemma e_writable : writable_instance e_cast e_features e_multivalent e_instance e_texts.
Proof.
  intros f column Hf Hc.
  repeat (destruct Hf as [Hf|Hf]; [subst f; cbn in Hc|]); try (now destruct Hf);
    repeat (destruct Hc as [Hc|Hc]; [subst column|]); try (now destruct Hc).
  - eexists. split; [reflexivity|]. cbn. split.
    + eexists. split; [constructor|]. cbn. repeat constructor.
    + split; [constructor; [now apply e_encodable|constructor]|].
      split; [auto|]. eexists. reflexivity.
  - eexists. split; [reflexivity|]. cbn. split.
    + eexists. split; [constructor|]. cbn. repeat constructor.
    + split; [repeat (constructor; [now apply e_encodable|]); constructor|].
      split; [discriminate|]. split; [discriminate|]. discriminate.
  - eexists. split; [reflexivity|]. cbn. split.
    + eexists. split; [constructor|]. cbn. repeat constructor.
    + split; [constructor; [now apply e_encodable|constructor]|].
      split; [auto|]. split; [discriminate|]. split; [reflexivity|auto].
  - eexists. split; [reflexivity|]. cbn. split.
    + eexists. split; [constructor|]. cbn. constructor.
    + split; [constructor|].
      split; [auto|]. split; [discriminate|]. discriminate.
  - eexists. split; [reflexivity|]. cbn. split.
    + eexists. split; [constructor|]. cbn. constructor.
    + split; [constructor|].
      split; [auto|]. split; [discriminate|]. discriminate.
Qed.

Lemma e_one_line : forall texts column, In texts [e_texts; e_texts] ->
  Forall one_line (texts column).
Proof.
  assert (K : forall s, forallb (fun c => negb (is_newline c)) s = true -> one_line s).
  { intros s H c Hc. rewrite forallb_forall in H. apply negb_true_iff. auto. }
  assert (F : forall column, Forall one_line (e_texts column)).
  { intro column. unfold e_texts.
    repeat destruct (String.eqb _ _); repeat (constructor; [now apply K|]); constructor. }
  intros texts column [H|[H|[]]]; subst texts; apply F.
Qed.

(** One string column. *)
Definition one_column : coder :=
  match make_coder ["x"%string] [("x"%string, FixedLen [])] comma None [] with
  | Ok c => c | Raise _ => Coder [] 0 None []
  end.

Definition one_instance (s : text) : list (string * field_value) :=
  [("x"%string, One (VStr s))].

(** One column of variable length. *)
Definition varlen_column : coder :=
  match make_coder ["x"%string] [("x"%string, VarLen)] comma None [] with
  | Ok c => c | Raise _ => Coder [] 0 None []
  end.

(** Two columns, of which the schema has only the second. *)
Definition extra_column : coder :=
  match make_coder ["w"; "x"]%string [("x"%string, VarLen)] comma None [] with
  | Ok c => c | Raise _ => Coder [] 0 None []
  end.
