(** A preprocessing function with several vocabularies. *)
From Coq Require Import String Ascii List Bool Arith QArith Qcanon.
From Verif Require Import VocabModel VocabFileModel ByNameModel.
Import ListNotations.

Definition nm (s : string) : name := list_ascii_of_string s.

(** Vocabularies "my vocab" (text) and "dir/words" (TFRecord), one without a name, an approximate one, and
    an annotated asset. *)
Definition bn_params (text : bool) (reserved : option (list string)) : params :=
  Params true text false None (Q2Qc 0) None false false reserved.
Definition bn_rows (l : list string) : list (string * Qc) := map (fun t => (t, Q2Qc 1)) l.
Definition bn_fmt (q : Qc) : string := "1"%string.

Definition bn_one : vocab := Vocab (Some (nm "my vocab")) false (nm "x/vocabulary") true false ["b"; "a"]%string 2.
Definition bn_two : vocab := Vocab (Some (nm "dir/words")) false (nm "y/vocabulary") false false ["c"]%string 1.
Definition bn_three : vocab := Vocab None true (nm "z/vocabulary") true false ["2 d"; "1 e"; "1 f"]%string 3.
Definition bn_four : vocab := Vocab None true (nm "approximate_vocabulary") true true ["3 g"; "1 h"]%string 0.
Definition bn_calls : list call :=
  [MakeVocabulary bn_one; AnnotateAsset (nm "key") (nm "tmp/c.txt"); MakeVocabulary bn_two; MakeVocabulary bn_three; MakeVocabulary bn_four].
Definition bn_others : list (name * file) := [(nm "c.txt", Text "x"%string)].

(** "words" and "dir/words" *)
Definition bn_words : vocab := Vocab (Some (nm "words")) false (nm "x/vocabulary") true false ["b"; "a"]%string 2.
Definition bn_dir_words : vocab := Vocab (Some (nm "dir/words")) false (nm "y/vocabulary") true false ["c"]%string 1.

(** A vocabulary with a reserved token that is also in the data. *)
Definition bn_reserved : vocab := Vocab (Some (nm "words")) false (nm "x/vocabulary") true false ["z"; "b"; "a"]%string 4.
