(** C41: what `CsvCoder.encode` writes is read back by a CSV reader. *)
From Coq Require Import NArith String List Bool.
From Verif Require Import CsvModel CsvSpec CsvProofs CsvExample.
Import ListNotations.

(** For every coder whose columns are those of the schema and every history of
    instances given to it, no call raises and a CSV reader with the same delimiter
    reads the file of the lines as one record per instance, with the columns in
    the declared order.  Each column shows its value, and a multivalent column is
    itself a line of the secondary delimiter that shows all its values.  Values
    may hold delimiters and quotes; they may hold line breaks only where
    `csv.writer` quotes these (Python 3.13 on).  See the refutations below for the
    cases the hypotheses leave out. *)
Theorem c41_lines_read_back_partial :
  forall quotes_newlines cast show_sequence columns features d sec multivalent c
         instances textss,
  make_coder columns features d sec multivalent = Ok c ->
  proper_delimiter d -> (forall d2, sec = Some d2 -> proper_delimiter d2) ->
  matching_columns columns features ->
  Forall2 (writable_instance cast features multivalent) instances textss ->
  quotes_newlines = true
  \/ (forall texts column, In texts textss -> Forall one_line (texts column)) ->
  exists lines rows,
    encode_all quotes_newlines cast show_sequence c fresh instances = map Ok lines
    /\ read_file d (file_of lines) = Some rows
    /\ Forall2 (row_shows columns features sec multivalent) textss rows.
Proof. exact lines_read_back. Qed.

Example c41_lines_read_back_applies :
  exists lines rows,
    encode_all false e_cast e_show e_coder fresh [e_instance; e_instance] = map Ok lines
    /\ read_file comma (file_of lines) = Some rows
    /\ Forall2 (row_shows e_columns e_features (Some bar) e_multivalent)
         [e_texts; e_texts] rows.
Proof.
  apply (c41_lines_read_back_partial false e_cast e_show e_columns e_features comma (Some bar)
           e_multivalent e_coder).
  - exact e_made.
  - repeat split; discriminate.
  - intros d2 H. inversion H. repeat split; discriminate.
  - exact e_matching.
  - repeat constructor; exact e_writable.
  - right. exact e_one_line.
Qed.

(** A line is returned only if each feature of fixed length got as many values as
    its shape asks for, whatever happened before on the same coder. *)
Theorem c41_fixed_lengths_checked :
  forall quotes_newlines cast show_sequence columns features d sec multivalent c b b'
         instance line,
  make_coder columns features d sec multivalent = Ok c ->
  encode quotes_newlines cast show_sequence c b instance = (b', Ok line) ->
  forall name shape, In (name, FixedLen shape) features -> shape <> [] ->
  exists v, lookup name instance = Some v
    /\ forall l, values_of v l -> length l = product shape.
Proof. exact counts_checked. Qed.

Example c41_fixed_lengths_checked_applies :
  exists b' line, encode false e_cast e_show e_coder fresh e_instance = (b', Ok line)
  /\ In ("id"%string, FixedLen [1]) e_features.
Proof. eexists. eexists. split; [vm_compute; reflexivity|cbn; tauto]. Qed.

(** Where `csv.writer` does not quote line breaks (before Python 3.13), a value
    with one is written as it stands: the reader sees two records. *)
Theorem c41_line_break_refuted :
  exists s line,
    make_coder ["x"%string] [("x"%string, FixedLen [])] comma None [] = Ok one_column
    /\ encode_all false e_cast e_show one_column fresh [one_instance s] = [Ok line]
    /\ read_file comma (file_of [line]) = Some [[[97%N]]; [[98%N]]].
Proof.
  exists [97; 10; 98]%N, [97; 10; 98]%N. repeat split; vm_compute; reflexivity.
Qed.

(** The same for a carriage return: the reader raises. *)
Theorem c41_carriage_return_refuted :
  exists s line,
    encode_all false e_cast e_show one_column fresh [one_instance s] = [Ok line]
    /\ read_file comma (file_of [line]) = None.
Proof.
  exists [97; 13; 98]%N, [97; 13; 98]%N. repeat split; vm_compute; reflexivity.
Qed.

(** A feature of variable length that is not declared multivalent loses all its
    values but the first, without an error. *)
Theorem c41_several_values_refuted :
  exists v1 v2 line,
    make_coder ["x"%string] [("x"%string, VarLen)] comma None [] = Ok varlen_column
    /\ encode_all false e_cast e_show varlen_column fresh
         [[("x"%string, PyList [v1; v2])]; [("x"%string, PyList [v1])]] = [Ok line; Ok line].
Proof.
  exists (VStr [97%N]), (VStr [98%N]), [97%N]. split; vm_compute; reflexivity.
Qed.

(** A numpy array that holds one zero is written as an empty column, while the
    list with the same zero is written as [0]. *)
Theorem c41_array_of_zero_refuted :
  exists zero, shows zero (txt "0")
    /\ encode_all false e_cast e_show varlen_column fresh
         [[("x"%string, NdArray [zero])]; [("x"%string, PyList [zero])]]
       = [Ok [quote; quote]; Ok (txt "0")]
    /\ read_file comma (file_of [[quote; quote]]) = Some [[[]]].
Proof.
  exists (VOther (txt "0") false). split; [constructor|]. split; vm_compute; reflexivity.
Qed.

(** A declared column the schema does not have is written as the text [None]. *)
Theorem c41_undescribed_column_refuted :
  exists instance line,
    make_coder ["w"; "x"]%string [("x"%string, VarLen)] comma None [] = Ok extra_column
    /\ lookup "w" instance = Some (One (VStr (txt "a")))
    /\ encode_all false e_cast e_show extra_column fresh [instance] = [Ok line]
    /\ read_file comma (file_of [line]) = Some [[txt "None"; txt "b"]].
Proof.
  exists [("w", One (VStr (txt "a"))); ("x", PyList [VStr (txt "b")])]%string.
  eexists. split; [|split; [|split]]; vm_compute; reflexivity.
Qed.

(** A call that fails because a string holds a lone surrogate is not forgotten:
    the row stays in the buffer, and every later call on the same coder fails too,
    although each of them succeeds on a new coder. *)
Theorem c41_failure_is_permanent_refuted :
  exists bad, (exists b, encode false e_cast e_show one_column fresh bad = (b, Raise UnicodeError)
    /\ forall later r, In r (encode_all false e_cast e_show one_column b later) ->
         exists e, r = Raise e)
    /\ exists line, encode_all false e_cast e_show one_column fresh [one_instance (txt "a")]
                    = [Ok line].
Proof.
  exists (one_instance [55296%N]). split.
  - eexists. split; [vm_compute; reflexivity|].
    intros later. apply stuck. reflexivity.
  - eexists. vm_compute. reflexivity.
Qed.

Print Assumptions c41_lines_read_back_partial.
Print Assumptions c41_fixed_lengths_checked.
Print Assumptions c41_line_break_refuted.
Print Assumptions c41_carriage_return_refuted.
Print Assumptions c41_several_values_refuted.
Print Assumptions c41_array_of_zero_refuted.
Print Assumptions c41_undescribed_column_refuted.
Print Assumptions c41_failure_is_permanent_refuted.
