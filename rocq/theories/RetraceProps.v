(** * Properties of tracing a preprocessing function again (TensorFlow 2) *)
From Coq Require Import String List ZArith.
From Verif Require Import RetraceModel RetraceSpec RetraceProofs RetraceRun RetraceExample.
Import ListNotations.
Local Open Scope string_scope.
Local Open Scope list_scope.

(** C62: a function that calls its analyzers in the same order whenever it is
    traced is accepted, and the saved transform gives every output the value it
    means on the analyzed dataset. *)
Theorem c62_same_order : forall (V : Type) (op_value : nat -> list V -> V)
    (analyze : nat -> list (list V) -> V) (missing : V) (dataset : list (string -> V)) p batch,
  in_order p -> outputs_refer p ->
  exists outs, write_and_transform op_value analyze missing dataset p p batch = Some outs /\
    right op_value analyze dataset p batch outs.
Proof. exact @same_order. Qed.
Print Assumptions c62_same_order.

Example c62_same_order_applies :
  in_order ex_chain /\ outputs_refer ex_chain /\
  write_and_transform ex_op ex_analyze (-1)%Z ex_dataset ex_chain ex_chain ex_batch = Some [("a", 18%Z); ("b", 6%Z)].
Proof. split; [exact ex_chain_in_order|]. split; [repeat constructor | vm_compute; reflexivity]. Qed.

(** C62: if every analyzer call was given a name of its own (up to case), the
    analyzers may be called in any other order when the function is traced again:
    it is accepted and every output has its value. *)
Theorem c62_named : forall (V : Type) (op_value : nat -> list V -> V)
    (analyze : nat -> list (list V) -> V) (missing : V) (dataset : list (string -> V)) first again was batch,
  in_order first -> outputs_refer again -> reordered first again was -> named_apart first ->
  exists outs, write_and_transform op_value analyze missing dataset first again batch = Some outs /\
    right op_value analyze dataset first batch outs.
Proof. exact @named. Qed.
Print Assumptions c62_named.

Example c62_named_applies :
  let first := ex_two "sum_of_x" "sum_of_y" "x" "x" in
  let again := ex_two_again "sum_of_x" "sum_of_y" "x" "x" in
  in_order first /\ outputs_refer again /\ reordered first again ex_swap /\ named_apart first /\
  write_and_transform ex_op ex_analyze (-1)%Z ex_dataset first again ex_batch = Some [("a", 3%Z); ("b", 22%Z)].
Proof.
  split; [apply ex_in_order|]. split; [apply ex_refer|]. split; [apply ex_reordered|].
  split; [exact ex_named_apart | vm_compute; reflexivity].
Qed.

(** C62: without names of their own, but with no two calls reading the same set of
    inputs, another order of calls is either rejected or harmless. *)
Theorem c62_distinct_sources : forall (V : Type) (op_value : nat -> list V -> V)
    (analyze : nat -> list (list V) -> V) (missing : V) (dataset : list (string -> V)) first again was batch outs,
  in_order first -> outputs_refer again -> reordered first again was -> read_apart first ->
  write_and_transform op_value analyze missing dataset first again batch = Some outs ->
  right op_value analyze dataset first batch outs.
Proof. exact @distinct_sources. Qed.
Print Assumptions c62_distinct_sources.

(** The same names and other inputs: another order is rejected; with other names it
    is accepted. *)
Example c62_distinct_sources_applies :
  let first := ex_two "sum" "sum" "x" "y" in
  let again := ex_two_again "sum" "sum" "x" "y" in
  in_order first /\ outputs_refer again /\ reordered first again ex_swap /\ read_apart first /\
  write_and_transform ex_op ex_analyze (-1)%Z ex_dataset first again ex_batch = None /\
  write_and_transform ex_op ex_analyze (-1)%Z ex_dataset (ex_two "sum" "other" "x" "y")
    (ex_two_again "sum" "other" "x" "y") ex_batch = Some [("a", 3%Z); ("b", 42%Z)].
Proof.
  cbv zeta. split; [apply ex_in_order|]. split; [apply ex_refer|]. split; [apply ex_reordered|].
  split; [exact ex_read_apart|]. split; vm_compute; reflexivity.
Qed.

(** C62: whatever the second trace is, when it is accepted each of its calls gets
    the result of a call of the first trace that reads the same inputs. *)
Theorem c62_detects : forall (V : Type) (op_value : nat -> list V -> V)
    (analyze : nat -> list (list V) -> V) (missing : V) (dataset : list (string -> V)) first again batch outs,
  in_order first ->
  write_and_transform op_value analyze missing dataset first again batch = Some outs ->
  exists results,
    Forall2 (fun c v => exists i c', nth_error (calls first) i = Some c' /\
               (forall key, call_reads key c <-> call_reads key c') /\
               forall b, means op_value analyze dataset first b (Result i) v) (calls again) results /\
    outs = map (fun o => (fst o, value op_value missing batch results (snd o))) (outputs again).
Proof. exact @detects. Qed.
Print Assumptions c62_detects.

(** A call less: accepted, and its result is the right one. *)
Example c62_detects_applies :
  in_order ex_chain /\
  write_and_transform ex_op ex_analyze (-1)%Z ex_dataset ex_chain
    (Program [Call "SUM" 0 [Input "x"]] [("b", Result 0)]) ex_batch = None /\
  write_and_transform ex_op ex_analyze (-1)%Z ex_dataset ex_chain
    (Program [Call "sum" 0 [Input "x"]] [("b", Result 0)]) ex_batch = Some [("b", 3%Z)].
Proof. split; [exact ex_chain_in_order|]. split; vm_compute; reflexivity. Qed.

(** C62: the names of the calls of a trace are pairwise distinct, whatever names
    the user gave and whatever names were taken before. *)
Theorem c62_names_distinct : forall used cs,
  List.length (call_names used cs) = List.length cs /\ NoDup (call_names used cs) /\
  forall x, In x (call_names used cs) -> ~ In (lower x) (map fst used).
Proof.
  exact (fun used cs => conj (names_length cs used) (conj (names_nodup cs used)
    (fun x I => proj1 (lookup_none (lower x) used) (names_fresh cs used x I)))).
Qed.
Print Assumptions c62_names_distinct.

(** Suffixes that users took themselves are skipped. *)
Example c62_names_distinct_applies :
  call_names [] [Call "mean_1" 0 []; Call "mean" 0 []; Call "Mean" 0 []; Call "mean" 0 []] =
    ["mean_1"; "mean"; "Mean_2"; "mean_3"].
Proof. vm_compute. reflexivity. Qed.

(** C62, as promised by the error message (another order of calls is detected), is
    false: two unnamed calls of one analyzer that read the same input, made in the
    other order when the function is traced again, are accepted, and each gets the
    result of the other.  Only a warning is logged. *)
Theorem c62_order_detected_refuted : exists first again was (dataset : list (string -> Z)) batch outs,
  in_order first /\ outputs_refer again /\ reordered first again was /\
  write_and_transform ex_op ex_analyze (-1)%Z dataset first again batch = Some outs /\
  ~ right ex_op ex_analyze dataset first batch outs.
Proof.
  exact (ex_intro _ (ex_two "sum" "sum" "x" "x") (ex_intro _ (ex_two_again "sum" "sum" "x" "x")
    (ex_intro _ ex_swap (ex_intro _ ex_dataset (ex_intro _ ex_batch (ex_intro _ [("a", 6%Z); ("b", 16%Z)]
    (conj (ex_in_order _ _ _ _) (conj (ex_refer _ _ _ _) (conj (ex_reordered _ _ _ _)
    (conj eq_refl ex_wrong)))))))))).
Qed.
Print Assumptions c62_order_detected_refuted.
