(** * Two analysis graphs with packable combines *)
From Coq Require Import String.
From Coq Require Import List Arith Bool Permutation Lia.
From Verif Require Import CombineModel PackModel PackSpec PackGraphModel PackGraphSpec PackTraverse PackAccProofs.
Import ListNotations.
Local Open Scope string_scope.
Local Notation length := List.length.

Notation gnode := (@node nat string).
Definition g_number (v : value nat) : nat := match v with Tuple [Object n] => n | Object n => n | _ => 0 end.
(** A count and a sum. *)
Definition g_combiner (f : value nat -> nat) : combiner (value nat) (value nat) (value nat) :=
  Combiner _ _ _ (Object 0) (fun a x => Object (g_number a + f x))
    (fun l => Object (list_sum (map g_number l))) (fun a => Tuple [a]).
Definition g_count := g_combiner (fun _ => 1).
Definition g_sum := g_combiner g_number.

(** One analyzer from the inputs to the extracted output. *)
Definition g_model : gnode := Node "ApplySavedModel" ApplySavedModel [] 0.
Definition g_acc (name : string) (c : combiner (value nat) (value nat) (value nat)) (keys : list string) : gnode :=
  Node (name ++ "/accumulate") (CombineAccumulate c) [Node (name ++ "/inputs") (ExtractKeys keys) [g_model] 0] 0.
Definition g_out (name : string) (c : combiner (value nat) (value nat) (value nat)) (keys : list string) : gnode :=
  Node (name ++ "/outputs") (ExtractOutputs 1) [Node (name ++ "/merge") (CombineMerge c) [g_acc name c keys] 0] 0.

(** A count that is bound to a tensor, and a sum that is flattened before; the
    accumulator of the count is written to the cache. *)
Definition g_root : gnode :=
  Node "CreateSavedModel" (SavedModel "transform")
    [Node "bind/count" (TensorBinding "count:0") [g_out "count" g_count ["x"; "y"]] 0;
     Node "bind/sum" (TensorBinding "sum:0") [Node "flatten" (Other 1 "FlattenLists") [g_out "sum" g_sum ["y"]] 0] 0] 0.
Definition g_caches : list gnode := [Node "encode" (Other 1 "EncodeCache") [g_acc "count" g_count ["x"; "y"]] 0].

(** A vocabulary with reserved tokens: its file is written from the outputs of
    the combine and from the reserved tokens. *)
Definition r_root : gnode :=
  Node "CreateSavedModel" (SavedModel "transform")
    [Node "bind/vocabulary" (TensorBinding "vocabulary:0")
       [Node "order_and_write" (Other 1 "VocabularyOrderAndWrite")
          [g_out "vocabulary" g_count ["x"]; Node "reserved" (Other 1 "ExtractVocabularyReservedTokens") [] 0] 0] 0;
     Node "bind/sum" (TensorBinding "sum:0") [g_out "sum" g_sum ["y"]] 0] 0.

(** The rows of the dataset; the reserved tokens; all other operations give the
    concatenation of their inputs. *)
Definition g_row (x y : nat) : value nat := Dict [("x", Object x); ("y", Object y)].
Definition g_other (label : string) (d : @kind nat string) (ins outs : list (list (value nat))) : Prop :=
  outs = match d with
         | ApplySavedModel => [[g_row 1 10; g_row 2 20; g_row 3 30]]
         | Other 1 "ExtractVocabularyReservedTokens" => [[Object 7; Object 8]]
         | _ => [concat ins]
         end.

(** ** They are graphs that packing is made for *)
Lemma in_graph_list (values : list gnode) n : in_graph values n <-> In n (flat_map subnodes values).
Proof.
  unfold in_graph. rewrite in_flat_map. split; intros (v & I & K); exists v; (split; [exact I|]); now apply subnodes_iff.
Qed.

Lemma short_label (values : list gnode) l : (forall p, In p ["PackedCombineAccumulate["; "AddKey["; "ExtractFromDict["; "ExtractPackedCombineMergeOutputs["; "FlattenInputForPackedCombineMerge["; "PackedCombineMerge["] ->
     prefix p l = false) -> ~ packing_label values l.
Proof.
  intros H P.
  assert (forall p s, prefix p (p ++ s) = true) as A.
  { intros p s. induction p as [|c p IH]; cbn; [now destruct s|]. destruct (Ascii.ascii_dec c c); [exact IH|congruence]. }
  inversion P as [p n I G|p k I]; subst.
  - specialize (H p). rewrite A in H. discriminate H. cbn in I |- *. tauto.
  - specialize (H p). rewrite A in H. discriminate H. cbn in I |- *. tauto.
Qed.

Lemma g_well_formed : well_formed (g_root :: g_caches).
Proof.
  split.
  - intros l d ins i d' ins' i' H H'. apply in_graph_list in H, H'. cbn in H, H'.
    repeat destruct H as [[= <- <- <- <-]|H]; try destruct H; repeat destruct H' as [[= <- <- <-]|H']; try destruct H'; split; reflexivity.
  - intros l d ins i H. apply in_graph_list in H. cbn in H.
    repeat destruct H as [[= <- <- <- <-]|H]; try destruct H; (split; [cbn; lia|]); (split; [exact I|]);
      (split; [cbn; unfold g_model; eauto 10|]); apply short_label; intros p J; cbn in J; repeat destruct J as [<-|J]; try destruct J; reflexivity.
Qed.

Lemma r_well_formed : well_formed [r_root].
Proof.
  split.
  - intros l d ins i d' ins' i' H H'. apply in_graph_list in H, H'. cbn in H, H'.
    repeat destruct H as [[= <- <- <- <-]|H]; try destruct H; repeat destruct H' as [[= <- <- <-]|H']; try destruct H'; split; reflexivity.
  - intros l d ins i H. apply in_graph_list in H. cbn in H.
    repeat destruct H as [[= <- <- <- <-]|H]; try destruct H; (split; [cbn; lia|]); (split; [exact I|]);
      (split; [cbn; unfold g_model; eauto 10|]); apply short_label; intros p J; cbn in J; repeat destruct J as [<-|J]; try destruct J; reflexivity.
Qed.
Lemma no_result_list (n : gnode) : (forall m, In m (subnodes n) -> forall num, def_of m <> ExtractOutputs num) -> no_result n.
Proof. intros H l num ins i K. apply subnodes_iff in K. now apply (H _ K num). Qed.

Lemma g_single_phase : single_phase g_root g_caches.
Proof.
  split; [|split; [|split; [|split; [|split]]]].
  - eexists. eexists. eexists. split; [reflexivity|]. intros b [<-|[<-|[]]]; (split; [eexists; reflexivity|]); right.
    + exists 1. split; [lia|]. constructor; [|eexists; now left]. constructor. apply no_result_list. intros m J num. cbn in J.
      repeat destruct J as [<-|J]; try destruct J; discriminate.
    + exists 2. split; [lia|]. constructor; [|eexists; now left]. constructor; [|eexists; now right]. constructor. apply no_result_list. intros m J num. cbn in J.
      repeat destruct J as [<-|J]; try destruct J; discriminate.
  - intros c [<-|[]]. apply no_result_list. intros m J num. cbn in J. repeat destruct J as [<-|J]; try destruct J; discriminate.
  - intros l x ins i v I K. apply subnodes_iff in K. cbn in I. repeat destruct I as [<-|I]; try destruct I; cbn in K; repeat (destruct K as [K|K]; [try discriminate K|]); try (now destruct K); injection K as <- <- <-; reflexivity.
  - intros l l' num num' ins i i' H H'. apply in_graph_list in H, H'. cbn in H, H'.
    repeat (destruct H as [H|H]; [try discriminate H|]); try (now destruct H);
      repeat (destruct H' as [H'|H']; [try discriminate H'|]); try (now destruct H');
      injection H as <- _ E _; injection H' as <- _ E' _; reflexivity || (rewrite <- E in E'; discriminate E').
  - intros l d ins i lm c mins mi H J. apply in_graph_list in H. cbn in H.
    repeat destruct H as [[= <- <- <- <-]|H]; try destruct H; cbn in J; repeat (destruct J as [J|J]; [try discriminate J|]); try (now destruct J); eexists; reflexivity.
  - intros v c [<-|[]]. discriminate.
Qed.

(** ** A run of the packed graphs *)
Definition g_dict (a b : string) (x y : value nat) : list (list (value nat)) := [[Dict [(a, x); (b, y)]]].
Definition g_run (l : string) : list (list (value nat)) :=
  match l with
  | "ApplySavedModel" => [[g_row 1 10; g_row 2 20; g_row 3 30]]
  | "PackedCombineAccumulate[ApplySavedModel]" => g_dict "count/accumulate" "sum/accumulate" (Object 3) (Object 60)
  | "count/accumulate" | "encode" => [[Object 3]]
  | "sum/accumulate" => [[Object 60]]
  | "AddKey[count/merge]" => [[Tuple [Str "count/merge"; Object 3]]]
  | "AddKey[sum/merge]" => [[Tuple [Str "sum/merge"; Object 60]]]
  | "FlattenInputForPackedCombineMerge[2]" => [[Tuple [Str "count/merge"; Object 3]; Tuple [Str "sum/merge"; Object 60]]]
  | "PackedCombineMerge[2]" => g_dict "count/merge" "sum/merge" (Tuple [Object 3]) (Tuple [Object 60])
  | "ExtractFromDict[count/merge]" => [[Tuple [Object 3]]]
  | "ExtractFromDict[sum/merge]" => [[Tuple [Object 60]]]
  | "ExtractPackedCombineMergeOutputs[count/merge]" | "bind/count" => [[Object 3]]
  | "ExtractPackedCombineMergeOutputs[sum/merge]" | "flatten" | "bind/sum" => [[Object 60]]
  | _ => []
  end.

Lemma evaluates_list size other run (values : list gnode) :
  (forall l d ins i, In (Node l d ins i) (flat_map subnodes values) -> computes size other l d (map (content run) ins) (run l)) ->
  evaluates size other run values.
Proof. intros H v l d ins i I K. apply (H l d ins i). apply in_flat_map. exists v. split; [exact I|]. now apply subnodes_iff. Qed.

Lemma one_column (n : value nat) : output_columns 1 [Tuple [n]] [[n]].
Proof. exists [[n]]. repeat constructor. Qed.

Lemma g_runs : exists root' caches', optimize g_root g_caches 1 = Some (root', caches') /\
  evaluates 10 g_other g_run (inputs_of root' ++ caches') /\
  map (bound g_run) (inputs_of root') = [("bind/sum", TensorBinding "sum:0", [Object 60]); ("bind/count", TensorBinding "count:0", [Object 3])].
Proof.
  destruct (optimize g_root g_caches 1) as [[root' caches']|] eqn:E; [|vm_compute in E; discriminate].
  exists root', caches'. split; [reflexivity|]. vm_compute in E. injection E as <- <-. split; [|reflexivity].
  apply evaluates_list. intros l d ins i H. cbn in H.
  repeat destruct H as [[= <- <- <- <-]|H]; try destruct H; cbn.
  all: try (constructor; reflexivity).
  all: try (constructor; apply one_column).
  all: try (constructor; repeat constructor; eexists; split; reflexivity).
  all: try (apply computes_packed_accumulate with (s := Bundle [g_row 1 10; g_row 2 20; g_row 3 30]); reflexivity).
  all: try (apply computes_packed_merge with (s := Bundle [Tuple [Str "count/merge"; Object 3]; Tuple [Str "sum/merge"; Object 60]]); reflexivity).
Qed.

(** The graph with the reserved tokens: what packing makes of it does not read
    the reserved tokens. *)
Definition r_run (l : string) : list (list (value nat)) :=
  match l with
  | "ApplySavedModel" => [[g_row 1 10; g_row 2 20; g_row 3 30]]
  | "PackedCombineAccumulate[ApplySavedModel]" => g_dict "vocabulary/accumulate" "sum/accumulate" (Object 3) (Object 60)
  | "vocabulary/accumulate" => [[Object 3]]
  | "sum/accumulate" => [[Object 60]]
  | "AddKey[vocabulary/merge]" => [[Tuple [Str "vocabulary/merge"; Object 3]]]
  | "AddKey[sum/merge]" => [[Tuple [Str "sum/merge"; Object 60]]]
  | "FlattenInputForPackedCombineMerge[2]" => [[Tuple [Str "vocabulary/merge"; Object 3]; Tuple [Str "sum/merge"; Object 60]]]
  | "PackedCombineMerge[2]" => g_dict "vocabulary/merge" "sum/merge" (Tuple [Object 3]) (Tuple [Object 60])
  | "ExtractFromDict[vocabulary/merge]" => [[Tuple [Object 3]]]
  | "ExtractFromDict[sum/merge]" => [[Tuple [Object 60]]]
  | "ExtractPackedCombineMergeOutputs[vocabulary/merge]" | "order_and_write" | "bind/vocabulary" => [[Object 3]]
  | "ExtractPackedCombineMergeOutputs[sum/merge]" | "bind/sum" => [[Object 60]]
  | "reserved" => [[Object 7; Object 8]]
  | _ => []
  end.

Lemma r_runs : exists root' caches', optimize r_root [] 1 = Some (root', caches') /\
  evaluates 10 g_other r_run (inputs_of root' ++ caches') /\
  In ("bind/vocabulary", TensorBinding "vocabulary:0", [Object 3]) (map (bound r_run) (inputs_of root')).
Proof.
  destruct (optimize r_root [] 1) as [[root' caches']|] eqn:E; [|vm_compute in E; discriminate].
  exists root', caches'. split; [reflexivity|]. vm_compute in E. injection E as <- <-. split; [|cbn; tauto].
  apply evaluates_list. intros l d ins i H. cbn in H.
  repeat destruct H as [[= <- <- <- <-]|H]; try destruct H; cbn.
  all: try (constructor; reflexivity).
  all: try (constructor; apply one_column).
  all: try (constructor; repeat constructor; eexists; split; reflexivity).
  all: try (apply computes_packed_accumulate with (s := Bundle [g_row 1 10; g_row 2 20; g_row 3 30]); reflexivity).
  all: try (apply computes_packed_merge with (s := Bundle [Tuple [Str "vocabulary/merge"; Object 3]; Tuple [Str "sum/merge"; Object 60]]); reflexivity).
Qed.

Lemma r_original (run : string -> list (list (value nat))) :
  evaluates 10 g_other run (inputs_of r_root) -> ~ In ("bind/vocabulary", TensorBinding "vocabulary:0", [Object 3]) (map (bound run) (inputs_of r_root)).
Proof.
  intros E I. cbn in I. destruct I as [H|[H|[]]]; [|discriminate H].
  assert (forall l d ins i, In (Node l d ins i) (subnodes (nth 0 (inputs_of r_root) r_root)) -> computes 10 g_other l d (map (content run) ins) (run l)) as A.
  { intros l d ins i K. apply (E (nth 0 (inputs_of r_root) r_root) l d ins i); [now left|]. now apply subnodes_iff. }
  unfold r_root in A. cbn [nth inputs_of] in A.
  assert (computes 10 g_other "reserved" (Other 1 "ExtractVocabularyReservedTokens") [] (run "reserved")) as R.
  { apply (A _ _ [] 0). cbn. tauto. }
  assert (computes 10 g_other "order_and_write" (Other 1 "VocabularyOrderAndWrite") [nth 0 (run "vocabulary/outputs") []; nth 0 (run "reserved") []] (run "order_and_write")) as O.
  { apply (A _ _ [g_out "vocabulary" g_count ["x"]; Node "reserved" (Other 1 "ExtractVocabularyReservedTokens") [] 0] 0). cbn. tauto. }
  assert (computes 10 g_other "bind/vocabulary" (TensorBinding "vocabulary:0") [nth 0 (run "order_and_write") []] (run "bind/vocabulary")) as B.
  { apply (A _ _ [Node "order_and_write" (Other 1 "VocabularyOrderAndWrite")
          [g_out "vocabulary" g_count ["x"]; Node "reserved" (Other 1 "ExtractVocabularyReservedTokens") [] 0] 0] 0). cbn. tauto. }
  inversion R as [| | | | | | | | | | | | | |n x ins outs RR]; subst; inversion O as [| | | | | | | | | | | | | |n x ins outs OO]; subst;
    inversion B as [| | | | | | | | | | | | x ins outs BB| |]; subst. cbv [g_other] in RR, OO, BB.
  unfold bound in H. cbn [content] in H. rewrite BB, OO, RR in H. cbn in H. injection H as H. apply (f_equal (@length _)) in H. rewrite !app_length in H. cbn in H. lia.
Qed.
