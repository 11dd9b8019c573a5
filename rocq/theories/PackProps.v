(** * C39: packed combines *)
From Coq Require Import String.
From Coq Require Import List Arith Bool Permutation.
From Verif Require Import CombineModel PackModel PackSpec PackProofs.
Import ListNotations.
Local Open Scope string_scope.

Section Props.
Context {Obj : Type}.
Notation value := (value Obj).

(** Accumulating: the packed combine of a collection of dicts gives, for every
    schedule, a dict with the label of every combiner; the entry of a combiner is
    what this combiner alone would have computed from its own inputs. *)
Theorem c39_packed_accumulate : forall (ops : list (@combiner_op Obj)) size s,
  0 < size -> NoDup (map op_label ops) -> Forall (dict_with ops) (elements s) ->
  exists items, run_packed false size ops s = Some (Dict items) /\ map fst items = map op_label ops /\
    forall o, In o ops -> exists s', Forall2 (is_input o) (elements s) (elements s') /\
      dict_get items (op_label o) = Some (run_wrapper false (op_combiner o) s').
Proof. exact packed_accumulate. Qed.

(** Merging: likewise, from the accumulators that carry its key. *)
Theorem c39_packed_merge : forall (ops : list (@combiner_op Obj)) size s,
  0 < size -> NoDup (map op_label ops) -> NoDup (map (fun o => hd "" (op_keys o)) ops) ->
  Forall (keyed ops) (elements s) ->
  exists items, run_packed true size ops s = Some (Dict items) /\ map fst items = map op_label ops /\
    forall o, In o ops -> exists s', elements s' = accumulators_for (hd "" (op_keys o)) (elements s) /\
      dict_get items (op_label o) = Some (run_wrapper true (op_combiner o) s').
Proof. exact packed_merging. Qed.

(** When the result of a combiner does not depend on the schedule, packing it
    with others gives this result: the schedules of the packed and of the single
    combine have nothing to do with each other. *)
Theorem c39_packed_accumulate_any_schedule : forall (ops : list (@combiner_op Obj)) size s o s',
  0 < size -> NoDup (map op_label ops) -> Forall (dict_with ops) (elements s) ->
  In o ops -> any_schedule false o ->
  (exists l, Permutation l (elements s) /\ Forall2 (is_input o) l (elements s')) ->
  exists items, run_packed false size ops s = Some (Dict items) /\
    dict_get items (op_label o) = Some (run_wrapper false (op_combiner o) s').
Proof. exact packed_accumulate_any. Qed.

Theorem c39_packed_merge_any_schedule : forall (ops : list (@combiner_op Obj)) size s o s',
  0 < size -> NoDup (map op_label ops) -> NoDup (map (fun o => hd "" (op_keys o)) ops) ->
  Forall (keyed ops) (elements s) -> In o ops -> any_schedule true o ->
  Permutation (elements s') (accumulators_for (hd "" (op_keys o)) (elements s)) ->
  exists items, run_packed true size ops s = Some (Dict items) /\
    dict_get items (op_label o) = Some (run_wrapper true (op_combiner o) s').
Proof. exact packed_merging_any. Qed.
End Props.

(** Two combiners over a dict of two columns: a count and a sum of the second
    column. *)
Definition ex_number (v : value nat) : nat :=
  match v with Tuple [Object n] => n | Object n => n | _ => 0 end.
Definition ex_combiner (f : value nat -> nat) : combiner (value nat) (value nat) (value nat) :=
  Combiner _ _ _ (Object 0) (fun a x => Object (ex_number a + f x))
    (fun l => Object (list_sum (map ex_number l))) (fun a => Tuple [a]).
Definition ex_ops : list (@combiner_op nat) :=
  [CombinerOp (ex_combiner (fun _ => 1)) ["a"; "b"] "count"; CombinerOp (ex_combiner ex_number) ["b"] "sum"].
Definition ex_dict (a b : nat) : value nat := Dict [("a", Object a); ("b", Object b)].
Definition ex_sched : sched (value nat) :=
  Merged (Bundle [ex_dict 1 10; ex_dict 2 20]) [Merged (Bundle [ex_dict 3 30]) [Bundle []]; Bundle [ex_dict 4 40]].
Example c39_packed_accumulate_applies :
  NoDup (map op_label ex_ops) /\ Forall (dict_with ex_ops) (elements ex_sched) /\
  run_packed false 10 ex_ops ex_sched = Some (Dict [("count", Object 4); ("sum", Object 100)]).
Proof.
  split; [repeat constructor; cbn; intuition discriminate|]. split; [|reflexivity].
  cbn. repeat constructor; eexists; (split; [reflexivity|]); intros o k [<-|[<-|[]]]; cbn; intuition (subst; discriminate).
Qed.

Definition ex_merge_ops : list (@combiner_op nat) :=
  [CombinerOp (ex_combiner ex_number) ["m1"] "m1"; CombinerOp (ex_combiner ex_number) ["m2"] "m2"].
Definition ex_keyed (k : string) (n : nat) : value nat := Tuple [Str k; Object n].
Definition ex_merge_sched : sched (value nat) :=
  Merged (Bundle [ex_keyed "m2" 7; ex_keyed "m1" 1]) [Bundle [ex_keyed "m1" 2]; Bundle [ex_keyed "m1" 3; ex_keyed "m2" 8]].
Example c39_packed_merge_applies :
  NoDup (map (fun o => hd "" (op_keys o)) ex_merge_ops) /\ Forall (keyed ex_merge_ops) (elements ex_merge_sched) /\
  run_packed true 10 ex_merge_ops ex_merge_sched =
    Some (Dict [("m1", Tuple [Object 6]); ("m2", Tuple [Object 15])]).
Proof.
  split; [repeat constructor; cbn; intuition discriminate|]. split; [|reflexivity].
  assert (A : forall n, keyed ex_merge_ops (ex_keyed "m1" n)).
  { intros n. exists (CombinerOp (ex_combiner ex_number) ["m1"] "m1"), (Object n). split; [now left|reflexivity]. }
  assert (B : forall n, keyed ex_merge_ops (ex_keyed "m2" n)).
  { intros n. exists (CombinerOp (ex_combiner ex_number) ["m2"] "m2"), (Object n). split; [right; now left|reflexivity]. }
  cbn [elements ex_merge_sched flat_map app]. auto 10.
Qed.

Print Assumptions c39_packed_accumulate.
Print Assumptions c39_packed_merge.
Print Assumptions c39_packed_accumulate_any_schedule.
Print Assumptions c39_packed_merge_any_schedule.
