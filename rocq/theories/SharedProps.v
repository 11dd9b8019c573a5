(** * Property C71: the graph that the threads of a worker share *)
From Coq Require Import String List Bool Arith Permutation.
From Verif Require Import SharedModel SharedSpec SharedProofs SharedLifeProofs SharedExample.
Import ListNotations.

(** Whatever the schedule of a worker's threads, bundles and garbage collector, each batch that is processed was
    given to that ParDo, and became what the ParDo's model in the batch's directory makes of it; or the call raised,
    and then the ParDo was also called with another directory. *)
Theorem c71_right_model : forall model batch out (load : nat -> string -> option model) (run : model -> batch -> option out) sch e,
  In e (log (execute load run sch)) -> is_called sch (e_pardo e) (e_batch e) (e_dir e) /\
  (e_outcome e = transformed load run (e_pardo e) (e_batch e) (e_dir e) \/
   e_outcome e = Wrong_directory /\ exists b dir, dir <> e_dir e /\ is_called sch (e_pardo e) b dir).
Proof. exact @right_model. Qed.
Example c71_right_model_applies :
  map (@e_outcome _ _) (log (execute load_ run_ two_pardos)) = [Yielded 40; Yielded 35; Yielded 56; Graph_error; Yielded 45] /\
  map (@e_outcome _ _) (log (execute load_ run_ moved)) = [Yielded 35; Wrong_directory].
Proof. vm_compute. auto. Qed.

(** If each ParDo has one directory, and no call is left unfinished, each call has exactly its own outputs. *)
Theorem c71_nothing_lost : forall model batch out (load : nat -> string -> option model) (run : model -> batch -> option out) sch (D : nat -> string),
  well_formed sch -> (forall f, ~ busy f sch) -> (forall p b dir, is_called sch p b dir -> dir = D p) ->
  Permutation (log (execute load run sch))
    (map (fun c => let '(f, b, dir) := c in let p := nth f (set_ups sch) 0 in Entry p b dir (transformed load run p b dir)) (calls sch)).
Proof. exact @nothing_lost. Qed.
Example c71_nothing_lost_applies : well_formed two_pardos /\ (forall f, ~ busy f two_pardos) /\
  (forall p b dir, is_called two_pardos p b dir -> dir = if Nat.eqb p 3 then "ab" else "cde")%string /\ List.length (calls two_pardos) = 5.
Proof. exact two_pardos_meets. Qed.

(** No two graph states of a ParDo are in memory at a time. *)
Theorem c71_one_copy : forall model batch out (load : nat -> string -> option model) (run : model -> batch -> option out) sch o o' ob ob',
  nth_error (objects (execute load run sch)) o = Some ob -> nth_error (objects (execute load run sch)) o' = Some ob' ->
  o_collected ob = false -> o_collected ob' = false -> o_handle ob = o_handle ob' -> o = o'.
Proof. exact @one_copy. Qed.
Example c71_one_copy_applies : map (@o_collected nat) (objects (execute load_ run_ two_pardos)) = [false; false] /\
  map (@o_handle nat) (objects (execute load_ run_ two_pardos)) = [3; 5] /\
  map (@o_collected nat) (objects (execute load_ run_ turns)) = [true; false; false].
Proof. vm_compute. auto. Qed.

(** While none of a ParDo's copies is torn down, its model is loaded at most once, whatever the number of threads. *)
Theorem c71_loaded_once : forall model batch out (load : nat -> string -> option model) (run : model -> batch -> option out) sch p,
  (forall f, pardo_of sch f p -> ~ torn_down sch f) -> count_occ Nat.eq_dec (loads (execute load run sch)) p <= 1.
Proof. exact @loaded_once. Qed.
Example c71_loaded_once_applies : (forall f, pardo_of two_pardos f 3 -> ~ torn_down two_pardos f) /\
  loads (execute load_ run_ two_pardos) = [3; 5].
Proof. split; [|vm_compute; reflexivity]. intros f _ I. cbn in I. repeat (destruct I as [I|I]; [discriminate I|]). destruct I. Qed.

(** If a worker only ever has one ParDo, its model is loaded at most once, though its copies are torn down between
    bundles, until the shared state is cleared. *)
Theorem c71_keepalive : forall model batch out (load : nat -> string -> option model) (run : model -> batch -> option out) sch p,
  (forall q, In q (set_ups sch) -> q = p) -> ~ In Clear sch -> List.length (loads (execute load run sch)) <= 1.
Proof. exact @kept_alone. Qed.
Example c71_keepalive_applies : (forall q, In q (set_ups bundles) -> q = 3) /\ ~ In Clear bundles /\
  (exists f, torn_down bundles f) /\ List.length (log (execute load_ run_ bundles)) = 2.
Proof.
  split; [intros q I; cbn in I; intuition auto|]. split; [intros I; cbn in I; repeat (destruct I as [I|I]; [discriminate I|]); destruct I|].
  split; [exists 0; cbn; auto|vm_compute; reflexivity].
Qed.

(** With a second ParDo it may be loaded again. *)
Theorem c71_keepalive_refuted : exists (sch : list (event nat)) p, well_formed sch /\ ~ In Clear sch /\
  count_occ Nat.eq_dec (loads (execute load_ run_ sch)) p = 2.
Proof. exact turns_loads. Qed.

(** Once the shared state is cleared, with no call that ends afterwards, and all copies are torn down, the garbage
    collector frees every graph. *)
Theorem c71_released : forall model batch out (load : nat -> string -> option model) (run : model -> batch -> option out) sch rest,
  well_formed (sch ++ Clear :: rest) -> (forall f, ~ In (Return f) rest) ->
  (forall f p, pardo_of (sch ++ Clear :: rest) f p -> torn_down (sch ++ Clear :: rest) f) ->
  forall ob, In ob (objects (execute load run ((sch ++ Clear :: rest) ++
    map Collect (seq 0 (List.length (objects (execute load run (sch ++ Clear :: rest)))))))) -> o_collected ob = true.
Proof. exact @released. Qed.
Example c71_released_applies : well_formed (bundles ++ Clear :: []) /\
  (forall f p, pardo_of (bundles ++ Clear :: []) f p -> torn_down (bundles ++ Clear :: []) f) /\
  List.length (objects (execute load_ run_ (bundles ++ Clear :: []))) = 1.
Proof. exact bundles_meets. Qed.

(** That the barrier comes before the end of every call is needed: a call that ends later keeps its graph for as
    long as the worker does nothing else. *)
Theorem c71_released_refuted : exists sch rest, well_formed (sch ++ Clear :: rest) /\
  (forall f p, pardo_of (sch ++ Clear :: rest) f p -> torn_down (sch ++ Clear :: rest) f) /\
  forall n ob, In ob (objects (execute load_ run_ ((sch ++ Clear :: rest) ++ map Collect (seq 0 n)))) -> o_collected ob = false.
Proof. exact late_meets. Qed.

Print Assumptions c71_right_model.
Print Assumptions c71_nothing_lost.
Print Assumptions c71_one_copy.
Print Assumptions c71_loaded_once.
Print Assumptions c71_keepalive.
Print Assumptions c71_keepalive_refuted.
Print Assumptions c71_released.
Print Assumptions c71_released_refuted.
