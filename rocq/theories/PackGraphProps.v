(** * C39: packing an analysis graph *)
From Coq Require Import String.
From Coq Require Import List Arith Bool Permutation.
From Verif Require Import CombineModel PackModel PackSpec PackGraphModel PackGraphSpec PackFinalProofs PackGraphExample.
Import ListNotations.
Local Open Scope string_scope.
Local Notation length := List.length.

Section Props.
Context {Obj X : Type}.

(** Packing does not fail, and keeps the final operation, the tensors that are
    bound and the number of caches.  Whatever the packed graph computes in a run,
    the graph as it was could have computed: each tensor has the same contents,
    and so has each cache. *)
Theorem c39_packing_keeps_results :
  forall size (other : string -> @kind Obj X -> list (list (value Obj)) -> list (list (value Obj)) -> Prop) root caches num_phases,
  0 < size -> well_formed (root :: caches) -> of_bindings root -> (num_phases <= 1 -> single_phase root caches) ->
  exists root' caches', optimize root caches num_phases = Some (root', caches') /\
    label_of root' = label_of root /\ def_of root' = def_of root /\ length caches' = length caches /\
    forall run', evaluates size other run' (inputs_of root' ++ caches') ->
      exists run, evaluates size other run (inputs_of root ++ caches) /\
        Permutation (map (bound run') (inputs_of root')) (map (bound run) (inputs_of root)) /\
        map (content run') caches' = map (content run) caches.
Proof. intros. now apply packing_keeps. Qed.
End Props.
Print Assumptions c39_packing_keeps_results.

(** A count and a sum over one dataset, with the accumulator of the count in the
    cache. *)
Example c39_packing_keeps_results_applies :
  (0 < 10 /\ well_formed (g_root :: g_caches) /\ of_bindings g_root /\ single_phase g_root g_caches) /\
  exists root' caches', optimize g_root g_caches 1 = Some (root', caches') /\
    evaluates 10 g_other g_run (inputs_of root' ++ caches') /\
    map (bound g_run) (inputs_of root') =
      [("bind/sum", TensorBinding "sum:0", [Object 60]); ("bind/count", TensorBinding "count:0", [Object 3])].
Proof.
  split; [|exact g_runs]. split; [repeat constructor|]. split; [exact g_well_formed|]. split; [|exact g_single_phase].
  exists "CreateSavedModel", "transform". eexists. split; [reflexivity|]. intros b [<-|[<-|[]]]; eexists; reflexivity.
Qed.

(** The results are not kept for every graph: when an operation after a packed
    combine has a second input, packing rebuilds it with the first one only.  The
    file of an approximate vocabulary with reserved tokens loses the reserved
    tokens when another analyzer is packed with it. *)
Theorem c39_reserved_tokens_refuted :
  exists (root : @node nat string) size other root' caches' run',
    0 < size /\ well_formed [root] /\ of_bindings root /\
    optimize root [] 1 = Some (root', caches') /\ evaluates size other run' (inputs_of root' ++ caches') /\
    ~ exists run, evaluates size other run (inputs_of root) /\
        Permutation (map (bound run') (inputs_of root')) (map (bound run) (inputs_of root)).
Proof.
  destruct r_runs as (root' & caches' & E & R & I).
  exists r_root, 10, g_other, root', caches', r_run.
  split; [repeat constructor|]. split; [exact r_well_formed|]. split.
  { exists "CreateSavedModel", "transform". eexists. split; [reflexivity|]. intros b [<-|[<-|[]]]; eexists; reflexivity. }
  split; [exact E|]. split; [exact R|]. intros (run & V & P). apply (r_original run V). now apply (Permutation_in _ P).
Qed.
Print Assumptions c39_reserved_tokens_refuted.
