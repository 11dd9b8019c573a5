(** * C51: transformed datasets *)
From Coq Require Import String.
From Coq Require Import List Arith Bool Lia.
From Verif Require Import TransformModel TransformSpec TransformProofs TransformExample.
Import ListNotations.
Local Open Scope string_scope.
Local Notation length := List.length.

Section Props.
Context {P T : Type}.
Variable eqb : P -> P -> bool.
Variable nbytes : record_batch P -> nat.
Variable max_bytes : nat.
Variable adapt : record_batch P -> option (list (string * T)).
Variable graph : list (string * T) -> option (list (string * T)).
Variable convert : list (string * T) -> option (record_batch P).
Variable validate : list (string * T) -> bool.

(** Record batches: for a batch of [m] rows with [n] transformed rows, the rows that
    come out are the transformed ones, in order, in well formed batches that are small
    enough or have one row; the passthrough columns are next to them, or beside the
    batches when there is one value for all the rows; nothing else comes out. *)
Theorem c51_record_batches : forall keys records b m n feed outputs columns,
  (forall x, eqb x x = true) -> NoDup keys -> 0 < n ->
  adapt b = Some feed -> graph feed = Some outputs -> convert outputs = Some columns ->
  (records = false -> validate outputs = true) ->
  rectangular n columns -> Forall (fun nc => length (snd nc) = m) b ->
  (forall k, In k keys -> ~ In k (map fst outputs) /\ ~ In k (map fst columns)) ->
  (forall k c, In k keys -> lookup k b = Some c -> can_be_carried m n c) ->
  exists outs, transform_batch eqb nbytes max_bytes adapt graph convert validate keys records b = Ok outs /\
    Forall (fun o => exists n', 0 < n' /\ rectangular n' (fst o) /\ (nbytes (fst o) <= max_bytes \/ n' = 1)) outs /\
    (forall name c, lookup name columns = Some c -> all_cells name outs = c) /\
    (forall k c, In k keys -> lookup k b = Some c ->
       all_cells k outs = map (carried m n c) (seq 0 n) \/
       (m <> n /\ Forall (fun o => lookup k (fst o) = None /\
          option_map (fun c => nth 0 c None) (lookup k (snd o)) = Some (carried m n c 0)) outs)) /\
    (forall name, ~ In name (map fst columns) -> ~ In name keys \/ lookup name b = None ->
       Forall (fun o => lookup name (fst o) = None /\ lookup name (snd o) = None) outs).
Proof. intros. eapply records_theorem; eauto. Qed.

(** Instance dicts: one for every transformed row, in order, with its values and the
    values that pass through, and nothing else. *)
Theorem c51_instances : forall keys b m n feed outputs columns,
  (forall x, eqb x x = true) -> NoDup keys -> 0 < n ->
  adapt b = Some feed -> graph feed = Some outputs -> convert outputs = Some columns -> validate outputs = true ->
  rectangular n columns -> Forall (fun nc => length (snd nc) = m) b ->
  (forall k, In k keys -> ~ In k (map fst outputs) /\ ~ In k (map fst columns)) ->
  (forall k c, In k keys -> lookup k b = Some c -> can_be_carried m n c) ->
  exists instances, transform_to_instances eqb nbytes max_bytes adapt graph convert validate keys b = Ok instances /\
    length instances = n /\
    (forall name c, lookup name columns = Some c -> map (lookup name) instances = map Some c) /\
    (forall k c, In k keys -> lookup k b = Some c ->
       map (lookup k) instances = map (fun i => Some (carried m n c i)) (seq 0 n)) /\
    (forall name, ~ In name (map fst columns) -> ~ In name keys \/ lookup name b = None ->
       Forall (fun instance => lookup name instance = None) instances).
Proof. intros. eapply instances_theorem; eauto. Qed.

(** Different values of a passthrough column are never mixed up: when the number of
    rows changes, an error is raised. *)
Theorem c51_different_values : forall keys records b m n feed outputs columns,
  (forall x y, eqb x y = true <-> x = y) -> NoDup keys ->
  adapt b = Some feed -> graph feed = Some outputs -> convert outputs = Some columns ->
  (records = false -> validate outputs = true) ->
  rectangular n columns -> Forall (fun nc => length (snd nc) = m) b ->
  (forall k, In k keys -> ~ In k (map fst outputs) /\ ~ In k (map fst columns)) ->
  m <> n -> 0 < m ->
  (forall k c, In k keys -> lookup k b = Some c -> forall x, In x c -> exists v, x = option_map (fun y => [y]) v) ->
  (exists k c x y, In k keys /\ lookup k b = Some c /\ In x c /\ In y c /\ x <> y) ->
  transform_batch eqb nbytes max_bytes adapt graph convert validate keys records b = Raise ValueError.
Proof. intros until columns. intros EQ. intros. eapply mixed_theorem; eauto; intros; now apply EQ. Qed.

(** When the graph works row by row, the way in which the rows are put into batches and
    the sizes at which batches are sliced do not matter: every row gives one instance. *)
Theorem c51_batching : forall keys schema_keys row_fn,
  (forall x, eqb x x = true) -> NoDup keys -> (forall k, In k keys -> ~ In k schema_keys) ->
  works_by_rows adapt graph convert validate keys row_fn ->
  forall batches, Forall (fun b => exists n, 0 < n /\ rectangular n b) batches ->
  exists instances, transform_dataset eqb nbytes max_bytes adapt graph convert validate keys schema_keys batches = Ok instances /\
    Forall2 (fun instance row => forall name,
               lookup name instance = if existsb (String.eqb name) keys then lookup name row else lookup name (row_fn row))
      instances (flat_map instance_dicts batches).
Proof. intros. now apply batching_theorem. Qed.

(** Passthrough keys among the columns that are transformed are refused. *)
Theorem c51_overlap_refused : forall keys schema_keys batches k, In k keys -> In k schema_keys ->
  transform_dataset eqb nbytes max_bytes adapt graph convert validate keys schema_keys batches = Raise ValueError.
Proof.
  intros keys schema_keys batches k I J. unfold transform_dataset, keys_allowed.
  assert (existsb (fun k => existsb (String.eqb k) schema_keys) keys = true) as ->; [|reflexivity].
  apply existsb_exists. exists k. split; [exact I|]. apply existsb_exists. exists k. split; [exact J|apply String.eqb_refl].
Qed.
End Props.
Print Assumptions c51_record_batches.
Print Assumptions c51_instances.
Print Assumptions c51_different_values.
Print Assumptions c51_batching.
Print Assumptions c51_overlap_refused.

(** A batch of two rows: both rows are kept, in slices of one row; the value of "k" can
    not be carried when there is one row for the whole batch. *)
Example c51_applies :
  rectangular 2 numbers /\ NoDup ["k"] /\
  transform_batch Nat.eqb row_bytes 1 adapt_x double_x keep fine ["k"] true numbers =
    Ok [([("double", [Some [2]]); ("k", [Some [7]])], []); ([("double", [Some [4; 6]]); ("k", [None])], [])] /\
  transform_to_instances Nat.eqb row_bytes 1 adapt_x double_x keep fine ["k"] numbers =
    Ok [[("double", Some [2]); ("k", Some [7])]; [("double", Some [4; 6]); ("k", None)]] /\
  transform_batch Nat.eqb row_bytes 1 adapt_x count_x keep fine ["k"] true numbers = Raise ValueError /\
  transform_to_instances Nat.eqb row_bytes 1 adapt_x count_x keep fine ["k"] [("x", [Some [1]; Some [2; 3]]); ("k", [Some [7]; Some [7]])] =
    Ok [[("count", Some [2]); ("k", Some [7])]].
Proof.
  split; [split; [discriminate|]; split; [repeat constructor; cbn; intuition discriminate|repeat constructor]|].
  split; [repeat constructor; intros []|]. repeat split; vm_compute; reflexivity.
Qed.
Example c51_batching_applies :
  works_by_rows adapt_x double_x keep fine ["k"] double_row /\
  transform_dataset Nat.eqb row_bytes 1 adapt_x double_x keep fine ["k"] ["x"] [numbers; numbers] =
    Ok [[("double", Some [2]); ("k", Some [7])]; [("double", Some [4; 6]); ("k", None)];
        [("double", Some [2]); ("k", Some [7])]; [("double", Some [4; 6]); ("k", None)]].
Proof. split; [exact double_by_rows|vm_compute; reflexivity]. Qed.

(** [EncodeTransformedDataset] drops the passthrough columns of instance dicts, and
    says that it does so for record batches ("Dropping passthrough features"); but the
    record batches contain them, and they are encoded: the two formats of one dataset
    give different examples. *)
Theorem c51_encoded_passthrough_refuted :
  exists keys (b : record_batch nat) columns outs instances,
    double_x [("x", [Some [1]; Some [2; 3]])] = Some columns /\
    transform_batch Nat.eqb row_bytes 1 adapt_x double_x keep fine keys true b = Ok outs /\
    transform_to_instances Nat.eqb row_bytes 1 adapt_x double_x keep fine keys b = Ok instances /\
    map (encode_instance (map fst columns)) instances = [[("double", Some [2])]; [("double", Some [4; 6])]] /\
    flat_map encode_record_batch outs = [[("double", Some [2]); ("k", Some [7])]; [("double", Some [4; 6]); ("k", None)]].
Proof.
  exists ["k"], numbers. do 3 eexists. split; [reflexivity|]. split; [vm_compute; reflexivity|]. split; [vm_compute; reflexivity|].
  split; vm_compute; reflexivity.
Qed.
Print Assumptions c51_encoded_passthrough_refuted.
