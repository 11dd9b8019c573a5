(** * Property C70: feature specs read back from metadata *)
From Coq Require Import String List ZArith Bool.
From Verif Require Import SchemaModel SchemaProofs FspecModel FspecSpec FspecProofs FspecReadProofs FspecExample.
Import ListNotations.

(** DatasetMetadata.from_feature_spec returns for exactly the feature specs whose every spec is acceptable and
    whose features have no domain but an int, float or string domain. *)
Theorem c70_accepts : forall fs ds, NoDup (map fst fs) -> NoDup (map fst ds) ->
  ((exists s, from_feature_spec fs ds = Returned s) <->
   forall name sp, In (name, sp) fs -> acceptable sp /\ forall d, In (name, d) ds -> is_domain d).
Proof. exact accepts. Qed.
Example c70_accepts_applies : NoDup (map fst kinds) /\ NoDup (map fst kinds_domains) /\
  from_feature_spec kinds kinds_domains = Returned kinds_schema /\ List.length (ps_features kinds_schema) = 8%nat /\
  from_feature_spec kinds [("age", Other_domain "bool_domain")]%string = Raised /\
  from_feature_spec [("age", Fixed_len [] Int64 (Some (Value "0")))]%string [] = Raised.
Proof.
  split; [|split; [|vm_compute; auto]].
  - vm_compute. repeat (constructor; [intros H; repeat (destruct H as [H|H]; try discriminate H); destruct H|]). constructor.
  - vm_compute. repeat (constructor; [intros H; repeat (destruct H as [H|H]; try discriminate H); destruct H|]). constructor.
Qed.

(** If the specs are canonical and no two features are parsed from the same column, the schema reads back as the
    same feature spec, with the domains of its features. *)
Theorem c70_round_trip : forall fs ds, NoDup (map fst fs) -> NoDup (map fst ds) ->
  (forall name sp, In (name, sp) fs -> canonical sp /\ forall d, In (name, d) ds -> is_domain d) -> no_shared_columns fs ->
  exists s fs' ds', from_feature_spec fs ds = Returned s /\ as_feature_spec s = Returned (fs', ds') /\
    same_items fs fs' /\ items_where (fun k => In k (map fst fs)) ds ds'.
Proof. exact round_trip. Qed.
Example c70_round_trip_applies : (forall name sp, In (name, sp) kinds -> canonical sp /\ forall d, In (name, d) kinds_domains -> is_domain d) /\
  no_shared_columns kinds /\ exists fs' ds', as_feature_spec kinds_schema = Returned (fs', ds') /\ List.length fs' = 5%nat /\ List.length ds' = 3%nat.
Proof.
  split; [|split].
  - intros name sp I. cbn in I. unfold canonical, example_dtype.
    repeat (destruct I as [I|I]; [injection I as <- <-; split; [cbn; unfold example_dtype|
      intros d J; cbn in J; repeat (destruct J as [J|J]; [try discriminate J; injection J as <-; exact Logic.I|]); destruct J]|]); [..|destruct I].
    + split; [split; [auto|intros [H|[H|[]]]; discriminate]|]. split; [eexists; split; [reflexivity|discriminate]|auto].
    + auto.
    + auto.
    + split; [auto|]. repeat constructor; discriminate.
    + auto.
  - unfold no_shared_columns. vm_compute. repeat (constructor; [intros H; repeat (destruct H as [H|H]; try discriminate H); destruct H|]). constructor.
  - vm_compute. do 2 eexists. split; [reflexivity|auto].
Qed.

(** The order of the items of the dicts does not matter. *)
Theorem c70_order : forall fs fs' ds ds', same_items fs fs' -> same_items ds ds' -> from_feature_spec fs ds = from_feature_spec fs' ds'.
Proof. exact order. Qed.
Example c70_order_applies : same_items kinds kinds_reordered /\ kinds <> kinds_reordered.
Proof.
  split; [|vm_compute; discriminate]. unfold same_items, kinds_reordered.
  assert (N : NoDup (map fst kinds)) by (vm_compute; repeat (constructor; [intros H; repeat (destruct H as [H|H]; try discriminate H); destruct H|]); constructor).
  split; [exact N|]. split; [rewrite map_rev; apply NoDup_rev, N|]. intros k v. apply in_rev.
Qed.

(** Whatever schema a feature spec was read from: metadata made from it reads back as it, as long as it has
    no default values, no value column with an empty name, and no domain of another kind. *)
Theorem c70_read_again : forall s fs ds, as_feature_spec s = Returned (fs, ds) ->
  (forall name sp, In (name, sp) fs -> no_default sp /\ value_key_not_empty sp) -> (forall name d, In (name, d) ds -> is_domain d) ->
  exists s' fs' ds', from_feature_spec fs ds = Returned s' /\ as_feature_spec s' = Returned (fs', ds') /\ same_items fs fs' /\ same_items ds ds'.
Proof. exact read_again. Qed.
Example c70_read_again_applies : as_feature_spec curated =
  Returned ([("colour", Var_len String_type); ("size", Fixed_len [3%Z] Int64 None)],
            [("colour", String_domain (Some "colours") ["red"]); ("size", Int_domain None (Some 9%Z) false)])%string.
Proof. vm_compute. reflexivity. Qed.

(** The columns a read feature spec is parsed from are the features of the schema that are not deprecated; each
    feature has the type and the domain of its column of values, which may name a domain of the schema. *)
Theorem c70_columns : forall s fs ds, NoDup (map p_name (ps_features s)) -> NoDup (map fst (ps_string_domains s)) -> as_feature_spec s = Returned (fs, ds) ->
  (forall c, (exists name sp, In (name, sp) fs /\ In c (parsed_columns name sp)) <-> exists f, In f (ps_features s) /\ p_name f = c /\ p_deprecated f = false) /\
  (forall name sp, In (name, sp) fs -> exists f, In f (ps_features s) /\ p_deprecated f = false /\ p_name f = values_column name sp /\
     values_type sp (p_type f) /\ forall d, In (name, d) ds <-> has_domain s f d).
Proof. exact read_columns. Qed.
Example c70_columns_applies : NoDup (map p_name (ps_features curated)) /\ NoDup (map fst (ps_string_domains curated)) /\
  has_domain curated (PF "colour" T_BYTES false None (Some (Named "colours")) false ["note"])%string (String_domain (Some "colours") ["red"])%string.
Proof. split; [|split]; [vm_compute; repeat (constructor; [intros H; repeat (destruct H as [H|H]; try discriminate H); destruct H|]); constructor..|left; reflexivity]. Qed.

(** Leaving columns out of metadata (exclude_outputs): what is read afterwards is what was read before, without
    those columns. *)
Theorem c70_remove : forall s fs ds ex, as_feature_spec s = Returned (fs, ds) ->
  (forall name sp, In (name, sp) fs -> ~ In name ex -> no_default sp /\ value_key_not_empty sp) ->
  (forall name d, In (name, d) ds -> ~ In name ex -> is_domain d) ->
  exists s' fs' ds', remove_columns_from_metadata s ex = Returned s' /\ as_feature_spec s' = Returned (fs', ds') /\
    items_where (fun k => ~ In k ex) fs fs' /\ items_where (fun k => ~ In k ex) ds ds'.
Proof. exact remove. Qed.
Example c70_remove_applies : exists s', remove_columns_from_metadata curated ["size"%string] = Returned s' /\
  as_feature_spec s' = Returned ([("colour", Var_len String_type)], [("colour", String_domain (Some "colours") ["red"])])%string.
Proof. vm_compute. eexists; split; reflexivity. Qed.

(** For metadata made from a feature spec, it is the metadata made from the feature spec without them. *)
Theorem c70_remove_written : forall fs ds ex s, NoDup (map fst fs) -> NoDup (map fst ds) ->
  (forall name sp, In (name, sp) fs -> canonical sp) -> no_shared_columns fs -> from_feature_spec fs ds = Returned s ->
  forall fs' ds', items_where (fun k => ~ In k ex) fs fs' -> items_where (fun k => ~ In k ex) ds ds' ->
  remove_columns_from_metadata s ex = from_feature_spec fs' ds'.
Proof. exact remove_written. Qed.
Example c70_remove_written_applies : remove_columns_from_metadata kinds_schema ["image"; "scores"]%string =
  from_feature_spec [("words", Ragged_spec String_type (Some "words$values") [By_row_lengths "words$rows"; By_uniform_length 2] Int64 false);
                     ("age", Fixed_len [] Int64 None); ("tags", Var_len String_type)]%string kinds_domains.
Proof. vm_compute. reflexivity. Qed.

(** Not every feature spec reads back: different feature specs have the same schema. *)
Theorem c70_lost_refuted :
  (exists s, from_feature_spec one_index [] = Returned s /\ from_feature_spec listed_index [] = Returned s) /\
  (exists s, from_feature_spec own_name [] = Returned s /\ from_feature_spec checked_rows [] = Returned s /\ from_feature_spec own_name_written [] = Returned s) /\
  one_index <> listed_index /\ own_name <> checked_rows /\ own_name <> own_name_written.
Proof. repeat split; [vm_compute; eexists; split; reflexivity|vm_compute; eexists; repeat split; reflexivity|discriminate..]. Qed.

(** Nor if a feature is parsed from a column of another one: the feature is not in what is read. *)
Theorem c70_shared_refuted : exists fs s fs' ds', (forall name sp, In (name, sp) fs -> canonical sp) /\
  from_feature_spec fs [] = Returned s /\ as_feature_spec s = Returned (fs', ds') /\ In "i"%string (map fst fs) /\ ~ In "i"%string (map fst fs').
Proof.
  exists shared. vm_compute from_feature_spec. eexists. eexists. eexists. split; [|split; [reflexivity|split; [vm_compute; reflexivity|]]].
  - intros name sp I. cbn in I. unfold canonical. repeat (destruct I as [I|I]; [injection I as <- <-; cbn; unfold example_dtype; auto|]); [|destruct I].
    split; [auto|]. repeat constructor; discriminate.
  - split; [left; reflexivity|]. cbn. intros [H|[]]. discriminate.
Qed.

(** Removing no column loses the annotations of the metadata, and raises if a feature has a default value. *)
Theorem c70_annotations_refuted :
  (exists s', remove_columns_from_metadata curated [] = Returned s' /\ ps_annotations curated <> [] /\ ps_annotations s' = [] /\
     existsb (fun f => match p_annotations f with [] => false | _ => true end) (ps_features curated) = true /\
     existsb (fun f => match p_annotations f with [] => false | _ => true end) (ps_features s') = false) /\
  (exists fs ds, as_feature_spec with_default = Returned (fs, ds)) /\ remove_columns_from_metadata with_default ["y"%string] = Raised.
Proof.
  split; [|split].
  - vm_compute. eexists. repeat split; try reflexivity. discriminate.
  - vm_compute. do 2 eexists. reflexivity.
  - vm_compute. reflexivity.
Qed.

Print Assumptions c70_accepts.
Print Assumptions c70_round_trip.
Print Assumptions c70_order.
Print Assumptions c70_read_again.
Print Assumptions c70_columns.
Print Assumptions c70_remove.
Print Assumptions c70_remove_written.
Print Assumptions c70_lost_refuted.
Print Assumptions c70_shared_refuted.
Print Assumptions c70_annotations_refuted.
