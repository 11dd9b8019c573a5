(** How the operations of an analysis find their implementations. *)
From Coq Require Import String List Bool.
Import ListNotations.
Local Open Scope string_scope.

(** beam/common.py:36-38 ([EnvironmentTags]): members of an enumeration, which are not equal to their values.
    Somebody may also pass a string for a tag. *)
Inductive tag := TF_COMPAT_V1 | TF_V2_ONLY | Other (name : string).
Definition tag_eqb (a b : tag) : bool :=
  match a, b with
  | TF_COMPAT_V1, TF_COMPAT_V1 | TF_V2_ONLY, TF_V2_ONLY => true
  | Other s, Other t => String.eqb s t
  | _, _ => false
  end.
(** [.value], and beam/common.py:41 ([_ALLOWED_PTRANSFORM_TAGS]) of both. *)
Definition tag_value (t : tag) : string :=
  match t with TF_COMPAT_V1 => "tf_compat_v1" | TF_V2_ONLY => "tf_v2_only" | Other s => s end.

(** The keys of the dict of a wrapper: [None] is [_GENERAL_ENVIRONMENT_TAG] (beam/common.py:64). *)
Definition key : Type := option tag.
Definition key_eqb (a b : key) : bool :=
  match a, b with None, None => true | Some a, Some b => tag_eqb a b | _, _ => false end.

(** An implementation is known by the name of its class, and so is an operation. *)
Definition ptransform : Type := string.
Definition operation_class : Type := string.

(** beam/common.py:61-67 ([_PtransformWrapper]): a dict, with the latest binding of a key first. *)
Definition wrapper : Type := list (key * ptransform).
Fixpoint dict_get (k : key) (w : wrapper) : option ptransform :=
  match w with [] => None | (k', p) :: w => if key_eqb k k' then Some p else dict_get k w end.

(** beam/common.py:69-76.  The assertion is about a generator object, which is true whatever it would
    generate, so that nothing is checked; a set of tags is a list here. *)
Definition add_ptransform (p : ptransform) (tags : option (list tag)) (w : wrapper) : wrapper :=
  let tags := match tags with None => [None] | Some l => map Some l end in
  fold_left (fun w t => (t, p) :: w) tags w.

(** beam/common.py:78-97.  None: KeyError. *)
Definition get_ptransform (t : option tag) (w : wrapper) : option (ptransform * option string) :=
  let general := match dict_get None w with Some p => Some (p, None) | None => None end in
  match t with
  | None => general
  | Some t => match dict_get (Some t) w with Some p => Some (p, Some (tag_value t)) | None => general end
  end.

(** beam/common.py:100: a defaultdict. *)
Definition registry : Type := list (operation_class * wrapper).
Fixpoint wrapper_of (c : operation_class) (reg : registry) : wrapper :=
  match reg with [] => [] | (c', w) :: reg => if String.eqb c c' then w else wrapper_of c reg end.

(** A use of the decorator.  The class decorated is a PTransform. *)
Record registration := Registration { operation : operation_class; tags : option (list tag); implementation : ptransform }.

(** beam/common.py:143-151.  As above, the assertion about allowed tags checks nothing. *)
Definition register (reg : registry) (r : registration) : registry :=
  (operation r, add_ptransform (implementation r) (tags r) (wrapper_of (operation r) reg)) :: reg.

(** beam/common.py:144-145: what is decorated has to be a class derived from PTransform.  None: AssertionError. *)
Inductive decorated := Ptransform (p : ptransform) | Other_class | Function.
Definition decorate (reg : registry) (c : operation_class) (tags : option (list tag)) (d : decorated) : option registry :=
  match d with Ptransform p => Some (register reg (Registration c tags p)) | Other_class | Function => None end.

(** What comes out of applying an implementation, for outputs of any kind [pcollection]. *)
Inductive outputs (pcollection : Type) := One (p : pcollection) | Many (ps : list pcollection) | Raises.
Arguments One {pcollection}. Arguments Many {pcollection}. Arguments Raises {pcollection}.
(** What a visit returns or raises. *)
Inductive visited (pcollection : Type) :=
| Outputs (ps : list pcollection) | No_implementation | Failed_to_apply (label : string).
Arguments Outputs {pcollection}. Arguments No_implementation {pcollection}. Arguments Failed_to_apply {pcollection}.

Section visit.
  Context {pcollection : Type}.
  (** Applying a PTransform under a label to inputs; no inputs are the begin of the pipeline. *)
  Variable apply : ptransform -> string -> list pcollection -> outputs pcollection.

  (** beam/common.py:182-216; [c] is the exact class of the operation. *)
  Definition visit (reg : registry) (use_tf_compat_v1 : bool) (c : operation_class) (label : string) (inputs : list pcollection)
    : visited pcollection :=
    let environment := if use_tf_compat_v1 then TF_COMPAT_V1 else TF_V2_ONLY in
    match get_ptransform (Some environment) (wrapper_of c reg) with
    | None => No_implementation
    | Some (p, t) =>
        let tagged_label := match t with None => label | Some t => label ++ "[" ++ t ++ "]" end in
        match apply p tagged_label inputs with
        | Raises => Failed_to_apply tagged_label
        | One o => Outputs [o]
        | Many os => Outputs os
        end
    end.
End visit.

(** The registrations of the library, in the order of the files: beam/analyzer_impls.py:274, 334, 359, 405,
    482, 1261, 1292, 1317, 1340, 1358, 1374, 1393, 1407, 1431, 1446, 1462, 1477, 1528, 1546, 1564, 1578, 1579,
    1606 and beam/impl.py:570, 652, 742, 816, 840, 883, 913. *)
Definition library : list registration :=
  let general c p := Registration c None p in
  [general "VocabularyAccumulate" "_VocabularyAccumulateImpl";
   general "VocabularyCount" "_VocabularyCountImpl";
   general "VocabularyMerge" "_VocabularyMergeImpl";
   general "VocabularyPrune" "_VocabularyPruneImpl";
   general "VocabularyOrderAndWrite" "_VocabularyOrderAndWriteImpl";
   general "ScaleAndFlattenPerKeyBucketBouandaries" "_ScaleAndFlattenPerKeyBucketBouandariesImpl";
   general "PackedCombineAccumulate" "_InitialAccumulatePackedCombineImpl";
   general "PackedCombineMerge" "_MergeAccumulatorsPackedCombineImpl";
   general "CacheableCombineAccumulate" "_InitialAccumulateCombineImpl";
   general "CacheableCombineMerge" "_MergeAccumulatorsCombineImpl";
   general "CacheableCombinePerKeyAccumulate" "_InitialAccumulateCombinePerKeyImpl";
   general "CacheableCombinePerKeyMerge" "_MergeAccumulatorsCombinePerKeyImpl";
   general "CacheableCombinePerKeyFormatKeys" "_CombinePerKeyFormatKeysImpl";
   general "CacheableCombinePerKeyFormatLarge" "_CombinePerKeyFormatLargeImpl";
   general "PTransform" "_PTransformImpl";
   general "EncodeCache" "_EncodeCacheImpl";
   general "InstrumentDatasetCache" "_InstrumentDatasetCacheImpl";
   general "DecodeCache" "_DecodeCacheImpl";
   general "AddKey" "_AddKeyImpl";
   general "FlattenLists" "_FlattenListsImpl";
   general "ExtractPackedCombineMergeOutputs" "_ExtractOutputImpl";
   general "ExtractCombineMergeOutputs" "_ExtractOutputImpl";
   general "ExtractVocabularyReservedTokens" "_ExtractVocabularyReservedTokensImpl";
   general "CreateTensorBinding" "_CreateTensorBindingsImpl";
   Registration "CreateSavedModel" (Some [TF_COMPAT_V1]) "_CreateSavedModelImpl";
   Registration "CreateSavedModel" (Some [TF_V2_ONLY]) "_CreateSavedModelImplV2";
   general "ExtractInputForSavedModel" "_ExtractInputForSavedModelImpl";
   general "ApplySavedModel" "_ApplySavedModelImpl";
   general "ExtractFromDict" "_ExtractFromDictImpl";
   general "Flatten" "_Flatten"].
