(** What an encoded `tf.train.Example` has to hold. *)
From Coq Require Import String List Bool Arith.
From Verif Require Import ExampleProtoModel.
Import ListNotations.
Local Notation length := List.length.

(** The columns of an instance a feature reads, with the kind of list they are
    stored in and the shape they must have. *)
Definition row_length_keys (ps : list partition) : list string :=
  flat_map (fun p => match p with RowLengths key => [key] | _ => [] end) ps.

Definition columns_of (feature : string * feature_spec)
  : list (string * kind * option (list nat)) :=
  match snd feature with
  | FixedLen k shape => [(fst feature, k, Some shape)]
  | VarLen k => [(fst feature, k, None)]
  | SparseFeature k index_keys value_key =>
      map (fun key => (key, KInt64, None)) index_keys ++ [(value_key, k, None)]
  | RaggedFeature k ps value_key =>
      map (fun key => (key, KInt64, None)) (row_length_keys ps) ++ [(value_key, k, None)]
  | OtherSpec => []
  end.

(** A column that several features share (such as an index key) has one kind of
    list and one shape in all of them. *)
Definition consistent (features : list (string * feature_spec)) : Prop :=
  forall f f' c k k' s s', In f features -> In f' features ->
    In (c, k, s) (columns_of f) -> In (c, k', s') (columns_of f') -> k = k' /\ s = s'.

Fixpoint product (shape : list nat) : nat :=
  match shape with [] => 1 | n :: shape => n * product shape end.

Section Spec.
Variables V P : Type.
Variable payload : kind -> V -> outcome P.
Variable reshape : kind -> field_value V -> outcome (list V).
(** Whether deleting from an empty list makes it present, see the model. *)
Variable touch : bool.

(** The values in a column of an instance. *)
Definition column_values (k : kind) (shape : option (list nat)) (v : field_value V)
    (l : list V) : Prop :=
  match shape with
  | Some (_ :: _ :: _) => reshape k v = Ok l
  | _ => v = FList l \/ v = FArray l
         \/ exists x, l = [x] /\ (v = FScalar x \/ v = FArray0 x)
  end.

(** A feature of the message holds exactly these values, in a list of the right
    kind; where deleting does not make a list present, no list at all may stand for
    the empty one. *)
Definition holds (k : kind) (l : list V) (c : option (kind * list P)) : Prop :=
  exists ps, Forall2 (fun v p => payload k v = Ok p) l ps
    /\ (c = Some (k, ps) \/ touch = false /\ ps = [] /\ c = None).

(** Entry of a name in an encoded message. *)
Definition entry (name : string) (m : list (string * option (kind * list P)))
    (c : option (kind * list P)) : Prop :=
  In (name, c) m /\ forall c', In (name, c') m -> c' = c.

(** The message is that of the instance: it has an entry for each column and no
    other, a missing value leaves its entry empty, and any other value is there in
    full and alone. *)
Definition encodes (features : list (string * feature_spec))
    (instance : list (string * field_value V))
    (m : list (string * option (kind * list P))) : Prop :=
  (forall name, In name (map fst m) <->
     exists f k s, In f features /\ In (name, k, s) (columns_of f))
  /\ forall f name k s, In f features -> In (name, k, s) (columns_of f) ->
       exists v c, lookup name instance = Some v /\ entry name m c
         /\ ((v = FNone /\ s = None /\ c = None)
             \/ exists l, column_values k s v l /\ holds k l c
                  /\ forall shape, s = Some shape -> length l = product shape).

(** The values that can be stored in a column: nothing, one object or a sequence where
    the length varies; one object for the shape []; a sequence of the right length for
    a shape of one dimension; else what numpy gives that shape. *)
Definition storable (k : kind) (shape : option (list nat)) (v : field_value V) : Prop :=
  let all l := Forall (fun x => exists p, payload k x = Ok p) l in
  match shape with
  | None => v = FNone \/ (exists x, v = FScalar x /\ all [x]) \/ exists l, (v = FList l \/ v = FArray l) /\ all l
  | Some [] => exists x, (v = FScalar x \/ v = FArray0 x \/ v = FArray [x]) /\ all [x]
  | Some [n] => exists l, (v = FList l \/ v = FArray l) /\ length l = n /\ all l
  | Some dims => exists l, reshape k v = Ok l /\ length l = product dims /\ all l
  end.
Definition encodable (features : list (string * feature_spec)) (instance : list (string * field_value V)) : Prop :=
  forall f name k s, In f features -> In (name, k, s) (columns_of f) ->
    exists v, lookup name instance = Some v /\ storable k s v.
End Spec.
Arguments storable {V P} _ _ _ _ _.
Arguments encodable {V P} _ _ _ _.
Arguments column_values {V} _ _ _ _ _.
Arguments entry {P} _ _ _.
Arguments holds {V P} _ _ _ _ _.
Arguments encodes {V P} _ _ _ _ _ _.
