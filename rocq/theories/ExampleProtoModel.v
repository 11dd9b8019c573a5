(** The coder of `tf.train.Example` messages, which reuses one message.
    Models /repo/tensorflow_transform/coders/example_proto_coder.py. *)
From Coq Require Import String List Bool Arith.
Import ListNotations.
Local Notation length := List.length.

(** The three lists a `tf.train.Feature` can hold (its `oneof kind`). *)
Inductive kind : Type := KInt64 | KFloat | KBytes.

Inductive exn : Type := TypeError | ValueError | KeyError.

Inductive outcome (A : Type) : Type :=
| Ok (a : A)
| Raise (e : exn).
Arguments Ok {A} _.
Arguments Raise {A} _.

(** Feature specs.  The dtype is kept as the list that holds its values
    (`_make_feature_value_fn`, example_proto_coder.py:67-87). *)
Inductive partition : Type :=
| RowLengths (key : string)
| UniformRowLength
| OtherPartition.

Inductive feature_spec : Type :=
| FixedLen (k : kind) (shape : list nat)
| VarLen (k : kind)
| SparseFeature (k : kind) (index_keys : list string) (value_key : string)
| RaggedFeature (k : kind) (partitions : list partition) (value_key : string)
| OtherSpec.

(** A handler (example_proto_coder.py:90-174): the name, the list it writes, and
    the shape for a fixed length feature. *)
Record handler : Type := Handler {
  h_name : string;
  h_kind : kind;
  h_fixed : option (list nat)
}.

(** The row length handlers of a ragged feature
    (example_proto_coder.py:229-250). *)
Fixpoint partition_handlers (uniform : bool) (ps : list partition) : outcome (list handler) :=
  match ps with
  | [] => Ok []
  | RowLengths key :: ps =>
      if uniform then Raise ValueError
      else match partition_handlers uniform ps with
           | Ok hs => Ok (Handler key KInt64 None :: hs)
           | Raise e => Raise e
           end
  | UniformRowLength :: ps => partition_handlers true ps
  | OtherPartition :: _ => Raise ValueError
  end.

(** The handlers of one feature (example_proto_coder.py:208-259). *)
Definition feature_handlers (name : string) (spec : feature_spec) : outcome (list handler) :=
  match spec with
  | FixedLen k shape => Ok [Handler name k (Some shape)]
  | VarLen k => Ok [Handler name k None]
  | SparseFeature k index_keys value_key =>
      Ok (map (fun key => Handler key KInt64 None) index_keys ++ [Handler value_key k None])
  | RaggedFeature k ps value_key =>
      match partition_handlers false ps with
      | Ok hs => Ok (hs ++ [Handler value_key k None])
      | Raise e => Raise e
      end
  | OtherSpec => Raise ValueError
  end.

(** `ExampleProtoCoder.__init__` (example_proto_coder.py:204-259): all handlers. *)
Fixpoint make_handlers (features : list (string * feature_spec)) : outcome (list handler) :=
  match features with
  | [] => Ok []
  | (name, spec) :: features =>
      match feature_handlers name spec with
      | Raise e => Raise e
      | Ok hs =>
          match make_handlers features with
          | Raise e => Raise e
          | Ok hs' => Ok (hs ++ hs')
          end
      end
  end.

Section Coder.
(** Python values of an instance, and the values a list of the message holds. *)
Variables V P : Type.

(** What `instance[name]` can be: `None`, one object, a list, an array without
    dimensions, an array of one or more dimensions by its rows. *)
Inductive field_value : Type :=
| FNone
| FScalar (v : V)
| FList (l : list V)
| FArray0 (v : V)
| FArray (l : list V).

(** Casting one value (example_proto_coder.py:49-50) and storing it in a list of
    the message, which refuses values of other types or out of range. *)
Variable payload : kind -> V -> outcome P.

(** `np.asarray(values, dtype=...).reshape(-1)` for rank 2 or more
    (example_proto_coder.py:128). *)
Variable reshape : kind -> field_value -> outcome (list V).

(** Whether deleting all elements of an empty list makes the list present in the
    message; true in the implementations of protobuf for Python. *)
Variable touch : bool.

(** One `tf.train.Feature` of the message.  `Clear` detaches the list objects that
    were taken from it, which is recorded by counting: a list object taken at
    [generation] g belongs to the feature as long as the feature is at g. *)
Record slot : Type := Slot {
  generation : nat;
  content : option (kind * list P)
}.

(** The coder's state (example_proto_coder.py:203, 261-262): the message, and for
    each handler the generation at which it took `self._value`. *)
Record state : Type := State {
  message : list (string * slot);
  values_taken : list nat
}.

(** `example.features.feature[name]`. *)
Fixpoint slot_of (name : string) (m : list (string * slot)) : option slot :=
  match m with
  | [] => None
  | (n, s) :: m => if String.eqb n name then Some s else slot_of name m
  end.

Fixpoint update (name : string) (f : slot -> slot) (m : list (string * slot))
  : list (string * slot) :=
  match m with
  | [] => []
  | (n, s) :: m => if String.eqb n name then (n, f s) :: m else (n, s) :: update name f m
  end.

(** The state of a new coder (example_proto_coder.py:203, 261-262): looking a
    feature up creates it, without a list. *)
Definition init (hs : list handler) : state :=
  State (fold_left (fun m h => match slot_of (h_name h) m with
                               | Some _ => m
                               | None => m ++ [(h_name h, Slot 0 None)]
                               end) hs [])
        (map (fun _ => 0) hs).

(** A change through a list object taken at generation [g]: without effect on the
    message when the list has been detached. *)
Definition through (g : nat) (f : option (kind * list P) -> option (kind * list P)) (s : slot)
  : slot :=
  if Nat.eqb (generation s) g then Slot (generation s) (f (content s)) else s.

(** `del self._value[:]`. *)
Definition delete_all (k : kind) (c : option (kind * list P)) : option (kind * list P) :=
  match c with
  | Some (k', _) => Some (k', [])
  | None => if touch then Some (k, []) else None
  end.

(** `self._value.append(p)`. *)
Definition append_one (k : kind) (p : P) (c : option (kind * list P))
  : option (kind * list P) :=
  match c with
  | Some (k', l) => Some (k', l ++ [p])
  | None => Some (k, [p])
  end.

(** `self._value.extend(self._cast_fn(l))`: elements are cast and stored one after
    the other, those before a failure stay. *)
Fixpoint extend (h : handler) (g : nat) (l : list V) (m : list (string * slot))
  : list (string * slot) * outcome unit :=
  match l with
  | [] => (m, Ok tt)
  | v :: l =>
      match payload (h_kind h) v with
      | Raise e => (m, Raise e)
      | Ok p => extend h g l (update (h_name h) (through g (append_one (h_kind h) p)) m)
      end
  end.

(** `self._size` (example_proto_coder.py:102-104). *)
Definition size (shape : list nat) : nat := fold_left Nat.mul shape 1.

(** The values a fixed length handler stores (example_proto_coder.py:119-136).
    `item` of an array with several elements raises `ValueError`, and `len` of a
    scalar `TypeError`.  Simplified: a string where a list is expected is treated
    like a number. *)
Definition fixed_values (h : handler) (shape : list nat) (v : field_value)
  : outcome (list V) :=
  match shape with
  | [] =>
      match v with
      | FScalar v | FArray0 v | FArray [v] => Ok [v]
      | FArray _ => Raise ValueError
      | FNone | FList _ => Raise TypeError
      end
  | _ =>
      let flattened :=
        match shape with
        | [_] => match v with
                 | FList l | FArray l => Ok l
                 | FNone | FScalar _ | FArray0 _ => Raise TypeError
                 end
        | _ => reshape (h_kind h) v
        end in
      match flattened with
      | Raise e => Raise e
      | Ok l => if Nat.eqb (length l) (size shape) then Ok l else Raise ValueError
      end
  end.

(** The values a variable length handler stores (example_proto_coder.py:171-174).
    An array without dimensions cannot be iterated. *)
Definition varlen_values (v : field_value) : outcome (list V) :=
  match v with
  | FNone => Ok []
  | FScalar v => Ok [v]
  | FList l | FArray l => Ok l
  | FArray0 _ => Raise TypeError
  end.

(** `encode_value` of both handlers (example_proto_coder.py:116-136, 161-174),
    with the generation of `self._value` before and after. *)
Definition encode_value (h : handler) (g : nat) (v : field_value) (m : list (string * slot))
  : nat * list (string * slot) * outcome unit :=
  match h_fixed h, v with
  | None, FNone =>
      let m := update (h_name h) (fun s => Slot (S (generation s)) None) m in
      (match slot_of (h_name h) m with Some s => generation s | None => g end, m, Ok tt)
  | fixed, _ =>
      let m := update (h_name h) (through g (delete_all (h_kind h))) m in
      match match fixed with Some shape => fixed_values h shape v | None => varlen_values v end with
      | Raise e => (g, m, Raise e)
      | Ok l => let '(m, r) := extend h g l m in (g, m, r)
      end
  end.

(** `instance[name]`. *)
Fixpoint lookup (name : string) (instance : list (string * field_value))
  : option field_value :=
  match instance with
  | [] => None
  | (n, v) :: instance => if String.eqb n name then Some v else lookup name instance
  end.

(** The loop of `encode` (example_proto_coder.py:270-277), which an exception
    leaves half way. *)
Fixpoint encode_features (hs : list handler) (gs : list nat)
    (instance : list (string * field_value)) (m : list (string * slot))
  : list nat * list (string * slot) * outcome unit :=
  match hs, gs with
  | h :: hs, g :: gs =>
      match lookup (h_name h) instance with
      | None => (g :: gs, m, Raise KeyError)
      | Some v =>
          match encode_value h g v m with
          | (g, m, Raise e) => (g :: gs, m, Raise e)
          | (g, m, Ok _) =>
              let '(gs, m, r) := encode_features hs gs instance m in (g :: gs, m, r)
          end
      end
  | _, _ => (gs, m, Ok tt)
  end.

(** `encode` (example_proto_coder.py:267-284).  The result is a copy of the
    message or its serialization, given by its features. *)
Definition encode (hs : list handler) (s : state) (instance : list (string * field_value))
  : state * outcome (list (string * option (kind * list P))) :=
  let '(gs, m, r) := encode_features hs (values_taken s) instance (message s) in
  (State m gs,
   match r with
   | Raise e => Raise e
   | Ok _ => Ok (map (fun ns => (fst ns, content (snd ns))) m)
   end).

(** A history of calls of `encode` on one coder; each may raise. *)
Fixpoint encode_all (hs : list handler) (s : state)
    (instances : list (list (string * field_value)))
  : list (outcome (list (string * option (kind * list P)))) :=
  match instances with
  | [] => []
  | i :: instances => let '(s, r) := encode hs s i in r :: encode_all hs s instances
  end.
End Coder.

Arguments FNone {V}.
Arguments FScalar {V} v.
Arguments FList {V} l.
Arguments FArray0 {V} v.
Arguments FArray {V} l.
Arguments Slot {P} _ _.
Arguments generation {P} _.
Arguments content {P} _.
Arguments State {P} _ _.
Arguments message {P} _.
Arguments values_taken {P} _.
Arguments slot_of {P} _ _.
Arguments update {P} _ _ _.
Arguments init {P} _.
Arguments lookup {V} _ _.
Arguments through {P} _ _ _.
Arguments encode {V P} _ _ _ _ _ _.
Arguments encode_all {V P} _ _ _ _ _ _.
Arguments encode_features {V P} _ _ _ _ _ _ _.
Arguments encode_value {V P} _ _ _ _ _ _ _.
Arguments extend {V P} _ _ _ _ _.
Arguments fixed_values {V} _ _ _ _.
Arguments varlen_values {V} _.
Arguments delete_all {P} _ _ _.
Arguments append_one {P} _ _ _.
