(** How protocol messages are read, and what the messages written are to say. *)
From Coq Require Import String Ascii List Bool Arith NArith ZArith.
From Verif Require Import WireModel.
Import ListNotations.
Local Notation length := List.length.

(** ** Reading the wire format *)

(** Base 128, least significant first; the last byte is below 128. *)
Fixpoint read_varint (l : list N) : option (N * list N) :=
  match l with
  | [] => None
  | b :: l' =>
      if (b <? 128)%N then Some (b, l')
      else match read_varint l' with
           | Some (n, rest) => Some ((b - 128) + 128 * n, rest)%N
           | None => None
           end
  end.

Definition take (n : N) (l : list N) : option (list N * list N) :=
  if (N.of_nat (length l) <? n)%N then None
  else Some (firstn (N.to_nat n) l, skipn (N.to_nat n) l).

Inductive payload : Type :=
| Varint (n : N) | Fixed64 (b : list N) | Delimited (b : list N) | Fixed32 (b : list N).

(** A tag is the number of the field times eight plus the wire type. *)
Definition read_field (l : list N) : option ((N * payload) * list N) :=
  match read_varint l with
  | None => None
  | Some (t, l) =>
      let number := (t / 8)%N in
      let wrap k (r : option (list N * list N)) :=
        match r with Some (b, rest) => Some ((number, k b), rest) | None => None end in
      match (t mod 8)%N with
      | 0%N => match read_varint l with Some (n, rest) => Some ((number, Varint n), rest) | None => None end
      | 1%N => wrap Fixed64 (take 8 l)
      | 2%N => match read_varint l with Some (n, l) => wrap Delimited (take n l) | None => None end
      | 5%N => wrap Fixed32 (take 4 l)
      | _ => None
      end
  end.

(** Every field takes a byte at least, so as many steps as there are bytes are enough. *)
Fixpoint read_all {A} (read : list N -> option (A * list N)) (fuel : nat) (l : list N) : option (list A) :=
  match l, fuel with
  | [], _ => Some []
  | _, O => None
  | _, S fuel =>
      match read l with
      | Some (x, rest) => match read_all read fuel rest with Some r => Some (x :: r) | None => None end
      | None => None
      end
  end.
Definition message (l : list N) : option (list (N * payload)) := read_all read_field (length l) l.

(** ** Reading messages.  Fields that are not known are skipped; a field that occurs more than once
    is merged if it is a message, and otherwise its last value is taken. *)

Definition to_int64 (n : N) : Z :=
  let m := (Z.of_N n mod 2 ^ 64)%Z in if (m <? 2 ^ 63)%Z then m else (m - 2 ^ 64)%Z.
Definition to_float (b : list N) : N :=
  match b with [a; b; c; d] => (a + 256 * b + 65536 * c + 16777216 * d)%N | _ => 0%N end.
Definition read_float (l : list N) : option (N * list N) :=
  match take 4 l with Some (b, rest) => Some (to_float b, rest) | None => None end.

Fixpoint collect {A B} (f : A -> option (list B)) (l : list A) : option (list B) :=
  match l with
  | [] => Some []
  | x :: l' => match f x, collect f l' with Some a, Some b => Some (a ++ b) | _, _ => None end
  end.

(** Repeated fields, packed or not. *)
Definition bytes_fields (k : N) (m : list (N * payload)) : list (list N) :=
  flat_map (fun f => match f with (n, Delimited b) => if (n =? k)%N then [b] else [] | _ => [] end) m.
Definition int64_fields (k : N) (m : list (N * payload)) : option (list Z) :=
  collect (fun f => match f with
                    | (n, Varint v) => Some (if (n =? k)%N then [to_int64 v] else [])
                    | (n, Delimited b) =>
                        if (n =? k)%N
                        then match read_all read_varint (length b) b with
                             | Some vs => Some (map to_int64 vs) | None => None end
                        else Some []
                    | _ => Some []
                    end) m.
Definition float_fields (k : N) (m : list (N * payload)) : option (list N) :=
  collect (fun f => match f with
                    | (n, Fixed32 b) => Some (if (n =? k)%N then [to_float b] else [])
                    | (n, Delimited b) =>
                        if (n =? k)%N then read_all read_float (length b) b else Some []
                    | _ => Some []
                    end) m.
Definition message_field (k : N) (m : list (N * payload)) : list N := concat (bytes_fields k m).
Definition bytes_field (k : N) (m : list (N * payload)) : list N := last (bytes_fields k m) [].

(** tensorflow.Feature: one of three lists, or none. *)
Inductive feature : Type :=
| BytesFeature (l : list (list N)) | FloatFeature (l : list N) | Int64Feature (l : list Z) | NoFeature.

(** The member of the oneof that occurs last, with the bytes of its occurrences since another member
    occurred. *)
Definition oneof (m : list (N * payload)) : option (N * list N) :=
  fold_left (fun acc f => match f with
                          | (n, Delimited b) =>
                              if ((1 <=? n) && (n <=? 3))%N then
                                match acc with
                                | Some (n', b') => if (n =? n')%N then Some (n, b' ++ b) else Some (n, b)
                                | None => Some (n, b)
                                end
                              else acc
                          | _ => acc
                          end) m None.

Definition parse_feature (l : list N) : option feature :=
  match message l with
  | None => None
  | Some m =>
      match oneof m with
      | None => Some NoFeature
      | Some (k, b) =>
          match message b with
          | None => None
          | Some m =>
              if (k =? 1)%N then Some (BytesFeature (bytes_fields 1 m))
              else if (k =? 2)%N then match float_fields 1 m with Some l => Some (FloatFeature l) | None => None end
              else match int64_fields 1 m with Some l => Some (Int64Feature l) | None => None end
          end
      end
  end.

(** An entry of the map of tensorflow.Features: field 1 is the key, field 2 the value. *)
Definition parse_entry (l : list N) : option (list N * feature) :=
  match message l with
  | None => None
  | Some m => match parse_feature (message_field 2 m) with
              | Some f => Some (bytes_field 1 m, f)
              | None => None
              end
  end.

(** tensorflow.Example: the names of its features with their values, in the order they occur. *)
Definition parse_example (l : list N) : option (list (list N * feature)) :=
  match message l with
  | None => None
  | Some m =>
      match message (message_field 1 m) with
      | None => None
      | Some m => collect (fun b => match parse_entry b with Some e => Some [e] | None => None end)
                    (bytes_fields 1 m)
      end
  end.

(** The annotations: name, size before filtering, size. *)
Definition parse_vocabulary_metadata (l : list N) : option (list N * option Z * option Z) :=
  match message l with
  | None => None
  | Some m =>
      match int64_fields 2 m, int64_fields 3 m with
      | Some a, Some b => Some (bytes_field 1 m, hd_error (rev a), hd_error (rev b))
      | _, _ => None
      end
  end.
Definition parse_bucket_boundaries (l : list N) : option (list N) :=
  match message l with Some m => float_fields 1 m | None => None end.

(** ** What is to be written *)

(** Values of a type that can be written. *)
Definition value_ok (d : dtype) (v : value) : Prop :=
  match d, v with
  | DString, VString _ => True
  | DInt64, VInt64 z => (- 2 ^ 63 <= z < 2 ^ 63)%Z
  | DFloat, VFloat n => (n < 2 ^ 32)%N
  | _, _ => False
  end.

(** A tensor as TensorFlow makes them: as many values as the shape says, indices in bounds, ordered
    and different. *)
Definition index_lt (a b : nat * nat) : Prop := fst a < fst b \/ (fst a = fst b /\ snd a < snd b).
Definition tensor_ok (t : tensor) : Prop :=
  match t with
  | Dense d b dims vs => length vs = b * fold_right Nat.mul 1 dims /\ Forall (value_ok d) vs
  | Sparse d b w es =>
      Forall (fun e => fst (fst e) < b /\ snd (fst e) < w /\ value_ok d (snd e)) es
      /\ forall i j, i < j < length es ->
         index_lt (nth i (map fst es) (0, 0)) (nth j (map fst es) (0, 0))
  end.

(** The values of row [i], where the indices within the row are ignored. *)
Definition row (t : tensor) (i : nat) : list value :=
  match t with
  | Dense _ _ dims vs =>
      let w := fold_right Nat.mul 1 dims in map (fun j => nth (i * w + j) vs (VInt64 0)) (seq 0 w)
  | Sparse _ _ _ es => map snd (filter (fun e => fst (fst e) =? i) es)
  end.

(** The values of row [i] of a sparse tensor have the indices 0, 1, ... *)
Definition left_aligned (t : tensor) : Prop :=
  match t with
  | Dense _ _ _ _ => True
  | Sparse _ b _ es =>
      forall i, i < b ->
      let columns := map (fun e => snd (fst e)) (filter (fun e => fst (fst e) =? i) es) in
      columns = seq 0 (length columns)
  end.

(** The feature with values [vs]. *)
Definition feature_of (d : dtype) (vs : list value) : feature :=
  match d with
  | DString => BytesFeature (map (fun v => match v with VString b => b | _ => [] end) vs)
  | DFloat => FloatFeature (map (fun v => match v with VFloat n => n | _ => 0%N end) vs)
  | DInt64 => Int64Feature (map (fun v => match v with VInt64 z => z | _ => 0%Z end) vs)
  | DOther => NoFeature
  end.

Definition octets (s : string) : list N := map N_of_ascii (list_ascii_of_string s).

(** The values at columns 0, 1, ... of row [i] of a sparse tensor, as many as the row has, where
    a column without a value counts as the empty string or zero. *)
Definition at_column (d : dtype) (es : list ((nat * nat) * value)) (i j : nat) : value :=
  match find (fun e => (fst (fst e) =? i) && (snd (fst e) =? j)) es with
  | Some e => snd e
  | None => match d with DString => VString [] | DFloat => VFloat 0 | _ => VInt64 0 end
  end.
Definition first_columns (t : tensor) (i : nat) : list value :=
  match t with
  | Dense _ _ _ _ => row t i
  | Sparse d _ _ es =>
      map (at_column d es i) (seq 0 (length (filter (fun e => fst (fst e) =? i) es)))
  end.
