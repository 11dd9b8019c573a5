(** The coders of cached accumulators (analyzer_nodes.py). *)
From Coq Require DecimalString DecimalZ.
From Coq Require Import Ascii String List ZArith NArith Bool Arith.
Import ListNotations.
Open Scope Z_scope.
Open Scope list_scope.
Local Notation length := List.length.

(** Bytes, and text that is ASCII (json.dumps escapes everything else). *)
Notation bytes := (list ascii) (only parsing).

(** ** struct *)

(** struct.pack("q", n) on a little-endian (or big-endian) machine: 8 bytes; None = struct.error, n is too
    large for a signed 8 byte integer. *)
Definition byte_at (n : Z) (i : nat) : ascii := ascii_of_N (Z.to_N (n / 256 ^ Z.of_nat i mod 256)).
Definition pack_q (big_endian : bool) (n : Z) : option bytes :=
  if (- 2 ^ 63 <=? n) && (n <? 2 ^ 63)
  then let little := map (byte_at n) (seq 0 8) in Some (if big_endian then rev little else little)
  else None.
(** struct.unpack("q", b) of 8 bytes: the signed value *)
Fixpoint little_value (b : bytes) : Z :=
  match b with [] => 0 | c :: b' => Z.of_N (N_of_ascii c) + 256 * little_value b' end.
Definition unpack_q (big_endian : bool) (b : bytes) : Z :=
  let n := little_value (if big_endian then rev b else b) in
  if n <? 2 ^ 63 then n else n - 2 ^ 64.

(** ** analyzer_nodes.py:844-872 ([_BaseKVCoder]) *)

(** lines 852-861: struct.pack("qq{len_token}s{len_value}s", ...); a bytes field adds no padding *)
Definition kv_encode (big_endian : bool) (accumulator : bytes * bytes) : option bytes :=
  let '(token, value) := accumulator in
  match pack_q big_endian (Z.of_nat (length token)), pack_q big_endian (Z.of_nat (length value)) with
  | Some a, Some b => Some (a ++ b ++ token ++ value)
  | _, _ => None
  end.
(** lines 863-872: None = struct.error (buffer too short, or a negative length in the format) *)
Definition kv_decode (big_endian : bool) (encoded : bytes) : option (bytes * bytes) :=
  let prefix := firstn 16 encoded in
  if (length prefix <? 16)%nat then None else
  let len_token := unpack_q big_endian (firstn 8 prefix) in
  let len_value := unpack_q big_endian (skipn 8 prefix) in
  let rest := skipn 16 encoded in
  if (len_token <? 0) || (len_value <? 0) then None else
  if Z.of_nat (length rest) <? len_token + len_value then None else
  Some (firstn (Z.to_nat len_token) rest, firstn (Z.to_nat len_value) (skipn (Z.to_nat len_token) rest)).

(** ** json.dumps and json.loads on numbers and lists *)

Section json.
  (** Python floats; [show]: float.__repr__ (or NaN, Infinity, -Infinity), [read]: the converse. *)
  Variables (F : Type) (show : F -> bytes) (read : bytes -> option F).

  Inductive json := JInt (n : Z) | JFloat (f : F) | JList (l : list json).

  (** int.__repr__ *)
  Definition show_int (n : Z) : bytes := list_ascii_of_string (DecimalString.NilZero.string_of_int (Z.to_int n)).
  Fixpoint dumps (j : json) : bytes :=
    match j with
    | JInt n => show_int n
    | JFloat f => show f
    | JList l =>
        "["%char ::
        (fix items (first : bool) (l : list json) : bytes :=
           match l with
           | [] => []
           | x :: l' => (if first then [] else [","%char; " "%char]) ++ dumps x ++ items false l'
           end) true l ++ ["]"%char]
    end.

  (** json.loads: the scanner's tokens, then the values.  White space is skipped. *)
  Inductive token := LBracket | RBracket | Comma | Number (text : bytes).
  Definition flush (acc : bytes) : list token := match acc with [] => [] | _ => [Number (rev acc)] end.
  Definition is_blank (c : ascii) : bool := existsb (Ascii.eqb c) [" "; "009"; "010"; "013"]%char.
  Fixpoint tokenise (acc : bytes) (s : bytes) : list token :=
    match s with
    | [] => flush acc
    | c :: s' =>
        if Ascii.eqb c "["%char then flush acc ++ LBracket :: tokenise [] s'
        else if Ascii.eqb c "]"%char then flush acc ++ RBracket :: tokenise [] s'
        else if Ascii.eqb c ","%char then flush acc ++ Comma :: tokenise [] s'
        else if is_blank c then flush acc ++ tokenise [] s'
        else tokenise (c :: acc) s'
    end.
  (** a literal without fraction and exponent is an int, any other number a float *)
  Definition number (text : bytes) : option json :=
    match DecimalString.NilZero.int_of_string (string_of_list_ascii text) with
    | Some d => Some (JInt (Z.of_int d))
    | None => option_map JFloat (read text)
    end.
  (** What may come next: a value (at the start, after a comma), a value or "]" (after "["), or "," or "]". *)
  Inductive expecting := Value | ValueOrEnd | Separator.
  (** [stack]: the lists being read, innermost first, each reversed. *)
  Fixpoint parse (next : expecting) (stack : list (list json)) (ts : list token) {struct ts} : option json :=
    match ts with
    | [] => None
    | Number text :: ts' =>
        match next with Separator => None | _ =>
          match number text with
          | None => None
          | Some v => match stack with
                      | [] => match ts' with [] => Some v | _ => None end
                      | top :: stack' => parse Separator ((v :: top) :: stack') ts'
                      end
          end
        end
    | LBracket :: ts' => match next with Separator => None | _ => parse ValueOrEnd ([] :: stack) ts' end
    | Comma :: ts' => match next, stack with Separator, _ :: _ => parse Value stack ts' | _, _ => None end
    | RBracket :: ts' =>
        match next, stack with
        | Value, _ | _, [] => None
        | _, [top] => match ts' with [] => Some (JList (rev top)) | _ => None end
        | _, top :: below :: stack' => parse Separator ((JList (rev top) :: below) :: stack') ts'
        end
    end.
  Definition loads (s : bytes) : option json := parse Value [] (tokenise [] s).

  (** ** analyzer_nodes.py:875-913 ([_VocabularyAccumulatorCoder]) *)

  (** Tokens of a string feature are bytes, those of an integer feature ints. *)
  Inductive vocab_token := TBytes (b : bytes) | TInt (n : Z).
  (** An indicator: a count, a sum of weights, or the four fields of a _WeightedMeanAndVarAccumulator, each
      given as the number or nested list that [tolist] makes of its array. *)
  Inductive indicator := ICount (n : Z) | IWeight (f : F) | IMeanAndVar (count mean variance weight : json).

  (** lines 882-894 *)
  Definition vocabulary_encode (big_endian is_string : bool) (accumulator : vocab_token * indicator) : option bytes :=
    let '(token, value) := accumulator in
    let token := match is_string, token with
                 | true, TBytes b => Some b
                 | false, TInt n => Some (dumps (JInt n))
                 | _, _ => None
                 end in
    let value := match value with
                 | IMeanAndVar count mean variance weight => JList [count; mean; variance; weight]
                 | ICount n => JInt n
                 | IWeight f => JFloat f
                 end in
    match token with Some token => kv_encode big_endian (token, dumps value) | None => None end.
  (** lines 896-913: None = raised (not a token or value of the expected form) *)
  Definition vocabulary_decode (big_endian is_string : bool) (encoded : bytes) : option (vocab_token * indicator) :=
    match kv_decode big_endian encoded with
    | None => None
    | Some (token, value) =>
        let token := if is_string then Some (TBytes token) else
                       match loads token with Some (JInt n) => Some (TInt n) | _ => None end in
        let value := match loads value with
                     | Some (JList [count; mean; variance; weight]) => Some (IMeanAndVar count mean variance weight)
                     | Some (JInt n) => Some (ICount n)
                     | Some (JFloat f) => Some (IWeight f)
                     | _ => None
                     end in
        match token, value with Some t, Some v => Some (t, v) | _, _ => None end
    end.

  (** ** analyzer_nodes.py:618-642 ([_CombinerPerKeyAccumulatorCoder]) around the combiner's coder, which is
      [JsonNumpyCacheCoder] (lines 435-465) for every combiner that is not a PTransform.  An accumulator is
      given as the nested list that [tolist] makes of it; numpy's choice of the dtype of the decoded array is
      not modelled. *)
  Definition per_key_encode (big_endian : bool) (accumulator : bytes * json) : option bytes :=
    let '(key, value) := accumulator in kv_encode big_endian (key, dumps value).
  Definition per_key_decode (big_endian : bool) (encoded : bytes) : option (bytes * json) :=
    match kv_decode big_endian encoded with
    | None => None
    | Some (key, encoded_value) => match loads encoded_value with Some value => Some (key, value) | None => None end
    end.
End json.
