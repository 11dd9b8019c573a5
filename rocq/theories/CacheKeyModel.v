(** Keys of datasets and the locations of their caches (beam/analyzer_cache.py). *)
From Coq Require Import String Ascii List Bool Arith.
Import ListNotations.
Open Scope list_scope.
Local Notation length := List.length.

Notation chars := (list ascii) (only parsing).
Definition text (s : string) : chars := list_ascii_of_string s.

(** lines 37-46 *)
Definition replacements : list (ascii * chars) :=
  [("/"%char, text "-"); ("\"%char, text "-"); ("*"%char, text "STAR"); ("@"%char, text "AT");
   ("["%char, text "--"); ("]"%char, text "--"); (":"%char, text "P"); ("="%char, text "E")].
(** str.replace of one character *)
Definition replace (c : ascii) (by_ : chars) (s : chars) : chars :=
  flat_map (fun x => if Ascii.eqb x c then by_ else [x]) s.
(** lines 49-53: one replacement after the other *)
Definition make_valid_cache_component (name : chars) : chars :=
  fold_left (fun result r => replace (fst r) (snd r) result) replacements name.

(** lines 56-84; the key of the flattened dataset (an object of its own) is left out *)
Record dataset_key := DatasetKey { key : chars; is_cached : bool }.
Definition new_dataset_key (name : chars) (cached : bool) : dataset_key :=
  DatasetKey (make_valid_cache_component name) cached.
(** lines 62-64: [_replace] does not go through [__new__] *)
Definition non_cacheable (k : dataset_key) : dataset_key := DatasetKey (text "uncached_" ++ key k) false.

(** posixpath.join of two parts *)
Definition join (a b : chars) : chars :=
  match b with
  | "/"%char :: _ => b
  | _ => match a with
         | [] => b
         | _ => if Ascii.eqb (last a " "%char) "/"%char then a ++ b else a ++ "/"%char :: b
         end
  end.
(** lines 91-92 ([_get_dataset_cache_path]) *)
Definition cache_path (base_dir : chars) (k : dataset_key) : chars := join base_dir (key k).

(** lines 429-439: re.compile(r"^[a-zA-Z0-9\.\-_]+$").match; "$" also matches before a final newline *)
Definition allowed (c : ascii) : bool :=
  let n := nat_of_ascii c in
  (97 <=? n) && (n <=? 122) || (65 <=? n) && (n <=? 90) || (48 <=? n) && (n <=? 57) || (n =? 46) || (n =? 45) || (n =? 95).
Definition matches (s : chars) : bool :=
  let body := match rev s with "010"%char :: r => rev r | _ => s end in
  match body with [] => false | _ => forallb allowed body end.
Definition validate_dataset_key (k : dataset_key) : bool := matches (key k).
