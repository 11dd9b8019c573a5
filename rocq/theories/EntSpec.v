(** * Specification: what analyses accept (C92) *)
From Coq Require Import List Bool Arith String Ascii.
From Verif Require Import CacheKeyModel EntModel.
Import ListNotations.

(** Letters, digits, periods, hyphens and underscores *)
Definition plain (c : ascii) : Prop :=
  let n := nat_of_ascii c in 97 <= n <= 122 \/ 65 <= n <= 90 \/ 48 <= n <= 57 \/ n = 46 \/ n = 45 \/ n = 95.
(** A key of a dataset: some of these, and perhaps a newline at the end *)
Definition proper (k : dataset_key) : Prop :=
  exists s, s <> [] /\ Forall plain s /\ (key k = s \/ key k = (s ++ ["010"%char])%list).

(** A preprocessing function that can be analyzed, for data with these features *)
Definition sound (passthrough : bool) (t : traced) (m : metadata) : Prop :=
  (exists n, t = Some (Dict (S n), 0)) /\
  match m with Instance_dicts n => 0 < n /\ passthrough = false | Tensor_adapter_config n => 0 < n end.
