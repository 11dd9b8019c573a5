(** * Leaving out datasets and entries of the cache *)
From Coq Require Import String.
From Coq Require Import List Bool.
Import ListNotations.

(** All the datasets. *)
Definition all_given {K PC : Type} (data : K -> PC) (keys : list K) : list (K * option PC) :=
  map (fun k => (k, Some (data k))) keys.

(** [datasets] are those of [keys]: the wanted ones, and None for others or their data as well. *)
Definition gives {K PC : Type} (wanted : list K) (data : K -> PC) (keys : list K)
    (datasets : list (K * option PC)) : Prop :=
  map fst datasets = keys /\
  forall k d, In (k, d) datasets -> d = Some (data k) \/ (d = None /\ ~ In k wanted).

(** [cache'] has what [cache] has under the wanted keys, and perhaps less under others. *)
Definition enough_of {K PC : Type} (wanted : list string) (cache cache' : K -> string -> option PC) : Prop :=
  forall k key, In key wanted -> cache' k key = cache k key.
