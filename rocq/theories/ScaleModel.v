(** tft.min / tft.max on floating point columns and tft.scale_by_min_max / tft.scale_to_0_1. *)
From Coq Require Import String List ZArith QArith Bool.
From Verif Require Import CombineModel FloatModel MeanVarModel PerKeyModel.
Import ListNotations.
Open Scope Q_scope.

(** ** Min and max of floating point columns *)

(** np.maximum: NaN if one argument is NaN. *)
Definition fmax (x y : fl) : fl :=
  match x, y with
  | NaN, _ | _, NaN => NaN
  | _, _ => if fleb x y then y else x
  end.

Definition neg_inf : fl := Inf true.

(** tf.reduce_max over all values of a tensor: -inf for an empty tensor. *)
Definition freduce_max (l : list fl) : fl := fold_left fmax l neg_inf.

(** tf_utils.py:1999-2007 ([reduce_batch_minus_min_and_max], reduce_instance_dims=True). *)
Definition float_batch (xs : list fl) : fl * fl :=
  (freduce_max (map (fun x => fsub (Fin 0) x) xs), freduce_max xs).

(** np.max over a non-empty list; only applied to non-empty lists. *)
Definition np_fmax (l : list fl) : fl :=
  match l with [] => NaN | x :: l' => fold_left fmax l' x end.

(** analyzers.py:282-286: np.array_equal(accumulator[0], -inf) *)
Definition float_is_default (a : fl * fl) : bool := feqb (fst a) neg_inf.

(** analyzers.py:300-311 ([NumPyCombiner.add_input], fn=np.max, default -inf) on the two scalars
    [-min; max]. *)
Definition float_add (a b : fl * fl) : fl * fl :=
  if float_is_default a then b
  else (np_fmax [fst a; fst b], np_fmax [snd a; snd b]).

(** analyzers.py:313-330 *)
Definition float_merge (accs : list (fl * fl)) : fl * fl :=
  match filter (fun a => negb (float_is_default a)) accs with
  | [] => (neg_inf, neg_inf)
  | l => (np_fmax (map fst l), np_fmax (map snd l))
  end.

Definition float_minmax_combiner : combiner (fl * fl) (fl * fl) (fl * fl) :=
  {| create_accumulator := (neg_inf, neg_inf);
     add_input := float_add;
     merge_accumulators := float_merge;
     extract_output := fun a => (fsub (Fin 0) (fst a), snd a) |}.

(** analyzers.py:504-562 ([_min_and_max], floating dtype, reduce_instance_dims=True): (min, max).
    The final 0 - minus_min (562) is part of [extract_output] here. *)
Definition float_min_and_max (s : sched (sched (list fl))) : fl * fl :=
  analyze float_minmax_combiner (map_sched (map_sched float_batch) s).

(** tf_utils.py:2026-2077 on floating point rows. *)
Definition float_batch_per_key : list (string * fl) -> list (string * (fl * fl)) :=
  reduce_per_key float_batch.

(** analyzers.py:565-659 ([_min_and_max_per_key], floating dtype), the entry of one key whose inputs
    are combined as in [s]. *)
Definition float_key_min_and_max (s : sched (sched (fl * fl))) : fl * fl :=
  analyze float_minmax_combiner s.

(** ** Scaling *)

Section scale.
  (** tf.math.sigmoid on the finite values. *)
  Variable sigmoid : Q -> Q.

  Definition fsigmoid (x : fl) : fl :=
    match x with Fin q => Fin (sigmoid q) | NaN => NaN | Inf true => Fin 0 | Inf false => Fin 1 end.

  (** mappers.py:441-454: one value [x], given the analyzed minimum and maximum. *)
  Definition scale_value (output_min output_max : Q) (min_x max_x : fl) (x : fl) : fl :=
    let numerator := fsub x min_x in
    let scaled := if fltb min_x max_x then fdiv numerator (fsub max_x min_x) else fsigmoid x in
    fadd (fmul scaled (Fin (output_max - output_min))) (Fin output_min).

  (** mappers.py:375-454 ([_scale_by_min_max_internal], key=None, elementwise=False): the analysis runs
      over [s], [x] is a value seen at transform time.  None: ValueError. *)
  Definition scale_by_min_max (output_min output_max : Q) (s : sched (sched (list fl))) (x : fl) : option fl :=
    if Qle_bool output_max output_min then None
    else let (mn, mx) := float_min_and_max s in Some (scale_value output_min output_max mn mx x).

  (** mappers.py:389-412 with a key: [vocab] and [results] are the outputs of the per-key analysis, [k]
      and [x] the key and the value of a row. *)
  Definition scale_by_min_max_per_key (output_min output_max : Q) (vocab : list string) (results : list (fl * fl))
      (k : string) (x : fl) : option fl :=
    if Qle_bool output_max output_min then None
    else match map_per_key (fun _ => (Fin 0, Fin 0)) results vocab k with
         | Some (mn, mx) => Some (scale_value output_min output_max mn mx x)
         | None => None
         end.
End scale.

(** mappers.py:458-487 ([scale_to_0_1]) *)
Definition scale_to_0_1 (sigmoid : Q -> Q) := scale_by_min_max sigmoid 0 1.
