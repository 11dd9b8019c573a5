(** The weighted mean accumulators used by mutual-information vocabularies. *)
From Coq Require Import List ZArith QArith Bool.
From Verif Require Import CombineModel FloatModel.
Import ListNotations.
Open Scope Z_scope.

(** _WeightedMeanAndVarAccumulator (analyzers.py:1251-1277) with compute_variance=False and
    compute_weighted=True: number of rows, weighted mean of each label, mean weight.  The variance
    entry is zero in this mode and is left out. *)
Record wm := WM { wm_count : Z; wm_mean : list fl; wm_weight : fl }.

(** analyzers.py:1319-1331 with output_shape=(None,) (beam/analyzer_impls.py:811, 865). *)
Definition wm_create : wm := WM 0 [] (Fin 0).

(** analyzers.py:1258-1277 *)
Definition wm_nan_to_num (a : wm) : wm :=
  WM (wm_count a) (map nan_to_num (wm_mean a)) (nan_to_num (wm_weight a)).

(** analyzers.py:1483-1517 *)
Definition pad_zeros (n : nat) (l : list fl) : list fl := l ++ repeat (Fin 0) (n - length l).

(** analyzers.py:1417-1479, compute_weighted=True *)
Definition wm_combine (a b : wm) : wm :=
  let a := wm_nan_to_num a in
  let b := wm_nan_to_num b in
  let (a, b) := if wm_count a <? wm_count b then (b, a) else (a, b) in
  if wm_count a =? 0 then b
  else
    let n := Nat.max (length (wm_mean a)) (length (wm_mean b)) in
    let bc := Fin (inject_Z (wm_count b)) in
    let total := Fin (inject_Z (wm_count a + wm_count b)) in
    let weight := fadd (wm_weight a) (fmul (fdiv bc total) (fsub (wm_weight b) (wm_weight a))) in
    let factor := fdiv (fmul bc (wm_weight b)) (fmul total weight) in
    WM (wm_count a + wm_count b)
       (map (fun p => fadd (fst p) (fmul factor (fsub (snd p) (fst p))))
            (combine (pad_zeros n (wm_mean a)) (pad_zeros n (wm_mean b))))
       weight.

(** analyzers.py:1352-1367 *)
Definition wm_merge (accs : list wm) : wm :=
  match accs with [] => wm_create | a :: rest => fold_left wm_combine rest a end.

(** beam/analyzer_impls.py:899-958 ([_WeightedMeanCombineFn]) *)
Definition wm_combiner : combiner wm wm wm :=
  {| create_accumulator := wm_create;
     add_input := wm_combine;
     merge_accumulators := wm_merge;
     extract_output := fun a => a |}.

(** ** From rows to accumulators *)

(** A row in which the token occurs: its label and its weight. *)
Record labelled := Lab { lab_label : nat; lab_weight : Q }.

Definition sumq (l : list Q) : Q := fold_right Qplus 0%Q l.

(** beam/analyzer_impls.py:627-644 ([_make_count_and_weights_means_accumulator], weighted): numpy division,
    so dividing by a zero total gives NaN. *)
Definition wm_make (sum_positive : list Q) (total : Q) (count : Z) : wm :=
  WM count (map (fun y => fdiv (Fin y) (Fin total)) sum_positive) (fdiv (Fin total) (Fin (inject_Z count))).

(** tf_utils.py:315-371, 428-486: what one batch contributes for one token.  [labels] is
    max_y_value + 1 of the whole batch; the segment sum for label [j] adds the weights of the rows with
    the token and that label. *)
Definition batch_token (labels : nat) (rows : list labelled) : wm :=
  wm_make (map (fun j => sumq (map lab_weight (filter (fun r => Nat.eqb (lab_label r) j) rows))) (seq 0 labels))
          (sumq (map lab_weight rows)) (Z.of_nat (length rows)).

(** The accumulators of one token over the whole dataset (beam/analyzer_impls.py:274-331, 359-402,
    811-869): CombinePerKey over the batches, then over the partial results. *)
Definition token_statistics (s : sched (sched (nat * list labelled))) : wm :=
  analyze wm_combiner (map_sched (map_sched (fun b => batch_token (fst b) (snd b))) s).
