(** tft.scale_to_z_score.  The square root leaves the rationals, so the scaled values are reals; they are
    defined for finite inputs. *)
From Coq Require Import String List ZArith QArith Qreals Reals Bool.
From Verif Require Import CombineModel FloatModel MeanVarModel PerKeyModel.
Import ListNotations.

(** mappers.py:711-727: one value, given the analyzed mean and variance. *)
Definition z_value (x_mean x_var : Q) (x : Q) : R :=
  let numerator := (Q2R x - Q2R x_mean)%R in
  let denominator := R_sqrt.sqrt (Q2R x_var) in
  if Req_EM_T denominator 0 then numerator else (numerator / denominator)%R.

(** mappers.py:659-728 ([_scale_to_z_score_internal], key=None, elementwise=False): the analysis runs over
    [s], [x] is a finite value seen at transform time.  None: the result is not finite. *)
Definition scale_to_z_score (s : sched (sched (list fl))) (x : Q) : option R :=
  match mean_and_var s with
  | [(Fin m, Fin v)] => Some (z_value m v x)
  | _ => None
  end.

(** mappers.py:673-694 with a key: [vocab] and [results] come from the per-key analysis. *)
Definition scale_to_z_score_per_key (vocab : list string) (results : list (fl * fl)) (k : string) (x : Q) : option R :=
  match map_per_key (fun _ => (Fin 0, Fin 0)) results vocab k with
  | Some (Fin m, Fin v) => Some (z_value m v x)
  | _ => None
  end.
