(** Columns of single precision numbers with keys. *)
From Coq Require Import String List ZArith.
From Flocq Require Import Core BinarySingleNaN.
From Verif Require Import CombineModel MeanVarModel PerKeyModel IeeeModel IeeeExample FsumExample FmvModel FzkModel.
Import ListNotations.

(** All inputs of a key in one bundle. *)
Definition one_bundle (segment_sum : list f32 -> f32) (bs : list (list (string * f32))) (k : string) : sched (sched fmv) :=
  Bundle [Bundle (inputs_of_key k (map (batch_fmv_per_key segment_sum) bs))].

(** Adding two numbers. *)
Definition pair_sum (l : list f32) : f32 := match l with [x; y] => add32 x y | _ => zero32 end.

(** Two values of a key that are close to each other, in one batch. *)
Definition close_pair : list (list (string * f32)) := [[("k"%string, int32 100000); ("k"%string, int32 100001)]].

Definition seven_tenths32 : f32 := mk32 11744051 (-24).

(** The float32 nearest to 0.7, five times. *)
Definition five_times : list (list (string * f32)) := [repeat ("k"%string, seven_tenths32) 5].

(** Three keys and three batches; the first batch has no finite value, nor has the key c. *)
Definition keyed : list (list (string * f32)) :=
  [[("a"%string, nan32); ("c"%string, nan32); ("b"%string, neg_inf32)];
   [("a"%string, int32 1); ("b"%string, int32 7); ("a"%string, int32 5)];
   [("b"%string, int32 7); ("c"%string, neg_inf32); ("a"%string, int32 (-3)); ("c"%string, nan32)]].
