(** Floating point values with exact arithmetic: finite values are rationals (no rounding), and the
    special values NaN and infinity behave as in IEEE 754.  Zero has no sign (a non-zero value
    divided by zero has the sign of the dividend). *)
From Coq Require Import List ZArith QArith Bool.
Import ListNotations.

Inductive fl := Fin (q : Q) | NaN | Inf (neg : bool).

Definition qneg (q : Q) : bool := negb (Qle_bool 0 q).

Definition fneg (x : fl) : fl :=
  match x with Fin q => Fin (- q) | NaN => NaN | Inf s => Inf (negb s) end.
Definition fadd (x y : fl) : fl :=
  match x, y with
  | Fin a, Fin b => Fin (a + b)
  | NaN, _ | _, NaN => NaN
  | Inf s, Inf t => if Bool.eqb s t then Inf s else NaN
  | Inf s, Fin _ | Fin _, Inf s => Inf s
  end.
Definition fsub (x y : fl) : fl := fadd x (fneg y).
Definition fmul (x y : fl) : fl :=
  match x, y with
  | Fin a, Fin b => Fin (a * b)
  | NaN, _ | _, NaN => NaN
  | Inf s, Inf t => Inf (xorb s t)
  | Inf s, Fin q | Fin q, Inf s => if Qeq_bool q 0 then NaN else Inf (xorb s (qneg q))
  end.
Definition fdiv (x y : fl) : fl :=
  match x, y with
  | Fin a, Fin b =>
      if Qeq_bool b 0 then (if Qeq_bool a 0 then NaN else Inf (qneg a)) else Fin (a / b)
  | NaN, _ | _, NaN => NaN
  | Inf _, Inf _ => NaN
  | Inf s, Fin q => Inf (xorb s (qneg q))
  | Fin _, Inf _ => Fin 0
  end.

(** tf.math.is_finite *)
Definition is_finite (x : fl) : bool := match x with Fin _ => true | _ => false end.

(** tf.math.divide_no_nan: 0 if the denominator is zero. *)
Definition divide_no_nan (x y : fl) : fl :=
  match y with Fin b => if Qeq_bool b 0 then Fin 0 else fdiv x y | _ => fdiv x y end.

(** np.finfo(np.float64).max *)
Definition float64_max : Q := inject_Z (2 ^ 1024 - 2 ^ 971).

(** np.nan_to_num on float64 *)
Definition nan_to_num (x : fl) : fl :=
  match x with
  | Fin q => Fin q
  | NaN => Fin 0
  | Inf s => Fin (if s then - float64_max else float64_max)
  end.

(** tf.reduce_sum *)
Definition fsum (l : list fl) : fl := fold_right fadd (Fin 0) l.

(** Comparisons: false as soon as one side is NaN. *)
Definition fltb (x y : fl) : bool :=
  match x, y with
  | Fin a, Fin b => negb (Qle_bool b a)
  | NaN, _ | _, NaN => false
  | Inf s, Inf t => s && negb t
  | Inf s, Fin _ => s
  | Fin _, Inf s => negb s
  end.
Definition fleb (x y : fl) : bool :=
  match x, y with
  | Fin a, Fin b => Qle_bool a b
  | NaN, _ | _, NaN => false
  | Inf s, Inf t => s || negb t
  | Inf s, Fin _ => s
  | Fin _, Inf s => negb s
  end.
Definition feqb (x y : fl) : bool :=
  match x, y with
  | Fin a, Fin b => Qeq_bool a b
  | Inf s, Inf t => Bool.eqb s t
  | _, _ => false
  end.

(** The finite values of a list. *)
Fixpoint finites (l : list fl) : list Q :=
  match l with
  | [] => []
  | Fin q :: l' => q :: finites l'
  | _ :: l' => finites l'
  end.
