(** * Specification of python functions in transform graphs (C56) *)
From Coq Require Import List.
From Verif Require Import PyFuncModel.
Import ListNotations.

Section Spec.
Context {func : Type}.

(** The node calls, in the process [i], the function it was made for. *)
Definition calls_right (w : world (func := func)) (i : nat) (n : node) : Prop :=
  forall f, made_for n = Some f -> exists p, nth_error (w_processes w) i = Some p /\ registry p (n_token n) = Some f.
(** All nodes outside of the bodies of functions do. *)
Definition all_right (w : world (func := func)) : Prop :=
  (forall g n, In g (w_graphs w) -> In n (g_nodes g) -> calls_right w (g_process g) n) /\
  (forall i ns n, In (i, ns) (w_restored w) -> In n ns -> calls_right w i n).

(** All the functions stored with a model got their tokens in one process. *)
Definition one_home (m : meta_graph (func := func)) : Prop :=
  forall e e', In e (m_pyfuncs m) -> In e' (m_pyfuncs m) -> e_home e = e_home e'.
(** The model that the action loads. *)
Definition loads (a : action (func := func)) (k : nat) : Prop :=
  match a with Load _ k' | Load_v2 _ k' => k' = k | _ => False end.
(** All models that are loaded in the course of the history have functions of one process. *)
Fixpoint loads_one_home (w : world (func := func)) (l : list (action (func := func))) : Prop :=
  match l with
  | [] => True
  | a :: l' =>
      (forall k m, loads a k -> nth_error (w_models w) k = Some m -> one_home m) /\
      forall w', perform w a = Returned w' -> loads_one_home w' l'
  end.

(** The history has one process only. *)
Definition one_process (l : list (action (func := func))) : Prop := exists l', l = New_process :: l' /\ ~ In New_process l'.
(** No graph is saved after a model was loaded into it. *)
Definition saved_before_loading (l : list (action (func := func))) : Prop :=
  forall before j k after, l = before ++ Load j k :: after -> ~ In (Save j) after.
End Spec.
