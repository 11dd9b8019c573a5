(** What a function or a saved model computes. *)
From Coq Require Import String List.
From Verif Require Import PreModel.
Import ListNotations.

Section spec.
  Variables O V : Type.
  (** What an operation computes. *)
  Variable run : O -> list V -> V.

  (** Expression [e] has value [v], if leaves and variables have the values given. *)
  Inductive computes {L} (leaf : L -> option V) (variable : string -> option V) : expr O V L -> V -> Prop :=
  | computes_leaf l v : leaf l = Some v -> computes leaf variable (Leaf l) v
  | computes_var n v : variable n = Some v -> computes leaf variable (Var n) v
  | computes_const v : computes leaf variable (Const v) v
  | computes_ap o args vs : Forall2 (computes leaf variable) args vs -> computes leaf variable (Ap o args) (run o vs).

  (** The value of a tensor that was returned to a graph whose tensors have values [outer]. *)
  Definition has_value (outer : tensor -> option V) (t : expr O V (tensor + tensor)) (v : V) : Prop :=
    computes (fun l => match l with inl o => outer o | inr _ => None end) (fun _ => None) t v.

  (** The arguments of a function that is applied to some tensors. *)
  Definition arguments (outer : tensor -> option V) (inputs : list tensor) (i : nat) : option V :=
    match nth_error inputs i with Some t => outer t | None => None end.

  (** Argument [i] occurs in an expression. *)
  Inductive mentions {L} (l : L) : expr O V L -> Prop :=
  | mentions_leaf : mentions l (Leaf l)
  | mentions_ap o args e : In e args -> mentions l e -> mentions l (Ap o args).
  Inductive mentions_var {L} (n : string) : expr O V L -> Prop :=
  | mentions_var_var : mentions_var n (Var n)
  | mentions_var_ap o args e : In e args -> mentions_var n e -> mentions_var n (Ap o args).
End spec.

(** Names for TensorFlow: without regard to case. *)
Definition same_name (a b : string) : Prop := lower a = lower b.

Definition begins_with (scope name : string) : Prop := exists rest, name = (scope ++ rest)%string.

(** The variable called [v] is one to be restored. *)
Definition chosen (include exclude : option (list string)) (v : string) : Prop :=
  match include with None => True | Some scopes => exists s, In s scopes /\ begins_with s (v ++ ":0") end /\
  match exclude with None => True | Some scopes => ~ exists s, In s scopes /\ begins_with s (v ++ ":0") end.

(** * Saved models *)
Section saved.
  Variables O V : Type.
  Variable m : saved_model O V.

  (** The signature that is asked for: the one of that name or, without a name, the only one. *)
  Definition asked (signature_name : option string) (s : signature) : Prop :=
    (exists n, signature_name = Some n /\ n <> EmptyString /\ In (n, s) (m_signatures O V m)) \/
    ((signature_name = None \/ signature_name = Some EmptyString) /\ exists n, m_signatures O V m = [(n, s)]).

  (** Tensor [k] of the model is an input of the signature, for which [t] is given. *)
  Definition feeds (s : signature) (inputs : given) (k t : tensor) : Prop :=
    exists key, In (key, k) (s_inputs s) /\ match inputs with Single u => t = u | Dict d => In (key, t) d end.

  (** The tensors of the model that are asked for, and whether one is to be returned by itself. *)
  Definition wanted (s : signature) (output_keys : option (list string)) (names : list tensor) (single : bool) : Prop :=
    (exists keys, output_keys = Some keys /\ keys <> [] /\ single = false /\ Forall2 (fun key name => In (key, name) (s_outputs s)) keys names) \/
    ((output_keys = None \/ output_keys = Some []) /\ single = true /\ exists key name, s_outputs s = [(key, name)] /\ names = [name]).

  (** A signature names its inputs and outputs once, and does not give two names to an input. *)
  Definition proper (s : signature) : Prop :=
    NoDup (map fst (s_inputs s)) /\ NoDup (map snd (s_inputs s)) /\ NoDup (map fst (s_outputs s)).
End saved.
