(** * Examples of transformed datasets (C51) *)
From Coq Require Import String.
From Coq Require Import List Arith Bool Lia.
From Verif Require Import TransformModel TransformSpec.
Import ListNotations.
Local Open Scope string_scope.
Local Notation length := List.length.

(** Numbers; a column "x" that is transformed into "double", a column "k" that is not. *)
Definition numbers : record_batch nat := [("x", [Some [1]; Some [2; 3]]); ("k", [Some [7]; None])].
Definition adapt_x (b : record_batch nat) : option (list (string * list (cell nat))) :=
  match lookup "x" b with Some c => Some [("x", c)] | None => Some [("x", repeat None (num_rows b))] end.
Definition double_cell (c : cell nat) : cell nat := option_map (map (fun x => 2 * x)) c.
Definition double_x (feed : list (string * list (cell nat))) : option (list (string * list (cell nat))) :=
  Some (map (fun kc => ("double", map double_cell (snd kc))) feed).
Definition keep (t : list (string * list (cell nat))) : option (record_batch nat) := Some t.
Definition fine (t : list (string * list (cell nat))) : bool := true.
(** A graph that computes the number of values, one row for the whole batch. *)
Definition count_x (feed : list (string * list (cell nat))) : option (list (string * list (cell nat))) :=
  Some (map (fun kc => ("count", [Some [length (snd kc)]])) feed).
(** Rows count as one byte each. *)
Definition row_bytes (b : record_batch nat) : nat := num_rows b.

Definition double_row (row : list (string * cell nat)) : list (string * cell nat) :=
  [("double", match lookup "x" row with Some c => double_cell c | None => None end)].

Lemma lookup_row {A B} (f : A -> B) name (l : list (string * A)) :
  lookup name (map (fun nc => (fst nc, f (snd nc))) l) = option_map f (lookup name l).
Proof. induction l as [|[k x] l IH]; cbn; [reflexivity|]. now destruct (String.eqb name k). Qed.

Lemma double_by_rows : works_by_rows adapt_x double_x keep fine ["k"] double_row.
Proof.
  intros n b POS R.
  assert (RN : num_rows b = n).
  { destruct R as (NE & _ & F). destruct b as [|[k c] b]; [contradiction|]. now inversion F. }
  pose (xs := match lookup "x" b with Some c => c | None => repeat None n end).
  assert (LX : length xs = n).
  { unfold xs. destruct (lookup "x" b) as [c|] eqn:L; [|apply repeat_length].
    destruct R as (_ & _ & F). rewrite Forall_forall in F. clear - F L. induction b as [|[k c'] b IH]; [discriminate|].
    cbn [lookup] in L. destruct (String.eqb "x" k); [injection L as <-; apply (F (k, c')); now left|]. apply IH; [|exact L].
    intros z I. apply F. now right. }
  exists [("x", xs)], [("double", map double_cell xs)], [("double", map double_cell xs)].
  split; [unfold adapt_x, xs; rewrite RN; now destruct (lookup "x" b)|]. split; [reflexivity|]. split; [reflexivity|]. split; [reflexivity|].
  split; [split; [discriminate|]; split; [repeat constructor; intros []|]; constructor; [cbn; now rewrite map_length|constructor]|].
  split; [intros k [<-|[]]; split; cbn; intros [H|[]]; discriminate|].
  unfold instance_dicts. rewrite RN. cbn [num_rows]. rewrite map_length, LX.
  assert (forall l, (forall i, In i l -> i < n) -> Forall2 (fun out row => forall name, lookup name out = lookup name (double_row row))
    (map (fun i => map (fun nc => (fst nc, nth i (snd nc) None)) [("double", map double_cell xs)]) l)
    (map (fun i => map (fun nc => (fst nc, nth i (snd nc) None)) b) l)) as H.
  { induction l as [|i l IH]; intros B; cbn [map]; constructor.
    - intros name. unfold double_row.
      pose proof (lookup_row (fun c : list (cell nat) => nth i c None) "x" b) as E.
      assert (match lookup "x" (map (fun nc : string * list (cell nat) => (fst nc, nth i (snd nc) None)) b) with
              | Some c => double_cell c | None => None end = nth i (map double_cell xs) None) as E'.
      { refine (eq_trans (f_equal (fun o => match o with Some c => double_cell c | None => None end) E) _).
        unfold xs. destruct (lookup "x" b) as [c|]; cbn [option_map].
        - symmetry. exact (map_nth double_cell c None i).
        - symmetry. refine (eq_trans (map_nth double_cell (repeat None n) None i) _). now rewrite nth_repeat. }
      refine (f_equal (fun c => lookup name [("double", c)]) (eq_sym E')).
    - apply IH. intros j J. apply B. now right. }
  apply H. intros i I. apply in_seq in I. lia.
Qed.
