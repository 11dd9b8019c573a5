(** * Deep copies of collections

    Models /repo/tensorflow_transform/beam/deep_copy.py. *)
From Coq Require Import String.
From Coq Require Import List Arith Bool.
From Verif Require Import PackGraphModel.
Import ListNotations.
Local Notation length := List.length.

(** A [PBegin] or a [PCollection].  Beam compares collections by producer and tag.
    An [AppliedPTransform] is compared by identity: here by its position in the
    list of all of them. *)
Inductive pvalue := PBegin | PColl (producer : nat) (tag : string).
Definition pvalue_eqb (a b : pvalue) : bool :=
  match a, b with
  | PBegin, PBegin => true
  | PColl t s, PColl t' s' => Nat.eqb t t' && String.eqb s s'
  | _, _ => false
  end.
Definition mem (v : pvalue) (l : list pvalue) : bool := existsb (pvalue_eqb v) l.

(** A composite transform around another one. *)
Record composite := Composite { comp_barrier : bool; comp_outputs : list pvalue }.

(** An [AppliedPTransform] without parts.  [fn] is the [transform] itself, and
    [barrier] whether its class is in [_MATERIALIZATION_BARRIER_TRANSFORMS]
    (36-42).  [composites]: the transforms around it, the innermost first, without
    the root of the pipeline.  [hint] is the [close_to_resources] resource hint.
    [outputs] has the tags; that an output has the tag that it is stored under is
    taken for granted. *)
Record transform (F : Type) := Transform {
  fn : F; barrier : bool; label : string; main_inputs : list pvalue; side_inputs : list pvalue;
  outputs : list string; composites : list composite; hint : option string }.
Arguments Transform {F}.
Arguments fn {F}.
Arguments barrier {F}.
Arguments label {F}.
Arguments main_inputs {F}.
Arguments side_inputs {F}.
Arguments outputs {F}.
Arguments composites {F}.
Arguments hint {F}.

Section DeepCopy.
Context {F : Type}.
Notation transform := (transform F).
(** The transforms, in the order in which they were applied. *)
Notation pipeline := (list transform).
(** [resources.ResourceHint.is_registered("close_to_resources")] (188-190). *)
Variable hints_available : bool.

(** 45-62. *)
Fixpoint ascend (v : pvalue) (cs : list composite) : bool :=
  match cs with
  | [] => false
  | c :: cs => if mem v (comp_outputs c) then comp_barrier c || ascend v cs else false
  end.
Definition at_boundary (p : pipeline) (v : pvalue) : bool :=
  match v with
  | PBegin => false
  | PColl t _ => match nth_error p t with Some a => barrier a || ascend v (composites a) | None => false end
  end.

(** ** 65-129 ([_get_items_to_clone]) *)
Inductive item := Coll (v : pvalue) | Trans (t : nat).

(** 122-126. *)
Fixpoint enqueue (inputs : list pvalue) (q seen : list pvalue) : list pvalue * list pvalue :=
  match inputs with
  | [] => (q, seen)
  | v :: inputs => if mem v seen then enqueue inputs q seen else enqueue inputs (q ++ [v]) (v :: seen)
  end.

(** 98-126; [items] is [reversed_to_clone] from the end, so that its value is the
    result of line 128.  [fuel] bounds the number of iterations; [None]: it raises. *)
Fixpoint search (fuel : nat) (p : pipeline) (q seen : list pvalue) (seen_transforms : list nat) (items : list item) :
    option (list item) :=
  match q with
  | [] => Some items
  | v :: q =>
      match fuel with
      | 0 => None
      | S fuel =>
          match v with
          | PBegin => search fuel p q seen seen_transforms items
          | PColl t _ =>
              if at_boundary p v then search fuel p q seen seen_transforms items
              else
                match nth_error p t with
                | None => None
                | Some a =>
                    let items := Coll v :: items in
                    if existsb (Nat.eqb t) seen_transforms then search fuel p q seen seen_transforms items
                    else
                      let others := filter (fun o => negb (mem o seen)) (map (PColl t) (outputs a)) in
                      let (q, seen) := enqueue (main_inputs a) q seen in
                      search fuel p q seen (t :: seen_transforms) (Trans t :: rev (map Coll others) ++ items)
                end
          end
      end
  end.

(** Enough: a collection is put into the queue for an input of a transform. *)
Definition enough (p : pipeline) : nat := S (list_sum (map (fun a => length (main_inputs a)) p)).
Definition items_to_clone (p : pipeline) (v : pvalue) : option (list item) := search (enough p) p [v] [v] [] [].

(** ** 132-259 ([_clone_items]) *)

(** The pipeline, [pipeline.applied_labels] and the two dicts of replacements. *)
Record state := State {
  transforms : pipeline; applied_labels : list string;
  coll_replacements : list (pvalue * pvalue); transform_replacements : list (nat * nat) }.

Definition replacement (l : list (pvalue * pvalue)) (v : pvalue) : option pvalue :=
  option_map snd (find (fun e => pvalue_eqb (fst e) v) l).
Definition transform_replacement (l : list (nat * nat)) (t : nat) : option nat :=
  option_map snd (find (fun e => Nat.eqb (fst e) t) l).

Fixpoint update {A} (i : nat) (f : A -> A) (l : list A) : list A :=
  match i, l with
  | _, [] => []
  | 0, a :: l => f a :: l
  | S i, a :: l => a :: update i f l
  end.
Definition add_output (tag : string) (a : transform) : transform :=
  Transform (fn a) (barrier a) (label a) (main_inputs a) (side_inputs a) (outputs a ++ [tag]) (composites a) (hint a).
Definition set_hint (h : string) (a : transform) : transform :=
  if hints_available
  then Transform (fn a) (barrier a) (label a) (main_inputs a) (side_inputs a) (outputs a) (composites a) (Some h)
  else a.

(** 154-172: the copy of a collection. *)
Definition clone_coll (s : state) (t : nat) (tag : string) : option state :=
  let v := PColl t tag in
  match replacement (coll_replacements s) v with
  | Some _ => None
  | None =>
      match transform_replacement (transform_replacements s) t with
      | None => Some (State (transforms s) (applied_labels s) ((v, v) :: coll_replacements s) (transform_replacements s))
      | Some t' =>
          let produced := match nth_error (transforms s) t with
                          | Some a => existsb (String.eqb tag) (outputs a)
                          | None => false
                          end in
          Some (State (if produced then update t' (add_output tag) (transforms s) else transforms s)
            (applied_labels s) ((v, PColl t' tag) :: coll_replacements s) (transform_replacements s))
      end
  end.

(** 204-211: the first number whose label is not in use. *)
Definition copy_label (l : string) (count : nat) : string := (l ++ ".Copy" ++ decimal count)%string.
Definition copy_count (labels : list string) (l : string) : option nat :=
  find (fun c => negb (existsb (String.eqb (copy_label l c)) labels)) (seq 0 (S (length labels))).

(** 173-255: the copy of a transform.  Its outputs start out empty. *)
Definition clone_transform (s : state) (t : nat) : option state :=
  match nth_error (transforms s) t, transform_replacement (transform_replacements s) t with
  | Some a, None =>
      match copy_count (applied_labels s) (label a) with
      | None => None
      | Some count =>
          let new_label := copy_label (label a) count in
          let new_inputs := map (fun v => match replacement (coll_replacements s) v with Some v' => v' | None => v end)
                              (main_inputs a) in
          let copied := Transform (fn a) (barrier a) new_label new_inputs (side_inputs a) [] (composites a) (hint a) in
          Some (State
            (update t (set_hint "/fake/DeepCopy.Original[0]") (transforms s) ++
             [set_hint ("/fake/DeepCopy.Copy" ++ decimal count ++ "[0]") copied])
            (new_label :: applied_labels s) (coll_replacements s)
            ((t, length (transforms s)) :: transform_replacements s))
      end
  | _, _ => None
  end.

Definition clone_item (s : state) (i : item) : option state :=
  match i with
  | Coll (PColl t tag) => clone_coll s t tag
  | Coll PBegin => None
  | Trans t => clone_transform s t
  end.
Fixpoint clone_items (s : state) (items : list item) : option state :=
  match items with
  | [] => Some s
  | i :: items => match clone_item s i with Some s => clone_items s items | None => None end
  end.

(** 266-284.  [None]: it raises.  Otherwise the pipeline, the labels, and the copy. *)
Definition deep_copy (p : pipeline) (labels : list string) (v : pvalue) : option (pipeline * list string * pvalue) :=
  match items_to_clone p v with
  | None => None
  | Some items =>
      match clone_items (State p labels [] []) items with
      | None => None
      | Some s => option_map (fun v' => (transforms s, applied_labels s, v')) (replacement (coll_replacements s) v)
      end
  end.
End DeepCopy.
