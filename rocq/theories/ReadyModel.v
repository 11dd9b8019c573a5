(** * Which tensors of a TensorFlow graph are ready to run

    Models /repo/tensorflow_transform/graph_tools.py:217-545 ([_GraphAnalyzer])
    and graph_tools.py:553-848 ([InitializableGraphAnalyzer]). *)
From Coq Require Import List Arith Bool.
Import ListNotations.

(** A node of the graph is a [tf.Tensor] or a [tf.Operation], named by its
    position.  [Node ps] is a node with parents [ps]: the operation of a tensor,
    or the inputs followed by the control inputs of an operation
    (graph_tools.py:258-264).  [Unexpected] is a placeholder or an initializable
    table, for which [_get_parents] raises (graph_tools.py:247-257).
    Simplifications: bodies of functions called by an operation
    (graph_tools.py:273-366) are not modelled; the graph is not itself the body
    of a function. *)
Inductive tf_node := Node (parents : list nat) | Unexpected.
Definition tf_graph := list tf_node.

(** graph_tools.py:213-217: [_AnalysisResult].  A set of sources is a list whose
    order and repetitions are not observable. *)
Record analysis (P : Type) := Analysis {
  is_ready : bool;
  path : P;
  dependent_sources : list nat
}.
Arguments Analysis {P}.
Arguments is_ready {P}.
Arguments path {P}.
Arguments dependent_sources {P}.

(** Lookup in a dictionary keyed by nodes. *)
Fixpoint find {A : Type} (k : nat) (d : list (nat * A)) : option A :=
  match d with
  | [] => None
  | (k', v) :: d => if Nat.eqb k k' then Some v else find k d
  end.

(** [k in d], for a set of nodes. *)
Definition mem (k : nat) (l : list nat) : bool := existsb (Nat.eqb k) l.

(** [set.discard] and [set.add]. *)
Definition discard (k : nat) (l : list nat) : list nat := filter (fun x => negb (Nat.eqb x k)) l.
Definition add (k : nat) (l : list nat) : list nat := k :: discard k l.

(** The values found, when all of them are (graph_tools.py:444-449). *)
Fixpoint find_all {A : Type} (ks : list nat) (d : list (nat * A)) : option (list A) :=
  match ks with
  | [] => Some []
  | k :: ks =>
      match find k d, find_all ks d with
      | Some v, Some vs => Some (v :: vs)
      | _, _ => None
      end
  end.

Section Analyzer.
Context {P : Type}.

(** graph_tools.py:224-238: the arguments of the constructor.  A source has a
    readiness and the path made from its name ([translate_path_fn(name)],
    graph_tools.py:377); [translate x ps] is [translate_path_fn(x, parents=ps)]. *)
Variable g : tf_graph.
Variable translate : nat -> list P -> P.
Variable source_infos : list (nat * (bool * P)).

(** graph_tools.py:240-271 ([_get_parents]); [None] when it raises. *)
Definition get_parents (x : nat) : option (list nat) :=
  match find x source_infos with
  | Some _ => Some []
  | None =>
      match nth_error g x with
      | Some (Node ps) => Some ps
      | Some Unexpected => None
      | None => None
      end
  end.

(** graph_tools.py:368-409 ([_compute_analysis_result]). *)
Definition compute_analysis_result (x : nat) (parent_results : list (analysis P)) : analysis P :=
  match find x source_infos with
  | Some (ready, p) => Analysis ready p [x]
  | None =>
      Analysis (forallb is_ready parent_results)
               (translate x (map path parent_results))
               (concat (map dependent_sources parent_results))
  end.

(** The end of the loop: normally, or with the exception of [_get_parents].
    Both keep the memoized results. *)
Inductive loop_end :=
| Finished (memo : list (nat * analysis P))
| RaisedBy (node : nat) (memo : list (nat * analysis P)).

(** graph_tools.py:434-458, the loop of [analyze_tensor].  The top of the stack
    is the head of the list.  [fuel] bounds the number of iterations and [None]
    means that it was too small. *)
Fixpoint analyze_loop (fuel : nat) (stack active : list nat) (memo : list (nat * analysis P))
    : option loop_end :=
  match fuel with
  | O => None
  | S fuel =>
      match stack with
      | [] => Some (Finished memo)
      | current :: rest =>
          match find current memo with
          | Some _ => analyze_loop fuel rest active memo
          | None =>
              let active := add current active in
              match get_parents current with
              | None => Some (RaisedBy current memo)
              | Some parents =>
                  let parents := filter (fun p => negb (mem p active)) parents in
                  match find_all parents memo with
                  | Some parent_results =>
                      analyze_loop fuel rest (discard current active)
                        ((current, compute_analysis_result current parent_results) :: memo)
                  | None => analyze_loop fuel (rev parents ++ stack) active memo
                  end
              end
          end
      end
  end.

(** graph_tools.py:411-462 ([analyze_tensor]) on an analyzer with memoized
    results [memo]: the new memoized results, and the result or [None] when an
    exception is raised. *)
Definition analyze_tensor (fuel : nat) (memo : list (nat * analysis P)) (x : nat)
    : option (list (nat * analysis P) * option (analysis P)) :=
  match analyze_loop fuel [x] [] memo with
  | Some (Finished memo) => Some (memo, find x memo)
  | Some (RaisedBy _ memo) => Some (memo, None)
  | None => None
  end.

(** Earlier calls on the same analyzer; exceptions are caught by the caller. *)
Fixpoint analyze_tensors (fuel : nat) (memo : list (nat * analysis P)) (xs : list nat)
    : option (list (nat * analysis P)) :=
  match xs with
  | [] => Some memo
  | x :: xs =>
      match analyze_tensor fuel memo x with
      | Some (memo, _) => analyze_tensors fuel memo xs
      | None => None
      end
  end.

(** graph_tools.py:468-507 ([ready_to_run]) for a plain tensor or operation:
    [None] outside when [fuel] is too small, [None] inside when it raises. *)
Definition ready_to_run (fuel : nat) (memo : list (nat * analysis P)) (x : nat)
    : option (option bool) :=
  match analyze_tensor fuel memo x with
  | Some (_, Some r) => Some (Some (is_ready r))
  | Some (_, None) => Some None
  | None => None
  end.

End Analyzer.
Arguments Finished {P}.
Arguments RaisedBy {P}.

(** graph_tools.py:649-672: a table initializer gives the operation of the table
    and the other inputs of the initializer.  Simplification: initializers that
    are calls of functions (graph_tools.py:657-664) are not modelled. *)
Record table := Table { table_op : nat; init_inputs : list nat }.

Section Initializable.
Context {P : Type}.
Variable g : tf_graph.
Variable translate : nat -> list P -> P.
Variable no_path : P.

(** [graph_analyzer.analyze_tensor] on each input; [Some None] when one raises
    (graph_tools.py:737-741: [all(map(ready_to_run, inputs))] stops at the first
    input that is not ready, but [get_unique_path] is then called on all of
    them). *)
Fixpoint analyze_all (infos : list (nat * (bool * P))) (fuel : nat)
    (memo : list (nat * analysis P)) (xs : list nat)
    : option (list (nat * analysis P) * option (list (analysis P))) :=
  match xs with
  | [] => Some (memo, Some [])
  | x :: xs =>
      match analyze_tensor g translate infos fuel memo x with
      | Some (memo, Some r) =>
          match analyze_all infos fuel memo xs with
          | Some (memo, Some rs) => Some (memo, Some (r :: rs))
          | Some (memo, None) => Some (memo, None)
          | None => None
          end
      | Some (memo, None) => Some (memo, None)
      | None => None
      end
  end.

(** graph_tools.py:612-640: the source infos of the tables, from an analyzer that
    knows only the replaced tensors.  A table initialised twice keeps the last. *)
Fixpoint table_infos (infos : list (nat * (bool * P))) (fuel : nat)
    (memo : list (nat * analysis P)) (tables : list table) (acc : list (nat * (bool * P)))
    : option (option (list (nat * (bool * P)))) :=
  match tables with
  | [] => Some (Some acc)
  | t :: tables =>
      match analyze_all infos fuel memo (init_inputs t) with
      | Some (memo, Some rs) =>
          table_infos infos fuel memo tables
            ((table_op t, (forallb is_ready rs, translate (table_op t) (map path rs))) :: acc)
      | Some (_, None) => Some None
      | None => None
      end
  end.

(** graph_tools.py:674-718 ([_make_source_infos_dict] without inputs): replaced
    tensors have no name. *)
Definition replaced_infos (replaced : list (nat * bool)) : list (nat * (bool * P)) :=
  map (fun tr => (fst tr, (snd tr, no_path))) replaced.

(** graph_tools.py:570-646: the source infos of the main analyzer.  [inputs] are
    the components of the input signature with the paths of their names, always
    ready (graph_tools.py:699-711). *)
Definition complete_infos (fuel : nat) (inputs : list (nat * P)) (replaced : list (nat * bool))
    (tables : list table) : option (option (list (nat * (bool * P)))) :=
  table_infos (replaced_infos replaced) fuel [] tables
    (map (fun ip => (fst ip, (true, snd ip))) inputs ++ replaced_infos replaced).

End Initializable.

(** graph_tools.py:786-828 ([get_dependent_inputs]): the names of the inputs one
    of whose components is among the sources the analysis found. *)
Definition dependent_inputs {P N : Type} (signature : list (N * list nat)) (a : analysis P)
    : list N :=
  map fst (filter (fun nc => existsb (fun c => mem c (dependent_sources a)) (snd nc)) signature).
