(** * Specification: dynamic scoping

    The `with` blocks around a point of a program, innermost first.  A setting has the
    value of the innermost block that sets it. *)
From Coq Require Import String List Bool Arith ZArith.
From Verif Require Import CacheKeyModel ContextModel.
Import ListNotations.
Open Scope string_scope.

Fixpoint innermost {A} (field : settings -> option A) (blocks : list settings) : option A :=
  match blocks with
  | [] => None
  | b :: outer => match field b with Some x => Some x | None => innermost field outer end
  end.

(** What a getter gives inside these blocks of `Context`, and inside this block of
    `TFGraphContext` if there is one, as documented. *)
Definition documented (tf1 : bool) (q : getter) (blocks : list settings)
    (graph : option graph_settings) : value + error :=
  match q with
  | BaseTempDir =>
      match innermost temp_dir blocks with
      | None | Some "" => inr ValueError
      | Some d => inl (PathV (join (text d) (text "tftransform_tmp")))
      end
  | BatchSize => inl (optional IntV NoneV (innermost desired_batch_size blocks))
  | PassthroughKeys => inl (optional KeysV (KeysV []) (innermost passthrough_keys blocks))
  | UseDeepCopy => inl (optional BoolV (BoolV false) (innermost use_deep_copy blocks))
  | UseCompatV1 =>
      inl (BoolV (tf1 || match innermost force_compat_v1 blocks with
                         | Some b => b
                         | None => false
                         end))
  | SaveOptions => inl (optional ObjectV NoneV (innermost save_options blocks))
  | GraphTempDir =>
      match graph with
      | None => inl NoneV
      | Some g =>
          match graph_temp_dir g with
          | None => inl NoneV
          | Some "" => inr ValueError
          | Some d => inl (PathV (join (text d) (text "analyzer_temporary_assets")))
          end
      end
  | EvaluatedReplacements =>
      match graph with
      | None => inl NoneV
      | Some g => inl (optional ObjectV NoneV (evaluated_replacements g))
      end
  | ModuleToExport =>
      match graph with
      | None => inl NoneV
      | Some g => inl (ObjectV (module_to_export g))
      end
  end.

(** What a program sees, and the exception it ends with.  It does not matter where
    the object of a `with` block was constructed; blocks of `TFGraphContext` do not
    nest. *)
Fixpoint meaning (tf1 : bool) (p : prog) (blocks : list settings) (graph : option graph_settings)
    : list seen * option error :=
  let then_ (a : list seen * option error) (b : list seen * option error) :=
    match snd a with
    | None => ((fst a ++ fst b)%list, snd b)
    | Some e => a
    end in
  match p with
  | Done => ([], None)
  | New _ rest => meaning tf1 rest blocks graph
  | Get q rest =>
      match documented tf1 q blocks graph with
      | inl v => then_ ([Value v], None) (meaning tf1 rest blocks graph)
      | inr e => ([], Some e)
      end
  | Raise => ([], Some OtherError)
  | WithNew c body rest | WithOld c body rest =>
      then_ (meaning tf1 body (c :: blocks) graph) (meaning tf1 rest blocks graph)
  | WithGraph c body rest =>
      match graph with
      | Some _ => ([], Some AssertionError)
      | None => then_ (meaning tf1 body blocks (Some c)) (meaning tf1 rest blocks graph)
      end
  | Try body handler rest =>
      let b := meaning tf1 body blocks graph in
      match snd b with
      | None => then_ b (meaning tf1 rest blocks graph)
      | Some e =>
          then_ ((fst b ++ [Caught e])%list, None)
                (then_ (meaning tf1 handler blocks graph) (meaning tf1 rest blocks graph))
      end
  end.

(** The getters of `TFGraphContext` are called inside its blocks only. *)
Definition graph_getter (q : getter) : bool :=
  match q with GraphTempDir | EvaluatedReplacements | ModuleToExport => true | _ => false end.

Fixpoint graph_getters_inside (inside : bool) (p : prog) : Prop :=
  match p with
  | Done | Raise => True
  | New _ rest => graph_getters_inside inside rest
  | Get q rest => (graph_getter q = true -> inside = true) /\ graph_getters_inside inside rest
  | WithNew _ body rest | WithOld _ body rest =>
      graph_getters_inside inside body /\ graph_getters_inside inside rest
  | WithGraph _ body rest =>
      graph_getters_inside true body /\ graph_getters_inside inside rest
  | Try body handler rest =>
      graph_getters_inside inside body /\ graph_getters_inside inside handler /\
      graph_getters_inside inside rest
  end.

(** The thread constructs a context before it enters one constructed elsewhere; or it
    enters none. *)
Fixpoint constructs_its_own (p : prog) : Prop :=
  match p with
  | Done | Raise => True
  | New _ rest | Get _ rest => constructs_its_own rest
  | WithNew _ body rest => constructs_its_own body /\ constructs_its_own rest
  | WithOld _ _ _ => False
  | WithGraph _ body rest => constructs_its_own body /\ constructs_its_own rest
  | Try body handler rest =>
      constructs_its_own body /\ constructs_its_own handler /\ constructs_its_own rest
  end.

Definition constructs_first (p : prog) : Prop :=
  match p with
  | New _ _ | WithNew _ _ _ => True
  | _ => constructs_its_own p
  end.

Definition times (i : nat) (schedule : list nat) : nat :=
  List.length (filter (Nat.eqb i) schedule).
