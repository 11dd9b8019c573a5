(** * What the schema of the outputs of a preprocessing function should be *)
From Coq Require Import String Ascii List ZArith Bool Arith DecimalString Permutation Sorted.
From Verif Require Import SchemaModel.
Import ListNotations.
Local Open Scope list_scope.

(** The range of a tensor is the one that was set last. *)
Fixpoint range_set (calls : list call) (tensor : string) : option (string * string) :=
  match calls with
  | [] => None
  | c :: later =>
      match range_set later tensor, c with
      | Some range, _ => Some range
      | None, Set_tensor_schema_override t _ lo hi => if String.eqb t tensor then Some (lo, hi) else None
      | None, _ => None
      end
  end.

(** The tensor that holds the values of an output. *)
Definition values_of (o : output) : string :=
  match o with Dense t _ _ => t | Sparse _ v _ _ => v | Ragged f _ _ => f end.
Definition dtype_of (o : output) : dtype :=
  match o with Dense _ d _ | Sparse _ _ d _ | Ragged _ d _ => d end.

(** Is an output the target of an annotation? It is if its values are, or the sparse tensor itself. *)
Definition annotates (t : target) (o : output) : bool :=
  match t, o with
  | To_schema _, _ => false
  | To_tensor n _, _ => String.eqb n (values_of o)
  | To_sparse i v, Sparse i' v' _ _ => String.eqb i i' && String.eqb v v'
  | To_sparse _ _, _ => false
  end.
Definition annotations_on (ses : session) (calls : list call) (o : output) : list any :=
  flat_map (fun c => match c with
                     | Annotate u p t => if annotates t o then [Any (run_bytes ses u) (run_bytes ses p)] else []
                     | _ => []
                     end) calls.
(** The annotations of the schema itself. *)
Definition annotations_of_schema (ses : session) (calls : list call) : list any :=
  flat_map (fun c => match c with
                     | Annotate u p (To_schema _) => [Any (run_bytes ses u) (run_bytes ses p)]
                     | _ => []
                     end) calls.

(** The shape that was given last to a sparse output, and whether it was said to be sparse at all. *)
Fixpoint shape_given (ses : session) (calls : list call) (indices values : string) : option (list Z) :=
  match calls with
  | [] => None
  | c :: later =>
      match shape_given ses later indices values, c with
      | Some s, _ => Some s
      | None, Annotate_sparse_output_shape i v s => if String.eqb i indices && String.eqb v values then Some (run_shape ses s) else None
      | None, _ => None
      end
  end.
Definition said_sparse (calls : list call) (indices values : string) : bool :=
  existsb (fun c => match c with
                    | Annotate_sparse_output_shape i v _ | Annotate_true_sparse_output i v => String.eqb i indices && String.eqb v values
                    | _ => false
                    end) calls.

(** ** Columns *)
Definition type_of (d : dtype) : feature_type := match d with Int64 => INT | Float32 => FLOAT | _ => BYTES end.
Definition number (n : nat) : string := NilZero.string_of_uint (Nat.to_uint n).
Definition index_column (name : string) (i : nat) : string := (name ++ "$sparse_indices_" ++ number i)%string.
Definition value_column (name : string) : string := (name ++ "$sparse_values")%string.
Definition ragged_column (name : string) : string := (name ++ "$ragged_values")%string.
Definition length_column (name : string) (i : nat) : string := (name ++ "$row_lengths_" ++ number i)%string.

(** The partitions of the rows of a ragged output: variable dimensions are numbered from one. *)
Definition row_partitions (name : string) (dims : list (option nat)) : list partition :=
  map (fun i => match nth i dims None with
                | Some n => Uniform_row_length n
                | None => Row_lengths (length_column name (1 + length (filter (fun d => match d with None => true | Some _ => false end) (firstn i dims))))
                end) (seq 0 (length dims)).

(** An output is described by columns, maybe a sparse feature of some of them, maybe a representation of them. *)
Record description := Description { columns : list feature; sparse : list sparse_feature; ragged : list (string * ragged_representation) }.

Section Described.
(** What is said of outputs: the domain of their values, annotations, whether they are sparse, the shape given. *)
Context (domain : output -> option int_domain) (annotations : output -> list any)
        (is_said_sparse : output -> bool) (given_shape : output -> option (list Z)).

Definition index_sizes (o : output) (dims : list (option nat)) : list (option Z) :=
  match given_shape o with Some s => map Some s | None => map (option_map Z.of_nat) dims end.
Definition index_domain (size : option Z) : option int_domain :=
  option_map (fun n => IntDomain (Some 0%Z) (Some (n - 1)%Z) false) size.

Definition describe (name : string) (o : output) : description :=
  match o with
  | Dense _ d (Some (_ :: dims)) => Description [Feature name (type_of d) true (Some dims) (domain o) (annotations o)] [] []
  | Sparse _ _ d (Some shape) =>
      if (2 <? length shape) || is_said_sparse o then
        let indices := map (index_column name) (seq 0 (length (tl shape))) in
        Description (map (fun i => Feature (index_column name i) INT false None (index_domain (nth i (index_sizes o (tl shape)) None)) [])
                         (seq 0 (length (tl shape)))
                     ++ [Feature (value_column name) (type_of d) false None (domain o) (annotations o)])
                    [Sparse_feature name true indices (value_column name)] []
      else Description [Feature name (type_of d) false None (domain o) (annotations o)] [] []
  | Ragged _ d (Some shape) =>
      let partitions := row_partitions name (tl shape) in
      Description (Feature (ragged_column name) (type_of d) false None (domain o) (annotations o)
                   :: flat_map (fun p => match p with Row_lengths k => [Feature k INT false None None []] | _ => [] end) partitions)
                  [] [(name, Ragged_representation (ragged_column name) partitions)]
  | _ => Description [] [] []
  end.

(** Can it be described? *)
Definition describable (all_known : bool) (o : output) : Prop :=
  dtype_of o <> Other_type /\
  match o with
  | Dense _ _ shape => exists batch dims, shape = Some (batch :: dims) /\ (all_known = true -> ~ In None dims)
  | Sparse _ _ _ shape =>
      exists dims, shape = Some dims /\
        ((2 <? length dims) || is_said_sparse o = true ->
         forall given, given_shape o = Some given -> length given = length (tl dims) /\ Forall (fun n => (0 <= n)%Z) given)
  | Ragged _ _ shape => shape <> None
  end.

(** The names an output takes: its own and those of its columns. *)
Definition taken (no : string * output) : list string :=
  let others := filter (fun c => negb (String.eqb c (fst no))) (map f_name (columns (describe (fst no) (snd no)))) in
  fst no :: others.

(** The schema that describes outputs in this order. *)
Definition schema_of (order : list (string * output)) (metadata : list any) : schema :=
  let ds := map (fun no => describe (fst no) (snd no)) order in
  Schema (flat_map columns ds) (flat_map sparse ds) (flat_map ragged ds) metadata.

(** The result is that schema, for the outputs by name, if all can be described, an error otherwise. *)
Definition right_schema (all_known : bool) (outputs : list (string * output)) (metadata : list any) (r : result schema) : Prop :=
  (Forall (fun no => describable all_known (snd no)) outputs /\
   exists order, Permutation order outputs /\ StronglySorted (fun a b => String.leb (fst a) (fst b) = true) order /\
     r = Returned (schema_of order metadata))
  \/ (Exists (fun no => ~ describable all_known (snd no)) outputs /\ r = Raised).
End Described.

(** ** What calls say of outputs, evaluated or not *)
Definition domain_said (ses : session) (calls : list call) (o : output) : option int_domain :=
  option_map (fun r => IntDomain (Some (run_int ses (fst r))) (Some (run_int ses (snd r))) true) (range_set calls (values_of o)).
Definition domain_unknown (calls : list call) (o : output) : option int_domain :=
  option_map (fun _ => IntDomain None None true) (range_set calls (values_of o)).
Definition sparse_said (calls : list call) (o : output) : bool :=
  match o with Sparse i v _ _ => said_sparse calls i v | _ => false end.
Definition shape_said (ses : session) (calls : list call) (o : output) : option (list Z) :=
  match o with Sparse i v _ _ => shape_given ses calls i v | _ => None end.

(** ** Graphs *)
(** The name graphs give to the constants made for annotations of the schema, in any scope. *)
Definition has_slash (s : string) : Prop := exists a b, s = (a ++ "/" ++ b)%string.
Definition sentinel (n : string) : Prop :=
  exists rest, ~ has_slash rest /\
    (n = ("tft_schema_override_global_sentinel" ++ rest)%string \/
     exists scope, n = (scope ++ "/tft_schema_override_global_sentinel" ++ rest)%string).

(** What graphs see to: a tensor has one dtype, and only those constants have such names. *)
Record sane (outputs : list (string * output)) (calls : list call) : Prop := {
  one_dtype : forall t d lo hi n o, In (Set_tensor_schema_override t d lo hi) calls -> In (n, o) outputs ->
                values_of o = t -> dtype_of o = d;
  constants_named : forall u p c, In (Annotate u p (To_schema c)) calls -> sentinel c /\ forall n o, In (n, o) outputs -> values_of o <> c;
  tensors_named : forall u p t d, In (Annotate u p (To_tensor t d)) calls -> ~ sentinel t;
  sparse_named : forall u p i v, In (Annotate u p (To_sparse i v)) calls -> ~ sentinel v }.

(** No sparse tensor that was annotated shares its values with a different output. *)
Definition values_not_shared (outputs : list (string * output)) (calls : list call) : Prop :=
  forall n o i v, In (n, o) outputs -> values_of o = v ->
    (forall u p, In (Annotate u p (To_sparse i v)) calls -> exists d shape, o = Sparse i v d shape) /\
    (forall s d j shape, In (Annotate_sparse_output_shape i v s) calls -> o = Sparse j v d shape -> j = i) /\
    (forall d j shape, In (Annotate_true_sparse_output i v) calls -> o = Sparse j v d shape -> j = i).
