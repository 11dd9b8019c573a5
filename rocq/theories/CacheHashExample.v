(** * Two preprocessing functions that differ in one operation

    The sum of the squares of a column, and the sum of the column; the digest is
    the hashed text itself, so that no two texts collide. *)
From Coq Require Import String.
From Coq Require Import List Arith Bool Lia Permutation.
From Verif Require Import OptimizeModel OptimizeSpec OptimizeProofs OptimizeExample CacheHashModel CacheHashSpec CacheHashProofs.
Import ListNotations.
Local Notation length := List.length.

(** The only attribute of these operations is their type [T]: DT_INT64. *)
Definition int64_attrs : list (string * attr) := [("T"%string, Attr "0 9" false false)].
Definition column : comp := Source "x".
Definition unary (op_type : string) : comp := TensorOf 0 (OpOf op_type int64_attrs [column]).
Definition ex_tensors (key : string) : comp :=
  if String.eqb key "Square:0" then unary "Square"
  else if String.eqb key "Identity:0" then unary "Identity" else column.

(** What the tensors compute from the column. *)
Definition ex_fn (keys : list string) (e : nat) : nat :=
  match keys with [k] => if String.eqb k "Square:0" then e * e else e | _ => e end.
Definition ex_sem (o : op toy unit nat) (xs : list pc) : list pc :=
  match o with
  | Extract keys => [(map (ex_fn keys) (elems (nth 0 xs empty_pc)), [], [])]
  | _ => toy_sem o xs
  end.

Lemma ex_implementation :
  implementation toy_partitionable toy_coder toy_flatten ex_sem toy_encode toy_decode toy_eqv.
Proof.
  destruct toy_implementation as [I1 I2 I3 I4 I5 I6 I7 I8 I9 I10]. constructor; auto.
  - intros o xs ys i F. destruct o as [| |keys| | | |]; try (apply I6; exact F).
    destruct (nth_eqv 0 _ _ F) as (P0 & A0 & R0). destruct i as [|[|i]]; cbn; try apply I1.
    repeat split; cbn; auto. now apply Permutation_map.
  - intros keys ps. unfold out. cbn [ex_sem nth]. unfold toy_flatten, toy_eqv. cbn [elems accs res fst snd].
    rewrite concat_map, !map_map. cbn [elems accs res fst snd]. repeat split; [reflexivity| |].
    + induction ps; cbn; auto.
    + induction ps; cbn; auto.
Qed.

Definition ex_graph (key : string) : node toy unit nat :=
  Node "CreateSavedModel" (Op Save)
    [Node "sum/merge" (Op Merge)
      [Node "sum/accumulate" (Op Acc)
        [Node "sum/extract" (Extract [key]) [Node "ApplySavedModel0" (Apply 0) [toy_model0; toy_input] 0] 0] 0] 0] 0.

Lemma ex_translated key : translated toy_partitionable toy_coder (fun _ => 1) (ex_graph key).
Proof.
  assert (M0 : translated toy_partitionable toy_coder (fun _ => 1) toy_model0).
  { constructor; cbn; auto; try (intros; contradiction); discriminate. }
  unfold ex_graph.
  do 3 (constructor; cbn [existsb length toy_partitionable toy_coder]; auto; try congruence; try (intros _; split; congruence); intros n [<-|[]]).
  constructor. constructor; [exact M0 | reflexivity|]. intros _ label k inputs index H.
  apply occurs_inv in H. destruct H as [H|(n & [] & _)]. discriminate H.
Qed.

Lemma ex_labels key : unique_labels (ex_graph key).
Proof. apply labels_checked. repeat constructor. Qed.

Definition no_hash (s : string) : string := s.
Notation ex_run := (run (PC := pc) toy_partitionable toy_coder (fun _ => 1) toy_class toy_fields
  (tensor_paths no_hash ex_tensors) no_hash "v1" Nat.eqb (fun _ => true)).
Notation ex_eval := (eval toy_flatten ex_sem toy_encode toy_decode toy_data).
Definition ex_result key cache := match ex_run [0] (Some cache) (ex_graph key) with
  | Some r => r | None => (View false (ex_graph key) None None, []) end.
Definition ex_cache : nat -> string -> option pc :=
  fun k entry_key =>
    match find (fun e => Nat.eqb (fst (fst e)) k && String.eqb (snd (fst e)) entry_key)
        (snd (ex_result "Square:0" no_cache)) with
    | Some e => Some (ex_eval [0] no_cache (snd e))
    | None => None
    end.

Lemma ex_available :
  available toy_partitionable toy_coder (fun _ => 1) toy_class toy_fields (tensor_paths no_hash ex_tensors) no_hash "v1"
    toy_flatten ex_sem toy_encode toy_decode toy_data Nat.eqb (fun _ => true) (eq (ex_graph "Square:0")) ex_cache.
Proof.
  eapply available_run with (cache := no_cache) (keys := [0]) (root := ex_graph "Square:0")
    (v := fst (ex_result "Square:0" no_cache)) (emitted := snd (ex_result "Square:0" no_cache)).
  - constructor.
  - reflexivity.
  - vm_compute. reflexivity.
  - intros k key p H. right. unfold ex_cache in H.
    destruct (find _ _) as [[[k' key'] m]|] eqn:F; [|discriminate]. injection H as <-.
    apply find_some in F. destruct F as [I E]. cbn [fst snd] in E. apply andb_true_iff in E. destruct E as [E1 E2].
    apply Nat.eqb_eq in E1. apply String.eqb_eq in E2. subst. exists m. split; [exact I | reflexivity].
Qed.

Lemma ex_stale :
  res (ex_eval [0] ex_cache (flat (fst (ex_result "Identity:0" ex_cache)))) = [85; 0] /\
  res (value_on toy_flatten ex_sem toy_encode toy_decode toy_data [0] (ex_graph "Identity:0")) = [13; 0].
Proof. split; vm_compute; reflexivity. Qed.

(** ** An analyzer with a parameter *)
Definition combine_fields (label : string) (o : op (combiner string) unit nat) : list string :=
  match o with Op c => accumulate_fields c "JsonNumpyCacheCoder" label | _ => [] end.
Definition combine_class (o : op (combiner string) unit nat) : string :=
  match o with Op _ => "CacheableCombineAccumulate" | Extract _ => "ExtractFromDict" | _ => "" end.
Definition combine_node (reduce : string) : node (combiner string) unit nat :=
  Node "CacheableCombineAccumulate[a]" (Op (Combiner "NumPyCombiner" reduce))
    [Node "ExtractFromDict[a]" (Extract ["x"%string])
       [Node "ApplySavedModel[0]" (Apply 0) [] 0] 0] 0.

Lemma combine_key sha1 version reduce :
  has_entry_key (fun _ => true) combine_class combine_fields (tensor_paths sha1 (fun _ => column)) sha1 version
    (combine_node reduce)
    (cache_entry_key version "CacheableCombineAccumulate[a]"
      (sha1 (sha1 ("APPLY_SAVEDMODEL" ++ "ExtractFromDict" ++ sha1 "x") ++
        String.concat "" ("CacheableCombineAccumulate" ::
          accumulate_fields (Combiner "NumPyCombiner" reduce) "JsonNumpyCacheCoder" "CacheableCombineAccumulate[a]")))%string).
Proof.
  eexists. split; [|reflexivity].
  apply hash_op with (hashes := [sha1 ("APPLY_SAVEDMODEL" ++ "ExtractFromDict" ++ sha1 "x")%string]);
    [discriminate | reflexivity | | reflexivity].
  constructor; [|constructor].
  apply hash_op with (hashes := ["APPLY_SAVEDMODEL"%string]); [discriminate | reflexivity | | reflexivity].
  constructor; constructor.
Qed.
