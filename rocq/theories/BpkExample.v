(** Examples of datasets with keys. *)
From Coq Require Import String List ZArith QArith Bool Arith Sorting.Permutation.
From Verif Require Import FloatModel QuantileModel QuantileSpec BpkModel BpkSpec.
Import ListNotations.
Local Open Scope Q_scope.

(** A runner that adds the rows of each batch to a sketch of its own, compacts it, and merges the sketches. *)
Definition of_key (weights : bool) (k : string) (b : input) : list batch :=
  match split_inputs_by_key weights b with
  | Some p => map snd (filter (fun kb => String.eqb (fst kb) k) p)
  | None => []
  end.
Definition by_batches (weights : bool) (inputs : list input) (k : string) : plan :=
  Merge_into_new (map (fun b => Compact (Add (of_key weights k b))) inputs).
Definition all_keys (inputs : list input) : list string := rev (nodup string_dec (flat_map keys inputs)).

Lemma in_split weights b p k : split_inputs_by_key weights b = Some p -> In k (map fst p) <-> In k (keys b).
Proof.
  unfold split_inputs_by_key. destruct b as [ks vs ws]; cbn [keys values row_weights].
  destruct (Nat.eqb_spec (length vs) (length ks)) as [E|E]; cbn [negb]; [|discriminate].
  assert (C : forall A (l : list A), length l = length ks -> map fst (combine ks l) = ks).
  { clear. intros A. induction ks as [|k ks IH]; intros [|a l] E; try discriminate; [reflexivity|].
    cbn. f_equal. apply IH. now injection E. }
  destruct weights; cbn [andb].
  - destruct (Nat.eqb_spec (length ws) (length ks)) as [E'|E']; cbn [negb]; [|discriminate]. intros [= <-].
    rewrite C; [reflexivity|]. rewrite map_length, combine_length, E, E'. apply Nat.min_id.
  - intros [= <-]. rewrite C; [reflexivity|]. now rewrite map_length.
Qed.
Lemma by_batches_runs weights inputs : Forall (complete weights) inputs ->
  runs weights inputs (all_keys inputs) (by_batches weights inputs).
Proof.
  intros F.
  assert (H : exists parts, Forall2 (fun b p => split_inputs_by_key weights b = Some p) inputs parts).
  { induction F as [|b bs [H1 H2] F (ps & IH)]; [exists []; constructor|].
    assert (X : exists p, split_inputs_by_key weights b = Some p).
    { unfold split_inputs_by_key. rewrite H1, Nat.eqb_refl. cbn [negb]. destruct weights; cbn [andb]; [|eexists; reflexivity].
      rewrite (H2 eq_refl), Nat.eqb_refl. eexists. reflexivity. }
    destruct X as (p & X). exists (p :: ps). now constructor. }
  destruct H as (parts & H). exists parts. split; [exact H|]. split.
  { unfold all_keys. apply (Permutation_NoDup (Permutation_rev _)), NoDup_nodup. }
  split.
  - intros k. unfold all_keys. rewrite <- in_rev, nodup_In. clear F. induction H as [|b p bs ps S H IH]; [reflexivity|].
    cbn [flat_map concat]. rewrite map_app, !in_app_iff, IH, (in_split weights b p k S). reflexivity.
  - intros k _. unfold by_batches. cbn [batches_of]. rewrite flat_map_concat_map, map_map. cbn [batches_of].
    clear F. induction H as [|b p bs ps S H IH]; [constructor|]. cbn [map concat]. rewrite filter_app, map_app.
    apply Permutation_app; [|exact IH]. unfold of_key. now rewrite S.
Qed.

(** Three batches with weights; a key without values and one of weight 0. *)
Definition some_rows : list input :=
  [Input ["b"; "a"; "b"; "a"]%string [Fin 4; Fin 10; NaN; Fin 30] [Fin 1; Fin 1; Fin 1; Fin 2];
   Input [] [] [];
   Input ["a"; "b"; "a"; "c"; "b"; "a"; "d"]%string [Fin 20; Fin 1; Fin 40; NaN; Fin 3; Fin 60; Fin 7]
         [Fin 1; Fin 1; Fin 1; Fin 1; Fin 1; Fin 1; Fin 0]].

(** Twenty float32 numbers: ten close to 0 and ten close to 1. *)
Definition close_rows : list input :=
  [Input (repeat "a"%string 20)
     (map (fun i => Fin (inject_Z (Z.of_nat i) / inject_Z (2 ^ 30))) (seq 0 10) ++
      map (fun i => Fin (1 - inject_Z (Z.of_nat i) / inject_Z (2 ^ 24))) (seq 1 10)) []].

(** Two keys with four values each. *)
Definition two_keys : list input :=
  [Input ["a"; "a"; "a"; "a"; "b"; "b"; "b"; "b"]%string
     [Fin 0; Fin (1 # 4); Fin (1 # 2); Fin (3 # 4); Fin 0; Fin (1 # 4); Fin (1 # 2); Fin (3 # 4)] []].
