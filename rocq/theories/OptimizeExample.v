(** * An implementation and a graph that meet the hypotheses of C33 and C34

    Two phases: the sum of a column is a binding of the second saved model; the
    sum of a transformed column is an output. *)
From Coq Require Import String.
From Coq Require Import List Arith Bool Lia Permutation.
From Verif Require Import OptimizeModel OptimizeSpec OptimizeProofs OptimizeShape OptimizeHistory.
Import ListNotations.
Local Notation length := List.length.

Inductive toy := Acc | Merge | Save | Model.
(** A PCollection holds elements, accumulators and results. *)
Definition pc : Type := list nat * list nat * list nat.
Definition elems (p : pc) := fst (fst p).
Definition accs (p : pc) := snd (fst p).
Definition res (p : pc) := snd p.
Definition empty_pc : pc := ([], [], []).
Definition sum (l : list nat) := fold_right Nat.add 0 l.

Definition toy_flatten (ps : list pc) : pc :=
  (concat (map elems ps), concat (map accs ps), concat (map res ps)).
Definition toy_partitionable (b : toy) := match b with Acc => true | _ => false end.
Definition toy_coder (b : toy) := match b with Acc => Some tt | _ => None end.
Definition toy_sem (o : op toy unit nat) (xs : list pc) : list pc :=
  let x := nth 0 xs empty_pc in
  let y := nth 1 xs empty_pc in
  match o with
  | Apply _ => [(map (fun e => e + sum (res x)) (elems y), [], [])]
  | Extract _ => [(elems x, [], [])]
  | Op Acc => [([], [sum (elems x)], [])]
  | Op Merge => [([], [], [sum (accs x)])]
  | Op Save => [([], [], [sum (res x); sum (res y)])]
  | Op Model => [([], [], [5])]
  | _ => []
  end.
Definition toy_encode (c : unit) (p : pc) : pc := (accs p, [], []).
Definition toy_decode (c : unit) (p : pc) : pc := ([], elems p, []).
(** The order of elements and how accumulators were merged does not matter. *)
Definition toy_eqv (p q : pc) : Prop :=
  Permutation (elems p) (elems q) /\ sum (accs p) = sum (accs q) /\ sum (res p) = sum (res q).

Lemma sum_app l r : sum (l ++ r) = sum l + sum r.
Proof. induction l; cbn; [reflexivity|]. unfold sum in *. lia. Qed.

Lemma sum_perm l r : Permutation l r -> sum l = sum r.
Proof. unfold sum. induction 1; cbn; lia. Qed.

Lemma nth_eqv i xs ys : Forall2 toy_eqv xs ys -> toy_eqv (nth i xs empty_pc) (nth i ys empty_pc).
Proof.
  intros F. revert i. induction F as [|x y xs ys E F IH]; intros [|i]; cbn; auto; repeat split; constructor.
Qed.

Lemma sum_concat {A} (f g : A -> list nat) l : (forall a, In a l -> sum (f a) = sum (g a)) ->
  sum (concat (map f l)) = sum (concat (map g l)).
Proof.
  induction l as [|a l IH]; cbn; [reflexivity|]. intros H. rewrite !sum_app, IH by auto. rewrite (H a); auto.
Qed.

Lemma toy_implementation :
  implementation toy_partitionable toy_coder toy_flatten toy_sem toy_encode toy_decode toy_eqv.
Proof.
  constructor.
  - intros p. repeat split; reflexivity.
  - intros p q (P & A & R). repeat split; [now apply Permutation_sym | auto | auto].
  - intros p q r (P & A & R) (P' & A' & R'). repeat split; [eapply Permutation_trans; eauto | congruence | congruence].
  - intros ps qs F. induction F as [|p q ps qs (P & A & R) F (P' & A' & R')]; [repeat split; constructor|].
    unfold toy_eqv, toy_flatten in *. cbn [map concat elems accs res fst snd] in *.
    repeat split; [apply Permutation_app; assumption | rewrite !sum_app..]; unfold elems, accs, res in *;
      cbn [fst snd] in *; congruence.
  - intros [[e a] r]. unfold toy_eqv, toy_flatten, elems, accs, res. cbn. rewrite !app_nil_r. repeat split; reflexivity.
  - intros o xs ys i F. unfold out.
    destruct (nth_eqv 0 _ _ F) as (P0 & A0 & R0). destruct (nth_eqv 1 _ _ F) as (P1 & A1 & R1).
    assert (REFL : forall p, toy_eqv p p) by (intros; repeat split; reflexivity).
    destruct i as [|i]; [|destruct o as [| | | | | |[| | |]]; destruct i; cbn; apply REFL].
    destruct o as [| | | | | |[| | |]]; cbn [toy_sem nth]; try apply REFL;
      unfold toy_eqv; cbn [elems accs res fst snd sum fold_right]; repeat split; try lia; auto.
    + rewrite R0. now apply Permutation_map.
    + rewrite (sum_perm _ _ P0). reflexivity.
  - intros keys ps. unfold out. cbn [toy_sem nth]. unfold toy_flatten, toy_eqv. cbn [elems accs res fst snd].
    rewrite !map_map. cbn [elems accs res fst snd]. repeat split; [reflexivity| |].
    + induction ps; cbn; auto.
    + induction ps; cbn; auto.
  - intros phase model ps. unfold out. cbn [toy_sem nth]. unfold toy_flatten, toy_eqv. cbn [elems accs res fst snd].
    rewrite concat_map, !map_map. cbn [elems accs res fst snd]. repeat split; [reflexivity| |].
    + induction ps; cbn; auto.
    + induction ps; cbn; auto.
  - intros b P rows n NP L. destruct b; try discriminate P. destruct n as [|n]; [lia|].
    cbn [seq map]. unfold out at 1. cbn [toy_sem nth]. unfold out at 2. cbn [toy_sem nth].
    unfold toy_flatten, toy_eqv. cbn [elems accs res fst snd]. rewrite !map_map. cbn [elems accs res fst snd].
    clear L NP. repeat split.
    + induction rows; cbn; auto.
    + induction rows as [|r rows IH]; [reflexivity|]. cbn [map concat sum fold_right] in *.
      rewrite sum_app. cbn [app] in *. unfold out in *.
      cbn [map concat] in *. change ([], [], []) with empty_pc in *. cbn [fold_right].
      rewrite <- Nat.add_assoc, IH. reflexivity.
    + induction rows; cbn; auto.
  - intros b c xs E. destruct b; try discriminate E. destruct c. unfold out. cbn. repeat split; reflexivity.
Qed.

Definition toy_class (o : op toy unit nat) : string :=
  match o with
  | Input _ => "ExtractInputForSavedModel" | Apply _ => "ApplySavedModel" | Extract _ => "ExtractFromDict"
  | Flatten => "Flatten" | Decode _ _ _ => "DecodeCache" | Encode _ => "EncodeCache"
  | Op Acc => "CacheableCombineAccumulate" | Op Merge => "CacheableCombineMerge"
  | Op Save => "CreateSavedModel" | Op Model => "CreateSavedModel"
  end.
Definition toy_fields (label : string) (o : op toy unit nat) : list string := [label].
Definition toy_path (key : string) : option string := Some key.
(** A digest of 20 characters. *)
Definition toy_sha1 (s : string) : string := (substring 0 20 (s ++ "...................."))%string.

Lemma substring_length n t s : n <= String.length t -> String.length (substring 0 n (s ++ t)) = n.
Proof.
  revert t s. induction n as [|n IH]; intros t s L; [destruct s; [destruct t; reflexivity | reflexivity]|].
  destruct s as [|c s]; cbn.
  - destruct t as [|c t]; cbn in *; [lia|]. f_equal. apply (IH t ""%string). lia.
  - f_equal. apply IH. lia.
Qed.

Lemma toy_sha1_length s : String.length (toy_sha1 s) = 20.
Proof. apply substring_length. cbn. lia. Qed.

Definition toy_model0 : node toy unit nat := Node "CreateSavedModel0" (Op Model) [] 0.
Definition toy_input : node toy unit nat := Node "ExtractInputForSavedModel" (Input None) [] 0.
Definition toy_x := Node "x" (Extract ["x"%string]) [Node "ApplySavedModel0" (Apply 0) [toy_model0; toy_input] 0] 0.
Definition toy_acc := Node "sum/accumulate" (Op Acc) [toy_x] 0.
Definition toy_merge := Node "sum/merge" (Op Merge) [toy_acc] 0.
Definition toy_model1 := Node "CreateSavedModel1" (Op Save) [toy_merge] 0.
Definition toy_y := Node "y" (Extract ["y"%string]) [Node "ApplySavedModel1" (Apply 1) [toy_model1; toy_input] 0] 0.
Definition toy_merge2 := Node "sum_1/merge" (Op Merge) [Node "sum_1/accumulate" (Op Acc) [toy_y] 0] 0.
Definition toy_root := Node "CreateSavedModel" (Op Save) [toy_merge; toy_merge2] 0.
(** Only the first analyzer. *)
Definition toy_small := Node "CreateSavedModel" (Op Save) [toy_merge] 0.

Lemma occurs_inv (m : node toy unit nat) label o inputs index :
  occurs m (Node label o inputs index) -> m = Node label o inputs index \/ exists n, In n inputs /\ occurs m n.
Proof. intros H; inversion H; subst; eauto. Qed.

Lemma toy_translated : translated toy_partitionable toy_coder (fun _ => 1) toy_root /\
  translated toy_partitionable toy_coder (fun _ => 1) toy_small.
Proof.
  assert (M0 : translated toy_partitionable toy_coder (fun _ => 1) toy_model0).
  { constructor; cbn; auto; try (intros; contradiction); discriminate. }
  assert (X : translated toy_partitionable toy_coder (fun _ => 1) toy_x).
  { constructor. constructor; [exact M0 | reflexivity|]. intros _ label k inputs index H.
    apply occurs_inv in H. destruct H as [H|(n & [] & _)]. discriminate H. }
  assert (MG : translated toy_partitionable toy_coder (fun _ => 1) toy_merge).
  { constructor; cbn; auto; try congruence; try (intros _; split; congruence). intros n [<-|[]].
    constructor; cbn; auto; try congruence; try (intros _; split; congruence). intros n [<-|[]]. exact X. }
  split; [|constructor; cbn; auto; try congruence; try (intros _; split; congruence); intros n [<-|[]]; exact MG].
  constructor; cbn; auto; try congruence; try (intros _; split; congruence). intros n [<-|[<-|[]]]; [exact MG|].
  constructor; cbn; auto; try congruence; try (intros _; split; congruence). intros n [<-|[]].
  constructor; cbn; auto; try congruence; try (intros _; split; congruence). intros n [<-|[]].
  constructor. constructor; [|reflexivity|discriminate].
  constructor; cbn; auto; try congruence; try (intros _; split; congruence). intros n [<-|[]]. exact MG.
Qed.

(** All the values of a tree. *)
Fixpoint values (n : node toy unit nat) : list (node toy unit nat) :=
  n :: match n with Node _ _ inputs _ => concat (map values inputs) end.

Lemma occurs_values m n : occurs m n -> In m (values n).
Proof.
  induction 1 as [n|m n label o inputs index I O IH]; [destruct n; now left|].
  cbn [values]. right. apply in_concat. exists (values n). split; [now apply in_map | exact IH].
Qed.

Definition label_of (n : node toy unit nat) := match n with Node label _ _ _ => label end.
Definition op_of (n : node toy unit nat) := match n with Node _ o _ _ => o end.
Definition inputs_at (n : node toy unit nat) := match n with Node _ _ inputs _ => inputs end.
Definition at_label root label := find (fun n => String.eqb (label_of n) label) (values root).

Lemma labels_checked root : Forall (fun n => option_map (fun m => (op_of m, inputs_at m)) (at_label root (label_of n))
  = Some (op_of n, inputs_at n)) (values root) -> unique_labels root.
Proof.
  intros F label o inputs index o' inputs' index' O O'. apply occurs_values in O, O'.
  rewrite Forall_forall in F. apply F in O, O'. cbn [label_of op_of inputs_at] in O, O'.
  rewrite O in O'. injection O' as -> ->. auto.
Qed.

Lemma toy_labels : unique_labels toy_root /\ unique_labels toy_small.
Proof. split; apply labels_checked; repeat constructor. Qed.

Lemma nested_checked root : Forall (fun n => op_coder toy_coder (op_of n) <> None ->
  existsb (cached_path toy_partitionable toy_coder) (inputs_at n) = false) (values root) ->
  no_nested_caches toy_partitionable toy_coder root.
Proof.
  intros F label o inputs index O. apply occurs_values in O.
  rewrite Forall_forall in F. exact (F _ O).
Qed.

Lemma toy_no_nested : no_nested_caches toy_partitionable toy_coder toy_small.
Proof. apply nested_checked. repeat constructor; cbn; congruence. Qed.

Lemma toy_paths : paths_known toy_partitionable toy_path toy_root.
Proof. intros label ks inputs index _ _ key _. discriminate. Qed.

(** Three datasets. *)
Definition toy_data (k : nat) : pc :=
  (match k with 0 => [1; 2] | 1 => [10] | 2 => [100; 200; 300] | _ => [] end, [], []).
Notation toy_run := (run (PC := pc) toy_partitionable toy_coder (fun _ => 1) toy_class toy_fields toy_path toy_sha1
  "v1" Nat.eqb (fun _ => true)).
Notation toy_eval := (eval toy_flatten toy_sem toy_encode toy_decode toy_data).

Definition toy_result root keys cache := match toy_run keys cache root with
  | Some r => r | None => (View false root None None, []) end.

(** The cache written by a run. *)
Definition toy_written root keys (cache : nat -> string -> option pc) : nat -> string -> option pc :=
  fun k key =>
    match find (fun e => Nat.eqb (fst (fst e)) k && String.eqb (snd (fst e)) key)
        (snd (toy_result root keys (Some cache))) with
    | Some e => Some (toy_eval keys cache (snd e))
    | None => None
    end.

Lemma written_available root keys :
  toy_run keys (Some no_cache) root <> None ->
  available toy_partitionable toy_coder (fun _ => 1) toy_class toy_fields toy_path toy_sha1 "v1"
    toy_flatten toy_sem toy_encode toy_decode toy_data Nat.eqb (fun _ => true) (eq root)
    (toy_written root keys no_cache).
Proof.
  intros NN.
  eapply available_run with (keys := keys) (root := root)
    (v := fst (toy_result root keys (Some no_cache))) (emitted := snd (toy_result root keys (Some no_cache))).
  - constructor.
  - reflexivity.
  - unfold toy_result. destruct (toy_run keys (Some no_cache) root) as [[v e]|] eqn:E; [reflexivity|].
    congruence.
  - intros k key p H. right. unfold toy_written in H.
    destruct (find _ _) as [[[k' key'] m]|] eqn:F; [|discriminate]. injection H as <-.
    apply find_some in F. destruct F as [I E]. cbn in E. apply andb_true_iff in E. destruct E as [E1 E2].
    apply Nat.eqb_eq in E1. apply String.eqb_eq in E2. subst. exists m. split; [exact I | reflexivity].
Qed.

Definition toy_cache := toy_written toy_root [0; 1] no_cache.
Definition toy_small_cache := toy_written toy_small [0; 1] no_cache.
