(** * A concrete output directory (C52) *)
From Coq Require Import String.
From Coq Require Import List Arith Bool.
From Verif Require Import PublishModel PublishSpec.
Import ListNotations.
Local Open Scope string_scope.

Fixpoint same_path (p q : path) : bool :=
  match p, q with
  | [], [] => true
  | x :: p, y :: q => String.eqb x y && same_path p q
  | _, _ => false
  end.
Fixpoint files (l : list (path * entry)) : fs := fun q =>
  match l with
  | [] => None
  | (p, e) :: l => if same_path p q then Some e else files l q
  end.

Lemma same_path_eq p : forall q, same_path p q = true -> p = q.
Proof.
  induction p as [|x p IH]; intros [|y q] H; try discriminate H; [reflexivity|]. cbn in H.
  apply andb_true_iff in H as [E H]. apply String.eqb_eq in E. f_equal; auto.
Qed.
Lemma files_in l q : files l q <> None -> In q (map fst l).
Proof.
  induction l as [|[p e] l IH]; cbn; [congruence|]. destruct (same_path p q) eqn:E; [|auto].
  intros _. left. now apply same_path_eq.
Qed.
Lemma files_well_formed l :
  forallb (fun q => match q with [] => true | _ => is_dir (files l (removelast q)) end) (map fst l) = true ->
  well_formed (files l).
Proof.
  intros H q x N. apply files_in in N. rewrite forallb_forall in H. specialize (H _ N).
  destruct (q ++ [x])%list eqn:E; [destruct q; discriminate|]. rewrite <- E, removelast_last in H.
  destruct (files l q) as [[|]|]; try discriminate H. reflexivity.
Qed.

(** A published transform function, next to another file. *)
Definition x_root : path := ["home"; "out"].
Definition x_files : fs := files [
  ([], Directory); (["home"], Directory); (["home"; "notes"], File "n"); (["home"; "out"], Directory);
  (["home"; "out"; "transformed_metadata"], Directory);
  (["home"; "out"; "transformed_metadata"; "schema.pbtxt"], File "old schema");
  (["home"; "out"; "transformed_metadata"; "asset_map"], File "old map");
  (["home"; "out"; "transform_fn"], Directory);
  (["home"; "out"; "transform_fn"; "saved_model.pb"], File "old graph");
  (["home"; "out"; "transform_fn"; "variables"], Directory)].
Lemma x_files_well_formed : well_formed x_files.
Proof. apply files_well_formed. reflexivity. Qed.

(** The transform function to be written. *)
Definition x_tree : tree := Node [
  ("saved_model.pb", Leaf "new graph");
  ("assets", Node [("vocab", Leaf "a b c")]);
  (".tft_metadata", Node [("schema.pbtxt", Leaf "temporary")])].
Lemma x_tree_distinct : distinct x_tree.
Proof.
  constructor; [repeat constructor; cbn; intuition discriminate|].
  repeat constructor; cbn; intuition discriminate.
Qed.

(** A run that died while it wrote its schema, and one that died when it had made its
    temporary directory and removed the metadata. *)
Definition x_died1 : fs := effect (WriteFile (temporary x_root "a" ++ ["schema.pbtxt"])%list "ne")
  (effect (MakeDirs (temporary x_root "a")) x_files).
Definition x_died2 : fs := effect (MakeDirs (temporary x_root "c")) (effect (MakeDirs (temporary x_root "b")) x_died1).
Definition x_died3 : fs := effect (RemoveTree (output_metadata x_root)) x_died2.

Lemma x_history : history x_root x_files x_died3.
Proof.
  apply history_publish with x_died2 "b" "c".
  - apply history_work with x_died1 [(Always, MakeDirs (temporary x_root "b")); (Always, MakeDirs (temporary x_root "c"))].
    + apply history_work with x_files (write_metadata "new schema" (temporary x_root "a")).
      * apply history_start.
      * repeat constructor; exists "a"; left; split; cbn; try (exists []; reflexivity); try exact I.
        eexists. exists []. reflexivity.
      * apply dies_later; [reflexivity..|]. apply dies_within; [reflexivity..|]. exists "ne". reflexivity.
    + repeat constructor; [exists "b"|exists "c"]; left; (split; [exact I|exists []; reflexivity]).
    + apply dies_later; [reflexivity..|]. apply dies_later; [reflexivity..|]. apply dies_now.
  - apply dies_skipped; [reflexivity|]. apply dies_later; [reflexivity..|]. apply dies_now.
Qed.

(** The next run: the copy starts first, and another attempt of it fails half way. *)
Definition x_work : list (guard * command) := [
  (Always, MakeDirs (temporary x_root "t"));
  (IfAbsent (temporary x_root "m"), MakeDirs (temporary x_root "m"));
  (Always, MakeDirs (temporary x_root "other"));
  (Always, CopyFile (temporary x_root "t" ++ ["saved_model.pb"])%list "new graph");
  (Always, WriteFile (temporary x_root "m" ++ ["schema.pbtxt"])%list "new schema");
  (Always, MakeDirs (temporary x_root "t" ++ ["assets"])%list);
  (Always, CopyFile (temporary x_root "t" ++ ["assets"; "vocab"])%list "a b c")].
Lemma x_work_is : work x_root "m" "t" "new schema" None "7f3a" x_tree x_work.
Proof.
  apply mixed_second, mixed_first, mixed_other.
  { exists "other". split; [discriminate|]. split; [discriminate|]. left. split; [exact I|]. exists []. reflexivity. }
  apply mixed_second, mixed_first, mixed_second, mixed_second, mixed_nil.
Qed.
Definition x_written : fs := fst (run x_work x_died3).
Lemma x_runs : run x_work x_died3 = (x_written, None).
Proof. unfold x_written. rewrite (surjective_pairing (run x_work x_died3)) at 1. apply (f_equal (pair _)). vm_compute. reflexivity. Qed.
Lemma x_unused u : In u ["m"; "t"] -> unused x_died3 x_root u.
Proof. intros [<-|[<-|[]]] r; reflexivity. Qed.

(** The work alone, on the first state. *)
Definition x_alone : list (guard * command) :=
  (write_metadata_output "new schema" (Some "new map") (temporary x_root "m") ++ copy_tree "7f3a" x_tree (temporary x_root "t"))%list.
Lemma x_alone_is : undisturbed_work x_root "m" "t" "new schema" (Some "new map") "7f3a" x_tree x_alone.
Proof. repeat apply mixed_first. repeat apply mixed_second. apply mixed_nil. Qed.
Definition x_ready : fs := fst (run x_alone x_files).
