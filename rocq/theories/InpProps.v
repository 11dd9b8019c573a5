(** Analysis in place (C91). *)
From Coq Require Import List Bool Arith Lia.
From Verif Require Import InpModel InpSpec.
Import ListNotations.

Section props.
Variables P F M : Type.
Variable trace : bool -> P -> option (F * nat).
Variable initializers : P -> bool.
Variable infer : bool -> P -> option M.
Notation analyze := (analyze_in_place P F M trace initializers infer).
Notation empty := (Files F M (Absent F) None).

Lemma ends_last r s s' : ends F M r s -> ends F M r s' -> s = s'.
Proof. intros [l E] [l' E']. rewrite E in E'. now apply app_inj_tail in E'. Qed.

(** A function with analyzers is refused, in both modes, and whatever is in the directory. *)
Theorem c91_refused : forall compat p s, has_analyzers P F trace compat p -> snd (analyze compat p s) = Analyzers_error.
Proof. intros compat p s [f [n T]]. unfold analyze_in_place. rewrite T. now destruct compat. Qed.

(** If the analysis finishes, the directory has the transform function and the metadata of this preprocessing function, both, and
    there are no analyzers, whatever was in the directory. *)
Theorem c91_done : forall compat p s, snd (analyze compat p s) = Done ->
  exists s', ends F M (analyze compat p s) s' /\ output_of P F M trace infer compat p s'.
Proof.
  intros compat p s. unfold analyze_in_place, finish, write_v1, no_analyzers. destruct (trace compat p) as [[f n]|] eqn:T; [|discriminate].
  destruct n as [|n]; [|destruct compat; discriminate]. cbn. destruct (infer compat p) as [m|] eqn:I.
  - destruct compat.
    + destruct (initializers p); [|discriminate]. destruct (transform_fn F M s); try discriminate. intros _. eexists. split; [eexists [_; _; _]; reflexivity|].
      exists f, m. now repeat split.
    + intros _. eexists. split; [eexists [_; _; _]; reflexivity|]. exists f, m. now repeat split.
  - destruct compat; [|discriminate]. destruct (initializers p); [|discriminate]. destruct (transform_fn F M s); discriminate.
Qed.

(** It finishes, in TF2, for every function that can be traced, without analyzers, whose metadata can be inferred; in TF1 also its
    initializers have to run, and there must be no transform function in the directory. *)
Theorem c91_finishes : forall compat p s, (exists f m, trace compat p = Some (f, 0) /\ infer compat p = Some m) ->
  (compat = true -> initializers p = true /\ transform_fn F M s = Absent F) -> snd (analyze compat p s) = Done.
Proof.
  intros compat p s [f [m [T I]]] C. unfold analyze_in_place, finish, write_v1. rewrite T. cbn. destruct compat.
  - destruct (C eq_refl) as [-> ->]. now rewrite I.
  - now rewrite I.
Qed.

(** Wherever an analysis into an empty directory stops, by an exception or a crash: if there is metadata, the output is complete. *)
Theorem c91_crash : forall compat p s, left_by F M (analyze compat p empty) s -> transformed_metadata F M s <> None -> output_of P F M trace infer compat p s.
Proof.
  intros compat p s. unfold left_by, analyze_in_place, finish, write_v1, no_analyzers. destruct (trace compat p) as [[f n]|] eqn:T; cbn; [|intros [<-|[]]; now cbn].
  destruct n as [|n]; cbn.
  - destruct (infer compat p) as [m|] eqn:I.
    + destruct compat; [destruct (initializers p)|]; cbn; intros K Nn.
      * destruct K as [<-|[<-|[<-|[<-|[]]]]]; cbn in Nn; try congruence. exists f, m. now repeat split.
      * destruct K as [<-|[]]. now cbn in Nn.
      * destruct K as [<-|[<-|[<-|[<-|[]]]]]; cbn in Nn; try congruence. exists f, m. now repeat split.
    + destruct compat; [destruct (initializers p)|]; cbn; intros K Nn; intuition; subst; now cbn in Nn.
  - destruct compat; cbn; intros K Nn; intuition; subst; now cbn in Nn.
Qed.

(** In TF1, a function with analyzers, and a directory with a transform function, leave everything as it was. *)
Theorem c91_unchanged : forall p s s', has_analyzers P F trace true p \/ transform_fn F M s <> Absent F -> left_by F M (analyze true p s) s' -> s' = s.
Proof.
  intros p s s' H. unfold left_by, analyze_in_place, write_v1, no_analyzers. destruct (trace true p) as [[f n]|] eqn:T; cbn; [|now intros [<-|[]]].
  destruct H as [[f' [n' T']]|A].
  - rewrite T' in T. injection T as <- <-. cbn. now intros [<-|[]].
  - destruct (n =? 0), (initializers p); cbn; try now intros [<-|[]]. destruct (transform_fn F M s); [congruence| |]; cbn; now intros [<-|[]].
Qed.

(** In every mode metadata only changes to that of a complete output. *)
Theorem c91_metadata : forall compat p s s', left_by F M (analyze compat p s) s' -> transformed_metadata F M s' = transformed_metadata F M s \/ output_of P F M trace infer compat p s'.
Proof.
  intros compat p s s'. unfold left_by, analyze_in_place, finish, write_v1, no_analyzers. destruct (trace compat p) as [[f n]|] eqn:T; cbn; [|intros [<-|[]]; now left].
  assert (W : forall m, infer compat p = Some m -> n = 0 -> output_of P F M trace infer compat p (Files F M (Complete F f) (Some m))) by (intros m I ->; exists f, m; now repeat split).
  destruct n as [|n]; cbn.
  - destruct (infer compat p) as [m|] eqn:I; destruct compat; try destruct (initializers p); try destruct (transform_fn F M s); cbn; intros K; intuition; subst; cbn; auto.
  - destruct compat; cbn; intros K; intuition; subst; cbn; auto.
Qed.
End props.

(** A preprocessing function is a number of analyzers and the name of its transform function. *)
Definition tr (_ : bool) (p : nat * nat) : option (nat * nat) := Some (fst p, snd p).
Definition go := analyze_in_place (nat * nat) nat nat tr (fun _ => true) (fun _ p => Some (fst p)).
Example c91_refused_applies : has_analyzers _ _ tr true (7, 2) /\ go true (7, 2) (Files nat nat (Absent nat) None) = ([Files nat nat (Absent nat) None], Analyzers_error).
Proof. split; [now exists 7, 1 | reflexivity]. Qed.
Example c91_done_applies : snd (go false (7, 0) (Files nat nat (Complete nat 6) (Some 6))) = Done /\ ends _ _ (go false (7, 0) (Files nat nat (Complete nat 6) (Some 6))) (Files nat nat (Complete nat 7) (Some 7)).
Proof. split; [reflexivity | eexists [_; _; _]; reflexivity]. Qed.
Example c91_finishes_applies : snd (go true (7, 0) (Files nat nat (Absent nat) (Some 6))) = Done.
Proof. reflexivity. Qed.
Example c91_crash_applies : left_by _ _ (go true (7, 0) (Files nat nat (Absent nat) None)) (Files nat nat (Complete nat 7) (Some 7)) /\ left_by _ _ (go true (7, 0) (Files nat nat (Absent nat) None)) (Files nat nat (Incomplete nat) None).
Proof. split; cbn; auto. Qed.
Example c91_unchanged_applies : go true (7, 0) (Files nat nat (Complete nat 6) (Some 6)) = ([Files nat nat (Complete nat 6) (Some 6)], Exists_error).
Proof. reflexivity. Qed.
Example c91_metadata_applies : left_by _ _ (go false (7, 0) (Files nat nat (Complete nat 6) (Some 6))) (Files nat nat (Complete nat 7) (Some 7)).
Proof. cbn. auto. Qed.

(** A function that is refused because it has analyzers leaves the directory as it was.  Not so in TF2: its transform function is
    written before it is looked at, and stays there, in the place of the one that was there. *)
Theorem c91_unchanged_refuted : exists p s s', has_analyzers _ _ tr false p /\ snd (go false p s) = Analyzers_error /\ ends _ _ (go false p s) s' /\
  transform_fn _ _ s = Complete nat 6 /\ transform_fn _ _ s' = Complete nat 7.
Proof.
  exists (7, 2), (Files nat nat (Complete nat 6) (Some 6)). eexists. split; [now exists 7, 1|]. split; [reflexivity|]. split; [eexists [_; _]; reflexivity|]. now split.
Qed.

(** A directory with metadata is a complete output of one function.  Not so if there was an output before, in TF2: a crash leaves
    the function of one analysis with the metadata of another. *)
Theorem c91_crash_refuted : exists p s s', tr false p = Some (7, 0) /\ s = Files nat nat (Complete nat 6) (Some 6) /\
  left_by _ _ (go false p s) s' /\ s' = Files nat nat (Complete nat 7) (Some 6).
Proof. exists (7, 0). do 2 eexists. split; [reflexivity|]. split; [reflexivity|]. split; [|reflexivity]. cbn. auto. Qed.

(** An analysis that fails leaves no transform function.  Not so if the metadata cannot be inferred, and then, in TF1, it cannot be
    run again into the same directory. *)
Theorem c91_failed_refuted : exists fails p s, let once := analyze_in_place (nat * nat) nat nat tr (fun _ => true) fails true p (Files nat nat (Absent nat) None) in
  snd once = Metadata_error /\ ends _ _ once s /\ transform_fn _ _ s = Complete nat 7 /\ snd (go true p s) = Exists_error.
Proof. exists (fun _ _ => None), (7, 0). eexists. cbn. split; [reflexivity|]. split; [eexists [_; _]; reflexivity|]. split; reflexivity. Qed.

Print Assumptions c91_refused.
Print Assumptions c91_done.
Print Assumptions c91_finishes.
Print Assumptions c91_crash.
Print Assumptions c91_unchanged.
Print Assumptions c91_metadata.
Print Assumptions c91_unchanged_refuted.
Print Assumptions c91_crash_refuted.
Print Assumptions c91_failed_refuted.
