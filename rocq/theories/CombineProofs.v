From Coq Require Import List ZArith Lia Permutation.
From Verif Require Import CombineModel.
Import ListNotations.

Section sched_ind.
  Context {X : Type} (P : sched X -> Prop).
  Hypothesis HB : forall xs, P (Bundle xs).
  Hypothesis HM : forall s0 rest, P s0 -> Forall P rest -> P (Merged s0 rest).
  Fixpoint sched_ind' (s : sched X) : P s :=
    match s with
    | Bundle xs => HB xs
    | Merged s0 rest =>
        HM s0 rest (sched_ind' s0)
          ((fix go l : Forall P l :=
              match l with
              | [] => Forall_nil P
              | x :: l' => Forall_cons x (sched_ind' x) (go l')
              end) rest)
    end.
End sched_ind.

Lemma elements_map {X Y} (f : X -> Y) s : elements (map_sched f s) = map f (elements s).
Proof.
  induction s as [xs|s0 rest IH0 IHr] using sched_ind'; cbn; [reflexivity|].
  rewrite map_app, IH0. f_equal.
  induction IHr as [|x l Hx _ IH]; cbn; [reflexivity|].
  rewrite Hx, IH, map_app. reflexivity.
Qed.

(** Representation lemma: if [R l a] ("accumulator a represents the inputs l") is established by
    create, preserved by add and by merge of a non-empty list, every schedule's result represents
    the elements of the schedule. *)
Section rep.
  Context {X A : Type} (mk : A) (add : A -> X -> A) (mrg : list A -> A).
  Variable R : list X -> A -> Prop.
  Hypothesis Rmk : R [] mk.
  Variable P : X -> Prop.
  Hypothesis Radd : forall l a x, P x -> R l a -> R (l ++ [x]) (add a x).
  Hypothesis Rmrg : forall ls ags, ls <> [] -> Forall2 R ls ags -> R (concat ls) (mrg ags).

  Lemma fold_rep xs : forall l a, Forall P xs -> R l a -> R (l ++ xs) (fold_left add xs a).
  Proof.
    induction xs as [|x xs IH]; cbn; intros l a HP H.
    - rewrite app_nil_r. exact H.
    - inversion HP; subst.
      replace (l ++ x :: xs) with ((l ++ [x]) ++ xs) by (rewrite <- app_assoc; reflexivity).
      apply IH; [assumption|]. apply Radd; assumption.
  Qed.

  Lemma run_rep s : Forall P (elements s) -> R (elements s) (run mk add mrg s).
  Proof.
    induction s as [xs|s0 rest IH0 IHr] using sched_ind'; cbn; intros HP.
    - apply (fold_rep xs [] mk HP Rmk).
    - apply Forall_app in HP as [HP0 HPr].
      replace (elements s0 ++ flat_map elements rest)
        with (concat (elements s0 :: map elements rest)) by (cbn; rewrite flat_map_concat_map; reflexivity).
      apply Rmrg; [discriminate|].
      constructor; [apply IH0, HP0|].
      clear IH0 HP0. induction IHr as [|x l Hx _ IH]; cbn in *; constructor.
      + apply Hx. apply Forall_app in HPr. tauto.
      + apply IH. apply Forall_app in HPr. tauto.
  Qed.
End rep.

(** The two-stage version. *)
Section analyze_rep.
  Context {B A O : Type} (c : combiner B A O).
  Variable R : list B -> A -> Prop.
  Variable P : B -> Prop.
  Hypothesis Rmk : R [] (create_accumulator c).
  Hypothesis Radd : forall l a x, P x -> R l a -> R (l ++ [x]) (add_input c a x).
  Hypothesis Rmrg : forall ls ags, ls <> [] -> Forall2 R ls ags -> R (concat ls) (merge_accumulators c ags).

  Lemma run_accumulate_rep s : Forall P (elements s) -> R (elements s) (run_accumulate c s).
  Proof. apply run_rep; assumption. Qed.

  Lemma run_merge_stage_rep (s : sched (sched B)) :
    Forall P (batches_of s) ->
    R (batches_of s)
      (run (create_accumulator c) (fun a x => merge_accumulators c [a; x]) (merge_accumulators c)
           (map_sched (run_accumulate c) s)).
  Proof.
    intros HP. unfold batches_of in *.
    induction s as [xs|s0 rest IH0 IHr] using sched_ind'; cbn [elements map_sched run] in *.
    - (* bundle *)
      assert (G : forall l a, R l a -> Forall P (flat_map elements xs) ->
                R (l ++ flat_map elements xs)
                  (fold_left (fun a x => merge_accumulators c [a; x]) (map (run_accumulate c) xs) a)).
      { clear HP. induction xs as [|x xs IH]; cbn; intros l a H HP.
        - rewrite app_nil_r. exact H.
        - apply Forall_app in HP as [HP1 HP2].
          rewrite app_assoc. apply IH; [|assumption].
          replace (l ++ elements x) with (concat [l; elements x]) by (cbn; rewrite app_nil_r; reflexivity).
          apply Rmrg; [discriminate|].
          constructor; [exact H|]. constructor; [|constructor].
          apply run_accumulate_rep. exact HP1. }
      apply (G [] _ Rmk HP).
    - rewrite flat_map_app in *. apply Forall_app in HP as [HP0 HPr].
      assert (E : flat_map elements (flat_map elements rest)
                  = concat (map (fun s => flat_map elements (elements s)) rest)).
      { clear. induction rest as [|r rest IH]; cbn; [reflexivity|].
        rewrite flat_map_app, IH. reflexivity. }
      rewrite E in *.
      change (flat_map elements (elements s0) ++ concat (map (fun s => flat_map elements (elements s)) rest))
        with (concat (flat_map elements (elements s0) :: map (fun s => flat_map elements (elements s)) rest)).
      apply Rmrg; [discriminate|].
      constructor; [apply IH0, HP0|].
      clear IH0 HP0 E. rewrite map_map. induction IHr as [|x l Hx _ IH]; cbn in *; constructor.
      + apply Hx. apply Forall_app in HPr. tauto.
      + apply IH. apply Forall_app in HPr. tauto.
  Qed.

  (** Every analysis extracts its output from an accumulator representing all batches. *)
  Lemma analyze_rep (s : sched (sched B)) :
    Forall P (batches_of s) ->
    exists a, R (batches_of s) a /\ analyze c s = extract_output c a.
  Proof. intros HP. eexists. split; [apply run_merge_stage_rep, HP|reflexivity]. Qed.
End analyze_rep.
