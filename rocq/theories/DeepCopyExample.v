(** * Pipelines to be copied *)
From Coq Require Import String.
From Coq Require Import List Arith Bool Lia.
From Verif Require Import DeepCopyModel DeepCopySpec DeepCopyProofs.
Import ListNotations.
Local Open Scope string_scope.
Local Notation length := List.length.

Definition source (l : string) : transform nat := Transform 0 false l [PBegin] [] ["None"] [] None.
Definition par_do (f : nat) (l : string) (ins : list pvalue) (outs : list string) : transform nat :=
  Transform f false l ins [] outs [] None.
Definition group (l : string) (ins : list pvalue) : transform nat := Transform 1 true l ins [] ["None"] [] None.
Definition out (t : nat) : pvalue := PColl t "None".

(** Grouped data, changed twice, and other data, changed once, together. *)
Definition two_sources : list (transform nat) :=
  [source "Create"; group "GroupByKey" [out 0]; par_do 2 "Add1" [out 1] ["None"]; par_do 3 "Add2" [out 2] ["None"];
   source "Other"; par_do 4 "Add" [out 4] ["None"]; par_do 5 "Flatten" [out 3; out 5] ["None"]].
(** A collection that is flattened with what was computed from it. *)
Definition diamond : list (transform nat) :=
  [source "Create"; par_do 2 "Map" [out 0] ["None"]; par_do 5 "Flatten" [out 0; out 1] ["None"]].
(** The two parts of a collection, flattened. *)
Definition partition : list (transform nat) :=
  [source "Create"; par_do 2 "Partition" [out 0] ["None"; "0"; "1"];
   par_do 5 "Flatten" [PColl 1 "0"; PColl 1 "1"] ["None"]].
(** One of the parts is changed before. *)
Definition partition_map : list (transform nat) :=
  [source "Create"; par_do 2 "Partition" [out 0] ["None"; "0"; "1"]; par_do 3 "Map" [PColl 1 "1"] ["None"];
   par_do 5 "Flatten" [PColl 1 "0"; out 2] ["None"]].
Definition grouped : list (transform nat) := [source "Create"; group "GroupByKey" [out 0]].
Definition chain : list (transform nat) :=
  [source "Create"; par_do 2 "Map1" [out 0] ["None"]; par_do 3 "Map2" [out 1] ["None"]].

Lemma to_copy_in {F} (p : list (transform F)) v l : In v l ->
  (forall t tag a w, In (PColl t tag) l -> nth_error p t = Some a -> In w (main_inputs a) -> w <> PBegin -> at_boundary p w = false -> In w l) ->
  forall w, to_copy p v w -> In w l.
Proof. intros V H. induction 1 as [B|t tag a w C IH A W N B]; [exact V|]. apply (H t tag a w); auto. now apply at_boundary_false. Qed.

Ltac check_valid :=
  intros t a H; repeat (destruct t as [|t]; [injection H as <-; split;
    [repeat constructor; cbn; intuition discriminate|
     let v := fresh in let I := fresh in intros v I; cbn in I;
       repeat (destruct I as [<-|I]; [cbn; solve [exact Logic.I|split; [lia|eexists; split; [reflexivity|cbn; tauto]]]|]); destruct I]|]);
    try (destruct t; discriminate H).

Lemma two_sources_valid : valid two_sources. Proof. check_valid. Qed.
Lemma diamond_valid : valid diamond. Proof. check_valid. Qed.
Lemma partition_valid : valid partition. Proof. check_valid. Qed.
Lemma partition_map_valid : valid partition_map. Proof. check_valid. Qed.
Lemma grouped_valid : valid grouped. Proof. check_valid. Qed.
Lemma chain_valid : valid chain. Proof. check_valid. Qed.

Ltac closed_list := let w := fresh in intros t tag a w T A W N B; cbn in T;
  repeat (destruct T as [[= <- <-]|T]; [cbn in A; injection A as <-; cbn in W;
    repeat (destruct W as [<-|W]; [cbn; solve [discriminate B|congruence|tauto]|]); destruct W|]); destruct T.

Lemma two_sources_copied w : to_copy two_sources (out 6) w -> In w [out 6; out 3; out 5; out 2; out 4].
Proof. apply to_copy_in; [cbn; tauto|]. closed_list. Qed.
Lemma two_sources_one_output : one_output two_sources (out 6).
Proof.
  intros t tag tag' H H'. apply two_sources_copied in H, H'. cbn in H, H'.
  repeat (destruct H as [[= <- <-]|H]; [repeat (destruct H' as [H'|H']; [solve [discriminate H'|now injection H']|]); destruct H'|]); destruct H.
Qed.
Lemma two_sources_level : level two_sources (out 6).
Proof.
  exists (fun w => match w with PColl 6 _ => 0 | PColl 3 _ | PColl 5 _ => 1 | _ => 2 end).
  intros t tag a w T A W H. apply two_sources_copied in T, H. cbn in T, H.
  repeat (destruct T as [[= <- <-]|T]; [cbn in A; injection A as <-; cbn in W; repeat (destruct W as [<-|W]; [cbn; try reflexivity|]); try destruct W|]); try destruct T.
  - repeat destruct H as [H|H]; try discriminate H; destruct H.
  - repeat destruct H as [H|H]; try discriminate H; destruct H.
Qed.
Lemma diamond_one_output : one_output diamond (out 2).
Proof.
  assert (forall w, to_copy diamond (out 2) w -> In w [out 2; out 1; out 0]) as C.
  { apply to_copy_in; [cbn; tauto|]. closed_list. }
  intros t tag tag' H H'. apply C in H, H'. cbn in H, H'.
  repeat (destruct H as [[= <- <-]|H]; [repeat (destruct H' as [H'|H']; [solve [discriminate H'|now injection H']|]); destruct H'|]); destruct H.
Qed.
Lemma partition_level : level partition (out 2).
Proof.
  assert (forall w, to_copy partition (out 2) w -> In w [out 2; PColl 1 "0"; PColl 1 "1"; out 0]) as C.
  { apply to_copy_in; [cbn; tauto|]. closed_list. }
  exists (fun w => match w with PColl 2 _ => 0 | PColl 1 _ => 1 | _ => 2 end).
  intros t tag a w T A W H. apply C in T, H. cbn in T, H.
  repeat (destruct T as [[= <- <-]|T]; [cbn in A; injection A as <-; cbn in W; repeat (destruct W as [<-|W]; [cbn; try reflexivity|]); try destruct W|]); try destruct T.
  repeat destruct H as [H|H]; try discriminate H; destruct H.
Qed.
