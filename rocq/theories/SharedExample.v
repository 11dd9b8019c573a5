(** * Worker processes for the examples of C71 *)
From Coq Require Import String List Bool Arith.
From Verif Require Import SharedModel SharedSpec.
Import ListNotations.
Local Open Scope string_scope.

(** A model multiplies its batches by a number: the length of its directory's name plus its ParDo; there is none in the directory without a name. *)
Definition load_ (p : nat) (dir : string) : option nat := if String.eqb dir "" then None else Some (p + String.length dir).
(** Batch 0 does not parse. *)
Definition run_ (m b : nat) : option nat := if Nat.eqb b 0 then None else Some (m * b).

(** Two threads of ParDo 3 and one of ParDo 5, interleaved. *)
Definition two_pardos : list (event nat) :=
  [Set_up 3; Set_up 5; Call 0 7 "ab"; Set_up 3; Call 1 7 "cde"; Call 2 8 "ab"; Return 2; Return 0; Clear; Collect 0; Call 2 9 "ab"; Return 1;
   Call 0 0 "ab"; Return 0; Return 2; Collect 1].
(** Copies of ParDo 3 that come and go. *)
Definition bundles : list (event nat) :=
  [Set_up 3; Call 0 7 "ab"; Return 0; Tear_down 0; Collect 0; Set_up 3; Call 1 8 "ab"; Return 1; Tear_down 1; Collect 0].
(** Two ParDos in turn, each of which drops the other's graph. *)
Definition turns : list (event nat) :=
  [Set_up 3; Call 0 7 "ab"; Return 0; Tear_down 0; Set_up 5; Call 1 7 "ab"; Return 1; Tear_down 1; Collect 0;
   Set_up 3; Call 2 8 "ab"; Return 2].
(** A call that ends after the barrier. *)
Definition late : list (event nat) := [Set_up 3; Call 0 7 "ab"; Clear; Return 0; Tear_down 0].
(** A ParDo whose directory changes. *)
Definition moved : list (event nat) := [Set_up 3; Call 0 7 "ab"; Return 0; Call 0 7 "abc"; Return 0].

(** ** The schedules are what Beam may do *)
Lemma busy_snoc_no {batch} f (sch : list (event batch)) e : ~ busy f sch -> (forall b dir, e <> Call f b dir) -> ~ busy f (sch ++ [e]).
Proof.
  intros N C H. inversion H as [s b dir E|s e' H' NE E]; apply app_inj_tail in E as [E E']; subst; [exact (C b dir eq_refl)|exact (N H')].
Qed.
Lemma busy_snoc_return {batch} f (sch : list (event batch)) : ~ busy f (sch ++ [Return f]).
Proof.
  intros H. inversion H as [s b dir E|s e' H' NE E]; apply app_inj_tail in E as [E E']; subst; [discriminate|exact (NE eq_refl)].
Qed.
Lemma busy_nil {batch} f : ~ busy (batch := batch) f [].
Proof. intros H. inversion H as [s b dir E|s e' H' NE E]; destruct s; discriminate. Qed.
Ltac not_torn := let I := fresh in intros I; cbn in I; repeat (destruct I as [I|I]; [discriminate I|]); destruct I.
Ltac split_last l := lazymatch l with [?e] => constr:((@nil (event nat), e)) | ?a :: ?r => let x := split_last r in lazymatch x with (?i, ?e) => constr:((a :: i, e)) end end.
Ltac snoc := lazymatch goal with
  | |- well_formed [] => idtac
  | |- well_formed ?l => let x := split_last l in lazymatch x with (?i, ?e) => change l with (app i [e]) end
  | |- busy ?f ?l => let x := split_last l in lazymatch x with (?i, ?e) => change l with (app i [e]) end
  | |- ~ busy ?f [] => idtac
  | |- ~ busy ?f ?l => let x := split_last l in lazymatch x with (?i, ?e) => change l with (app i [e]) end
  end.
Ltac busy_ := snoc; first [apply Busy_call | apply Busy_on; [busy_|discriminate]].
Ltac nbusy := snoc; first [apply busy_nil | apply busy_snoc_return | apply busy_snoc_no; [nbusy|discriminate]].
Ltac wf := snoc; first
  [ apply WF_nil | apply WF_set_up; wf | apply WF_clear; wf | apply WF_collect; wf
  | apply WF_return; [wf|busy_] | eapply WF_call; [wf|reflexivity|not_torn|nbusy] | eapply WF_tear_down; [wf|reflexivity|not_torn|nbusy]].

Lemma two_pardos_meets : well_formed two_pardos /\ (forall f, ~ busy f two_pardos) /\
  (forall p b dir, is_called two_pardos p b dir -> dir = if Nat.eqb p 3 then "ab" else "cde")%string /\ List.length (calls two_pardos) = 5.
Proof.
  split; [unfold two_pardos; wf|]. split; [|split; [|reflexivity]].
  - intros f. destruct f as [|[|[|f]]]; [unfold two_pardos; nbusy..|].
    intros H. remember two_pardos as l eqn:E. assert (forall b dir, ~ In (Call (S (S (S f))) b dir) l).
    { intros b dir I. subst l. cbn in I. repeat (destruct I as [I|I]; [discriminate I|]). destruct I. }
    clear E. induction H as [s b dir|s e H IH NE]; [apply (H0 b dir), in_or_app; right; left; reflexivity|].
    apply IH. intros b dir I. apply (H0 b dir), in_or_app. auto.
  - intros p b dir (f & P & I). unfold pardo_of in P. cbn in P, I.
    repeat (destruct I as [I|I]; [first [discriminate I|injection I as <- <- <-; cbn in P; injection P as <-; reflexivity]|]). destruct I.
Qed.
Lemma turns_loads : exists (sch : list (event nat)) p, well_formed sch /\ ~ In Clear sch /\ count_occ Nat.eq_dec (loads (execute load_ run_ sch)) p = 2.
Proof. exists turns, 3. split; [unfold turns; wf|]. split; [not_torn|vm_compute; reflexivity]. Qed.
Lemma bundles_meets : well_formed (bundles ++ Clear :: []) /\
  (forall f p, pardo_of (bundles ++ Clear :: []) f p -> torn_down (bundles ++ Clear :: []) f) /\
  List.length (objects (execute load_ run_ (bundles ++ Clear :: []))) = 1.
Proof.
  split; [unfold bundles; cbn [app]; wf|]. split; [|vm_compute; reflexivity].
  intros f p P. unfold pardo_of in P. cbn in P. unfold torn_down. destruct f as [|[|[|f]]]; try discriminate P; cbn; auto 20.
Qed.
Lemma late_meets : exists sch rest, well_formed (sch ++ Clear :: rest) /\
  (forall f p, pardo_of (sch ++ Clear :: rest) f p -> torn_down (sch ++ Clear :: rest) f) /\
  forall n ob, In ob (objects (execute load_ run_ ((sch ++ Clear :: rest) ++ map Collect (seq 0 n)))) -> o_collected ob = false.
Proof.
  exists [Set_up 3; Call 0 7 "ab"], [Return 0; Tear_down 0]. cbn [app]. fold late. split; [unfold late; wf|]. split.
  - intros f p P. unfold pardo_of in P. cbn in P. unfold torn_down. destruct f as [|f]; [cbn; auto 20|destruct f; discriminate P].
  - intros n ob. assert (E : execute load_ run_ (late ++ map Collect (seq 0 n)) = execute load_ run_ late).
    { unfold execute. rewrite fold_left_app. generalize 0. induction n as [|n IH]; intros k; [reflexivity|]. cbn [seq map fold_left].
      replace (step load_ run_ _ (Collect k)) with (fold_left (step load_ run_) late (new_process (model := nat) (batch := nat) (out := nat))); [apply IH|].
      destruct k as [|k]; [reflexivity|]. cbn. destruct k; reflexivity. }
    unfold late in E. cbn [app] in E. rewrite E. cbn. intros [<-|[]]. reflexivity.
Qed.
