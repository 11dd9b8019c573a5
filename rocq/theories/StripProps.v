(** Automatic control dependencies of outputs, stripped (C93). *)
From Coq Require Import List Bool Arith Lia.
From Verif Require Import StripModel StripSpec.
Import ListNotations.

Section props.
Variable V : Type.
Variable g : graph V.

Lemma identity_value t : is_identity V g t = true -> snd t = 0 -> forall v,
  has_value V g t v <-> has_value V g (hd t (inputs V (g (fst t)))) v /\ forall c, In c (control_inputs V (g (fst t))) -> exists w, runs V g c w.
Proof.
  unfold is_identity. intros I Z v. destruct (type V (g (fst t))) eqn:T; [|discriminate].
  destruct (inputs V (g (fst t))) as [|x [|]] eqn:E; try discriminate I. cbn. split.
  - intros [w [R N]]. inversion R as [o ins outs C F M]; subst. rewrite T in M. destruct M as [u [-> ->]]. rewrite E in F.
    inversion F; subst. rewrite Z in N. injection N as <-. split; [assumption | exact C].
  - intros [H C]. exists [v]. split; [|now rewrite Z]. apply (run V g (fst t) [v] [v] C).
    + rewrite E. constructor; [exact H | constructor].
    + rewrite T. now exists v.
Qed.

(** Fetching the outputs is the same as fetching the stripped ones and running what they waited for. *)
Theorem c93_values : forall l vs, one_output V g l ->
  (Forall2 (has_value V g) l vs <->
   Forall2 (has_value V g) (fst (strip V g l)) vs /\ forall c, In c (snd (strip V g l)) -> exists w, runs V g c w).
Proof.
  intros l vs. unfold strip. destruct (forallb (is_identity V g) l) eqn:A; cbn; [|intros _; intuition; easy].
  intros O. assert (X : Forall2 (has_value V g) l vs <-> Forall2 (has_value V g) (map (fun t => hd t (inputs V (g (fst t)))) l) vs /\ forall c, In c (concat (map (fun t => control_inputs V (g (fst t))) l)) -> exists w, runs V g c w).
  { revert vs A O. induction l as [|t l IH]; intros vs A O; cbn.
    - split; [intros F; split; [exact F | easy] | tauto].
    - cbn in A. apply andb_true_iff in A. destruct A as [A1 A2].
      assert (Z : snd t = 0) by (apply O; [now left|]; unfold is_identity in A1; destruct (type V (g (fst t))); [reflexivity | discriminate]).
      assert (O' : one_output V g l) by (intros x I; apply O; now right).
      split.
      + intros F. inversion F as [|? v ? vs' H1 H2]; subst. apply (identity_value t A1 Z) in H1. destruct H1 as [H1 C1]. apply (IH vs' A2 O') in H2. destruct H2 as [H2 C2].
        split; [now constructor|]. intros c I. apply in_app_or in I. destruct I; auto.
      + intros [F C]. inversion F as [|? v ? vs' H1 H2]; subst. constructor.
        * apply (identity_value t A1 Z). split; [exact H1|]. intros c I. apply C, in_or_app. now left.
        * apply (IH vs' A2 O'). split; [exact H2|]. intros c I. apply C, in_or_app. now right. }
  rewrite X. split; intros [F C]; (split; [exact F|]); intros c I; apply C; [now apply nodup_In in I | now apply nodup_In].
Qed.

(** What the outputs need, the stripped ones or what they waited for need as well, and only that; but for the outputs themselves. *)
Theorem c93_needs : forall l p, inputs V (g p) = [] \/ ~ In p (map fst l) ->
  ((exists t, In t l /\ needs V g (fst t) p) <->
   (exists t, In t (fst (strip V g l)) /\ needs V g (fst t) p) \/ (exists c, In c (snd (strip V g l)) /\ needs V g c p)).
Proof.
  intros l p P. unfold strip. destruct (forallb (is_identity V g) l) eqn:A; cbn; [|split; [now left | intros [H|[c [[] _]]]; exact H]].
  rewrite forallb_forall in A.
  assert (S : forall t, In t l -> exists x, inputs V (g (fst t)) = [x]).
  { intros t I. specialize (A t I). unfold is_identity in A. destruct (type V (g (fst t))); [|discriminate].
    destruct (inputs V (g (fst t))) as [|x [|]]; try discriminate. now exists x. }
  split.
  - intros [t [I N]]. destruct (S t I) as [x E]. inversion N as [o|o t' q J K|o c q J K]; subst.
    + destruct P as [P|P]; [congruence|]. destruct P. now apply in_map.
    + left. rewrite E in J. destruct J as [<-|[]]. exists x. split; [|exact K]. apply in_map_iff. exists t. now rewrite E.
    + right. exists c. split; [|exact K]. apply nodup_In, in_concat. eexists. split; [|exact J]. apply in_map_iff. now exists t.
  - intros [[x [I N]]|[c [I N]]].
    + apply in_map_iff in I. destruct I as [t [<- I]]. exists t. split; [exact I|]. destruct (S t I) as [x E]. rewrite E in N. cbn in N.
      apply (by_input V g (fst t) x); [rewrite E; now left | exact N].
    + apply nodup_In, in_concat in I. destruct I as [cs [I J]]. apply in_map_iff in I. destruct I as [t [<- I]]. exists t. split; [exact I|].
      now apply (by_control V g (fst t) c).
Qed.

(** Of a function with automatic control dependencies, what it returned and these dependencies are found. *)
Theorem c93_automatic : forall returned deps l, automatic V g returned deps l ->
  fst (strip V g l) = returned /\ NoDup (snd (strip V g l)) /\ forall c, In c (snd (strip V g l)) <-> In c deps /\ l <> [].
Proof.
  intros returned deps l W.
  assert (A : forallb (is_identity V g) l = true).
  { induction W as [|t t' r l [E _] W IH]; [reflexivity|]. cbn. rewrite IH. unfold is_identity. now rewrite E. }
  unfold strip. rewrite A. cbn. split; [|split; [apply NoDup_nodup|]].
  - clear A. induction W as [|t t' r l [E _] W IH]; [reflexivity|]. cbn. now rewrite E, IH.
  - intros c. rewrite nodup_In, in_concat. split.
    + intros [cs [I J]]. apply in_map_iff in I. destruct I as [t' [<- I]]. split; [|now intros ->].
      assert (H : forall x, In x l -> control_inputs V (g (fst x)) = deps).
      { clear - W. induction W as [|t t' r l [E _] W IH]; intros x I; [destruct I|]. destruct I as [<-|I]; [now rewrite E | now apply IH]. }
      now rewrite H in J.
    + intros [I N]. unfold automatic in W. inversion W as [|t t' r l' [E _] W']; subst; [now destruct N|]. exists (control_inputs V (g (fst t'))). split; [now left | now rewrite E].
Qed.
End props.

(** 0: a placeholder with value 5; 1: another, 6; 2: a check that fails for 6; 3: twice the first; 4 and 5: Identity of 3 and 0, which wait
    for the check *)
Definition checked (second : nat) : graph nat := fun o => match o with
  | 0 => Op nat (Other nat (fun _ => Some [5])) [] []
  | 1 => Op nat (Other nat (fun _ => Some [second])) [] []
  | 2 => Op nat (Other nat (fun l => if hd 0 l =? 6 then None else Some [])) [(1, 0)] []
  | 3 => Op nat (Other nat (fun l => Some [2 * hd 0 l])) [(0, 0)] []
  | 4 => Op nat (Identity nat) [(3, 0)] [2]
  | _ => Op nat (Identity nat) [(0, 0)] [2]
  end.
Lemma runs_0 s : runs nat (checked s) 0 [5].
Proof. apply (run nat (checked s) 0 [] [5]); [intros c [] | constructor | reflexivity]. Qed.
Lemma runs_1 s : runs nat (checked s) 1 [s].
Proof. apply (run nat (checked s) 1 [] [s]); [intros c [] | constructor | reflexivity]. Qed.
Lemma runs_2 : runs nat (checked 7) 2 [].
Proof. apply (run nat (checked 7) 2 [7] []); [intros c [] | | reflexivity]. constructor; [|constructor]. exists [7]. split; [apply runs_1 | reflexivity]. Qed.
Lemma runs_3 s : runs nat (checked s) 3 [10].
Proof. apply (run nat (checked s) 3 [5] [10]); [intros c [] | | reflexivity]. constructor; [|constructor]. exists [5]. split; [apply runs_0 | reflexivity]. Qed.
Lemma fails_2 w : ~ runs nat (checked 6) 2 w.
Proof.
  intros R. inversion R as [o ins outs C F M]; subst. cbn in F, M. inversion F as [|? v ? vs [u [R1 N]] F']; subst.
  inversion R1 as [o' ins' outs' C' G M']; subst. cbn in M'. injection M' as <-. cbn in N. injection N as <-. discriminate.
Qed.
Example c93_values_applies : one_output nat (checked 7) [(4, 0); (5, 0)] /\ strip nat (checked 7) [(4, 0); (5, 0)] = ([(3, 0); (0, 0)], [2]) /\
  Forall2 (has_value nat (checked 7)) [(4, 0); (5, 0)] [10; 5].
Proof.
  assert (O : one_output nat (checked 7) [(4, 0); (5, 0)]) by (intros t [<-|[<-|[]]]; reflexivity).
  split; [exact O|]. split; [reflexivity|]. apply (c93_values nat (checked 7) _ _ O). cbn. split.
  - constructor; [exists [10]; split; [apply runs_3 | reflexivity]|]. constructor; [exists [5]; split; [apply runs_0 | reflexivity] | constructor].
  - intros c [<-|[]]. exists []. apply runs_2.
Qed.
Example c93_needs_applies : needs nat (checked 7) 4 1 /\ ~ needs nat (checked 7) 3 1.
Proof.
  split.
  - apply (by_control nat (checked 7) 4 2); [now left|]. apply (by_input nat (checked 7) 2 (1, 0)); [now left | constructor].
  - intros N. inversion N as [|o t p I N' E1 E2|o c p I N' E1 E2]; clear N; cbn in I; [|destruct I]. destruct I as [<-|[]]. cbn in N'.
    inversion N' as [|o' t p' I N E3 E4|o' c p' I N E3 E4]; destruct I.
Qed.
Example c93_automatic_applies : automatic nat (checked 7) [(3, 0); (0, 0)] [2] [(4, 0); (5, 0)].
Proof. repeat constructor. Qed.

(** A function whose outputs are stripped gives values only where it did.  Not so if what they waited for is left out, as it is when a
    function is saved with strip_control_dependencies: checks are lost. *)
Theorem c93_checks_refuted : exists (g : graph nat) l vs, one_output nat g l /\ Forall2 (has_value nat g) (fst (strip nat g l)) vs /\ ~ Forall2 (has_value nat g) l vs.
Proof.
  exists (checked 6), [(4, 0)], [10]. assert (O : one_output nat (checked 6) [(4, 0)]) by (intros t [<-|[]]; reflexivity). split; [exact O|]. split.
  - cbn. constructor; [|constructor]. exists [10]. split; [apply runs_3 | reflexivity].
  - rewrite (c93_values nat (checked 6) _ _ O). intros [_ C]. destruct (C 2) as [w R]; [now left|]. exact (fails_2 w R).
Qed.

(** What outputs wait for is found.  Not so if one of them is not an Identity: none is found then. *)
Theorem c93_mixed_refuted : exists (g : graph nat) l t c, In t l /\ In c (control_inputs nat (g (fst t))) /\ ~ In c (snd (strip nat g l)).
Proof. exists (checked 7), [(4, 0); (3, 0)], (4, 0), 2. split; [now left|]. split; [now left|]. cbn. tauto. Qed.

Print Assumptions c93_values.
Print Assumptions c93_needs.
Print Assumptions c93_automatic.
Print Assumptions c93_checks_refuted.
Print Assumptions c93_mixed_refuted.
