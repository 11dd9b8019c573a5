(** * Datasets used in the examples of C55 *)
From Coq Require Import String List ZArith QArith Qreals Reals Bool Arith Lia Lra Permutation.
From Verif Require Import CombineModel FloatModel WeightedModel WeightedSpec InfoModel InfoSpec InfoProofs InfoToken InfoLink.
Import ListNotations.
Local Open Scope R_scope.
Local Notation length := List.length.

Definition some_lgamma (x : R) : option R := Some (ln (INR (fact (Z.to_nat (Int_part x - 1))))).
Lemma some_lgamma_right : is_lgamma some_lgamma.
Proof.
  intros n. unfold some_lgamma. do 2 f_equal. f_equal. f_equal.
  assert (E : Int_part (INR n + 1) = (Z.of_nat n + 1)%Z).
  { destruct (base_Int_part (INR n + 1)) as [A B]. rewrite INR_IZR_INZ in *. rewrite <- plus_IZR in *. apply le_IZR in A.
    assert (C : IZR (Z.of_nat n + 1 - 1) < IZR (Int_part (IZR (Z.of_nat n + 1)))) by (rewrite minus_IZR; lra). apply lt_IZR in C. lia. }
  rewrite E. lia.
Qed.

Definition five : list (list string * WeightedModel.labelled) :=
  [(["a"%string], Lab 0 1); (["a"%string; "b"%string], Lab 0 1); (["b"%string], Lab 1 1); (["a"%string], Lab 1 1); ([], Lab 1 1)].
Definition five_token : sched (sched (nat * list WeightedModel.labelled)) :=
  Merged (Bundle [Bundle [(1%nat, [Lab 0 1]); (2%nat, [Lab 1 1])]]) [Bundle [Bundle [(1%nat, [Lab 0 1])]]].
Definition five_global : sched (sched (nat * list WeightedModel.labelled)) :=
  Bundle [Bundle [(2%nat, [Lab 0 1; Lab 1 1; Lab 0 1])]; Bundle [(2%nat, [Lab 1 1; Lab 1 1])]].
Definition five_mine : list WeightedModel.labelled := [Lab 0 1; Lab 0 1; Lab 1 1].

Lemma five_distinct : forall r, In r five -> NoDup (fst r).
Proof. intros r I. repeat destruct I as [<-|I]; try destruct I; cbn; repeat constructor; cbn; intuition discriminate. Qed.
Lemma five_no_sentinel : forall r, In r five -> ~ In sentinel (fst r).
Proof. intros r I. repeat destruct I as [<-|I]; try destruct I; cbn; intuition discriminate. Qed.
Lemma five_weights : forall r, In r five -> (0 <= lab_weight (snd r))%Q.
Proof. intros r I. repeat destruct I as [<-|I]; try destruct I; cbn; discriminate. Qed.
Lemma five_token_batches : Permutation (all_rows (batches_of five_token)) five_mine.
Proof. cbn. apply perm_skip, perm_swap. Qed.
Lemma five_global_batches : Permutation (all_rows (batches_of five_global)) (global_rows five).
Proof. cbn. apply perm_skip, perm_swap. Qed.
Lemma five_token_wf : Forall wf_batch (batches_of five_token).
Proof. repeat constructor; cbn; try discriminate; lia. Qed.
Lemma five_global_wf : Forall wf_batch (batches_of five_global).
Proof. repeat constructor; cbn; try discriminate; lia. Qed.

Lemma Q2R_1 : Q2R 1 = 1.
Proof. unfold Q2R. cbn. lra. Qed.
Ltac sizes := unfold having, labelled, size, total, share, tagged; cbn -[Q2R]; rewrite ?Q2R_1; unfold size, total; cbn -[Q2R]; rewrite ?Q2R_1.
Lemma five_occurs : 0 < size (having (map (tagged "a") five)).
Proof. sizes. lra. Qed.
Lemma five_unit : forall r, In r (map (tagged "a") five) -> weight r = 1.
Proof. intros r I. repeat destruct I as [<-|I]; try destruct I; cbn; apply Q2R_1. Qed.
Lemma five_lacking : exists r, In r (map (tagged "a") five) /\ has r = false.
Proof. exists (tagged "a" (["b"%string], Lab 1 1)). split; [cbn; auto|reflexivity]. Qed.
Lemma five_shares : share 0 (having (map (tagged "a") five)) = 2 / 3 /\ share 1 (having (map (tagged "a") five)) = 1 / 3.
Proof. split; sizes; field. Qed.
Lemma five_labels : forall r, In r (map (tagged "a") five) -> In (label r) [0; 1]%nat.
Proof. intros r I. repeat destruct I as [<-|I]; try destruct I; cbn; auto. Qed.
Lemma five_bounds : forall r, In r (map (tagged "a") five) -> 1 / 1000000 <= share (label r) (having (map (tagged "a") five)) <= 1 - 1 / 1000000.
Proof.
  destruct five_shares as [A B]. intros r I. destruct (five_labels r I) as [E|[E|[]]]; rewrite <- E; [rewrite A|rewrite B]; lra.
Qed.

(** All the ways in which [x] of [n] rows can have the token. *)
Lemma arrangements_exist n x : exists arrs, all_arrangements n x arrs.
Proof. exists (arr n x). apply arr_all. Qed.

(** One label only. *)
Definition one_label : list (list string * WeightedModel.labelled) := [(["a"%string], Lab 0 1); ([], Lab 0 1)].
Definition one_label_token : sched (sched (nat * list WeightedModel.labelled)) := Bundle [Bundle [(1%nat, [Lab 0 1])]].
Definition one_label_global : sched (sched (nat * list WeightedModel.labelled)) := Bundle [Bundle [(1%nat, [Lab 0 1; Lab 0 1])]].

Lemma one_label_negative lgamma : exists mi x,
  calculate_mutual_information lgamma false 0 (real_accumulator (token_statistics one_label_token)) (real_accumulator (token_statistics one_label_global))
  = Information mi x /\ mi < 0.
Proof.
  eexists _, _. split.
  - apply (information_of_token one_label "a" one_label_token one_label_global [Lab 0 1]) with (p := fun j => clip_probability (share j (having (map (tagged "a") one_label)))) (ls := [0%nat]).
    + intros r I. repeat destruct I as [<-|I]; try destruct I; cbn; repeat constructor; cbn; intuition discriminate.
    + intros r I. repeat destruct I as [<-|I]; try destruct I; cbn; intuition discriminate.
    + intros r I. repeat destruct I as [<-|I]; try destruct I; cbn; discriminate.
    + discriminate.
    + reflexivity.
    + reflexivity.
    + reflexivity.
    + repeat constructor; cbn; try discriminate; lia.
    + repeat constructor; cbn; try discriminate; lia.
    + sizes. lra.
    + right. split; [intros r I; repeat destruct I as [<-|I]; try destruct I; cbn; apply Q2R_1|]. exists (tagged "a" ([], Lab 0 1)). split; [cbn; auto|reflexivity].
    + intros j. apply clip_moved.
    + split; [repeat constructor; cbn; tauto|]. intros j. unfold counted. split.
      * intros [<-|[]]. split; [sizes; lra|apply Rabs_pos].
      * intros [P _]. destruct j as [|j]; [cbn; auto|]. exfalso. revert P. unfold labelled. cbn. unfold size. cbn. lra.
  - cbn [total fold_right]. rewrite Rplus_0_r.
    assert (E : share 0 (having (map (tagged "a") one_label)) = 1) by (sizes; field). assert (E' : share 0 (map (tagged "a") one_label) = 1) by (sizes; field).
    destruct (clip_moved (share 0 (having (map (tagged "a") one_label)))) as [(_ & M & _) _]. rewrite M by (rewrite E; lra). rewrite E'.
    assert (X : size (having (map (tagged "a") one_label)) = 1) by (sizes; lra). rewrite X. unfold about_label, log_2. unfold Rdiv at 3. rewrite Rinv_1, Rmult_1_r.
    assert (L : ln (1 - 1 / 1000000) < 0) by (rewrite <- ln_1; apply ln_increasing; lra). pose proof ln_2_pos as L2.
    assert (D : ln (1 - 1 / 1000000) / ln 2 < 0) by (unfold Rdiv; apply Ropp_lt_cancel; rewrite Ropp_0, Ropp_mult_distr_l; apply Rmult_lt_0_compat; [lra|now apply Rinv_0_lt_compat]).
    nra.
Qed.

(** Small weights. *)
Definition light : list (list string * WeightedModel.labelled) := [(["a"%string], Lab 0 (1 # 10)); ([], Lab 1 (1 # 10))].
Definition light_token : sched (sched (nat * list WeightedModel.labelled)) := Bundle [Bundle [(1%nat, [Lab 0 (1 # 10)])]].
Definition light_global : sched (sched (nat * list WeightedModel.labelled)) := Bundle [Bundle [(2%nat, [Lab 0 (1 # 10); Lab 1 (1 # 10)])]].
Lemma Q2R_tenth : Q2R (1 # 10) = 1 / 10.
Proof. unfold Q2R. cbn. lra. Qed.
Lemma light_zero lgamma : calculate_mutual_information lgamma false 0 (real_accumulator (token_statistics light_token)) (real_accumulator (token_statistics light_global))
  = Information 0 (1 / 10).
Proof.
  destruct (accumulators_right light) with (t := "a"%string) (s := light_token) (sg := light_global) (mine := [Lab 0 (1 # 10)]) as [(_ & D & _) (_ & G & _)].
  - intros r I. repeat destruct I as [<-|I]; try destruct I; cbn; repeat constructor; cbn; intuition discriminate.
  - intros r I. repeat destruct I as [<-|I]; try destruct I; cbn; intuition discriminate.
  - discriminate.
  - reflexivity.
  - reflexivity.
  - reflexivity.
  - repeat constructor; cbn; try discriminate; lia.
  - repeat constructor; cbn; try discriminate; lia.
  - sizes. rewrite Q2R_tenth. lra.
  - sizes. rewrite Q2R_tenth. lra.
  - assert (X : size (having (map (tagged "a") light)) = 1 / 10) by (sizes; rewrite Q2R_tenth; lra). assert (N : size (map (tagged "a") light) = 2 / 10) by (sizes; rewrite Q2R_tenth; lra).
    rewrite X in D. rewrite N in G. unfold calculate_mutual_information. rewrite D, G. rewrite is_zero_false by lra.
    assert (R0 : forall x, 0 < x < / 2 -> py_round x = 0%Z).
    { intros x H. pose proof (py_round_bounds x) as B. assert (A1 : IZR (-1) < IZR (py_round x)) by (cbn; lra). assert (A2 : IZR (py_round x) < IZR 1) by (cbn; lra).
      apply lt_IZR in A1, A2. lia. }
    rewrite !R0 by lra. reflexivity.
Qed.
Lemma light_exact : total (fun j => exact_about j (map (tagged "a") light)) [0; 1]%nat = 1 / 10.
Proof.
  cbn [total fold_right].
  assert (X : size (having (map (tagged "a") light)) = 1 / 10) by (sizes; rewrite Q2R_tenth; lra). assert (N : size (map (tagged "a") light) = 2 / 10) by (sizes; rewrite Q2R_tenth; lra).
  assert (A : size (labelled 0 (having (map (tagged "a") light))) = 1 / 10) by (sizes; rewrite Q2R_tenth; lra). assert (B : size (labelled 1 (having (map (tagged "a") light))) = 0) by (sizes; lra).
  assert (C : size (labelled 0 (map (tagged "a") light)) = 1 / 10) by (sizes; rewrite Q2R_tenth; lra).
  unfold exact_about, share. rewrite A, B, C, X, N. destruct (Req_EM_T (1 / 10) 0); [lra|]. destruct (Req_EM_T 0 0); [|lra]. unfold about_label, log_2.
  replace (1 / 10 / (1 / 10) / (1 / 10 / (2 / 10))) with 2 by field. pose proof ln_2_pos. field. lra.
Qed.
