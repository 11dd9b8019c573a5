(** Data for the examples and refutations of LMomentsProps.v. *)
From Coq Require Import List ZArith QArith Qreals Reals Lra Permutation.
From Verif Require Import CombineModel TukeyModel TukeySpec TukeyNumbers LMomentsModel LMomentsSpec LMomentsTukey.
Import ListNotations.
Local Open Scope Q_scope.

(** Two workers; the first one has a batch of five values and an empty one. *)
Definition two_workers : sched (sched (list Q)) :=
  Merged (Bundle [Bundle [[3; 0; 1; 2; 9]; []]]) [Bundle [Bundle [[5; 9]]; Bundle [[4]]]].

(** Two columns of dense batches of two rows and of one row. *)
Definition dense_batches : sched (sched (nat * list (list Q))) :=
  Bundle [Bundle [(2%nat, [[1; 4]; [0; 0]]); (1%nat, [[7]; [5]])]; Bundle [(2%nat, [[2; 8]; [1; 6]])]].

(** The second batch has no second column. *)
Definition sparse_batches : sched (sched (list (list Q))) :=
  Bundle [Bundle [[[1; 4]; [3]]; [[2; 8; 5]]]; Bundle [[[]; [1; 6]]]].

(** The same four values in one batch and in four batches. *)
Definition together : sched (sched (list Q)) := Bundle [Bundle [[0; 1; 2; 3]]].
Definition apart : sched (sched (list Q)) := Bundle [Bundle [[0]; [1]; [2]; [3]]].

(** Nine zeros and a ten: the L-kurtosis is 1. *)
Definition heavy : sched (sched (list Q)) := Bundle [Bundle [[0; 0; 0; 0; 0; 10; 0; 0; 0; 0]]].

Local Open Scope R_scope.

Lemma scales_differ se ke : exists p q,
  tukey_parameters se ke together = Some p /\ tukey_parameters se ke apart = Some q
  /\ 1 < scale p /\ scale q = 1.
Proof.
  destruct (parameters_right se ke together) as (p & Ep & _ & _ & _ & _ & Sp & _ & Z & _).
  - discriminate.
  - left. replace (Q2R (l_kurtosis_within (batches_of together))) with 0; [lra|].
    rewrite <- RMicromega.Q2R_0. apply Qeq_eqR. vm_compute. reflexivity.
  - destruct (parameters_right se ke apart) as (q & Eq & _ & _ & _ & _ & _ & Sq & _).
    + discriminate.
    + left. replace (Q2R (l_kurtosis_within (batches_of apart))) with 0; [lra|].
      rewrite <- RMicromega.Q2R_0. apply Qeq_eqR. vm_compute. reflexivity.
    + exists p, q. split; [exact Ep|]. split; [exact Eq|]. split.
      * destruct Z as [Zl Zr].
        { replace (Q2R (l_kurtosis_within (batches_of together))) with 0; [lra|].
          rewrite <- RMicromega.Q2R_0. apply Qeq_eqR. vm_compute. reflexivity. }
        specialize (Sp ltac:(vm_compute; reflexivity)). rewrite Zl, Zr in Sp.
        assert (E : Q2R (within 2 (batches_of together)) = 5 / 6).
        { transitivity (Q2R (5 # 6)); [apply Qeq_eqR; vm_compute; reflexivity|unfold Q2R; cbn; lra]. }
        rewrite E in Sp.
        assert (H : hh_l_scale 0 0 < 5 / 6).
        { unfold hh_l_scale.
          replace ((0 - 2) * (0 - 2)) with (2 * 2) by ring. rewrite sqrt_square by lra.
          rewrite Rminus_0_r.
          assert (P : 3 < PI) by (pose proof pi_low; lra).
          assert (S2 : 0 < sqrt 2) by (apply sqrt_lt_R0; lra).
          rewrite sqrt_mult by lra.
          assert (SP : 17 / 10 < sqrt PI).
          { rewrite <- (sqrt_square (17 / 10)) by lra. apply sqrt_lt_1; lra. }
          replace (1 / (sqrt 2 * sqrt PI) * ((sqrt 2 + sqrt 2 - 0 * sqrt 2 - 0 * sqrt 2) / ((0 - 1) * (0 - 1) * 2)))
            with (1 / sqrt PI) by (field; split; lra).
          apply Rmult_lt_reg_r with (sqrt PI); [lra|]. unfold Rdiv at 1. rewrite Rmult_assoc, Rinv_l by lra. lra. }
        assert (H0 : 0 < hh_l_scale 0 0) by (apply hh_l_scale_pos; lra).
        apply Rmult_lt_reg_r with (hh_l_scale 0 0); [exact H0|]. rewrite Sp. lra.
      * apply Sq. vm_compute. reflexivity.
Qed.

Lemma heavy_settled : settled (Q2R (l_kurtosis_within (batches_of heavy))).
Proof.
  right. replace (Q2R (l_kurtosis_within (batches_of heavy))) with 1.
  - pose proof params_example as [H _]. lra.
  - symmetry. transitivity (Q2R (1 # 1)); [apply Qeq_eqR; vm_compute; reflexivity|unfold Q2R; cbn; lra].
Qed.
