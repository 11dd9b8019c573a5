(** * The information of vocabulary tokens about the label (C55) *)
From Coq Require Import String List ZArith QArith Qreals Reals Bool Arith Lia Lra Permutation.
From Verif Require Import CombineModel FloatModel WeightedModel WeightedSpec InfoModel InfoSpec InfoProofs InfoToken InfoLink InfoExample.
Import ListNotations.
Local Open Scope R_scope.
Local Notation length := List.length.

(** The probability of every overlap of a token with a label is its share of all the ways in which the token
    could be placed in the rows. [labels] says which rows have the label. *)
Theorem c55_probabilities : forall lgamma x labels arrs, is_lgamma lgamma -> (x <= length labels)%nat ->
  all_arrangements (length labels) x arrs ->
  exists l, hypergeometric_pmf lgamma (INR (length labels)) (INR x) (INR (trues labels)) = Some l /\ NoDup (map fst l) /\
  (forall k p, In (k, p) l -> (0 <= k)%Z /\
     p = INR (length (filter (fun bs => both bs labels =? Z.to_nat k)%nat arrs)) / INR (length arrs)) /\
  (forall bs, In bs arrs -> In (Z.of_nat (both bs labels)) (map fst l)).
Proof. intros lgamma x labels arrs H L A. exact (probabilities_right lgamma H x labels arrs L A). Qed.
Print Assumptions c55_probabilities.

Example c55_probabilities_applies : is_lgamma some_lgamma /\ (2 <= length [true; false; true])%nat /\ exists arrs, all_arrangements 3 2 arrs.
Proof. split; [exact some_lgamma_right|]. split; [cbn; lia|apply arrangements_exist]. Qed.

(** The expected information about a label is the average over all these ways. *)
Theorem c55_expected : forall lgamma x labels arrs, is_lgamma lgamma -> (x <= length labels)%nat ->
  all_arrangements (length labels) x arrs ->
  calculate_partial_expected_mutual_information lgamma (INR (length labels)) (INR x) (INR (trues labels))
  = Some (average (fun bs => pair_information (length labels) x (trues labels) (both bs labels)) arrs).
Proof. intros lgamma x labels arrs H L A. exact (expected_right lgamma H x labels arrs L A). Qed.
Print Assumptions c55_expected.

Example c55_expected_applies : is_lgamma some_lgamma /\ (2 <= length [true; false; true])%nat /\ exists arrs, all_arrangements 3 2 arrs.
Proof. exact c55_probabilities_applies. Qed.

(** The mutual information of a token: the documented sum over the labels that occur and whose weight with the
    token differs enough from the expected one, with probabilities moved into the interval from 1e-6 to
    1 - 1e-6; for all batches of the rows, in any order, and all merge trees. *)
Theorem c55_information : forall rows t s sg mine,
  (forall r, In r rows -> NoDup (fst r)) -> (forall r, In r rows -> ~ In sentinel (fst r)) ->
  (forall r, In r rows -> (0 <= lab_weight (snd r))%Q) -> t <> sentinel ->
  token_rows t rows = Some mine -> Permutation (all_rows (batches_of s)) mine ->
  Permutation (all_rows (batches_of sg)) (global_rows rows) ->
  Forall wf_batch (batches_of s) -> Forall wf_batch (batches_of sg) ->
  let data := map (tagged t) rows in 0 < size (having data) ->
  forall lgamma min_diff p ls, not_everywhere data ->
  (forall j, moved (share j (having data)) (p j)) -> lists_counted min_diff p data ls ->
  calculate_mutual_information lgamma false min_diff (real_accumulator (token_statistics s)) (real_accumulator (token_statistics sg))
  = Information (total (fun j => about_label (size (having data)) (p j) (share j data)) ls) (size (having data)).
Proof. intros rows t s sg mine A B C D E F G H I data J. exact (information_of_token rows t s sg mine A B C D E F G H I J). Qed.
Print Assumptions c55_information.

Example c55_information_applies :
  let data := map (tagged "a") five in
  (forall r, In r five -> NoDup (fst r)) /\ (forall r, In r five -> ~ In sentinel (fst r)) /\ (forall r, In r five -> (0 <= lab_weight (snd r))%Q) /\
  token_rows "a" five = Some five_mine /\ Permutation (all_rows (batches_of five_token)) five_mine /\
  Permutation (all_rows (batches_of five_global)) (global_rows five) /\ Forall wf_batch (batches_of five_token) /\
  Forall wf_batch (batches_of five_global) /\ 0 < size (having data) /\ not_everywhere data.
Proof.
  repeat split; auto using five_distinct, five_no_sentinel, five_weights, five_token_batches, five_global_batches, five_token_wf, five_global_wf, five_occurs.
  right. split; [exact five_unit|exact five_lacking].
Qed.

(** The adjusted mutual information of a token (weights 1): minus the average information over all the ways in
    which as many rows could have had the token. *)
Theorem c55_adjusted : forall rows t s sg mine,
  (forall r, In r rows -> NoDup (fst r)) -> (forall r, In r rows -> ~ In sentinel (fst r)) ->
  (forall r, In r rows -> (0 <= lab_weight (snd r))%Q) -> t <> sentinel ->
  token_rows t rows = Some mine -> Permutation (all_rows (batches_of s)) mine ->
  Permutation (all_rows (batches_of sg)) (global_rows rows) ->
  Forall wf_batch (batches_of s) -> Forall wf_batch (batches_of sg) ->
  let data := map (tagged t) rows in 0 < size (having data) ->
  forall lgamma min_diff p ls arrs, is_lgamma lgamma -> (forall r, In r data -> weight r = 1) ->
  (exists r, In r data /\ has r = false) ->
  (forall j, moved (share j (having data)) (p j)) -> lists_counted min_diff p data ls ->
  all_arrangements (length data) (length (having data)) arrs ->
  calculate_mutual_information lgamma true min_diff (real_accumulator (token_statistics s)) (real_accumulator (token_statistics sg))
  = Information (total (fun j => about_label (size (having data)) (p j) (share j data)) ls
                 - average (fun bs => total (fun j => exact_about j (rearranged bs data)) ls) arrs) (size (having data)).
Proof. intros rows t s sg mine A B C D E F G H I data J. exact (adjusted_of_token rows t s sg mine A B C D E F G H I J). Qed.
Print Assumptions c55_adjusted.

Example c55_adjusted_applies :
  let data := map (tagged "a") five in
  is_lgamma some_lgamma /\ (forall r, In r data -> weight r = 1) /\ (exists r, In r data /\ has r = false) /\
  exists arrs, all_arrangements (length data) (length (having data)) arrs.
Proof. split; [exact some_lgamma_right|]. split; [exact five_unit|]. split; [exact five_lacking|apply arrangements_exist]. Qed.

(** A token in every row has no information. *)
Theorem c55_constant : forall rows t s sg mine,
  (forall r, In r rows -> NoDup (fst r)) -> (forall r, In r rows -> ~ In sentinel (fst r)) ->
  (forall r, In r rows -> (0 <= lab_weight (snd r))%Q) -> t <> sentinel ->
  token_rows t rows = Some mine -> Permutation (all_rows (batches_of s)) mine ->
  Permutation (all_rows (batches_of sg)) (global_rows rows) ->
  Forall wf_batch (batches_of s) -> Forall wf_batch (batches_of sg) ->
  let data := map (tagged t) rows in 0 < size (having data) ->
  forall lgamma adjusted min_diff, (forall r, In r rows -> In t (fst r)) ->
  calculate_mutual_information lgamma adjusted min_diff (real_accumulator (token_statistics s)) (real_accumulator (token_statistics sg))
  = Information 0 (size data).
Proof. intros rows t s sg mine A B C D E F G H I data J. exact (constant_token rows t s sg mine A B C D E F G H I J). Qed.
Print Assumptions c55_constant.

Example c55_constant_applies : let rows := [(["a"%string; "b"%string], Lab 0 1); (["a"%string], Lab 1 1)] in
  (forall r, In r rows -> In "a"%string (fst r)) /\ 0 < size (having (map (tagged "a") rows)).
Proof. split; [intros r [<-|[<-|[]]]; cbn; auto|]. sizes. lra. Qed.

(** Where no probability has to be moved and no label is passed over, the information is that of the counts. It
    is not negative, and 0 for a token that does not depend on the label. *)
Theorem c55_exact : forall rows t s sg mine,
  (forall r, In r rows -> NoDup (fst r)) -> (forall r, In r rows -> ~ In sentinel (fst r)) ->
  (forall r, In r rows -> (0 <= lab_weight (snd r))%Q) -> t <> sentinel ->
  token_rows t rows = Some mine -> Permutation (all_rows (batches_of s)) mine ->
  Permutation (all_rows (batches_of sg)) (global_rows rows) ->
  Forall wf_batch (batches_of s) -> Forall wf_batch (batches_of sg) ->
  let data := map (tagged t) rows in 0 < size (having data) ->
  forall lgamma min_diff ls, not_everywhere data -> min_diff <= 0 ->
  NoDup ls -> (forall r, In r data -> In (label r) ls) ->
  (forall r, In r data -> 1 / 1000000 <= share (label r) (having data) <= 1 - 1 / 1000000) ->
  calculate_mutual_information lgamma false min_diff (real_accumulator (token_statistics s)) (real_accumulator (token_statistics sg))
  = Information (total (fun j => exact_about j data) ls) (size (having data)) /\
  0 <= total (fun j => exact_about j data) ls /\
  ((forall j, share j (having data) = share j data) -> total (fun j => exact_about j data) ls = 0).
Proof. intros rows t s sg mine A B C D E F G H I data J. exact (exact_information rows t s sg mine A B C D E F G H I J). Qed.
Print Assumptions c55_exact.

Example c55_exact_applies :
  let data := map (tagged "a") five in not_everywhere data /\ NoDup [0; 1]%nat /\ (forall r, In r data -> In (label r) [0; 1]%nat) /\
  (forall r, In r data -> 1 / 1000000 <= share (label r) (having data) <= 1 - 1 / 1000000).
Proof.
  split; [right; split; [exact five_unit|exact five_lacking]|]. split; [repeat constructor; cbn; intuition discriminate|]. split; [exact five_labels|exact five_bounds].
Qed.

(** Finding: a token that does not depend on the label can have a negative mutual information, because its
    probability 1 of the only label is moved to 1 - 1e-6 while the probability of the label is not. *)
Theorem c55_clipping_refuted : exists rows t s sg mine, token_rows t rows = Some mine /\
  all_rows (batches_of s) = mine /\ all_rows (batches_of sg) = global_rows rows /\
  (forall j, share j (having (map (tagged t) rows)) = share j (map (tagged t) rows)) /\
  forall lgamma, exists mi x,
  calculate_mutual_information lgamma false 0 (real_accumulator (token_statistics s)) (real_accumulator (token_statistics sg)) = Information mi x /\
  mi < 0.
Proof.
  exists one_label, "a"%string, one_label_token, one_label_global, [Lab 0 1]. split; [reflexivity|]. split; [reflexivity|]. split; [reflexivity|].
  split; [|exact one_label_negative]. intros [|j]; [sizes; field|]. unfold share, labelled. cbn. unfold size. cbn. unfold Rdiv. now rewrite !Rmult_0_l.
Qed.
Print Assumptions c55_clipping_refuted.

(** Finding: frequencies are compared after rounding, so that where the weights sum to less than a half every
    token is taken for one that is in every row, and has information 0. *)
Theorem c55_small_weights_refuted : exists rows t s sg mine, token_rows t rows = Some mine /\
  all_rows (batches_of s) = mine /\ all_rows (batches_of sg) = global_rows rows /\
  total (fun j => exact_about j (map (tagged t) rows)) [0; 1]%nat = 1 / 10 /\
  forall lgamma,
  calculate_mutual_information lgamma false 0 (real_accumulator (token_statistics s)) (real_accumulator (token_statistics sg)) = Information 0 (1 / 10).
Proof.
  exists light, "a"%string, light_token, light_global, [Lab 0 (1 # 10)]. split; [reflexivity|]. split; [reflexivity|]. split; [reflexivity|].
  split; [exact light_exact|exact light_zero].
Qed.
Print Assumptions c55_small_weights_refuted.

(** Finding: a token equal to the sentinel under which the label counts of the dataset are kept is counted with
    them: more rows than there are, and no information for the token. *)
Theorem c55_sentinel_refuted : exists (rows : list (list string * nat)) t,
  In t (concat (map fst rows)) /\ token_rows t rows = None /\ (length rows < length (global_rows rows))%nat.
Proof. exists [([sentinel], 0%nat); (["a"%string], 1%nat)], sentinel. split; [cbn; auto|]. split; [reflexivity|cbn; lia]. Qed.
Print Assumptions c55_sentinel_refuted.

(** Finding: a token that is repeated in a row counts several times, and can have more rows than there are
    (for which the code raises an error only if the sum exceeds the size of the dataset). *)
Theorem c55_repeated_token_refuted : exists (rows : list (list string * nat)) t mine,
  token_rows t rows = Some mine /\ (length (filter (fun r => existsb (String.eqb t) (fst r)) rows) < length mine)%nat.
Proof. exists [(["a"%string; "a"%string], 0%nat); ([], 1%nat); ([], 1%nat)], "a"%string. eexists. split; [reflexivity|cbn; lia]. Qed.
Print Assumptions c55_repeated_token_refuted.
