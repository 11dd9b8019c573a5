(** * What a batch contributes to a vocabulary ranked by mutual information (C64) *)
From Coq Require Import String List ZArith QArith Qreals Reals Bool Arith Permutation.
From Verif Require Import CombineModel FloatModel WeightedModel WeightedSpec InfoModel.
From Verif Require InfoSpec.
From Verif Require Import CooccurModel CooccurSpec CooccurBatch CooccurLink CooccurUnweighted CooccurInfo CooccurExample.
Import ListNotations.
Local Open Scope nat_scope.
Local Notation length := List.length.

(** A batch of rows is accepted. It gives one entry for each token that is not filtered out, with the number and weight of
    its occurrences and their weight with each label, then one entry for the sentinel with the number and weight of the
    rows and their weight with each label. *)
Theorem c64_batch : forall token token_eqb, (forall a b : token, reflect (a = b) (token_eqb a b)) -> forall sentinel_token x y weights rows,
  is_batch token x y weights rows -> forall filter_regex, exists r known m total,
  vocabulary_inputs token token_eqb sentinel_token x y weights filter_regex = Some r /\ same_length token r /\
  vocabulary_of token filter_regex rows known /\ largest_label token rows m /\
  map fst (entries token r) = known ++ [sentinel_token] /\
  (forall t e, In (t, e) (firstn (length known) (entries token r)) -> right_entry token token_eqb m rows t e) /\
  nth_error (entries token r) (length known) = Some (sentinel_token, total) /\ right_total token m rows total.
Proof. exact batch_right. Qed.
Print Assumptions c64_batch.

Example c64_batch_applies :
  is_batch string (b_x _ second_batch) (b_y _ second_batch) (b_weights _ second_batch) second_rows /\
  is_batch string (b_x _ weighted_batch) (b_y _ weighted_batch) (b_weights _ weighted_batch) weighted_rows /\
  inputs (b_x _ second_batch) (b_y _ second_batch) (b_weights _ second_batch) no_b =
  Some (Reduced string ["a"; "c"; sentinel]%string [1; 1; 2]%Q [[1; 0; 0; 1]; [0; 0; 0; 0]; [1; 0; 0; 1]]%Q [1; 1; 2]).
Proof. split; [exact second_is|]. split; [exact weighted_is|vm_compute; reflexivity]. Qed.

(** Over all the batches, whatever rows each has: what is counted under a token is what the dataset has for it, and what
    is counted under the sentinel is what the dataset has for its rows, if the sentinel is no token. *)
Theorem c64_dataset : forall token token_eqb, (forall a b : token, reflect (a = b) (token_eqb a b)) ->
  forall sentinel_token filter_regex (batches : list (a_batch token)) results,
  Forall2 (fun b r => is_batch token (b_x token b) (b_y token b) (b_weights token b) (b_rows token b) /\
                      vocabulary_inputs token token_eqb sentinel_token (b_x token b) (b_y token b) (b_weights token b) filter_regex = Some r) batches results ->
  let es := concat (map (entries token) results) in
  let rows := concat (map (b_rows token) batches) in
  (forall k e, In (k, e) es -> k = sentinel_token \/ kept token filter_regex k) /\
  (forall t, kept token filter_regex t -> t <> sentinel_token ->
    (sum_weight token (token_eqb t) es == token_weight token token_eqb t rows)%Q /\
    (forall j, (sum_label_weight token (token_eqb t) j es == token_label_weight token token_eqb t j rows)%Q) /\
    sum_count token (token_eqb t) es = token_count token token_eqb t rows) /\
  ((forall r, In r rows -> ~ In sentinel_token (tokens token r)) ->
    (sum_weight token (token_eqb sentinel_token) es == rows_weight token rows)%Q /\
    (forall j, (sum_label_weight token (token_eqb sentinel_token) j es == rows_label_weight token j rows)%Q) /\
    sum_count token (token_eqb sentinel_token) es = length rows).
Proof. exact dataset_right. Qed.
Print Assumptions c64_dataset.

Example c64_dataset_applies :
  Forall2 (fun b r => is_batch string (b_x _ b) (b_y _ b) (b_weights _ b) (b_rows _ b) /\ inputs (b_x _ b) (b_y _ b) (b_weights _ b) no_b = Some r)
    [first_batch; second_batch] [result_of first_batch; result_of second_batch] /\
  token_count string String.eqb "a"%string (concat (map (b_rows _) [first_batch; second_batch])) = 3.
Proof. split; [|reflexivity]. constructor; [split; [exact first_is|vm_compute; reflexivity]|constructor; [split; [exact second_is|vm_compute; reflexivity]|constructor]]. Qed.

(** With one label for each row the accumulators of the batch are those that C04 and C55 start from: one for each token, of
    the rows that have it, and one for the sentinel, of all the rows. *)
Theorem c64_statistics : forall x shape flat weights rows filter_regex, is_batch string x (Dense_labels shape flat) weights rows ->
  (forall r, In r rows -> ~ In sentinel (tokens string r)) ->
  exists r known m, inputs x (Dense_labels shape flat) weights filter_regex = Some r /\
  vocabulary_of string filter_regex rows known /\ largest_label string rows m /\
  key_accumulators string r = map (fun t => (t, batch_token (S m) (rows_of t (keyed (map (labelled_row filter_regex) rows))))) (known ++ [sentinel]) /\
  ((forall r, In r rows -> 0 <= row_weight string r)%Q ->
   forall t, In t (known ++ [sentinel]) -> wf_batch (S m, rows_of t (keyed (map (labelled_row filter_regex) rows)))).
Proof. exact statistics_right. Qed.
Print Assumptions c64_statistics.

Example c64_statistics_applies :
  is_batch string (b_x _ weighted_batch) (Dense_labels [2] [1%Z; 0%Z]) (b_weights _ weighted_batch) weighted_rows /\
  (forall r, In r weighted_rows -> ~ In sentinel (tokens string r)) /\ (forall r, In r weighted_rows -> 0 <= row_weight string r)%Q /\
  rows_of "a"%string (keyed (map (labelled_row None) weighted_rows)) = [Lab 1 2%Q].
Proof.
  split; [exact weighted_is|]. repeat split.
  - intros r [<-|[<-|[]]] I; cbn in I; intuition discriminate.
  - intros r [<-|[<-|[]]]; discriminate.
Qed.

(** Weights are accepted only if they have the shape of the feature (of its values, if it is not dense) and there is one for
    each row of labels. *)
Theorem c64_weights : forall token token_eqb sentinel_token x y shape ws filter_regex r,
  vocabulary_inputs token token_eqb sentinel_token x y (Some (shape, ws)) filter_regex = Some r ->
  shape = shape_of x /\ shape = [label_rows y].
Proof. exact weights_accepted. Qed.
Print Assumptions c64_weights.

Example c64_weights_applies : exists r, inputs (b_x _ weighted_batch) (b_y _ weighted_batch) (Some ([2], [2; 1 # 2]%Q)) None = Some r.
Proof. eexists. vm_compute. reflexivity. Qed.

(** Without weights, in every order of the batches and for every merge tree: the count of a token, the weight 1 and, for each
    label, its mean over the occurrences of the token; and the same of the rows for the sentinel. *)
Theorem c64_unweighted : forall token token_eqb, (forall a b : token, reflect (a = b) (token_eqb a b)) ->
  forall sentinel_token filter_regex (batches : list (a_batch token)) results,
  Forall2 (fun b r => is_batch token (b_x token b) (b_y token b) (b_weights token b) (b_rows token b) /\
                      vocabulary_inputs token token_eqb sentinel_token (b_x token b) (b_y token b) (b_weights token b) filter_regex = Some r) batches results ->
  let es := concat (map (entries token) results) in
  let rows := concat (map (b_rows token) batches) in
  (forall t s, kept token filter_regex t -> t <> sentinel_token -> (exists r, In r rows /\ In t (tokens token r)) ->
    Permutation (batches_of s) (under token token_eqb t es) ->
    let a := unweighted_statistics s in
    wm_count a = Z.of_nat (token_count token token_eqb t rows) /\ wm_weight a = Fin 1 /\
    forall j, exists m, nth j (wm_mean a) (Fin 0) = Fin m /\ (m == token_label_weight token token_eqb t j rows / qnat (token_count token token_eqb t rows))%Q) /\
  (forall s, rows <> [] -> (forall r, In r rows -> ~ In sentinel_token (tokens token r)) ->
    Permutation (batches_of s) (under token token_eqb sentinel_token es) ->
    let a := unweighted_statistics s in
    wm_count a = Z.of_nat (length rows) /\ wm_weight a = Fin 1 /\
    forall j, exists m, nth j (wm_mean a) (Fin 0) = Fin m /\ (m == rows_label_weight token j rows / qnat (length rows))%Q).
Proof. exact unweighted_right. Qed.
Print Assumptions c64_unweighted.

Example c64_unweighted_applies :
  let rows := concat (map (b_rows string) [first_batch; third_batch]) in
  let es := concat (map (entries string) [result_of first_batch; result_of third_batch]) in
  kept string no_b "a"%string /\ (exists r, In r rows /\ In "a"%string (tokens string r)) /\ rows <> [] /\
  Permutation (batches_of (in_order "a"%string)) (under string String.eqb "a"%string es) /\
  Permutation (batches_of (in_order sentinel)) (under string String.eqb sentinel es) /\
  token_count string String.eqb "a"%string rows = 3 /\ (token_label_weight string String.eqb "a"%string 1 rows == 2)%Q.
Proof.
  cbv zeta. split; [reflexivity|]. split; [exists (a_row ["c"; "a"]%string [1%Z]); cbn; auto 10|]. split; [discriminate|].
  split; [symmetry; apply Permutation_rev|]. split; [symmetry; apply Permutation_rev|]. split; reflexivity.
Qed.

(** The mutual information of a token, without weights, from the tensors of the batches: that of C55, plain and adjusted. *)
Theorem c64_information : forall filter_regex (batches : list (a_batch string)) results,
  Forall2 (fun b r => is_batch string (b_x _ b) (b_y _ b) (b_weights _ b) (b_rows _ b) /\
                      inputs (b_x _ b) (b_y _ b) (b_weights _ b) filter_regex = Some r) batches results ->
  let es := concat (map (entries string) results) in
  let rows := concat (map (b_rows string) batches) in
  (forall r, In r rows -> plain_row r) -> (forall r, In r rows -> ~ In sentinel (tokens string r)) ->
  forall t s sg, kept string filter_regex t -> t <> sentinel ->
  (exists r, In r rows /\ In t (tokens string r)) -> (exists r, In r rows /\ ~ In t (tokens string r)) ->
  Permutation (batches_of s) (under string String.eqb t es) -> Permutation (batches_of sg) (under string String.eqb sentinel es) ->
  let data := map (InfoSpec.tagged t) (map (labelled_row filter_regex) rows) in
  forall lgamma min_diff p ls, (forall j, InfoSpec.moved (InfoSpec.share j (InfoSpec.having data)) (p j)) -> InfoSpec.lists_counted min_diff p data ls ->
  let information := InfoSpec.total (fun j => InfoSpec.about_label (InfoSpec.size (InfoSpec.having data)) (p j) (InfoSpec.share j data)) ls in
  calculate_mutual_information lgamma false min_diff (real_accumulator (unweighted_statistics s)) (real_accumulator (unweighted_statistics sg))
    = Information information (InfoSpec.size (InfoSpec.having data)) /\
  (InfoSpec.is_lgamma lgamma -> forall arrs, InfoSpec.all_arrangements (length data) (length (InfoSpec.having data)) arrs ->
    calculate_mutual_information lgamma true min_diff (real_accumulator (unweighted_statistics s)) (real_accumulator (unweighted_statistics sg))
    = Information (information - InfoSpec.average (fun bs => InfoSpec.total (fun j => InfoSpec.exact_about j (InfoSpec.rearranged bs data)) ls) arrs)%R
        (InfoSpec.size (InfoSpec.having data))).
Proof. exact unweighted_information. Qed.
Print Assumptions c64_information.

Example c64_information_applies :
  let rows := concat (map (b_rows string) [first_batch; third_batch]) in
  let es := concat (map (entries string) [result_of first_batch; result_of third_batch]) in
  Forall2 (fun b r => is_batch string (b_x _ b) (b_y _ b) (b_weights _ b) (b_rows _ b) /\ inputs (b_x _ b) (b_y _ b) (b_weights _ b) no_b = Some r)
    [first_batch; third_batch] [result_of first_batch; result_of third_batch] /\
  (forall r, In r rows -> plain_row r) /\ (forall r, In r rows -> ~ In sentinel (tokens string r)) /\ kept string no_b "a"%string /\
  (exists r, In r rows /\ In "a"%string (tokens string r)) /\ (exists r, In r rows /\ ~ In "a"%string (tokens string r)) /\
  Permutation (batches_of (in_order "a"%string)) (under string String.eqb "a"%string es) /\
  Permutation (batches_of (in_order sentinel)) (under string String.eqb sentinel es).
Proof.
  cbv zeta. split; [constructor; [split; [exact first_is|vm_compute; reflexivity]|constructor; [split; [exact third_is|vm_compute; reflexivity]|constructor]]|]. split; [|split; [|split; [reflexivity|split; [|split; [|split]]]]].
  - intros r I. cbn in I. repeat destruct I as [<-|I]; try destruct I; (split; [repeat constructor; cbn; intuition discriminate|split; [reflexivity|eexists; split; [reflexivity|discriminate]]]).
  - intros r I It. cbn in I. repeat destruct I as [<-|I]; try destruct I; cbn in It; intuition discriminate.
  - exists (a_row ["c"; "a"]%string [1%Z]). cbn. auto 10.
  - exists (a_row [] [0%Z]). cbn. auto 10.
  - symmetry. apply Permutation_rev.
  - symmetry. apply Permutation_rev.
Qed.

(** Where the documentation is not kept. *)

(** "If x is dense, labels can either be a 1D tensor of row-wise labels, or a dense tensor of the identical shape as x": labels
    of the shape of x are rejected, since they are reshaped to one dimension first. *)
Theorem c64_elementwise_refuted : exists (x : list string) (y : list Z), length x = 2 * 2 /\ length y = 2 * 2 /\
  inputs (Dense string 2 [2] x) (Dense_labels [2; 2] y) None None = None.
Proof. exists ["a"; "b"; "a"; "c"]%string, [0; 1; 0; 1]%Z. vm_compute. auto. Qed.
Print Assumptions c64_elementwise_refuted.

(** Weights "must have the same shape as x": where there are labels and x has two dimensions, such weights are rejected. *)
Theorem c64_weighted_values_refuted : exists (x : list string) (ws : list Q), length x = 2 * 2 /\ length ws = 2 * 2 /\
  inputs (Dense string 2 [2] x) (Dense_labels [2] [0; 1]%Z) (Some ([2; 2], ws)) None = None.
Proof. exists ["a"; "b"; "a"; "c"]%string, [1; 1; 1; 1]%Q. vm_compute. auto. Qed.
Print Assumptions c64_weighted_values_refuted.

(** A sparse feature with as many values as rows, but not one in each row: the same weights are taken as those of the values
    for the tokens and as those of the rows for the sentinel. A token in one of the rows with label 0 then has more weight with
    label 0 than all the rows. *)
Theorem c64_sparse_weights_refuted : exists (x : feature string) (rows : list (list string)) (ws : list Q) r, has_rows string x rows /\
  length rows = length ws /\ Forall (fun ts => NoDup ts) rows /\
  inputs x (Dense_labels [length rows] [0; 1]%Z) (Some ([length rows], ws)) None = Some r /\
  entries string r = [("a"%string, (1, [1; 0], 1%nat)); ("b"%string, (3, [3; 0], 1%nat)); (sentinel, (4, [1; 3], 2%nat))]%Q.
Proof.
  exists (Sparse string 2 [0; 0] ["a"; "b"]%string), [["a"; "b"]; []]%string, [1; 3]%Q. eexists. split; [repeat split|]. split; [reflexivity|].
  split; [repeat constructor; cbn; intuition discriminate|]. split; vm_compute; reflexivity.
Qed.
Print Assumptions c64_sparse_weights_refuted.

(** A negative label is counted for another token: here "b" alone has label -2, and "a", which has label 1 alone, gets label 0. *)
Theorem c64_negative_label_refuted : exists (ts : list string) (y : list Z) r, ts = ["a"; "b"]%string /\ y = [1; -2]%Z /\
  inputs (Dense string 2 [] ts) (Dense_labels [2] y) None None = Some r /\
  nth_error (entries string r) 0 = Some ("a"%string, (1, [1; 1], 1%nat))%Q.
Proof. do 2 eexists. eexists. split; [reflexivity|]. split; [reflexivity|]. split; vm_compute; reflexivity. Qed.
Print Assumptions c64_negative_label_refuted.

(** Whether labels may be missing depends on the other rows of the batch: two rows are accepted in one batch, but the row
    without labels is not accepted in a batch of its own. *)
Theorem c64_missing_labels_refuted : exists (t u : string) (y : Z),
  inputs (Dense string 2 [] [t; u]) (Sparse_labels 1 [[Some y]; [None]]) None None <> None /\
  inputs (Dense string 1 [] [t]) (Sparse_labels 1 [[Some y]]) None None <> None /\
  inputs (Dense string 1 [] [u]) (Sparse_labels 0 [[]]) None None = None.
Proof. exists "a"%string, "b"%string, 0%Z. split; [vm_compute; discriminate|]. split; [vm_compute; discriminate|vm_compute; reflexivity]. Qed.
Print Assumptions c64_missing_labels_refuted.
