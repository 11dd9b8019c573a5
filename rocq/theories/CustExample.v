(** Analyzers of the examples. *)
From Coq Require Import String List Bool Arith Permutation Lia.
From Verif Require Import CustModel CustSpec.
Import ListNotations.

(** The mean of the numbers of all batches (as that of cached_impl_test.py), of the numbers to the power [p]. *)
Definition sums (xs : list nat) : nat := fold_right Nat.add 0 xs.
Definition mean_make (p : nat) (bs : list (list nat)) : list (nat * nat) :=
  [(sums (map (fun x => x ^ p) (concat bs)), length (concat bs))].
Definition mean_merge (xs : list (nat * nat)) : list (nat * nat) := [(sums (map fst xs), sums (map snd xs))].
Definition mean_extract (xs : list (nat * nat)) : list nat := map (fun x => fst x / snd x) xs.
Definition swap (x : nat * nat) : nat * nat := (snd x, fst x).
Definition mean (p at_ : nat) : cacheable (list nat) (nat * nat) nat (nat * nat) :=
  Cacheable (PTransform "Make" "Make" at_ (mean_make p)) (PTransform "Merge" "Merge" 7 mean_merge)
    (PTransform "Extract" "Extract" 8 mean_extract) (Coder "Swapping" swap swap).

(** One accumulator for each batch, and merging counts the accumulators. *)
Definition counting : cacheable (list nat) (nat * nat) nat (nat * nat) :=
  Cacheable (PTransform "Make" "Make" 6 (map (fun _ => (1, 1)))) (PTransform "Merge" "Merge" 7 (fun xs => [(length xs, 1)]))
    (PTransform "Extract" "Extract" 8 (map fst)) (Coder "Swapping" swap swap).

Definition key := description nat.
Definition key_dec : forall k k' : key, {k = k'} + {k <> k'}.
Proof. repeat decide equality. Defined.
Definition key_eqb (k k' : key) : bool := if key_dec k k' then true else false.
Lemma key_eq : forall k k', key_eqb k k' = true <-> k = k'.
Proof. intros k k'. unfold key_eqb. destruct (key_dec k k'); split; congruence. Qed.

(** Datasets 0 and 1 *)
Definition days (s : nat) (d : nat) : list (list nat) := match d with 0 => [[1; 2]; [6]] | _ => [[10]; [4; 7]] end.
Definition analysis_of c (with_cache : bool) (ds : list nat) : analysis (list nat) (nat * nat) nat (nat * nat) nat nat :=
  Analysis c "PTransform[ptransform#local_merge_accumulators]" 0 true with_cache ds (fun _ => true).

Lemma sums_app : forall xs ys, sums (xs ++ ys) = sums xs + sums ys.
Proof. intros xs ys. unfold sums. induction xs as [|x xs IH]; cbn; lia. Qed.
Lemma sums_perm : forall xs ys, Permutation xs ys -> sums xs = sums ys.
Proof. intros xs ys P. unfold sums. induction P; cbn; lia. Qed.
Lemma concat_perm : forall A (xs ys : list (list A)), Permutation xs ys -> Permutation (concat xs) (concat ys).
Proof.
  intros A xs ys P. induction P; cbn.
  - apply Permutation_refl.
  - now apply Permutation_app_head.
  - rewrite !app_assoc. apply Permutation_app_tail, Permutation_app_comm.
  - now apply Permutation_trans with (concat l').
Qed.
Lemma mean_correct : forall p at_, correct (mean p at_).
Proof.
  intros p at_. split; [|split; [|split; [|split]]]; cbn [mean make_accumulators merge_accumulators cache_coder apply encode decode].
  - intros parts. unfold mean_merge, mean_make. f_equal. cbn [map fst snd].
    induction parts as [|x parts IH]; [reflexivity|]. cbn [concat map].
    rewrite concat_app, map_app, sums_app, app_length. cbn [app map fst snd].
    unfold sums in *. cbn [fold_right] in *. injection IH as I1 I2. f_equal; lia.
  - intros xs. eexists. reflexivity.
  - intros parts. unfold mean_merge. f_equal. induction parts as [|x parts IH]; [reflexivity|].
    cbn [concat map]. rewrite !map_app, !sums_app. cbn [app map fst snd].
    unfold sums in *. cbn [fold_right] in *. injection IH as I1 I2. f_equal; lia.
  - split.
    + intros xs ys P. unfold mean_merge.
      rewrite (sums_perm (map fst xs) (map fst ys)) by now apply Permutation_map.
      now rewrite (sums_perm (map snd xs) (map snd ys)) by now apply Permutation_map.
    + intros xs ys P. unfold mean_make. apply concat_perm in P.
      rewrite (sums_perm (map _ (concat xs)) (map (fun x => x ^ p) (concat ys))) by now apply Permutation_map.
      now rewrite (Permutation_length P).
  - intros [x y]. reflexivity.
Qed.
