(** Proofs of the statements of PcaProps.v. *)
From Coq Require Import List ZArith QArith Qreals Reals Lra Lia Arith Permutation Sorted.
From Verif Require Import CombineModel CombineProofs MeanVarModel MeanVarSpec MeanVarProofs PcaModel PcaSpec.
Import ListNotations.
Local Open Scope R_scope.

(** ** Sums *)

Notation sum l f := (sum_of (map f l)).

Lemma sum_ext {A} (l : list A) f g : (forall a, In a l -> f a = g a) -> sum l f = sum l g.
Proof. intros H. f_equal. now apply map_ext_in. Qed.

Lemma sum_le {A} (l : list A) (f g : A -> R) : (forall a, In a l -> f a <= g a) -> sum l f <= sum l g.
Proof.
  induction l as [|a l IH]; intros H; cbn; [lra|].
  pose proof (H a (or_introl eq_refl)). pose proof (IH (fun b Hb => H b (or_intror Hb))). unfold sum_of in *. lra.
Qed.

Lemma sum_plus {A} (l : list A) f g : sum l (fun a => f a + g a) = sum l f + sum l g.
Proof. induction l as [|a l IH]; cbn; [ring|]. unfold sum_of in IH. rewrite IH. ring. Qed.

Lemma sum_minus {A} (l : list A) f g : sum l (fun a => f a - g a) = sum l f - sum l g.
Proof. induction l as [|a l IH]; cbn; [ring|]. unfold sum_of in IH. rewrite IH. ring. Qed.

Lemma sum_scale {A} (l : list A) c f : sum l (fun a => c * f a) = c * sum l f.
Proof. induction l as [|a l IH]; cbn; [ring|]. unfold sum_of in IH. rewrite IH. ring. Qed.

Lemma sum_scale_r {A} (l : list A) c f : sum l (fun a => f a * c) = sum l f * c.
Proof. induction l as [|a l IH]; cbn; [ring|]. unfold sum_of in IH. rewrite IH. ring. Qed.

Lemma sum_zero {A} (l : list A) : sum l (fun _ => 0) = 0.
Proof. induction l as [|a l IH]; cbn; [ring|]. unfold sum_of in IH. rewrite IH. ring. Qed.

Lemma sum_swap {A B} (l : list A) (m : list B) f :
  sum l (fun a => sum m (fun b => f a b)) = sum m (fun b => sum l (fun a => f a b)).
Proof.
  induction l as [|a l IH].
  - cbn. symmetry. apply sum_zero.
  - change (sum_of (map (fun a => sum m (fun b => f a b)) (a :: l)))
      with (sum m (fun b => f a b) + sum l (fun a => sum m (fun b => f a b))).
    rewrite IH. rewrite <- sum_plus. reflexivity.
Qed.

Lemma sum_mult {A B} (l : list A) (m : list B) f g :
  sum l f * sum m g = sum l (fun a => sum m (fun b => f a * g b)).
Proof.
  rewrite <- sum_scale_r. apply sum_ext. intros a _. symmetry. apply (sum_scale m (f a) g).
Qed.

Lemma sum_app {A} (l m : list A) f : sum (l ++ m) f = sum l f + sum m f.
Proof.
  induction l as [|a l IH].
  - change (sum m f = 0 + sum m f). ring.
  - change (f a + sum (l ++ m) f = f a + sum l f + sum m f). rewrite IH. ring.
Qed.

Lemma sum_perm {A} (l m : list A) f : Permutation l m -> sum l f = sum m f.
Proof.
  induction 1; cbn; try reflexivity; unfold sum_of in *; try lra.
Qed.

Lemma sum_const {A} (l : list A) c : sum l (fun _ => c) = INR (length l) * c.
Proof.
  induction l as [|a l IH]; [cbn; ring|].
  change (sum (a :: l) (fun _ => c)) with (c + sum l (fun _ => c)). rewrite IH.
  cbn [length]. rewrite S_INR. ring.
Qed.

Lemma sum_nonneg {A} (l : list A) f : (forall a, In a l -> 0 <= f a) -> 0 <= sum l f.
Proof. intros H. rewrite <- (sum_zero l). now apply sum_le. Qed.

Lemma sum_delta l f k : NoDup l -> In k l -> sum l (fun m => f m * (if (m =? k)%nat then 1 else 0)) = f k.
Proof.
  intros ND H. induction l as [|a l IH]; [destruct H|].
  inversion ND as [|? ? N ND']; subst.
  change (f a * (if (a =? k)%nat then 1 else 0) + sum l (fun m => f m * (if (m =? k)%nat then 1 else 0)) = f k).
  destruct (Nat.eqb_spec a k) as [E|E].
  - subst. rewrite (sum_ext l _ (fun _ => 0)); [rewrite sum_zero; ring|].
    intros b Hb. destruct (Nat.eqb_spec b k) as [E|E]; [subst; contradiction|ring].
  - destruct H as [H|H]; [congruence|]. rewrite IH by assumption. ring.
Qed.

Lemma in_seq0 i n : In i (seq 0 n) <-> (i < n)%nat.
Proof. rewrite in_seq. lia. Qed.

(** A list by its positions. *)
Lemma sum_nth {A} (l : list A) d f : sum l f = sum_to (length l) (fun a => f (nth a l d)).
Proof.
  unfold sum_to. f_equal. rewrite <- (map_map (fun a => nth a l d) f). f_equal.
  clear. induction l as [|a l IH]; [reflexivity|]. cbn [length seq map nth]. f_equal.
  rewrite <- seq_shift, map_map. exact IH.
Qed.

(** ** Bessel's inequality *)

Section Vectors.
Variable n : nat.
Local Notation "u .[ i ]" := (nth i u 0) (at level 2, left associativity, format "u .[ i ]").
Local Notation I := (seq 0 n).

Lemma dot_sym u v : dot n u v = dot n v u.
Proof. apply sum_ext. intros. ring. Qed.

Lemma bessel us v : orthonormal n us ->
  sum us (fun u => dot n v u * dot n v u) <= dot n v v.
Proof.
  intros H. set (K := seq 0 (length us)). set (w := fun a => nth a us []).
  rewrite (sum_nth us []). unfold sum_to. fold K.
  set (b := fun a => dot n v (w a)). change (sum K (fun a => b a * b a) <= dot n v v).
  set (s := fun i => sum K (fun a => b a * (w a).[i])).
  assert (P : 0 <= sum I (fun i => (v.[i] - s i) * (v.[i] - s i))) by (apply sum_nonneg; intros; apply Rle_0_sqr).
  assert (E : sum I (fun i => (v.[i] - s i) * (v.[i] - s i))
    = dot n v v - 2 * sum I (fun i => v.[i] * s i) + sum I (fun i => s i * s i)).
  { unfold dot, sum_to. rewrite <- sum_scale, <- sum_minus, <- sum_plus. apply sum_ext. intros. ring. }
  assert (E1 : sum I (fun i => v.[i] * s i) = sum K (fun a => b a * b a)).
  { unfold s. rewrite (sum_ext I _ (fun i => sum K (fun a => b a * (v.[i] * (w a).[i])))).
    2:{ intros i _. rewrite <- sum_scale. apply sum_ext. intros. ring. }
    rewrite sum_swap. apply sum_ext. intros a _. rewrite sum_scale. reflexivity. }
  assert (E2 : sum I (fun i => s i * s i) = sum K (fun a => b a * b a)).
  { unfold s. rewrite (sum_ext I _ (fun i => sum K (fun a => sum K (fun c => b a * b c * ((w a).[i] * (w c).[i]))))).
    2:{ intros i _. rewrite sum_mult. apply sum_ext. intros. apply sum_ext. intros. ring. }
    rewrite sum_swap. apply sum_ext. intros a Ha. rewrite sum_swap.
    rewrite (sum_ext K _ (fun c => (b a * b c) * (if (c =? a)%nat then 1 else 0))).
    2:{ intros c Hc. rewrite sum_scale. f_equal. apply in_seq0 in Ha. apply in_seq0 in Hc.
        change (dot n (w a) (w c) = if (c =? a)%nat then 1 else 0).
        unfold w. rewrite H by assumption. rewrite Nat.eqb_sym. reflexivity. }
    apply (sum_delta K (fun c => b a * b c)); [apply seq_NoDup|exact Ha]. }
  lra.
Qed.

(** ** Decompositions *)

Section Decomposition.
Variables (m : list (list R)) (vals : list R) (vecs : list (list R)).
Hypothesis D : decomposition n m vals vecs.

Definition entry (i j : nat) : R := nth j (nth i vecs []) 0.
Local Notation V := entry.
Local Notation M i l := (nth l (nth i m []) 0).
Local Notation lam j := (nth j vals 0).

Lemma column_nth i j : (i < n)%nat -> (column j vecs).[i] = V i j.
Proof.
  intros Hi. destruct D as (_ & (Hl & _) & _). unfold column, entry.
  rewrite (nth_indep (map _ vecs) 0 ((fun row => nth j row 0) [])) by (rewrite map_length; lia).
  apply (map_nth (fun row => nth j row 0)).
Qed.

Lemma columns_nth k (a : nat) (mat : list (list R)) : (a < k)%nat -> nth a (columns k mat) [] = column a mat.
Proof.
  intros H. unfold columns.
  rewrite (nth_indep _ [] (column 0 mat)) by (rewrite map_length, seq_length; lia).
  rewrite (map_nth (fun j => column j mat)), seq_nth by lia. reflexivity.
Qed.

Lemma orthogonal_columns a b : (a < n)%nat -> (b < n)%nat ->
  sum I (fun i => V i a * V i b) = if (a =? b)%nat then 1 else 0.
Proof.
  intros Ha Hb. destruct D as (_ & _ & O & _).
  assert (L : length (columns n vecs) = n) by (unfold columns; now rewrite map_length, seq_length).
  specialize (O a b). rewrite L in O. specialize (O Ha Hb). rewrite !columns_nth in O by assumption.
  rewrite <- O. apply sum_ext. intros i Hi. apply in_seq0 in Hi. now rewrite !column_nth.
Qed.

Lemma orthogonal_rows a b : (a < n)%nat -> (b < n)%nat ->
  sum I (fun j => V a j * V b j) = if (a =? b)%nat then 1 else 0.
Proof.
  intros Ha Hb. destruct D as (_ & (L & _) & _ & O & _).
  specialize (O a b). rewrite L in O. apply (O Ha Hb).
Qed.

Lemma eigen i j : (i < n)%nat -> (j < n)%nat -> sum I (fun l => M i l * V l j) = lam j * V i j.
Proof.
  intros Hi Hj. destruct D as (_ & _ & _ & _ & E). specialize (E i j Hi Hj).
  rewrite column_nth in E by exact Hi. rewrite <- E. apply sum_ext. intros l Hl.
  apply in_seq0 in Hl. now rewrite column_nth.
Qed.

Lemma reconstruct i l : (i < n)%nat -> (l < n)%nat ->
  M i l = sum I (fun j => lam j * V i j * V l j).
Proof.
  intros Hi Hl.
  rewrite <- (sum_delta I (fun q => M i q) l) by (try apply seq_NoDup; now apply in_seq0).
  rewrite (sum_ext I _ (fun q => sum I (fun j => M i q * V q j * V l j))).
  2:{ intros q Hq. apply in_seq0 in Hq. rewrite <- orthogonal_rows by assumption.
      rewrite <- sum_scale. apply sum_ext. intros. ring. }
  rewrite sum_swap. apply sum_ext. intros j Hj. apply in_seq0 in Hj.
  rewrite sum_scale_r, eigen by assumption. ring.
Qed.

(** The coordinates of a vector in the eigenvectors. *)
Definition coordinate (u : list R) (j : nat) : R := sum I (fun i => u.[i] * V i j).
Local Notation c := coordinate.

Lemma coordinate_dot u j : dot n u (column j vecs) = c u j.
Proof. apply sum_ext. intros i Hi. apply in_seq0 in Hi. now rewrite column_nth. Qed.

Lemma form u w : sum I (fun i => sum I (fun l => u.[i] * w.[l] * M i l))
  = sum I (fun j => lam j * (c u j * c w j)).
Proof.
  rewrite (sum_ext I _ (fun i => sum I (fun l => sum I (fun j => lam j * ((u.[i] * V i j) * (w.[l] * V l j)))))).
  2:{ intros i Hi. apply sum_ext. intros l Hl. apply in_seq0 in Hi. apply in_seq0 in Hl.
      rewrite reconstruct by assumption. rewrite <- sum_scale. apply sum_ext. intros. ring. }
  rewrite (sum_ext I _ (fun i => sum I (fun j => sum I (fun l => lam j * ((u.[i] * V i j) * (w.[l] * V l j))))))
    by (intros; apply sum_swap).
  rewrite sum_swap. apply sum_ext. intros j _. unfold c. rewrite sum_mult, <- sum_scale.
  apply sum_ext. intros i _. rewrite sum_scale. reflexivity.
Qed.

Lemma parseval u : sum I (fun j => c u j * c u j) = dot n u u.
Proof.
  unfold c. rewrite (sum_ext I _ (fun j => sum I (fun i => sum I (fun l => u.[i] * u.[l] * (V i j * V l j))))).
  2:{ intros j _. rewrite sum_mult. apply sum_ext. intros. apply sum_ext. intros. ring. }
  rewrite sum_swap. apply sum_ext. intros i Hi. rewrite sum_swap.
  rewrite (sum_ext I _ (fun l => (u.[i] * u.[l]) * (if (l =? i)%nat then 1 else 0))).
  2:{ intros l Hl. apply in_seq0 in Hl. rewrite sum_scale. f_equal.
      rewrite orthogonal_rows by (try assumption; now apply in_seq0). rewrite Nat.eqb_sym. reflexivity. }
  apply (sum_delta I (fun l => u.[i] * u.[l])); [apply seq_NoDup|exact Hi].
Qed.

Lemma coordinate_column q j : (q < n)%nat -> (j < n)%nat ->
  c (column q vecs) j = if (j =? q)%nat then 1 else 0.
Proof.
  intros Hq Hj. unfold c. rewrite (sum_ext I _ (fun i => V i j * V i q)).
  - now apply orthogonal_columns.
  - intros i Hi. apply in_seq0 in Hi. rewrite column_nth by assumption. ring.
Qed.

Lemma form_columns q r : (q < n)%nat -> (r < n)%nat ->
  sum I (fun j => lam j * (c (column q vecs) j * c (column r vecs) j))
  = if (q =? r)%nat then lam q else 0.
Proof.
  intros Hq Hr. rewrite (sum_ext I _ (fun j => (if (q =? r)%nat then lam j else 0) * (if (j =? q)%nat then 1 else 0))).
  - rewrite (sum_delta I (fun j => if (q =? r)%nat then lam j else 0)); [reflexivity|apply seq_NoDup|now apply in_seq0].
  - intros j Hj. apply in_seq0 in Hj. rewrite !coordinate_column by assumption.
    destruct (Nat.eqb_spec j q), (Nat.eqb_spec q r), (Nat.eqb_spec j r); subst; try congruence; ring.
Qed.
End Decomposition.
End Vectors.
