(** Proofs about what a batch contributes to a vocabulary ranked by mutual information (C64): flat values. *)
From Coq Require Import List ZArith QArith Bool Arith Lia.
From Verif Require Import FloatModel WeightedModel CooccurModel CooccurSpec.
Import ListNotations.
Local Open Scope nat_scope.

(** ** Lists *)
Lemma map_combine_map {A B C D} (f : A -> B) (g : A -> C) (h : B * C -> D) l : map h (combine (map f l) (map g l)) = map (fun a => h (f a, g a)) l.
Proof. induction l as [|a l IH]; [reflexivity|]. cbn. now rewrite IH. Qed.
Lemma combine_map_map {A B C} (f : A -> B) (g : A -> C) l : combine (map f l) (map g l) = map (fun a => (f a, g a)) l.
Proof. induction l as [|a l IH]; [reflexivity|]. cbn. now rewrite IH. Qed.
Lemma filter_map' {A B} (f : A -> B) p l : filter p (map f l) = map f (filter (fun a => p (f a)) l).
Proof. induction l as [|a l IH]; [reflexivity|]. cbn. destruct (p (f a)); cbn; now rewrite IH. Qed.
Lemma filter_filter' {A} (p q : A -> bool) l : filter p (filter q l) = filter (fun a => q a && p a) l.
Proof. induction l as [|a l IH]; [reflexivity|]. cbn. destruct (q a); cbn; [destruct (p a)|]; now rewrite IH. Qed.
Lemma filter_same {A} (p q : A -> bool) l : (forall a, In a l -> p a = q a) -> filter p l = filter q l.
Proof.
  induction l as [|a l IH]; intros H; [reflexivity|]. cbn. rewrite (H a) by (cbn; auto). rewrite IH by (intros; apply H; cbn; auto). reflexivity.
Qed.
Lemma mask_map {A B} (f : A -> B) (p : A -> bool) l : boolean_mask (map f l) (map p l) = map f (filter p l).
Proof.
  unfold boolean_mask. rewrite combine_map_map, filter_map', map_map. cbn [fst snd]. reflexivity.
Qed.
Lemma map_nth_seq {A B} (g : A -> B) (u : list A) d : map (fun i => g (nth i u d)) (seq 0 (length u)) = map g u.
Proof.
  induction u as [|a u IH]; [reflexivity|]. cbn [length seq map nth]. f_equal. rewrite <- seq_shift, map_map. exact IH.
Qed.
Lemma firstn_map_seq {A} (f : nat -> A) m n a : m <= n -> firstn m (map f (seq a n)) = map f (seq a m).
Proof.
  intros L. rewrite firstn_map. f_equal. revert n a L. induction m as [|m IH]; intros n a L; [reflexivity|]. destruct n; [lia|]. cbn. f_equal. apply IH. lia.
Qed.
Lemma skipn_map_seq {A} (f : nat -> A) m n a : skipn m (map f (seq a (m + n))) = map f (seq (a + m) n).
Proof.
  rewrite skipn_map. f_equal. revert a. induction m as [|m IH]; intros a; cbn [skipn plus]; [now rewrite Nat.add_0_r|]. cbn [seq]. rewrite IH. f_equal. lia.
Qed.
Lemma in_rows_map {A} (f : nat -> A) m : forall n a, in_rows n m (map f (seq a (n * m))) = map (fun i => map (fun j => f (a + i * m + j)) (seq 0 m)) (seq 0 n).
Proof.
  induction n as [|n IH]; intros a; [reflexivity|]. cbn [in_rows]. rewrite firstn_map_seq by (cbn; lia). cbn [Nat.mul]. rewrite skipn_map_seq, IH.
  cbn [seq map]. f_equal.
  - replace (seq a m) with (map (fun j => a + j) (seq 0 m)).
    + rewrite map_map. apply map_ext. intros j. f_equal. lia.
    + clear. revert a. induction m as [|m IH]; intros a; [reflexivity|]. cbn [seq map]. f_equal; [lia|]. rewrite <- seq_shift, map_map, <- (IH (S a)).
      apply map_ext. intros. lia.
  - rewrite <- seq_shift, map_map. apply map_ext. intros i. apply map_ext. intros j. f_equal. lia.
Qed.

Section Flat.
Variable token : Type.
Variable token_eqb : token -> token -> bool.
Hypothesis token_spec : forall a b, reflect (a = b) (token_eqb a b).

Local Notation unique := (unique token token_eqb).
Local Notation position := (position token token_eqb).

Lemma eqb_refl t : token_eqb t t = true.
Proof. destruct (token_spec t t); congruence. Qed.
Lemma existsb_in t u : existsb (token_eqb t) u = true <-> In t u.
Proof.
  rewrite existsb_exists. split.
  - intros (v & I & E). destruct (token_spec t v); [now subst|discriminate].
  - intros I. exists t. split; [exact I|apply eqb_refl].
Qed.

Lemma unique_from x : forall u, NoDup u ->
  let r := fold_left (fun u t => if existsb (token_eqb t) u then u else u ++ [t]) x u in
  NoDup r /\ forall t, In t r <-> In t u \/ In t x.
Proof.
  induction x as [|a x IH]; intros u N; cbn [fold_left]; cbv zeta; [split; [exact N|]; intros t; cbn; tauto|].
  destruct (existsb (token_eqb a) u) eqn:E.
  - destruct (IH u N) as [N' I']. split; [exact N'|]. intros t. rewrite I'. apply existsb_in in E. cbn. split; [tauto|]. intros [H|[<-|H]]; auto.
  - assert (Na : ~ In a u) by (rewrite <- existsb_in; congruence).
    destruct (IH (u ++ [a])) as [N' I'].
    + apply (NoDup_Add (a := a) (l := u)); [|tauto]. rewrite <- (app_nil_r u) at 1. apply Add_app.
    + split; [exact N'|]. intros t. rewrite I', in_app_iff. cbn. tauto.
Qed.
Lemma unique_right x : NoDup (unique x) /\ forall t, In t (unique x) <-> In t x.
Proof.
  destruct (unique_from x [] (NoDup_nil _)) as [N I]. split; [exact N|]. intros t. unfold CooccurModel.unique. rewrite I. cbn. tauto.
Qed.
Lemma position_nth d : forall u t, In t u -> position t u < length u /\ nth (position t u) u d = t.
Proof.
  induction u as [|v u IH]; intros t I; [destruct I|]. cbn [CooccurModel.position]. destruct (token_spec t v) as [->|Ne]; [cbn; split; [lia|reflexivity]|].
  destruct I as [->|I]; [congruence|]. destruct (IH t I) as [L E]. cbn [length nth]. split; [lia|exact E].
Qed.
Lemma position_of d u t i : NoDup u -> In t u -> i < length u -> (position t u =? i) = token_eqb (nth i u d) t.
Proof.
  intros N I L. destruct (position_nth d u t I) as [L' E]. destruct (Nat.eqb_spec (position t u) i) as [<-|Ne].
  - rewrite E. symmetry. apply eqb_refl.
  - destruct (token_spec (nth i u d) t) as [E'|]; [|reflexivity]. exfalso. apply Ne. apply (proj1 (NoDup_nth u d) N); [exact L'|exact L|]. now rewrite E, E'.
Qed.

(** ** Cells: a token, a label (or -1) and a weight *)
Definition cell : Type := token * Z * Q.
Definition ctoken (c : cell) := fst (fst c).
Definition clabel (c : cell) := snd (fst c).
Definition cweight (c : cell) := snd c.

(** What [compute_weighted_counts] computes, once the tensors are flat. *)
Definition counted (x : list token) (y : list Z) (weights : list Q) (max_y_value : Z) : option (reduced token) :=
  let flattened_index :=
    map (fun p => if (snd p =? missing_mask_value)%Z then missing_mask_value
                  else ((max_y_value + 1) * Z.of_nat (fst p) + snd p)%Z) (combine (unique_idx token token_eqb x) y) in
  match segment_sum weights (map Z.of_nat (unique_idx token token_eqb x)) (Z.of_nat (length (unique x))),
        compute_summed_positive weights flattened_index (length (unique x)) max_y_value with
  | Some summed_weights, Some summed_positive => Some (Reduced token (unique x) summed_weights summed_positive (unique_count token token_eqb x))
  | _, _ => None
  end.

Theorem counted_right (cells : list cell) (m : nat) : Forall (fun c => (-1 <= clabel c <= Z.of_nat m)%Z) cells ->
  let u := unique (map ctoken cells) in
  counted (map ctoken cells) (map clabel cells) (map cweight cells) (Z.of_nat m) =
  Some (Reduced token u
    (map (fun t => sumq (map cweight (filter (fun c => token_eqb t (ctoken c)) cells))) u)
    (map (fun t => map (fun j => sumq (map cweight (filter (fun c => token_eqb t (ctoken c) && (clabel c =? Z.of_nat j)%Z) cells))) (seq 0 (S m))) u)
    (map (fun t => length (filter (token_eqb t) (map ctoken cells))) u)).
Proof.
  intros B u. destruct (unique_right (map ctoken cells)) as [N I]. fold u in N, I.
  assert (Cin : forall c, In c cells -> In (ctoken c) u) by (intros c H; apply I; now apply in_map).
  assert (D : cells = [] \/ exists d : token, True) by (destruct cells as [|c0 ?]; [now left|right; now exists (ctoken c0)]).
  destruct D as [->|[d _]].
  { unfold u. clear. unfold counted, compute_summed_positive. cbn. replace (Z.of_nat m + 1 <? 0)%Z with false by (symmetry; apply Z.ltb_ge; lia).
    unfold segment_sum. cbn. reflexivity. }
  unfold counted. fold u. unfold unique_idx. fold u. rewrite !map_map.
  replace (combine (map (fun x : cell => position (ctoken x) u) cells) (map clabel cells)) with (map (fun c : cell => (position (ctoken c) u, clabel c)) cells)
    by (symmetry; apply combine_map_map).
  rewrite map_map. cbn [fst snd].
  assert (W : segment_sum (map cweight cells) (map (fun x : cell => Z.of_nat (position (ctoken x) u)) cells) (Z.of_nat (length u))
    = Some (map (fun t => sumq (map cweight (filter (fun c => token_eqb t (ctoken c)) cells))) u)).
  { unfold segment_sum. replace (forallb _ _) with true.
    - f_equal. rewrite Nat2Z.id. rewrite <- (map_nth_seq _ u d). apply map_ext_in. intros i Hi. apply in_seq in Hi.
      rewrite combine_map_map, filter_map', map_map. cbn [fst snd]. f_equal. f_equal. apply filter_same. intros c Hc.
      rewrite <- (position_of d u (ctoken c) i) by (auto; lia). destruct (Nat.eqb_spec (position (ctoken c) u) i) as [E|E]; [apply Z.eqb_eq; lia|apply Z.eqb_neq; lia].
    - symmetry. apply forallb_forall. intros z Hz. apply in_map_iff in Hz as (c & <- & Hc). apply Z.ltb_lt. destruct (position_nth d u (ctoken c) (Cin c Hc)). lia. }
  rewrite W. unfold compute_summed_positive. replace (Z.of_nat m + 1 <? 0)%Z with false by (symmetry; apply Z.ltb_ge; lia).
  set (M := Z.of_nat m) in *.
  set (ix := fun c : cell => (if clabel c =? missing_mask_value then missing_mask_value else (M + 1) * Z.of_nat (position (ctoken c) u) + clabel c)%Z).
  assert (P : segment_sum (map cweight cells) (map ix cells) (Z.of_nat (length u) * (M + 1)) =
    Some (map (fun s => sumq (map cweight (filter (fun c => (ix c =? Z.of_nat s)%Z) cells))) (seq 0 (length u * S m)))).
  { unfold segment_sum. replace (forallb _ _) with true.
    - f_equal. replace (Z.to_nat (Z.of_nat (length u) * (M + 1))) with (length u * S m) by (unfold M; lia).
      apply map_ext. intros s. now rewrite combine_map_map, filter_map', map_map.
    - symmetry. apply forallb_forall. intros z Hz. apply in_map_iff in Hz as (c & <- & Hc). apply Z.ltb_lt. unfold ix.
      destruct (position_nth d u (ctoken c) (Cin c Hc)) as [L _]. rewrite Forall_forall in B. specialize (B c Hc). cbv beta in B.
      destruct (clabel c =? missing_mask_value)%Z; [unfold missing_mask_value, M; lia|]. unfold M in *. nia. }
  fold (ix). rewrite P. replace (Z.to_nat (M + 1)) with (S m) by (unfold M; lia). rewrite in_rows_map. f_equal. f_equal.
  rewrite <- (map_nth_seq _ u d). apply map_ext_in. intros i Hi. apply in_seq in Hi. apply map_ext_in. intros j Hj. apply in_seq in Hj. f_equal. f_equal.
  apply filter_same. intros c Hc. rewrite <- (position_of d u (ctoken c) i) by (auto; lia). unfold ix.
  rewrite Forall_forall in B. specialize (B c Hc). cbv beta in B. unfold missing_mask_value.
  destruct (Z.eqb_spec (clabel c) (-1)) as [E|E].
  - rewrite E. replace (-1 =? Z.of_nat j)%Z with false by (symmetry; apply Z.eqb_neq; lia). rewrite andb_false_r. apply Z.eqb_neq. lia.
  - destruct (Nat.eqb_spec (position (ctoken c) u) i) as [Ep|Ep]; cbn [andb].
    + rewrite Ep. unfold M in *. destruct (Z.eqb_spec (clabel c) (Z.of_nat j)); [apply Z.eqb_eq|apply Z.eqb_neq]; lia.
    + apply Z.eqb_neq. unfold M in *. nia.
Qed.
End Flat.
