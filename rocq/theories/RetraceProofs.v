(** * Proofs about tracing again *)
From Coq Require Import String Ascii List Bool Arith Lia DecimalString Permutation.
From Verif Require Import RetraceModel RetraceSpec PackTraverse.
Import ListNotations.
Local Open Scope list_scope.
Local Notation length := List.length.

Lemma Forall2_in_r {A D} (R : A -> D -> Prop) l r b :
  Forall2 R l r -> In b r -> exists a, In a l /\ R a b.
Proof.
  induction 1 as [|a b' l r RA F IH]; intros I; [destruct I|]. destruct I as [->|I].
  - exists a. split; [now left | exact RA].
  - destruct (IH I) as (a' & J & X). exists a'. split; [now right | exact X].
Qed.

Lemma Forall2_in_l {A D} (R : A -> D -> Prop) l r a :
  Forall2 R l r -> In a l -> exists b, In b r /\ R a b.
Proof.
  induction 1 as [|a' b l r RA F IH]; intros I; [destruct I|]. destruct I as [->|I].
  - exists b. split; [now left | exact RA].
  - destruct (IH I) as (b' & J & X). exists b'. split; [now right | exact X].
Qed.

(** ** Names *)
Lemma lower_append a b : lower (a ++ b) = (lower a ++ lower b)%string.
Proof. induction a as [|c a IH]; cbn; [reflexivity|]. now rewrite IH. Qed.

Lemma lower_uint u : lower (NilEmpty.string_of_uint u) = NilEmpty.string_of_uint u.
Proof. induction u as [|u IH|u IH|u IH|u IH|u IH|u IH|u IH|u IH|u IH|u IH]; cbn; try rewrite IH; reflexivity. Qed.

Lemma lower_decimal n : lower (decimal n) = decimal n.
Proof.
  unfold decimal. generalize (Nat.to_uint n). intros u.
  destruct u; try (exact (lower_uint _)). reflexivity.
Qed.

Lemma lower_suffix name i : lower (with_suffix name i) = with_suffix (lower name) i.
Proof. unfold with_suffix. rewrite lower_append. cbn [append lower]. rewrite lower_decimal. reflexivity. Qed.

Lemma append_inj (p a b : string) : (p ++ a)%string = (p ++ b)%string -> a = b.
Proof. induction p as [|c p IH]; cbn; [auto|]. intros E. injection E as E. auto. Qed.

Lemma suffix_inj name i j : with_suffix name i = with_suffix name j -> i = j.
Proof.
  unfold with_suffix. intros E. apply append_inj in E. apply append_inj in E.
  now apply decimal_inj.
Qed.

Lemma lookup_none {A} k (d : list (string * A)) : lookup k d = None <-> ~ In k (map fst d).
Proof.
  induction d as [|[k' v] d IH]; cbn; [tauto|].
  destruct (String.eqb_spec k k') as [->|NE].
  - split; [discriminate|]. intros H. exfalso. auto.
  - rewrite IH. split; intros H; [intros [E|I]; [congruence | auto] | auto].
Qed.

Lemma free_spec fuel used key i :
  lookup (with_suffix key (free_suffix fuel used key i)) used = None \/
  forall j, j < fuel -> In (with_suffix key (i + j)) (map fst used).
Proof.
  revert i. induction fuel as [|fuel IH]; intros i; [right; lia|]. cbn [free_suffix].
  destruct (lookup (with_suffix key i) used) as [n|] eqn:L; [|left; exact L].
  destruct (IH (S i)) as [H|H]; [now left|]. right. intros [|j] J.
  - rewrite Nat.add_0_r. destruct (in_dec string_dec (with_suffix key i) (map fst used)) as [Y|N]; [exact Y|].
    apply lookup_none in N. congruence.
  - replace (i + S j) with (S i + j) by lia. apply H. lia.
Qed.

Lemma free_is_free used key i :
  lookup (with_suffix key (free_suffix (S (length used)) used key i)) used = None.
Proof.
  destruct (free_spec (S (length used)) used key i) as [H|H]; [exact H|]. exfalso.
  assert (L : length (map (fun j => with_suffix key (i + j)) (seq 0 (S (length used)))) <= length (map fst used)).
  { apply NoDup_incl_length.
    - apply FinFun.Injective_map_NoDup; [|apply seq_NoDup]. intros a b E. apply suffix_inj in E. lia.
    - intros x X. apply in_map_iff in X. destruct X as (j & <- & J). apply in_seq in J. apply H. lia. }
  rewrite !map_length, seq_length in L. lia.
Qed.

Lemma unique_fresh used name n used' : unique_name used name = (n, used') ->
  lookup (lower n) used = None /\ incl (lower n :: map fst used) (map fst used').
Proof.
  unfold unique_name. destruct (lookup (lower name) used) as [m|] eqn:L; intros E; injection E as <- <-.
  - rewrite lower_suffix. set (used1 := (lower name, S m) :: used).
    pose proof (free_is_free used1 (lower name) m) as F. change (S (length used1)) with (S (S (length used))) in F.
    split.
    + apply lookup_none. apply lookup_none in F. intros I. apply F. now right.
    + intros x [<-|X]; [now left|]. right. now right.
  - split; [exact L|]. apply incl_refl.
Qed.

Lemma names_fresh cs : forall used x, In x (call_names used cs) -> lookup (lower x) used = None.
Proof.
  induction cs as [|c cs IH]; intros used x; [intros []|]. cbn [call_names].
  destruct (unique_name used (scope c)) as [n used'] eqn:U. destruct (unique_fresh _ _ _ _ U) as [F INC].
  intros [<-|X]; [exact F|]. specialize (IH used' x X). apply lookup_none in IH. apply lookup_none.
  intros I. apply IH, INC. now right.
Qed.

Lemma names_nodup cs used : NoDup (call_names used cs).
Proof.
  revert used. induction cs as [|c cs IH]; intros used; [constructor|]. cbn [call_names].
  destruct (unique_name used (scope c)) as [n used'] eqn:U. destruct (unique_fresh _ _ _ _ U) as [F INC].
  constructor; [|apply IH]. intros I. apply names_fresh in I. apply lookup_none in I. apply I, INC. now left.
Qed.

Lemma names_length cs used : length (call_names used cs) = length cs.
Proof.
  revert used. induction cs as [|c cs IH]; intros used; [reflexivity|]. cbn [call_names].
  destruct (unique_name used (scope c)) as [n used']. cbn. now rewrite IH.
Qed.

Lemma names_apart cs : forall used, NoDup (map (fun c => lower (scope c)) cs) ->
  (forall c, In c cs -> lookup (lower (scope c)) used = None) -> call_names used cs = map scope cs.
Proof.
  induction cs as [|c cs IH]; intros used ND FR; [reflexivity|]. cbn [call_names map] in *.
  unfold unique_name. rewrite (FR c (or_introl eq_refl)). inversion ND as [|? ? NI ND']; subst.
  f_equal. apply IH; [exact ND'|]. intros c' I. cbn [lookup].
  destruct (String.eqb_spec (lower (scope c')) (lower (scope c))) as [E|NE].
  - exfalso. apply NI. rewrite <- E. now apply (in_map (fun c => lower (scope c))).
  - apply FR. now right.
Qed.

(** ** Dicts *)
Lemma lookup_in {A} k (d : list (string * A)) v : NoDup (map fst d) -> In (k, v) d -> lookup k d = Some v.
Proof.
  induction d as [|[k' v'] d IH]; cbn; intros ND I; [destruct I|]. inversion ND as [|? ? NI ND']; subst.
  destruct I as [E|I].
  - injection E as <- <-. now rewrite String.eqb_refl.
  - destruct (String.eqb_spec k k') as [->|]; [|auto]. exfalso. apply NI. now apply (in_map fst) in I.
Qed.

Lemma combine_keys {A} (ns : list string) (vs : list A) : length ns = length vs -> map fst (combine ns vs) = ns.
Proof. revert vs. induction ns as [|n ns IH]; intros [|v vs] L; cbn in *; try discriminate; [reflexivity|]. f_equal. apply IH. lia. Qed.

Lemma nth_combine {A} (ns : list string) (vs : list A) i n v :
  nth_error ns i = Some n -> nth_error vs i = Some v -> nth_error (combine ns vs) i = Some (n, v).
Proof.
  revert vs i. induction ns as [|n' ns IH]; intros [|v' vs] [|i] A1 A2; cbn in *; try discriminate.
  - congruence.
  - auto.
Qed.

Lemma lookup_dict {A} (ns : list string) (vs : list A) i n v : NoDup ns -> length ns = length vs ->
  nth_error ns i = Some n -> nth_error vs i = Some v -> lookup n (dict_of (combine ns vs)) = Some v.
Proof.
  intros ND L N1 N2. apply lookup_in.
  - unfold dict_of. rewrite map_rev, combine_keys by assumption. now apply NoDup_rev.
  - apply in_rev. unfold dict_of. rewrite rev_involutive. eapply nth_error_In. now apply nth_combine with (i := i).
Qed.

Lemma lookup_dict_inv {A} (ns : list string) (vs : list A) n v :
  lookup n (dict_of (combine ns vs)) = Some v -> exists i, nth_error ns i = Some n /\ nth_error vs i = Some v.
Proof.
  intros L. assert (I : In (n, v) (dict_of (combine ns vs))).
  { clear - L. induction (dict_of (combine ns vs)) as [|[k w] d IH]; cbn in L; [discriminate|].
    destruct (String.eqb_spec n k) as [->|]; [injection L as ->; now left | right; auto]. }
  unfold dict_of in I. apply in_rev in I. clear L. revert vs I.
  induction ns as [|m ns IH]; intros [|w vs] I; cbn in I; try destruct I as [E|I]; try contradiction.
  - injection E as -> ->. exists 0. auto.
  - destruct (IH vs I) as (i & A1 & A2). exists (S i). auto.
Qed.

(** ** Tensors *)
Section TensorInd.
Variable Q : tensor -> Prop.
Hypothesis QI : forall k, Q (Input k).
Hypothesis QA : forall op args, Forall Q args -> Q (Apply op args).
Hypothesis QR : forall i, Q (Result i).
Fixpoint tensor_rec' (t : tensor) : Q t :=
  match t with
  | Input k => QI k
  | Apply op args => QA op args ((fix all l : Forall Q l :=
      match l with [] => Forall_nil _ | x :: l => Forall_cons x (tensor_rec' x) (all l) end) args)
  | Result i => QR i
  end.
End TensorInd.

Lemma keys_spec t key : In key (source_keys t) <-> reads_input key t.
Proof.
  induction t as [k|op args IH|i] using tensor_rec'; cbn [source_keys].
  - split; [intros [->|[]]; constructor|]. intros R. inversion R. now left.
  - rewrite in_flat_map. rewrite Forall_forall in IH. split.
    + intros (t & I & K). apply reads_apply with t; [exact I | now apply IH].
    + intros R. inversion R as [|? ? t I Rt]; subst. exists t. split; [exact I | now apply IH].
  - split; [intros [] | intros R; inversion R].
Qed.

Lemma call_keys_spec c key : In key (call_source_keys c) <-> call_reads key c.
Proof.
  unfold call_source_keys, call_reads. rewrite in_flat_map.
  split; intros (t & I & K); exists t; (split; [exact I | now apply keys_spec]).
Qed.

Lemma subset_spec a b : subset a b = true <-> forall k, In k a -> In k b.
Proof.
  unfold subset. rewrite forallb_forall. split; intros H k I; specialize (H k I).
  - apply existsb_exists in H. destruct H as (k' & I' & E). apply String.eqb_eq in E. now subst.
  - apply existsb_exists. exists k. split; [exact H | apply String.eqb_refl].
Qed.

Lemma same_keys_spec a b : same_keys a b = true <-> forall k, In k a <-> In k b.
Proof.
  unfold same_keys. rewrite andb_true_iff, !subset_spec. split.
  - intros [A B] k. split; auto.
  - intros H. split; intros k; apply H.
Qed.

Lemma same_tensor_reads was t t' key : same_tensor was t t' -> (reads_input key t <-> reads_input key t').
Proof.
  revert t'. induction t as [k|op args IH|i] using tensor_rec'; intros t' S; inversion S as [|? ? args' F|]; subst.
  - tauto.
  - rewrite Forall_forall in IH. split; intros R; inversion R as [|? ? x I Rx]; subst.
    + destruct (Forall2_in_l _ _ _ _ F I) as (x' & I' & S'). apply reads_apply with x'; [exact I'|].
      now apply (IH x I x' S').
    + destruct (Forall2_in_r _ _ _ _ F I) as (x' & I' & S'). apply reads_apply with x'; [exact I'|].
      now apply (IH x' I' x S').
  - split; intros R; inversion R.
Qed.
