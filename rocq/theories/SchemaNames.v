(** * Proofs about schemas, 5: names without a dollar give distinct columns *)
From Coq Require Import String Ascii List ZArith Bool Arith Lia DecimalString Permutation.
From Verif Require Import SchemaModel SchemaSpec SchemaProofs SchemaCommon SchemaInfer.
From Verif Require PackTraverse.
Import ListNotations.
Local Open Scope list_scope.

Local Notation length := List.length.

(** The text before the first dollar. *)
Fixpoint before_dollar (s : string) : string :=
  match s with
  | EmptyString => EmptyString
  | String c s' => if Ascii.eqb c "$" then EmptyString else String c (before_dollar s')
  end.
Lemma before_dollar_plain n : ~ In "$"%char (list_ascii_of_string n) -> before_dollar n = n.
Proof. induction n as [|c n IH]; [reflexivity|]. cbn. intros N. destruct (Ascii.eqb_spec c "$") as [->|]; [exfalso; auto|]. rewrite IH; auto. Qed.
Lemma before_dollar_column n s : ~ In "$"%char (list_ascii_of_string n) -> before_dollar (n ++ "$" ++ s) = n.
Proof. change ("$" ++ s)%string with (String "$" s). induction n as [|c n IH]; [reflexivity|]. cbn. intros N. destruct (Ascii.eqb_spec c "$") as [->|]; [exfalso; auto|]. rewrite IH; auto. Qed.
Lemma append_cancel (p a b : string) : (p ++ a)%string = (p ++ b)%string -> a = b.
Proof. induction p; cbn; [auto | intros [= E]; auto]. Qed.

Lemma NoDup_app_intro {A} (a b : list A) : NoDup a -> NoDup b -> (forall x, In x a -> In x b -> False) -> NoDup (a ++ b).
Proof.
  induction a as [|x a IH]; intros NA NB D; [exact NB|]. inversion NA; subst. cbn. constructor.
  - rewrite in_app_iff. intros [I|I]; [contradiction|]. exact (D x (or_introl eq_refl) I).
  - apply IH; auto. intros y I J. exact (D y (or_intror I) J).
Qed.
Lemma NoDup_map_inj {A B} (f : A -> B) l : (forall a b, In a l -> In b l -> f a = f b -> a = b) -> NoDup l -> NoDup (map f l).
Proof.
  induction l as [|a l IH]; intros H ND; [constructor|]. inversion ND; subst. cbn. constructor.
  - intros I. apply in_map_iff in I as (b & E & I). rewrite (H b a (or_intror I) (or_introl eq_refl) E) in I. contradiction.
  - apply IH; [|assumption]. intros b c I J. apply H; right; assumption.
Qed.
Lemma index_column_inj n i j : index_column n i = index_column n j -> i = j.
Proof. unfold index_column. intros E. apply append_cancel, append_cancel in E. exact (PackTraverse.decimal_inj i j E). Qed.
Lemma length_column_inj n i j : length_column n i = length_column n j -> i = j.
Proof. unfold length_column. intros E. apply append_cancel, append_cancel in E. exact (PackTraverse.decimal_inj i j E). Qed.

Lemma length_keys_ge name dims : forall k, Forall (fun s => exists i, s = length_column name i /\ k <= i) (row_length_keys (ragged_partitions name k dims)) /\
  NoDup (row_length_keys (ragged_partitions name k dims)).
Proof.
  induction dims as [|[n|] dims IH]; intros k.
  - split; constructor.
  - exact (IH k).
  - change (row_length_keys (ragged_partitions name k (None :: dims))) with (length_column name k :: row_length_keys (ragged_partitions name (S k) dims)).
    destruct (IH (S k)) as [F N]. split.
    + constructor; [exists k; split; [reflexivity|lia]|]. eapply Forall_impl; [|exact F]. intros s (i & -> & L). exists i. split; [reflexivity|lia].
    + constructor; [|exact N]. intros I. rewrite Forall_forall in F. destruct (F _ I) as (i & E & L). apply length_column_inj in E. lia.
Qed.

Section Names.
Context (domain : output -> option int_domain) (annotations : output -> list any)
        (is_said_sparse : output -> bool) (given_shape : output -> option (list Z)).
Notation taken' := (taken domain annotations is_said_sparse given_shape).
Notation describe' := (describe domain annotations is_said_sparse given_shape).

Lemma columns_distinct n o : NoDup (map f_name (columns (describe' n o))) /\
  Forall (fun c => c = n \/ exists s, c = (n ++ "$" ++ s)%string) (map f_name (columns (describe' n o))).
Proof.
  assert (ONE : forall t b sh dom l, NoDup (map f_name [Feature n t b sh dom l]) /\ Forall (fun c => c = n \/ exists s, c = (n ++ "$" ++ s)%string) (map f_name [Feature n t b sh dom l])).
  { intros. split; [repeat constructor; intros []|]. repeat constructor. }
  assert (NONE : NoDup (map f_name (@nil feature)) /\ Forall (fun c => c = n \/ exists s, c = (n ++ "$" ++ s)%string) (map f_name (@nil feature))) by (split; constructor).
  destruct o as [t d [[|b dims]|]|i v d [shape|]|f d [shape|]]; cbn [describe columns]; try exact NONE.
  - apply ONE.
  - destruct ((2 <? length shape) || _); [|apply ONE]. cbn [columns]. rewrite map_app, map_map. cbn [map f_name].
    split.
    + eapply Permutation_NoDup; [apply Permutation_cons_append|]. constructor.
      * intros J. apply in_map_iff in J as (k & E & _). unfold index_column, value_column in E. apply append_cancel in E. discriminate.
      * apply NoDup_map_inj; [intros a b _ _; apply index_column_inj|apply seq_NoDup].
    + apply Forall_app. split.
      * apply Forall_forall. intros c J. apply in_map_iff in J as (k & <- & _). right. exists ("sparse_indices_" ++ number k)%string. reflexivity.
      * constructor; [|constructor]. right. exists "sparse_values"%string. reflexivity.
  - cbn [map f_name].
    assert (E : map f_name (flat_map (fun p => match p with Row_lengths k => [Feature k INT false None None []] | Uniform_row_length _ => [] end) (row_partitions n (tl shape)))
                = row_length_keys (ragged_partitions n 1 (tl shape))).
    { rewrite (ragged_partitions_eq n (tl shape) 1). fold (row_partitions n (tl shape)). unfold row_length_keys. induction (row_partitions n (tl shape)) as [|[m|k] l IH]; [reflexivity|exact IH|].
      cbn [flat_map app map f_name]. rewrite IH. reflexivity. }
    rewrite E. destruct (length_keys_ge n (tl shape) 1) as [F N]. split.
    + constructor; [|exact N]. intros J. rewrite Forall_forall in F. destruct (F _ J) as (k & Q & _). unfold ragged_column, length_column in Q. apply append_cancel in Q. discriminate.
    + constructor; [right; exists "ragged_values"%string; reflexivity|]. eapply Forall_impl; [|exact F]. intros c (k & -> & _). right. exists ("row_lengths_" ++ number k)%string. reflexivity.
Qed.

Lemma taken_distinct no : NoDup (taken' no) /\ Forall (fun c => c = fst no \/ exists s, c = (fst no ++ "$" ++ s)%string) (taken' no).
Proof.
  destruct no as [n o]. unfold taken. cbn [fst snd]. destruct (columns_distinct n o) as [N F]. split.
  - constructor; [|apply NoDup_filter, N]. intros I. apply filter_In in I as [_ Q]. rewrite String.eqb_refl in Q. discriminate.
  - constructor; [left; reflexivity|]. apply Forall_forall. intros c I. apply filter_In in I as [I _]. rewrite Forall_forall in F. auto.
Qed.

Theorem ordinary_names outputs : NoDup (map fst outputs) -> Forall (fun n => ~ In "$"%char (list_ascii_of_string n)) (map fst outputs) ->
  NoDup (flat_map taken' outputs).
Proof.
  induction outputs as [|no outputs IH]; [constructor|]. cbn [map flat_map]. intros N F. inversion N as [|? ? N1 N2]; subst. inversion F as [|? ? F1 F2]; subst.
  destruct (taken_distinct no) as [TN TF]. apply NoDup_app_intro; [exact TN|exact (IH N2 F2)|]. intros c I J. apply in_flat_map in J as (no' & K & J).
  assert (B : forall m, ~ In "$"%char (list_ascii_of_string (fst m)) -> In c (taken' m) -> before_dollar c = fst m).
  { intros m M L. destruct (taken_distinct m) as [_ TF']. rewrite Forall_forall in TF'. destruct (TF' _ L) as [->|(s & ->)]; [apply before_dollar_plain, M|apply before_dollar_column, M]. }
  rewrite Forall_forall in F2. apply N1. rewrite <- (B no F1 I), (B no' (F2 _ (in_map fst _ _ K)) J). apply (in_map fst _ _ K).
Qed.
End Names.
