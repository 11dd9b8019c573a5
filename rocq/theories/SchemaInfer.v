(** * Proofs about schemas, 3: the common part of inference *)
From Coq Require Import String Ascii List ZArith Bool Arith Lia DecimalString Permutation Sorted.
From Verif Require Import SortModel SortProofs SchemaModel SchemaSpec SchemaProofs SchemaCommon.
Import ListNotations.
Local Open Scope list_scope.

Local Notation length := List.length.

Lemma combine_seq {A B} (f : nat -> A) (d : B) l : forall s, combine (map f (seq s (length l))) l = map (fun i => (f i, nth (i - s) l d)) (seq s (length l)).
Proof.
  induction l as [|b l IH]; intros s; [reflexivity|]. cbn [length seq map combine]. rewrite Nat.sub_diag. cbn [nth]. f_equal.
  rewrite IH. apply map_ext_in. intros i I. apply in_seq in I. f_equal. replace (i - s) with (S (i - S s)) by lia. reflexivity.
Qed.
Lemma existsb_key {V} (d : dict V) k : existsb (String.eqb k) (map fst d) = match dict_get d k with Some _ => true | None => false end.
Proof.
  induction d as [|[a v] d IH]; [reflexivity|]. cbn [map existsb fst]. rewrite dict_get_cons, IH, (String.eqb_sym k). destruct (String.eqb a k); reflexivity.
Qed.
Lemma domains_of_get outputs tr n : In n (map fst outputs) ->
  dict_get (domains_of outputs tr) n = option_map (fun r => IntDomain (fst r) (snd r) true) (dict_get tr n).
Proof.
  induction outputs as [|[m o] outputs IH]; [intros []|]. cbn [map fst domains_of]. intros I.
  destruct (in_dec string_dec n (map fst outputs)) as [J|N].
  - specialize (IH J). destruct (dict_get tr m) as [[lo hi]|] eqn:G; [|exact IH]. rewrite dict_get_cons.
    destruct (String.eqb_spec m n) as [->|]; [rewrite G; reflexivity|exact IH].
  - destruct I as [->|I]; [|contradiction]. destruct (dict_get tr n) as [[lo hi]|] eqn:G.
    + rewrite dict_get_cons, String.eqb_refl. reflexivity.
    + apply dict_get_None. cbn. intros I. apply N. clear - I. induction outputs as [|[k p] outputs IH]; [exact I|]. cbn [domains_of] in I. cbn [map fst In].
      destruct (dict_get tr k) as [[lo hi]|]; [|auto]. destruct I as [E|I]; [left; exact E|auto].
Qed.
Lemma Permutation_NoDup_flat_map {A B} (f : A -> list B) l l' : Permutation l l' -> NoDup (flat_map f l') -> NoDup (flat_map f l).
Proof. intros P. apply Permutation_NoDup. apply Permutation_flat_map. symmetry; exact P. Qed.
Lemma forallb_Permutation {A} (f : A -> bool) l l' : Permutation l l' -> forallb f l = forallb f l'.
Proof.
  intros P. apply eq_true_iff_eq. rewrite !forallb_forall. split; intros H x I; apply H.
  - eapply Permutation_in; [symmetry; exact P|exact I].
  - eapply Permutation_in; [exact P|exact I].
Qed.
Lemma NoDup_flat_map_unique {A B} (f : A -> list B) l a b c :
  NoDup (flat_map f l) -> In a l -> In b l -> In c (f a) -> In c (f b) -> a = b.
Proof.
  induction l as [|x l IH]; [intros _ []|]. cbn [flat_map]. intros ND. apply NoDup_app_parts in ND as (_ & ND & DJ).
  intros [->|I] [->|J] Ca Cb; [reflexivity| | |exact (IH ND I J Ca Cb)].
  - exfalso; apply (DJ c Ca). apply in_flat_map; eauto.
  - exfalso; apply (DJ c Cb). apply in_flat_map; eauto.
Qed.
Lemma NoDup_flat_map_each {A B} (f : A -> list B) l a : NoDup (flat_map f l) -> In a l -> NoDup (f a).
Proof.
  induction l as [|x l IH]; [intros _ []|]. cbn [flat_map]. intros ND. apply NoDup_app_parts in ND as (NA & ND & _). intros [->|I]; auto.
Qed.
(** Each element keeps only some of what it takes. *)
Lemma NoDup_flat_map_sub {A B} (f g : A -> list B) l : NoDup (flat_map f l) ->
  (forall a, In a l -> NoDup (g a)) -> (forall a b, In a l -> In b (g a) -> In b (f a)) -> NoDup (flat_map g l).
Proof.
  induction l as [|x l IH]; [intros; constructor|]. cbn [flat_map]. intros ND G S. apply NoDup_app_parts in ND as (NA & ND & DJ).
  assert (R : NoDup (flat_map g l)) by (apply IH; [exact ND|intros a I; apply G; right; exact I|intros a b I; apply S; right; exact I]).
  assert (D : forall c, In c (g x) -> ~ In c (flat_map g l)).
  { intros c I J. apply in_flat_map in J as (a & Ia & Ja). apply (DJ c); [apply (S x); [left; reflexivity|exact I]|].
    apply in_flat_map. exists a; split; [exact Ia|apply S; [right; exact Ia|exact Ja]]. }
  specialize (G x (or_introl eq_refl)). clear - G R D. induction (g x) as [|c cs IHc]; [exact R|]. inversion G; subst. cbn. constructor.
  - rewrite in_app_iff. intros [I|I]; [contradiction|]. exact (D c (or_introl eq_refl) I).
  - apply IHc; [assumption|]. intros b I; apply D; right; exact I.
Qed.

Section Infer.
Context (domain : output -> option int_domain) (annotations : output -> list any)
        (is_said_sparse : output -> bool) (given_shape : output -> option (list Z)).
Notation describe' := (describe domain annotations is_said_sparse given_shape).
Notation bare := (describe domain (fun _ => []) is_said_sparse given_shape).
Notation taken' := (taken domain annotations is_said_sparse given_shape).
Notation value_name' := (value_name is_said_sparse).
Context (complete : bool) (outputs : dict output) (tensor_ranges : dict (option Z * option Z)) (fa : dict (list any)) (ga : list any)
        (soa : dict sparse_annotation).
Hypothesis names : NoDup (flat_map taken' outputs).
Hypothesis ranges_right : forall n o, In (n, o) outputs ->
  option_map (fun r => IntDomain (fst r) (snd r) true) (dict_get tensor_ranges n) = domain o.
Hypothesis fa_keys : NoDup (map fst fa).
Hypothesis fa_outputs : forall n, In n (map fst fa) -> In n (map fst outputs).
Hypothesis fa_right : forall n o, In (n, o) outputs -> match dict_get fa n with Some l => l | None => [] end = annotations o.
Hypothesis soa_keys : NoDup (map fst soa).
Hypothesis soa_outputs : forall n, In n (map fst soa) -> In n (map fst outputs).
Hypothesis soa_right : forall n i v d shape, let o := Sparse i v d shape in In (n, o) outputs ->
  match dict_get soa n with
  | None => is_said_sparse o = false /\ given_shape o = None
  | Some Annotated_sparse => is_said_sparse o = true /\ given_shape o = None
  | Some (Annotated_shape s) => is_said_sparse o = true /\ given_shape o = Some s
  end.

Notation first_spec no := (feature_spec_from_batched_tensor complete (map fst soa) (fst no) (snd no)).
Definition spec0 (no : string * output) : spec := match first_spec no with Returned s => s | Raised => VarLenFeature Other_type end.
Definition final (no : string * output) : string * spec := (fst no, apply_annotation (dict_get soa (fst no)) (spec0 no)).
Notation domains := (domains_of outputs tensor_ranges).

Lemma output_names_NoDup : NoDup (map fst outputs).
Proof.
  assert (E : map fst outputs = flat_map (fun no => [fst no]) outputs) by (clear; induction outputs as [|a l IH]; [reflexivity|cbn; f_equal; exact IH]).
  rewrite E. eapply NoDup_flat_map_sub; [exact names|intros; repeat constructor; intros []|]. intros a b _ [<-|[]]. left; reflexivity.
Qed.
Lemma forced (no : string * output) : existsb (String.eqb (fst no)) (map fst soa) = match dict_get soa (fst no) with Some _ => true | None => false end.
Proof. apply existsb_key. Qed.
Lemma said_forced n i v d shape : In (n, Sparse i v d shape) outputs ->
  match dict_get soa n with Some _ => true | None => false end = is_said_sparse (Sparse i v d shape).
Proof. intros I. pose proof (soa_right n i v d shape I) as H. cbv zeta in H. destruct (dict_get soa n) as [[s|]|]; destruct H as [-> _]; reflexivity. Qed.
Lemma domain_right n o : In (n, o) outputs -> dict_get domains n = domain o.
Proof. intros I. rewrite domains_of_get by (apply (in_map fst _ _ I)). apply ranges_right, I. Qed.
Lemma ftype_type_of d : ftype d = type_of d. Proof. reflexivity. Qed.

(** *** Each output *)
Lemma existsb_unknown dims : existsb (fun dim : option nat => match dim with None => true | Some _ => false end) dims = true <-> In None dims.
Proof. rewrite existsb_exists. split; [intros ([|] & I & E); [discriminate|exact I]|intros I; exists None; auto]. Qed.
Lemma not_other d (P : dtype -> Prop) : d <> Other_type -> (d <> Other_type -> P d) -> P d. Proof. auto. Qed.
Lemma match_dtype {A} d (x : result A) (f : dtype -> result A) : d <> Other_type ->
  (match d with Other_type => x | d' => f d' end) = f d.
Proof. destruct d; congruence. Qed.

Definition sizes_ok (no : string * output) : bool :=
  match dict_get soa (fst no), spec0 no with
  | Some (Annotated_shape s), SparseFeature _ _ _ _ _ => negb (existsb (fun s => (s <? 0)%Z) s)
  | _, _ => true
  end.

Lemma each_described no : In no outputs -> describable is_said_sparse given_shape complete (snd no) ->
  first_spec no = Returned (spec0 no) /\ sizes_ok no = true /\ ok_spec (final no) = true /\
  spec_columns domains (final no) = columns (bare (fst no) (snd no)) /\
  spec_sparse (final no) = sparse (bare (fst no) (snd no)) /\ spec_ragged (final no) = ragged (bare (fst no) (snd no)).
Proof.
  destruct no as [name o]. cbn [fst snd]. intros I [D H]. assert (DM := domain_right _ _ I).
  assert (OK : negb (dtype_eqb (dtype_of o) Other_type) = true) by (destruct (dtype_of o); cbn; congruence).
  destruct o as [t d shape|i v d shape|f d shape]; cbn [dtype_of] in D, OK.
  - destruct H as (b & dims & -> & K).
    assert (E : feature_spec_from_batched_tensor complete (map fst soa) name (Dense t d (Some (b :: dims))) = Returned (FixedLenFeature dims d)).
    { unfold feature_spec_from_batched_tensor. cbn [output_dtype].
      assert (C : complete && existsb (fun dim : option nat => match dim with None => true | Some _ => false end) dims = false).
      { destruct complete; [|reflexivity]. cbn [andb]. apply not_true_iff_false. rewrite existsb_unknown. auto. }
      rewrite C. destruct d; congruence. }
    unfold final, spec0, sizes_ok, spec0. cbn [fst snd]. rewrite E. split; [reflexivity|].
    split; [destruct (dict_get soa name) as [[s|]|]; reflexivity|]. unfold ok_spec; cbn [fst snd apply_annotation].
    repeat split; [exact OK|]. cbn [spec_columns describe columns]. rewrite DM. reflexivity.
  - destruct H as (dims & -> & K). assert (SR := soa_right _ _ _ _ _ I). cbv zeta in SR.
    assert (E : feature_spec_from_batched_tensor complete (map fst soa) name (Sparse i v d (Some dims)) =
                if (2 <? length dims) || is_said_sparse (Sparse i v d (Some dims))
                then Returned (SparseFeature (map (sparse_indices_name name) (seq 0 (length dims - 1))) (sparse_values_name name) d
                                    (map (option_map Z.of_nat) (tl dims)) true)
                else Returned (VarLenFeature d)).
    { unfold feature_spec_from_batched_tensor. cbn [output_dtype]. rewrite existsb_key.
      rewrite (said_forced _ _ _ _ _ I). destruct d; congruence. }
    unfold final, spec0, sizes_ok, spec0. cbn [fst snd]. rewrite E. cbn [describe].
    destruct ((2 <? length dims) || is_said_sparse (Sparse i v d (Some dims))) eqn:C.
    + specialize (K eq_refl). split; [reflexivity|].
      assert (LT : length dims - 1 = length (tl dims)) by (destruct dims; cbn; lia).
      set (o := Sparse i v d (Some dims)) in *.
      assert (SZ : exists size, apply_annotation (dict_get soa name) (SparseFeature (map (sparse_indices_name name) (seq 0 (length dims - 1))) (sparse_values_name name) d
                 (map (option_map Z.of_nat) (tl dims)) true) = SparseFeature (map (sparse_indices_name name) (seq 0 (length dims - 1))) (sparse_values_name name) d size true
                 /\ size = index_sizes given_shape o (tl dims) /\ length size = length (tl dims) /\ Forall (fun s => no_minus_one s = s) size).
      { unfold index_sizes. destruct (dict_get soa name) as [[s|]|].
        - destruct SR as [_ G]. rewrite G. destruct (K s G) as [L P]. exists (map Some s). cbn [apply_annotation]. repeat split; [rewrite map_length; exact L|].
          apply Forall_map. eapply Forall_impl; [|exact P]. intros z Hz. cbv beta in Hz. cbn. destruct (Z.eqb_spec z (-1)); [lia|reflexivity].
        - destruct SR as [_ ->]. exists (map (option_map Z.of_nat) (tl dims)). cbn [apply_annotation]. repeat split; [apply map_length|].
          apply Forall_map, Forall_forall. intros [n|] _; cbn; [|reflexivity]. destruct (Z.eqb_spec (Z.of_nat n) (-1)); [lia|reflexivity].
        - destruct SR as [_ ->]. exists (map (option_map Z.of_nat) (tl dims)). cbn [apply_annotation]. repeat split; [apply map_length|].
          apply Forall_map, Forall_forall. intros [n|] _; cbn; [|reflexivity]. destruct (Z.eqb_spec (Z.of_nat n) (-1)); [lia|reflexivity]. }
      destruct SZ as (size & -> & S1 & S2 & S3). split.
      { destruct (dict_get soa name) as [[s|]|]; [|reflexivity|reflexivity]. destruct SR as [_ G]. destruct (K s G) as [_ P].
        apply negb_true_iff, not_true_iff_false. rewrite existsb_exists. intros (z & J & LTz). rewrite Forall_forall in P. specialize (P z J). apply Z.ltb_lt in LTz. lia. }
      split; [unfold ok_spec; cbn [snd]; rewrite map_length, seq_length, S2, LT, Nat.eqb_refl; exact OK|].
      split; [|split; [|reflexivity]].
      * cbn [spec_columns columns]. rewrite DM. f_equal. rewrite LT, <- S2, (combine_seq (sparse_indices_name name) None size 0), map_map, S1. apply map_ext_in.
        intros j J. cbn [fst snd]. rewrite Nat.sub_0_r. unfold index_domain. rewrite <- S1. rewrite Forall_forall in S3.
        rewrite S3; [reflexivity|]. apply nth_In. rewrite <- ?S1 in J. apply in_seq in J. lia.
      * cbn [spec_sparse snd fst sparse]. rewrite LT. reflexivity.
    + apply orb_false_iff in C as [_ SD]. split; [reflexivity|]. rewrite <- (said_forced _ _ _ _ _ I) in SD.
      split; [destruct (dict_get soa name) as [[s|]|]; reflexivity|]. unfold ok_spec; cbn [fst snd apply_annotation].
      repeat split; [exact OK|]. cbn [spec_columns columns]. rewrite DM. reflexivity.
  - destruct shape as [shape|]; [|congruence].
    assert (E : feature_spec_from_batched_tensor complete (map fst soa) name (Ragged f d (Some shape)) =
                Returned (RaggedFeature d (name ++ "$ragged_values") (ragged_partitions name 1 (tl shape)))) by (destruct d; try reflexivity; congruence).
    unfold final, spec0, sizes_ok, spec0. cbn [fst snd]. rewrite E. split; [reflexivity|].
    split; [destruct (dict_get soa name) as [[s|]|]; reflexivity|]. unfold ok_spec; cbn [fst snd apply_annotation].
    assert (RP : ragged_partitions name 1 (tl shape) = row_partitions name (tl shape)) by (apply ragged_partitions_eq).
    rewrite RP. repeat split; [exact OK|]. cbn [spec_columns describe columns]. rewrite DM, flat_map_row_lengths. reflexivity.
Qed.

Lemma each_describable no : In no outputs -> first_spec no <> Raised -> sizes_ok no = true -> ok_spec (final no) = true ->
  describable is_said_sparse given_shape complete (snd no).
Proof.
  destruct no as [name o]. cbn [fst snd]. unfold sizes_ok, final, spec0. cbn [fst snd]. intros I NR SO OS.
  assert (D : dtype_of o <> Other_type).
  { intros E. apply NR. unfold feature_spec_from_batched_tensor. replace (output_dtype o) with (dtype_of o) by (destruct o; reflexivity). rewrite E. reflexivity. }
  split; [exact D|]. unfold feature_spec_from_batched_tensor in *. replace (output_dtype o) with (dtype_of o) in * by (destruct o; reflexivity).
  destruct o as [t d shape|i v d shape|f d shape]; cbn [dtype_of] in *.
  - destruct shape as [[|b dims]|]; [exfalso; apply NR; destruct d; reflexivity| |exfalso; apply NR; destruct d; reflexivity].
    exists b, dims. split; [reflexivity|]. intros -> J. apply existsb_unknown in J. apply NR. rewrite J. destruct d; reflexivity.
  - destruct shape as [dims|]; [|exfalso; apply NR; destruct d; reflexivity]. exists dims. split; [reflexivity|].
    rewrite existsb_key, (said_forced _ _ _ _ _ I) in *.
    intros C given G. rewrite C in *. pose proof (soa_right _ _ _ _ _ I) as SR. cbv zeta in SR.
    destruct (dict_get soa name) as [[s|]|]; [|destruct SR; congruence|destruct SR; congruence].
    destruct SR as [_ G']. rewrite G' in G. injection G as <-.
    assert (SO' : existsb (fun s : Z => (s <? 0)%Z) s = false) by (destruct d; try congruence; apply negb_true_iff in SO; exact SO).
    assert (L : (length dims - 1 =? length s) = true).
    { destruct d; try congruence; unfold ok_spec in OS; cbn [snd apply_annotation] in OS; rewrite !map_length, seq_length in OS;
        apply andb_true_iff in OS as [OS _]; exact OS. }
    apply Nat.eqb_eq in L. split; [destruct dims; cbn in *; lia|]. apply Forall_forall. intros z J.
    destruct (Z.ltb_spec z 0) as [LTz|]; [|assumption]. exfalso. rewrite <- not_true_iff_false in SO'. apply SO', existsb_exists. exists z; split; [exact J|apply Z.ltb_lt, LTz].
  - intros ->. apply NR. destruct d; reflexivity.
Qed.

(** *** All outputs *)
Lemma ok_overrides : forallb (ok_override (map (fun no => (fst no, spec0 no)) outputs)) soa = forallb sizes_ok outputs.
Proof.
  assert (KD : NoDup (map fst (map (fun no => (fst no, spec0 no)) outputs))) by (rewrite map_map; exact output_names_NoDup).
  apply eq_true_iff_eq. rewrite !forallb_forall. split.
  - intros H [n o] I. unfold sizes_ok. cbn [fst]. destruct (dict_get soa n) as [a|] eqn:G; [|destruct (spec0 (n, o)); reflexivity].
    specialize (H (n, a) (dict_get_In _ _ _ G)). unfold ok_override in H. cbn [fst snd] in H.
    rewrite (dict_get_NoDup _ n (spec0 (n, o)) KD) in H by (apply in_map_iff; exists (n, o); auto). destruct a as [s|]; [|reflexivity].
    destruct (spec0 (n, o)); try reflexivity. exact H.
  - intros H [n a] I. unfold ok_override. cbn [fst snd].
    destruct (proj1 (in_map_iff fst outputs n)) as ([n' o] & E & J); [apply soa_outputs, (in_map fst _ _ I)|]. cbn in E. subst n'.
    rewrite (dict_get_NoDup _ n (spec0 (n, o)) KD) by (apply in_map_iff; exists (n, o); auto).
    specialize (H (n, o) J). unfold sizes_ok in H. cbn [fst] in H. rewrite (dict_get_NoDup _ _ _ soa_keys I) in H.
    destruct (spec0 (n, o)); try reflexivity. exact H.
Qed.

Lemma returned_describable s : infer_feature_schema_common outputs tensor_ranges fa ga soa complete = Returned s ->
  Forall (fun no => describable is_said_sparse given_shape complete (snd no)) outputs.
Proof.
  unfold infer_feature_schema_common. intros H. apply bind_returned in H as (fs & E1 & H).
  assert (F1 : forall no, In no outputs -> first_spec no <> Raised).
  { intros no I R. eapply map_result_each; [exact E1|exact I|]. cbn. rewrite R. reflexivity. }
  assert (FS : fs = map (fun no => (fst no, spec0 no)) outputs).
  { rewrite (map_result_returned _ (fun no => (fst no, spec0 no))) in E1; [congruence|]. intros no I. unfold spec0. specialize (F1 no I).
    destruct (first_spec no); [reflexivity|congruence]. }
  subst fs. apply bind_returned in H as (fs & E2 & H).
  rewrite override_all in E2; [|exact soa_keys|rewrite map_map; exact output_names_NoDup]. rewrite ok_overrides in E2.
  destruct (forallb sizes_ok outputs) eqn:SO; [|discriminate]. rewrite map_map in E2. cbn [fst snd] in E2. injection E2 as <-.
  change (map (fun x => (fst x, apply_annotation (dict_get soa (fst x)) (spec0 x))) outputs) with (map final outputs) in H.
  apply bind_returned in H as (s' & E3 & _). unfold schema_from_feature_spec in E3.
  rewrite (sorted_map final) in E3 by reflexivity. rewrite add_specs_ok in E3.
  - destruct (forallb ok_spec _) eqn:OS; [|discriminate]. rewrite forallb_forall in OS, SO. apply Forall_forall. intros no I.
    apply each_describable; [exact I|apply F1, I|apply SO, I|]. apply OS, in_map. eapply Permutation_in; [symmetry; apply py_sorted_perm|exact I].
  - rewrite map_map. cbn. eapply Permutation_NoDup; [apply Permutation_map; symmetry; apply py_sorted_perm|]. exact output_names_NoDup.
  - intros k _ [].
Qed.

Lemma describable_returned : Forall (fun no => describable is_said_sparse given_shape complete (snd no)) outputs ->
  infer_feature_schema_common outputs tensor_ranges fa ga soa complete =
  Returned (schema_of domain annotations is_said_sparse given_shape (py_sorted name_leb outputs) ga).
Proof.
  intros ALL. rewrite Forall_forall in ALL. set (order := py_sorted name_leb outputs).
  assert (PO : Permutation order outputs) by apply py_sorted_perm.
  assert (IO : forall no, In no order -> In no outputs) by (intros no; apply Permutation_in, PO).
  assert (EACH : forall no, In no outputs -> _) by (intros no I; exact (each_described no I (ALL no I))).
  assert (DE : forall no, In no outputs -> described domain annotations is_said_sparse given_shape no) by (intros no I; exact (describable_described _ _ _ _ _ _ (ALL no I))).
  assert (ND : NoDup (flat_map taken' order)) by (eapply Permutation_NoDup_flat_map; [exact PO|exact names]).
  unfold infer_feature_schema_common. rewrite (map_result_returned _ (fun no => (fst no, spec0 no))); [|intros no I; destruct (EACH no I) as (-> & _); reflexivity].
  cbn [bind]. rewrite override_all; [|exact soa_keys|rewrite map_map; exact output_names_NoDup]. rewrite ok_overrides.
  assert (SO : forallb sizes_ok outputs = true) by (apply forallb_forall; intros no I; apply (EACH no I)). rewrite SO, map_map. cbn [fst snd bind].
  change (map (fun x => (fst x, apply_annotation (dict_get soa (fst x)) (spec0 x))) outputs) with (map final outputs).
  unfold schema_from_feature_spec. rewrite (sorted_map final) by reflexivity. fold order. rewrite add_specs_ok.
  2: { rewrite map_map. cbn. eapply Permutation_NoDup; [apply Permutation_map; symmetry; exact PO|]. exact output_names_NoDup. }
  2: intros k _ [].
  assert (OS : forallb ok_spec (map final order) = true).
  { apply forallb_forall. intros x I. apply in_map_iff in I as (no & <- & I). apply (EACH no (IO no I)). }
  rewrite OS. cbn [bind features sparse_features representations schema_metadata app].
  rewrite !flat_map_concat_map, !map_map.
  rewrite (map_ext_in (fun x => spec_columns domains (final x)) (fun no => columns (bare (fst no) (snd no))) order) by (intros no I; apply (EACH no (IO no I))).
  rewrite (map_ext_in (fun x => spec_sparse (final x)) (fun no => sparse (bare (fst no) (snd no))) order) by (intros no I; apply (EACH no (IO no I))).
  rewrite (map_ext_in (fun x => spec_ragged (final x)) (fun no => ragged (bare (fst no) (snd no))) order) by (intros no I; apply (EACH no (IO no I))).
  rewrite <- !flat_map_concat_map.
  set (fs := flat_map (fun no => columns (bare (fst no) (snd no))) order). set (sfs := flat_map (fun no => sparse (bare (fst no) (snd no))) order).
  set (rs := flat_map (fun no => ragged (bare (fst no) (snd no))) order).
  (* the names of columns *)
  assert (FN : map f_name fs = flat_map (fun no => map f_name (columns (bare (fst no) (snd no)))) order).
  { unfold fs. rewrite !flat_map_concat_map, concat_map, map_map. reflexivity. }
  assert (NF : NoDup (map f_name fs)).
  { rewrite FN. eapply NoDup_flat_map_sub; [exact ND| |].
    - intros no I. rewrite (bare_columns domain annotations is_said_sparse given_shape).
      assert (T : NoDup (taken' no)) by (eapply NoDup_flat_map_each; [exact ND|exact I]).
      destruct (DE no (IO no I)) as [(fi & _ & ->) _ _|i v d shape E C TK VN|f d shape E TK VN].
      + repeat constructor; intros [].
      + rewrite TK in T. inversion T as [|? ? _ T1]; subst. rewrite E in *. cbn [fst snd describe]. rewrite C. cbn [columns]. rewrite map_app, map_map. exact T1.
      + rewrite TK in T. inversion T as [|? ? _ T1]; subst. rewrite E in *. cbn [fst snd describe columns map f_name]. rewrite flat_map_row_lengths, map_map.
        cbn [f_name]. rewrite map_id. exact T1.
    - intros no c I J. eapply columns_taken. exact J. }
  set (d0 := feature_protos 0 fs []).
  assert (G0 : forall k, In k (map f_name fs) -> exists p, dict_get d0 k = Some p /\ named fs p k) by (intros k I; exact (proj1 (feature_protos_get fs 0 [] k) I)).
  assert (GC : forall no c, In no order -> In c (map f_name (columns (bare (fst no) (snd no)))) -> dict_get d0 c <> None).
  { intros no c I J E. destruct (G0 c) as (p & E' & _); [|congruence]. rewrite FN. apply in_flat_map. eauto. }
  (* sparse features *)
  assert (SPC : forall no sf, In no order -> In sf (sparse (bare (fst no) (snd no))) ->
            s_name sf = fst no /\ value_feature sf = value_name' no /\ (forall c, In c (value_feature sf :: index_feature sf) -> In c (map f_name (columns (bare (fst no) (snd no)))))).
  { intros no sf I J. destruct (DE no (IO no I)) as [(fi & E1 & _) _ _|i v d shape E C TK VN|f d shape E TK VN].
    - rewrite E1 in J. destruct J.
    - rewrite VN. rewrite E in *. cbn [fst snd describe] in *. rewrite C in *. cbn [sparse columns] in *. destruct J as [<-|[]]. cbn [s_name value_feature index_feature].
      repeat split. intros c [<-|K]; rewrite map_app, in_app_iff; [right; left; reflexivity|left]. rewrite map_map. exact K.
    - rewrite E in J. destruct J. }
  assert (RGC : forall no nr, In no order -> In nr (ragged (bare (fst no) (snd no))) ->
            fst nr = fst no /\ feature_path (snd nr) = value_name' no /\ (forall c, In c (feature_path (snd nr) :: row_length_keys (r_partitions (snd nr))) -> In c (map f_name (columns (bare (fst no) (snd no)))))).
  { intros no nr I J. destruct (DE no (IO no I)) as [(fi & E1 & _) _ _|i v d shape E C TK VN|f d shape E TK VN].
    - rewrite E1 in J. destruct J.
    - rewrite E in *. cbn [fst snd describe] in *. rewrite C in *. destruct J.
    - rewrite VN. rewrite E in *. cbn [fst snd describe] in *. cbn [ragged columns] in *. destruct J as [<-|[]]. cbn [fst snd feature_path r_partitions].
      repeat split. intros c K. rewrite flat_map_row_lengths. cbn [map f_name]. rewrite map_map. cbn [f_name]. rewrite map_id. exact K. }
  assert (CL : NoDup (flat_map sparse_claim sfs) /\ NoDup (flat_map ragged_claim rs)).
  { assert (E1 : flat_map sparse_claim sfs = flat_map (fun no => flat_map sparse_claim (sparse (bare (fst no) (snd no)))) order).
    { unfold sfs. clear. induction order as [|a l IH]; [reflexivity|]. cbn [flat_map]. rewrite flat_map_app, IH. reflexivity. }
    assert (E2 : flat_map ragged_claim rs = flat_map (fun no => flat_map ragged_claim (ragged (bare (fst no) (snd no)))) order).
    { unfold rs. clear. induction order as [|a l IH]; [reflexivity|]. cbn [flat_map]. rewrite flat_map_app, IH. reflexivity. }
    rewrite E1, E2. split; (eapply NoDup_flat_map_sub; [exact ND| |]).
    - intros no I. assert (T : NoDup (taken' no)) by (eapply NoDup_flat_map_each; [exact ND|exact I]).
      destruct (DE no (IO no I)) as [(fi & -> & _) _ _|i v d shape E C TK VN|f d shape E TK VN]; [constructor| |rewrite E; constructor].
      rewrite TK in T. rewrite E in *. cbn [fst snd describe]. rewrite C. cbn [sparse flat_map]. rewrite app_nil_r. unfold sparse_claim. cbn [s_name value_feature index_feature].
      eapply Permutation_NoDup; [|exact T]. apply perm_skip. symmetry. apply Permutation_cons_append.
    - intros no c I J. apply in_flat_map in J as (sf & J & K). destruct (SPC no sf I J) as (N & _ & CC). destruct K as [<-|K]; [rewrite N; left; reflexivity|].
      eapply columns_taken. apply CC, K.
    - intros no I. assert (T : NoDup (taken' no)) by (eapply NoDup_flat_map_each; [exact ND|exact I]).
      destruct (DE no (IO no I)) as [(fi & -> & _) _ _|i v d shape E C TK VN|f d shape E TK VN];
        [constructor|rewrite E in *; cbn [fst snd describe]; rewrite C; constructor|].
      rewrite TK in T. rewrite E in *. cbn [fst snd describe ragged flat_map]. rewrite app_nil_r. exact T.
    - intros no c I J. apply in_flat_map in J as (nr & J & K). destruct (RGC no nr I J) as (N & _ & CC). destruct K as [<-|K]; [rewrite N; left; reflexivity|].
      eapply columns_taken. apply CC, K. }
  destruct CL as [CL1 CL2].
  destruct (pop_sparse_get sfs d0 CL1) as (d1 & -> & GS & FR1).
  { intros sf k J K. apply in_flat_map in J as (no & I & J). destruct (SPC no sf I J) as (_ & _ & CC). exact (GC no k I (CC k K)). }
  cbn [bind].
  (* what an output takes that no sparse feature claims *)
  assert (OWN : forall no no' c, In no order -> In no' order -> In c (taken' no) -> In c (taken' no') -> no = no') by (intros no no' c I J A B; eapply NoDup_flat_map_unique; eassumption).
  assert (SCL : forall c, In c (flat_map sparse_claim sfs) -> exists no, In no order /\ sparse (bare (fst no) (snd no)) <> [] /\ In c (taken' no)).
  { intros c J. apply in_flat_map in J as (sf & J & K). apply in_flat_map in J as (no & I & J). exists no. split; [exact I|].
    split; [intros E; rewrite E in J; destruct J|]. destruct (SPC no sf I J) as (N & _ & CC). destruct K as [<-|K]; [rewrite N; left; reflexivity|].
    eapply columns_taken. apply CC, K. }
  assert (RCL : forall c, In c (flat_map ragged_claim rs) -> exists no, In no order /\ ragged (bare (fst no) (snd no)) <> [] /\ In c (taken' no)).
  { intros c J. apply in_flat_map in J as (nr & J & K). apply in_flat_map in J as (no & I & J). exists no. split; [exact I|].
    split; [intros E; rewrite E in J; destruct J|]. destruct (RGC no nr I J) as (N & _ & CC). destruct K as [<-|K]; [rewrite N; left; reflexivity|].
    eapply columns_taken. apply CC, K. }
  assert (RNS : forall no, In no order -> ragged (bare (fst no) (snd no)) <> [] -> sparse (bare (fst no) (snd no)) = []).
  { intros no I R. destruct (DE no (IO no I)) as [(fi & -> & _) _ _|i v d shape E C TK VN|f d shape E TK VN]; [reflexivity| |rewrite E; reflexivity].
    exfalso; apply R. rewrite E in *. cbn [fst snd describe]. rewrite C. reflexivity. }
  assert (NSC : forall no c, In no order -> sparse (bare (fst no) (snd no)) = [] -> In c (taken' no) -> ~ In c (flat_map sparse_claim sfs)).
  { intros no c I E T J. destruct (SCL c J) as (no' & I' & N & T'). rewrite (OWN no no' c I I' T T') in E. contradiction. }
  assert (NRC : forall no c, In no order -> ragged (bare (fst no) (snd no)) = [] -> In c (taken' no) -> ~ In c (flat_map ragged_claim rs)).
  { intros no c I E T J. destruct (RCL c J) as (no' & I' & N & T'). rewrite (OWN no no' c I I' T T') in E. contradiction. }
  destruct (pop_ragged_get rs d1 CL2) as (d2 & -> & GR & FR2).
  { intros nr k J K. apply in_flat_map in J as (no & I & J). destruct (RGC no nr I J) as (_ & _ & CC).
    assert (R : ragged (bare (fst no) (snd no)) <> []) by (intros E; rewrite E in J; destruct J).
    rewrite FR1; [exact (GC no k I (CC k K))|]. apply (NSC no); [exact I|exact (RNS no I R)|]. eapply columns_taken. apply CC, K. }
  cbn [bind].
  assert (REF : forall no, In no order -> exists p, dict_get d2 (fst no) = Some p /\ named fs p (value_name' no)).
  { intros no I. assert (HV : In (value_name' no) (map f_name fs)) by (rewrite FN; apply in_flat_map; exists no; split; [exact I|]; apply (value_name_column _ annotations); exact (DE no (IO no I))).
    destruct (G0 _ HV) as (p & G & NM). exists p. split; [|exact NM]. rewrite <- G.
    assert (T0 : In (fst no) (taken' no)) by (left; reflexivity).
    destruct (DE no (IO no I)) as [(fi & E1 & _) TK VN|i v d shape E C TK VN|f d shape E TK VN].
    - rewrite FR2 by (apply (NRC no); [exact I|rewrite E1; reflexivity|exact T0]). rewrite FR1 by (apply (NSC no); [exact I|rewrite E1; reflexivity|exact T0]). rewrite VN. reflexivity.
    - assert (B : bare (fst no) (snd no) = bare (fst no) (Sparse i v d (Some shape))) by (rewrite E; reflexivity).
      rewrite FR2 by (apply (NRC no); [exact I|rewrite E in *; cbn [describe]; rewrite C; reflexivity|exact T0]).
      set (sf := Sparse_feature (fst no) true (map (index_column (fst no)) (seq 0 (length (tl shape)))) (value_column (fst no))).
      assert (J : In sf (sparse (bare (fst no) (snd no)))) by (rewrite E in *; cbn [describe]; rewrite C; left; reflexivity).
      change (fst no) with (s_name sf) at 1. rewrite GS by (unfold sfs; apply in_flat_map; eauto). rewrite VN. reflexivity.
    - set (nr := (fst no, Ragged_representation (ragged_column (fst no)) (row_partitions (fst no) (tl shape)))).
      assert (J : In nr (ragged (bare (fst no) (snd no)))) by (rewrite E; left; reflexivity).
      change (fst no) with (fst nr) at 1. rewrite GR by (unfold rs; apply in_flat_map; eauto). cbn [nr snd feature_path].
      rewrite VN. rewrite FR1; [reflexivity|]. apply (NSC no); [exact I|rewrite E; reflexivity|]. rewrite TK; right; left; reflexivity. }
  set (V := fun n => match dict_get outputs n with Some o => value_name' (n, o) | None => EmptyString end).
  assert (VV : forall n o, In (n, o) outputs -> V n = value_name' (n, o)) by (intros n o I; unfold V; rewrite (dict_get_NoDup _ _ _ output_names_NoDup I); reflexivity).
  rewrite (add_annotations_ok d2 V fa fs NF).
  2: { intros n l I. destruct (proj1 (in_map_iff fst outputs n)) as ([n' o] & E & J); [apply fa_outputs, (in_map fst _ _ I)|]. cbn in E. subst n'.
       rewrite (VV n o J). apply (REF (n, o)). eapply Permutation_in; [symmetry; exact PO|exact J]. }
  cbn [bind]. f_equal. unfold schema_of. rewrite !flat_map_concat_map, !map_map. f_equal.
  - unfold fs. rewrite flat_map_concat_map, concat_map, map_map. f_equal. apply map_ext_in. intros no I.
    rewrite (describe_annotated domain annotations is_said_sparse given_shape no (DE no (IO no I))) by (eapply NoDup_flat_map_each; [exact ND|exact I]).
    apply map_ext_in. intros f J. f_equal.
    assert (Ic : In (f_name f) (taken' no)) by (eapply columns_taken; apply in_map, J).
    assert (UNI : forall m, In m (map fst fa) -> String.eqb (V m) (f_name f) = true -> m = fst no).
    { intros m M EQ. apply String.eqb_eq in EQ. destruct (proj1 (in_map_iff fst outputs m)) as ([m' o] & E & K); [apply fa_outputs, M|]. cbn in E. subst m'.
      rewrite (VV m o K) in EQ. assert (Io : In (m, o) order) by (eapply Permutation_in; [symmetry; exact PO|exact K]).
      assert (T : In (f_name f) (taken' (m, o))) by (rewrite <- EQ; apply value_name_taken, DE, K).
      rewrite <- (OWN (m, o) no (f_name f) Io I T Ic). reflexivity. }
    destruct no as [n o]. cbn [fst snd] in *. destruct (String.eqb_spec (f_name f) (value_name' (n, o))) as [EV|NV].
    + rewrite (flat_map_key (fun m => String.eqb (V m) (f_name f)) n fa fa_keys); [apply fa_right, IO, I|].
      intros m M. destruct (String.eqb_spec m n) as [->|N].
      * rewrite (VV n o (IO _ I)), EV. apply String.eqb_refl.
      * destruct (String.eqb (V m) (f_name f)) eqn:Q; [|reflexivity]. exfalso; apply N, (UNI m M Q).
    + assert (Z : flat_map (fun nl : string * list any => if String.eqb (V (fst nl)) (f_name f) then snd nl else []) fa = []).
      { clear - UNI VV NV IO I. induction fa as [|[m l] fa' IH]; [reflexivity|]. cbn [flat_map fst snd]. rewrite IH by (intros k K; apply UNI; right; exact K).
        destruct (String.eqb (V m) (f_name f)) eqn:Q; [|reflexivity]. exfalso. assert (m = n) as -> by (apply UNI; [left; reflexivity|exact Q]).
        rewrite (VV n o (IO _ I)) in Q. apply String.eqb_eq in Q. congruence. }
      rewrite Z. reflexivity.
  - unfold sfs. rewrite flat_map_concat_map. f_equal. apply map_ext. intros no. symmetry. apply describe_sparse.
  - unfold rs. rewrite flat_map_concat_map. f_equal. apply map_ext. intros no. symmetry. apply describe_ragged.
Qed.

Lemma describable_dec o : {describable is_said_sparse given_shape complete o} + {~ describable is_said_sparse given_shape complete o}.
Proof.
  unfold describable. assert (DD : {dtype_of o <> Other_type} + {~ dtype_of o <> Other_type}) by (destruct (dtype_of o); [left|left|left|right]; congruence).
  destruct DD as [D|D]; [|right; intros [H _]; auto]. destruct o as [t d shape|i v d shape|f d shape].
  - destruct shape as [[|b dims]|].
    + right. intros (_ & b & dims & E & _). discriminate.
    + destruct (in_dec (fun a b : option nat => ltac:(decide equality; apply Nat.eq_dec)) None dims) as [I|N].
      * destruct complete eqn:CC.
        -- right. intros (_ & b' & dims' & [= -> ->] & H). exact (H eq_refl I).
        -- left. split; [exact D|]. exists b, dims. split; [reflexivity|discriminate].
      * left. split; [exact D|]. exists b, dims. split; [reflexivity|auto].
    + right. intros (_ & b & dims & E & _). discriminate.
  - destruct shape as [dims|]; [|right; intros (_ & dims & E & _); discriminate].
    destruct ((2 <? length dims) || is_said_sparse (Sparse i v d (Some dims))) eqn:C.
    + destruct (given_shape (Sparse i v d (Some dims))) as [g|] eqn:G.
      * destruct (Nat.eq_dec (length g) (length (tl dims))) as [L|L].
        -- destruct (Forall_dec (fun n => (0 <= n)%Z) (fun n => Z_le_dec 0 n) g) as [F|F].
           ++ left. split; [exact D|]. exists dims. split; [reflexivity|]. intros _ g' [= <-]. auto.
           ++ right. intros (_ & dims' & [= <-] & H). apply F, (H C g eq_refl).
        -- right. intros (_ & dims' & [= <-] & H). apply L, (H C g eq_refl).
      * left. split; [exact D|]. exists dims. split; [reflexivity|]. discriminate.
    + left. split; [exact D|]. exists dims. split; [reflexivity|]. rewrite C. discriminate.
  - destruct shape; [left|right]; [split; [exact D|discriminate]|intros [_ H]; auto].
Qed.

Theorem common_right :
  right_schema domain annotations is_said_sparse given_shape complete outputs ga
               (infer_feature_schema_common outputs tensor_ranges fa ga soa complete).
Proof.
  destruct (Forall_Exists_dec (fun no => describable is_said_sparse given_shape complete (snd no)) (fun no => describable_dec (snd no)) outputs) as [F|E].
  - left. split; [exact F|]. exists (py_sorted name_leb outputs). split; [apply py_sorted_perm|]. split; [apply sorted_names|]. apply describable_returned, F.
  - right. split; [exact E|]. destruct (infer_feature_schema_common outputs tensor_ranges fa ga soa complete) as [s|] eqn:R; [|reflexivity].
    exfalso. apply returned_describable in R. rewrite Exists_exists in E. destruct E as (no & I & N). rewrite Forall_forall in R. exact (N (R no I)).
Qed.
End Infer.
