(** Inputs that are supplied for features that are not given (C89). *)
From Coq Require Import String List Arith Bool Lia.
From Verif Require Import SupModel SupSpec SupProofs.
Import ListNotations.

Ltac ones := repeat (apply Forall_cons; [unfold any_or_one; (now left) || (now right)|]); apply Forall_nil.
Ltac fit := repeat (apply Forall2_cons; [(now left) || (now right) || exact Logic.I|]); apply Forall2_nil.

(** What is supplied for a feature, of whatever type, is a tensor of that type with the rows that are asked for. *)
Theorem c89_supplied : forall V (zero : V) batch_size t, batched t ->
  exists v, supply V zero batch_size t = Some v /\ well_formed V v /\ of_type V t v /\ rows V v batch_size.
Proof. intros V zero b t B. exact (supply_batched V zero b t B). Qed.
Example c89_supplied_applies : exists t, batched t /\
  supply nat 0 2 t = Some (Ragged nat [[0; 1; 2]; [0; 1; 2]] (Array nat [2; 3; 1] [0; 0; 0; 0; 0; 0])) /\
  batched (Sparse_spec (Some [None; Some 1; None]) (Some [None])) /\
  supply nat 0 2 (Sparse_spec (Some [None; Some 1; None]) (Some [None])) = Some (Sparse nat [[0; 0; 0]; [1; 0; 0]] (Array nat [2] [0; 0]) [2; 1; 1]).
Proof.
  exists (Ragged_spec [None; Some 1] (Some [None; Some 3; None])). split; [|split; [reflexivity | split; [|reflexivity]]].
  - split; [ones | eexists; reflexivity].
  - split; [|reflexivity]. eexists. split; [reflexivity|]. ones.
Qed.

(** A dense tensor that is supplied is of its type, whatever that is. *)
Theorem c89_dense : forall V (zero : V) batch_size s v, supply V zero batch_size (Dense_spec s) = Some v -> well_formed V v /\ of_type V (Dense_spec s) v.
Proof. exact supply_dense. Qed.
Example c89_dense_applies : supply nat 0 5 (Dense_spec (Some [Some 2; None; Some 2])) = Some (Dense nat (Array nat [2; 1; 2] [0; 0; 0; 0])).
Proof. reflexivity. Qed.

(** The function is called with a tensor for every input, of its type; those that were given are as they were; all have the same
    rows. *)
Theorem c89_batch : forall V (zero : V) inputs given n,
  NoDup (map fst inputs) -> NoDup (map fst given) -> (forall k t, In (k, t) inputs -> batched t) -> given <> [] ->
  (forall k v, In (k, v) given -> rows V v n /\ exists t, In (k, t) inputs /\ of_type V t v) ->
  exists l, modified_inputs V zero inputs given = Some l /\
    NoDup (map fst l) /\ (forall k, In k (map fst l) <-> In k (map fst inputs)) /\
    (forall k v, In (k, v) given -> In (k, v) l) /\
    (forall k v, In (k, v) l -> In (k, v) given \/ well_formed V v) /\
    forall k v, In (k, v) l -> rows V v n /\ exists t, In (k, t) inputs /\ of_type V t v.
Proof.
  intros V zero inputs given n N Ng B Ne G. unfold modified_inputs. set (unfed := filter _ _).
  assert (U : forall k, In k unfed <-> In k (map fst inputs) /\ ~ In k (map fst given)).
  { intros k. unfold unfed. rewrite filter_In. assert (X : existsb (fun e => String.eqb (fst e) k) given = true <-> In k (map fst given)).
    { rewrite existsb_exists, in_map_iff. split; intros [x [A C]]; exists x; [apply String.eqb_eq in C | apply String.eqb_eq in A]; now split. }
    rewrite <- X. destruct (existsb _ given); cbn; intuition congruence. }
  assert (K : forall k, In k (map fst given) -> In k (map fst inputs)).
  { intros k I. apply in_map_iff in I. destruct I as [[k' v] [<- I]]. destruct (G _ _ I) as [_ [t [T _]]]. now apply (in_map fst) in T. }
  assert (Nu : NoDup unfed) by (apply NoDup_filter; exact N).
  destruct unfed as [|k0 us] eqn:Eu.
  - exists given. split; [reflexivity|]. split; [exact Ng|]. split; [|split; [auto | split; [auto | exact G]]].
    intros k. split; [apply K|]. intros I. destruct (in_dec string_dec k (map fst given)) as [J|J]; [exact J|]. destruct (proj2 (U k) (conj I J)).
  - destruct given as [|[k1 v1] rest]; [congruence|]. rewrite (batch_size_rows V k1 v1 rest n (proj1 (G k1 v1 (or_introl eq_refl)))).
    assert (I : incl (k0 :: us) (map fst inputs)) by (intros k J; now apply U).
    assert (Nn : k0 :: us <> []) by discriminate.
    destruct (supply_all V zero inputs n (k0 :: us) Nn B I) as [r [R [Kr Vr]]]. rewrite R. cbn [option_map]. set (given := (k1, v1) :: rest) in *.
    exists (given ++ r)%list. split; [reflexivity|]. split; [|split; [|split; [|split]]].
    + rewrite map_app. rewrite (supply_keys V zero inputs n (k0 :: us) r Nn R). clear - Ng Nu U. induction (map fst given) as [|x l IH] in Ng, U |- *; [exact Nu|].
      cbn. apply NoDup_cons_iff in Ng. destruct Ng as [N1 N2]. constructor.
      * intros J. apply in_app_or in J. destruct J as [J|J]; [contradiction|]. apply U in J. apply (proj2 J). now left.
      * assert (D : forall k, In k l -> ~ In k (k0 :: us)) by (intros k J X; apply U in X; apply (proj2 X); now right).
        clear - N2 D Nu. induction l as [|y l IH]; [exact Nu|]. cbn. apply NoDup_cons_iff in N2. destruct N2 as [N1 N2]. constructor.
        -- intros J. apply in_app_or in J. destruct J as [J|J]; [contradiction | exact (D y (or_introl eq_refl) J)].
        -- apply IH; [exact N2 | intros k J; apply D; now right].
    + intros k. rewrite map_app, in_app_iff, Kr, U. split; [intros [J|[J _]]; [now apply K | exact J]|]. intros J.
      destruct (in_dec string_dec k (map fst given)) as [X|X]; [now left | right; now split].
    + intros k v J. apply in_or_app. now left.
    + intros k v J. apply in_app_or in J. destruct J as [J|J]; [now left | right; exact (proj1 (Vr k v J))].
    + intros k v J. apply in_app_or in J. destruct J as [J|J]; [now apply G|]. destruct (Vr k v J) as [_ [Rw [t [T [_ O]]]]]. split; [exact Rw | now exists t].
Qed.
Definition ex_inputs : list (string * spec) :=
  [("x", Dense_spec (Some [None; Some 2])); ("s", Sparse_spec (Some [None; None]) (Some [None])); ("r", Ragged_spec [None] (Some [None]))]%string.
Lemma ex_inputs_ok : NoDup (map fst ex_inputs) /\ forall k t, In (k, t) ex_inputs -> batched t.
Proof.
  split; [cbn; repeat (constructor; [cbn; intuition discriminate|]); constructor|].
  intros k t [[= <- <-]|[[= <- <-]|[[= <- <-]|[]]]]; cbn.
  - now eexists.
  - split; [|reflexivity]. eexists. split; [reflexivity|]. ones.
  - split; [ones | now eexists].
Qed.
Definition ex_r : value nat := Ragged nat [[0; 2; 2; 3]] (Array nat [3] [7; 8; 9]).
Example c89_batch_applies : rows nat ex_r 3 /\ of_type nat (Ragged_spec [None] (Some [None])) ex_r /\
  modified_inputs nat 0 ex_inputs [("r", ex_r)]%string =
    Some [("r", ex_r); ("x", Dense nat (Array nat [3; 2] [0; 0; 0; 0; 0; 0])); ("s", Sparse nat [[0; 0]; [1; 0]; [2; 0]] (Array nat [3] [0; 0; 0]) [3; 1])]%string.
Proof. split; [reflexivity|]. split; [|reflexivity]. split; [fit | cbn; fit]. Qed.
(** Nothing is given: one row *)
Theorem c89_alone : forall V (zero : V) inputs, NoDup (map fst inputs) -> inputs <> [] -> (forall k t, In (k, t) inputs -> batched t) ->
  exists l, modified_inputs V zero inputs [] = Some l /\ map fst l = map fst inputs /\
    forall k v, In (k, v) l -> well_formed V v /\ rows V v 1 /\ exists t, In (k, t) inputs /\ of_type V t v.
Proof.
  intros V zero inputs N Ne B. unfold modified_inputs. set (unfed := filter _ _). assert (E : unfed = map fst inputs).
  { unfold unfed. clear. induction (map fst inputs) as [|k l IH]; cbn in *; [reflexivity | now rewrite IH]. }
  rewrite E. clear unfed E. assert (Nn : map fst inputs <> []) by (destruct inputs; [congruence | discriminate]).
  destruct (supply_all V zero inputs 1 (map fst inputs) Nn B (incl_refl _)) as [r [R [Kr Vr]]]. exists r. split; [|split].
  - destruct (map fst inputs); [congruence|]. cbn [batch_size_of]. rewrite R. reflexivity.
  - exact (supply_keys V zero inputs 1 _ r Nn R).
  - intros k v J. destruct (Vr k v J) as [W [Rw [t [T [_ O]]]]]. split; [exact W|]. split; [exact Rw | now exists t].
Qed.
Example c89_alone_applies : modified_inputs nat 0 ex_inputs [] =
  Some [("x", Dense nat (Array nat [1; 2] [0; 0])); ("s", Sparse nat [[0; 0]] (Array nat [1] [0]) [1; 1]); ("r", Ragged nat [[0; 1]] (Array nat [1] [0]))]%string.
Proof. reflexivity. Qed.

(** ** What does not hold for other types *)

(** A size of zero is taken for an unknown one: nothing can be supplied for an input without rows. *)
Theorem c89_zero_refuted : exists t v, of_type nat t v /\ well_formed nat v /\ rows nat v 0 /\ forall batch_size, batch_size <> 0 -> supply nat 0 batch_size t = None.
Proof.
  exists (Dense_spec (Some [Some 0])), (Dense nat (Array nat [0] [])). split; [cbn; fit|]. split; [reflexivity|]. split; [now eexists|].
  intros [|b] H; [congruence | reflexivity].
Qed.
(** A tensor whose first size is known has that many rows, not those of the batch. *)
Theorem c89_fixed_rows_refuted : exists t v, supply nat 0 3 t = Some v /\ rows nat v 2 /\ ~ rows nat v 3.
Proof. exists (Dense_spec (Some [Some 2])), (Dense nat (Array nat [2] [0; 0])). split; [reflexivity|]. split; [now eexists|]. intros [s E]. discriminate E. Qed.
(** A sparse tensor of a known size, as sparse features of schemas have: the one that is supplied is not of that size. *)
Theorem c89_sparse_size_refuted : exists t v, supply nat 0 2 t = Some v /\ ~ of_type nat t v /\ exists v', well_formed nat v' /\ of_type nat t v' /\ rows nat v' 2.
Proof.
  exists (Sparse_spec (Some [None; Some 5]) (Some [None])), (Sparse nat [[0; 0]; [1; 0]] (Array nat [2] [0; 0]) [2; 1]). split; [reflexivity|]. split.
  - intros [F _]. cbn in F. inversion F as [|a b la lb _ F']; subst. inversion F' as [|a b la lb [X|X] _]; discriminate X.
  - exists (Sparse nat [] (Array nat [0] []) [2; 5]). split; [|split].
    + split; [reflexivity|]. split; [reflexivity|]. split; [constructor | intros i []].
    + split; cbn; fit.
    + now eexists.
Qed.
(** A ragged tensor with rows of a known length other than one *)
Theorem c89_uniform_refuted : exists t v, supply nat 0 2 t = Some v /\ ~ of_type nat t v /\ exists v', well_formed nat v' /\ of_type nat t v' /\ rows nat v' 2.
Proof.
  exists (Ragged_spec [None; Some 2] (Some [None])), (Ragged nat [[0; 1; 2]; [0; 1; 2]] (Array nat [2] [0; 0])). split; [reflexivity|]. split.
  - intros [F _]. inversion F as [|a b la lb _ F']; subst. inversion F' as [|a b la lb U _]; subst. specialize (U 0 0 1 eq_refl eq_refl). discriminate U.
  - exists (Ragged nat [[0; 0; 0]; [0]] (Array nat [0] [])). split; [|split].
    + split; [reflexivity|]. exists 0, []. split; [reflexivity|]. cbn. split; [|split; [|exact Logic.I]].
      * split; [reflexivity|]. split; [reflexivity|]. intros [|[|[|i]]] a b A C; cbn in *; try discriminate; try (injection A as <-; injection C as <-; lia); destruct i; discriminate.
      * split; [reflexivity|]. split; [reflexivity|]. intros [|i] a b A C; cbn in *; try discriminate; destruct i; discriminate.
    + split; [|cbn; fit]. constructor; [exact Logic.I|]. constructor; [|constructor]. intros [|i] a b A C; cbn in *; try discriminate; destruct i; discriminate.
    + reflexivity.
Qed.
(** Tensors of unknown rank: a scalar is supplied, which has no rows, and nothing for sparse ones. *)
Theorem c89_unknown_rank_refuted : forall batch_size, exists v, supply nat 0 batch_size (Dense_spec None) = Some v /\ (forall n, ~ rows nat v n) /\
  supply nat 0 batch_size (Sparse_spec None (Some [None])) = None.
Proof. intros b. eexists. split; [reflexivity|]. split; [intros n [s E]; discriminate E | reflexivity]. Qed.

Print Assumptions c89_supplied.
Print Assumptions c89_dense.
Print Assumptions c89_batch.
Print Assumptions c89_alone.
Print Assumptions c89_zero_refuted.
Print Assumptions c89_fixed_rows_refuted.
Print Assumptions c89_sparse_size_refuted.
Print Assumptions c89_uniform_refuted.
Print Assumptions c89_unknown_rank_refuted.
