(** * Proofs about schemas, 2: columns and annotations *)
From Coq Require Import String Ascii List ZArith Bool Arith Lia DecimalString Permutation Sorted.
From Verif Require Import SortModel SortProofs SchemaModel SchemaSpec SchemaProofs.
Import ListNotations.
Local Open Scope list_scope.

Local Notation length := List.length.

(** ** References to columns *)
Definition named (fs : list feature) (p : nat) (k : string) : Prop := exists f, nth_error fs p = Some f /\ f_name f = k.

Lemma feature_protos_get fs : forall i d k,
  (In k (map f_name fs) -> exists p, dict_get (feature_protos i fs d) k = Some (i + p) /\ named fs p k) /\
  (~ In k (map f_name fs) -> dict_get (feature_protos i fs d) k = dict_get d k).
Proof.
  induction fs as [|f fs IH]; intros i d k; cbn [feature_protos map In]; [split; [intros []|reflexivity]|].
  destruct (IH (S i) (dict_set d (f_name f) i) k) as [A B]. destruct (in_dec string_dec k (map f_name fs)) as [I|N].
  - split; [|intros H; exfalso; auto]. intros _. destruct (A I) as (p & G & g & E1 & E2). exists (S p).
    split; [rewrite G; f_equal; lia|]. exists g; split; assumption.
  - rewrite (B N), dict_set_get. destruct (String.eqb_spec (f_name f) k) as [E|D].
    + split; [|intros H; exfalso; auto]. intros _. exists 0. split; [f_equal; lia|]. exists f; split; [reflexivity|exact E].
    + split; [intros [E|I]; contradiction|reflexivity].
Qed.

Lemma pop_all_get keys : forall d, NoDup keys -> (forall k, In k keys -> dict_get d k <> None) ->
  exists d', pop_all d keys = Returned d' /\
    (forall k, ~ In k keys -> dict_get d' k = dict_get d k).
Proof.
  induction keys as [|a keys IH]; intros d ND P; cbn [pop_all]; [eexists; split; [reflexivity|auto]|].
  inversion ND as [|? ? N ND']; subst. destruct (dict_get d a) as [v|] eqn:G; [|exfalso; apply (P a (or_introl eq_refl)), G].
  destruct (dict_pop_some d a v G) as (d1 & -> & G1). destruct (IH d1 ND') as (d2 & E & G2).
  - intros k I. rewrite G1. destruct (String.eqb_spec a k) as [->|]; [contradiction|]. apply P; right; exact I.
  - exists d2; split; [exact E|]. intros k NI. rewrite G2 by (intros I; apply NI; right; exact I). rewrite G1.
    destruct (String.eqb_spec a k) as [->|]; [exfalso; apply NI; left; reflexivity|reflexivity].
Qed.

Definition sparse_claim (sf : sparse_feature) : list string := s_name sf :: value_feature sf :: index_feature sf.
Lemma in_flat_map_intro {A B} (f : A -> list B) l a b : In a l -> In b (f a) -> In b (flat_map f l).
Proof. intros; apply in_flat_map; eauto. Qed.
Lemma NoDup_app_parts {A} (a b : list A) : NoDup (a ++ b) -> NoDup a /\ NoDup b /\ (forall x, In x a -> ~ In x b).
Proof.
  induction a as [|x a IH]; cbn; [intros H; repeat split; [constructor|exact H|intros ? []]|].
  inversion 1 as [|? ? N ND]; subst. destruct (IH ND) as (A1 & B1 & C1). repeat split; [constructor; [intros I; apply N, in_or_app; auto|exact A1]|exact B1|].
  intros y [<-|I]; [intros J; apply N, in_or_app; auto|auto].
Qed.

Lemma pop_sparse_get sfs : forall d, NoDup (flat_map sparse_claim sfs) ->
  (forall sf k, In sf sfs -> In k (value_feature sf :: index_feature sf) -> dict_get d k <> None) ->
  exists d', pop_sparse d sfs = Returned d' /\
    (forall sf, In sf sfs -> dict_get d' (s_name sf) = dict_get d (value_feature sf)) /\
    (forall k, ~ In k (flat_map sparse_claim sfs) -> dict_get d' k = dict_get d k).
Proof.
  induction sfs as [|sf sfs IH]; intros d ND P; [eexists; split; [reflexivity|split; [intros ? []|auto]]|].
  cbn [pop_sparse flat_map] in *. apply NoDup_app_parts in ND as (NC & ND & DJ). unfold sparse_claim in NC.
  inversion NC as [|? ? N1 NC1]; subst. inversion NC1 as [|? ? N2 NC2]; subst.
  destruct (pop_all_get (index_feature sf) d NC2) as (d1 & -> & G1); [intros k I; apply (P sf k (or_introl eq_refl)); right; exact I|].
  cbn [bind]. assert (GV : dict_get d1 (value_feature sf) = dict_get d (value_feature sf)) by (apply G1, N2).
  destruct (dict_get d (value_feature sf)) as [v|] eqn:EV; [|exfalso; apply (P sf (value_feature sf) (or_introl eq_refl) (or_introl eq_refl)), EV].
  destruct (dict_pop_some d1 _ v GV) as (d2 & -> & G2).
  assert (FR : forall k, ~ In k (sparse_claim sf) -> dict_get (dict_set d2 (s_name sf) v) k = dict_get d k).
  { intros k NI. rewrite dict_set_get, G2. destruct (String.eqb_spec (s_name sf) k) as [EE|]; [exfalso; apply NI; rewrite <- EE; left; reflexivity|].
    destruct (String.eqb_spec (value_feature sf) k) as [EE|]; [exfalso; apply NI; rewrite <- EE; right; left; reflexivity|].
    apply G1. intros I; apply NI; right; right; exact I. }
  destruct (IH (dict_set d2 (s_name sf) v) ND) as (d3 & -> & G3 & F3).
  { intros sf' k I J. rewrite FR; [apply (P sf' k (or_intror I) J)|]. intros K. apply (DJ k K). apply in_flat_map. exists sf'; split; [exact I|right; exact J]. }
  exists d3; split; [reflexivity|split].
  - intros sf' [<-|I].
    + rewrite F3 by (intros K; apply (DJ (s_name sf)); [left; reflexivity|exact K]). rewrite dict_set_get, String.eqb_refl. symmetry; exact EV.
    + rewrite (G3 sf' I). apply FR. intros K. apply (DJ _ K). apply in_flat_map. exists sf'; split; [exact I|right; left; reflexivity].
  - intros k NI. rewrite F3 by (intros K; apply NI, in_or_app; auto). apply FR. intros K; apply NI, in_or_app; auto.
Qed.

Definition ragged_claim (nr : string * ragged_representation) : list string :=
  fst nr :: feature_path (snd nr) :: row_length_keys (r_partitions (snd nr)).
Lemma pop_ragged_get rs : forall d, NoDup (flat_map ragged_claim rs) ->
  (forall nr k, In nr rs -> In k (feature_path (snd nr) :: row_length_keys (r_partitions (snd nr))) -> dict_get d k <> None) ->
  exists d', pop_ragged d rs = Returned d' /\
    (forall nr, In nr rs -> dict_get d' (fst nr) = dict_get d (feature_path (snd nr))) /\
    (forall k, ~ In k (flat_map ragged_claim rs) -> dict_get d' k = dict_get d k).
Proof.
  induction rs as [|[name r] rs IH]; intros d ND P; [eexists; split; [reflexivity|split; [intros ? []|auto]]|].
  cbn [pop_ragged flat_map] in *. apply NoDup_app_parts in ND as (NC & ND & DJ). unfold ragged_claim in NC. cbn [fst snd] in NC.
  inversion NC as [|? ? N1 NC1]; subst. inversion NC1 as [|? ? N2 NC2]; subst. unfold pop_ragged_source_columns.
  destruct (dict_get d (feature_path r)) as [v|] eqn:EV; [|exfalso; apply (P (name, r) (feature_path r) (or_introl eq_refl) (or_introl eq_refl)), EV].
  destruct (dict_pop_some d _ v EV) as (d1 & -> & G1).
  destruct (pop_all_get (row_length_keys (r_partitions r)) d1 NC2) as (d2 & -> & G2).
  { intros k I. rewrite G1. destruct (String.eqb_spec (feature_path r) k) as [E|]; [rewrite E in N2; contradiction|].
    apply (P (name, r) k (or_introl eq_refl)); right; exact I. }
  cbn [bind fst snd].
  assert (FR : forall k, ~ In k (ragged_claim (name, r)) -> dict_get (dict_set d2 name v) k = dict_get d k).
  { intros k NI. unfold ragged_claim in NI. cbn [fst snd] in NI. rewrite dict_set_get. destruct (String.eqb_spec name k) as [EE|]; [exfalso; apply NI; rewrite <- EE; left; reflexivity|].
    rewrite G2 by (intros I; apply NI; right; right; exact I). rewrite G1.
    destruct (String.eqb_spec (feature_path r) k) as [EE|]; [exfalso; apply NI; rewrite <- EE; right; left; reflexivity|reflexivity]. }
  destruct (IH (dict_set d2 name v) ND) as (d3 & -> & G3 & F3).
  { intros nr k I J. rewrite FR; [apply (P nr k (or_intror I) J)|]. intros K. apply (DJ k K). apply in_flat_map. exists nr; split; [exact I|right; exact J]. }
  exists d3; split; [reflexivity|split].
  - intros nr [<-|I]; cbn [fst snd].
    + rewrite F3 by (intros K; apply (DJ name); [left; reflexivity|exact K]). rewrite dict_set_get, String.eqb_refl. symmetry; exact EV.
    + rewrite (G3 nr I). apply FR. intros K. apply (DJ _ K). apply in_flat_map. exists nr; split; [exact I|right; left; reflexivity].
  - intros k NI. rewrite F3 by (intros K; apply NI, in_or_app; auto). apply FR. intros K; apply NI, in_or_app; auto.
Qed.

(** ** Annotations of columns *)
Definition with_metadata (f : feature) (l : list any) : feature :=
  Feature (f_name f) (f_type f) (min_fraction_1 f) (f_shape f) (f_domain f) (extra_metadata f ++ l).
Lemma with_metadata_nil f : with_metadata f [] = f.
Proof. destruct f; unfold with_metadata; cbn. rewrite app_nil_r. reflexivity. Qed.
Lemma annotate_at_map l fs : forall p v, NoDup (map f_name fs) -> named fs p v ->
  annotate_at p l fs = map (fun f => if String.eqb (f_name f) v then with_metadata f l else f) fs.
Proof.
  induction fs as [|f fs IH]; intros p v ND (g & E & GN); [destruct p; discriminate|]. inversion ND as [|? ? N ND']; subst.
  destruct p as [|p]; cbn [annotate_at map].
  - cbn in E. injection E as ->. rewrite String.eqb_refl. f_equal. rewrite <- (map_id fs) at 1. apply map_ext_in. intros h I.
    destruct (String.eqb_spec (f_name h) (f_name g)) as [EE|]; [|reflexivity]. exfalso; apply N. rewrite <- EE. apply in_map, I.
  - cbn in E. destruct (String.eqb_spec (f_name f) (f_name g)) as [EE|].
    + exfalso; apply N. rewrite EE. apply in_map. exact (nth_error_In _ _ E).
    + f_equal. apply IH; [exact ND'|]. exists g; split; [exact E|reflexivity].
Qed.
Lemma named_map F fs p v : (forall f, f_name (F f) = f_name f) -> named fs p v -> named (map F fs) p v.
Proof. intros K (g & E & N). exists (F g). split; [apply map_nth_error, E|rewrite K; exact N]. Qed.
Lemma add_annotations_ok by_name (V : string -> string) anns : forall fs, NoDup (map f_name fs) ->
  (forall n l, In (n, l) anns -> exists p, dict_get by_name n = Some p /\ named fs p (V n)) ->
  add_annotations by_name fs anns =
  Returned (map (fun f => with_metadata f (flat_map (fun nl => if String.eqb (V (fst nl)) (f_name f) then snd nl else []) anns)) fs).
Proof.
  induction anns as [|[n l] anns IH]; intros fs ND P; cbn [add_annotations flat_map].
  - f_equal. rewrite <- (map_id fs) at 1. apply map_ext. intros f. symmetry; apply with_metadata_nil.
  - destruct (P n l (or_introl eq_refl)) as (p & -> & NM). rewrite (annotate_at_map l fs p (V n) ND NM).
    set (F := fun f : feature => if String.eqb (f_name f) (V n) then with_metadata f l else f).
    assert (K : forall f, f_name (F f) = f_name f) by (intros f; unfold F; destruct (String.eqb _ _); reflexivity).
    rewrite IH.
    + f_equal. rewrite map_map. apply map_ext. intros f. rewrite K. unfold F. cbn [fst snd].
      rewrite (String.eqb_sym (V n)). destruct (String.eqb (f_name f) (V n)); [|reflexivity].
      unfold with_metadata. cbn. rewrite app_assoc. reflexivity.
    + rewrite map_map. rewrite (map_ext _ _ K). exact ND.
    + intros m l' I. destruct (P m l' (or_intror I)) as (q & G & NQ). exists q; split; [exact G|]. apply named_map; assumption.
Qed.
Lemma flat_map_key {V} (f : string -> bool) n (fa : dict (list V)) : NoDup (map fst fa) ->
  (forall m, In m (map fst fa) -> f m = String.eqb m n) ->
  flat_map (fun nl => if f (fst nl) then snd nl else []) fa = match dict_get fa n with Some l => l | None => [] end.
Proof.
  induction fa as [|[m l] fa IH]; [reflexivity|]. intros ND H. inversion ND as [|? ? N ND']; subst. cbn [flat_map fst snd]. rewrite dict_get_cons.
  rewrite (H m (or_introl eq_refl)). rewrite IH; [|exact ND'|intros k I; apply H; right; exact I].
  destruct (String.eqb_spec m n) as [->|]; [|reflexivity].
  assert (G : dict_get fa n = None) by (apply dict_get_None; exact N). rewrite G. apply app_nil_r.
Qed.

(** ** Descriptions *)
Lemma append_nil_inv (s t : string) : (s ++ t)%string = s -> t = ""%string.
Proof. induction s as [|c s IH]; cbn; [auto|]. intros [= E]. auto. Qed.
Lemma ragged_partitions_eq name dims : forall k,
  ragged_partitions name k dims =
  map (fun i => match nth i dims None with
                | Some n => Uniform_row_length n
                | None => Row_lengths (length_column name (k + length (filter (fun d => match d with None => true | Some _ => false end) (firstn i dims))))
                end) (seq 0 (length dims)).
Proof.
  induction dims as [|[n|] dims IH]; intros k; [reflexivity| |]; cbn [ragged_partitions length seq map nth firstn filter].
  - f_equal. rewrite IH, <- seq_shift, map_map. reflexivity.
  - cbn [List.length]. rewrite Nat.add_0_r. f_equal. rewrite IH, <- seq_shift, map_map. apply map_ext. intros i. cbn [nth firstn filter length].
    destruct (nth i dims None); [reflexivity|]. do 2 f_equal. lia.
Qed.

Section Common.
Context (domain : output -> option int_domain) (annotations : output -> list any)
        (is_said_sparse : output -> bool) (given_shape : output -> option (list Z)).
Notation describe' := (describe domain annotations is_said_sparse given_shape).
Notation bare := (describe domain (fun _ => []) is_said_sparse given_shape).
Notation taken' := (taken domain annotations is_said_sparse given_shape).

(** The column of the values of an output. *)
Definition value_name (no : string * output) : string :=
  match snd no with
  | Dense _ _ _ => fst no
  | Sparse _ _ _ (Some shape) => if (2 <? length shape) || is_said_sparse (snd no) then value_column (fst no) else fst no
  | Sparse _ _ _ None => fst no
  | Ragged _ _ _ => ragged_column (fst no)
  end.

Lemma column_neq name s : s <> ""%string -> String.eqb (name ++ s) name = false.
Proof. intros N. apply String.eqb_neq. intros E. apply N, (append_nil_inv name), E. Qed.
Lemma index_column_neq name i : String.eqb (index_column name i) name = false.
Proof. apply column_neq. discriminate. Qed.
Lemma value_column_neq name : String.eqb (value_column name) name = false.
Proof. apply column_neq. discriminate. Qed.
Lemma ragged_column_neq name : String.eqb (ragged_column name) name = false.
Proof. apply column_neq. discriminate. Qed.
Lemma length_column_neq name i : String.eqb (length_column name i) name = false.
Proof. apply column_neq. discriminate. Qed.
Lemma filter_all {A} (f : A -> bool) l : (forall a, In a l -> f a = true) -> filter f l = l.
Proof. induction l as [|a l IH]; [reflexivity|]. intros H. cbn. rewrite (H a (or_introl eq_refl)), IH; [reflexivity|]. intros b I; apply H; right; exact I. Qed.

Definition length_names (name : string) (dims : list (option nat)) : list string := row_length_keys (row_partitions name dims).
Lemma length_names_columns name dims k : In k (length_names name dims) -> exists i, k = length_column name i.
Proof.
  unfold length_names, row_length_keys. rewrite in_flat_map. intros (p & I & J). unfold row_partitions in I. apply in_map_iff in I as (i & <- & _).
  destruct (nth i dims None); [destruct J|]. destruct J as [<-|[]]. eauto.
Qed.

(** The three kinds of descriptions. *)
Inductive described (no : string * output) : Prop :=
| Plain : (exists fields, bare (fst no) (snd no) = Description [Feature (fst no) (fst (fst fields)) (snd (fst fields)) (snd fields) (domain (snd no)) []] [] []
           /\ describe' (fst no) (snd no) = Description [Feature (fst no) (fst (fst fields)) (snd (fst fields)) (snd fields) (domain (snd no)) (annotations (snd no))] [] [])
          -> taken' no = [fst no] -> value_name no = fst no -> described no
| In_sparse ii vv d shape : snd no = Sparse ii vv d (Some shape) -> (2 <? length shape) || is_said_sparse (snd no) = true ->
    taken' no = fst no :: map (index_column (fst no)) (seq 0 (length (tl shape))) ++ [value_column (fst no)] ->
    value_name no = value_column (fst no) -> described no
| In_ragged f d shape : snd no = Ragged f d (Some shape) ->
    taken' no = fst no :: ragged_column (fst no) :: length_names (fst no) (tl shape) ->
    value_name no = ragged_column (fst no) -> described no.

Lemma describable_described known no : describable is_said_sparse given_shape known (snd no) -> described no.
Proof.
  destruct no as [name o]. cbn [snd]. intros [D H]. destruct o as [t d shape|i v d shape|f d shape].
  - destruct H as (b & dims & -> & _). apply Plain; [|unfold taken; cbn; rewrite String.eqb_refl; reflexivity|reflexivity].
    exists (type_of d, true, Some dims). split; reflexivity.
  - destruct H as (dims & -> & _). destruct ((2 <? length dims) || is_said_sparse (Sparse i v d (Some dims))) eqn:C.
    + eapply In_sparse; [reflexivity|exact C| |unfold value_name; cbn [fst snd]; rewrite C; reflexivity].
      unfold taken. cbn [fst snd describe]. rewrite C. cbn [columns]. rewrite map_app, map_map. cbn [map f_name]. f_equal. apply filter_all.
      intros c I. apply in_app_iff in I as [I|[<-|[]]]; [|rewrite value_column_neq; reflexivity].
      apply in_map_iff in I as (j & <- & _). rewrite index_column_neq. reflexivity.
    + apply Plain; [|unfold taken; cbn [fst snd describe]; rewrite C; cbn; rewrite String.eqb_refl; reflexivity
        |unfold value_name; cbn [fst snd]; rewrite C; reflexivity].
      exists (type_of d, false, None). cbn [fst snd describe]. rewrite C. split; reflexivity.
  - destruct shape as [shape|]; [|congruence]. eapply In_ragged; [reflexivity| |reflexivity].
    unfold taken. cbn [fst snd describe columns]. rewrite flat_map_row_lengths. cbn [map f_name]. rewrite map_map. cbn [f_name]. rewrite map_id.
    f_equal. fold (length_names name (tl shape)). apply filter_all. intros c [<-|I]; [rewrite ragged_column_neq; reflexivity|].
    apply length_names_columns in I as (j & ->). rewrite length_column_neq. reflexivity.
Qed.

Lemma bare_columns no : map f_name (columns (bare (fst no) (snd no))) = map f_name (columns (describe' (fst no) (snd no))).
Proof.
  destruct no as [name [t d [[|b dims]|]|i v d [shape|]|f d [shape|]]]; cbn [fst snd describe]; try reflexivity.
  - destruct (_ || _); [|reflexivity]. cbn [columns]. rewrite !map_app. reflexivity.
Qed.
(** Columns are taken. *)
Lemma columns_taken no c : In c (map f_name (columns (bare (fst no) (snd no)))) -> In c (taken' no).
Proof.
  rewrite bare_columns. intros I. unfold taken. destruct (string_dec c (fst no)) as [->|N]; [left; reflexivity|]. right.
  apply filter_In. split; [exact I|]. apply String.eqb_neq in N. rewrite N. reflexivity.
Qed.
Lemma value_name_taken no : described no -> In (value_name no) (taken' no).
Proof.
  intros [_ -> ->|? ? ? shape _ _ -> ->|? ? shape _ -> ->]; [left; reflexivity| |right; left; reflexivity].
  right. apply in_or_app. right; left; reflexivity.
Qed.
Lemma value_name_column no : described no -> In (value_name no) (map f_name (columns (bare (fst no) (snd no)))).
Proof.
  intros [(fi & -> & _) _ ->|i v d shape E C _ ->|f d shape E _ ->]; [left; reflexivity| |].
  - rewrite E in *. cbn [fst snd describe]. rewrite C. cbn [columns]. rewrite map_app. apply in_or_app; right; left; reflexivity.
  - rewrite E. left; reflexivity.
Qed.

(** Adding the annotations to the bare description. *)
Lemma describe_annotated no : described no -> NoDup (taken' no) ->
  columns (describe' (fst no) (snd no)) =
  map (fun f => with_metadata f (if String.eqb (f_name f) (value_name no) then annotations (snd no) else [])) (columns (bare (fst no) (snd no))).
Proof.
  intros [(fi & E1 & E2) _ VN|i v d shape E C TK VN|f d shape E TK VN] ND; rewrite VN.
  - rewrite E1, E2. cbn [columns map f_name]. rewrite String.eqb_refl. reflexivity.
  - rewrite TK in ND. inversion ND as [|? ? _ ND1]; subst. apply NoDup_app_parts in ND1 as (_ & _ & DJ). rewrite E in *. cbn [fst snd describe]. rewrite C.
    cbn [columns]. rewrite map_app, map_map. cbn [map f_name]. rewrite String.eqb_refl. f_equal. apply map_ext_in. intros j I.
    destruct (String.eqb_spec (index_column (fst no) j) (value_column (fst no))) as [EE|]; [|reflexivity].
    exfalso. apply (DJ (index_column (fst no) j)); [apply in_map, I|rewrite EE; left; reflexivity].
  - rewrite TK in ND. inversion ND as [|? ? _ ND1]; subst. inversion ND1 as [|? ? NI _]; subst. rewrite E in *. cbn [fst snd describe columns map f_name].
    rewrite String.eqb_refl. f_equal. rewrite flat_map_row_lengths, map_map. apply map_ext_in. intros k I. cbn [f_name].
    destruct (String.eqb_spec k (ragged_column (fst no))) as [->|]; [|reflexivity]. exfalso; exact (NI I).
Qed.
Lemma describe_sparse no : sparse (describe' (fst no) (snd no)) = sparse (bare (fst no) (snd no)).
Proof. destruct no as [name [t d [[|b dims]|]|i v d [shape|]|f d [shape|]]]; cbn [fst snd describe]; try reflexivity. destruct (_ || _); reflexivity. Qed.
Lemma describe_ragged no : ragged (describe' (fst no) (snd no)) = ragged (bare (fst no) (snd no)).
Proof. destruct no as [name [t d [[|b dims]|]|i v d [shape|]|f d [shape|]]]; cbn [fst snd describe]; try reflexivity. destruct (_ || _); reflexivity. Qed.
End Common.
