(** * Proofs about schemas, 4: from calls to what is known of outputs *)
From Coq Require Import String Ascii List ZArith Bool Arith Lia DecimalString Permutation Sorted.
From Verif Require Import SortModel SortProofs SchemaModel SchemaSpec SchemaProofs SchemaCommon SchemaInfer.
Import ListNotations.
Local Open Scope list_scope.

Local Notation length := List.length.

(** ** Names of constants *)
Lemma append_assoc (a b c : string) : ((a ++ b) ++ c = a ++ (b ++ c))%string.
Proof. induction a as [|x a IH]; cbn; [reflexivity|]. rewrite IH. reflexivity. Qed.
Lemma append_nil_r (a : string) : (a ++ "")%string = a.
Proof. induction a as [|x a IH]; cbn; [reflexivity|]. rewrite IH. reflexivity. Qed.
Lemma prefix_spec a : forall s, String.prefix a s = true <-> exists rest, s = (a ++ rest)%string.
Proof.
  induction a as [|c a IH]; intros s; [split; [intros _; exists s; reflexivity|intros _; destruct s; reflexivity]|].
  destruct s as [|d s]; cbn; [split; [discriminate|intros (r & E); discriminate]|].
  destruct (ascii_dec c d) as [->|N].
  - rewrite IH. split; intros (r & E); exists r; [rewrite E; reflexivity|injection E as E; exact E].
  - split; [discriminate|intros (r & E)]. injection E as E _. congruence.
Qed.
Lemma no_slash_cons c s : ~ has_slash (String c s) <-> c <> "/"%char /\ ~ has_slash s.
Proof.
  split.
  - intros N. split; [intros ->; apply N; exists ""%string, s; reflexivity|]. intros (a & b & E). apply N. exists (String c a), b. rewrite E. reflexivity.
  - intros [D N] (a & b & E). destruct a as [|x a]; cbn in E; injection E as E1 E2; [congruence|]. apply N. exists a, b. exact E2.
Qed.
Lemma no_slash_empty : ~ has_slash "". Proof. intros ([|] & b & E); discriminate. Qed.
Lemma last_component_no_slash s : forall acc, ~ has_slash s -> last_component acc s = (acc ++ s)%string.
Proof.
  induction s as [|c s IH]; intros acc N; cbn [last_component]; [symmetry; apply append_nil_r|].
  apply no_slash_cons in N as [D N]. destruct (Ascii.eqb_spec c "/"); [congruence|]. rewrite IH by exact N. rewrite append_assoc. reflexivity.
Qed.
Lemma last_component_scope a : forall acc b, last_component acc (a ++ "/" ++ b) = last_component "" b.
Proof.
  induction a as [|c a IH]; intros acc b; cbn [append last_component]; [reflexivity|]. destruct (Ascii.eqb c "/"); apply IH.
Qed.
(** The parts of a name. *)
Lemma scope_split s : ~ has_slash s \/ exists a b, s = (a ++ "/" ++ b)%string /\ ~ has_slash b.
Proof.
  induction s as [|c s IH]; [left; exact no_slash_empty|]. destruct IH as [N|(a & b & -> & N)].
  - destruct (ascii_dec c "/") as [->|D].
    + right. exists ""%string, s. split; [reflexivity|exact N].
    + left. apply no_slash_cons. auto.
  - right. exists (String c a), b. split; [reflexivity|exact N].
Qed.
Lemma no_slash_append a b : ~ has_slash a -> ~ has_slash b -> ~ has_slash (a ++ b).
Proof. induction a as [|c a IH]; cbn; [auto|]. rewrite !no_slash_cons. intros [D N] M. auto. Qed.
Lemma no_slash_suffix a b : ~ has_slash (a ++ b) -> ~ has_slash b.
Proof. induction a as [|c a IH]; cbn; [auto|]. rewrite no_slash_cons. intros [_ N]. auto. Qed.
Lemma global_sentinel_no_slash : ~ has_slash global_sentinel.
Proof. unfold global_sentinel. repeat (apply no_slash_cons; split; [discriminate|]). exact no_slash_empty. Qed.
Lemma sentinel_spec n : named_like_sentinel n = true <-> sentinel n.
Proof.
  unfold named_like_sentinel. rewrite prefix_spec. unfold sentinel. fold global_sentinel. split.
  - intros (rest & E). destruct (scope_split n) as [N|(a & b & -> & N)].
    + rewrite last_component_no_slash in E by exact N. cbn [append] in E. subst n. exists rest. split; [exact (no_slash_suffix _ _ N)|left; reflexivity].
    + rewrite last_component_scope, last_component_no_slash in E by exact N. cbn [append] in E. subst b. exists rest. split; [exact (no_slash_suffix _ _ N)|].
      right. exists a. reflexivity.
  - intros (rest & N & [->|(scope & ->)]); exists rest.
    + rewrite last_component_no_slash; [reflexivity|]. apply no_slash_append; [exact global_sentinel_no_slash|exact N].
    + change ("/tft_schema_override_global_sentinel" ++ rest)%string with ("/" ++ (global_sentinel ++ rest))%string.
      etransitivity; [exact (last_component_scope scope "" (global_sentinel ++ rest))|]. rewrite last_component_no_slash; [reflexivity|]. apply no_slash_append; [exact global_sentinel_no_slash|exact N].
Qed.
Lemma not_sentinel n : ~ sentinel n -> named_like_sentinel n = false.
Proof. intros N. apply not_true_iff_false. rewrite sentinel_spec. exact N. Qed.

(** ** Collections *)
Definition override_entries (calls : list call) : list (string * (string * string)) :=
  flat_map (fun c => match c with Set_tensor_schema_override t _ lo hi => [(t, (lo, hi))] | _ => [] end) calls.
Definition annotation_entries (calls : list call) : list (target * (string * string)) :=
  flat_map (fun c => match c with Annotate u p t => [(t, (u, p))] | _ => [] end) calls.
Definition shape_entries (calls : list call) : list (string * string) :=
  flat_map (fun c => match c with Annotate_sparse_output_shape _ v s => [(v, s)] | _ => [] end) calls.
Definition sparse_entries (calls : list call) : list string :=
  flat_map (fun c => match c with Annotate_true_sparse_output _ v => [v] | _ => [] end) calls.

Lemma trace_collections calls : forall g g', trace_calls g calls = Returned g' ->
  override_tensors g' = override_tensors g ++ map fst (override_entries calls) /\
  override_mins g' = override_mins g ++ map (fun e => fst (snd e)) (override_entries calls) /\
  override_maxs g' = override_maxs g ++ map (fun e => snd (snd e)) (override_entries calls) /\
  annotation_tensors g' = annotation_tensors g ++ map fst (annotation_entries calls) /\
  annotation_type_urls g' = annotation_type_urls g ++ map (fun e => fst (snd e)) (annotation_entries calls) /\
  annotation_protos g' = annotation_protos g ++ map (fun e => snd (snd e)) (annotation_entries calls) /\
  shape_tensors g' = shape_tensors g ++ map fst (shape_entries calls) /\
  shapes g' = shapes g ++ map snd (shape_entries calls) /\
  sparse_tensors g' = sparse_tensors g ++ sparse_entries calls /\
  (forall t d lo hi, In (Set_tensor_schema_override t d lo hi) calls -> d = Int64).
Proof.
  induction calls as [|c calls IH]; intros g g' H.
  - injection H as <-. cbn. rewrite !app_nil_r. repeat split; auto. intros t d lo hi [].
  - cbn [trace_calls] in H. apply bind_returned in H as (g1 & E & H). apply IH in H as (H1 & H2 & H3 & H4 & H5 & H6 & H7 & H8 & H9 & H10).
    destruct c as [t d lo hi|u p t|i v s|i v]; cbn [make_call] in E.
    1: destruct (dtype_eqb d Int64) eqn:D; [|discriminate].
    all: injection E as <-; cbn [override_tensors override_mins override_maxs annotation_tensors annotation_type_urls annotation_protos shape_tensors shapes sparse_tensors] in *;
      rewrite H1, H2, H3, H4, H5, H6, H7, H8, H9; cbn; rewrite <- ?app_assoc; repeat split; try reflexivity.
    all: intros t' d' lo' hi' [Q|I]; [|exact (H10 _ _ _ _ I)]; try discriminate. injection Q as -> -> -> ->. destruct d'; try discriminate; reflexivity.
Qed.

Lemma combine_projections {A B C} (l : list (A * (B * C))) :
  combine (map fst l) (combine (map (fun e => fst (snd e)) l) (map (fun e => snd (snd e)) l)) = l.
Proof. induction l as [|[a [b c]] l IH]; [reflexivity|]. cbn. rewrite IH. reflexivity. Qed.
Lemma combine_pairs {A B C} (l : list (A * (B * C))) : combine (map (fun e => fst (snd e)) l) (map (fun e => snd (snd e)) l) = map snd l.
Proof. induction l as [|[a [b c]] l IH]; [reflexivity|]. cbn. rewrite IH. reflexivity. Qed.
Lemma combine_fst_snd {A B} (l : list (A * B)) : combine (map fst l) (map snd l) = l.
Proof. induction l as [|[a b] l IH]; [reflexivity|]. cbn. rewrite IH. reflexivity. Qed.
Lemma combine_maps {A B C} (f : A -> B) (g : A -> C) l : combine (map f l) (map g l) = map (fun a => (f a, g a)) l.
Proof. induction l as [|a l IH]; [reflexivity|]. cbn. rewrite IH. reflexivity. Qed.

(** ** Dicts made of lists *)
Fixpoint last_of {V} (l : list (string * V)) (k : string) : option V :=
  match l with
  | [] => None
  | (k', v) :: l' => match last_of l' k with Some w => Some w | None => if String.eqb k' k then Some v else None end
  end.
Lemma fold_set_get {V} (l : list (string * V)) : forall d k,
  dict_get (fold_left (fun d kv => dict_set d (fst kv) (snd kv)) l d) k = match last_of l k with Some v => Some v | None => dict_get d k end.
Proof.
  induction l as [|[k' v] l IH]; intros d k; [reflexivity|]. cbn [fold_left last_of fst snd]. rewrite IH, dict_set_get.
  destruct (last_of l k); [reflexivity|]. destruct (String.eqb k' k); reflexivity.
Qed.
Lemma to_dict_get {V} (l : list (string * V)) k : dict_get (to_dict l) k = last_of l k.
Proof. unfold to_dict. rewrite fold_set_get. destruct (last_of l k); reflexivity. Qed.
Lemma dict_set_keys {V} (d : dict V) k v : NoDup (map fst d) -> NoDup (map fst (dict_set d k v)).
Proof.
  intros ND. destruct (in_dec string_dec k (map fst d)) as [I|N].
  - rewrite dict_set_map by assumption. rewrite map_map. exact ND.
  - rewrite dict_set_new by assumption. rewrite map_app. cbn. eapply Permutation_NoDup; [apply Permutation_cons_append|]. constructor; assumption.
Qed.
Lemma to_dict_keys {V} (l : list (string * V)) : NoDup (map fst (to_dict l)).
Proof.
  unfold to_dict. assert (H : NoDup (map fst (@nil (string * V)))) by constructor. revert H. generalize (@nil (string * V)).
  induction l as [|a l IH]; intros d H; [exact H|]. cbn [fold_left]. apply IH, dict_set_keys, H.
Qed.
Lemma last_of_In {V} (l : list (string * V)) k v : last_of l k = Some v -> In (k, v) l.
Proof.
  induction l as [|[k' w] l IH]; [discriminate|]. cbn. destruct (last_of l k); [intros [= ->]; right; auto|].
  destruct (String.eqb_spec k' k) as [->|]; [intros [= ->]; left; reflexivity|discriminate].
Qed.
Lemma last_of_None {V} (l : list (string * V)) k : last_of l k = None <-> ~ In k (map fst l).
Proof.
  induction l as [|[k' w] l IH]; [cbn; tauto|]. cbn [last_of map fst In]. destruct (last_of l k) as [v|] eqn:E.
  - split; [discriminate|]. intros N. exfalso. apply N. right. apply (in_map fst _ _ (last_of_In _ _ _ E)).
  - destruct (String.eqb_spec k' k) as [->|D]; [split; [discriminate|intros N; exfalso; auto]|]. split; [|auto]. intros _ [Q|I]; [auto|]. tauto.
Qed.
Lemma to_dict_In {V} (l : list (string * V)) k : In k (map fst (to_dict l)) -> In k (map fst l).
Proof.
  intros I. destruct (dict_get (to_dict l) k) as [v|] eqn:G; [|apply dict_get_None in G; contradiction].
  rewrite to_dict_get in G. apply (in_map fst _ _ (last_of_In _ _ _ G)).
Qed.
Lemma last_of_map {V W} (f : V -> W) l k : last_of (map (fun kv => (fst kv, f (snd kv))) l) k = option_map f (last_of l k).
Proof.
  induction l as [|[k' v] l IH]; [reflexivity|]. cbn [map last_of fst snd]. rewrite IH. destruct (last_of l k); [reflexivity|].
  cbn. destruct (String.eqb k' k); reflexivity.
Qed.
(** Keys renamed. *)
Lemma last_of_renamed {V} (keys : string -> option string) n v (l : list (string * V)) : (forall t, In t (map fst l) -> keys t = Some n <-> t = v) ->
  last_of (flat_map (fun tx => match keys (fst tx) with Some k => [(k, snd tx)] | None => [] end) l) n = last_of l v.
Proof.
  induction l as [|[t x] l IH]; [reflexivity|]. intros H. cbn [flat_map fst snd last_of].
  assert (H' : forall t, In t (map fst l) -> keys t = Some n <-> t = v) by (intros s I; apply H; right; exact I). specialize (IH H').
  destruct (keys t) as [k|] eqn:K.
  - cbn [app last_of]. rewrite IH. destruct (last_of l v); [reflexivity|].
    destruct (String.eqb_spec k n) as [->|N]; destruct (String.eqb_spec t v) as [->|M]; try reflexivity.
    + exfalso; apply M, (proj1 (H t (or_introl eq_refl))), K.
    + exfalso. apply N. pose proof (proj2 (H v (or_introl eq_refl)) eq_refl) as K'. congruence.
  - cbn [app]. rewrite IH. destruct (last_of l v); [reflexivity|]. destruct (String.eqb_spec t v) as [->|]; [|reflexivity].
    assert (Q : keys v = Some n) by (apply (H v (or_introl eq_refl)); reflexivity). congruence.
Qed.

Lemma flat_map_opt_get {A V} (F : string * A -> option V) (d : dict A) n o : NoDup (map fst d) -> In (n, o) d ->
  dict_get (flat_map (fun no => match F no with Some x => [(fst no, x)] | None => [] end) d) n = F (n, o).
Proof.
  induction d as [|[m p] d IH]; [intros _ []|]. cbn [map fst]. inversion 1 as [|? ? N ND]; subst. intros [[= -> ->]|I]; cbn [flat_map].
  - rewrite dict_get_app. destruct (F (n, o)) as [x|] eqn:E; [rewrite dict_get_cons; cbn [fst]; rewrite String.eqb_refl; reflexivity|].
    cbn. apply dict_get_None. intros J. apply in_map_iff in J as ([k x] & EQ & J). apply in_flat_map in J as ([m' p'] & K & J).
    cbn in EQ. destruct (F (m', p')); [|destruct J]. destruct J as [[= <- <-]|[]]. subst. apply N, (in_map fst _ _ K).
  - rewrite dict_get_app, IH by assumption. destruct (F (m, p)) as [x|]; [|reflexivity]. rewrite dict_get_cons. cbn [fst].
    destruct (String.eqb_spec m n) as [->|]; [exfalso; apply N, (in_map fst _ _ I)|reflexivity].
Qed.
Lemma flat_map_opt_keys {A V} (F : string * A -> option V) (d : dict A) : NoDup (map fst d) ->
  NoDup (map fst (flat_map (fun no => match F no with Some x => [(fst no, x)] | None => [] end) d)) /\
  (forall n, In n (map fst (flat_map (fun no => match F no with Some x => [(fst no, x)] | None => [] end) d)) -> In n (map fst d)).
Proof.
  induction d as [|[m p] d IH]; [split; [constructor|intros ? []]|]. cbn [map fst flat_map]. inversion 1 as [|? ? N ND]; subst.
  destruct (IH ND) as [I1 I2]. destruct (F (m, p)); cbn [map app fst].
  - split; [constructor; [intros J; apply N, I2, J|exact I1]|]. intros n [->|J]; [left; reflexivity|right; auto].
  - split; [exact I1|]. intros n J; right; auto.
Qed.

(** ** What calls say *)
Lemma range_last calls t : last_of (override_entries calls) t = range_set calls t.
Proof.
  induction calls as [|c calls IH]; [reflexivity|]. cbn [range_set]. destruct c as [t' d lo hi|u p t'|i v s|i v]; cbn [override_entries flat_map app last_of];
    fold (override_entries calls); rewrite IH; destruct (range_set calls t); reflexivity.
Qed.

Lemma values_eq o : get_tensor_values o = values_of o. Proof. destruct o; reflexivity. Qed.
Lemma output_dtype_eq o : output_dtype o = dtype_of o. Proof. destruct o; reflexivity. Qed.

(** Of an output that is sparse, if values are not shared. *)
Definition sparse_known (ses : session) (calls : list call) (v : string) : option sparse_annotation :=
  match last_of (shape_entries calls) v with
  | Some s => Some (Annotated_shape (run_shape ses s))
  | None => if existsb (String.eqb v) (sparse_entries calls) then Some Annotated_sparse else None
  end.
Lemma shape_last ses calls i v : (forall j s, In (Annotate_sparse_output_shape j v s) calls -> i = j) ->
  option_map (run_shape ses) (last_of (shape_entries calls) v) = shape_given ses calls i v.
Proof.
  induction calls as [|c calls IH]; [reflexivity|]. intros H. cbn [shape_given].
  specialize (IH (fun j s I => H j s (or_intror I))). destruct c as [t' d lo hi|u p t'|j w s|j w]; cbn [shape_entries flat_map app last_of];
    fold (shape_entries calls); rewrite <- IH; try (destruct (last_of (shape_entries calls) v); reflexivity).
  destruct (last_of (shape_entries calls) v); [reflexivity|]. destruct (String.eqb_spec w v) as [->|].
  - rewrite (H j s (or_introl eq_refl)), String.eqb_refl. reflexivity.
  - rewrite andb_false_r. reflexivity.
Qed.
Lemma said_known ses calls i v : (forall j s, In (Annotate_sparse_output_shape j v s) calls -> i = j) ->
  (forall j, In (Annotate_true_sparse_output j v) calls -> i = j) ->
  said_sparse calls i v = match sparse_known ses calls v with Some _ => true | None => false end.
Proof.
  intros H1 H2. unfold sparse_known.
  assert (E : said_sparse calls i v = match last_of (shape_entries calls) v with Some _ => true | None => existsb (String.eqb v) (sparse_entries calls) end).
  { induction calls as [|c calls IH]; [reflexivity|]. cbn [said_sparse existsb]. fold (said_sparse calls i v).
    rewrite (IH (fun j s I => H1 j s (or_intror I)) (fun j I => H2 j (or_intror I))).
    destruct c as [t' d lo hi|u p t'|j w s|j w]; cbn [shape_entries sparse_entries flat_map app last_of existsb]; fold (shape_entries calls) (sparse_entries calls); try reflexivity.
    - destruct (last_of (shape_entries calls) v); [apply orb_true_r|]. destruct (String.eqb_spec w v) as [->|].
      + rewrite (H1 j s (or_introl eq_refl)), String.eqb_refl. reflexivity.
      + rewrite andb_false_r. reflexivity.
    - destruct (last_of (shape_entries calls) v); [apply orb_true_r|]. rewrite (String.eqb_sym v). f_equal. destruct (String.eqb_spec w v) as [->|].
      + rewrite (H2 j (or_introl eq_refl)), String.eqb_refl. reflexivity.
      + apply andb_false_r. }
  rewrite E. destruct (last_of (shape_entries calls) v); [reflexivity|]. destruct (existsb _ _); reflexivity.
Qed.
Lemma last_of_app {V} (a b : list (string * V)) k : last_of (a ++ b) k = match last_of b k with Some v => Some v | None => last_of a k end.
Proof. induction a as [|[k' v] a IH]; [cbn; destruct (last_of b k); reflexivity|]. cbn [app last_of]. rewrite IH. destruct (last_of b k); reflexivity. Qed.
Lemma last_of_const {V} (x : V) l k : last_of (map (fun t => (t, x)) l) k = if existsb (String.eqb k) l then Some x else None.
Proof.
  induction l as [|t l IH]; [reflexivity|]. cbn [map last_of existsb]. rewrite IH, (String.eqb_sym k). destruct (existsb _ l); [rewrite orb_true_r; reflexivity|].
  rewrite orb_false_r. reflexivity.
Qed.
Lemma existsb_filter {A} (f g : A -> bool) l : existsb f (filter g l) = existsb (fun a => f a && g a) l.
Proof. induction l as [|a l IH]; [reflexivity|]. cbn. destruct (g a); cbn; rewrite IH; [rewrite andb_true_r|rewrite andb_false_r]; reflexivity. Qed.

Section Traced.
Context (outputs : dict output) (calls : list call) (g : graph) (ses : session).
Hypothesis traced : trace_calls empty_graph calls = Returned g.
Hypothesis is_sane : sane outputs calls.
Hypothesis not_shared : values_not_shared outputs calls.

Lemma collections :
  override_tensors g = map fst (override_entries calls) /\
  override_mins g = map (fun e => fst (snd e)) (override_entries calls) /\
  override_maxs g = map (fun e => snd (snd e)) (override_entries calls) /\
  annotation_tensors g = map fst (annotation_entries calls) /\
  annotation_type_urls g = map (fun e => fst (snd e)) (annotation_entries calls) /\
  annotation_protos g = map (fun e => snd (snd e)) (annotation_entries calls) /\
  shape_tensors g = map fst (shape_entries calls) /\
  shapes g = map snd (shape_entries calls) /\
  sparse_tensors g = sparse_entries calls /\
  (forall t d lo hi, In (Set_tensor_schema_override t d lo hi) calls -> d = Int64).
Proof. exact (trace_collections calls empty_graph g traced). Qed.

Lemma ranges_get t : dict_get (get_tensor_ranges g) t = range_set calls t.
Proof.
  destruct collections as (E1 & E2 & E3 & _). unfold get_tensor_ranges. rewrite E1, E2, E3, combine_projections.
  rewrite <- range_last. apply to_dict_get.
Qed.
Lemma known_last v : last_of (get_sparse_output_annotations ses g) v = sparse_known ses calls v.
Proof.
  destruct collections as (_ & _ & _ & _ & _ & _ & E1 & E2 & E3 & _). unfold get_sparse_output_annotations. rewrite E1, E2, E3, combine_fst_snd, last_of_app.
  rewrite (last_of_map (fun s => Annotated_shape (run_shape ses s))). unfold sparse_known. destruct (last_of (shape_entries calls) v) as [s|] eqn:L; [reflexivity|]. cbn [option_map].
  rewrite last_of_const, existsb_filter. apply last_of_None in L.
  match goal with |- (if ?a then _ else _) = (if ?b then _ else _) => cut (a = b); [intros ->; reflexivity|] end. clear - L. induction (sparse_entries calls) as [|t l IH]; [reflexivity|]. cbn [existsb]. rewrite IH. f_equal.
  destruct (String.eqb_spec v t) as [->|]; [|reflexivity]. cbn [andb]. apply negb_true_iff, not_true_iff_false. rewrite existsb_exists. intros (x & I & Q).
  apply String.eqb_eq in Q. subst. contradiction.
Qed.
Lemma known_sparse n i v d shape : In (n, Sparse i v d shape) outputs ->
  match sparse_known ses calls v with
  | None => sparse_said calls (Sparse i v d shape) = false /\ shape_said ses calls (Sparse i v d shape) = None
  | Some Annotated_sparse => sparse_said calls (Sparse i v d shape) = true /\ shape_said ses calls (Sparse i v d shape) = None
  | Some (Annotated_shape s) => sparse_said calls (Sparse i v d shape) = true /\ shape_said ses calls (Sparse i v d shape) = Some s
  end.
Proof.
  intros I. assert (H1 : forall j s, In (Annotate_sparse_output_shape j v s) calls -> i = j).
  { intros j s J. destruct (not_shared n (Sparse i v d shape) j v I eq_refl) as (_ & A & _). exact (A s d i shape J eq_refl). }
  assert (H2 : forall j, In (Annotate_true_sparse_output j v) calls -> i = j).
  { intros j J. destruct (not_shared n (Sparse i v d shape) j v I eq_refl) as (_ & _ & A). exact (A d i shape J eq_refl). }
  cbn [sparse_said shape_said]. rewrite (said_known ses calls i v H1 H2), <- (shape_last ses calls i v H1). unfold sparse_known.
  destruct (last_of (shape_entries calls) v); [split; reflexivity|]. destruct (existsb _ _); split; reflexivity.
Qed.

Lemma annotation_values : anys ses (annotation_type_urls g) (annotation_protos g) = map (fun e => Any (run_bytes ses (fst (snd e))) (run_bytes ses (snd (snd e)))) (annotation_entries calls).
Proof.
  destruct collections as (_ & _ & _ & _ & E2 & E3 & _). unfold anys. rewrite E2, E3, combine_maps, map_map. reflexivity.
Qed.
Lemma in_annotation_entries t u p : In (t, (u, p)) (annotation_entries calls) <-> In (Annotate u p t) calls.
Proof.
  unfold annotation_entries. rewrite in_flat_map. split.
  - intros (c & I & J). destruct c; cbn in J; try contradiction. destruct J as [[= <- <- <-]|[]]. exact I.
  - intros I. eexists; split; [exact I|left; reflexivity].
Qed.
Lemma selected_annotations (f : target -> bool) (cs : list call) :
  map (fun e => Any (run_bytes ses (fst (snd e))) (run_bytes ses (snd (snd e)))) (filter (fun e => f (fst e)) (annotation_entries cs))
  = flat_map (fun c => match c with Annotate u p t => if f t then [Any (run_bytes ses u) (run_bytes ses p)] else [] | _ => [] end) cs.
Proof.
  induction cs as [|c cs IH]; [reflexivity|]. destruct c as [t d lo hi|u p t|i v s|i v]; cbn [annotation_entries flat_map app]; fold (annotation_entries cs); try exact IH.
  cbn [filter fst]. destruct (f t); cbn [map fst snd app]; rewrite IH; reflexivity.
Qed.
Definition is_schema (t : target) : bool := match t with To_schema _ => true | _ => false end.
Lemma schema_annotations : annotations_of_schema ses calls
  = map (fun e => Any (run_bytes ses (fst (snd e))) (run_bytes ses (snd (snd e)))) (filter (fun e => is_schema (fst e)) (annotation_entries calls)).
Proof.
  rewrite (selected_annotations is_schema). unfold annotations_of_schema. apply flat_map_ext. intros [t d lo hi|u p [c|t d|i v]|i v s|i v]; reflexivity.
Qed.
Lemma output_annotations o : annotations_on ses calls o
  = map (fun e => Any (run_bytes ses (fst (snd e))) (run_bytes ses (snd (snd e)))) (filter (fun e => annotates (fst e) o) (annotation_entries calls)).
Proof. rewrite (selected_annotations (fun t => annotates t o)). reflexivity. Qed.

Lemma annotations_of_entries {K} (eqb : K -> K -> bool) (key : target -> K) k :
  annotations_of eqb (map key (annotation_tensors g)) (anys ses (annotation_type_urls g) (annotation_protos g)) k
  = map (fun e => Any (run_bytes ses (fst (snd e))) (run_bytes ses (snd (snd e)))) (filter (fun e => eqb (key (fst e)) k) (annotation_entries calls)).
Proof.
  unfold annotations_of. rewrite annotation_values. destruct collections as (_ & _ & _ & -> & _). rewrite map_map, combine_maps.
  generalize (annotation_entries calls). intros l. induction l as [|e l IH]; [reflexivity|]. cbn [map filter fst snd]. destruct (eqb (key (fst e)) k); cbn [map snd]; rewrite IH; reflexivity.
Qed.

(** *** TensorFlow 1 *)
Section V1.
Hypothesis no_sparse_annotation : forall u p i v, ~ In (Annotate u p (To_sparse i v)) calls.

Lemma key_v1 t u p : In (t, (u, p)) (annotation_entries calls) ->
  (forall o, ref_eqb (annotation_key t) (Tensor_ref (values_of o)) = annotates t o) /\ ref_eqb (annotation_key t) Sentinel = is_schema t.
Proof.
  rewrite in_annotation_entries. intros I. unfold annotation_key. destruct t as [c|t d|i v]; cbn [target_name target_ref].
  - destruct (constants_named _ _ is_sane u p c I) as [S _]. apply sentinel_spec in S. rewrite S. split; reflexivity.
  - rewrite (not_sentinel _ (tensors_named _ _ is_sane u p t d I)). split; reflexivity.
  - exfalso. exact (no_sparse_annotation u p i v I).
Qed.
Lemma filter_ext_in' {A} (f h : A -> bool) l : (forall a, In a l -> f a = h a) -> filter f l = filter h l.
Proof. apply filter_ext_in. Qed.

Lemma asserted : forallb (fun no => match dict_get (get_tensor_ranges g) (get_tensor_values (snd no)) with
                                     | Some _ => dtype_eqb (output_dtype (snd no)) Int64
                                     | None => true
                                     end) outputs = true.
Proof.
  apply forallb_forall. intros [n o] I. cbn [snd]. rewrite ranges_get, values_eq, output_dtype_eq.
  destruct (range_set calls (values_of o)) as [[lo hi]|] eqn:R; [|reflexivity]. rewrite <- range_last in R. apply last_of_In in R.
  unfold override_entries in R. apply in_flat_map in R as (c & J & K). destruct c as [t d l h|u p t|i v s|i v]; cbn in K; try contradiction. destruct K as [[= -> -> ->]|[]].
  rewrite (one_dtype _ _ is_sane _ _ _ _ n o J I eq_refl). destruct collections as (_ & _ & _ & _ & _ & _ & _ & _ & _ & D). rewrite (D _ _ _ _ J). reflexivity.
Qed.

Theorem schema_v1 : NoDup (flat_map (taken (domain_said ses calls) (annotations_on ses calls) (sparse_said calls) (shape_said ses calls)) outputs) ->
  right_schema (domain_said ses calls) (annotations_on ses calls) (sparse_said calls) (shape_said ses calls) true outputs
               (annotations_of_schema ses calls) (infer_feature_schema outputs g (Some ses)).
Proof.
  intros ND. pose proof (output_names_NoDup _ _ _ _ outputs ND) as NN. unfold infer_feature_schema. rewrite asserted.
  assert (GA : annotations_of ref_eqb (map annotation_key (annotation_tensors g)) (anys ses (annotation_type_urls g) (annotation_protos g)) Sentinel = annotations_of_schema ses calls).
  { rewrite annotations_of_entries, schema_annotations. f_equal. apply filter_ext_in. intros [t [u p]] I. apply (key_v1 t u p I). }
  rewrite GA. cbv zeta.
  pose proof (flat_map_opt_keys (fun no => dict_get (to_dict (get_sparse_output_annotations ses g)) (get_tensor_values (snd no))) outputs NN) as [SK SI].
  apply common_right.
  - exact ND.
  - intros n o I.
    rewrite (flat_map_ext _ (fun no => match option_map (fun kv => (Some (run_int ses (fst kv)), Some (run_int ses (snd kv)))) (dict_get (get_tensor_ranges g) (get_tensor_values (snd no))) with
                                       Some x => [(fst no, x)] | None => [] end)) by (intros no; destruct (dict_get (get_tensor_ranges g) (get_tensor_values (snd no))); reflexivity).
    rewrite (flat_map_opt_get (fun no => option_map _ (dict_get (get_tensor_ranges g) (get_tensor_values (snd no)))) outputs n o NN I). cbn [snd].
    rewrite ranges_get, values_eq. unfold domain_said. destruct (range_set calls (values_of o)) as [[lo hi]|]; reflexivity.
  - rewrite map_map. exact NN.
  - intros n. rewrite map_map. auto.
  - intros n o I. rewrite (dict_get_NoDup _ n (annotations_of ref_eqb (map annotation_key (annotation_tensors g)) (anys ses (annotation_type_urls g) (annotation_protos g)) (Tensor_ref (get_tensor_values o)))).
    + rewrite annotations_of_entries, output_annotations. f_equal. apply filter_ext_in. intros [t [u p]] J. rewrite values_eq. apply (key_v1 t u p J).
    + rewrite map_map. exact NN.
    + apply in_map_iff. exists (n, o). auto.
  - exact SK.
  - exact SI.
  - intros n i v d shape o I. rewrite (flat_map_opt_get (fun no => dict_get (to_dict (get_sparse_output_annotations ses g)) (get_tensor_values (snd no))) outputs n o NN I).
    rewrite to_dict_get, known_last. exact (known_sparse n i v d shape I).
Qed.

Theorem schema_v1_deferred : NoDup (flat_map (taken (domain_unknown calls) (fun _ => []) (fun _ => false) (fun _ => None)) outputs) ->
  right_schema (domain_unknown calls) (fun _ => []) (fun _ => false) (fun _ => None) false outputs [] (infer_feature_schema outputs g None).
Proof.
  intros ND. pose proof (output_names_NoDup _ _ _ _ outputs ND) as NN. unfold infer_feature_schema. rewrite asserted. cbv zeta.
  assert (SZ : flat_map (fun no : string * output => match dict_get (@nil (string * sparse_annotation)) (get_tensor_values (snd no)) with
                           | Some a => [(fst no, a)] | None => [] end) outputs = []) by (clear; induction outputs as [|a l IH]; [reflexivity|exact IH]).
  rewrite SZ. apply common_right.
  - exact ND.
  - intros n o I.
    rewrite (flat_map_ext _ (fun no => match option_map (fun kv => (None, None)) (dict_get (get_tensor_ranges g) (get_tensor_values (snd no))) with
                                       Some x => [(fst no, x)] | None => [] end)) by (intros no; destruct (dict_get (get_tensor_ranges g) (get_tensor_values (snd no))); reflexivity).
    rewrite (flat_map_opt_get (fun no => option_map _ (dict_get (get_tensor_ranges g) (get_tensor_values (snd no)))) outputs n o NN I). cbn [snd].
    rewrite ranges_get, values_eq. unfold domain_unknown. destruct (range_set calls (values_of o)) as [[lo hi]|]; reflexivity.
  - rewrite map_map. exact NN.
  - intros n. rewrite map_map. auto.
  - intros n o I. destruct (dict_get _ n) as [l|] eqn:G; [|reflexivity]. apply dict_get_In in G. apply in_map_iff in G as (no & Q & _). injection Q as _ <-. reflexivity.
  - constructor.
  - intros n [].
  - intros n i v d shape o I. split; reflexivity.
Qed.
End V1.

(** *** TensorFlow 2 *)
Section V2.
Hypothesis distinct_values : NoDup (map (fun no => values_of (snd no)) outputs).
Hypothesis distinct_names : NoDup (map fst outputs).
Hypothesis not_named_sentinel : ~ In global_sentinel (map fst outputs).
Notation keys := (get_tensor_value_to_key_map outputs).

Lemma keys_get v n : dict_get keys v = Some n <-> exists o, In (n, o) outputs /\ values_of o = v.
Proof.
  unfold get_tensor_value_to_key_map. rewrite to_dict_get.
  assert (E : map (fun no : string * output => (get_tensor_values (snd no), fst no)) outputs = map (fun no => (values_of (snd no), fst no)) outputs)
    by (apply map_ext; intros no; rewrite values_eq; reflexivity).
  rewrite E. clear E. split.
  - intros L. apply last_of_In in L. apply in_map_iff in L as ([m o] & [= <- <-] & I). exists o. auto.
  - intros (o & I & <-). clear - distinct_values I. induction outputs as [|[m p] l IH]; [destruct I|]. cbn [map last_of fst snd] in *.
    inversion distinct_values as [|? ? N ND]; subst. destruct I as [[= -> ->]|I].
    + rewrite String.eqb_refl. assert (L : last_of (map (fun no : string * output => (values_of (snd no), fst no)) l) (values_of o) = None).
      { apply last_of_None. rewrite map_map. cbn [fst]. exact N. }
      rewrite L. reflexivity.
    + rewrite (IH ND I). reflexivity.
Qed.
Lemma keys_output n o t : In (n, o) outputs -> dict_get keys t = Some n <-> t = values_of o.
Proof.
  intros I. rewrite keys_get. split; [|intros ->; eauto]. intros (o' & J & <-).
  assert (G := dict_get_NoDup _ _ _ distinct_names I). rewrite (dict_get_NoDup _ _ _ distinct_names J) in G. injection G as ->. reflexivity.
Qed.

Lemma override_entry_keys (default : bool) {V} (entries : list (string * V)) : default = false ->
  get_schema_overrides keys default (map (fun t => To_tensor t Int64) (map fst entries)) (map snd entries)
  = flat_map (fun tx => match dict_get keys (fst tx) with Some k => [(k, snd tx)] | None => [] end) entries.
Proof.
  intros ->. unfold get_schema_overrides. rewrite map_map, combine_maps. induction entries as [|[t x] l IH]; [reflexivity|]. cbn [map flat_map fst snd]. rewrite IH. f_equal.
  unfold override_key. cbn [target_name]. destruct (dict_get keys t); reflexivity.
Qed.

Lemma key_v2 t u p n o : In (t, (u, p)) (annotation_entries calls) -> In (n, o) outputs ->
  (override_key keys true t = Some n <-> annotates t o = true).
Proof.
  rewrite in_annotation_entries. intros I J. assert (NS : n <> global_sentinel) by (intros ->; apply not_named_sentinel, (in_map fst _ _ J)).
  unfold override_key. destruct t as [c|t d|i v]; cbn [target_name annotates].
  - destruct (constants_named _ _ is_sane u p c I) as [S NO]. destruct (dict_get keys c) as [k|] eqn:K.
    + apply keys_get in K as (o' & K & E). exfalso. exact (NO k o' K E).
    + apply sentinel_spec in S. rewrite S. cbn. split; [intros [= Q]; congruence|discriminate].
  - rewrite (not_sentinel _ (tensors_named _ _ is_sane u p t d I)). rewrite String.eqb_eq. rewrite <- (keys_output n o t J).
    destruct (dict_get keys t); [reflexivity|]. destruct d; split; discriminate.
  - rewrite andb_false_r. assert (Q : annotates (To_sparse i v) o = true <-> v = values_of o).
    { split.
      - destruct o as [t d shape|i' v' d shape|f d shape]; cbn; [discriminate| |discriminate]. intros Q. apply andb_true_iff in Q as [_ Q]. apply String.eqb_eq, Q.
      - intros ->. destruct (not_shared n o i (values_of o) J eq_refl) as (A & _). destruct (A u p I) as (d & shape & E). rewrite E at 2. cbn. rewrite !String.eqb_refl. reflexivity. }
    cbn [annotates] in Q. rewrite Q. rewrite <- (keys_output n o v J). destruct (dict_get keys v); [reflexivity|]. split; discriminate.
Qed.
Lemma sentinel_v2 t u p : In (t, (u, p)) (annotation_entries calls) -> (override_key keys true t = Some global_sentinel <-> is_schema t = true).
Proof.
  rewrite in_annotation_entries. intros I. unfold override_key.
  assert (NK : forall v, dict_get keys v <> Some global_sentinel) by (intros v E; apply keys_get in E as (o & J & _); apply not_named_sentinel, (in_map fst _ _ J)).
  destruct t as [c|t d|i v]; cbn [target_name is_schema].
  - destruct (constants_named _ _ is_sane u p c I) as [S NO]. destruct (dict_get keys c) as [k|] eqn:K.
    + apply keys_get in K as (o' & K & E). exfalso. exact (NO k o' K E).
    + apply sentinel_spec in S. rewrite S. cbn. split; reflexivity.
  - rewrite (not_sentinel _ (tensors_named _ _ is_sane u p t d I)). specialize (NK t). destruct (dict_get keys t); [split; [congruence|discriminate]|]. destruct d; split; discriminate.
  - rewrite andb_false_r. specialize (NK v). destruct (dict_get keys v); [split; [congruence|discriminate]|]. split; discriminate.
Qed.

Lemma of_key_entries k :
  map snd (filter (fun ka => String.eqb (fst ka) k) (get_schema_overrides keys true (annotation_tensors g) (anys ses (annotation_type_urls g) (annotation_protos g))))
  = map (fun e => Any (run_bytes ses (fst (snd e))) (run_bytes ses (snd (snd e))))
        (filter (fun e => match override_key keys true (fst e) with Some k' => String.eqb k' k | None => false end) (annotation_entries calls)).
Proof.
  rewrite annotation_values. destruct collections as (_ & _ & _ & -> & _). unfold get_schema_overrides. rewrite combine_maps.
  generalize (annotation_entries calls). intros l. induction l as [|e l IH]; [reflexivity|]. cbn [map flat_map fst snd filter].
  rewrite filter_app, map_app, IH. destruct (override_key keys true (fst e)) as [k'|]; [|reflexivity]. cbn [filter fst].
  destruct (String.eqb k' k); reflexivity.
Qed.
Lemma of_key_output n o : In (n, o) outputs ->
  map snd (filter (fun ka => String.eqb (fst ka) n) (get_schema_overrides keys true (annotation_tensors g) (anys ses (annotation_type_urls g) (annotation_protos g))))
  = annotations_on ses calls o.
Proof.
  intros I. rewrite of_key_entries, output_annotations. f_equal. apply filter_ext_in. intros [t [u p]] J. cbn [fst]. apply eq_true_iff_eq.
  rewrite <- (key_v2 t u p n o J I). destruct (override_key keys true t) as [k|]; [rewrite String.eqb_eq; split; [intros ->; reflexivity|intros [= ->]; reflexivity]|split; discriminate].
Qed.
Lemma of_key_sentinel :
  map snd (filter (fun ka => String.eqb (fst ka) global_sentinel) (get_schema_overrides keys true (annotation_tensors g) (anys ses (annotation_type_urls g) (annotation_protos g))))
  = annotations_of_schema ses calls.
Proof.
  rewrite of_key_entries, schema_annotations. f_equal. apply filter_ext_in. intros [t [u p]] J. cbn [fst]. apply eq_true_iff_eq.
  rewrite <- (sentinel_v2 t u p J). destruct (override_key keys true t) as [k|]; [rewrite String.eqb_eq; split; [intros ->; reflexivity|intros [= ->]; reflexivity]|split; discriminate].
Qed.
Lemma override_key_range default t k : override_key keys default t = Some k -> In k (map fst outputs) \/ k = global_sentinel.
Proof.
  unfold override_key. destruct (dict_get keys (target_name t)) as [k'|] eqn:K.
  - intros [= <-]. left. apply keys_get in K as (o & I & _). apply (in_map fst _ _ I).
  - destruct (default && _); [intros [= <-]; right; reflexivity|discriminate].
Qed.

Lemma distinct_spec l : forall seen, NoDup (distinct seen l) /\ (forall k, In k (distinct seen l) <-> In k l /\ ~ In k seen).
Proof.
  induction l as [|a l IH]; intros seen; cbn [distinct]; [split; [constructor|intros k; cbn; tauto]|].
  destruct (existsb (String.eqb a) seen) eqn:E.
  - apply existsb_exists in E as (x & I & Q). apply String.eqb_eq in Q. subst x. destruct (IH seen) as [N S]. split; [exact N|]. intros k. rewrite S. cbn.
    split; [tauto|]. intros [[->|K] NK]; [contradiction|auto].
  - assert (NI : ~ In a seen) by (intros I; rewrite <- not_true_iff_false in E; apply E, existsb_exists; exists a; split; [exact I|apply String.eqb_refl]).
    destruct (IH (a :: seen)) as [N S]. split.
    + constructor; [rewrite S; intros [_ H]; apply H; left; reflexivity|exact N].
    + intros k. cbn [In]. rewrite S. cbn [In]. destruct (string_dec a k) as [->|D]; [split; [intros _; auto|auto]|].
      split; [intros [E'|[K NK]]; [contradiction|tauto]|intros [[E'|K] NK]; [contradiction|right; split; [exact K|]; intros [E'|E']; auto]].
Qed.

Theorem schema_v2 : NoDup (flat_map (taken (domain_said ses calls) (annotations_on ses calls) (sparse_said calls) (shape_said ses calls)) outputs) ->
  right_schema (domain_said ses calls) (annotations_on ses calls) (sparse_said calls) (shape_said ses calls) true outputs
               (annotations_of_schema ses calls) (infer_feature_schema_v2 outputs g ses true).
Proof.
  intros ND. unfold infer_feature_schema_v2. cbv zeta. rewrite of_key_sentinel.
  destruct collections as (E1 & E2 & E3 & _).
  apply common_right.
  - exact ND.
  - intros n o I. rewrite E1, E2, E3, combine_pairs, (override_entry_keys false) by reflexivity. rewrite to_dict_get.
    rewrite (last_of_map (fun x => (Some (run_int ses (fst x)), Some (run_int ses (snd x))))).
    rewrite (last_of_renamed (dict_get keys) n (values_of o)) by (intros t _; apply keys_output, I).
    rewrite range_last. unfold domain_said. destruct (range_set calls (values_of o)) as [[lo hi]|]; reflexivity.
  - rewrite map_map. cbn [fst]. rewrite map_id. apply NoDup_filter, distinct_spec.
  - intros k. rewrite map_map. cbn [fst]. rewrite map_id. intros J. apply filter_In in J as [J NS]. apply distinct_spec in J as [J _].
    apply in_map_iff in J as ([k' x] & E & J). cbn in E. subst k'. unfold get_schema_overrides in J. apply in_flat_map in J as ([t y] & _ & J). cbn [fst snd] in J.
    destruct (override_key keys true t) as [k'|] eqn:K; [|destruct J]. destruct J as [[= -> _]|[]]. apply override_key_range in K as [K| ->]; [exact K|].
    rewrite String.eqb_refl in NS. discriminate.
  - intros n o I. rewrite <- (of_key_output n o I). set (anns := get_schema_overrides _ _ _ _).
    destruct (in_dec string_dec n (filter (fun k => negb (String.eqb k global_sentinel)) (distinct [] (map fst anns)))) as [J|N].
    + rewrite (dict_get_NoDup _ n (map snd (filter (fun ka => String.eqb (fst ka) n) anns))); [reflexivity| |apply in_map_iff; eauto].
      rewrite map_map. cbn [fst]. rewrite map_id. apply NoDup_filter, distinct_spec.
    + destruct (dict_get _ n) as [l|] eqn:G.
      * exfalso. apply dict_get_In in G. apply in_map_iff in G as (k & [= <- _] & G). contradiction.
      * assert (NA : ~ In n (map fst anns)).
        { intros J. apply N. apply filter_In. split; [apply distinct_spec; auto|]. destruct (String.eqb_spec n global_sentinel) as [->|]; [|reflexivity].
          exfalso. apply not_named_sentinel, (in_map fst _ _ I). }
        clear - NA. induction anns as [|[k x] l IH]; [reflexivity|]. cbn [map fst In] in NA. cbn [filter fst]. destruct (String.eqb_spec k n) as [->|]; [exfalso; auto|]. apply IH. tauto.
  - apply to_dict_keys.
  - intros n J. apply to_dict_In in J. apply in_map_iff in J as ([k x] & E & J). cbn in E. subst k. apply in_flat_map in J as ([t y] & _ & J). cbn [fst snd] in J.
    destruct (dict_get keys t) as [k|] eqn:K; [|destruct J]. destruct J as [[= -> _]|[]]. apply keys_get in K as (o & I & _). apply (in_map fst _ _ I).
  - intros n i v d shape o I. rewrite to_dict_get. rewrite (last_of_renamed (dict_get keys) n v) by (intros t _; apply (keys_output n o t I)).
    rewrite known_last. exact (known_sparse n i v d shape I).
Qed.

Theorem schema_v2_deferred : NoDup (flat_map (taken (domain_unknown calls) (fun _ => []) (fun _ => false) (fun _ => None)) outputs) ->
  right_schema (domain_unknown calls) (fun _ => []) (fun _ => false) (fun _ => None) false outputs [] (infer_feature_schema_v2 outputs g ses false).
Proof.
  intros ND. unfold infer_feature_schema_v2. cbv zeta. destruct collections as (E1 & _).
  apply common_right; try (constructor; fail); try (intros n []; fail).
  - exact ND.
  - intros n o I. rewrite E1. rewrite <- (map_map fst (fun t => t)) at 2 || idtac.
    assert (Q : get_schema_overrides keys false (map (fun t => To_tensor t Int64) (map fst (override_entries calls))) (map fst (override_entries calls))
              = flat_map (fun tx => match dict_get keys (fst tx) with Some k => [(k, snd tx)] | None => [] end) (map (fun e => (fst e, fst e)) (override_entries calls))).
    { unfold get_schema_overrides. rewrite map_map, combine_maps. generalize (override_entries calls). intros l. induction l as [|[t x] l IH]; [reflexivity|]. cbn [map flat_map fst snd]. rewrite IH. f_equal.
      unfold override_key. cbn [target_name]. destruct (dict_get keys t); reflexivity. }
    rewrite ?map_id, Q, to_dict_get, (last_of_map (fun _ => (None, None))).
    rewrite (last_of_renamed (dict_get keys) n (values_of o)) by (intros t _; apply keys_output, I).
    assert (L : forall l : list (string * (string * string)), option_map (fun _ : string => (@None Z, @None Z)) (last_of (map (fun e => (fst e, fst e)) l) (values_of o)) = option_map (fun _ => (None, None)) (last_of l (values_of o))).
    { intros l. induction l as [|[t x] l IH]; [reflexivity|]. cbn [map last_of fst]. destruct (last_of (map _ l) (values_of o)), (last_of l (values_of o)); try discriminate; [reflexivity|]. destruct (String.eqb t (values_of o)); reflexivity. }
    rewrite L, range_last. unfold domain_unknown. destruct (range_set calls (values_of o)); reflexivity.
  - intros n i v d shape o I. split; reflexivity.
Qed.
End V2.
End Traced.
