(** * Proofs about schemas, 1: from what is known of outputs to the schema *)
From Coq Require Import String Ascii List ZArith Bool Arith Lia DecimalString Permutation Sorted.
From Verif Require Import SortModel SortProofs SchemaModel SchemaSpec.
Import ListNotations.
Local Open Scope list_scope.

Local Notation length := List.length.

(** ** Dicts *)
Lemma dict_get_app {V} (a b : dict V) k : dict_get (a ++ b) k = match dict_get a k with Some v => Some v | None => dict_get b k end.
Proof.
  induction a as [|[k' v'] a IH]; [reflexivity|]. unfold dict_get in *. cbn [app find fst]. destruct (String.eqb k' k); [reflexivity|exact IH].
Qed.
Lemma dict_get_cons {V} k' (v : V) d k : dict_get ((k', v) :: d) k = if String.eqb k' k then Some v else dict_get d k.
Proof. unfold dict_get. cbn. destruct (String.eqb k' k); reflexivity. Qed.
Lemma dict_set_get {V} (d : dict V) k v k' : dict_get (dict_set d k v) k' = if String.eqb k k' then Some v else dict_get d k'.
Proof.
  induction d as [|[a w] d IH]; cbn [dict_set].
  - rewrite dict_get_cons. reflexivity.
  - destruct (String.eqb_spec a k) as [->|N].
    + rewrite !dict_get_cons. destruct (String.eqb k k'); reflexivity.
    + rewrite !dict_get_cons, IH. destruct (String.eqb_spec a k') as [->|]; [|reflexivity].
      destruct (String.eqb_spec k k'); congruence.
Qed.
Lemma dict_set_new {V} (d : dict V) k v : ~ In k (map fst d) -> dict_set d k v = d ++ [(k, v)].
Proof.
  induction d as [|[a w] d IH]; cbn; [reflexivity|]. intros N. destruct (String.eqb_spec a k) as [->|]; [exfalso; auto|].
  rewrite IH; auto.
Qed.
Lemma dict_get_None {V} (d : dict V) k : dict_get d k = None <-> ~ In k (map fst d).
Proof.
  induction d as [|[a w] d IH]; [cbn; tauto|]. rewrite dict_get_cons. cbn [map fst In].
  destruct (String.eqb_spec a k) as [->|N]; [split; [discriminate|intros H; exfalso; auto]|].
  rewrite IH. split; [intros H [E|E]; auto|auto].
Qed.
Lemma dict_get_In {V} (d : dict V) k v : dict_get d k = Some v -> In (k, v) d.
Proof.
  induction d as [|[a w] d IH]; [discriminate|]. rewrite dict_get_cons.
  destruct (String.eqb_spec a k) as [->|N]; [intros [= ->]; left; reflexivity|right; auto].
Qed.
Lemma dict_get_NoDup {V} (d : dict V) k v : NoDup (map fst d) -> In (k, v) d -> dict_get d k = Some v.
Proof.
  induction d as [|[a w] d IH]; [intros _ []|]. cbn [map fst]. inversion 1 as [|? ? N ND]; subst. intros [[= -> ->]|I]; rewrite dict_get_cons.
  - rewrite String.eqb_refl. reflexivity.
  - destruct (String.eqb_spec a k) as [->|]; [|auto]. exfalso; apply N, (in_map fst _ _ I).
Qed.
Lemma dict_get_map {V W} (f : string -> V -> W) (d : dict V) k :
  dict_get (map (fun kv => (fst kv, f (fst kv) (snd kv))) d) k = option_map (f k) (dict_get d k).
Proof.
  induction d as [|[a w] d IH]; [reflexivity|]. cbn [map fst snd]. rewrite !dict_get_cons.
  destruct (String.eqb_spec a k) as [->|]; [reflexivity|exact IH].
Qed.
Lemma dict_set_map {V} (d : dict V) k v : NoDup (map fst d) -> In k (map fst d) ->
  dict_set d k v = map (fun kv => (fst kv, if String.eqb (fst kv) k then v else snd kv)) d.
Proof.
  induction d as [|[a w] d IH]; [intros _ []|]. cbn [map fst snd dict_set]. inversion 1 as [|? ? N ND]; subst.
  destruct (String.eqb_spec a k) as [->|D].
  - intros _. f_equal. rewrite <- (map_id d) at 1. apply map_ext_in. intros [b x] I. cbn.
    destruct (String.eqb_spec b k) as [->|]; [|reflexivity]. exfalso; apply N, (in_map fst _ _ I).
  - intros [E|I]; [congruence|]. f_equal. apply IH; assumption.
Qed.
Lemma dict_pop_some {V} (d : dict V) k v : dict_get d k = Some v ->
  exists d', dict_pop d k = Some (v, d') /\ (forall k', dict_get d' k' = if String.eqb k k' then None else dict_get d k').
Proof.
  intros G. unfold dict_pop. rewrite G. eexists; split; [reflexivity|]. intros k'. clear G.
  induction d as [|[a w] d IH]; [cbn; destruct (String.eqb k k'); reflexivity|]. cbn [filter fst].
  destruct (String.eqb_spec a k) as [->|N]; cbn [negb]; rewrite ?dict_get_cons, IH.
  - destruct (String.eqb_spec k k'); reflexivity.
  - destruct (String.eqb_spec a k') as [->|]; [|reflexivity]. destruct (String.eqb_spec k k'); congruence.
Qed.

(** ** Results *)
Lemma map_result_returned {A B} (f : A -> result B) (g : A -> B) l :
  (forall a, In a l -> f a = Returned (g a)) -> map_result f l = Returned (map g l).
Proof.
  induction l as [|a l IH]; [reflexivity|]. intros H. cbn [map_result map]. rewrite (H a (or_introl eq_refl)). cbn [bind].
  rewrite IH; [reflexivity|]. intros b I; apply H; right; exact I.
Qed.
Lemma map_result_each {A B} (f : A -> result B) l l' : map_result f l = Returned l' -> forall a, In a l -> f a <> Raised.
Proof.
  revert l'; induction l as [|a l IH]; [intros ? _ ? []|]. cbn [map_result]. intros l' E. destruct (f a) as [b|] eqn:F; [|discriminate].
  cbn [bind] in E. destruct (map_result f l) as [bs|]; [|discriminate]. intros x [<-|I]; [congruence|]. exact (IH _ eq_refl x I).
Qed.
Lemma bind_returned {A B} (r : result A) (f : A -> result B) b : bind r f = Returned b -> exists a, r = Returned a /\ f a = Returned b.
Proof. destruct r; [eauto|discriminate]. Qed.

(** ** Overriding shapes *)
Definition ok_override (d : dict spec) (ka : string * sparse_annotation) : bool :=
  match dict_get d (fst ka) with
  | None => false
  | Some (SparseFeature _ _ _ _ _) => match snd ka with Annotated_shape s => negb (existsb (fun s => (s <? 0)%Z) s) | Annotated_sparse => true end
  | Some _ => true
  end.
Definition apply_annotation (a : option sparse_annotation) (s : spec) : spec :=
  match s, a with
  | SparseFeature ik vk d _ so, Some (Annotated_shape size) => SparseFeature ik vk d (map Some size) so
  | _, _ => s
  end.
Lemma override_all anns : forall fs, NoDup (map fst anns) -> NoDup (map fst fs) ->
  override_sparse_feature_annotated_shapes fs anns =
  if forallb (ok_override fs) anns
  then Returned (map (fun ks => (fst ks, apply_annotation (dict_get anns (fst ks)) (snd ks))) fs) else Raised.
Proof.
  induction anns as [|[k a] anns IH]; intros fs ND NF.
  - cbn. f_equal. rewrite <- (map_id fs) at 1. apply map_ext. intros [n s]. destruct s; reflexivity.
  - cbn [override_sparse_feature_annotated_shapes forallb]. inversion ND as [|? ? N ND']; subst.
    assert (SAME : forall fs', map fst fs' = map fst fs -> (forall k', k' <> k -> dict_get fs' k' = dict_get fs k') ->
                   forallb (ok_override fs') anns = forallb (ok_override fs) anns).
    { intros fs' _ G. clear - G N. induction anns as [|[k' a'] anns IH]; [reflexivity|]. cbn [forallb]. rewrite IH by (cbn in N; tauto).
      f_equal. unfold ok_override. cbn [fst]. rewrite G; [reflexivity|]. intros ->. apply N; left; reflexivity. }
    assert (NA : dict_get anns k = None) by (apply dict_get_None; exact N).
    unfold override_sparse_feature_annotated_shape, ok_override at 1. cbn [fst snd].
    destruct (dict_get fs k) as [s|] eqn:G; [|reflexivity].
    assert (IK : In k (map fst fs)) by (destruct (in_dec string_dec k (map fst fs)) as [i|n]; [exact i|apply dict_get_None in n; congruence]).
    assert (KEEP : bind (Returned fs) (fun fs' => override_sparse_feature_annotated_shapes fs' anns) =
              if forallb (ok_override fs) anns
              then Returned (map (fun ks => (fst ks, apply_annotation (dict_get anns (fst ks)) (snd ks))) fs) else Raised)
      by (cbn [bind]; apply IH; assumption).
    assert (OTHER : apply_annotation (Some a) s = s ->
              map (fun ks => (fst ks, apply_annotation (dict_get anns (fst ks)) (snd ks))) fs
              = map (fun ks => (fst ks, apply_annotation (dict_get ((k, a) :: anns) (fst ks)) (snd ks))) fs).
    { intros AP. apply map_ext_in. intros [n s'] I. cbn [fst snd]. rewrite dict_get_cons.
      destruct (String.eqb_spec k n) as [<-|]; [|reflexivity]. rewrite NA.
      rewrite (dict_get_NoDup _ _ _ NF I) in G. injection G as ->. rewrite AP. destruct s; reflexivity. }
    destruct s as [sh d|d|ik vk d size so|d vk ps].
    1,2,4: etransitivity; [exact KEEP|]; cbn [andb]; destruct (forallb (ok_override fs) anns); [rewrite OTHER; reflexivity|reflexivity].
    destruct a as [size'|]; [|etransitivity; [exact KEEP|]; cbn [andb]; destruct (forallb (ok_override fs) anns); [rewrite OTHER; reflexivity|reflexivity]].
    + destruct (existsb _ size'); [reflexivity|]. cbn [bind negb andb].
      set (fs' := dict_set fs k (SparseFeature ik vk d (map Some size') so)).
      assert (FS' : fs' = map (fun kv => (fst kv, if String.eqb (fst kv) k then SparseFeature ik vk d (map Some size') so else snd kv)) fs)
        by (apply dict_set_map; assumption).
      assert (KS : map fst fs' = map fst fs) by (rewrite FS', map_map; reflexivity).
      rewrite IH; [|assumption|rewrite KS; assumption].
      rewrite (SAME fs' KS); [|intros k' D; unfold fs'; rewrite dict_set_get; destruct (String.eqb_spec k k'); congruence].
      destruct (forallb (ok_override fs) anns); [|reflexivity]. f_equal. rewrite FS', map_map. apply map_ext_in. intros [n s] I. cbn [fst snd].
      rewrite dict_get_cons. destruct (String.eqb_spec n k) as [->|D].
      * rewrite String.eqb_refl, NA. rewrite (dict_get_NoDup _ _ _ NF I) in G. injection G as ->. reflexivity.
      * destruct (String.eqb_spec k n); [congruence|reflexivity].
Qed.

(** ** From specs to the schema *)
Definition ok_spec (item : string * spec) : bool :=
  match snd item with
  | SparseFeature ik _ d size _ => (length ik =? length size) && negb (dtype_eqb d Other_type)
  | RaggedFeature d _ _ | FixedLenFeature _ d | VarLenFeature d => negb (dtype_eqb d Other_type)
  end.
Definition ftype (d : dtype) : feature_type := match d with Int64 => INT | Float32 => FLOAT | _ => BYTES end.
Definition no_minus_one (s : option Z) : option Z := match s with Some z => if (z =? -1)%Z then None else Some z | None => None end.
Definition spec_columns (domains : dict int_domain) (item : string * spec) : list feature :=
  let (name, sp) := item in
  let domain := dict_get domains name in
  match sp with
  | SparseFeature ik vk d size _ =>
      map (fun kd => Feature (fst kd) INT false None (option_map (fun s => IntDomain (Some 0%Z) (Some (s - 1)%Z) false) (no_minus_one (snd kd))) []) (combine ik size)
      ++ [Feature vk (ftype d) false None domain []]
  | RaggedFeature d vk ps => Feature vk (ftype d) false None domain [] :: map (fun k => Feature k INT false None None []) (row_length_keys ps)
  | FixedLenFeature sh d => [Feature name (ftype d) true (Some sh) domain []]
  | VarLenFeature d => [Feature name (ftype d) false None domain []]
  end.
Definition spec_sparse (item : string * spec) : list sparse_feature :=
  match snd item with SparseFeature ik vk _ _ so => [Sparse_feature (fst item) so ik vk] | _ => [] end.
Definition spec_ragged (item : string * spec) : list (string * ragged_representation) :=
  match snd item with RaggedFeature _ vk ps => [(fst item, Ragged_representation vk ps)] | _ => [] end.
Lemma set_type_ok d : set_type d = if negb (dtype_eqb d Other_type) then Returned (ftype d) else Raised.
Proof. destruct d; reflexivity. Qed.
Lemma flat_map_row_lengths ps :
  flat_map (fun p => match p with Row_lengths key => [Feature key INT false None None []] | Uniform_row_length _ => [] end) ps
  = map (fun k => Feature k INT false None None []) (row_length_keys ps).
Proof. induction ps as [|[n|k] ps IH]; cbn; rewrite ?IH; reflexivity. Qed.
Lemma combine_map_r {A B C} (f : B -> C) (l : list A) : forall l', combine l (map f l') = map (fun ab => (fst ab, f (snd ab))) (combine l l').
Proof. induction l as [|a l IH]; [reflexivity|]. intros [|b l']; [reflexivity|]. cbn. rewrite IH. reflexivity. Qed.
Lemma add_spec_ok domains s item : ~ In (fst item) (map fst (representations s)) ->
  add_spec domains s item =
  if ok_spec item then Returned (Schema (features s ++ spec_columns domains item) (sparse_features s ++ spec_sparse item)
                                        (representations s ++ spec_ragged item) (schema_metadata s)) else Raised.
Proof.
  destruct item as [name sp]. cbn [fst]. intros NI. destruct sp as [sh d|d|ik vk d size so|d vk ps];
    cbn [add_spec ok_spec spec_columns spec_sparse spec_ragged fst snd]; unfold feature_from_feature_spec, sparse_feature_from_feature_spec,
    ragged_tensor_representation_from_feature_spec; rewrite ?set_type_ok.
  - destruct (negb _); [|reflexivity]. cbn [bind]. rewrite !app_nil_r. reflexivity.
  - destruct (negb _); [|reflexivity]. cbn [bind]. rewrite !app_nil_r. reflexivity.
  - destruct (_ =? _); [|reflexivity]. cbn [andb]. destruct (negb _); [|reflexivity]. cbn [bind]. rewrite app_nil_r. do 4 f_equal.
    rewrite !combine_map_r, !map_map. reflexivity.
  - destruct (negb _); [|reflexivity]. cbn [bind]. rewrite app_nil_r, flat_map_row_lengths. do 2 f_equal. apply dict_set_new; exact NI.
Qed.
Lemma add_specs_ok domains items : forall s, NoDup (map fst items) -> (forall k, In k (map fst items) -> ~ In k (map fst (representations s))) ->
  add_specs domains s items =
  if forallb ok_spec items then Returned (Schema (features s ++ flat_map (spec_columns domains) items) (sparse_features s ++ flat_map spec_sparse items)
                                        (representations s ++ flat_map spec_ragged items) (schema_metadata s)) else Raised.
Proof.
  induction items as [|item items IH]; intros s ND NI.
  - cbn. rewrite !app_nil_r. destruct s; reflexivity.
  - cbn [add_specs forallb flat_map]. rewrite add_spec_ok by (apply NI; left; reflexivity).
    destruct (ok_spec item); [|reflexivity]. cbn [bind andb]. inversion ND as [|? ? N ND']; subst. rewrite IH.
    + cbn [features sparse_features representations schema_metadata]. rewrite <- !app_assoc. reflexivity.
    + exact ND'.
    + cbn [representations]. intros k I J. rewrite map_app, in_app_iff in J. destruct J as [J|J]; [exact (NI k (or_intror I) J)|].
      destruct item as [name sp]. destruct sp; cbn in J; try contradiction. destruct J as [<-|[]]. cbn in N. exact (N I).
Qed.

Lemma insert_map {V W} (F : string * V -> string * W) x l : (forall kv, fst (F kv) = fst kv) ->
  insert_sorted name_leb (F x) (map F l) = map F (insert_sorted name_leb x l).
Proof.
  intros E. induction l as [|y l IH]; [reflexivity|]. cbn [insert_sorted map]. unfold name_leb at 1 3. rewrite !E.
  destruct (String.leb (fst x) (fst y)); [reflexivity|]. cbn [map]. f_equal. exact IH.
Qed.
Lemma sorted_map {V W} (F : string * V -> string * W) l : (forall kv, fst (F kv) = fst kv) ->
  py_sorted name_leb (map F l) = map F (py_sorted name_leb l).
Proof.
  intros E. unfold py_sorted. induction l as [|x l IH]; [reflexivity|]. cbn [map fold_right]. rewrite IH. apply insert_map, E.
Qed.
Lemma sorted_names {V} (l : list (string * V)) : StronglySorted (fun a b => String.leb (fst a) (fst b) = true) (py_sorted name_leb l).
Proof.
  apply (py_sorted_sorted name_leb).
  - intros a b. exact (bytes_leb_total (fst a) (fst b)).
  - intros a b c. exact (bytes_leb_trans (fst a) (fst b) (fst c)).
Qed.
