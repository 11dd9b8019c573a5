(** * Proofs about feature specs and schemas *)
From Coq Require Import String List ZArith Bool Arith Lia Permutation Sorted.
From Verif Require Import SortModel SortProofs SchemaModel SchemaProofs FspecModel FspecSpec.
Import ListNotations.
Local Open Scope list_scope.
Local Notation length := List.length.

(** ** Dicts *)
Lemma same_items_perm {V} (a b : dict V) : same_items a b -> Permutation a b.
Proof.
  intros (NA & NB & E). apply NoDup_Permutation; [exact (NoDup_map_inv _ _ NA)|exact (NoDup_map_inv _ _ NB)|].
  intros [k v]. apply E.
Qed.
Lemma dict_get_iff {V} (d : dict V) k v : NoDup (map fst d) -> (dict_get d k = Some v <-> In (k, v) d).
Proof. intros ND. split; [apply dict_get_In|apply dict_get_NoDup, ND]. Qed.
Lemma same_items_get {V} (a b : dict V) k : same_items a b -> dict_get a k = dict_get b k.
Proof.
  intros (NA & NB & E). destruct (dict_get a k) as [v|] eqn:G.
  - apply (dict_get_iff a k v NA), E, (dict_get_iff b k v NB) in G. congruence.
  - destruct (dict_get b k) as [v|] eqn:G'; [|reflexivity].
    apply (dict_get_iff b k v NB), E, (dict_get_iff a k v NA) in G'. congruence.
Qed.
Definition mem (ks : list string) (k : string) : bool := existsb (String.eqb k) ks.
Lemma mem_In ks k : mem ks k = true <-> In k ks.
Proof.
  unfold mem. rewrite existsb_exists. split; [intros (x & I & E); apply String.eqb_eq in E; subst; exact I|].
  intros I; exists k; split; [exact I|apply String.eqb_refl].
Qed.
Lemma mem_not ks k : mem ks k = false <-> ~ In k ks.
Proof. rewrite <- mem_In. destruct (mem ks k); split; congruence. Qed.
Definition without {V} (ks : list string) (d : dict V) : dict V := filter (fun kv => negb (mem ks (fst kv))) d.
Lemma without_In {V} ks (d : dict V) kv : In kv (without ks d) <-> In kv d /\ ~ In (fst kv) ks.
Proof. unfold without. rewrite filter_In, negb_true_iff, mem_not. reflexivity. Qed.
Lemma filter_keys_NoDup {V} (p : string * V -> bool) (d : dict V) : NoDup (map fst d) -> NoDup (map fst (filter p d)).
Proof.
  induction d as [|kv d IH]; cbn [filter map]; [auto|]. inversion 1 as [|? ? N ND]; subst.
  destruct (p kv); [|auto]. cbn [map]. constructor; [|auto]. intros I. apply N. apply in_map_iff in I as (x & <- & J).
  apply filter_In in J as [J _]. apply in_map, J.
Qed.
Lemma without_NoDup {V} ks (d : dict V) : NoDup (map fst d) -> NoDup (map fst (without ks d)).
Proof. apply filter_keys_NoDup. Qed.
Lemma filter_filter {A} (p q : A -> bool) l : filter p (filter q l) = filter (fun x => q x && p x) l.
Proof. induction l as [|x l IH]; [reflexivity|]. cbn [filter]. destruct (q x); cbn [filter andb]; [destruct (p x)|]; rewrite IH; reflexivity. Qed.
Lemma without_app {V} a b (d : dict V) : without b (without a d) = without (a ++ b) d.
Proof.
  unfold without. rewrite filter_filter. apply filter_ext. intros [k v]. cbn. unfold mem. rewrite existsb_app, negb_orb. reflexivity.
Qed.
Lemma without_nil {V} (d : dict V) : without [] d = d.
Proof. unfold without, mem. cbn. induction d as [|kv d IH]; [reflexivity|]. cbn. rewrite IH. reflexivity. Qed.
Lemma pop_without {V} (d : dict V) k v : dict_get d k = Some v -> dict_pop d k = Some (v, without [k] d).
Proof.
  intros G. unfold dict_pop. rewrite G. do 2 f_equal. apply filter_ext. intros [k' v']. cbn. rewrite orb_false_r. reflexivity.
Qed.
Lemma fold_set_new {V} (l : list (string * V)) : forall d, NoDup (map fst (d ++ l)) ->
  fold_left (fun d kv => dict_set d (fst kv) (snd kv)) l d = d ++ l.
Proof.
  induction l as [|[k v] l IH]; intros d ND; [rewrite app_nil_r; reflexivity|]. cbn [fold_left fst snd].
  rewrite dict_set_new.
  - rewrite IH; rewrite <- app_assoc; [reflexivity|exact ND].
  - rewrite map_app in ND. cbn [map fst] in ND. apply NoDup_remove_2 in ND. intros I. apply ND, in_or_app. auto.
Qed.
Lemma to_dict_new {V} (l : list (string * V)) : NoDup (map fst l) -> to_dict l = l.
Proof. intros ND. unfold to_dict. rewrite fold_set_new; [reflexivity|exact ND]. Qed.
Lemma dict_set_keys {V} (d : dict V) k v : map fst (dict_set d k v) = if mem (map fst d) k then map fst d else map fst d ++ [k].
Proof.
  induction d as [|[k' v'] d IH]; [reflexivity|]. cbn [dict_set map fst]. unfold mem in *. cbn [existsb].
  destruct (String.eqb_spec k' k) as [->|N].
  - rewrite String.eqb_refl. reflexivity.
  - destruct (String.eqb_spec k k'); [congruence|]. cbn [orb map fst]. rewrite IH. destruct (existsb _ _); reflexivity.
Qed.
Lemma dict_set_NoDup {V} (d : dict V) k v : NoDup (map fst d) -> NoDup (map fst (dict_set d k v)).
Proof.
  intros ND. rewrite dict_set_keys. destruct (mem _ _) eqn:M; [exact ND|]. apply mem_not in M.
  apply (Permutation_NoDup (l := k :: map fst d)); [apply Permutation_cons_append|]. constructor; assumption.
Qed.
Lemma dict_set_In {V} (d : dict V) k v kv : In kv (dict_set d k v) -> kv = (k, v) \/ In kv d.
Proof.
  induction d as [|[k' v'] d IH]; cbn [dict_set]; [intros [<-|[]]; auto|].
  destruct (String.eqb_spec k' k) as [->|N]; cbn; intros [<-|I]; auto. destruct (IH I); auto.
Qed.
Lemma to_dict_props {V} (P : string * V -> Prop) (l : list (string * V)) : Forall P l -> NoDup (map fst (to_dict l)) /\ Forall P (to_dict l).
Proof.
  intros F. unfold to_dict. assert (H : NoDup (map fst (@nil (string * V))) /\ Forall P []) by (split; constructor).
  revert H. generalize (@nil (string * V)). induction F as [|[k v] l p F IH]; intros d [ND H]; [auto|]. cbn [fold_left fst snd].
  apply IH. split; [apply dict_set_NoDup, ND|]. apply Forall_forall. intros kv I. apply dict_set_In in I as [->|I]; [exact p|].
  rewrite Forall_forall in H. auto.
Qed.

(** ** Writing *)
Definition ptype (d : dtype) : proto_type := match d with Int64 => T_INT | Float32 => T_FLOAT | String_type => T_BYTES | Other_type => T_UNKNOWN end.
Definition example_dtypeb (d : dtype) : bool := match d with Other_type => false | _ => true end.
Lemma example_dtype_b d : example_dtypeb d = true <-> example_dtype d.
Proof. unfold example_dtype. destruct d; cbn; intuition congruence. Qed.
Definition okp (p : ragged_partition) : bool := match p with By_something_else => false | _ => true end.
Lemma okp_In ps : forallb okp ps = true <-> ~ In By_something_else ps.
Proof.
  rewrite forallb_forall. split; [intros H I; discriminate (H _ I)|]. intros N p I. destruct p; [reflexivity|reflexivity|contradiction].
Qed.
Definition spec_okb (sp : fspec) : bool :=
  match sp with
  | Fixed_len _ d None => example_dtypeb d
  | Fixed_len _ _ _ => false
  | Var_len d => example_dtypeb d
  | Sparse_spec (One_key _) _ d (One_size _) _ => example_dtypeb d
  | Sparse_spec (Key_list ks) _ d (Size_list zs) _ => (length ks =? length zs) && example_dtypeb d
  | Sparse_spec _ _ _ _ _ => false
  | Ragged_spec d _ ps _ _ => example_dtypeb d && forallb okp ps
  | Other_spec _ => false
  end.
Lemma acceptable_b sp : spec_okb sp = true <-> acceptable sp.
Proof.
  destruct sp as [sh d [v|]|d|[k|ks] vk d [z|zs] so|d vk ps rs va|d]; cbn [spec_okb acceptable];
    rewrite ?andb_true_iff, ?example_dtype_b, ?Nat.eqb_eq, ?okp_In; intuition congruence.
Qed.
Definition dom_okb (d : option domain) : bool := match d with Some (Other_domain _) => false | _ => true end.
Definition okb (ds : dict domain) (it : string * fspec) : bool := spec_okb (snd it) && dom_okb (dict_get ds (fst it)).

Definition value_proto (ds : dict domain) (name column : string) (d : dtype) (shape : option (list Z)) : proto_feature :=
  PF column (ptype d) (match shape with Some _ => true | None => false end) shape (option_map Own (dict_get ds name)) false [].
Lemma make_feature_ok ds name column d always shape : always = (match shape with Some _ => true | None => false end) ->
  make_feature column d always shape (dict_get ds name) =
  if example_dtypeb d && dom_okb (dict_get ds name) then Returned (value_proto ds name column d shape) else Raised.
Proof.
  intros ->. unfold make_feature, value_proto. destruct d; cbn; try (destruct (dict_get ds name) as [[]|]; reflexivity); reflexivity.
Qed.
Definition clean_size (s : option Z) : option Z := match s with Some z => if (z =? -1)%Z then None else Some z | None => None end.
Definition index_protos (ik : keys) (size : sizes) : list proto_feature :=
  match ik, size with
  | Key_list ks, Size_list zs => map (fun kd => index_proto (fst kd) (snd kd)) (combine ks (map clean_size zs))
  | One_key k, One_size z => [index_proto k (Some z)]
  | _, _ => []
  end.
Definition index_names (ik : keys) : list string := match ik with One_key k => [k] | Key_list ks => ks end.
Definition proto_partition_of (p : ragged_partition) : proto_partition :=
  match p with By_row_lengths k => P_row_length k | By_uniform_length n => P_uniform_row_length n | By_something_else => P_uniform_row_length 0 end.
Definition value_column (it : string * fspec) : string :=
  match snd it with Sparse_spec _ vk _ _ _ => vk | Ragged_spec _ vk _ _ _ => key_or_name vk (fst it) | _ => fst it end.
Definition spec_dtype (sp : fspec) : dtype :=
  match sp with Fixed_len _ d _ | Var_len d | Sparse_spec _ _ d _ _ | Ragged_spec d _ _ _ _ | Other_spec d => d end.
Definition spec_shape (sp : fspec) : option (list Z) := match sp with Fixed_len sh _ _ => Some sh | _ => None end.
Definition item_value (ds : dict domain) (it : string * fspec) : proto_feature :=
  value_proto ds (fst it) (value_column it) (spec_dtype (snd it)) (spec_shape (snd it)).
Definition item_features (ds : dict domain) (it : string * fspec) : list proto_feature :=
  match snd it with
  | Sparse_spec ik _ _ size _ => index_protos ik size ++ [item_value ds it]
  | Ragged_spec _ _ ps _ _ => item_value ds it :: partition_features (map proto_partition_of ps)
  | _ => [item_value ds it]
  end.
Definition item_sparse (it : string * fspec) : list proto_sparse :=
  match snd it with Sparse_spec ik vk _ _ so => [PS (fst it) so (index_names ik) vk] | _ => [] end.
Definition item_reprs (it : string * fspec) : dict proto_representation :=
  match snd it with Ragged_spec _ vk ps _ _ => [(fst it, PR_ragged (key_or_name vk (fst it)) (map proto_partition_of ps))] | _ => [] end.

Lemma partitions_ok ps : map_result partition_proto ps = if forallb okp ps then Returned (map proto_partition_of ps) else Raised.
Proof.
  induction ps as [|p ps IH]; [reflexivity|]. cbn [map_result forallb map]. rewrite IH. destruct p; cbn; try reflexivity;
    destruct (forallb okp ps); reflexivity.
Qed.
Lemma add_to_schema_ok ds s it : ~ In (fst it) (map fst (ps_representations s)) -> ps_string_domains s = [] -> ps_annotations s = [] ->
  add_to_schema ds s it =
  if okb ds it then Returned (PSchema (ps_features s ++ item_features ds it) (ps_sparse s ++ item_sparse it) (ps_representations s ++ item_reprs it) [] [])
  else Raised.
Proof.
  destruct it as [name sp]. cbn [fst]. intros NI SD SA.
  destruct sp as [sh d [v|]|d|[k|ks] vk d [z|zs] so|d vk ps rs va|d]; unfold okb, item_features, item_sparse, item_reprs, add_to_schema, item_value,
    plain_from_spec, sparse_from_spec, ragged_from_spec; cbn [snd fst spec_okb spec_dtype spec_shape value_column andb index_protos index_names];
    rewrite ?make_feature_ok by reflexivity; try reflexivity.
  - destruct (example_dtypeb d && _); [|reflexivity]. cbn [bind]. rewrite !app_nil_r. reflexivity.
  - destruct (example_dtypeb d && _); [|reflexivity]. cbn [bind]. rewrite !app_nil_r. reflexivity.
  - cbn [bind fst snd]. destruct (example_dtypeb d && _); [|reflexivity]. cbn [bind]. rewrite app_nil_r. reflexivity.
  - destruct (length ks =? length zs); [|reflexivity]. cbn [bind fst snd andb]. destruct (example_dtypeb d && _); [|reflexivity].
    cbn [bind]. rewrite app_nil_r. reflexivity.
  - rewrite partitions_ok. destruct (example_dtypeb d); [|reflexivity]. destruct (dom_okb _); cbn [andb bind].
    + rewrite andb_true_r. destruct (forallb okp ps); [|reflexivity]. cbn [bind]. rewrite app_nil_r, dict_set_new by exact NI. reflexivity.
    + rewrite andb_false_r. reflexivity.
Qed.
Lemma add_all_ok ds items : forall s, NoDup (map fst items) -> (forall k, In k (map fst items) -> ~ In k (map fst (ps_representations s))) ->
  ps_string_domains s = [] -> ps_annotations s = [] ->
  add_all_to_schema ds s items =
  if forallb (okb ds) items then
    Returned (PSchema (ps_features s ++ flat_map (item_features ds) items) (ps_sparse s ++ flat_map item_sparse items)
                      (ps_representations s ++ flat_map item_reprs items) [] [])
  else Raised.
Proof.
  induction items as [|it items IH]; intros s ND NI SD SA.
  - cbn. rewrite !app_nil_r. destruct s; cbn in *; subst; reflexivity.
  - cbn [add_all_to_schema forallb flat_map]. rewrite add_to_schema_ok; [|apply NI; left; reflexivity|exact SD|exact SA].
    destruct (okb ds it); [|reflexivity]. cbn [bind andb]. inversion ND as [|? ? N ND']; subst. rewrite IH.
    + cbn [ps_features ps_sparse ps_representations]. rewrite <- !app_assoc. reflexivity.
    + exact ND'.
    + cbn [ps_representations]. intros k I J. rewrite map_app, in_app_iff in J. destruct J as [J|J]; [exact (NI k (or_intror I) J)|].
      unfold item_reprs in J. destruct it as [name sp]. destruct sp; cbn in J; try contradiction. destruct J as [<-|[]]. exact (N I).
    + reflexivity.
    + reflexivity.
Qed.
Definition by_key {V} (a b : string * V) : bool := String.leb (fst a) (fst b).
Definition schema_of (ds : dict domain) (items : list (string * fspec)) : proto_schema :=
  PSchema (flat_map (item_features ds) items) (flat_map item_sparse items) (flat_map item_reprs items) [] [].
Lemma from_feature_spec_ok fs ds : NoDup (map fst fs) ->
  from_feature_spec fs ds = if forallb (okb ds) (py_sorted by_key fs) then Returned (schema_of ds (py_sorted by_key fs)) else Raised.
Proof.
  intros ND. unfold from_feature_spec. rewrite add_all_ok; [reflexivity| |intros k _ []|reflexivity|reflexivity].
  apply (Permutation_NoDup (l := map fst fs)); [|exact ND]. apply Permutation_map. symmetry. apply py_sorted_perm.
Qed.
Lemma forallb_perm {A} (p : A -> bool) l l' : Permutation l l' -> forallb p l = forallb p l'.
Proof.
  induction 1 as [|x l l' _ IH|x y l|l1 l2 l3 _ IH1 _ IH2]; cbn; [reflexivity|rewrite IH; reflexivity| |congruence].
  destruct (p x), (p y); reflexivity.
Qed.

Lemma dom_okb_iff d : dom_okb d = true <-> forall x, d = Some x -> is_domain x.
Proof.
  destruct d as [[]|]; cbn; split; intros H; try reflexivity; try discriminate; try (intros ? [= <-]; exact Logic.I).
  - destruct (H _ eq_refl).
Qed.
Lemma accepts fs ds : NoDup (map fst fs) -> NoDup (map fst ds) ->
  ((exists s, from_feature_spec fs ds = Returned s) <->
   forall name sp, In (name, sp) fs -> acceptable sp /\ forall d, In (name, d) ds -> is_domain d).
Proof.
  intros ND NDd. rewrite from_feature_spec_ok by exact ND. rewrite (forallb_perm _ _ _ (py_sorted_perm by_key fs)).
  assert (E : forallb (okb ds) fs = true <-> forall name sp, In (name, sp) fs -> acceptable sp /\ forall d, In (name, d) ds -> is_domain d).
  { rewrite forallb_forall. split.
    - intros H name sp I. specialize (H _ I). unfold okb in H. cbn in H. rewrite andb_true_iff, acceptable_b, dom_okb_iff in H.
      destruct H as [A D]. split; [exact A|]. intros d J. apply D, dict_get_NoDup; assumption.
    - intros H [name sp] I. unfold okb. cbn. rewrite andb_true_iff, acceptable_b, dom_okb_iff. destruct (H name sp I) as [A D].
      split; [exact A|]. intros d J. apply D, dict_get_In, J. }
  rewrite <- E. destruct (forallb (okb ds) fs); split; try reflexivity; try (intros; eexists; reflexivity); [intros [s [=]]|discriminate].
Qed.

(** ** Order *)
Lemma sorted_same {V} (fs fs' : dict V) : same_items fs fs' -> py_sorted by_key fs = py_sorted by_key fs'.
Proof.
  intros SI. apply py_sorted_perm_eq.
  - intros a b. exact (bytes_leb_total (fst a) (fst b)).
  - intros a b c. exact (bytes_leb_trans (fst a) (fst b) (fst c)).
  - apply same_items_perm, SI.
  - intros [k v] [k' v'] I J L L'. unfold by_key in *. cbn in *.
    assert (k = k') by (apply bytes_leb_antisym; assumption). subst k'. f_equal. destruct SI as (ND & _).
    apply (dict_get_NoDup _ _ _ ND) in I, J. congruence.
Qed.
Lemma okb_get ds ds' it : dict_get ds (fst it) = dict_get ds' (fst it) -> okb ds it = okb ds' it.
Proof. unfold okb. intros ->. reflexivity. Qed.
Lemma item_features_get ds ds' it : dict_get ds (fst it) = dict_get ds' (fst it) -> item_features ds it = item_features ds' it.
Proof. unfold item_features, item_value, value_proto. intros ->. reflexivity. Qed.
Lemma flat_map_ext_in {A B} (f g : A -> list B) l : (forall a, In a l -> f a = g a) -> flat_map f l = flat_map g l.
Proof. induction l as [|a l IH]; [reflexivity|]. intros H. cbn. rewrite (H a (or_introl eq_refl)), IH; [reflexivity|intros; apply H; right; assumption]. Qed.
Lemma forallb_ext_in {A} (f g : A -> bool) l : (forall a, In a l -> f a = g a) -> forallb f l = forallb g l.
Proof. induction l as [|a l IH]; [reflexivity|]. intros H. cbn. rewrite (H a (or_introl eq_refl)), IH; [reflexivity|intros; apply H; right; assumption]. Qed.
Lemma from_same fs fs' ds ds' : same_items fs fs' -> (forall k, In k (map fst fs) -> dict_get ds k = dict_get ds' k) ->
  from_feature_spec fs ds = from_feature_spec fs' ds'.
Proof.
  intros SI SD. pose proof SI as (ND & ND' & _). rewrite !from_feature_spec_ok by assumption. rewrite <- (sorted_same _ _ SI).
  assert (G : forall it, In it (py_sorted by_key fs) -> dict_get ds (fst it) = dict_get ds' (fst it)).
  { intros it I. apply SD, in_map, (Permutation_in _ (py_sorted_perm by_key fs)), I. }
  rewrite (forallb_ext_in _ (okb ds') _ (fun it I => okb_get ds ds' it (G it I))). unfold schema_of.
  rewrite (flat_map_ext_in _ (item_features ds') _ (fun it I => item_features_get ds ds' it (G it I))). reflexivity.
Qed.
Lemma order fs fs' ds ds' : same_items fs fs' -> same_items ds ds' -> from_feature_spec fs ds = from_feature_spec fs' ds'.
Proof. intros A B. apply from_same; [exact A|]. intros k _. apply same_items_get, B. Qed.
