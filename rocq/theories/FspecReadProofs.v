(** * Proofs about feature specs and schemas, 2: reading *)
From Coq Require Import String List ZArith Bool Arith Lia Permutation Sorted.
From Verif Require Import SortModel SortProofs SchemaModel SchemaProofs FspecModel FspecSpec FspecProofs.
Import ListNotations.
Local Open Scope list_scope.
Local Notation length := List.length.

(** ** Taking columns *)
Lemma NoDup_app_inv {A} (a b : list A) : NoDup (a ++ b) -> NoDup a /\ NoDup b /\ forall x, In x a -> ~ In x b.
Proof.
  induction a as [|x a IH]; cbn; [intros H; repeat split; [constructor|exact H|intros ? []]|].
  inversion 1 as [|? ? N ND]; subst. destruct (IH ND) as (NA & NB & D). repeat split.
  - constructor; [|exact NA]. intros I; apply N, in_or_app; auto.
  - exact NB.
  - intros y [<-|I] J; [apply N, in_or_app; auto|exact (D y I J)].
Qed.
Lemma NoDup_app_intro {A} (a b : list A) : NoDup a -> NoDup b -> (forall x, In x a -> ~ In x b) -> NoDup (a ++ b).
Proof.
  induction a as [|x a IH]; cbn; [auto|]. inversion 1 as [|? ? N ND]; subst. intros NB D. constructor.
  - intros I. apply in_app_or in I as [I|I]; [exact (N I)|exact (D x (or_introl eq_refl) I)].
  - apply IH; [exact ND|exact NB|]. intros y I; apply D; right; exact I.
Qed.
Lemma take_ok fs : forall d : dict proto_feature, NoDup (map fst d) -> NoDup (map p_name fs) -> (forall f, In f fs -> In (p_name f, f) d) ->
  take_columns d (map p_name fs) = Returned (fs, without (map p_name fs) d).
Proof.
  induction fs as [|f fs IH]; intros d ND NF H; [cbn; rewrite without_nil; reflexivity|]. cbn [take_columns map].
  rewrite (pop_without d (p_name f) f) by (apply dict_get_NoDup; [exact ND|apply H; left; reflexivity]).
  cbn [map] in NF. inversion NF as [|? ? N NF']; subst. rewrite IH.
  - cbn [bind fst snd]. rewrite without_app. reflexivity.
  - apply without_NoDup, ND.
  - exact NF'.
  - intros g I. apply without_In. split; [apply H; right; exact I|]. cbn. intros [E|[]]. apply N. rewrite E. apply in_map, I.
Qed.
Lemma take_inv names : forall (d : dict proto_feature) fs d', NoDup (map fst d) -> Forall (fun kf => p_name (snd kf) = fst kf) d ->
  take_columns d names = Returned (fs, d') ->
  map p_name fs = names /\ NoDup names /\ incl names (map fst d) /\ d' = without names d.
Proof.
  induction names as [|k names IH]; intros d fs d' ND WN; cbn [take_columns].
  - intros [= <- <-]. repeat split; [constructor|intros ? []|rewrite without_nil; reflexivity].
  - destruct (dict_get d k) as [v|] eqn:G; [|unfold dict_pop; rewrite G; discriminate]. rewrite (pop_without _ _ _ G).
    intros E. apply bind_returned in E as ([gs e] & E & [= <- <-]).
    assert (WN' : Forall (fun kf => p_name (snd kf) = fst kf) (without [k] d)).
    { apply Forall_forall. intros x I. apply without_In in I as [I _]. rewrite Forall_forall in WN. exact (WN x I). }
    destruct (IH _ _ _ (without_NoDup [k] d ND) WN' E) as (M & N & S' & ->). apply dict_get_In in G. cbn [fst snd].
    repeat split.
    + cbn [map]. rewrite M. f_equal. rewrite Forall_forall in WN. exact (WN _ G).
    + constructor; [|exact N]. intros I. apply S' in I. apply in_map_iff in I as (x & E' & J). apply without_In in J as [_ J].
      apply J. left. symmetry; exact E'.
    + intros x [<-|I]; [exact (in_map fst _ _ G)|]. apply S' in I. apply in_map_iff in I as (y & <- & J). apply without_In in J as [J _].
      apply in_map, J.
    + rewrite without_app. reflexivity.
Qed.

(** ** Reading what was written *)
Definition tensor_of (ds : dict domain) (it : string * fspec) : string * tensor := (fst it, (snd it, item_value ds it)).
Definition columns (items : list (string * fspec)) : list string := flat_map (fun it => parsed_columns (fst it) (snd it)) items.

Lemma dtype_ptype d : example_dtypeb d = true -> dtype_of_proto (ptype d) = Returned d.
Proof. destruct d; [reflexivity..|discriminate]. Qed.
Lemma key_or_name_some k name : k <> ""%string -> key_or_name (Some k) name = k.
Proof. intros N. unfold key_or_name. destruct (String.eqb_spec k ""); [contradiction|reflexivity]. Qed.
Lemma partition_names ps : map p_name (partition_features ps) = row_length_columns ps.
Proof. unfold partition_features, row_length_columns. induction ps as [|[k|n] ps IH]; cbn; rewrite ?IH; reflexivity. Qed.
Lemma partition_ints ps : forallb is_int (partition_features ps) = true.
Proof. unfold partition_features. induction ps as [|[k|n] ps IH]; cbn; rewrite ?IH; reflexivity. Qed.
Lemma index_protos_names ks zs : length ks = length zs -> map p_name (index_protos (Key_list ks) (Size_list zs)) = ks.
Proof.
  cbn. revert zs. induction ks as [|k ks IH]; [reflexivity|]. intros [|z zs]; [discriminate|]. intros [= L]. cbn. f_equal. apply IH, L.
Qed.
Lemma index_size_proto k z : index_size (index_proto k (clean_size (Some z))) = Returned (Some z).
Proof.
  unfold index_proto, clean_size, index_size. cbn [p_type p_domain]. destruct (Z.eqb_spec z (-1)) as [->|N]; [reflexivity|].
  cbn [option_map]. cbn. do 2 f_equal. lia.
Qed.
Lemma index_sizes ks zs : length ks = length zs -> Forall (fun z => z <> None) zs ->
  map_result index_size (index_protos (Key_list ks) (Size_list zs)) = Returned zs.
Proof.
  cbn [index_protos]. revert zs. induction ks as [|k ks IH]; intros zs; [destruct zs; [reflexivity|discriminate]|].
  destruct zs as [|z zs]; [discriminate|]. intros [= L] F. inversion F as [|? ? N F']; subst. destruct z as [z|]; [|contradiction].
  cbn [map combine map_result fst snd]. rewrite index_size_proto. cbn [bind]. rewrite IH by assumption. reflexivity.
Qed.
Lemma row_columns ps : forallb okp ps = true ->
  row_length_columns (map proto_partition_of ps) = flat_map (fun p => match p with By_row_lengths k => [k] | _ => [] end) ps /\
  map read_partition (map proto_partition_of ps) = ps.
Proof.
  unfold row_length_columns. induction ps as [|p ps IH]; [split; reflexivity|]. cbn [forallb]. rewrite andb_true_iff. intros [A B].
  destruct (IH B) as [E1 E2]. destruct p as [k|n|]; cbn; rewrite ?E1, ?E2; [split; reflexivity|split; reflexivity|discriminate].
Qed.
(** The features of an item are named after the columns it is parsed from. *)
Lemma item_columns ds it : canonical (snd it) -> map p_name (item_features ds it) = parsed_columns (fst it) (snd it).
Proof.
  destruct it as [name sp]. intros [A C]. cbn [snd fst] in *. destruct sp as [sh d v|d|[k|ks] vk d [z|zs] so|d vk ps rs va|d]; cbn in A, C; try contradiction.
  - reflexivity.
  - reflexivity.
  - unfold item_features. cbn [snd]. rewrite map_app. destruct A as [_ L]. rewrite index_protos_names by exact L. reflexivity.
  - destruct C as ((k & -> & N) & _ & _). destruct A as [_ A]. apply okp_In in A. unfold item_features. cbn [snd map].
    rewrite partition_names. destruct (row_columns ps A) as [-> _]. cbn. destruct (String.eqb_spec k ""); [contradiction|reflexivity].
Qed.
Definition is_ragged (it : string * fspec) : bool := match snd it with Ragged_spec _ _ _ _ _ => true | _ => false end.
Definition is_sparse (it : string * fspec) : bool := match snd it with Sparse_spec _ _ _ _ _ => true | _ => false end.
Definition is_plain (it : string * fspec) : bool := negb (is_ragged it) && negb (is_sparse it).

Lemma read_ragged ds items : forall d : dict proto_feature, NoDup (map fst d) ->
  (forall it, In it items -> is_ragged it = true /\ canonical (snd it) /\ okb ds it = true) -> NoDup (columns items) ->
  (forall it f, In it items -> In f (item_features ds it) -> In (p_name f, f) d) ->
  read_representations d (flat_map item_reprs items) = Returned (map (tensor_of ds) items, without (columns items) d).
Proof.
  induction items as [|it items IH]; intros d ND H NC HF; [cbn; rewrite without_nil; reflexivity|].
  destruct (H it (or_introl eq_refl)) as (R & C & O). destruct it as [name sp]. destruct sp as [| | |dt vk ps rs va|]; try discriminate R.
  pose proof (item_columns ds _ C) as IC. pose proof C as [A ((k & -> & N) & -> & ->)]. cbn in A. destruct A as [AD AP]. apply okp_In in AP.
  cbn [columns flat_map] in NC. fold (columns items) in NC. apply NoDup_app_inv in NC as (NI & NR & D). rewrite <- IC in NI.
  cbn [flat_map item_reprs snd fst app read_representations]. unfold item_features in IC, NI. cbn [snd map] in IC, NI.
  set (v := item_value ds _) in *. set (pf := partition_features _) in *.
  assert (Hv : In (p_name v, v) d) by (apply (HF _ v (or_introl eq_refl)); left; reflexivity).
  assert (Hp : forall f, In f pf -> In (p_name f, f) d) by (intros f I; apply (HF _ f (or_introl eq_refl)); right; exact I).
  replace [key_or_name (Some k) name] with (map p_name [v]) by reflexivity.
  rewrite take_ok; [|exact ND|constructor; [intros []|constructor]|intros f [<-|[]]; exact Hv]. cbn [bind fst snd].
  replace (row_length_columns (map proto_partition_of ps)) with (map p_name pf) by apply partition_names.
  inversion NI as [|? ? N1 N2]; subst. rewrite take_ok; [|apply without_NoDup, ND|exact N2|].
  2:{ intros f I. apply without_In. split; [apply Hp, I|]. intros [E|[]]. apply N1. change (In (p_name v) (map p_name pf)). change (p_name v = p_name f) in E. rewrite E. apply in_map, I. }
  cbn [bind fst snd]. replace (forallb is_int pf) with true by (symmetry; apply partition_ints).
  replace (p_type v) with (ptype dt) by reflexivity. rewrite dtype_ptype by (apply example_dtype_b, AD). cbn [bind].
  rewrite without_app. change (map p_name [v] ++ map p_name pf) with (map p_name (v :: pf)). rewrite IH.
  - cbn [bind fst snd map]. unfold tensor_of at 2. cbn [fst snd]. fold v. rewrite (proj2 (row_columns ps AP)), (key_or_name_some k name N).
    do 2 f_equal. rewrite without_app. unfold columns. cbn [flat_map]. f_equal. f_equal. exact IC.
  - apply without_NoDup, ND.
  - intros it I. apply H; right; exact I.
  - exact NR.
  - intros it f I J. apply without_In. split; [apply (HF it f (or_intror I) J)|]. cbn [fst]. change (p_name v :: map p_name pf) with (map p_name (v :: pf)) in IC.
    intros K. assert (K' : In (p_name f) (parsed_columns name (Ragged_spec dt (Some k) ps Int64 false))) by (cbn [fst] in IC; rewrite <- IC; exact K).
    apply (D _ K'). unfold columns. apply in_flat_map. exists it. split; [exact I|]. rewrite <- (item_columns ds it).
    + apply in_map, J.
    + apply H. right; exact I.
Qed.
Lemma read_sparses ds items : forall d : dict proto_feature, NoDup (map fst d) ->
  (forall it, In it items -> is_sparse it = true /\ canonical (snd it) /\ okb ds it = true) -> NoDup (columns items) ->
  (forall it f, In it items -> In f (item_features ds it) -> In (p_name f, f) d) ->
  read_sparse d (flat_map item_sparse items) = Returned (map (tensor_of ds) items, without (columns items) d).
Proof.
  induction items as [|it items IH]; intros d ND H NC HF; [cbn; rewrite without_nil; reflexivity|].
  destruct (H it (or_introl eq_refl)) as (R & C & O). destruct it as [name sp]. destruct sp as [| |ik vk dt size so| |]; try discriminate R.
  pose proof (item_columns ds _ C) as IC. pose proof C as [A C']. destruct ik as [?|ks], size as [?|zs]; try contradiction. cbn in A, C'.
  destruct A as [AD AL]. cbn [columns flat_map] in NC. fold (columns items) in NC. apply NoDup_app_inv in NC as (NI & NR & D). rewrite <- IC in NI.
  cbn [flat_map item_sparse snd fst app read_sparse ps_index ps_value ps_name ps_sorted index_names]. unfold item_features in IC, NI. cbn [snd] in IC, NI.
  set (v := item_value ds _) in *. pose proof (index_protos_names ks zs AL) as IN. pose proof (index_sizes ks zs AL C') as IS.
  assert (HF0 : forall f, In f (index_protos (Key_list ks) (Size_list zs) ++ [v]) -> In (p_name f, f) d) by (intros f I; exact (HF _ f (or_introl eq_refl) I)).
  set (ip := index_protos (Key_list ks) (Size_list zs)) in *. rewrite map_app in NI. apply NoDup_app_inv in NI as (NI & _ & DV).
  rewrite <- IN at 1. rewrite take_ok; [|exact ND|exact NI|intros f I; apply HF0, in_or_app; left; exact I]. cbn [bind fst snd].
  replace [vk] with (map p_name [v]) by reflexivity. rewrite take_ok; [|apply without_NoDup, ND|constructor; [intros []|constructor]|].
  2:{ intros f [<-|[]]. apply without_In. split; [apply HF0, in_or_app; right; left; reflexivity|]. cbn [fst]. intros I. apply (DV _ I). left; reflexivity. }
  cbn [bind fst snd]. rewrite IS. cbn [bind]. replace (p_type v) with (ptype dt) by reflexivity. rewrite dtype_ptype by (apply example_dtype_b, AD).
  cbn [bind]. rewrite without_app, <- map_app, IH.
  - cbn [bind fst snd map]. unfold tensor_of at 2. cbn [fst snd]. fold v. do 2 f_equal. rewrite without_app. unfold columns. cbn [flat_map]. f_equal.
    f_equal. exact IC.
  - apply without_NoDup, ND.
  - intros it I. apply H; right; exact I.
  - exact NR.
  - intros it f I J. apply without_In. split; [apply (HF it f (or_intror I) J)|]. cbn [fst]. rewrite IC.
    intros K. apply (D _ K). unfold columns. apply in_flat_map. exists it. split; [exact I|]. rewrite <- (item_columns ds it).
    + apply in_map, J.
    + apply H. right; exact I.
Qed.
Lemma read_plains ds items : (forall it, In it items -> is_plain it = true /\ canonical (snd it)) ->
  map_result (fun nf => read_plain (snd nf)) (map (fun it => (fst it, item_value ds it)) items) = Returned (map (tensor_of ds) items).
Proof.
  induction items as [|it items IH]; intros H; [reflexivity|]. cbn [map map_result snd].
  destruct (H it (or_introl eq_refl)) as (P & A & _). rewrite IH by (intros x I; apply H; right; exact I).
  destruct it as [name [sh d v|d| | |]]; try discriminate P; try contradiction; cbn in A.
  - destruct A as [A ->]. unfold read_plain, item_value, value_proto. cbn. rewrite dtype_ptype by (apply example_dtype_b, A). reflexivity.
  - unfold read_plain, item_value, value_proto. cbn. rewrite dtype_ptype by (apply example_dtype_b, A). reflexivity.
Qed.
Lemma flat_map_filter {A B} (p : A -> bool) (f : A -> list B) l : (forall a, In a l -> p a = false -> f a = []) -> flat_map f l = flat_map f (filter p l).
Proof.
  induction l as [|a l IH]; intros H; [reflexivity|]. cbn [flat_map filter].
  assert (IH' : flat_map f l = flat_map f (filter p l)) by (apply IH; intros b I; apply H; right; exact I).
  destruct (p a) eqn:E; [cbn; rewrite IH'; reflexivity|]. rewrite (H a (or_introl eq_refl) E), IH'. reflexivity.
Qed.
Lemma three_kinds (items : list (string * fspec)) :
  Permutation (filter is_ragged items ++ filter is_sparse items ++ filter is_plain items) items.
Proof.
  induction items as [|it items IH]; [constructor|]. cbn [filter]. unfold is_plain at 1, is_ragged at 1, is_sparse at 1.
  destruct it as [name [| | | |]]; cbn [snd is_ragged is_sparse negb andb];
    (rewrite app_assoc, <- Permutation_middle, <- app_assoc; constructor; exact IH) || (cbn [app]; constructor; exact IH) || (rewrite <- app_comm_cons, <- Permutation_middle; constructor; exact IH).
Qed.
Lemma Permutation_flat_map' {A B} (f : A -> list B) l l' : Permutation l l' -> Permutation (flat_map f l) (flat_map f l').
Proof.
  induction 1 as [|x l l' _ IH|x y l|l1 l2 l3 _ IH1 _ IH2]; cbn; [constructor|rewrite IH; reflexivity| |rewrite IH1; exact IH2].
  rewrite !app_assoc. apply Permutation_app_tail, Permutation_app_comm.
Qed.
Lemma columns_app a b : columns (a ++ b) = columns a ++ columns b.
Proof. apply flat_map_app. Qed.

Definition tensors_of (ds : dict domain) (items : list (string * fspec)) : list (string * tensor) :=
  map (tensor_of ds) (filter is_ragged items ++ filter is_sparse items ++ filter is_plain items).
Definition domains_of (ts : list (string * tensor)) : dict domain :=
  flat_map (fun nt => match get_domain (snd (snd nt)) (to_dict []) with Some d => [(fst nt, d)] | None => [] end) ts.

Lemma item_not_struct ds it : okb ds it = true -> existsb (fun f => match p_type f with T_STRUCT => true | _ => false end) (item_features ds it) = false.
Proof.
  intros O. apply not_true_is_false. rewrite existsb_exists. intros (f & I & E).
  assert (V : p_type (item_value ds it) <> T_STRUCT) by (cbn; destruct (spec_dtype (snd it)); discriminate).
  assert (V' : f = item_value ds it -> False) by (intros ->; destruct (p_type (item_value ds it)); congruence).
  unfold item_features in I. destruct it as [name [sh d v|d|ik vk d size so|d vk ps rs va|d]]; cbn [snd] in *.
  1,2,5: destruct I as [<-|[]]; apply V'; reflexivity.
  - apply in_app_or in I as [I|[<-|[]]]; [|apply V'; reflexivity]. destruct ik as [k|ks], size as [z|zs]; cbn in I; try contradiction.
    + destruct I as [<-|[]]. discriminate.
    + apply in_map_iff in I as (x & <- & _). discriminate.
  - destruct I as [<-|I]; [apply V'; reflexivity|]. unfold partition_features in I. apply in_flat_map in I as (p & _ & I).
    destruct p; [|destruct I]. destruct I as [<-|[]]. discriminate.
Qed.
Lemma item_shown ds it f : In f (item_features ds it) -> p_deprecated f = false.
Proof.
  unfold item_features. destruct it as [name [sh d v|d|ik vk d size so|d vk ps rs va|d]]; cbn [snd]; intros I.
  1,2,5: destruct I as [<-|[]]; reflexivity.
  - apply in_app_or in I as [I|[<-|[]]]; [|reflexivity]. destruct ik as [k|ks], size as [z|zs]; cbn in I; try contradiction.
    + destruct I as [<-|[]]. reflexivity.
    + apply in_map_iff in I as (x & <- & _). reflexivity.
  - destruct I as [<-|I]; [reflexivity|]. unfold partition_features in I. apply in_flat_map in I as (p & _ & I).
    destruct p; [|destruct I]. destruct I as [<-|[]]. reflexivity.
Qed.
Lemma existsb_flat_map {A B} (p : B -> bool) (f : A -> list B) l : (forall a, In a l -> existsb p (f a) = false) -> existsb p (flat_map f l) = false.
Proof.
  induction l as [|a l IH]; [reflexivity|]. intros H. cbn. rewrite existsb_app, (H a (or_introl eq_refl)), IH; [reflexivity|].
  intros; apply H; right; assumption.
Qed.
Lemma filter_all {A} (p : A -> bool) l : (forall a, In a l -> p a = true) -> filter p l = l.
Proof. induction l as [|a l IH]; [reflexivity|]. intros H. cbn. rewrite (H a (or_introl eq_refl)), IH; [reflexivity|intros; apply H; right; assumption]. Qed.
Lemma filter_none {A} (p : A -> bool) l : (forall a, In a l -> p a = false) -> filter p l = [].
Proof. induction l as [|a l IH]; [reflexivity|]. intros H. cbn. rewrite (H a (or_introl eq_refl)), IH; [reflexivity|intros; apply H; right; assumption]. Qed.
Lemma filter_flat_map {A B} (p : B -> bool) (f : A -> list B) l : filter p (flat_map f l) = flat_map (fun a => filter p (f a)) l.
Proof. induction l as [|a l IH]; [reflexivity|]. cbn. rewrite filter_app, IH. reflexivity. Qed.

Lemma read_written ds items : (forall it, In it items -> canonical (snd it) /\ okb ds it = true) -> NoDup (map fst items) -> NoDup (columns items) ->
  as_feature_spec (schema_of ds items) =
  Returned (map (fun nt => (fst nt, fst (snd nt))) (tensors_of ds items), domains_of (tensors_of ds items)).
Proof.
  intros H ND NC. unfold as_feature_spec, schema_of. cbn [ps_features ps_representations ps_sparse ps_string_domains].
  rewrite existsb_flat_map by (intros it I; apply item_not_struct, H, I).
  rewrite filter_all by (intros f I; apply in_flat_map in I as (it & _ & J); rewrite (item_shown ds it f J); reflexivity).
  set (D := map (fun f => (p_name f, f)) (flat_map (item_features ds) items)).
  assert (KD : map fst D = columns items).
  { unfold D, columns. rewrite map_map. cbn. rewrite (map_ext _ p_name) by reflexivity. rewrite flat_map_concat_map, concat_map, map_map.
    rewrite flat_map_concat_map. f_equal. apply map_ext_in. intros it I. apply item_columns, H, I. }
  assert (NDD : NoDup (map fst D)) by (rewrite KD; exact NC). rewrite (to_dict_new D NDD).
  assert (HD : forall it f, In it items -> In f (item_features ds it) -> In (p_name f, f) D).
  { intros it f I J. unfold D. apply in_map_iff. exists f. split; [reflexivity|]. apply in_flat_map. eauto. }
  assert (NC' : NoDup (columns (filter is_ragged items ++ filter is_sparse items ++ filter is_plain items))).
  { eapply Permutation_NoDup; [|exact NC]. apply Permutation_flat_map'. symmetry. apply three_kinds. }
  rewrite !columns_app in NC'. apply NoDup_app_inv in NC' as (NR & NC' & D1). apply NoDup_app_inv in NC' as (NS & NP & D2).
  rewrite (flat_map_filter is_ragged item_reprs) by (intros [n []] _; cbn; congruence).
  rewrite (read_ragged ds (filter is_ragged items) D NDD).
  2:{ intros it I. apply filter_In in I as [I K]. split; [exact K|exact (H it I)]. }
  2:{ exact NR. }
  2:{ intros it f I. apply filter_In in I as [I _]. exact (HD it f I). }
  cbn [bind fst snd]. rewrite (flat_map_filter is_sparse item_sparse) by (intros [n []] _; cbn; congruence).
  rewrite (read_sparses ds (filter is_sparse items)).
  2:{ apply without_NoDup, NDD. }
  2:{ intros it I. apply filter_In in I as [I K]. split; [exact K|exact (H it I)]. }
  2:{ exact NS. }
  2:{ intros it f I J. pose proof I as I0. apply filter_In in I as [I K]. apply without_In. split; [exact (HD it f I J)|]. cbn [fst]. intros L.
      apply (D1 _ L), in_or_app. left. unfold columns. apply in_flat_map. exists it. split; [exact I0|]. rewrite <- (item_columns ds it); [|apply H, I].
      apply in_map, J. }
  cbn [bind fst snd]. rewrite without_app.
  assert (REST : without (columns (filter is_ragged items) ++ columns (filter is_sparse items)) D = map (fun it => (fst it, item_value ds it)) (filter is_plain items)).
  { unfold D, without. rewrite flat_map_concat_map, concat_map, map_map, <- flat_map_concat_map, filter_flat_map.
    rewrite (flat_map_filter is_plain).
    - rewrite (flat_map_ext_in _ (fun it => [(fst it, item_value ds it)])).
      + generalize (filter is_plain items). induction l as [|it l IH]; [reflexivity|]. cbn. rewrite IH. reflexivity.
      + intros it I. pose proof I as I0. apply filter_In in I as [I K]. rewrite filter_all.
        * unfold item_features. destruct it as [name []]; try discriminate K; reflexivity.
        * intros kf J. apply negb_true_iff, mem_not. intros L. apply in_map_iff in J as (f & <- & J). cbn [fst] in L.
          assert (M : In (p_name f) (columns (filter is_plain items))).
          { unfold columns. apply in_flat_map. exists it. split; [exact I0|]. rewrite <- (item_columns ds it); [|apply H, I]. apply in_map, J. }
          apply in_app_or in L as [L|L]; [apply (D1 _ L), in_or_app; right; exact M|exact (D2 _ L M)].
    - intros it I NP'. apply filter_none. intros kf J. apply negb_false_iff, mem_In. apply in_map_iff in J as (f & <- & J). cbn [fst].
      assert (M : In (p_name f) (parsed_columns (fst it) (snd it))) by (rewrite <- (item_columns ds it); [apply in_map, J|apply H, I]).
      apply in_or_app. unfold is_plain in NP'. destruct (is_ragged it) eqn:R1; [left|right].
      + unfold columns. apply in_flat_map. exists it. split; [apply filter_In; auto|exact M].
      + destruct (is_sparse it) eqn:R2; [|discriminate NP']. unfold columns. apply in_flat_map. exists it. split; [apply filter_In; auto|exact M]. }
  rewrite REST, read_plains.
  2:{ intros it I. apply filter_In in I as [I K]. split; [exact K|apply H, I]. }
  cbn [bind]. rewrite <- !map_app. fold (tensors_of ds items).
  assert (NT : NoDup (map fst (tensors_of ds items))).
  { unfold tensors_of. rewrite map_map. cbn. eapply Permutation_NoDup; [|exact ND]. apply Permutation_map. symmetry. apply three_kinds. }
  rewrite (nodup_fixed_point string_dec NT), Nat.eqb_refl. reflexivity.
Qed.

(** ** The round trip *)
Lemma tensors_items ds items : map (fun nt => (fst nt, fst (snd nt))) (tensors_of ds items) = filter is_ragged items ++ filter is_sparse items ++ filter is_plain items.
Proof. unfold tensors_of. rewrite map_map. rewrite <- map_id. apply map_ext. intros [n s]. reflexivity. Qed.
Lemma domains_items ds items : NoDup (map fst items) -> NoDup (map fst ds) ->
  items_where (fun k => In k (map fst items)) ds (domains_of (tensors_of ds items)).
Proof.
  intros ND NDd. pose proof (three_kinds items) as P. unfold domains_of, tensors_of.
  set (l := filter is_ragged items ++ _) in *. rewrite flat_map_concat_map, map_map, <- flat_map_concat_map.
  rewrite (flat_map_ext _ (fun it => match dict_get ds (fst it) with Some d => [(fst it, d)] | None => [] end)).
  2:{ intros it. unfold get_domain. cbn. destruct (dict_get ds (fst it)); reflexivity. }
  assert (NL : NoDup (map fst l)) by (eapply Permutation_NoDup; [|exact ND]; apply Permutation_map; symmetry; exact P).
  split.
  - clear P. induction l as [|it l IH]; [constructor|]. cbn [map] in NL. inversion NL as [|? ? N NL']; subst. cbn [flat_map]. rewrite map_app.
    apply NoDup_app_intro; [destruct (dict_get ds (fst it)); repeat constructor; intros []|apply IH, NL'|]. intros x I J. apply N.
    destruct (dict_get ds (fst it)); [|destruct I]. destruct I as [<-|[]]. apply in_map_iff in J as (y & E & J). apply in_flat_map in J as (z & J & K).
    destruct (dict_get ds (fst z)); [|destruct K]. destruct K as [<-|[]]. cbn in E. rewrite <- E. apply in_map, J.
  - intros k v. rewrite in_flat_map. split.
    + intros (it & I & J). destruct (dict_get ds (fst it)) as [d|] eqn:G; [|destruct J]. destruct J as [[= <- <-]|[]].
      split; [apply dict_get_In, G|]. apply in_map. apply (Permutation_in _ P), I.
    + intros [I K]. apply in_map_iff in K as (it & <- & J). exists it. split; [apply (Permutation_in _ (Permutation_sym P)), J|].
      rewrite (dict_get_NoDup _ _ _ NDd I). left; reflexivity.
Qed.
Lemma round_trip fs ds : NoDup (map fst fs) -> NoDup (map fst ds) ->
  (forall name sp, In (name, sp) fs -> canonical sp /\ forall d, In (name, d) ds -> is_domain d) -> no_shared_columns fs ->
  exists s fs' ds', from_feature_spec fs ds = Returned s /\ as_feature_spec s = Returned (fs', ds') /\
    same_items fs fs' /\ items_where (fun k => In k (map fst fs)) ds ds'.
Proof.
  intros ND NDd H NC. rewrite from_feature_spec_ok by exact ND. set (items := py_sorted by_key fs).
  assert (P : Permutation items fs) by apply py_sorted_perm.
  assert (OK : forall it, In it items -> canonical (snd it) /\ okb ds it = true).
  { intros [name sp] I. apply (Permutation_in _ P) in I. destruct (H name sp I) as [C D]. split; [exact C|]. unfold okb. cbn.
    apply andb_true_iff. split; [apply acceptable_b, C|]. apply dom_okb_iff. intros d G. apply D, dict_get_In, G. }
  replace (forallb (okb ds) items) with true by (symmetry; apply forallb_forall; intros it I; apply OK, I).
  assert (NI : NoDup (map fst items)) by (eapply Permutation_NoDup; [|exact ND]; apply Permutation_map; symmetry; exact P).
  exists (schema_of ds items). do 2 eexists. split; [reflexivity|]. split; [apply read_written|].
  - exact OK.
  - exact NI.
  - eapply Permutation_NoDup; [|exact NC]. apply Permutation_flat_map'. symmetry; exact P.
  - split.
    + rewrite tensors_items. pose proof (three_kinds items) as P3. set (l := filter is_ragged items ++ _) in *. split; [exact ND|]. split.
      * eapply Permutation_NoDup; [|exact NI]. apply Permutation_map. symmetry; exact P3.
      * intros k v. split; intros I.
        -- apply (Permutation_in _ (Permutation_sym P3)), (Permutation_in _ (Permutation_sym P)), I.
        -- apply (Permutation_in _ P), (Permutation_in _ P3), I.
    + destruct (domains_items ds items NI NDd) as [A B]. split; [exact A|]. intros k v. rewrite B.
      split; intros [I J]; (split; [exact I|]); [apply (Permutation_in _ (Permutation_map fst P)), J|apply (Permutation_in _ (Permutation_map fst (Permutation_sym P))), J].
Qed.

(** ** Any schema *)
Definition items_of (ts : list (string * tensor)) : list (string * fspec) := map (fun nt => (fst nt, fst (snd nt))) ts.
Definition well_named (d : dict proto_feature) : Prop := NoDup (map fst d) /\ Forall (fun kf => p_name (snd kf) = fst kf) d.
Lemma well_named_without ks d : well_named d -> well_named (without ks d).
Proof.
  intros [ND WN]. split; [apply without_NoDup, ND|]. apply Forall_forall. intros x I. apply without_In in I as [I _].
  rewrite Forall_forall in WN. exact (WN x I).
Qed.
Definition readable (sp : fspec) : Prop := no_default sp -> value_key_not_empty sp -> canonical sp.
Definition reads (d : dict proto_feature) (ts : list (string * tensor)) (d' : dict proto_feature) : Prop :=
  NoDup (columns (items_of ts)) /\ incl (columns (items_of ts)) (map fst d) /\ d' = without (columns (items_of ts)) d /\
  Forall (fun it => readable (snd it)) (items_of ts).
Lemma reads_nil d : reads d [] d.
Proof. repeat split; [constructor|intros ? []|symmetry; apply without_nil|constructor]. Qed.
Lemma reads_cons d name sp v cols ts d' : cols = parsed_columns name sp -> NoDup cols -> incl cols (map fst d) -> readable sp ->
  reads (without cols d) ts d' -> reads d ((name, (sp, v)) :: ts) d'.
Proof.
  intros -> N IN R (N' & IN' & E & F). unfold reads, items_of, columns in *. cbn [map fst snd flat_map]. split; [|split; [|split]].
  - apply NoDup_app_intro; [exact N|exact N'|]. intros x I J. apply IN' in J. apply in_map_iff in J as (y & <- & J).
    apply without_In in J as [_ J]. exact (J I).
  - intros x I. apply in_app_or in I as [I|I]; [apply IN, I|]. apply IN' in I. apply in_map_iff in I as (y & <- & J).
    apply without_In in J as [J _]. apply in_map, J.
  - rewrite E, without_app. reflexivity.
  - constructor; [exact R|exact F].
Qed.
Lemma dtype_of_proto_inv t d : dtype_of_proto t = Returned d -> example_dtype d.
Proof. unfold example_dtype. destruct t; cbn; intros [= <-]; auto. Qed.
Lemma read_partitions ps : ~ In By_something_else (map read_partition ps) /\
  flat_map (fun p => match p with By_row_lengths k => [k] | _ => [] end) (map read_partition ps) = row_length_columns ps.
Proof.
  unfold row_length_columns. induction ps as [|[k|n] ps [I E]]; cbn; rewrite ?E; (split; [intros J; try destruct J as [J|J]; try discriminate J; try (exact (I J)); auto|reflexivity]).
Qed.
Lemma read_representations_inv rs : forall d ts d', well_named d -> read_representations d rs = Returned (ts, d') -> reads d ts d'.
Proof.
  induction rs as [|[name [path ps|shape default_value]] rs IH]; intros d ts d' WN; cbn [read_representations].
  - intros [= <- <-]. apply reads_nil.
  - intros E. apply bind_returned in E as ([vs d1] & T1 & E). cbn [fst snd] in E. apply bind_returned in E as ([fs d2] & T2 & E). cbn [fst snd] in E.
    destruct (forallb is_int fs); [|discriminate]. destruct vs as [|v [|]]; try discriminate. apply bind_returned in E as (dt & DT & E).
    apply bind_returned in E as ([ts' d3] & R & [= <- <-]). pose proof WN as [ND WNf]. apply (take_inv _ _ _ _ ND WNf) in T1 as (M1 & N1 & I1 & ->).
    pose proof (well_named_without [path] d WN) as [ND1 WN1]. apply (take_inv _ _ _ _ ND1 WN1) in T2 as (M2 & N2 & I2 & ->).
    rewrite without_app in R. destruct (read_partitions ps) as [NP EP].
    apply (reads_cons d name _ v ([path] ++ row_length_columns ps)); [cbn; rewrite EP; reflexivity| | | |apply IH; [|exact R]].
    + apply NoDup_app_intro; [exact N1|exact N2|]. intros x I J. apply I2 in J. apply in_map_iff in J as (y & <- & J).
      apply without_In in J as [_ J]. exact (J I).
    + intros x I. apply in_app_or in I as [I|I]; [apply I1, I|]. apply I2 in I. apply in_map_iff in I as (y & <- & J).
      apply without_In in J as [J _]. apply in_map, J.
    + intros _ VK. cbn in VK. split; [split; [exact (dtype_of_proto_inv _ _ DT)|exact NP]|]. split; [exists path; auto|auto].
    + apply well_named_without, WN.
  - intros E. apply bind_returned in E as ([vs d1] & T1 & E). cbn [fst snd] in E. destruct vs as [|v [|]]; try discriminate.
    apply bind_returned in E as (dt & DT & E). apply bind_returned in E as ([ts' d3] & R & [= <- <-]). pose proof WN as [ND WNf].
    apply (take_inv _ _ _ _ ND WNf) in T1 as (M1 & N1 & I1 & ->). cbn [snd] in R.
    apply (reads_cons d name _ v [name]); [|exact N1|exact I1| |apply IH; [apply well_named_without, WN|exact R]].
    + destruct default_value as [[|? [|]]|]; reflexivity.
    + intros ND'. destruct default_value as [[|? [|]]|]; try contradiction ND'. intros _. split; [|exact Logic.I]. split; [exact (dtype_of_proto_inv _ _ DT)|reflexivity].
Qed.
Lemma map_result_inv {A B} (f : A -> result B) l : forall l', map_result f l = Returned l' -> Forall2 (fun a b => f a = Returned b) l l'.
Proof.
  induction l as [|a l IH]; cbn; intros l' E; [injection E as <-; constructor|].
  apply bind_returned in E as (b & F & E). apply bind_returned in E as (bs & R & [= <-]). constructor; auto.
Qed.
Lemma index_sizes_inv fs zs : map_result index_size fs = Returned zs -> length zs = length fs /\ Forall (fun z => z <> None) zs.
Proof.
  intros E. apply map_result_inv in E. induction E as [|f z fs zs H E [IL IF]]; [auto|]. split; [cbn; congruence|]. constructor; [|exact IF].
  unfold index_size in H. destruct (p_type f); try discriminate. destruct (p_domain f) as [[[[]  []| | |]|]|]; try discriminate; try (injection H as <-; discriminate).
  destruct (_ =? _)%Z; [injection H as <-|]; discriminate.
Qed.
Lemma read_sparse_inv sfs : forall d ts d', well_named d -> read_sparse d sfs = Returned (ts, d') -> reads d ts d'.
Proof.
  induction sfs as [|sf sfs IH]; intros d ts d' WN; cbn [read_sparse].
  - intros [= <- <-]. apply reads_nil.
  - intros E. apply bind_returned in E as ([is d1] & T1 & E). cbn [fst snd] in E. apply bind_returned in E as ([vs d2] & T2 & E). cbn [fst snd] in E.
    apply bind_returned in E as (zs & S1 & E). destruct vs as [|v [|]]; try discriminate. apply bind_returned in E as (dt & DT & E).
    apply bind_returned in E as ([ts' d3] & R & [= <- <-]). pose proof WN as [ND WNf]. apply (take_inv _ _ _ _ ND WNf) in T1 as (M1 & N1 & I1 & ->).
    pose proof (well_named_without (ps_index sf) d WN) as [ND1 WN1]. apply (take_inv _ _ _ _ ND1 WN1) in T2 as (M2 & N2 & I2 & ->).
    rewrite without_app in R. apply index_sizes_inv in S1 as [LZ FZ].
    apply (reads_cons d _ _ v (ps_index sf ++ [ps_value sf])); [reflexivity| | | |apply IH; [|exact R]].
    + apply NoDup_app_intro; [exact N1|exact N2|]. intros x I J. apply I2 in J. apply in_map_iff in J as (y & <- & J).
      apply without_In in J as [_ J]. exact (J I).
    + intros x I. apply in_app_or in I as [I|I]; [apply I1, I|]. apply I2 in I. apply in_map_iff in I as (y & <- & J).
      apply without_In in J as [J _]. apply in_map, J.
    + intros _ _. split; [split; [exact (dtype_of_proto_inv _ _ DT)|]|exact FZ]. rewrite LZ, <- M1, map_length. reflexivity.
    + apply well_named_without, WN.
Qed.
Lemma read_plain_inv f n t : read_plain f = Returned (n, t) -> n = p_name f /\ canonical (fst t) /\ parsed_columns n (fst t) = [p_name f].
Proof.
  unfold read_plain. intros E. apply bind_returned in E as (dt & DT & E). apply dtype_of_proto_inv in DT. destruct (p_shape f) as [sh|].
  - destruct (p_always f); [|discriminate]. injection E as <- <-. cbn. unfold canonical. cbn. auto.
  - injection E as <- <-. cbn. unfold canonical. cbn. auto.
Qed.
Lemma read_plains_inv d : forall ts, well_named d -> map_result (fun nf => read_plain (snd nf)) d = Returned ts ->
  columns (items_of ts) = map fst d /\ Forall (fun it => readable (snd it)) (items_of ts).
Proof.
  intros ts [_ WN] E. apply map_result_inv in E. induction E as [|[k f] [n t] d ts H E IH]; [split; [reflexivity|constructor]|].
  inversion WN as [|? ? W WN']; subst. destruct (IH WN') as [EC F]. cbn [snd fst] in *. destruct (read_plain_inv _ _ _ H) as (-> & C & P).
  unfold columns, items_of in *. cbn [map flat_map fst snd]. rewrite P, EC, W. split; [reflexivity|]. constructor; [|exact F]. intros _ _. exact C.
Qed.
Lemma NoDup_length_nodup l : length (nodup string_dec l) = length l -> NoDup l.
Proof.
  induction l as [|x l IH]; [constructor|]. cbn [nodup]. destruct (in_dec string_dec x l) as [I|N]; cbn [length].
  - intros E. assert (length (nodup string_dec l) <= length l); [|lia].
    apply NoDup_incl_length; [apply NoDup_nodup|]. intros y J. apply nodup_In in J. exact J.
  - intros [= E]. constructor; auto.
Qed.
Lemma items_of_app a b : items_of (a ++ b) = items_of a ++ items_of b.
Proof. apply map_app. Qed.
Lemma read_any s fs ds : as_feature_spec s = Returned (fs, ds) ->
  NoDup (map fst fs) /\ NoDup (map fst ds) /\ incl (map fst ds) (map fst fs) /\ no_shared_columns fs /\
  (forall name sp, In (name, sp) fs -> readable sp).
Proof.
  unfold as_feature_spec. destruct (existsb _ _); [discriminate|]. cbv zeta. set (D := to_dict (map _ _)).
  assert (WD : well_named D).
  { apply to_dict_props. apply Forall_forall. intros x I. apply in_map_iff in I as (f & <- & _). reflexivity. }
  intros E. apply bind_returned in E as ([tr d1] & R1 & E). apply bind_returned in E as ([tsp d2] & R2 & E). cbn [fst snd] in *.
  apply bind_returned in E as (tp & R3 & E). apply (read_representations_inv _ _ _ _ WD) in R1 as (N1 & I1 & -> & F1).
  pose proof (well_named_without (columns (items_of tr)) D WD) as WD1. apply (read_sparse_inv _ _ _ _ WD1) in R2 as (N2 & I2 & -> & F2).
  pose proof (well_named_without (columns (items_of tsp)) _ WD1) as WD2. apply (read_plains_inv _ _ WD2) in R3 as (C3 & F3).
  set (ts := tr ++ tsp ++ tp) in *. destruct (_ =? _) eqn:NL; [|discriminate]. injection E as <- <-. apply Nat.eqb_eq, NoDup_length_nodup in NL.
  change (map (fun nt => (fst nt, fst (snd nt))) ts) with (items_of ts).
  assert (KF : map fst (items_of ts) = map fst ts) by (unfold items_of; rewrite map_map; reflexivity). rewrite KF.
  split; [exact NL|]. set (g := fun nt : string * tensor => get_domain (snd (snd nt)) (to_dict (ps_string_domains s))).
  split; [|split; [|split]].
  - clear - NL. induction ts as [|[k t] ts IH]; [constructor|]. cbn [map fst] in NL. inversion NL as [|? ? N NL']; subst. cbn [flat_map]. rewrite map_app.
    apply NoDup_app_intro; [destruct (get_domain _ _); repeat constructor; intros []|apply IH, NL'|]. intros x I J. apply N.
    destruct (get_domain _ _) in I; [|destruct I]. destruct I as [<-|[]]. apply in_map_iff in J as (y & E & J). apply in_flat_map in J as (z & J & K).
    destruct (get_domain _ _) in K; [|destruct K]. destruct K as [<-|[]]. cbn in E. rewrite <- E. apply in_map, J.
  - intros k I. apply in_map_iff in I as (y & <- & J). apply in_flat_map in J as (z & J & K).
    destruct (get_domain _ _) in K; [|destruct K]. destruct K as [<-|[]]. cbn. apply in_map, J.
  - unfold no_shared_columns. change (NoDup (columns (items_of ts))). unfold ts. rewrite !items_of_app, !columns_app. apply NoDup_app_intro.
    + exact N1.
    + apply NoDup_app_intro; [exact N2|rewrite C3; apply WD2|]. intros x I J. rewrite C3 in J. apply in_map_iff in J as (y & <- & J).
      apply without_In in J as [_ J]. exact (J I).
    + intros x I J. assert (K : In x (map fst (without (columns (items_of tr)) D))).
      { apply in_app_or in J as [J|J]; [apply I2, J|]. rewrite C3 in J. apply in_map_iff in J as (y & <- & J). apply without_In in J as [J _]. apply in_map, J. }
      apply in_map_iff in K as (y & <- & K). apply without_In in K as [_ K]. exact (K I).
  - intros name sp I. unfold ts in I. rewrite !items_of_app in I.
    assert (F : Forall (fun it => readable (snd it)) (items_of tr ++ items_of tsp ++ items_of tp)) by (rewrite !Forall_app; auto).
    rewrite Forall_forall in F. exact (F _ I).
Qed.

(** ** Removing columns *)
Definition keep_items {V} (ex : list string) (d : dict V) : dict V := filter (fun nv => negb (existsb (String.eqb (fst nv)) ex)) d.
Lemma keep_without {V} ex (d : dict V) : keep_items ex d = without ex d.
Proof. reflexivity. Qed.
Lemma keep_where {V} ex (d : dict V) : NoDup (map fst d) -> items_where (fun k => ~ In k ex) d (keep_items ex d).
Proof. intros ND. rewrite keep_without. split; [apply without_NoDup, ND|]. intros k v. apply without_In. Qed.
Lemma no_shared_sub fs ex : no_shared_columns fs -> no_shared_columns (keep_items ex fs).
Proof.
  unfold no_shared_columns. change (NoDup (columns fs) -> NoDup (columns (keep_items ex fs))). unfold keep_items. induction fs as [|it fs IH]; [auto|].
  cbn [filter]. unfold columns in *. cbn [flat_map]. intros N. apply NoDup_app_inv in N as (A & B & D). destruct (negb _); [|apply IH, B]. cbn [flat_map].
  apply NoDup_app_intro; [exact A|apply IH, B|]. intros x I J. apply (D x I). apply in_flat_map in J as (y & J & K). apply filter_In in J as [J _].
  apply in_flat_map. eauto.
Qed.
Lemma remove s fs ds ex : as_feature_spec s = Returned (fs, ds) ->
  (forall name sp, In (name, sp) fs -> ~ In name ex -> no_default sp /\ value_key_not_empty sp) ->
  (forall name d, In (name, d) ds -> ~ In name ex -> is_domain d) ->
  exists s' fs' ds', remove_columns_from_metadata s ex = Returned s' /\ as_feature_spec s' = Returned (fs', ds') /\
    items_where (fun k => ~ In k ex) fs fs' /\ items_where (fun k => ~ In k ex) ds ds'.
Proof.
  intros E H HD. destruct (read_any _ _ _ E) as (ND & NDd & IN & NC & RD).
  unfold remove_columns_from_metadata. rewrite E. cbn [bind fst snd]. change (filter _ fs) with (keep_items ex fs). change (filter _ ds) with (keep_items ex ds).
  destruct (keep_where ex fs ND) as [N1 W1], (keep_where ex ds NDd) as [N2 W2].
  destruct (round_trip (keep_items ex fs) (keep_items ex ds) N1 N2) as (s' & fs' & ds' & E1 & E2 & (A & B & C) & (F & G)).
  - intros name sp I. apply W1 in I as [I NE]. destruct (H name sp I NE) as [P Q]. split; [exact (RD name sp I P Q)|].
    intros d J. apply W2 in J as [J _]. exact (HD name d J NE).
  - apply no_shared_sub, NC.
  - exists s', fs', ds'. split; [exact E1|]. split; [exact E2|]. split.
    + split; [exact B|]. intros k v. rewrite <- C. apply W1.
    + split; [exact F|]. intros k v. rewrite G, W2. split; [tauto|]. intros [I NE]. split; [tauto|].
      assert (K : In k (map fst fs)) by (apply IN; exact (in_map fst _ _ I)). apply in_map_iff in K as ([k' sp] & E' & K). cbn in E'; subst k'.
      apply in_map_iff. exists (k, sp). split; [reflexivity|]. apply W1. auto.
Qed.
Lemma read_again s fs ds : as_feature_spec s = Returned (fs, ds) ->
  (forall name sp, In (name, sp) fs -> no_default sp /\ value_key_not_empty sp) -> (forall name d, In (name, d) ds -> is_domain d) ->
  exists s' fs' ds', from_feature_spec fs ds = Returned s' /\ as_feature_spec s' = Returned (fs', ds') /\ same_items fs fs' /\ same_items ds ds'.
Proof.
  intros E H HD. destruct (read_any _ _ _ E) as (ND & NDd & IN & NC & RD).
  destruct (round_trip fs ds ND NDd) as (s' & fs' & ds' & E1 & E2 & SI & (F & G)).
  - intros name sp I. destruct (H name sp I) as [P Q]. split; [exact (RD name sp I P Q)|]. intros d J. exact (HD name d J).
  - exact NC.
  - exists s', fs', ds'. split; [exact E1|]. split; [exact E2|]. split; [exact SI|]. split; [exact NDd|]. split; [exact F|].
    intros k v. rewrite G. split; [|tauto]. intros I. split; [exact I|]. apply IN. exact (in_map fst _ _ I).
Qed.
Lemma remove_written fs ds ex s : NoDup (map fst fs) -> NoDup (map fst ds) ->
  (forall name sp, In (name, sp) fs -> canonical sp) -> no_shared_columns fs -> from_feature_spec fs ds = Returned s ->
  forall fs' ds', items_where (fun k => ~ In k ex) fs fs' -> items_where (fun k => ~ In k ex) ds ds' ->
  remove_columns_from_metadata s ex = from_feature_spec fs' ds'.
Proof.
  intros ND NDd H NC E fs1 ds1 [N1 W1] [N2 W2].
  assert (A : exists s, from_feature_spec fs ds = Returned s) by eauto. pose proof (proj1 (accepts fs ds ND NDd) A) as A0. clear A; rename A0 into A.
  destruct (round_trip fs ds ND NDd) as (s' & fs' & ds' & E1 & E2 & (A1 & B1 & C1) & (F & G)).
  - intros name sp I. split; [exact (H name sp I)|apply (A name sp I)].
  - exact NC.
  - rewrite E in E1. injection E1 as <-. unfold remove_columns_from_metadata. rewrite E2. cbn [bind fst snd].
    change (filter _ fs') with (keep_items ex fs'). change (filter _ ds') with (keep_items ex ds').
    destruct (keep_where ex fs' B1) as [N1' W1'], (keep_where ex ds' F) as [N2' W2'].
    assert (SI : same_items (keep_items ex fs') fs1).
    { split; [exact N1'|]. split; [exact N1|]. intros k v. rewrite W1', W1, C1. reflexivity. }
    apply from_same; [exact SI|]. intros k I.
    assert (KF : In k (map fst fs) /\ ~ In k ex).
    { apply in_map_iff in I as ([k' sp] & E' & I). cbn in E'; subst k'. apply W1' in I as [I NE]. split; [|exact NE]. apply C1 in I. exact (in_map fst _ _ I). }
    destruct (dict_get (keep_items ex ds') k) as [v|] eqn:GT.
    + apply (dict_get_iff _ _ _ N2') in GT. symmetry. apply (dict_get_iff _ _ _ N2). apply W2. apply W2' in GT as [GT NE]. apply G in GT. tauto.
    + destruct (dict_get ds1 k) as [v|] eqn:GT1; [|reflexivity]. exfalso. apply (dict_get_iff _ _ _ N2), W2 in GT1 as [GT1 NE].
      assert (X : In (k, v) (keep_items ex ds')) by (apply W2'; split; [apply G; tauto|exact NE]).
      apply (dict_get_iff _ _ _ N2') in X. congruence.
Qed.

(** ** The columns and domains of what is read *)
Lemma take_in names : forall (d : dict proto_feature) fs d', take_columns d names = Returned (fs, d') ->
  Forall2 (fun n f => In (n, f) d) names fs /\ (forall x, In x d' -> In x d).
Proof.
  induction names as [|k names IH]; intros d fs d'; cbn [take_columns].
  - intros [= <- <-]. split; [constructor|auto].
  - destruct (dict_get d k) as [v|] eqn:G; [|unfold dict_pop; rewrite G; discriminate]. rewrite (pop_without _ _ _ G).
    intros E. apply bind_returned in E as ([gs e] & E & [= <- <-]). destruct (IH _ _ _ E) as [F S']. cbn [fst snd].
    assert (W : forall x, In x (without [k] d) -> In x d) by (intros x I; apply without_In in I; tauto).
    split; [|intros x I; apply W, S', I]. constructor; [apply dict_get_In, G|]. clear - F W. induction F; constructor; auto.
Qed.
Definition from_column (d : dict proto_feature) (nt : string * tensor) : Prop :=
  In (values_column (fst nt) (fst (snd nt)), snd (snd nt)) d /\ values_type (fst (snd nt)) (p_type (snd (snd nt))).
Lemma from_column_sub d d' ts : (forall x, In x d' -> In x d) -> Forall (from_column d') ts -> Forall (from_column d) ts.
Proof. intros H F. induction F as [|nt ts [A B] F IH]; constructor; [split; auto|exact IH]. Qed.
Lemma dtype_type t d : dtype_of_proto t = Returned d -> match t with T_INT => d = Int64 | T_FLOAT => d = Float32 | T_BYTES => d = String_type | _ => False end.
Proof. destruct t; cbn; congruence. Qed.
Lemma read_representations_from rs : forall d ts d', read_representations d rs = Returned (ts, d') ->
  Forall (from_column d) ts /\ (forall x, In x d' -> In x d).
Proof.
  induction rs as [|[name [path ps|shape default_value]] rs IH]; intros d ts d'; cbn [read_representations].
  - intros [= <- <-]. split; [constructor|auto].
  - intros E. apply bind_returned in E as ([vs d1] & T1 & E). cbn [fst snd] in E. apply bind_returned in E as ([fs d2] & T2 & E). cbn [fst snd] in E.
    destruct (forallb is_int fs); [|discriminate]. destruct vs as [|v [|]]; try discriminate. apply bind_returned in E as (dt & DT & E).
    apply bind_returned in E as ([ts' d3] & R & [= <- <-]). apply take_in in T1 as [F1 S1]. apply take_in in T2 as [F2 S2]. apply IH in R as [F3 S3].
    split; [|cbn [snd]; auto]. constructor; [|apply (from_column_sub d d2); auto]. split; cbn [fst snd values_column].
    + inversion F1; subst. assumption.
    + exact (dtype_type _ _ DT).
  - intros E. apply bind_returned in E as ([vs d1] & T1 & E). cbn [fst snd] in E. destruct vs as [|v [|]]; try discriminate.
    apply bind_returned in E as (dt & DT & E). apply bind_returned in E as ([ts' d3] & R & [= <- <-]). apply take_in in T1 as [F1 S1].
    apply IH in R as [F3 S3]. split; [|cbn [snd]; auto]. constructor; [|apply (from_column_sub d d1); auto]. inversion F1; subst.
    destruct default_value as [[|? [|]]|]; (split; [assumption|exact (dtype_type _ _ DT)]).
Qed.
Lemma read_sparse_from sfs : forall d ts d', read_sparse d sfs = Returned (ts, d') -> Forall (from_column d) ts /\ (forall x, In x d' -> In x d).
Proof.
  induction sfs as [|sf sfs IH]; intros d ts d'; cbn [read_sparse].
  - intros [= <- <-]. split; [constructor|auto].
  - intros E. apply bind_returned in E as ([is d1] & T1 & E). cbn [fst snd] in E. apply bind_returned in E as ([vs d2] & T2 & E). cbn [fst snd] in E.
    apply bind_returned in E as (zs & S1 & E). destruct vs as [|v [|]]; try discriminate. apply bind_returned in E as (dt & DT & E).
    apply bind_returned in E as ([ts' d3] & R & [= <- <-]). apply take_in in T1 as [F1 T1]. apply take_in in T2 as [F2 T2]. apply IH in R as [F3 S3].
    split; [|cbn [snd]; auto]. constructor; [|apply (from_column_sub d d2); auto]. split; cbn [fst snd values_column].
    + inversion F2; subst. auto.
    + exact (dtype_type _ _ DT).
Qed.
Lemma read_plains_from d : forall ts, well_named d -> map_result (fun nf => read_plain (snd nf)) d = Returned ts -> Forall (from_column d) ts.
Proof.
  intros ts [_ WN] E. apply map_result_inv in E.
  assert (H : Forall (from_column d) ts); [|exact H]. set (d0 := d) at 1. assert (S0 : forall x, In x d -> In x d0) by auto. clearbody d0.
  induction E as [|[k f] [n t] d ts H E IH]; [constructor|]. inversion WN as [|? ? W WN']; subst. cbn [snd fst] in *.
  constructor; [|apply IH; [exact WN'|intros x I; apply S0; right; exact I]]. unfold read_plain in H. apply bind_returned in H as (dt & DT & H).
  apply dtype_type in DT. destruct (p_shape f); [destruct (p_always f); [|discriminate]|]; injection H as <- <-; (split; cbn; [rewrite W; apply S0; left; reflexivity|exact DT]).
Qed.
Lemma read_columns s fs ds : NoDup (map p_name (ps_features s)) -> NoDup (map fst (ps_string_domains s)) -> as_feature_spec s = Returned (fs, ds) ->
  (forall c, (exists name sp, In (name, sp) fs /\ In c (parsed_columns name sp)) <-> exists f, In f (ps_features s) /\ p_name f = c /\ p_deprecated f = false) /\
  (forall name sp, In (name, sp) fs -> exists f, In f (ps_features s) /\ p_deprecated f = false /\ p_name f = values_column name sp /\
     values_type sp (p_type f) /\ forall d, In (name, d) ds <-> has_domain s f d).
Proof.
  intros NF NS R. pose proof (read_any _ _ _ R) as (ND & NDd & _). revert R. unfold as_feature_spec. destruct (existsb _ _); [discriminate|]. cbv zeta.
  set (shown := filter _ (ps_features s)). set (D := to_dict (map _ shown)).
  assert (NSh : NoDup (map p_name shown)).
  { unfold shown. generalize NF. generalize (ps_features s). induction l as [|f l IH]; [constructor|]. cbn [map]. intros N. inversion N as [|? ? N1 N2]; subst.
    cbn [filter]. destruct (negb _); [|auto]. cbn [map]. constructor; [|auto]. intros I. apply N1. apply in_map_iff in I as (g & <- & J).
    apply filter_In in J as [J _]. apply in_map, J. }
  assert (ED : D = map (fun f => (p_name f, f)) shown) by (unfold D; apply to_dict_new; rewrite map_map; exact NSh).
  assert (KD : map fst D = map p_name shown) by (rewrite ED, map_map; reflexivity).
  assert (InSh : forall f, In f shown <-> In f (ps_features s) /\ p_deprecated f = false) by (intros f; unfold shown; rewrite filter_In, negb_true_iff; reflexivity).
  assert (WD : well_named D).
  { apply to_dict_props. apply Forall_forall. intros x I. apply in_map_iff in I as (f & <- & _). reflexivity. }
  intros E. apply bind_returned in E as ([tr d1] & R1 & E). apply bind_returned in E as ([tsp d2] & R2 & E). cbn [fst snd] in *.
  apply bind_returned in E as (tp & R3 & E). destruct (read_representations_from _ _ _ _ R1) as [V1 S1].
  destruct (read_sparse_from _ _ _ _ R2) as [V2 S2]. apply (read_representations_inv _ _ _ _ WD) in R1 as (N1 & I1 & -> & F1).
  pose proof (well_named_without (columns (items_of tr)) D WD) as WD1. apply (read_sparse_inv _ _ _ _ WD1) in R2 as (N2 & I2 & -> & F2).
  pose proof (well_named_without (columns (items_of tsp)) _ WD1) as WD2. pose proof (read_plains_from _ _ WD2 R3) as V3.
  apply (read_plains_inv _ _ WD2) in R3 as (C3 & F3).
  set (ts := tr ++ tsp ++ tp) in *. destruct (_ =? _) eqn:NL; [|discriminate]. injection E as EF EDs. apply Nat.eqb_eq, NoDup_length_nodup in NL.
  change (map (fun nt => (fst nt, fst (snd nt))) ts) with (items_of ts) in EF.
  assert (V : Forall (from_column D) ts).
  { unfold ts. rewrite !Forall_app. split; [exact V1|]. split; [exact (from_column_sub _ _ _ S1 V2)|].
    apply (from_column_sub _ _ _ S1), (from_column_sub _ _ _ S2), V3. }
  split.
  - intros c. transitivity (In c (columns fs)).
    { unfold columns. rewrite in_flat_map. split; [intros (n & sp & I & J); exists (n, sp); auto|intros ([n sp] & I & J); exists n, sp; auto]. }
    rewrite <- EF. unfold ts. rewrite !items_of_app, !columns_app, C3. transitivity (In c (map fst D)).
    + rewrite !in_app_iff. split.
      * intros [I|[I|I]]; [apply I1, I| |]; [apply I2 in I|]; apply in_map_iff in I as (x & <- & I); apply in_map; [|apply without_In in I as [I _]]; apply without_In in I; tauto.
      * intros I. apply in_map_iff in I as (x & <- & I). destruct (in_dec string_dec (fst x) (columns (items_of tr))) as [|A]; [auto|].
        destruct (in_dec string_dec (fst x) (columns (items_of tsp))) as [|B]; [auto|]. right; right. apply in_map. apply without_In. split; [|exact B].
        apply without_In. auto.
    + rewrite KD, in_map_iff. split; intros (f & A & B); exists f; [apply InSh in B|]; [tauto|]. destruct B as [B B']. split; [exact B|]. apply InSh. tauto.
  - intros name sp I. rewrite <- EF in I. unfold items_of in I. apply in_map_iff in I as ([n [sp' v]] & E & I). cbn [fst snd] in E. injection E as -> ->.
    rewrite Forall_forall in V. destruct (V _ I) as [A B]. cbn [fst snd] in A, B. exists v. rewrite ED in A. apply in_map_iff in A as (f & E & A).
    injection E as E ->. apply InSh in A as [A A']. repeat split; try assumption.
    + intros J. rewrite <- EDs in J. apply in_flat_map in J as ([n' [sp' v']] & J & K). cbn [fst snd] in K.
      destruct (get_domain v' _) as [d'|] eqn:G; [|destruct K]. destruct K as [[= -> ->]|[]].
      assert (EV : (sp', v') = (sp, v)).
      { apply (dict_get_NoDup _ _ _ NL) in I, J. congruence. }
      injection EV as -> ->. unfold has_domain, get_domain in *. destruct (p_domain v) as [[d'|n]|]; [congruence| |discriminate].
      rewrite (to_dict_new _ NS) in G. apply dict_get_In, G.
    + intros H. rewrite <- EDs. apply in_flat_map. exists (name, (sp, v)). split; [exact I|]. cbn [fst snd].
      assert (G : get_domain v (to_dict (ps_string_domains s)) = Some d).
      { unfold has_domain, get_domain in *. destruct (p_domain v) as [[d'|n]|]; [congruence| |contradiction]. rewrite (to_dict_new _ NS). apply dict_get_NoDup; assumption. }
      rewrite G. left; reflexivity.
Qed.
