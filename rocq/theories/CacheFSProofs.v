(** Proofs for CacheFSModel.v *)
From Coq Require FinFun.
From Coq Require Import String List Arith Bool Lia.
From Verif Require Import CacheFSModel CacheFSSpec.
Import ListNotations.
Open Scope list_scope.
Local Notation length := List.length.

Section proofs.
  Context {A : Type}.
  Notation request := (list (string * list (string * list (list A)))) (only parsing).
  Notation fs := (string -> dir A) (only parsing).

  (** ** Views: the manifest of a dataset, the files of an index *)

  Definition tag (s : step A) : string * option nat :=
    match s with
    | RemoveManifest d | CreateManifest d | FlushManifest d _ => (d, None)
    | RemoveShards d i _ => (d, Some i)
    | WriteShard d s => (d, Some (index s))
    end.
  Definition tag_dec (a b : string * option nat) : {a = b} + {a <> b}.
  Proof. decide equality; [decide equality; apply Nat.eq_dec|apply string_dec]. Defined.
  Definition is_tag (t : string * option nat) (s : step A) : bool := if tag_dec (tag s) t then true else false.

  Lemma is_tag_true t s : is_tag t s = true <-> tag s = t.
  Proof. unfold is_tag. destruct (tag_dec (tag s) t); split; congruence. Qed.
  Lemma is_tag_false t s : tag s <> t -> is_tag t s = false.
  Proof. unfold is_tag. destruct (tag_dec (tag s) t); congruence. Qed.

  Definition mstep (m : option (option (list (string * nat)))) (s : step A) :=
    match s with
    | RemoveManifest _ => None
    | CreateManifest _ => Some None
    | FlushManifest _ m' => Some (Some m')
    | _ => m
    end.
  Definition fstep (l : list (shard A)) (s : step A) : list (shard A) :=
    match s with
    | RemoveShards _ _ n => filter (fun t => negb (count t =? n)) l
    | WriteShard _ s => filter (fun t => negb (same_file s t)) l ++ [s]
    | _ => l
    end.
  Definition files (x : dir A) (i : nat) : list (shard A) := filter (fun s => index s =? i) (data x).

  Lemma filter_comm {B} (P Q : B -> bool) l : filter P (filter Q l) = filter Q (filter P l).
  Proof.
    induction l as [|x l IH]; [reflexivity|]. cbn. destruct (Q x) eqn:EQ, (P x) eqn:EP; cbn; rewrite ?EP, ?EQ, IH; reflexivity.
  Qed.
  Lemma filter_ext_in' {B} (P Q : B -> bool) l : (forall x, In x l -> P x = Q x) -> filter P l = filter Q l.
  Proof.
    induction l as [|x l IH]; intros H; [reflexivity|]. cbn. rewrite (H x (or_introl eq_refl)).
    rewrite IH by (intros y Hy; apply H; now right). reflexivity.
  Qed.
  Lemma filter_all' {B} (P : B -> bool) l : (forall x, In x l -> P x = true) -> filter P l = l.
  Proof.
    induction l as [|x l IH]; intros H; [reflexivity|]. cbn. rewrite (H x (or_introl eq_refl)).
    rewrite IH by (intros y Hy; apply H; now right). reflexivity.
  Qed.
  Lemma filter_none' {B} (P : B -> bool) l : (forall x, In x l -> P x = false) -> filter P l = [].
  Proof.
    induction l as [|x l IH]; intros H; [reflexivity|]. cbn. rewrite (H x (or_introl eq_refl)).
    apply IH. intros y Hy; apply H; now right.
  Qed.

  Lemma exec_app f (a b : list (step A)) : exec f (a ++ b) = exec (exec f a) b.
  Proof. apply fold_left_app. Qed.

  Lemma exec_manifest (steps : list (step A)) d : forall f,
    manifest (exec f steps d) = fold_left mstep (filter (is_tag (d, None)) steps) (manifest (f d)).
  Proof.
    induction steps as [|s steps IH]; intros f; [reflexivity|]. cbn [exec fold_left filter].
    change (fold_left do_step steps (do_step f s)) with (exec (do_step f s) steps). rewrite IH. unfold do_step.
    destruct (String.eqb_spec d (location s)) as [->|Hd].
    - destruct s; cbn [location]; unfold is_tag; cbn [tag];
        match goal with |- context [tag_dec ?a ?b] => destruct (tag_dec a b) as [E|E]; try congruence end; reflexivity.
    - rewrite is_tag_false; [reflexivity|]. intros E. apply Hd. destruct s; cbn in E; injection E; intros; subst; reflexivity.
  Qed.

  Lemma exec_files (steps : list (step A)) d i : forall f,
    files (exec f steps d) i = fold_left fstep (filter (is_tag (d, Some i)) steps) (files (f d) i).
  Proof.
    induction steps as [|s steps IH]; intros f; [reflexivity|]. cbn [exec fold_left filter].
    change (fold_left do_step steps (do_step f s)) with (exec (do_step f s) steps). rewrite IH. unfold do_step.
    destruct (String.eqb_spec d (location s)) as [->|Hd].
    - destruct s as [d|d|d m|d j n|d s]; cbn [location]; unfold is_tag; cbn [tag];
        match goal with |- context [tag_dec ?a ?b] => destruct (tag_dec a b) as [E|E] end; try discriminate E; try reflexivity;
        cbn [fold_left]; f_equal; unfold files; cbn [dir_step data].
      + injection E as ->. cbn [fstep]. rewrite filter_comm. apply filter_ext_in'. intros t Ht.
        apply filter_In in Ht as [_ Ht]. now rewrite Ht.
      + rewrite filter_comm. apply filter_all'. intros t Ht. apply filter_In in Ht as [_ Ht].
        apply Nat.eqb_eq in Ht. destruct (Nat.eqb_spec (index t) j); [subst; congruence|reflexivity].
      + injection E as E'. cbn [fstep]. rewrite filter_app. cbn [filter].
        rewrite filter_comm. destruct (Nat.eqb_spec (index s) i); [reflexivity|congruence].
      + rewrite filter_app. cbn [filter]. destruct (Nat.eqb_spec (index s) i); [congruence|]. rewrite app_nil_r, filter_comm.
        apply filter_all'. intros t Ht. apply filter_In in Ht as [_ Ht]. apply Nat.eqb_eq in Ht. unfold same_file.
        destruct (Nat.eqb_spec (index s) (index t)); [congruence|reflexivity].
    - rewrite is_tag_false; [reflexivity|]. intros E. apply Hd. destruct s; cbn in E; injection E; intros; subst; reflexivity.
  Qed.

  Lemma exec_elsewhere (steps : list (step A)) d : forall f,
    forallb (fun s => negb (String.eqb d (location s))) steps = true -> exec f steps d = f d.
  Proof.
    induction steps as [|s steps IH]; intros f H; [reflexivity|]. cbn [forallb] in H. apply andb_prop in H.
    destruct H as [H1 H2]. change (exec (do_step f s) steps d = f d). rewrite (IH _ H2). unfold do_step.
    destruct (String.eqb d (location s)); [discriminate|reflexivity].
  Qed.

  Lemma exec_manifest_untouched (steps : list (step A)) f d : filter (is_tag (d, None)) steps = [] ->
    manifest (exec f steps d) = manifest (f d).
  Proof. intros E. now rewrite exec_manifest, E. Qed.

  (** ** Manifests *)

  Lemma get_set k k' i m : get k (set k' i m) = if String.eqb k k' then Some i else get k m.
  Proof.
    induction m as [|[k0 j] m IH]; cbn.
    - destruct (String.eqb k k'); reflexivity.
    - destruct (String.eqb_spec k' k0) as [->|H]; cbn.
      + destruct (String.eqb k k0); reflexivity.
      + rewrite IH. destruct (String.eqb_spec k k0) as [->|]; [|reflexivity].
        destruct (String.eqb_spec k0 k'); [congruence|reflexivity].
  Qed.

  Lemma set_keys k i m : forall k', In k' (map fst (set k i m)) <-> k' = k \/ In k' (map fst m).
  Proof.
    induction m as [|[k0 j] m IH]; cbn; intros k'; [intuition congruence|].
    destruct (String.eqb_spec k k0) as [->|H]; cbn; [intuition congruence|]. rewrite IH. intuition congruence.
  Qed.

  Lemma set_nodup k i m : NoDup (map fst m) -> NoDup (map fst (set k i m)).
  Proof.
    induction m as [|[k0 j] m IH]; cbn; intros H; [repeat constructor; intros []|].
    inversion H; subst. destruct (String.eqb_spec k k0) as [->|Hk]; cbn; [now constructor|].
    constructor; [|auto]. rewrite set_keys. intuition congruence.
  Qed.

  Lemma get_In k i m : get k m = Some i -> In (k, i) m.
  Proof.
    induction m as [|[k0 j] m IH]; cbn; [discriminate|]. destruct (String.eqb_spec k k0) as [->|]; [intros [= ->]; now left|].
    intros H. right. auto.
  Qed.

  Lemma In_get k i m : NoDup (map fst m) -> In (k, i) m -> get k m = Some i.
  Proof.
    induction m as [|[k0 j] m IH]; cbn; intros HN; [intros []|]. inversion HN; subst. intros [[= -> ->]|H].
    - now rewrite String.eqb_refl.
    - destruct (String.eqb_spec k k0) as [->|]; [|auto]. exfalso. apply H1. now apply (in_map fst) in H.
  Qed.

  Lemma In_next k i m : In (k, i) m -> i < next_index m.
  Proof.
    intros H. unfold next_index. destruct m as [|e m]; [destruct H|].
    apply Nat.lt_succ_r. remember (e :: m) as l. clear Heql. induction l as [|[k0 j] l IH]; cbn; [destruct H|].
    destruct H as [[= -> ->]|H]; [lia|]. apply IH in H. lia.
  Qed.

  (** ** assign *)

  Lemma assign_spec (es : list (string * list (list A))) : forall i m m' ws,
    assign i m es = (m', ws) -> NoDup (map fst es) ->
    ws = combine (seq i (length es)) (map snd es) /\
    (NoDup (map fst m) -> NoDup (map fst m')) /\
    (forall j k shards, nth_error es j = Some (k, shards) -> get k m' = Some (i + j)) /\
    (forall k, ~ In k (map fst es) -> get k m' = get k m).
  Proof.
    induction es as [|[k shards] es IH]; intros i m m' ws H HN; cbn in H.
    - injection H as <- <-. repeat split; auto. intros [|j]; discriminate.
    - destruct (assign (S i) (set k i m) es) as [m1 ws1] eqn:E. injection H as <- <-.
      cbn in HN. inversion HN as [|? ? Hk HN']; subst. destruct (IH _ _ _ _ E HN') as (E1 & E2 & E3 & E4).
      repeat split.
      + cbn. now rewrite E1.
      + intros Hm. apply E2. now apply set_nodup.
      + intros [|j] k' sh; cbn.
        * intros [= <- <-]. rewrite (E4 k Hk), get_set, String.eqb_refl. f_equal. lia.
        * intros Hj. rewrite (E3 j k' sh Hj). f_equal. lia.
      + intros k' Hk'. cbn in Hk'. rewrite E4 by tauto. rewrite get_set.
        destruct (String.eqb_spec k' k); [|reflexivity]. subst. tauto.
  Qed.

  (** ** The steps of a write *)

  Definition new_manifest (x : dir A) (es : list (string * list (list A))) : list (string * nat) :=
    fst (assign (next_index (read_manifest x)) (read_manifest x) es).
  Definition writes (x : dir A) (es : list (string * list (list A))) : list (nat * list (list A)) :=
    snd (assign (next_index (read_manifest x)) (read_manifest x) es).
  Definition manifest_steps (x : dir A) (d : string) es : list (step A) :=
    [RemoveManifest d; CreateManifest d; FlushManifest d (new_manifest x es)].

  Lemma write_dataset_eq (x : dir A) d es :
    write_dataset x d es = (manifest_steps x d es, map (entry_steps d) (writes x es)).
  Proof. unfold write_dataset, manifest_steps, new_manifest, writes. destruct (assign _ _ es). reflexivity. Qed.

  Lemma write_cache_eq (r : request) : forall f g, NoDup (map fst r) -> (forall d, In d (map fst r) -> f d = g d) ->
    write_cache f r = (flat_map (fun p => manifest_steps (g (fst p)) (fst p) (snd p)) r,
                       flat_map (fun p => map (entry_steps (fst p)) (writes (g (fst p)) (snd p))) r).
  Proof.
    induction r as [|[d es] r IH]; intros f g HN HE; [reflexivity|].
    cbn [write_cache flat_map fst snd]. rewrite write_dataset_eq. rewrite (HE d) by now left.
    cbn in HN. inversion HN as [|? ? Hd HN']; subst.
    rewrite (IH (exec f (manifest_steps (g d) d es)) g HN'); [reflexivity|].
    intros d' Hd'. rewrite <- (HE d') by now right. cbn. unfold do_step. cbn [location].
    destruct (String.eqb_spec d' d); [subst; contradiction|reflexivity].
  Qed.

  Lemma write_cache_steps f (r : request) : NoDup (map fst r) ->
    write_cache f r = (flat_map (fun p => manifest_steps (f (fst p)) (fst p) (snd p)) r,
                       flat_map (fun p => map (entry_steps (fst p)) (writes (f (fst p)) (snd p))) r).
  Proof. intros H. now apply write_cache_eq. Qed.

  Lemma entry_steps_tags d w : Forall (fun s => tag s = (d, Some (fst w))) (entry_steps (A := A) d w).
  Proof.
    destruct w as [i shards]. cbn. constructor; [reflexivity|]. apply Forall_map, Forall_forall. intros p _. reflexivity.
  Qed.

  (** the pieces of an interleaving *)
  Lemma interleave_filter gs (l : list (step A)) : interleave gs l -> forall tgs,
    gs = map snd tgs -> NoDup (map fst tgs) -> (forall t g, In (t, g) tgs -> Forall (fun s => tag s = t) g) ->
    (forall t g, In (t, g) tgs -> filter (is_tag t) l = g) /\
    (forall t, ~ In t (map fst tgs) -> filter (is_tag t) l = []).
  Proof.
    induction 1 as [gs Hgs|gs1 s g gs2 l _ IH]; intros tgs E HN HT.
    - split; [|reflexivity]. intros t g Hg. rewrite Forall_forall in Hgs. symmetry. apply Hgs. subst gs. now apply (in_map snd) in Hg.
    - symmetry in E. apply map_eq_app in E as (t1 & t2' & -> & <- & E). apply map_eq_cons in E as ([t g'] & t2 & -> & Eg & <-).
      cbn in Eg. subst g'.
      assert (Ts : tag s = t).
      { specialize (HT t (s :: g)). assert (HI : In (t, s :: g) (t1 ++ (t, s :: g) :: t2)) by (apply in_or_app; right; now left).
        apply HT in HI. now inversion HI. }
      destruct (IH (t1 ++ (t, g) :: t2)) as [IH1 IH2].
      { now rewrite map_app. }
      { rewrite map_app in *. exact HN. }
      { intros t' g' HI. apply in_app_or in HI as [HI|[[= <- <-]|HI]].
        - apply HT. apply in_or_app. now left.
        - assert (HI' : In (t, s :: g) (t1 ++ (t, s :: g) :: t2)) by (apply in_or_app; right; now left).
          apply HT in HI'. now inversion HI'.
        - apply HT. apply in_or_app. right. now right. }
      assert (HN' := HN). rewrite map_app in HN'. cbn in HN'. apply NoDup_remove_2 in HN'. 
      split.
      + intros t' g' HI. cbn [filter]. apply in_app_or in HI as [HI|[[= <- <-]|HI]].
        * rewrite is_tag_false.
          -- apply IH1. apply in_or_app. now left.
          -- rewrite Ts. intros ->. apply HN'. apply in_or_app. left. now apply (in_map fst) in HI.
        * assert (is_tag t s = true) as -> by now apply is_tag_true. f_equal. apply IH1. apply in_or_app. right. now left.
        * rewrite is_tag_false.
          -- apply IH1. apply in_or_app. right. now right.
          -- rewrite Ts. intros ->. apply HN'. apply in_or_app. right. now apply (in_map fst) in HI.
      + intros t' Ht'. cbn [filter]. rewrite map_app in Ht'. cbn in Ht'. rewrite is_tag_false.
        * apply IH2. rewrite map_app. exact Ht'.
        * rewrite Ts. intros ->. apply Ht'. apply in_or_app. right. now left.
  Qed.

  Definition tagged_groups (f : fs) (r : request) : list ((string * option nat) * list (step A)) :=
    flat_map (fun p => map (fun w => ((fst p, Some (fst w)), entry_steps (fst p) w)) (writes (f (fst p)) (snd p))) r.

  Lemma tagged_groups_snd f r : map snd (tagged_groups f r) =
    flat_map (fun p => map (entry_steps (fst p)) (writes (f (fst p)) (snd p))) r.
  Proof.
    unfold tagged_groups. induction r as [|p r IH]; [reflexivity|]. cbn. rewrite map_app, IH, map_map. reflexivity.
  Qed.

  Lemma tagged_groups_tags f r t g : In (t, g) (tagged_groups f r) -> Forall (fun s => tag s = t) g.
  Proof.
    intros H. apply in_flat_map in H as (p & _ & H). apply in_map_iff in H as (w & [= <- <-] & _). apply entry_steps_tags.
  Qed.

  Lemma writes_eq x es : NoDup (map fst es) ->
    writes x es = combine (seq (next_index (read_manifest x)) (length es)) (map snd es).
  Proof.
    intros HN. unfold writes. destruct (assign _ _ es) as [m ws] eqn:E. now apply assign_spec in E as [-> _].
  Qed.

  Lemma combine_seq_In {B} (l : list B) : forall i j x, In (j, x) (combine (seq i (length l)) l) <-> exists k, j = i + k /\ nth_error l k = Some x.
  Proof.
    induction l as [|y l IH]; intros i j x; cbn.
    - split; [intros []|]. intros ([|k] & _ & H); discriminate.
    - rewrite IH. split.
      + intros [[= <- <-]|(k & -> & H)]; [exists 0; split; [lia|reflexivity]|exists (S k); split; [lia|exact H]].
      + intros ([|k] & -> & H); [left; cbn in H; injection H as ->; f_equal; lia|right; exists k; split; [lia|exact H]].
  Qed.

  Lemma writes_In x es i shards : NoDup (map fst es) ->
    In (i, shards) (writes x es) <-> exists j k, i = next_index (read_manifest x) + j /\ nth_error es j = Some (k, shards).
  Proof.
    intros HN. rewrite writes_eq by exact HN. rewrite <- (map_length snd es). rewrite combine_seq_In. split.
    - intros (j & -> & H). rewrite nth_error_map in H. destruct (nth_error es j) as [[k sh]|] eqn:E; [|discriminate].
      cbn in H. injection H as ->. eauto.
    - intros (j & k & -> & H). exists j. split; [reflexivity|]. now rewrite nth_error_map, H.
  Qed.

  Lemma tagged_groups_nodup f (r : request) : valid_request r -> NoDup (map fst (tagged_groups f r)).
  Proof.
    intros [HN HV]. unfold tagged_groups. induction r as [|[d es] r IH]; [constructor|].
    cbn in HN. inversion HN as [|? ? Hd HN']; subst. inversion HV as [|? ? [He _] HV']; subst. cbn [flat_map fst snd] in *.
    rewrite map_app, map_map. cbn [fst].
    assert (G : NoDup (map (fun w => (d, Some (fst w))) (writes (f d) es))).
    { rewrite writes_eq by exact He. rewrite <- (map_map fst (fun i => (d, Some i))). 
      assert (E : map fst (combine (seq (next_index (read_manifest (f d))) (length es)) (map snd es)) = seq (next_index (read_manifest (f d))) (length es)).
      { generalize (next_index (read_manifest (f d))). clear. induction es as [|e es IH]; intros n; cbn; [reflexivity|]. now rewrite IH. }
      rewrite E. apply FinFun.Injective_map_NoDup; [intros a b [= ->]; reflexivity|apply seq_NoDup]. }
    assert (D : forall t, In t (map (fun w => (d, Some (fst w))) (writes (f d) es)) ->
      ~ In t (map fst (flat_map (fun p => map (fun w => ((fst p, Some (fst w)), entry_steps (fst p) w)) (writes (f (fst p)) (snd p))) r))).
    { intros t Ht C. apply in_map_iff in Ht as (w & <- & _). apply in_map_iff in C as ([t' g] & E & C). cbn in E. subst t'.
      apply in_flat_map in C as (p & Hp & C). apply in_map_iff in C as (w' & [= E1 E2 _] & _). apply Hd. rewrite <- E1.
      now apply in_map. }
    clear -G D IH HN' HV'. specialize (IH HN' HV'). revert G D IH.
    generalize (map (fun w => (d, Some (fst w))) (writes (f d) es)). intros l. 
    match goal with |- context [map fst ?x] => generalize (map fst x) end. intros l2 G D IH.
    induction l as [|t l IHl]; [exact IH|]. inversion G; subst. cbn. constructor.
    - intros C. apply in_app_or in C as [C|C]; [contradiction|]. apply (D t); [now left|exact C].
    - apply IHl; [assumption|]. intros t' Ht'. apply D. now right.
  Qed.

  Definition is_manifest_step (s : step A) : bool := match snd (tag s) with None => true | Some _ => false end.

  (** For a dataset of the request: its manifest steps and its data steps within a run. *)
  Lemma run_manifest_steps f (r : request) steps d : valid_request r -> write_run f r steps ->
    filter (is_tag (d, None)) steps = match find d r with Some es => manifest_steps (f d) d es | None => [] end.
  Proof.
    intros HV (l & Hl & ->). destruct HV as [HN HV]. rewrite write_cache_steps in * by exact HN. cbn [fst snd] in *.
    rewrite filter_app.
    assert (E2 : filter (is_tag (d, None)) l = []).
    { rewrite <- tagged_groups_snd in Hl.
      destruct (interleave_filter _ _ Hl (tagged_groups f r) eq_refl) as [_ H].
      - now apply tagged_groups_nodup.
      - apply tagged_groups_tags.
      - apply H. intros C. apply in_map_iff in C as ([t g] & E & C). cbn in E. subst t.
        apply in_flat_map in C as (p & _ & C). apply in_map_iff in C as (w & [= ? _ _] & _). }
    rewrite E2, app_nil_r. clear -HN. induction r as [|[d' es] r IH]; [reflexivity|].
    cbn in HN. inversion HN as [|? ? Hd HN']; subst. cbn [flat_map fst snd find]. rewrite filter_app, IH by exact HN'.
    destruct (String.eqb_spec d d') as [->|Hne].
    - assert (Hf : find d' r = None).
      { clear -Hd. induction r as [|[d es] r IH]; [reflexivity|]. cbn in *. destruct (String.eqb_spec d' d); [subst; tauto|]. apply IH. tauto. }
      rewrite Hf, app_nil_r. apply filter_all'. intros s Hs. apply is_tag_true.
      destruct Hs as [<-|[<-|[<-|[]]]]; reflexivity.
    - rewrite filter_none'; [reflexivity|]. intros s Hs. apply is_tag_false.
      destruct Hs as [<-|[<-|[<-|[]]]]; cbn; congruence.
  Qed.

  Lemma find_In {B} k (x : B) l : find k l = Some x -> In (k, x) l.
  Proof.
    induction l as [|[k' y] l IH]; cbn; [discriminate|]. destruct (String.eqb_spec k k') as [->|]; [intros [= ->]; now left|].
    intros H. right. auto.
  Qed.
  Lemma In_find {B} k (x : B) l : NoDup (map fst l) -> In (k, x) l -> find k l = Some x.
  Proof.
    induction l as [|[k0 j] m IH]; cbn; intros HN; [intros []|]. inversion HN; subst. intros [[= -> ->]|H].
    - now rewrite String.eqb_refl.
    - destruct (String.eqb_spec k k0) as [->|]; [|auto]. exfalso. apply H1. now apply (in_map fst) in H.
  Qed.
  Lemma find_None {B} k (l : list (string * B)) : find k l = None <-> ~ In k (map fst l).
  Proof.
    induction l as [|[k' y] l IH]; cbn; [tauto|]. destruct (String.eqb_spec k k') as [->|]; [intuition congruence|].
    rewrite IH. intuition congruence.
  Qed.

  Lemma run_data_steps f (r : request) steps d i : valid_request r -> write_run f r steps ->
    (forall es shards, find d r = Some es -> In (i, shards) (writes (f d) es) ->
       filter (is_tag (d, Some i)) steps = entry_steps d (i, shards)) /\
    ((forall es shards, find d r = Some es -> ~ In (i, shards) (writes (f d) es)) ->
       filter (is_tag (d, Some i)) steps = []).
  Proof.
    intros HV (l & Hl & ->). assert (HV' := HV). destruct HV as [HN HV]. rewrite write_cache_steps in * by exact HN. cbn [fst snd] in *.
    assert (E1 : filter (is_tag (d, Some i)) (flat_map (fun p => manifest_steps (f (fst p)) (fst p) (snd p)) r) = []).
    { apply filter_none'. intros s Hs. apply in_flat_map in Hs as (p & _ & Hs). apply is_tag_false.
      destruct Hs as [<-|[<-|[<-|[]]]]; discriminate. }
    rewrite filter_app, E1. cbn [app]. rewrite <- tagged_groups_snd in Hl.
    destruct (interleave_filter _ _ Hl (tagged_groups f r) eq_refl) as [H1 H2].
    - now apply tagged_groups_nodup.
    - apply tagged_groups_tags.
    - split.
      + intros es shards Hf Hw. apply H1. apply in_flat_map. exists (d, es). split; [now apply find_In|]. cbn [fst snd].
        apply in_map_iff. exists (i, shards). split; [reflexivity|exact Hw].
      + intros Hno. apply H2. intros C. apply in_map_iff in C as ([t g] & E & C). cbn in E. subst t.
        apply in_flat_map in C as ([d' es] & Hp & C). cbn [fst snd] in C. apply in_map_iff in C as ([i' shards] & [= -> -> _] & Hw).
        apply (Hno es shards); [|exact Hw]. now apply In_find.
  Qed.

  (** data steps come after all manifest steps *)
  Lemma run_data_after_manifests f (r : request) steps p q s d : valid_request r -> write_run f r steps ->
    steps = p ++ q -> In s p -> is_manifest_step s = false ->
    filter (is_tag (d, None)) p = filter (is_tag (d, None)) steps.
  Proof.
    intros HV HR E Hs Hm. assert (HM := run_manifest_steps f r steps d HV HR).
    destruct HR as (l & Hl & E'). rewrite E in E'. rewrite E, filter_app.
    assert (Hq : filter (is_tag (d, None)) q = []); [|now rewrite Hq, app_nil_r].
    destruct HV as [HN HV].
    assert (A1 : forall s, In s (fst (write_cache f r)) -> is_manifest_step s = true).
    { rewrite write_cache_steps by exact HN. cbn. intros s' H. apply in_flat_map in H as (x & _ & H).
      destruct H as [<-|[<-|[<-|[]]]]; reflexivity. }
    assert (A2 : filter (is_tag (d, None)) l = []).
    { rewrite write_cache_steps in Hl by exact HN. cbn [snd] in Hl. rewrite <- tagged_groups_snd in Hl.
      destruct (interleave_filter _ _ Hl (tagged_groups f r) eq_refl) as [_ H].
      - now apply tagged_groups_nodup.
      - apply tagged_groups_tags.
      - apply H. intros C. apply in_map_iff in C as ([t g] & E0 & C). cbn in E0. subst t.
        apply in_flat_map in C as (x & _ & C). apply in_map_iff in C as (w & [= ? _ _] & _). }
    assert (A3 : exists p2, p = fst (write_cache f r) ++ p2 /\ l = p2 ++ q).
    { apply app_eq_app in E' as (l2 & [[-> ->]|[E1 ->]]); [eauto|].
      exfalso. rewrite (A1 s) in Hm; [discriminate|]. rewrite E1. apply in_or_app. now left. }
    destruct A3 as (p2 & _ & ->). rewrite filter_app in A2. now apply app_eq_nil in A2.
  Qed.

  (** ** What a prefix of a run does *)

  Lemma fold_shards d i n (l : list (nat * list A)) : forall acc : list (shard A),
    (forall s, In s acc -> forall p, In p l -> number s <> fst p) -> NoDup (map fst l) ->
    fold_left fstep (map (fun p => WriteShard d (Shard i (fst p) n (snd p))) l) acc =
    acc ++ map (fun p => Shard i (fst p) n (snd p)) l.
  Proof.
    induction l as [|p l IH]; intros acc HD HN; cbn [map fold_left]; [now rewrite app_nil_r|].
    cbn [fstep]. rewrite filter_all'.
    2:{ intros s Hs. unfold same_file. cbn. destruct (Nat.eqb_spec (fst p) (number s)) as [E|]; [|now rewrite andb_false_r].
        exfalso. apply (HD s Hs p); [now left|congruence]. }
    cbn in HN. inversion HN; subst. rewrite IH.
    - now rewrite <- app_assoc.
    - intros s Hs p' Hp'. apply in_app_or in Hs as [Hs|[<-|[]]]; [apply HD; [exact Hs|now right]|].
      cbn. intros E. apply H1. rewrite E. now apply in_map.
    - assumption.
  Qed.

  Lemma prefix_map {B C} (g : B -> C) l p : prefix p (map g l) -> exists n, p = map g (firstn n l).
  Proof.
    intros [q E]. exists (length p).
    apply (f_equal (firstn (length p))) in E. rewrite firstn_app, firstn_all, Nat.sub_diag in E. cbn in E. rewrite app_nil_r in E.
    rewrite <- firstn_map. now symmetry.
  Qed.

  Definition shards_of (i : nat) (shards : list (list A)) : list (shard A) :=
    map (fun p => Shard i (fst p) (length shards) (snd p)) (combine (seq 0 (length shards)) shards).

  Lemma nodup_firstn {B} n (l : list B) : NoDup l -> NoDup (firstn n l).
  Proof.
    revert n. induction l as [|x l IH]; intros [|n] H; cbn; try constructor; inversion H; subst; auto.
    intros C. apply H2. clear -C. revert n C. induction l as [|y l IH]; intros [|n] C; cbn in *; try tauto. destruct C; auto. right. eauto.
  Qed.

  Lemma combine_seq_fst {B} (l : list B) : forall i, map fst (combine (seq i (length l)) l) = seq i (length l).
  Proof. induction l as [|x l IH]; intros i; cbn; [reflexivity|]. now rewrite IH. Qed.
  Lemma combine_seq_snd {B} (l : list B) : forall i, map snd (combine (seq i (length l)) l) = l.
  Proof. induction l as [|x l IH]; intros i; cbn; [reflexivity|]. now rewrite IH. Qed.

  Lemma entry_prefix d i shards p : prefix p (entry_steps (A := A) d (i, shards)) ->
    exists n, fold_left fstep p [] = firstn n (shards_of i shards) /\
              (p = entry_steps d (i, shards) -> fold_left fstep p [] = shards_of i shards).
  Proof.
    assert (G : forall n, fold_left fstep (map (fun p => WriteShard d (Shard i (fst p) (length shards) (snd p))) (firstn n (combine (seq 0 (length shards)) shards))) []
              = firstn n (shards_of i shards)).
    { intros n. rewrite fold_shards; [cbn; unfold shards_of; now rewrite firstn_map|intros s []|].
      rewrite <- firstn_map, combine_seq_fst. apply nodup_firstn, seq_NoDup. }
    intros [q E]. destruct p as [|s p]; [exists 0; split; [reflexivity|discriminate]|].
    cbn in E. injection E as E1 E2. subst s.
    destruct (prefix_map _ _ _ (ex_intro _ q E2)) as [n ->]. exists n. cbn [fold_left fstep filter].
    split; [apply G|]. intros E. cbn in E. injection E as E. rewrite E.
    rewrite <- (firstn_all (combine (seq 0 (length shards)) shards)). rewrite G.
    apply firstn_all2. unfold shards_of. now rewrite map_length.
  Qed.

  Lemma filter_prefix {B} (P : B -> bool) p l : prefix p l -> prefix (filter P p) (filter P l).
  Proof. intros [q ->]. exists (filter P q). apply filter_app. Qed.

  (** ** Healthy states *)

  Definition healthy_dir (x : dir A) : Prop :=
    match manifest x with
    | None => data x = []
    | Some None => False
    | Some (Some m) => NoDup (map fst m) /\ forall s, In s (data x) -> index s < next_index m
    end.
  Definition healthy (f : fs) : Prop := forall d, healthy_dir (f d).

  Lemma files_data_In x s : In s (data x) <-> In s (files x (index s)).
  Proof. unfold files. rewrite filter_In, Nat.eqb_refl. tauto. Qed.

  Lemma healthy_fresh x i : healthy_dir x -> next_index (read_manifest x) <= i -> files x i = [].
  Proof.
    unfold healthy_dir, read_manifest, files. intros H Hi. apply filter_none'. intros s Hs.
    destruct (manifest x) as [[m|]|]; [|destruct H|rewrite H in Hs; destruct Hs].
    apply H in Hs. apply Nat.eqb_neq. lia.
  Qed.

  Lemma healthy_keys x : healthy_dir x -> NoDup (map fst (read_manifest x)).
  Proof. unfold healthy_dir, read_manifest. destruct (manifest x) as [[m|]|]; [tauto|constructor|constructor]. Qed.

  Lemma new_manifest_nodup x es : NoDup (map fst es) -> NoDup (map fst (read_manifest x)) -> NoDup (map fst (new_manifest x es)).
  Proof. intros He Hm. unfold new_manifest. destruct (assign _ _ es) as [m ws] eqn:E. apply assign_spec in E; tauto. Qed.

  Lemma new_manifest_next x es : NoDup (map fst es) ->
    next_index (read_manifest x) + length es <= next_index (new_manifest x es).
  Proof.
    intros He. unfold new_manifest. destruct (assign _ _ es) as [m ws] eqn:E. cbn [fst].
    destruct es as [|e es]; [cbn in E; injection E as <- _; cbn; lia|].
    apply assign_spec in E as (_ & _ & H & _); [|exact He]. remember (e :: es) as l eqn:El.
    destruct (nth_error l (length l - 1)) as [[k sh]|] eqn:En.
    - apply H, get_In, In_next in En. assert (length l <> 0) by (subst l; discriminate). lia.
    - apply nth_error_None in En. subst l. cbn in En. lia.
  Qed.

  (** the state of a directory after a prefix of a run *)
  Lemma prefix_manifest f (r : request) steps p d : valid_request r -> write_run f r steps -> prefix p steps ->
    manifest (exec f p d) = manifest (f d) \/
    exists es, find d r = Some es /\
      (manifest (exec f p d) = None \/ manifest (exec f p d) = Some None \/ manifest (exec f p d) = Some (Some (new_manifest (f d) es))).
  Proof.
    intros HV HR HP. rewrite exec_manifest. pose proof (filter_prefix (is_tag (d, None)) _ _ HP) as HF.
    rewrite (run_manifest_steps f r steps d HV HR) in HF. destruct (find d r) as [es|].
    - destruct HF as [q E]. unfold manifest_steps in E.
      destruct (filter (is_tag (d, None)) p) as [|s1 [|s2 [|s3 l]]]; [now left| | |]; right; exists es; (split; [reflexivity|]).
      + injection E as <- _. cbn. now left.
      + injection E as <- <- _. cbn. right. now left.
      + destruct l; [injection E as <- <- <- _; cbn; now right; right|discriminate].
    - left. destruct HF as [q E]. symmetry in E. apply app_eq_nil in E as [-> _]. reflexivity.
  Qed.

  Lemma prefix_files f (r : request) steps p d i : healthy f -> valid_request r -> write_run f r steps -> prefix p steps ->
    (files (exec f p d) i = files (f d) i) \/
    exists es j k shards n, find d r = Some es /\ nth_error es j = Some (k, shards) /\ i = next_index (read_manifest (f d)) + j /\
       manifest (exec f p d) = Some (Some (new_manifest (f d) es)) /\
       files (exec f p d) i = firstn n (shards_of i shards).
  Proof.
    intros HH HV HR HP. rewrite exec_files. destruct (run_data_steps f r steps d i HV HR) as [H1 H2].
    pose proof (filter_prefix (is_tag (d, Some i)) _ _ HP) as HF.
    destruct (filter (is_tag (d, Some i)) p) as [|s l] eqn:EF; [now left|].
    assert (Hs : In s p /\ is_tag (d, Some i) s = true) by (apply filter_In; rewrite EF; now left).
    destruct Hs as [Hs Hst]. apply is_tag_true in Hst.
    destruct (find d r) as [es|] eqn:Ed.
    2:{ rewrite H2 in HF by discriminate. destruct HF as [q E]. discriminate. }
    assert (Hes : NoDup (map fst es)) by (destruct HV as [_ HV]; rewrite Forall_forall in HV; apply find_In, HV in Ed; apply Ed).
    assert (DEC : (exists shards, In (i, shards) (writes (f d) es)) \/ forall shards, ~ In (i, shards) (writes (f d) es)).
    { generalize (writes (f d) es). clear. intros l. induction l as [|[j sh] l IH]; [right; intros ? []|].
      destruct (Nat.eq_dec j i) as [->|Hj]; [left; exists sh; now left|]. destruct IH as [[sh' IH]|IH]; [left; exists sh'; now right|].
      right. intros sh' [[= -> _]|C]; [congruence|]. now apply (IH sh'). }
    destruct DEC as [[shards Hw]|Hno].
    2:{ rewrite H2 in HF; [destruct HF as [q E]; discriminate|]. intros es' sh [= <-]. apply Hno. }
    rewrite (H1 es shards eq_refl Hw) in HF. apply writes_In in Hw as (j & k & Hi & Hj); [|exact Hes].
    right. assert (Hfresh : files (f d) i = []) by (apply healthy_fresh; [apply HH|lia]).
    rewrite Hfresh. destruct (entry_prefix _ _ _ _ HF) as (n & E & _).
    exists es, j, k, shards, n. repeat split; auto.
    rewrite exec_manifest. destruct HP as [q HP].
    rewrite (run_data_after_manifests f r steps p q s d HV HR HP Hs); [|unfold is_manifest_step; now rewrite Hst].
    rewrite (run_manifest_steps f r steps d HV HR), Ed. reflexivity.
  Qed.

  Lemma prefix_refl {B} (l : list B) : prefix l l.
  Proof. exists []. now rewrite app_nil_r. Qed.

  Lemma full_manifest f (r : request) steps d : valid_request r -> write_run f r steps ->
    manifest (exec f steps d) = match find d r with Some es => Some (Some (new_manifest (f d) es)) | None => manifest (f d) end.
  Proof.
    intros HV HR. rewrite exec_manifest, (run_manifest_steps f r steps d HV HR). destruct (find d r); reflexivity.
  Qed.

  Lemma full_files f (r : request) steps d es j k shards : healthy f -> valid_request r -> write_run f r steps ->
    find d r = Some es -> nth_error es j = Some (k, shards) ->
    files (exec f steps d) (next_index (read_manifest (f d)) + j) = shards_of (next_index (read_manifest (f d)) + j) shards.
  Proof.
    intros HH HV HR Ed Hj. set (i := next_index (read_manifest (f d)) + j).
    assert (Hes : NoDup (map fst es)) by (destruct HV as [_ HV]; rewrite Forall_forall in HV; apply find_In, HV in Ed; apply Ed).
    assert (Hw : In (i, shards) (writes (f d) es)) by (apply writes_In; [exact Hes|unfold i; eauto]).
    rewrite exec_files. destruct (run_data_steps f r steps d i HV HR) as [H1 _]. rewrite (H1 es shards Ed Hw).
    rewrite healthy_fresh; [|apply HH|unfold i; lia].
    destruct (entry_prefix d i shards (entry_steps d (i, shards)) (prefix_refl _)) as (_ & _ & E). now apply E.
  Qed.

  Lemma unaffected_files f (r : request) steps p d i : healthy f -> valid_request r -> write_run f r steps -> prefix p steps ->
    i < next_index (read_manifest (f d)) -> files (exec f p d) i = files (f d) i.
  Proof.
    intros HH HV HR HP Hi. destruct (prefix_files f r steps p d i HH HV HR HP) as [E|(es & j & k & sh & n & _ & _ & E & _)]; [exact E|lia].
  Qed.

  (** ** Keeping states healthy *)

  Lemma healthy_prefix f (r : request) steps p : healthy f -> valid_request r -> write_run f r steps -> prefix p steps ->
    (forall d, manifest (exec f p d) <> Some None /\ (manifest (exec f p d) = None -> manifest (f d) = None)) ->
    healthy (exec f p).
  Proof.
    intros HH HV HR HP HM d. destruct (HM d) as [HM1 HM2]. pose proof (HH d) as Hd. unfold healthy_dir.
    assert (HD : forall s, In s (data (exec f p d)) -> In s (data (f d)) \/
       exists es, find d r = Some es /\ manifest (exec f p d) = Some (Some (new_manifest (f d) es)) /\ index s < next_index (read_manifest (f d)) + length es).
    { intros s Hs. rewrite files_data_In in Hs.
      destruct (prefix_files f r steps p d (index s) HH HV HR HP) as [E|(es & j & k & sh & n & Ed & Hj & E1 & E2 & E3)].
      - left. rewrite E in Hs. now apply files_data_In.
      - right. exists es. repeat split; auto. rewrite E1. assert (j < length es); [|lia]. apply nth_error_Some. congruence. }
    destruct (prefix_manifest f r steps p d HV HR HP) as [E|(es & Ed & E)].
    - rewrite E. destruct (manifest (f d)) as [[m|]|] eqn:Em.
      + unfold healthy_dir in Hd. rewrite Em in Hd. split; [apply Hd|]. intros s Hs. apply HD in Hs as [Hs|(es & Ed & E' & Hi)]; [now apply Hd|].
        assert (Hes : NoDup (map fst es)) by (destruct HV as [_ HV]; rewrite Forall_forall in HV; apply find_In, HV in Ed; apply Ed).
        rewrite E in E'. injection E' as ->. pose proof (new_manifest_next (f d) es Hes). lia.
      + unfold healthy_dir in Hd. now rewrite Em in Hd.
      + unfold healthy_dir in Hd. rewrite Em in Hd. destruct (data (exec f p d)) as [|s l] eqn:Edata; [reflexivity|].
        exfalso. destruct (HD s) as [Hs|(es & Ed & E' & _)]; [now left|now rewrite Hd in Hs|congruence].
    - assert (Hes : NoDup (map fst es)) by (destruct HV as [_ HV]; rewrite Forall_forall in HV; apply find_In, HV in Ed; apply Ed).
      destruct E as [E|[E|E]].
      + rewrite E. pose proof (HM2 E) as E0. unfold healthy_dir in Hd. rewrite E0 in Hd.
        destruct (data (exec f p d)) as [|s l] eqn:Edata; [reflexivity|].
        exfalso. destruct (HD s) as [Hs|(es' & Ed' & E' & _)]; [now left|now rewrite Hd in Hs|congruence].
      + congruence.
      + rewrite E. split; [apply new_manifest_nodup; [exact Hes|now apply healthy_keys]|].
        pose proof (new_manifest_next (f d) es Hes) as HN. intros s Hs. apply HD in Hs as [Hs|(es' & Ed' & _ & Hi)].
        * unfold healthy_dir, read_manifest in *. destruct (manifest (f d)) as [[m|]|]; [|destruct Hd|rewrite Hd in Hs; destruct Hs].
          apply Hd in Hs. lia.
        * rewrite Ed in Ed'. injection Ed' as <-. lia.
  Qed.

  Lemma healthy_full f (r : request) steps : healthy f -> valid_request r -> write_run f r steps -> healthy (exec f steps).
  Proof.
    intros HH HV HR. apply (healthy_prefix f r steps steps); auto using prefix_refl. intros d.
    rewrite (full_manifest f r steps d HV HR). pose proof (HH d) as Hd. unfold healthy_dir in Hd.
    destruct (find d r); [split; discriminate|]. split; [|auto]. intros E. now rewrite E in Hd.
  Qed.

  Lemma healthy_completed rs f : completed (A := A) rs f -> healthy f.
  Proof. induction 1; [intros d; reflexivity|eapply healthy_full; eauto]. Qed.
  Lemma healthy_reachable (f : fs) : reachable f -> healthy f.
  Proof. induction 1; [intros d; reflexivity|eapply healthy_prefix; eauto]. Qed.

  (** ** Reading *)

  Lemma filter_key k m : NoDup (map fst m) ->
    filter (fun e : string * nat => String.eqb k (fst e)) m = match get k m with Some i => [(k, i)] | None => [] end.
  Proof.
    induction m as [|[k' i] m IH]; cbn; intros HN; [reflexivity|]. inversion HN; subst.
    destruct (String.eqb_spec k k') as [->|]; [|auto]. f_equal. apply filter_none'. intros [k0 j] H0. cbn.
    apply String.eqb_neq. intros ->. apply H1. now apply (in_map fst) in H0.
  Qed.

  Lemma read_index_files (x : dir A) i : read_index x i = match files x i with [] => None | l => Some (List.concat (map records l)) end.
  Proof. reflexivity. Qed.

  Definition lookup_entry (x : dir A) (k : string) : outcome A :=
    match get k (read_manifest x) with
    | None => Absent
    | Some i => match read_index x i with None => Raised | Some y => Got y end
    end.

  Lemma entry_lookup (f : fs) d k : NoDup (map fst (read_manifest (f d))) -> entry f d k = lookup_entry (f d) k.
  Proof.
    intros HN. unfold entry, read_cache, lookup_entry. cbn [filter].
    destruct (read_manifest (f d)) as [|e m] eqn:Em; [reflexivity|]. rewrite <- Em in *. cbn [map]. rewrite filter_key by exact HN.
    destruct (get k (read_manifest (f d))) as [i|]; cbn [map sequence option_map fst snd].
    - destruct (read_index (f d) i); cbn; [|reflexivity]. unfold find2. cbn. rewrite String.eqb_refl. cbn. now rewrite String.eqb_refl.
    - cbn. unfold find2. cbn. now rewrite String.eqb_refl.
  Qed.

  Lemma shards_records i shards : shards <> [] ->
    match shards_of i shards with [] => None | l => Some (List.concat (map records l)) end = Some (List.concat shards).
  Proof.
    intros H. unfold shards_of. destruct shards as [|s sh]; [congruence|]. remember (s :: sh) as l.
    assert (E : map records (map (fun p => Shard i (fst p) (length l) (snd p)) (combine (seq 0 (length l)) l)) = l).
    { rewrite map_map. cbn [records]. apply combine_seq_snd. }
    destruct (map (fun p => Shard i (fst p) (length l) (snd p)) (combine (seq 0 (length l)) l)) as [|a b] eqn:Ea.
    - subst l. discriminate.
    - now rewrite E.
  Qed.

  Lemma written_position (r : request) d k x : written r d k = Some x -> exists es j shards,
    find d r = Some es /\ nth_error es j = Some (k, shards) /\ x = List.concat shards.
  Proof.
    unfold written, find2. destruct (find d r) as [es|]; [|discriminate]. destruct (find k es) as [sh|] eqn:E; [|discriminate].
    intros [= <-]. apply find_In, In_nth_error in E as [j Hj]. eauto 6.
  Qed.
  Lemma written_none (r : request) d k : written r d k = None -> forall es, find d r = Some es -> ~ In k (map fst es).
  Proof.
    unfold written, find2. intros H es E. rewrite E in H. destruct (find k es) eqn:E'; [discriminate|]. now apply find_None.
  Qed.

  Lemma new_manifest_get x es : NoDup (map fst es) ->
    (forall j k shards, nth_error es j = Some (k, shards) -> get k (new_manifest x es) = Some (next_index (read_manifest x) + j)) /\
    (forall k, ~ In k (map fst es) -> get k (new_manifest x es) = get k (read_manifest x)).
  Proof. intros He. unfold new_manifest. destruct (assign _ _ es) as [m ws] eqn:E. apply assign_spec in E; tauto. Qed.

  Lemma valid_entries (r : request) d es : valid_request r -> find d r = Some es -> NoDup (map fst es) /\ Forall (fun e => snd e <> []) es.
  Proof. intros [_ HV] E. rewrite Forall_forall in HV. now apply find_In, HV in E. Qed.

  Lemma lookup_full f (r : request) steps d k : healthy f -> valid_request r -> write_run f r steps ->
    lookup_entry (exec f steps d) k = match written r d k with Some x => Got x | None => lookup_entry (f d) k end.
  Proof.
    intros HH HV HR. destruct (written r d k) as [x|] eqn:EW.
    - apply written_position in EW as (es & j & shards & Ed & Hj & ->).
      destruct (valid_entries _ _ _ HV Ed) as [He Hne]. destruct (new_manifest_get (f d) es He) as [G1 _].
      unfold lookup_entry, read_manifest at 1. rewrite (full_manifest f r steps d HV HR), Ed. rewrite (G1 _ _ _ Hj).
      rewrite read_index_files, (full_files f r steps d es j k shards HH HV HR Ed Hj).
      rewrite shards_records; [reflexivity|]. rewrite Forall_forall in Hne. apply nth_error_In, Hne in Hj. exact Hj.
    - assert (EG : get k (read_manifest (exec f steps d)) = get k (read_manifest (f d))).
      { unfold read_manifest at 1. rewrite (full_manifest f r steps d HV HR). destruct (find d r) as [es|] eqn:Ed; [|reflexivity].
        destruct (valid_entries _ _ _ HV Ed) as [He _]. apply (new_manifest_get (f d) es He). eapply written_none; eauto. }
      unfold lookup_entry. rewrite EG. destruct (get k (read_manifest (f d))) as [i|] eqn:Ei; [|reflexivity].
      rewrite !read_index_files. rewrite (unaffected_files f r steps steps d i HH HV HR (prefix_refl _)); [reflexivity|].
      now apply get_In, In_next in Ei.
  Qed.

  Lemma lookup_completed rs f d k : completed (A := A) rs f ->
    lookup_entry (f d) k = match last_written rs d k with Some x => Got x | None => Absent end.
  Proof.
    induction 1 as [|rs f r steps HC IH HV HR]; [reflexivity|].
    rewrite (lookup_full f r steps d k (healthy_completed _ _ HC) HV HR). unfold last_written in *. rewrite fold_left_app. cbn [fold_left].
    destruct (written r d k); [reflexivity|exact IH].
  Qed.

  Lemma entry_completed rs f d k : completed (A := A) rs f ->
    entry f d k = match last_written rs d k with Some x => Got x | None => Absent end.
  Proof.
    intros HC. rewrite entry_lookup; [now apply lookup_completed|]. apply healthy_keys, (healthy_completed _ _ HC).
  Qed.

  Lemma sequence_map {B C} (g : B -> option C) (h : B -> C) l : (forall x, In x l -> g x = Some (h x)) -> sequence (map g l) = Some (map h l).
  Proof.
    induction l as [|x l IH]; intros H; [reflexivity|]. cbn. rewrite (H x (or_introl eq_refl)), IH; [reflexivity|].
    intros y Hy. apply H. now right.
  Qed.

  Lemma find_map {B C} (g : string * B -> C) k (l : list (string * B)) :
    find k (map (fun e => (fst e, g e)) l) = option_map (fun x => g (k, x)) (find k l).
  Proof.
    induction l as [|[k' x] l IH]; [reflexivity|]. cbn. destruct (String.eqb_spec k k') as [->|]; [reflexivity|exact IH].
  Qed.
  Lemma find_filter (wanted : string -> bool) {B} k (l : list (string * B)) :
    find k (filter (fun e => wanted (fst e)) l) = if wanted k then find k l else None.
  Proof.
    induction l as [|[k' x] l IH]; cbn; [now destruct (wanted k)|]. destruct (wanted k') eqn:E; cbn; rewrite ?IH;
      destruct (String.eqb_spec k k') as [->|]; rewrite ?E; try reflexivity; now destruct (wanted k).
  Qed.
  Lemma get_find k m : get k m = find k m.
  Proof. induction m as [|[k' i] m IH]; cbn; [reflexivity|]. now rewrite IH. Qed.

  Lemma read_completed rs f datasets wanted : completed (A := A) rs f ->
    exists result, read_cache f datasets wanted = Some result /\
    forall d k, find2 result d k = if existsb (String.eqb d) datasets && wanted k then last_written rs d k else None.
  Proof.
    intros HC.
    assert (HL : forall d k, lookup_entry (f d) k = match last_written rs d k with Some x => Got x | None => Absent end)
      by (intros; now apply lookup_completed).
    assert (HN : forall d, NoDup (map fst (read_manifest (f d)))) by (intros d; apply healthy_keys, (healthy_completed _ _ HC)).
    set (value := fun d (e : string * nat) => match last_written rs d (fst e) with Some x => x | None => [] end).
    set (one := fun d => map (fun e => (fst e, value d e)) (filter (fun e => wanted (fst e)) (read_manifest (f d)))).
    assert (ER : read_cache f datasets wanted = Some (map (fun d => (d, one d)) (filter (fun d => match read_manifest (f d) with [] => false | _ => true end) datasets))).
    { unfold read_cache. apply sequence_map. intros d Hd.
      rewrite (sequence_map _ (fun e => (fst e, value d e))); [reflexivity|].
      intros [k i] He. apply filter_In in He as [He _]. cbn [fst snd]. apply (In_get _ _ _ (HN d)) in He.
      specialize (HL d k). unfold lookup_entry in HL. rewrite He in HL. unfold value. cbn [fst].
      destruct (read_index (f d) i); destruct (last_written rs d k); try discriminate. injection HL as ->. reflexivity. }
    exists (map (fun d => (d, one d)) (filter (fun d => match read_manifest (f d) with [] => false | _ => true end) datasets)).
    split; [exact ER|]. intros d k.
    assert (EL : find k (one d) = if wanted k then last_written rs d k else None).
    { unfold one. rewrite (find_map (value d)). rewrite find_filter. destruct (wanted k); [|reflexivity].
      rewrite <- get_find. specialize (HL d k). unfold lookup_entry in HL.
      destruct (get k (read_manifest (f d))) as [i|] eqn:Eg; cbn.
      - unfold value. cbn. destruct (read_index (f d) i); destruct (last_written rs d k); try discriminate; reflexivity.
      - destruct (last_written rs d k); [discriminate|reflexivity]. }
    clear ER. unfold find2.
    assert (EF : find d (map (fun d => (d, one d)) (filter (fun d => match read_manifest (f d) with [] => false | _ => true end) datasets)) =
      if existsb (String.eqb d) datasets && match read_manifest (f d) with [] => false | _ => true end then Some (one d) else None).
    { clear -HN. induction datasets as [|d' ds IH]; [reflexivity|]. cbn [filter existsb].
      destruct (match read_manifest (f d') with [] => false | _ => true end) eqn:E; cbn [map find].
      - destruct (String.eqb_spec d d') as [->|]; [cbn [orb andb]; now rewrite E|exact IH].
      - rewrite IH. destruct (String.eqb_spec d d') as [->|]; [|reflexivity]. rewrite E, !andb_false_r. reflexivity. }
    rewrite EF. destruct (existsb (String.eqb d) datasets); cbn [andb]; [|reflexivity].
    destruct (match read_manifest (f d) with [] => false | _ => true end) eqn:E; [exact EL|].
    unfold one in EL. destruct (read_manifest (f d)); [|discriminate]. cbn in EL. now rewrite <- EL.
  Qed.

  (** ** Crashes *)

  Lemma recovery f (r : request) steps d k x : reachable f -> valid_request r -> write_run f r steps ->
    written r d k = Some x -> entry (exec f steps) d k = Got x.
  Proof.
    intros HR HV HW E. apply healthy_reachable in HR. rewrite entry_lookup.
    - now rewrite (lookup_full f r steps d k HR HV HW), E.
    - apply healthy_keys, (healthy_full f r steps HR HV HW).
  Qed.

  Lemma prefix_keys f (r : request) steps p d : healthy f -> valid_request r -> write_run f r steps -> prefix p steps ->
    NoDup (map fst (read_manifest (exec f p d))).
  Proof.
    intros HH HV HW HP. unfold read_manifest at 1. pose proof (healthy_keys _ (HH d)) as Hk.
    destruct (prefix_manifest f r steps p d HV HW HP) as [->|(es & Ed & [->|[->| ->]])]; [exact Hk|constructor|constructor|].
    apply new_manifest_nodup; [|exact Hk]. now apply (valid_entries r d es).
  Qed.

  Lemma untouched f (r : request) steps p d k : reachable f -> valid_request r -> write_run f r steps -> prefix p steps ->
    written r d k = None -> entry (exec f p) d k = entry f d k \/ entry (exec f p) d k = Absent.
  Proof.
    intros HR HV HW HP E. apply healthy_reachable in HR. pose proof (prefix_keys f r steps p d HR HV HW HP) as HN.
    rewrite entry_lookup by exact HN. rewrite entry_lookup by (apply healthy_keys, HR).
    assert (EG : get k (read_manifest (exec f p d)) = get k (read_manifest (f d)) \/ get k (read_manifest (exec f p d)) = None).
    { unfold read_manifest at 1 3. destruct (prefix_manifest f r steps p d HV HW HP) as [->|(es & Ed & [->|[->| ->]])]; auto.
      left. destruct (valid_entries _ _ _ HV Ed) as [He _]. apply (new_manifest_get (f d) es He). eapply written_none; eauto. }
    unfold lookup_entry. destruct EG as [->| ->]; [|now right]. left.
    destruct (get k (read_manifest (f d))) as [i|] eqn:Ei; [|reflexivity]. rewrite !read_index_files.
    rewrite (unaffected_files f r steps p d i HR HV HW HP); [reflexivity|]. now apply get_In, In_next in Ei.
  Qed.

  Lemma crash_outcomes f (r : request) steps p d k shards : reachable f -> valid_request r -> write_run f r steps -> prefix p steps ->
    find2 r d k = Some shards ->
    entry (exec f p) d k = entry f d k \/ entry (exec f p) d k = Absent \/ entry (exec f p) d k = Raised \/
    exists n, entry (exec f p) d k = Got (List.concat (firstn n shards)).
  Proof.
    intros HR HV HW HP E. apply healthy_reachable in HR. pose proof (prefix_keys f r steps p d HR HV HW HP) as HN.
    rewrite entry_lookup by exact HN. rewrite entry_lookup by (apply healthy_keys, HR).
    unfold find2 in E. destruct (find d r) as [es|] eqn:Ed; [|discriminate]. apply find_In, In_nth_error in E as [j Hj].
    destruct (valid_entries _ _ _ HV Ed) as [He _]. destruct (new_manifest_get (f d) es He) as [G1 _].
    unfold lookup_entry.
    assert (ERM : read_manifest (exec f p d) = read_manifest (f d) \/ read_manifest (exec f p d) = [] \/
                  read_manifest (exec f p d) = new_manifest (f d) es).
    { unfold read_manifest. destruct (prefix_manifest f r steps p d HV HW HP) as [->|(es' & Ed' & [->|[->| ->]])]; auto.
      rewrite Ed in Ed'. injection Ed' as <-. auto. }
    destruct ERM as [->|[->| ->]]; cbn [get]; auto.
    - left. destruct (get k (read_manifest (f d))) as [i|] eqn:Ei; [|reflexivity].
      rewrite !read_index_files. rewrite (unaffected_files f r steps p d i HR HV HW HP); [reflexivity|]. now apply get_In, In_next in Ei.
    - right. right. rewrite (G1 _ _ _ Hj), read_index_files.
      destruct (prefix_files f r steps p d (next_index (read_manifest (f d)) + j) HR HV HW HP)
        as [E|(es' & j' & k' & sh & n & Ed' & Hj' & E1 & _ & E2)].
      + rewrite E, healthy_fresh; [now left|apply HR|lia].
      + rewrite Ed in Ed'. injection Ed' as <-. assert (j' = j) by lia. subst j'. rewrite Hj in Hj'. injection Hj' as <- <-.
        rewrite E2. set (i := next_index (read_manifest (f d)) + j).
        assert (ER : map records (firstn n (shards_of i shards)) = firstn n shards).
        { rewrite <- firstn_map. f_equal. unfold shards_of. rewrite map_map. cbn. apply combine_seq_snd. }
        destruct (firstn n (shards_of i shards)) as [|a b] eqn:Eab; [now left|]. right. exists n. rewrite <- ER. reflexivity.
  Qed.

  (** A pipeline that reads the cache while it writes it: the indices are those of the manifest before. *)
  Lemma read_while_writing f (r : request) steps p d k i : reachable f -> valid_request r -> write_run f r steps -> prefix p steps ->
    In (k, i) (read_manifest (f d)) -> read_index (exec f p d) i = read_index (f d) i.
  Proof.
    intros HR HV HW HP Hi. apply healthy_reachable in HR. rewrite !read_index_files.
    rewrite (unaffected_files f r steps p d i HR HV HW HP); [reflexivity|]. now apply In_next in Hi.
  Qed.

  Lemma completed_reachable rs f : completed (A := A) rs f -> reachable f.
  Proof.
    induction 1 as [|rs f r steps HC IH HV HR]; [constructor|]. apply (reachable_snoc f r steps steps); auto using prefix_refl.
    intros d. rewrite (full_manifest f r steps d HV HR). pose proof (healthy_reachable f IH d) as Hd. unfold healthy_dir in Hd.
    destruct (find d r); [split; discriminate|]. split; [|auto]. intros E. now rewrite E in Hd.
  Qed.

  Lemma interleave_concat : forall gs : list (list (step A)), interleave gs (List.concat gs).
  Proof.
    intros gs. cut (forall done, Forall (fun g => g = []) done -> interleave (done ++ gs) (List.concat gs)); [intros H; apply (H []); constructor|].
    induction gs as [|g gs IH]; intros done Hd; cbn; [rewrite app_nil_r; now constructor|].
    induction g as [|s g IHg]; cbn.
    - replace (done ++ [] :: gs) with ((done ++ [[]]) ++ gs) by (rewrite <- app_assoc; reflexivity).
      apply IH. apply Forall_app. split; [exact Hd|repeat constructor].
    - constructor. exact IHg.
  Qed.
End proofs.
