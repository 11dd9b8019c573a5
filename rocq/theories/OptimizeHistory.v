(** * Histories of runs, the keys of one graph, and the datasets read *)
From Coq Require Import String.
From Coq Require Import List Arith Bool Lia.
From Verif Require Import OptimizeModel OptimizeSpec OptimizeProofs OptimizeShape.
Import ListNotations.
Local Notation length := List.length.

Section History.
Context {B C K PC : Type}.
Variable partitionable : B -> bool.
Variable cache_coder : B -> option C.
Variable num_outputs : B -> nat.
Variable key_eqb : K -> K -> bool.
Variable is_cached : K -> bool.
Variable class_name : op B C K -> string.
Variable fields : string -> op B C K -> list string.
Variable tensor_path : string -> option string.
Variable sha1 : string -> string.
Variable cache_version : string.
Hypothesis KEY : forall a b, key_eqb a b = true <-> a = b.

Notation translated := (translated partitionable cache_coder num_outputs).
Notation node := (node B C K).
Notation view := (view B C K).
Notation opt := (optimize partitionable cache_coder num_outputs key_eqb is_cached class_name fields
  tensor_path sha1 cache_version).

(** ** Labels and keys *)

Lemma append_cancel (p a b : string) : (p ++ a)%string = (p ++ b)%string -> a = b.
Proof. induction p; cbn; [auto | intros [= E]; auto]. Qed.

Lemma append_same_end (a b x y : string) :
  String.length x = String.length y -> (a ++ x)%string = (b ++ y)%string -> a = b.
Proof.
  assert (L : forall s t, String.length (s ++ t) = String.length s + String.length t).
  { induction s; cbn; auto. }
  revert b. induction a as [|c a IH]; intros [|d b] E H; cbn in H; auto.
  - exfalso. subst x. cbn in E. rewrite L in E. lia.
  - exfalso. subst y. cbn in E. rewrite L in E. lia.
  - injection H as -> H. f_equal. eapply IH; eauto.
Qed.

Lemma entry_key_label label label' h h' : String.length h = String.length h' ->
  cache_entry_key cache_version label h = cache_entry_key cache_version label' h' -> label = label'.
Proof.
  unfold cache_entry_key. intros L E. apply append_cancel in E.
  eapply append_same_end; [|exact E]. cbn. now rewrite L.
Qed.

Lemma cacheable_hash (n : node) c h :
  (forall s, String.length (sha1 s) = 20) ->
  cacheable cache_coder n c -> has_hash partitionable class_name fields tensor_path sha1 n h ->
  String.length h = 20.
Proof.
  intros SL CA H. inversion H as [|label o inputs index hashes h' NA P F N]; subst.
  - discriminate CA.
  - unfold next_hashed_path in N. destruct (sequence _); [|discriminate]. injection N as <-. apply SL.
Qed.

Lemma cacheable_index (n : node) c : translated n -> cacheable cache_coder n c ->
  match n with Node _ _ _ index => index = 0 end.
Proof.
  intros T CA. inversion T as [| | |l b ins i TN IX PB CC ONE]; subst; try reflexivity.
  cbn in CA. destruct PB as [_ NO]; [apply CC; congruence | lia].
Qed.

Lemma translated_occurs (m n : node) : occurs m n -> translated n -> translated m.
Proof.
  induction 1 as [|m n label o inputs index I O IH]; [auto|]. intros T.
  apply IH. eapply translated_inputs; eauto.
Qed.

Lemma one_graph_keys (flatten : list PC -> PC) sem encode decode eqv data root :
  implementation partitionable cache_coder flatten sem encode decode eqv ->
  (forall s, String.length (sha1 s) = 20) -> translated root -> unique_labels root ->
  keys_identify partitionable cache_coder class_name fields tensor_path sha1 cache_version
    flatten sem encode decode eqv data (eq root).
Proof.
  intros IMP SL T UL r r' n n' c c' key <- <- O O' CA CA' HK HK'.
  destruct n as [l o ins i], n' as [l' o' ins' i'].
  destruct HK as (h & HH & ->). destruct HK' as (h' & HH' & E).
  apply entry_key_label in E.
  2:{ rewrite (cacheable_hash _ _ _ SL CA HH), (cacheable_hash _ _ _ SL CA' HH'). reflexivity. }
  subst l'. destruct (UL _ _ _ _ _ _ _ O O') as [<- <-].
  pose proof (cacheable_index _ _ (translated_occurs _ _ O T) CA) as I0.
  pose proof (cacheable_index _ _ (translated_occurs _ _ O' T) CA') as I1. cbn in I0, I1. subst.
  split; [cbn in CA, CA'; congruence|]. intros k. apply (eqv_refl _ _ _ _ _ _ _ IMP).
Qed.

(** ** Histories *)
Section Histories.
Variable flatten : list PC -> PC.
Variable sem : op B C K -> list PC -> list PC.
Variable encode decode : C -> PC -> PC.
Variable eqv : PC -> PC -> Prop.
Hypothesis IMP : implementation partitionable cache_coder flatten sem encode decode eqv.
Variable data : K -> PC.
Variable graphs : node -> Prop.
Hypothesis TR : forall root, graphs root -> translated root.
Hypothesis ID : keys_identify partitionable cache_coder class_name fields tensor_path sha1 cache_version
    flatten sem encode decode eqv data graphs.
Notation available := (available partitionable cache_coder num_outputs class_name fields tensor_path sha1
  cache_version flatten sem encode decode data key_eqb is_cached).

Lemma available_right cache : available graphs cache -> forall root, graphs root ->
  right_entries partitionable cache_coder class_name fields tensor_path sha1 cache_version
    flatten sem encode decode eqv data (Some cache) root.
Proof.
  induction 1 as [|cache keys r0 v em cache' A IH G R EX]; intros root GR n c k key p O CA HK E.
  - discriminate E.
  - destruct (EX _ _ _ E) as [E'|(m & IM & ->)]; [eapply IH; eauto|].
    unfold run in R.
    destruct (optimize_ok partitionable cache_coder num_outputs key_eqb is_cached class_name fields tensor_path
       sha1 cache_version flatten sem encode decode eqv KEY IMP data keys (Some cache) r0 (TR _ G) (IH _ G) v em R)
      as [_ EM].
    rewrite Forall_forall in EM. destruct (EM _ IM) as (_ & _ & _ & n0 & c0 & O0 & CA0 & HK0 & D).
    cbn [fst snd] in D, HK0.
    destruct (ID _ _ _ _ _ _ _ GR G O O0 CA CA0 HK HK0) as [-> EQ].
    eapply (eqv_trans _ _ _ _ _ _ _ IMP); [exact D|]. apply (eqv_sym _ _ _ _ _ _ _ IMP), EQ.
Qed.

Lemma history_result cache : available graphs cache -> forall root, graphs root -> forall keys v em,
  run partitionable cache_coder num_outputs class_name fields tensor_path sha1 cache_version key_eqb is_cached
    keys (Some cache) root = Some (v, em) ->
  eqv (eval flatten sem encode decode data keys cache (flat v))
      (value_on flatten sem encode decode data keys root) /\
  (forall k key m, In (k, key, m) em ->
     In k keys /\ is_cached k = true /\ cache k key = None /\
     exists n c, occurs n root /\ cacheable cache_coder n c /\
       has_entry_key partitionable class_name fields tensor_path sha1 cache_version n key /\
       eqv (decode c (eval flatten sem encode decode data keys cache m))
           (value_on flatten sem encode decode data [k] n)).
Proof.
  intros A root G keys v em R.
  destruct (optimize_ok partitionable cache_coder num_outputs key_eqb is_cached class_name fields tensor_path
       sha1 cache_version flatten sem encode decode eqv KEY IMP data keys (Some cache) root (TR _ G)
       (available_right _ A _ G) v em R) as [VO EM].
  split; [exact (ok_flat _ _ _ _ _ _ _ _ _ _ _ _ _ _ _ _ VO)|].
  intros k key m I. rewrite Forall_forall in EM. destruct (EM _ I) as (IK & HT & IC & n & c & O & CA & HK & D).
  cbn [fst snd] in *. split; [exact IK|]. split; [exact IC|]. split.
  - cbn in HT. unfold entries in HT. destruct (cache k key); [discriminate | reflexivity].
  - exists n, c. auto.
Qed.
End Histories.

(** Without a cache. *)
Lemma no_caching_result (flatten : list PC -> PC) sem encode decode eqv data
    (IMP : implementation partitionable cache_coder flatten sem encode decode eqv) keys root v em :
  translated root ->
  run (PC := PC) partitionable cache_coder num_outputs class_name fields tensor_path sha1 cache_version key_eqb is_cached
    keys None root = Some (v, em) ->
  eqv (eval flatten sem encode decode data keys no_cache (flat v))
      (value_on flatten sem encode decode data keys root) /\ em = [].
Proof.
  intros T R.
  destruct (optimize_ok partitionable cache_coder num_outputs key_eqb is_cached class_name fields tensor_path
       sha1 cache_version flatten sem encode decode eqv KEY IMP data keys None root T) with (v := v) (em := em) as [VO EM].
  - intros n c k key p _ _ _ E. discriminate E.
  - exact R.
  - split; [exact (ok_flat _ _ _ _ _ _ _ _ _ _ _ _ _ _ _ _ VO)|].
    clear VO EM. unfold run in R. cbn [option_map] in R. revert v em R. induction root as [l o ins i IH] using node_rect'.
    intros v em R.
    destruct (opt_inv _ _ _ _ _ _ _ _ _ _ _ _ _ _ _ _ _ _ T R) as (rs & vs & e & S & H & N & ->).
    assert (concat (map snd rs) = []) as ->.
    { assert (TI : forall n, In n ins -> translated n) by (intros; eapply translated_inputs; eauto).
      clear - S IH TI. induction S as [|n [v e] ns rs E S IHS]; cbn; [reflexivity|].
      rewrite IHS; [|intros; eapply IH; eauto; now right | intros; apply TI; now right].
      rewrite app_nil_r. eapply IH; [now left | apply TI; now left | exact E]. }
    destruct H as [m il -> -> -> DF V|P NA CN _ _ _ _ _|_ _ _ V]; [|congruence|].
    + unfold visit_apply in V. destruct (existsb _ _); [discriminate|].
      destruct (map fst rs) as [|vm [|vi [|]]]; try discriminate V. injection V as <- <-. reflexivity.
    + destruct (visit_other_spec _ _ _ _ _ _ _ _ V N) as (_ & _ & ->). reflexivity.
Qed.

(** ** The datasets that are read *)
Section Reads.
Variable keys : list K.
Variable cache : option (K -> string -> bool).

Definition reads_in (m : node) : Prop := forall k, In (Some k) (inputs_of m) -> In k keys.

Lemma reads_in_node label (o : op B C K) inputs index :
  (forall k, o = Input (Some k) -> In k keys) -> (forall m, In m inputs -> reads_in m) ->
  reads_in (Node label o inputs index).
Proof.
  intros HO HI k I.
  assert (CO : In (Some k) (concat (map inputs_of inputs)) -> In k keys).
  { intros IC. apply in_concat in IC. destruct IC as (l & IL & IK). apply in_map_iff in IL.
    destruct IL as (m & <- & IM). eapply HI; eauto. }
  destruct o; cbn in I; auto. destruct I as [->|I]; auto.
Qed.

Lemma reads_ok : forall n : node, translated n -> forall v em, opt keys cache n = Some (v, em) ->
  reads_in (flat v) /\ forall f, fine v = Some f -> forall k m, In (k, m) f -> reads_in m.
Proof.
  induction n as [label o inputs index IH] using node_rect'. intros T v em O.
  destruct (opt_inv _ _ _ _ _ _ _ _ _ _ _ _ _ _ _ _ _ _ T O) as (rs & vs & e & S & H & N & _).
  assert (TI : forall n, In n inputs -> translated n) by (intros; eapply translated_inputs; eauto).
  assert (F : forall v', In v' (map fst rs) ->
    reads_in (flat v') /\ forall f, fine v' = Some f -> forall k m, In (k, m) f -> reads_in m).
  { intros v' I. apply in_map_iff in I. destruct I as ([v1 e1] & <- & IR).
    destruct (Forall2_in_r _ _ _ _ S IR) as (n & IN & E). eapply (IH n IN (TI n IN)); exact E. }
  assert (NI : forall k, o <> Input (Some k)) by (inversion T; congruence).
  assert (FLAT : forall i, reads_in (Node label o (map flat (map fst rs)) i)).
  { intros i. apply reads_in_node; [intros k E; destruct (NI _ E)|]. intros m I. apply in_map_iff in I.
    destruct I as (v' & <- & IV). apply F. exact IV. }
  destruct H as [m il -> -> -> DF V|P NA CN -> ONE NE' NO V|P NA ONE V].
  - unfold visit_apply in V. destruct (existsb _ _); [discriminate|].
    destruct (map fst rs) as [|vm [|vi [|]]] eqn:MR; try discriminate V. injection V as <- <-.
    cbn in N. injection N as <-. cbn [flat fine]. split; [apply (FLAT 0)|].
    intros f [= <-] k m' I. apply in_map_iff in I. destruct I as ([i k'] & E & II). injection E as <- <-.
    apply in_combine_r in II. apply reads_in_node; [discriminate|]. intros m1 [<-|[<-|[]]].
    + apply F. now left.
    + apply reads_in_node; [|intros ? []]. cbn. intros k'' [= <-]. exact II.
  - destruct (visit_part_spec _ _ _ _ _ _ _ _ _ _ _ _ _ _ _ _ _ NO V N) as (FL & _ & _ & _ & D).
    rewrite FL. split; [apply FLAT|]. intros f E.
    destruct D as [(AF & f' & E' & A)|(_ & E' & _)]; [|congruence]. rewrite E in E'. injection E' as <-.
    unfold apply_fine in A. destruct (hashed v) as [h|]; [|discriminate].
    destruct (sequence _) as [results|] eqn:SQ; [|discriminate]. injection A as <- <-.
    apply sequence_map in SQ. intros k m I. apply in_map_iff in I. destruct I as ([r e'] & RE & IR).
    cbn in RE. subst r. destruct (Forall2_in_r _ _ _ _ SQ IR) as ([i k'] & _ & AR). cbn in AR.
    assert (CMP : forall ins, sequence (map (at_key key_eqb k')
        (map (fun v => match fine v with Some f => f | None => [] end) (map fst rs))) = Some ins ->
        reads_in (Node (relabel label i) o ins 0)).
    { intros ins SI. apply sequence_map in SI. apply reads_in_node; [intros k0 E0; destruct (NI _ E0)|].
      intros m0 IM. destruct (Forall2_in_r _ _ _ _ SI IM) as (f0 & IF & AK).
      apply in_map_iff in IF. destruct IF as (v' & <- & IV).
      apply (at_key_spec key_eqb KEY) in AK. destruct (fine v') as [f1|] eqn:F1; [|destruct AK].
      destruct (F v' IV) as [_ G]. eapply G; eauto. }
    unfold apply_to_dataset in AR. destruct (op_coder cache_coder o).
    + destruct (hit cache k' _).
      * injection AR as <- <- <-. apply reads_in_node; [discriminate | intros ? []].
      * destruct (sequence (map (at_key key_eqb k') _)) as [ins|] eqn:SI; [|discriminate].
        injection AR as <- <- <-. apply CMP. reflexivity.
    + destruct (sequence (map (at_key key_eqb k') _)) as [ins|] eqn:SI; [|discriminate].
      injection AR as <- <- <-. apply CMP. reflexivity.
  - destruct (visit_other_spec _ _ _ _ _ _ _ _ V N) as (VF & _ & _). split; [|congruence].
    unfold visit_other in V.
    destruct (existsb (fun v => truthy (fine v) && prefer v) (map fst rs)).
    + destruct (sequence (map fine (map fst rs))) as [fines|] eqn:SQ; [|discriminate]. injection V as <- <-.
      apply (nth_outputs num_outputs) in N. subst v. cbn [flat]. apply sequence_map in SQ.
      apply reads_in_node; [intros k E; destruct (NI _ E)|]. intros m [<-|[]].
      apply reads_in_node; [discriminate|]. intros m IM. apply in_map_iff in IM. destruct IM as ([k m'] & <- & IM).
      apply in_concat in IM. destruct IM as (f & IF & IM).
      destruct (Forall2_in_r _ _ _ _ SQ IF) as (v' & IV & FV). destruct (F v' IV) as [_ G]. eapply G; eauto.
    + injection V as <- <-. apply (nth_outputs num_outputs) in N. subst v. apply FLAT.
Qed.
End Reads.

Lemma eval_reads (flatten : list PC -> PC) sem encode decode keys cache data data' : forall n : node,
  (forall k, In (Some k) (inputs_of n) -> data k = data' k) ->
  (In None (inputs_of n) -> forall k, In k keys -> data k = data' k) ->
  eval flatten sem encode decode data keys cache n = eval flatten sem encode decode data' keys cache n.
Proof.
  induction n as [label o inputs index IH] using node_rect'. intros S A. cbn [eval].
  assert (SUB : forall m x, In m inputs -> In x (inputs_of m) -> In x (inputs_of (Node label o inputs index))).
  { intros m x IM IX. assert (In x (concat (map inputs_of inputs))).
    { apply in_concat. exists (inputs_of m). split; [now apply in_map | exact IX]. }
    destruct o; cbn; auto. }
  assert (E : map (eval flatten sem encode decode data keys cache) inputs =
              map (eval flatten sem encode decode data' keys cache) inputs).
  { apply map_ext_in. intros m I. apply IH; [exact I| |].
    - intros k IK. apply S. eauto.
    - intros IN. apply A. eauto. }
  rewrite E. destruct o as [[k|]| | | | | |]; try reflexivity.
  - apply S. now left.
  - f_equal. apply map_ext_in. apply A. now left.
Qed.

Lemma reported_enough (flatten : list PC -> PC) sem encode decode keys cache data data' (n : node) :
  reads_in keys n ->
  (forall k, In k (analysis_dataset_keys keys n) -> data k = data' k) ->
  eval flatten sem encode decode data keys cache n = eval flatten sem encode decode data' keys cache n.
Proof.
  intros RI AG. unfold analysis_dataset_keys in AG. apply eval_reads.
  - intros k I. apply AG. destruct (existsb _ _); [auto|].
    apply in_concat. exists [k]. split; [|now left]. apply in_map_iff. exists (Some k). auto.
  - intros I k IK. apply AG.
    assert (existsb (fun k : option K => match k with Some _ => false | None => true end) (inputs_of n) = true) as ->.
    { apply existsb_exists. eauto. }
    exact IK.
Qed.

Lemma covered keys (cache : K -> string -> option PC) root v emitted :
  translated root ->
  run partitionable cache_coder num_outputs class_name fields tensor_path sha1 cache_version key_eqb is_cached
    keys (Some cache) root = Some (v, emitted) ->
  forall n c k, occurs n root -> first_phase partitionable n -> cacheable cache_coder n c ->
  In k keys -> is_cached k = true ->
  exists key, has_entry_key partitionable class_name fields tensor_path sha1 cache_version n key /\
    (cache k key <> None \/ exists m, In (k, key, m) emitted).
Proof.
  intros T R n c k O F CA IK IC.
  destruct (coverage partitionable cache_coder num_outputs key_eqb is_cached class_name fields tensor_path sha1
      cache_version keys (Some (entries cache)) root T) with (v := v) (em := emitted) (n' := n) (c := c) (k := k)
    as (key & HK & D); auto; [discriminate|].
  exists key. split; [exact HK|]. destruct D as [D|D]; [left | now right].
  cbn in D. unfold entries in D. destruct (cache k key); [discriminate | discriminate D].
Qed.

Lemma written_enough (flatten : list PC -> PC) sem encode decode data keys
    (cache : K -> string -> option PC) root v emitted :
  NoDup keys -> translated root -> no_nested_caches partitionable cache_coder root ->
  (exists label b inputs index, root = Node label (Op b) inputs index /\ partitionable b = false) ->
  run partitionable cache_coder num_outputs class_name fields tensor_path sha1 cache_version key_eqb is_cached
    keys (Some cache) root = Some (v, emitted) ->
  forall data', (forall k, In k (analysis_dataset_keys keys (flat v)) -> data k = data' k) ->
  forall k key m, In (k, key, m) emitted ->
  eval flatten sem encode decode data' keys cache m = eval flatten sem encode decode data keys cache m.
Proof.
  intros ND T NN (label & b & inputs & index & RE & PB) R data' AG k key m I.
  pose proof (shape_ok _ _ _ _ _ _ _ _ _ _ _ _ _ T _ _ R) as SH.
  destruct (emitted_used partitionable cache_coder num_outputs key_eqb is_cached class_name fields tensor_path
    sha1 cache_version KEY keys (Some (entries cache)) ND root NN root (occurs_here root) T v emitted R _ I)
    as (x & (l & c & E) & Q).
  assert (FV : truthy (fine v) = false).
  { destruct (fine v) as [f|] eqn:F; [|reflexivity]. exfalso.
    destruct (sh_fine _ _ _ _ _ _ _ _ _ _ SH f F) as (_ & FP & _). subst root. inversion FP; subst.
    cbn in H2. congruence. }
  rewrite FV in Q. cbn in E. subst m. cbn [eval map nth]. f_equal. symmetry.
  destruct (reads_ok keys (Some (entries cache)) root T v emitted R) as [RI _].
  pose proof (inputs_of_occurs _ _ Q) as INC.
  apply eval_reads.
  - intros k' IK. apply AG. unfold analysis_dataset_keys. apply INC in IK.
    destruct (existsb _ _); [now apply RI|].
    apply in_concat. exists [k']. split; [|now left]. apply in_map_iff. exists (Some k'). auto.
  - intros IN k' IK. apply AG. unfold analysis_dataset_keys. apply INC in IN.
    assert (existsb (fun k : option K => match k with Some _ => false | None => true end) (inputs_of (flat v)) = true) as ->.
    { apply existsb_exists. eauto. }
    exact IK.
Qed.

End History.
