(** * Proofs about packed combiners *)
From Coq Require Import String.
From Coq Require Import List Arith Bool Lia Permutation.
From Verif Require Import CombineModel CombineProofs PackModel PackSpec.
Import ListNotations.
Local Notation length := List.length.

Lemma sequence_map_some {A} (l : list A) : sequence (map Some l) = Some l.
Proof. induction l as [|a l IH]; cbn; [reflexivity|]. now rewrite IH. Qed.

Lemma sequence_inv {A} (l : list (option A)) r : sequence l = Some r -> l = map Some r.
Proof.
  revert r. induction l as [|[a|] l IH]; cbn; intros r H; [now injection H as <-| |discriminate].
  destruct (sequence l) as [t|]; [|discriminate]. injection H as <-. cbn. now rewrite (IH t).
Qed.

Lemma find_app {A} (f : A -> bool) l r : find f (l ++ r) = match find f l with Some a => Some a | None => find f r end.
Proof. induction l as [|a l IH]; cbn; [reflexivity|]. destruct (f a); auto. Qed.

(** Without repeated keys, a lookup finds the item at the position of the key. *)
Lemma dict_get_nth {A} (ks : list string) (vs : list A) i k v :
  NoDup ks -> nth_error ks i = Some k -> nth_error vs i = Some v -> dict_get (combine ks vs) k = Some v.
Proof.
  unfold dict_get. revert vs i. induction ks as [|k0 ks IH]; intros vs i ND K V; [destruct i; discriminate|].
  inversion ND as [|? ? NI ND']; subst. destruct vs as [|v0 vs]; [destruct i; discriminate|].
  cbn [combine rev]. rewrite find_app. destruct i as [|i]; cbn in K, V.
  - injection K as ->. injection V as ->.
    assert (find (fun kv => String.eqb (fst kv) k) (rev (combine ks vs)) = None) as ->.
    { destruct (find _ _) as [[k' v']|] eqn:F; [|reflexivity]. apply find_some in F. destruct F as [I E].
      apply String.eqb_eq in E. cbn in E. subst k'. apply in_rev in I. apply in_combine_l in I. contradiction. }
    cbn. now rewrite String.eqb_refl.
  - specialize (IH vs i ND' K V). destruct (find _ (rev (combine ks vs))) as [[k' v']|]; [exact IH | discriminate].
Qed.

Lemma nth_error_set_nth {A} (l : list A) i j a : i < length l ->
  nth_error (set_nth i a l) j = if Nat.eqb j i then Some a else nth_error l j.
Proof.
  revert i j. induction l as [|b l IH]; intros i j L; [cbn in L; lia|].
  destruct i as [|i], j as [|j]; cbn; try reflexivity. apply IH. cbn in L. lia.
Qed.

Lemma set_nth_length {A} (l : list A) i a : length (set_nth i a l) = length l.
Proof. revert i. induction l as [|b l IH]; intros [|i]; cbn; auto. Qed.

Section Proofs.
Context {Obj : Type}.
Notation value := (value Obj).
Implicit Types (ops : list (@combiner_op Obj)) (o : @combiner_op Obj).

Lemma zip_add_nth ops : forall acc el i o a e,
  nth_error ops i = Some o -> nth_error acc i = Some a -> nth_error el i = Some e ->
  nth_error (zip_add ops acc el) i = Some (add_input (op_combiner o) a e).
Proof.
  induction ops as [|o0 ops IH]; intros [|a0 acc] [|e0 el] [|i] o a e HO HA HE; cbn in *; try discriminate.
  - congruence.
  - eauto.
Qed.

Lemma zip_add_length ops : forall acc el, length acc = length ops -> length el = length ops ->
  length (zip_add ops acc el) = length ops.
Proof.
  induction ops as [|o ops IH]; intros [|a acc] [|e el] HA HE; cbn in *; try discriminate; auto.
Qed.

Lemma nth_error_combine_seq ops k i o : nth_error ops i = Some o ->
  nth_error (combine ops (seq k (length ops))) i = Some (o, k + i).
Proof.
  revert k i. induction ops as [|o0 ops IH]; intros k i H; [destruct i; discriminate|].
  destruct i as [|i]; cbn in *; [rewrite Nat.add_0_r; congruence|].
  rewrite (IH (S k) i H), Nat.add_succ_r. reflexivity.
Qed.

Lemma zip_merge_nth ops accs i o : nth_error ops i = Some o ->
  nth_error (zip_merge ops accs) i = Some (merge_accumulators (op_combiner o) (column accs i)).
Proof.
  intros H. unfold zip_merge. rewrite nth_error_map, (nth_error_combine_seq ops 0 i o H). reflexivity.
Qed.

Lemma zip_merge_length ops accs : length (zip_merge ops accs) = length ops.
Proof. unfold zip_merge. rewrite map_length, combine_length, seq_length. lia. Qed.

(** [for_op o l r]: the inputs [r] of the operation, from the elements [l]. *)
Section Mode.
Variable mode : bool.
Variable ops : list (@combiner_op Obj).
Variable for_op : @combiner_op Obj -> list value -> list value -> Prop.
Hypothesis for_nil : forall o, for_op o [] [].
Hypothesis for_app : forall o l r l' r', for_op o l r -> for_op o l' r' -> for_op o (l ++ l') (r ++ r').

Notation orun o := (run (create_accumulator (op_combiner o)) (wrapper_add mode (op_combiner o))
  (merge_accumulators (op_combiner o))).

Definition represents (l : list value) (acc : list value) : Prop :=
  length acc = length ops /\
  forall i o, nth_error ops i = Some o ->
    exists s, for_op o l (elements s) /\ nth_error acc i = Some (orun o s).

Definition bundled (l : list value) (acc : list value) : Prop :=
  length acc = length ops /\
  forall i o, nth_error ops i = Some o ->
    exists xs, for_op o l xs /\ nth_error acc i = Some (orun o (Bundle xs)).

Lemma bundled_represents l acc : bundled l acc -> represents l acc.
Proof. intros [L H]. split; [exact L|]. intros i o HO. destruct (H i o HO) as (xs & F & N). exists (Bundle xs). auto. Qed.

Variable ok : value -> Prop.
Hypothesis add_ok : forall l acc e, ok e -> bundled l acc ->
  exists acc', packed_add mode ops acc e = Some acc' /\ bundled (l ++ [e]) acc'.

Lemma create_bundled : bundled [] (packed_create ops).
Proof.
  split; [apply map_length|]. intros i o HO. exists []. split; [apply for_nil|].
  unfold packed_create. rewrite nth_error_map, HO. reflexivity.
Qed.

Notation padd := (fun a e => match a with Some a => packed_add mode ops a e | None => None end).

Lemma fold_bundled xs : forall l acc, Forall ok xs -> bundled l acc ->
  exists acc', fold_left padd xs (Some acc) = Some acc' /\ bundled (l ++ xs) acc'.
Proof.
  induction xs as [|x xs IH]; intros l acc F B; cbn [fold_left].
  - exists acc. rewrite app_nil_r. auto.
  - inversion F as [|? ? OK F']; subst. destruct (add_ok l acc x OK B) as (acc1 & E & B1). rewrite E.
    destruct (IH (l ++ [x]) acc1 F' B1) as (acc' & E' & B'). exists acc'. rewrite <- app_assoc in B'. auto.
Qed.

Lemma column_represents ls accs i o : Forall2 represents ls accs -> nth_error ops i = Some o ->
  exists ss, for_op o (concat ls) (flat_map elements ss) /\ column accs i = map (orun o) ss.
Proof.
  intros F HO. induction F as [|l acc ls accs [L H] F IH]; cbn.
  - exists []. split; [apply for_nil | reflexivity].
  - destruct IH as (ss & G & E). destruct (H i o HO) as (s & Gs & N). exists (s :: ss). cbn.
    split; [now apply for_app|]. f_equal; [|exact E]. now apply nth_error_nth with (d := PyNone) in N.
Qed.

Lemma zip_merge_represents ls accs : ls <> [] -> Forall2 represents ls accs ->
  represents (concat ls) (zip_merge ops accs).
Proof.
  intros NE F. split; [apply zip_merge_length|]. intros i o HO.
  destruct (column_represents ls accs i o F HO) as (ss & G & E).
  destruct ss as [|s ss].
  { inversion F; subst; [congruence | discriminate E]. }
  exists (Merged s ss). cbn [elements]. split; [exact G|].
  rewrite (zip_merge_nth ops accs i o HO), E. reflexivity.
Qed.

Lemma Forall2_firstn {A B} (R : A -> B -> Prop) l r n : Forall2 R l r -> Forall2 R (firstn n l) (firstn n r).
Proof. intros F. revert n. induction F; intros [|n]; cbn; constructor; auto. Qed.
Lemma Forall2_skipn {A B} (R : A -> B -> Prop) l r n : Forall2 R l r -> Forall2 R (skipn n l) (skipn n r).
Proof. intros F. revert n. induction F; intros [|n]; cbn; auto. Qed.

Lemma merge_groups_represents fuel size : 0 < size -> forall l acc ls accs,
  length accs <= fuel -> represents l acc -> Forall2 represents ls accs ->
  represents (l ++ concat ls) (merge_groups fuel size ops acc accs).
Proof.
  intros SZ. induction fuel as [|fuel IH]; intros l acc ls accs LE R F.
  - destruct accs; [|cbn in LE; lia]. inversion F; subst. cbn. now rewrite app_nil_r.
  - cbn [merge_groups]. destruct accs as [|a accs]; [inversion F; subst; cbn; now rewrite app_nil_r|].
    assert (FS : Forall2 represents (firstn size ls) (firstn size (a :: accs))) by now apply Forall2_firstn.
    assert (FR : Forall2 represents (skipn size ls) (skipn size (a :: accs))) by now apply Forall2_skipn.
    assert (E : l ++ concat ls = concat (l :: firstn size ls) ++ concat (skipn size ls)).
    { cbn. rewrite <- app_assoc, <- concat_app, firstn_skipn. reflexivity. }
    rewrite E. apply IH; [|apply zip_merge_represents; [discriminate | constructor; assumption] | exact FR].
    rewrite skipn_length. cbn [length] in *. lia.
Qed.

Lemma packed_merge_represents size ls accs : 0 < size -> ls <> [] -> Forall2 represents ls accs ->
  represents (concat ls) (packed_merge size ops accs).
Proof.
  intros SZ NE F. inversion F as [|l acc ls' accs' R F']; subst; [congruence|].
  cbn [packed_merge concat]. now apply merge_groups_represents.
Qed.

Lemma packed_run_represents size s : 0 < size -> Forall ok (elements s) ->
  exists acc, run (Some (packed_create ops)) padd (fun l => option_map (packed_merge size ops) (sequence l)) s = Some acc /\
    represents (elements s) acc.
Proof.
  intros SZ. induction s as [xs|s0 rest IH0 IHr] using sched_ind'; cbn [elements]; intros F.
  - destruct (fold_bundled xs [] _ F create_bundled) as (acc & E & B). exists acc.
    split; [exact E | now apply bundled_represents].
  - apply Forall_app in F. destruct F as [F0 Fr]. destruct (IH0 F0) as (a0 & E0 & R0).
    assert (exists accs, map (run (Some (packed_create ops)) padd (fun l => option_map (packed_merge size ops) (sequence l))) rest
       = map Some accs /\ Forall2 represents (map elements rest) accs) as (accs & Er & Rr).
    { clear - IHr Fr. induction IHr as [|s rest IHs _ IH]; cbn; [exists []; split; [reflexivity | constructor]|].
      cbn in Fr. apply Forall_app in Fr. destruct Fr as [Fs Fr]. destruct (IHs Fs) as (a & E & R).
      destruct (IH Fr) as (accs & E' & R'). exists (a :: accs). cbn. rewrite E, E'. split; [reflexivity | now constructor]. }
    cbn [run]. rewrite E0, Er. change (Some a0 :: map Some accs) with (map Some (a0 :: accs)). rewrite sequence_map_some.
    cbn [option_map]. exists (packed_merge size ops (a0 :: accs)). split; [reflexivity|].
    rewrite flat_map_concat_map. change (elements s0 ++ concat (map elements rest)) with (concat (elements s0 :: map elements rest)).
    apply packed_merge_represents; [exact SZ | discriminate | constructor; assumption].
Qed.

Lemma packed_run size s : 0 < size -> NoDup (map op_label ops) -> Forall ok (elements s) ->
  exists items, run_packed mode size ops s = Some (Dict items) /\ map fst items = map op_label ops /\
    forall o, In o ops -> exists s', for_op o (elements s) (elements s') /\
      dict_get items (op_label o) = Some (run_wrapper mode (op_combiner o) s').
Proof.
  intros SZ ND F. destruct (packed_run_represents size s SZ F) as (acc & E & L & R).
  unfold run_packed. rewrite E. cbn [option_map]. unfold packed_extract. eexists. split; [reflexivity|]. split.
  - clear - L. revert acc L. induction ops as [|o ops' IH]; intros [|a acc] L; cbn in *; try discriminate; [reflexivity|].
    f_equal. apply IH. lia.
  - intros o I. apply In_nth_error in I. destruct I as (i & HO). destruct (R i o HO) as (s' & G & N).
    exists s'. split; [exact G|]. eapply dict_get_nth with (i := i); [exact ND | now rewrite nth_error_map, HO|].
    rewrite nth_error_map.
    assert (nth_error (combine ops acc) i = Some (o, orun o s')) as ->; [|reflexivity].
    clear - HO N. revert acc i HO N. induction ops as [|o0 ops' IH]; intros [|a acc] [|i] HO N; cbn in *; try discriminate; [congruence|auto].
Qed.
End Mode.

(** ** Accumulating inputs *)

Lemma keys_found (items : list (string * value)) keys : (forall k, In k keys -> dict_get items k <> None) ->
  exists vs, map (dict_get items) keys = map Some vs.
Proof.
  induction keys as [|k keys IH]; intros H; [exists []; reflexivity|].
  destruct (dict_get items k) as [v|] eqn:E; [|exfalso; apply (H k); [now left | exact E]].
  destruct IH as (vs & E'); [intros; apply H; now right|]. exists (v :: vs). cbn. now rewrite E, E'.
Qed.

Lemma tuples_found (items : list (string * value)) ops : (forall o k, In o ops -> In k (op_keys o) -> dict_get items k <> None) ->
  exists tuples, map (fun o => sequence (map (dict_get items) (op_keys o))) ops = map Some tuples /\
    Forall2 (fun o vs => map (dict_get items) (op_keys o) = map Some vs) ops tuples.
Proof.
  induction ops as [|o ops IH]; intros H; [exists []; split; [reflexivity | constructor]|].
  destruct (keys_found items (op_keys o)) as (vs & E); [intros k I; apply (H o k); [now left | exact I]|].
  destruct IH as (tuples & E' & F); [intros o' k I; apply (H o' k); now right|].
  exists (vs :: tuples). cbn. rewrite E, E', sequence_map_some. split; [reflexivity | now constructor].
Qed.

Lemma accumulate_add ops l acc e : dict_with ops e ->
  bundled false ops (fun o => Forall2 (is_input o)) l acc ->
  exists acc', packed_add false ops acc e = Some acc' /\ bundled false ops (fun o => Forall2 (is_input o)) (l ++ [e]) acc'.
Proof.
  intros (items & -> & K) [L B]. destruct (tuples_found items ops K) as (tuples & E & F).
  cbn [packed_add]. rewrite E, sequence_map_some. cbn [option_map].
  eexists. split; [reflexivity|]. split.
  { apply zip_add_length; [exact L|]. rewrite map_length. clear - F. induction F; cbn; auto. }
  intros i o HO. destruct (B i o HO) as (xs & G & N).
  assert (exists vs, nth_error tuples i = Some vs /\ map (dict_get items) (op_keys o) = map Some vs) as (vs & NV & EV).
  { clear - F HO. revert i HO. induction F as [|o0 vs0 ops tuples E F IH]; intros [|i] HO; try discriminate; cbn in *; [|eauto].
    injection HO as <-. eauto. }
  exists (xs ++ [Tuple vs]). split.
  - apply Forall2_app; [exact G|]. constructor; [|constructor]. exists items, vs. auto.
  - rewrite (zip_add_nth ops acc (map Tuple tuples) i o _ (Tuple vs) HO N) by (now rewrite nth_error_map, NV).
    cbn [run]. rewrite fold_left_app. reflexivity.
Qed.

Lemma packed_accumulate ops size s : 0 < size -> NoDup (map op_label ops) -> Forall (dict_with ops) (elements s) ->
  exists items, run_packed false size ops s = Some (Dict items) /\ map fst items = map op_label ops /\
    forall o, In o ops -> exists s', Forall2 (is_input o) (elements s) (elements s') /\
      dict_get items (op_label o) = Some (run_wrapper false (op_combiner o) s').
Proof.
  intros SZ ND F. apply (packed_run false ops (fun o => Forall2 (is_input o))) with (ok := dict_with ops); auto.
  - intros o l r l' r'. apply Forall2_app.
  - intros l acc e. apply accumulate_add.
Qed.

(** ** Merging accumulators *)
Lemma accumulators_app key (l r : list value) : accumulators_for key (l ++ r) = accumulators_for key l ++ accumulators_for key r.
Proof. apply flat_map_app. Qed.

Lemma index_of ops o i : NoDup (map (fun o => hd ""%string (op_keys o)) ops) -> nth_error ops i = Some o ->
  label_to_index ops (hd ""%string (op_keys o)) = Some i.
Proof.
  intros ND HO. unfold label_to_index. apply dict_get_nth with (i := i); [exact ND | now rewrite nth_error_map, HO|].
  rewrite nth_error_nth' with (d := 0); [|rewrite seq_length; apply nth_error_Some; congruence].
  rewrite seq_nth by (apply nth_error_Some; congruence). reflexivity.
Qed.

Lemma merge_add ops l acc e : NoDup (map (fun o => hd ""%string (op_keys o)) ops) -> keyed ops e ->
  bundled true ops (fun o l r => r = accumulators_for (hd ""%string (op_keys o)) l) l acc ->
  exists acc', packed_add true ops acc e = Some acc' /\
    bundled true ops (fun o l r => r = accumulators_for (hd ""%string (op_keys o)) l) (l ++ [e]) acc'.
Proof.
  intros ND (o & a & I & ->) [L B]. apply In_nth_error in I. destruct I as (i & HO).
  cbn [packed_add]. rewrite (index_of ops o i ND HO), HO.
  destruct (B i o HO) as (xs & -> & N). rewrite N. eexists. split; [reflexivity|]. split; [now rewrite set_nth_length|].
  intros j o' HO'. eexists. split; [reflexivity|].
  rewrite nth_error_set_nth by (rewrite L; apply nth_error_Some; congruence).
  rewrite accumulators_app. cbn [accumulators_for flat_map]. rewrite app_nil_r.
  destruct (Nat.eqb_spec j i) as [->|NE].
  - assert (o' = o) as -> by congruence. rewrite String.eqb_refl. cbn [run]. rewrite fold_left_app. reflexivity.
  - destruct (B j o' HO') as (ys & -> & N'). destruct (String.eqb_spec (hd ""%string (op_keys o)) (hd ""%string (op_keys o'))) as [E|_].
    + exfalso. apply NE. eapply NoDup_nth_error; [exact ND| |].
      * rewrite map_length. apply nth_error_Some. congruence.
      * rewrite !nth_error_map, HO, HO'. cbn. now rewrite E.
    + rewrite app_nil_r. exact N'.
Qed.

Lemma packed_merging ops size s : 0 < size -> NoDup (map op_label ops) -> NoDup (map (fun o => hd ""%string (op_keys o)) ops) ->
  Forall (keyed ops) (elements s) ->
  exists items, run_packed true size ops s = Some (Dict items) /\ map fst items = map op_label ops /\
    forall o, In o ops -> exists s', elements s' = accumulators_for (hd ""%string (op_keys o)) (elements s) /\
      dict_get items (op_label o) = Some (run_wrapper true (op_combiner o) s').
Proof.
  intros SZ ND ND' F.
  apply (packed_run true ops (fun o l r => r = accumulators_for (hd ""%string (op_keys o)) l)) with (ok := keyed ops); auto.
  - intros o l r l' r' -> ->. symmetry. apply accumulators_app.
  - intros l acc e. now apply merge_add.
Qed.

(** ** Combiners whose result does not depend on the schedule *)
Lemma Forall2_permutation {A B} (R : A -> B -> Prop) l l' : Permutation l l' -> forall r, Forall2 R l r ->
  exists r', Permutation r r' /\ Forall2 R l' r'.
Proof.
  induction 1 as [|x l l' P IH|x y l|l l' l'' P IH P' IH']; intros r F.
  - inversion F. subst. exists []. split; constructor.
  - inversion F as [|? b ? bs HB F']. subst. destruct (IH bs F') as (r' & P' & G). exists (b :: r'). split; [now constructor|now constructor].
  - inversion F as [|? b ? bs HB F']. subst. inversion F' as [|? b' ? bs' HB' F'']. subst.
    exists (b' :: b :: bs'). split; [apply perm_swap|]. repeat constructor; auto.
  - destruct (IH r F) as (r' & P1 & F1). destruct (IH' r' F1) as (r'' & P2 & F2). exists r''. split; [now transitivity r'|exact F2].
Qed.

Lemma is_input_functional (o : @combiner_op Obj) e a b : is_input o e a -> is_input o e b -> a = b.
Proof.
  intros (items & vs & -> & E & ->) (items' & vs' & F & E' & ->). injection F as <-. rewrite E in E'. f_equal.
  clear - E'. revert vs' E'. induction vs as [|v vs IH]; intros [|v' vs'] E'; cbn in E'; try discriminate; [reflexivity|].
  injection E' as -> E'. f_equal. now apply IH.
Qed.
Lemma inputs_functional (o : @combiner_op Obj) l : forall a b, Forall2 (is_input o) l a -> Forall2 (is_input o) l b -> a = b.
Proof.
  induction l as [|e l IH]; intros a b F G; inversion F; inversion G; subst; [reflexivity|]. f_equal; [eapply is_input_functional; eassumption|now apply IH].
Qed.

Lemma packed_accumulate_any ops size s o s' : 0 < size -> NoDup (map op_label ops) -> Forall (dict_with ops) (elements s) ->
  In o ops -> any_schedule false o ->
  (exists l, Permutation l (elements s) /\ Forall2 (is_input o) l (elements s')) ->
  exists items, run_packed false size ops s = Some (Dict items) /\
    dict_get items (op_label o) = Some (run_wrapper false (op_combiner o) s').
Proof.
  intros SZ ND F I A (l & P & G). destruct (packed_accumulate ops size s SZ ND F) as (items & E & _ & H).
  destruct (H o I) as (s1 & F1 & E1). exists items. split; [exact E|]. rewrite E1. f_equal. apply A.
  destruct (Forall2_permutation _ _ _ P _ G) as (r & P' & G').
  rewrite (inputs_functional _ _ _ _ F1 G'). now symmetry.
Qed.

Lemma accumulators_permutation key (l l' : list value) : Permutation l l' -> Permutation (accumulators_for key l) (accumulators_for key l').
Proof. apply Permutation_flat_map. Qed.

Lemma packed_merging_any ops size s o s' : 0 < size -> NoDup (map op_label ops) -> NoDup (map (fun o => hd ""%string (op_keys o)) ops) ->
  Forall (keyed ops) (elements s) -> In o ops -> any_schedule true o ->
  Permutation (elements s') (accumulators_for (hd ""%string (op_keys o)) (elements s)) ->
  exists items, run_packed true size ops s = Some (Dict items) /\
    dict_get items (op_label o) = Some (run_wrapper true (op_combiner o) s').
Proof.
  intros SZ ND ND' F I A P. destruct (packed_merging ops size s SZ ND ND' F) as (items & E & _ & H).
  destruct (H o I) as (s1 & F1 & E1). exists items. split; [exact E|]. rewrite E1. f_equal. apply A. rewrite F1. now symmetry.
Qed.

(** ** Packed combines that do not raise *)
Lemma fold_none {A B} (f : A -> B -> option A) l : fold_left (fun a e => match a with Some a => f a e | None => None end) l None = None.
Proof. induction l; auto. Qed.

Lemma sequence_all {A} (l : list (option A)) r : sequence l = Some r -> Forall (fun x : option A => x <> None) l.
Proof. intros E. rewrite (sequence_inv _ _ E). apply Forall_forall. intros x I. apply in_map_iff in I. destruct I as (a & <- & _). discriminate. Qed.

Lemma run_some {A B} (ok : B -> Prop) (mk : A) (add : A -> B -> option A) mrg s :
  (forall a e a', add a e = Some a' -> ok e) ->
  run (Some mk) (fun a e => match a with Some a => add a e | None => None end) (fun l => option_map mrg (sequence l)) s <> None ->
  Forall ok (elements s).
Proof.
  intros H. induction s as [xs|s0 rest IH0 IH] using sched_ind'; cbn [run elements]; intros NN.
  - revert mk NN. induction xs as [|x xs IH]; intros mk NN; constructor; cbn [fold_left] in NN.
    + destruct (add mk x) as [a|] eqn:E; [eapply H; exact E|]. now rewrite fold_none in NN.
    + destruct (add mk x) as [a|] eqn:E; [apply (IH a NN)|]. now rewrite fold_none in NN.
  - destruct (sequence _) as [r|] eqn:E; [|now elim NN]. apply sequence_all in E. inversion E as [|? ? E0 E']. subst.
    apply Forall_app. split; [now apply IH0|].
    apply Forall_forall. intros e I. apply in_flat_map in I. destruct I as (s & I & J).
    rewrite Forall_forall in E', IH. specialize (IH s I). rewrite Forall_forall in IH. apply IH; [|exact J].
    apply E'. now apply in_map.
Qed.

Lemma accumulate_some ops size s r : run_packed false size ops s = Some r -> Forall (dict_with ops) (elements s).
Proof.
  intros E. unfold run_packed in E. eapply run_some; [|intros N; rewrite N in E; discriminate].
  intros a e a' EA. cbn [packed_add] in EA. destruct e as [| | |items|]; try discriminate. exists items. split; [reflexivity|].
  intros o k I J. destruct (sequence _) as [t|] eqn:E1; [|discriminate]. apply sequence_all in E1.
  rewrite Forall_forall in E1. specialize (E1 (sequence (map (dict_get items) (op_keys o)))).
  assert (sequence (map (dict_get items) (op_keys o)) <> None) as NN.
  { apply E1. apply in_map_iff. now exists o. }
  destruct (sequence (map (dict_get items) (op_keys o))) as [t'|] eqn:E2; [|congruence]. apply sequence_all in E2.
  rewrite Forall_forall in E2. apply E2. now apply in_map.
Qed.

Lemma label_to_index_In (ops : list (@combiner_op Obj)) k i : label_to_index ops k = Some i -> exists o, In o ops /\ hd ""%string (op_keys o) = k.
Proof.
  unfold label_to_index, dict_get. intros E. destruct (find _ _) as [[k' j]|] eqn:F; [|discriminate]. apply find_some in F.
  destruct F as [F EQ]. apply String.eqb_eq in EQ. cbn in EQ. subst k'. rewrite <- in_rev in F. apply in_combine_l in F.
  apply in_map_iff in F. destruct F as (o & <- & I). now exists o.
Qed.

Lemma merging_some ops size s r : run_packed true size ops s = Some r -> Forall (keyed ops) (elements s).
Proof.
  intros E. unfold run_packed in E. eapply run_some; [|intros N; rewrite N in E; discriminate].
  intros a e a' EA. cbn [packed_add] in EA. destruct e as [| |[|[| k | | |] [|v [|]]]| |]; try discriminate.
  destruct (label_to_index ops k) as [i|] eqn:L; [|discriminate]. apply label_to_index_In in L. destruct L as (o & I & <-).
  exists o, v. auto.
Qed.
End Proofs.
