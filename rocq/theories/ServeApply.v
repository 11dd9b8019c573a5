(** * Proofs about applying a transform graph: inputs, outputs and finalization *)
From Coq Require Import String List Arith Bool Lia Permutation.
From Verif Require Import SortModel SortProofs ServeModel ServeSpec ServeProofs.
Import ListNotations.
Local Open Scope list_scope.
Local Notation length := List.length.

(** ** Flattening dicts *)
Lemma insert_keys {A} (e : string * A) d :
  map fst (insert_sorted (fun a b => bytes_leb (fst a) (fst b)) e d) = insert_sorted bytes_leb (fst e) (map fst d).
Proof. induction d as [|x d IH]; cbn; [reflexivity|]. destruct (bytes_leb (fst e) (fst x)); cbn; [reflexivity|]. now rewrite IH. Qed.
Lemma by_key_keys {A} (d : list (string * A)) : map fst (by_key d) = py_sorted bytes_leb (map fst d).
Proof. unfold by_key, py_sorted. induction d as [|e d IH]; cbn [fold_right map]; [reflexivity|]. rewrite insert_keys. f_equal. exact IH. Qed.
Lemma by_key_perm {A} (d : list (string * A)) : Permutation (by_key d) d.
Proof. apply py_sorted_perm. Qed.
Lemma by_key_same {A B} (d : list (string * A)) (e : list (string * B)) : Permutation (map fst d) (map fst e) ->
  map fst (by_key d) = map fst (by_key e).
Proof.
  intros P. rewrite !by_key_keys. apply py_sorted_perm_eq; [exact bytes_leb_total|exact bytes_leb_trans|exact P|].
  intros x y _ _. apply bytes_leb_antisym.
Qed.
Lemma nodup_app_l {A} (a b : list A) : NoDup (a ++ b) -> NoDup a.
Proof. induction a as [|x a IH]; cbn; intros N; [constructor|]. inversion N; subst. constructor; [|auto]. intros I. apply H1, in_app_iff. now left. Qed.
Lemma nodup_app_r {A} (a b : list A) : NoDup (a ++ b) -> NoDup b.
Proof. induction a as [|x a IH]; cbn; intros N; [exact N|]. inversion N; subst. auto. Qed.
Lemma same_keys_forall2 {A B} : forall (d : list (string * A)) (e : list (string * B)), map fst d = map fst e -> Forall2 (fun a b => fst a = fst b) d e.
Proof. induction d as [|a d IH]; intros [|b e] H; try discriminate; constructor; injection H as H1 H2; auto. Qed.
Lemma combine_app {A B} (a1 a2 : list A) (b1 b2 : list B) : length a1 = length b1 -> combine (a1 ++ a2) (b1 ++ b2) = combine a1 b1 ++ combine a2 b2.
Proof. revert b1. induction a1 as [|x a1 IH]; intros [|y b1] H; try discriminate; cbn; [reflexivity|]. f_equal. apply IH. now injection H. Qed.
Lemma combine_fst {A B} (a : list A) (b : list B) : length a = length b -> map fst (combine a b) = a.
Proof. revert b. induction a as [|x a IH]; intros [|y b] H; try discriminate; cbn; [reflexivity|]. f_equal. apply IH. now injection H. Qed.
Lemma forall2_impl {A B} (P Q : A -> B -> Prop) a b : (forall x y, In x a -> P x y -> Q x y) -> Forall2 P a b -> Forall2 Q a b.
Proof. intros H F. induction F; constructor; [apply H; [now left|assumption]|]. apply IHF. intros u v I. apply H. now right. Qed.
Lemma combine_forall2 {A B} (a : list A) (b : list B) : length a = length b -> Forall2 (fun x y => In (x, y) (combine a b)) a b.
Proof.
  revert b. induction a as [|x a IH]; intros [|y b] H; try discriminate; cbn; constructor; [now left|].
  assert (F : Forall2 (fun x0 y0 => In (x0, y0) (combine a b)) a b) by (apply IH; now injection H).
  eapply forall2_impl; [|exact F]. intros u v _ I. now right.
Qed.
Lemma forall2_len {A B} (P : A -> B -> Prop) a b : Forall2 P a b -> length a = length b.
Proof. induction 1; cbn; congruence. Qed.
Lemma nodup_key {A} (d : list (string * A)) k x y : NoDup (map fst d) -> In (k, x) d -> In (k, y) d -> x = y.
Proof.
  induction d as [|[k0 z] d IH]; cbn; [tauto|]. intros N. inversion N as [|? ? Nk Nd]; subst. intros [E1|I1] [E2|I2].
  - congruence.
  - injection E1 as -> ->. exfalso. apply Nk. now apply (in_map fst) in I2.
  - injection E2 as -> ->. exfalso. apply Nk. now apply (in_map fst) in I1.
  - auto.
Qed.

Lemma aligned_pairs {A B} : forall (s1 : list (string * list A)) (s2 : list (string * list B)),
  Forall2 (fun a b => fst a = fst b /\ length (snd a) = length (snd b)) s1 s2 -> NoDup (map fst s1) ->
  length (flat_map snd s1) = length (flat_map snd s2) /\
  forall k a b, In (k, a) s1 -> In (k, b) s2 -> Forall2 (fun x y => In (x, y) (combine (flat_map snd s1) (flat_map snd s2))) a b.
Proof.
  intros s1 s2 F. induction F as [|[k1 a1] [k2 b1] s1 s2 [E L] F IH]; cbn [map fst snd flat_map] in *; intros N; [split; [reflexivity|intros k a b []]|].
  inversion N as [|? ? Nk Nd]; subst. destruct (IH Nd) as [IL IP]. split; [rewrite !app_length; lia|].
  assert (K2 : map fst s1 = map fst s2) by (clear -F; induction F as [|x y l l' [H _] F IH]; cbn; congruence).
  intros k a b I1 I2. rewrite combine_app by exact L. destruct I1 as [E1|I1], I2 as [E2|I2].
  - injection E1 as <- <-. injection E2 as <-. eapply forall2_impl; [|apply combine_forall2; exact L]. intros x y _ H. apply in_app_iff. now left.
  - injection E1 as <- <-. exfalso. apply Nk. rewrite K2. now apply (in_map fst) in I2.
  - injection E2 as <- <-. exfalso. apply Nk. now apply (in_map fst) in I1.
  - eapply forall2_impl; [|apply (IP k a b I1 I2)]. intros x y _ H. apply in_app_iff. now right.
Qed.

(** ** Feeds *)
Section Feed.
Context {value : Type}.
Lemma feed_in (pairs : list (tensor * value)) t v : NoDup (map fst pairs) -> In (t, v) pairs -> feed_of pairs t = Some v.
Proof.
  unfold feed_of. induction pairs as [|[t0 v0] pairs IH]; cbn [find map fst In]; [tauto|]. intros N I. inversion N as [|? ? Nk Nd]; subst.
  destruct (tensor_eqb t0 t) eqn:E.
  - apply tensor_eqb_eq in E as ->. destruct I as [E|I]; [now injection E as ->|]. exfalso. apply Nk. now apply (in_map fst) in I.
  - destruct I as [E'|I]; [injection E' as -> ->; assert (tensor_eqb t t = true) by (now apply tensor_eqb_eq); congruence|]. now apply IH.
Qed.
Lemma feed_some (pairs : list (tensor * value)) t v : feed_of pairs t = Some v -> In (t, v) pairs.
Proof.
  unfold feed_of. destruct (find _ pairs) as [[t0 v0]|] eqn:F; [|discriminate]. intros E. injection E as <-. apply find_some in F as [I E].
  apply tensor_eqb_eq in E. cbn in E. now subst.
Qed.
End Feed.

Section Apply.
Context {value : Type}.
Variable run : nat -> list value -> option (list value).
Variable choose : list nat -> nat.
Variable supply : nat -> string -> list value.
Variable batch_size_of : list value -> nat.
Variable g : func_graph.
Variable captured : list value.
Hypothesis wf : well_formed g.
Hypothesis supplied : well_supplied g supply.
Hypothesis captures_length : length captured = length (internal_captures g).

Lemma keys_nodup : NoDup (map fst (structured_inputs g)).
Proof. exact (proj1 (proj2 wf)). Qed.
Lemma names_nodup : NoDup (map fst (structured_outputs g)).
Proof. exact (proj1 (proj2 (proj2 wf))). Qed.

Lemma graph_inputs_perm : Permutation (graph_inputs g) (flat_map snd (structured_inputs g) ++ internal_captures g).
Proof. unfold graph_inputs, flatten. apply Permutation_app_tail, Permutation_flat_map, by_key_perm. Qed.
Lemma graph_inputs_nodup : NoDup (graph_inputs g).
Proof. eapply Permutation_NoDup; [symmetry; apply graph_inputs_perm|]. destruct wf as (_ & _ & _ & N & _). exact N. Qed.
Lemma graph_inputs_in t : In t (graph_inputs g) <-> (exists k c, In (k, c) (structured_inputs g) /\ In t c) \/ In t (internal_captures g).
Proof.
  split.
  - intros I. apply (Permutation_in _ graph_inputs_perm) in I. apply in_app_iff in I as [I|I]; [|now right].
    apply in_flat_map in I as ([k c] & I & It). left. eauto.
  - intros H. apply (Permutation_in _ (Permutation_sym graph_inputs_perm)). apply in_app_iff. destruct H as [(k & c & I & It)|I]; [|now right].
    left. apply in_flat_map. exists (k, c). auto.
Qed.
(** A tensor is the component of one input at most, and then not captured. *)
Lemma one_input t k1 c1 k2 c2 : In (k1, c1) (structured_inputs g) -> In t c1 -> In (k2, c2) (structured_inputs g) -> In t c2 -> k1 = k2.
Proof.
  destruct wf as (_ & _ & _ & N & _). apply nodup_app_l in N. revert N. induction (structured_inputs g) as [|[k c] d IH]; cbn [In flat_map snd]; [tauto|].
  intros N. assert (Nd : NoDup (flat_map snd d)) by (now apply nodup_app_r in N).
  assert (D : forall k' c', In (k', c') d -> In t c' -> In t c -> False).
  { intros k' c' I It Ic. assert (In t (flat_map snd d)) as X by (apply in_flat_map; exists (k', c'); auto). clear -N Ic X.
    induction c as [|x c IH]; [destruct Ic|]. cbn in N. inversion N as [|? ? Nx Nc]; subst. destruct Ic as [->|Ic]; [apply Nx, in_app_iff; now right|auto]. }
  intros [E1|I1] T1 [E2|I2] T2.
  - congruence.
  - injection E1 as -> ->. exfalso. eauto.
  - injection E2 as -> ->. exfalso. eauto.
  - eauto.
Qed.
Lemma not_captured t k c : In (k, c) (structured_inputs g) -> In t c -> ~ In t (internal_captures g).
Proof.
  intros I It Ic. destruct wf as (_ & _ & _ & N & _). assert (X : In t (flat_map snd (structured_inputs g))) by (apply in_flat_map; exists (k, c); auto).
  revert N X Ic. generalize (flat_map snd (structured_inputs g)) (internal_captures g). clear. intros a b N Ia Ib.
  induction a as [|x a IH]; [destruct Ia|]. cbn in N. inversion N as [|? ? Nx Na]; subst. destruct Ia as [->|Ia]; [apply Nx, in_app_iff; now right|auto].
Qed.
Lemma find_key_in {A} (d : list (string * list A)) k c : NoDup (map fst d) -> In (k, c) d -> find_key d k = c.
Proof.
  intros N I. unfold find_key. destruct (find _ d) as [[k' c']|] eqn:F.
  - apply find_some in F as [I' E]. apply String.eqb_eq in E. cbn in *. subst k'. eapply nodup_key; eauto.
  - exfalso. apply (find_none _ _ F) in I. cbn in I. now rewrite String.eqb_refl in I.
Qed.
Lemma has_key_in {A} (d : list (string * A)) k : has_key d k = true <-> In k (map fst d).
Proof.
  unfold has_key. rewrite existsb_exists, in_map_iff. split; intros (e & H1 & H2).
  - apply String.eqb_eq in H2. eauto.
  - exists e. split; [exact H2|]. now apply String.eqb_eq.
Qed.

Lemma unfed_in keys k : In k (get_unfed_input_keys g keys) <-> In k (map fst (structured_inputs g)) /\ ~ In k keys.
Proof.
  unfold get_unfed_input_keys. rewrite filter_In. destruct (existsb (String.eqb k) keys) eqn:E; cbn [negb].
  - apply mem_string_in in E. split; [intros [_ X]; discriminate|intros [_ X]; contradiction].
  - assert (~ In k keys) by (rewrite <- mem_string_in; congruence). tauto.
Qed.
Lemma unfed_nodup keys : NoDup (get_unfed_input_keys g keys).
Proof. apply NoDup_filter, keys_nodup. Qed.

(** *** All the inputs *)
Definition complete (modified : list (string * list value)) : Prop :=
  expected g modified /\ forall k, In k (map fst (structured_inputs g)) -> In k (map fst modified).
Definition pairs_of (modified : list (string * list value)) : list (tensor * value) :=
  combine (graph_inputs g) (flatten modified ++ captured).

Lemma expected_key (inputs : list (string * list value)) k : expected g inputs -> In k (map fst inputs) -> In k (map fst (structured_inputs g)).
Proof. intros [_ E] I. apply in_map_iff in I as ([k' vs] & <- & I). destruct (E _ _ I) as (c & Ic & _). now apply (in_map fst) in Ic. Qed.

Lemma complete_pairs modified : complete modified ->
  length (flatten modified) = length (flatten (structured_inputs g)) /\
  holds g captured (feed_of (pairs_of modified)) modified /\ nothing_else g (feed_of (pairs_of modified)) (map fst modified).
Proof.
  intros [Ex All]. destruct Ex as [N Ex].
  assert (K : map fst (by_key (structured_inputs g)) = map fst (by_key modified)).
  { apply by_key_same, NoDup_Permutation; [exact keys_nodup|exact N|]. intros k. split; [apply All|]. intros I. eapply expected_key; [split; eauto|exact I]. }
  assert (NB : NoDup (map fst (by_key (structured_inputs g)))).
  { eapply Permutation_NoDup; [|exact keys_nodup]. apply Permutation_map. symmetry. apply by_key_perm. }
  assert (F : Forall2 (fun a b => fst a = fst b /\ length (snd a) = length (snd b)) (by_key (structured_inputs g)) (by_key modified)).
  { assert (S1 : forall a, In a (by_key (structured_inputs g)) -> In a (structured_inputs g)) by (intros a; apply (Permutation_in _ (by_key_perm _))).
    assert (S2 : forall a, In a (by_key modified) -> In a modified) by (intros a; apply (Permutation_in _ (by_key_perm _))).
    assert (G : forall (l : list (string * list tensor)) (m : list (string * list value)), map fst l = map fst m -> (forall a, In a l -> In a (structured_inputs g)) -> (forall a, In a m -> In a modified) ->
       Forall2 (fun a b => fst a = fst b /\ length (snd a) = length (snd b)) l m).
    { induction l as [|[k c] l IH]; intros [|[k' v] m] E L M; try discriminate; constructor.
      - injection E as -> _. split; [reflexivity|]. cbn [snd]. destruct (Ex k' v) as (c' & Ic & Lc); [apply M; now left|].
        assert (c = c') as -> by (eapply nodup_key; [exact keys_nodup|apply L; now left|exact Ic]). exact Lc.
      - injection E as _ E. apply IH; auto; intros a Ia; [apply L|apply M]; now right. }
    apply G; auto. }
  destruct (aligned_pairs _ _ F NB) as [L P].
  assert (L' : length (flatten modified) = length (flatten (structured_inputs g))) by (unfold flatten; now symmetry).
  assert (CP : pairs_of modified = combine (flatten (structured_inputs g)) (flatten modified) ++ combine (internal_captures g) captured).
  { unfold pairs_of, graph_inputs. apply combine_app. now symmetry. }
  assert (KP : map fst (pairs_of modified) = graph_inputs g).
  { unfold pairs_of. apply combine_fst. unfold graph_inputs. rewrite !app_length. lia. }
  assert (NP : NoDup (map fst (pairs_of modified))) by (rewrite KP; apply graph_inputs_nodup).
  split; [exact L'|]. split; [split|].
  - intros k c vs Ic Iv. assert (Fp : Forall2 (fun x y => In (x, y) (combine (flatten (structured_inputs g)) (flatten modified))) c vs).
    { apply (P k c vs); [apply (Permutation_in _ (Permutation_sym (by_key_perm _))), Ic|apply (Permutation_in _ (Permutation_sym (by_key_perm _))), Iv]. }
    eapply forall2_impl; [|exact Fp]. intros t v _ I. apply feed_in; [exact NP|]. rewrite CP. apply in_app_iff. now left.
  - eapply forall2_impl; [|apply combine_forall2; now symmetry]. intros t v _ I. apply feed_in; [exact NP|]. rewrite CP. apply in_app_iff. now right.
  - intros t v E. apply feed_some in E. apply (in_map fst) in E. rewrite KP in E. cbn in E. apply graph_inputs_in in E as [(k & c & Ic & It)|I]; [left|right; exact I].
    exists k, c. split; [|auto]. apply All. now apply (in_map fst) in Ic.
Qed.

Lemma holds_agree a1 a2 inputs t : holds g captured a1 inputs -> holds g captured a2 inputs -> available g (map fst inputs) t -> a1 t = a2 t.
Proof.
  assert (G : forall ts vs, Forall2 (fun t v => a1 t = Some v) ts vs -> Forall2 (fun t v => a2 t = Some v) ts vs -> In t ts -> a1 t = a2 t).
  { intros ts vs F1. induction F1 as [|x v ts vs E F IH]; intros F2 I; inversion F2; subst; [destruct I|]. destruct I as [->|I]; [congruence|auto]. }
  intros [H1 C1] [H2 C2] [(k & c & Ik & Ic & It)|I]; [|eauto]. apply in_map_iff in Ik as ([k' vs] & E & Iv). cbn in E. subst k'. eauto.
Qed.
Lemma gives_agree a1 a2 inputs components vs1 vs2 : holds g captured a1 inputs -> holds g captured a2 inputs ->
  computable g (map fst inputs) components -> gives run g a1 components vs1 -> gives run g a2 components vs2 -> vs1 = vs2.
Proof.
  intros H1 H2 C G1. revert vs2. induction G1 as [|t v ts vs (r & R & E) F IH]; intros vs2 G2; inversion G2 as [|? v2 ? vs2' (r2 & R2 & E2) F2]; subst; [reflexivity|].
  f_equal; [|apply IH; [intros t' p It; apply C; now right|exact F2]].
  assert (r = r2) as ->; [|congruence]. eapply (ran_agree run g wf a1 a2 (fst t)); eauto. intros p Cp Pp.
  eapply holds_agree; eauto. eapply C; eauto. now left.
Qed.

Lemma gives_ext a1 a2 components vs : (forall t, a1 t = a2 t) -> gives run g a1 components vs -> gives run g a2 components vs.
Proof. intros H. apply forall2_impl. intros t v _ (r & R & E). exists r. split; [|exact E]. eapply ran_ext; eauto. Qed.

(** *** Fetches *)
Lemma fetches_right keys feeds : (forall t, snd t = 0 -> placeholder g (fst t) -> (In t feeds \/ In t (internal_captures g) <-> available g keys t)) ->
  forall o, In o (get_fetches choose g feeds) <-> In o (structured_outputs g) /\ computable g keys (snd o).
Proof.
  intros H [name c]. unfold get_fetches. rewrite filter_In. cbn [snd].
  assert (R : In (name, c) (structured_outputs g) -> forall s, In s (map fst c) -> s < length (operations g)).
  { intros I s Is. apply in_map_iff in Is as (t & <- & It). destruct wf as (_ & _ & _ & _ & _ & W). eauto. }
  split; intros [I C]; (split; [exact I|]).
  - intros t p It Cp Pp. apply H; [reflexivity|exact Pp|]. rewrite forallb_forall in C.
    specialize (C (p, 0)). rewrite orb_true_iff, !mem_tensor_in in C. apply C. unfold output_to_inputs.
    apply (sources_right choose g wf); [exact (R I)|]. split; [|auto]. exists (fst t). split; [now apply in_map|exact Cp].
  - apply forallb_forall. intros [p z] Is. unfold output_to_inputs in Is.
    apply (sources_right choose g wf) in Is as ((s & Ist & Cp) & Pp & Z); [|exact (R I)]. cbn [fst snd] in *. subst z.
    rewrite orb_true_iff, !mem_tensor_in. apply (H (p, 0)); [reflexivity|exact Pp|]. apply in_map_iff in Ist as (t & <- & It). eapply C; eauto.
Qed.

Lemma feeds_available keys unfed : (forall k, In k unfed <-> In k (map fst (structured_inputs g)) /\ ~ In k keys) ->
  forall t, In t (get_feeds g unfed) \/ In t (internal_captures g) <-> available g keys t.
Proof.
  intros U t. unfold get_feeds. rewrite filter_In.
  assert (X : mem_tensor t (flat_map (find_key (structured_inputs g)) unfed) = true <-> exists k c, In (k, c) (structured_inputs g) /\ In t c /\ ~ In k keys).
  { rewrite mem_tensor_in, in_flat_map. split.
    - intros (k & Ik & It). apply U in Ik as [Ik Nk]. apply in_map_iff in Ik as ([k' c] & E & Ic). cbn in E. subst k'.
      rewrite (find_key_in _ k c keys_nodup Ic) in It. eauto.
    - intros (k & c & Ic & It & Nk). exists k. split; [apply U; split; [now apply (in_map fst) in Ic|exact Nk]|]. now rewrite (find_key_in _ k c keys_nodup Ic). }
  split.
  - intros [[I M]|I]; [|now right]. apply graph_inputs_in in I as [(k & c & Ic & It)|I]; [|now right]. left. exists k, c.
    split; [|auto]. destruct (in_dec string_dec k keys) as [Y|Nk]; [exact Y|]. exfalso.
    assert (mem_tensor t (flat_map (find_key (structured_inputs g)) unfed) = true) as M' by (apply X; eauto). rewrite M' in M. discriminate.
  - intros [(k & c & Ik & Ic & It)|I]; [|now right]. left. split; [apply graph_inputs_in; left; eauto|].
    destruct (mem_tensor _ _) eqn:M; [|reflexivity]. exfalso. destruct (proj1 X eq_refl) as (k' & c' & Ic' & It' & Nk).
    apply Nk. now rewrite (one_input t k' c' k c).
Qed.
Lemma fetches_v2 keys unfed : (forall k, In k unfed <-> In k (map fst (structured_inputs g)) /\ ~ In k keys) ->
  forall o, In o (get_fetches choose g (get_feeds g unfed)) <-> In o (structured_outputs g) /\ computable g keys (snd o).
Proof. intros U. apply fetches_right. intros t _ _. now apply feeds_available. Qed.

(** *** The whole function *)
Lemma wrapped_right modified : complete modified ->
  (forall r, wrapped_function run g captured (flatten modified) = Some r ->
     map fst r = map fst (structured_outputs g) /\
     forall name c, In (name, c) (structured_outputs g) -> exists vs, In (name, vs) r /\ gives run g (feed_of (pairs_of modified)) c vs) /\
  ((forall name c, In (name, c) (structured_outputs g) -> exists vs, gives run g (feed_of (pairs_of modified)) c vs) ->
     exists r, wrapped_function run g captured (flatten modified) = Some r).
Proof.
  intros C. destruct (complete_pairs modified C) as (L & _). unfold wrapped_function. rewrite L, Nat.eqb_refl. fold (pairs_of modified). split.
  - intros r E. apply run_function_spec in E; [|exact wf|now intros o]. split.
    + clear -E. induction E as [|o e os es [H _] F IH]; cbn; congruence.
    + intros name c I. clear -E I. induction E as [|o e os es [H G] F IH]; [destruct I|]. destruct I as [->|I].
      * exists (snd e). cbn in *. split; [left; destruct e; cbn in *; congruence|exact G].
      * destruct (IH I) as (vs & Iv & Gv). exists vs. split; [now right|exact Gv].
  - intros H. assert (E : exists r, Forall2 (fun o e => fst e = fst o /\ gives run g (feed_of (pairs_of modified)) (snd o) (snd e)) (structured_outputs g) r).
    { clear -H. induction (structured_outputs g) as [|[name c] os IH]; [exists []; constructor|]. destruct (H name c) as (vs & G); [now left|].
      destruct IH as (r & F); [intros n' c' I; apply (H n' c'); now right|]. exists ((name, vs) :: r). constructor; [auto|exact F]. }
    destruct E as (r & F). exists r. apply run_function_spec; [exact wf|now intros o|exact F].
Qed.

Lemma modified_complete inputs unfed n : expected g inputs -> (forall k, In k unfed <-> In k (map fst (structured_inputs g)) /\ ~ In k (map fst inputs)) ->
  NoDup unfed -> complete (inputs ++ get_missing_inputs supply unfed n).
Proof.
  intros [N E] U Nu. split; [split|].
  - rewrite map_app. unfold get_missing_inputs. rewrite map_map. cbn [fst]. rewrite map_id.
    assert (G : forall a b : list string, NoDup a -> NoDup b -> (forall x, In x b -> ~ In x a) -> NoDup (a ++ b)).
    { clear. induction a as [|x a IH]; intros b Na Nb D; [exact Nb|]. inversion Na; subst. cbn. constructor.
      - intros I. apply in_app_iff in I as [I|I]; [contradiction|]. apply (D x I). now left.
      - apply IH; auto. intros y Iy Ia. apply (D y Iy). now right. }
    apply G; auto. intros x Ix. now apply U.
  - intros k vs I. apply in_app_iff in I as [I|I]; [auto|]. unfold get_missing_inputs in I. apply in_map_iff in I as (k' & X & Ik). injection X as -> <-.
    apply U in Ik as [Ik _]. apply in_map_iff in Ik as ([k' c] & X & Ic). cbn in X. subst k'. exists c. split; [exact Ic|]. symmetry. now apply supplied.
  - intros k Ik. rewrite map_app, in_app_iff. destruct (in_dec string_dec k (map fst inputs)) as [I|I]; [now left|]. right.
    unfold get_missing_inputs. rewrite map_map. cbn [fst]. rewrite map_id. now apply U.
Qed.
Lemma holds_part assign inputs more : holds g captured assign (inputs ++ more) -> holds g captured assign inputs.
Proof. intros [H C]. split; [|exact C]. intros k c vs Ic Iv. apply (H k c vs Ic). apply in_app_iff. now left. Qed.

Lemma select_in (tf : list (string * list value)) keys : NoDup (map fst tf) -> forall name vs,
  (In (name, vs) (select tf keys) /\ In name (map fst tf)) <-> In name keys /\ In (name, vs) tf.
Proof.
  intros N name vs. unfold select. rewrite in_map_iff. split.
  - intros [(k & E & Ik) Im]. injection E as -> <-. split; [exact Ik|]. apply in_map_iff in Im as ([n' vs'] & E & I). cbn in E. subst n'.
    now rewrite (find_key_in _ _ _ N I).
  - intros [Ik I]. split; [exists name; split; [|exact Ik]; now rewrite (find_key_in _ _ _ N I)|]. now apply (in_map fst) in I.
Qed.

(** Selecting computable outputs of the function called with supplied inputs. *)
Lemma selected_right inputs unfed n tf requested : expected g inputs ->
  (forall k, In k unfed <-> In k (map fst (structured_inputs g)) /\ ~ In k (map fst inputs)) -> NoDup unfed ->
  wrapped_function run g captured (flatten (inputs ++ get_missing_inputs supply unfed n)) = Some tf ->
  (forall name, In name requested -> exists c, In (name, c) (structured_outputs g) /\ computable g (map fst inputs) c) ->
  right_requested run g captured inputs (select tf requested) requested.
Proof.
  intros Ex U Nu E C. pose proof (modified_complete inputs unfed n Ex U Nu) as M. destruct (wrapped_right _ M) as [W _]. destruct (W tf E) as [K V].
  destruct (complete_pairs _ M) as (_ & H & _). apply holds_part in H.
  assert (N : NoDup (map fst tf)) by (rewrite K; exact names_nodup).
  split.
  - intros name vs I. assert (Ir : In name requested) by (unfold select in I; apply in_map_iff in I as (k & X & Ik); injection X as -> _; exact Ik).
    split; [exact Ir|]. destruct (C name Ir) as (c & Ic & Cc). exists c. split; [exact Ic|].
    destruct (V name c Ic) as (vs' & Iv & G). destruct (select_in tf requested N name vs) as [S _].
    destruct S as [_ Iv2]; [split; [exact I|rewrite K; now apply (in_map fst) in Ic]|].
    assert (vs' = vs) as -> by (eapply nodup_key; eauto). split; [eauto|]. intros assign vs' Ha Ga. symmetry. exact (gives_agree _ _ inputs c _ _ H Ha Cc G Ga).
  - intros name Ir. exists (find_key tf name). unfold select. apply in_map_iff. eauto.
Qed.

(** *** Without finalization *)
Theorem apply_v2_right inputs r : expected g inputs ->
  apply_v2_transform_model run choose supply batch_size_of g captured inputs = Ok r -> right_outputs run g captured inputs r.
Proof.
  intros Ex. unfold apply_v2_transform_model. set (unfed := get_unfed_input_keys g (map fst inputs)).
  assert (M : exists n, match unfed with [] => inputs | _ :: _ => inputs ++ get_missing_inputs supply unfed
      match inputs with [] => 1 | an_input :: _ => batch_size_of (snd an_input) end end = inputs ++ get_missing_inputs supply unfed n).
  { destruct unfed; [exists 0; cbn; now rewrite app_nil_r|]. eexists. reflexivity. }
  destruct M as (n & ->). destruct (wrapped_function _ _ _ _) as [tf|] eqn:E; [|discriminate]. intros X. injection X as <-.
  assert (F : forall name, In name (map fst (get_fetches choose g (get_feeds g unfed))) <-> exists c, In (name, c) (structured_outputs g) /\ computable g (map fst inputs) c).
  { intros name. rewrite in_map_iff. split.
    - intros ([name' c] & X & I). cbn in X. subst name'. apply (fetches_v2 (map fst inputs) unfed) in I; [|intros k; apply unfed_in]. exists c. exact I.
    - intros (c & I). exists (name, c). split; [reflexivity|]. apply (fetches_v2 (map fst inputs) unfed); [intros k; apply unfed_in|exact I]. }
  destruct (selected_right inputs unfed n tf (map fst (get_fetches choose g (get_feeds g unfed))) Ex) as [R1 R2].
  { intros k. apply unfed_in. } { apply unfed_nodup. } { exact E. } { intros name I. now apply F. }
  split; [|split].
  - unfold select. rewrite map_map. cbn [fst]. rewrite map_id. unfold get_fetches.
    pose proof names_nodup as NN. clear -NN. induction (structured_outputs g) as [|o os IH]; cbn [filter map] in *; [constructor|]. inversion NN as [|? ? No Nos]; subst.
    destruct (forallb _ _); [|auto]. cbn [map]. constructor; [|auto]. intros I. apply No. apply in_map_iff in I as (x & <- & I). apply filter_In in I as [I _]. now apply in_map.
  - intros name vs I. destruct (R1 name vs I) as [Ir (c & Ic & Rv)]. exists c. split; [exact Ic|]. split; [|exact Rv]. apply F in Ir as (c' & Ic' & Cc).
    now rewrite (nodup_key _ _ _ _ names_nodup Ic Ic').
  - intros name c Ic Cc. apply R2. apply F. eauto.
Qed.
Lemma missing_filled inputs unfed n : (forall k, In k unfed <-> In k (map fst (structured_inputs g)) /\ ~ In k (map fst inputs)) ->
  filled_in g supply n inputs (get_missing_inputs supply unfed n).
Proof.
  intros U k vs. unfold get_missing_inputs. rewrite in_map_iff. split.
  - intros (k' & X & I). injection X as -> <-. apply U in I. tauto.
  - intros (I & N & ->). exists k. split; [reflexivity|]. apply U. auto.
Qed.
Theorem apply_v2_succeeds inputs : expected g inputs ->
  (forall n more, filled_in g supply n inputs more -> all_give run g captured (inputs ++ more) (map fst (structured_inputs g)) (fun _ => True)) ->
  exists r, apply_v2_transform_model run choose supply batch_size_of g captured inputs = Ok r.
Proof.
  intros Ex A. unfold apply_v2_transform_model. set (unfed := get_unfed_input_keys g (map fst inputs)) in *.
  assert (M : exists n, match unfed with [] => inputs | _ :: _ => inputs ++ get_missing_inputs supply unfed
      match inputs with [] => 1 | an_input :: _ => batch_size_of (snd an_input) end end = inputs ++ get_missing_inputs supply unfed n).
  { destruct unfed; [exists 0; cbn; now rewrite app_nil_r|]. eexists. reflexivity. }
  destruct M as (n & ->). assert (C : complete (inputs ++ get_missing_inputs supply unfed n)).
  { apply modified_complete; [exact Ex|intros k; apply unfed_in|apply unfed_nodup]. }
  destruct (complete_pairs _ C) as (_ & H & O). destruct (wrapped_right _ C) as [_ W]. destruct W as (tf & ->); [|eauto].
  intros name c Ic. eapply (A n); [apply missing_filled; intros k; apply unfed_in|exact H| |exact Ic|exact I]. intros t v E. destruct (O t v E) as [(k & c' & Ik & I')|I']; [left|now right].
  exists k, c'. split; [|exact I']. eapply expected_key; [apply C|exact Ik].
Qed.

(** *** TensorFlow 1 graphs *)
Definition v1_pairs (inputs : list (string * list value)) : list (tensor * value) :=
  flat_map (fun e => combine (find_key (structured_inputs g) (fst e)) (snd e)) inputs ++ combine (internal_captures g) captured.
Lemma v1_keys (inputs : list (string * list value)) : (forall k vs, In (k, vs) inputs -> exists c, In (k, c) (structured_inputs g) /\ length c = length vs) ->
  map fst (flat_map (fun e => combine (find_key (structured_inputs g) (fst e)) (snd e)) inputs)
  = flat_map (fun e => find_key (structured_inputs g) (fst e)) inputs.
Proof.
  induction inputs as [|[k vs] inputs IH]; intros E; cbn [flat_map map fst snd]; [reflexivity|]. rewrite map_app, IH by (intros k' vs' I; apply (E k' vs'); now right).
  f_equal. destruct (E k vs) as (c & Ic & L); [now left|]. rewrite (find_key_in _ k c keys_nodup Ic). now apply combine_fst.
Qed.
Lemma v1_pairs_right inputs : expected g inputs ->
  holds g captured (feed_of (v1_pairs inputs)) inputs /\ nothing_else g (feed_of (v1_pairs inputs)) (map fst inputs) /\
  forall t, In t (map fst (flat_map (fun e => combine (find_key (structured_inputs g) (fst e)) (snd e)) inputs)) \/ In t (internal_captures g) <-> available g (map fst inputs) t.
Proof.
  intros [N E]. rewrite (v1_keys inputs E).
  assert (A : forall t, In t (flat_map (fun e => find_key (structured_inputs g) (fst e)) inputs) <->
            exists k c, In k (map fst inputs) /\ In (k, c) (structured_inputs g) /\ In t c).
  { intros t. rewrite in_flat_map. split.
    - intros ([k vs] & I & It). cbn in It. destruct (E k vs I) as (c & Ic & _). rewrite (find_key_in _ k c keys_nodup Ic) in It.
      exists k, c. split; [now apply (in_map fst) in I|auto].
    - intros (k & c & Ik & Ic & It). apply in_map_iff in Ik as ([k' vs] & X & I). cbn in X. subst k'. exists (k, vs). split; [exact I|]. cbn.
      now rewrite (find_key_in _ k c keys_nodup Ic). }
  assert (K : map fst (v1_pairs inputs) = flat_map (fun e => find_key (structured_inputs g) (fst e)) inputs ++ internal_captures g).
  { unfold v1_pairs. rewrite map_app, (v1_keys inputs E). f_equal. apply combine_fst. now symmetry. }
  assert (NP : NoDup (map fst (v1_pairs inputs))).
  { rewrite K. assert (D : NoDup (internal_captures g)) by (destruct wf as (_ & _ & _ & W & _); now apply nodup_app_r in W).
    clear K. assert (S : forall k vs, In (k, vs) inputs -> exists c, In (k, c) (structured_inputs g) /\ length c = length vs) by exact E. clear A E.
    induction inputs as [|[k vs] inputs IH]; cbn [flat_map fst map] in *; [exact D|]. inversion N as [|? ? Nk Nd]; subst.
    specialize (IH Nd (fun k' vs' I => S k' vs' (or_intror I))). destruct (S k vs) as (c & Ic & _); [now left|].
    rewrite (find_key_in _ k c keys_nodup Ic), <- app_assoc.
    assert (Nc : NoDup c).
    { destruct wf as (_ & _ & _ & W & _). apply nodup_app_l in W. clear -W Ic. induction (structured_inputs g) as [|[k0 c0] d IHd]; [destruct Ic|].
      cbn in W. destruct Ic as [X|Ic]; [injection X as -> ->; now apply nodup_app_l in W|]. apply IHd; [exact Ic|]. now apply nodup_app_r in W. }
    assert (Dj : forall t, In t c -> ~ In t (flat_map (fun e => find_key (structured_inputs g) (fst e)) inputs ++ internal_captures g)).
    { intros t It I. apply in_app_iff in I as [I|I]; [|exact (not_captured t k c Ic It I)]. apply in_flat_map in I as ([k' vs'] & I' & It'). cbn in It'.
      destruct (S k' vs') as (c' & Ic' & _); [now right|]. rewrite (find_key_in _ k' c' keys_nodup Ic') in It'.
      assert (k = k') as -> by (eapply one_input; eauto). apply Nk. now apply (in_map fst) in I'. }
    clear -Nc Dj IH. induction Nc as [|t c Nt Nc IHc]; [exact IH|]. cbn. constructor; [|apply IHc; intros t' I'; apply Dj; now right].
    intros I. apply in_app_iff in I as [I|I]; [contradiction|]. apply (Dj t); [now left|exact I]. }
  split; [split|split].
  - intros k c vs Ic Iv. destruct (E k vs Iv) as (c' & Ic' & L). assert (c' = c) as -> by exact (nodup_key _ _ _ _ keys_nodup Ic' Ic).
    eapply forall2_impl; [|apply combine_forall2; exact L]. intros t v _ I. apply feed_in; [exact NP|]. unfold v1_pairs. apply in_app_iff. left.
    apply in_flat_map. exists (k, vs). split; [exact Iv|]. cbn. now rewrite (find_key_in _ k c keys_nodup Ic).
  - eapply forall2_impl; [|apply combine_forall2; now symmetry]. intros t v _ I. apply feed_in; [exact NP|]. unfold v1_pairs. apply in_app_iff. now right.
  - intros t v F. apply feed_some in F. apply (in_map fst) in F. rewrite K in F. apply in_app_iff in F as [F|F]; [left; now apply A|now right].
  - intros t. rewrite A. reflexivity.
Qed.

Theorem apply_v1_right inputs r : expected g inputs ->
  apply_v1_transform_model_in_v2 run choose g captured inputs = Ok r -> right_outputs run g captured inputs r.
Proof.
  intros Ex. unfold apply_v1_transform_model_in_v2. destruct (v1_pairs_right inputs Ex) as (H & O & Av). fold (v1_pairs inputs).
  set (feeds := map fst (flat_map _ inputs)) in *. destruct (run_function _ _ _ _) as [r'|] eqn:E; [|discriminate]. intros X. injection X as ->.
  assert (F : forall o, In o (get_fetches choose g feeds) <-> In o (structured_outputs g) /\ computable g (map fst inputs) (snd o)) by (apply fetches_right; intros t _ _; apply Av).
  apply run_function_spec in E; [|exact wf|intros o I; now apply F].
  split; [|split].
  - assert (K : map fst r = map fst (get_fetches choose g feeds)) by (clear -E; induction E as [|o e os es [X _] E IH]; cbn; congruence). rewrite K. unfold get_fetches.
    pose proof names_nodup as NN. clear -NN. induction (structured_outputs g) as [|o os IH]; cbn [filter map] in *; [constructor|]. inversion NN as [|? ? No Nos]; subst.
    destruct (forallb _ _); [|auto]. cbn [map]. constructor; [|auto]. intros I. apply No. apply in_map_iff in I as (x & <- & I). apply filter_In in I as [I _]. now apply in_map.
  - intros name vs I. assert (G : exists o, In o (get_fetches choose g feeds) /\ fst o = name /\ gives run g (feed_of (v1_pairs inputs)) (snd o) vs).
    { clear -E I. induction E as [|o e os es [X G] E IH]; [destruct I|]. destruct I as [->|I]; [exists o; split; [now left|]; cbn in *; auto|].
      destruct (IH I) as (o' & Io' & R). exists o'. split; [now right|exact R]. }
    destruct G as ([name' c] & Io & X & G). cbn in X, G. subst name'. apply F in Io as [Io Cc]. exists c. split; [exact Io|]. split; [exact Cc|].
    split; [eauto|]. intros assign vs' Ha Ga. symmetry. exact (gives_agree _ _ inputs c _ _ H Ha Cc G Ga).
  - intros name c Ic Cc. assert (Io : In (name, c) (get_fetches choose g feeds)) by (apply F; auto). clear -E Io.
    induction E as [|o e os es [X G] E IH]; [destruct Io|]. destruct Io as [->|Io]; [exists (snd e); left; destruct e; cbn in *; congruence|].
    destruct (IH Io) as (vs & I). exists vs. now right.
Qed.
Theorem apply_v1_succeeds inputs : expected g inputs ->
  all_give run g captured inputs (map fst inputs) (computable g (map fst inputs)) ->
  exists r, apply_v1_transform_model_in_v2 run choose g captured inputs = Ok r.
Proof.
  intros Ex A. unfold apply_v1_transform_model_in_v2. destruct (v1_pairs_right inputs Ex) as (H & O & Av). fold (v1_pairs inputs).
  set (feeds := map fst (flat_map _ inputs)) in *.
  assert (F : forall o, In o (get_fetches choose g feeds) <-> In o (structured_outputs g) /\ computable g (map fst inputs) (snd o)) by (apply fetches_right; intros t _ _; apply Av).
  assert (E : exists r, Forall2 (fun o e => fst e = fst o /\ gives run g (feed_of (v1_pairs inputs)) (snd o) (snd e)) (get_fetches choose g feeds) r).
  { assert (G : forall o, In o (get_fetches choose g feeds) -> exists vs, gives run g (feed_of (v1_pairs inputs)) (snd o) vs).
    { intros [name c] I. apply F in I as [I C]. eapply A; eauto. }
    clear -G. induction (get_fetches choose g feeds) as [|o os IH]; [exists []; constructor|]. destruct (G o) as (vs & Gv); [now left|].
    destruct IH as (r & Fr); [intros o' I; apply G; now right|]. exists ((fst o, vs) :: r). constructor; [auto|exact Fr]. }
  destruct E as (r & E). apply run_function_spec in E; [|exact wf|intros o I; now apply F]. rewrite E. eauto.
Qed.

(** *** Unexpected inputs *)
Lemma unexpected_filter (inputs : list (string * list value)) : filter (fun k => negb (has_key (structured_inputs g) k)) (map fst inputs) = [] <->
  forall k, In k (map fst inputs) -> In k (map fst (structured_inputs g)).
Proof.
  split.
  - intros E k Ik. apply has_key_in. destruct (has_key (structured_inputs g) k) eqn:H; [reflexivity|]. exfalso.
    assert (X : In k (filter (fun k => negb (has_key (structured_inputs g) k)) (map fst inputs))) by (apply filter_In; now rewrite H). rewrite E in X. destruct X.
  - intros H. generalize (fun k I => proj2 (has_key_in (structured_inputs g) k) (H k I)). clear H. induction (map fst inputs) as [|k ks IH]; intros H; [reflexivity|].
    cbn [filter]. rewrite (H k) by now left. cbn [negb]. apply IH. intros k' I. apply H. now right.
Qed.
Lemma expected_no_unexpected (inputs : list (string * list value)) : expected g inputs -> filter (fun k => negb (has_key (structured_inputs g) k)) (map fst inputs) = [].
Proof. intros E. apply unexpected_filter. intros k. now apply expected_key. Qed.

(** *** Finalization *)
Lemma unfed_same ins (inputs : list (string * list value)) : (forall k, In k (map fst (structured_inputs g)) -> (In k ins <-> In k (map fst inputs))) <->
  py_sorted bytes_leb (get_unfed_input_keys g (map fst inputs)) = py_sorted bytes_leb (get_unfed_input_keys g ins).
Proof.
  split.
  - intros H. f_equal. unfold get_unfed_input_keys. apply filter_ext_in. intros k Ik. specialize (H k Ik). f_equal.
    destruct (existsb (String.eqb k) (map fst inputs)) eqn:E1, (existsb (String.eqb k) ins) eqn:E2; try reflexivity; exfalso.
    + apply mem_string_in in E1. assert (existsb (String.eqb k) ins = true) by (apply mem_string_in; tauto). congruence.
    + apply mem_string_in in E2. assert (existsb (String.eqb k) (map fst inputs) = true) by (apply mem_string_in; tauto). congruence.
  - intros E k Ik. assert (P : Permutation (get_unfed_input_keys g (map fst inputs)) (get_unfed_input_keys g ins)).
    { rewrite <- (py_sorted_perm bytes_leb), E. apply py_sorted_perm. }
    pose proof (unfed_in (map fst inputs) k) as U1. pose proof (unfed_in ins k) as U2.
    split; intros I; [destruct (in_dec string_dec k (map fst inputs)) as [Y|Y]; [exact Y|]|destruct (in_dec string_dec k ins) as [Y|Y]; [exact Y|]]; exfalso.
    + assert (X : In k (get_unfed_input_keys g ins)) by (eapply Permutation_in; [exact P|]; tauto). tauto.
    + assert (X : In k (get_unfed_input_keys g (map fst inputs))) by (eapply Permutation_in; [symmetry; exact P|]; tauto). tauto.
Qed.
Lemma sorted_unfed_in keys k : In k (py_sorted bytes_leb (get_unfed_input_keys g keys)) <-> In k (map fst (structured_inputs g)) /\ ~ In k keys.
Proof.
  rewrite <- unfed_in. split; apply Permutation_in; [apply py_sorted_perm|symmetry; apply py_sorted_perm].
Qed.
Lemma requested_fetches ins outs : filter (fun k => negb (has_key (get_fetches choose g (get_feeds g (py_sorted bytes_leb (get_unfed_input_keys g ins)))) k)) outs = [] <->
  forall name, In name outs -> exists c, In (name, c) (structured_outputs g) /\ computable g ins c.
Proof.
  assert (F : forall name, has_key (get_fetches choose g (get_feeds g (py_sorted bytes_leb (get_unfed_input_keys g ins)))) name = true <->
            exists c, In (name, c) (structured_outputs g) /\ computable g ins c).
  { intros name. rewrite has_key_in, in_map_iff. split.
    - intros ([name' c] & X & I). cbn in X. subst name'. apply (fetches_v2 ins) in I; [|intros k; apply sorted_unfed_in]. exists c. exact I.
    - intros (c & I). exists (name, c). split; [reflexivity|]. apply (fetches_v2 ins); [intros k; apply sorted_unfed_in|exact I]. }
  split.
  - intros E name I. apply F. destruct (has_key _ name) eqn:H; [reflexivity|]. exfalso.
    assert (X : In name (filter (fun k => negb (has_key (get_fetches choose g (get_feeds g (py_sorted bytes_leb (get_unfed_input_keys g ins)))) k)) outs)) by (apply filter_In; now rewrite H).
    rewrite E in X. destruct X.
  - intros H. generalize (fun name I => proj2 (F name) (H name I)). clear H. induction outs as [|k ks IH]; intros H; [reflexivity|].
    cbn [filter]. rewrite (H k) by now left. cbn [negb]. apply IH. intros k' I. apply H. now right.
Qed.

Theorem finalize_accepts st ins outs :
  ((exists st', finalize choose g st ins outs = (st', Ok tt)) <->
   forall name, In name outs -> exists c, In (name, c) (structured_outputs g) /\ computable g ins c) /\
  ((exists st', finalize choose g st ins outs = (st', Ok tt)) \/ exists st' bad, finalize choose g st ins outs = (st', Unexpected_outputs bad)).
Proof.
  unfold finalize. rewrite <- requested_fetches. destruct (filter _ outs) as [|x xs]; split.
  - split; [reflexivity|]. intros _. eexists. reflexivity.
  - left. eexists. reflexivity.
  - split; [intros (st' & X); discriminate|discriminate].
  - right. do 2 eexists. reflexivity.
Qed.

Theorem finalized_right st ins outs st' inputs : finalize choose g st ins outs = (st', Ok tt) -> expected g inputs ->
  let same := forall k, In k (map fst (structured_inputs g)) -> (In k ins <-> In k (map fst inputs)) in
  (same -> forall r, apply_transform_model run choose supply batch_size_of g captured false st' inputs = Ok r -> right_requested run g captured inputs r outs) /\
  (same -> (forall n more, filled_in g supply n inputs more -> all_give run g captured (inputs ++ more) (map fst (structured_inputs g)) (fun _ => True)) ->
     exists r, apply_transform_model run choose supply batch_size_of g captured false st' inputs = Ok r) /\
  (~ same -> apply_transform_model run choose supply batch_size_of g captured false st' inputs = Assertion_failed).
Proof.
  intros Fz Ex same. unfold finalize in Fz. destruct (filter _ outs) eqn:Fo; [|discriminate]. injection Fz as <-.
  pose proof (proj1 (requested_fetches ins outs) Fo) as Fo'. clear Fo. rename Fo' into Fo. unfold apply_transform_model. rewrite (expected_no_unexpected inputs Ex). cbn [is_finalized].
  unfold apply_v2_transform_model_finalized. cbn [sorted_unfed_input_keys finalized]. unfold keys_eqb.
  set (unfed := py_sorted bytes_leb (get_unfed_input_keys g ins)) in *.
  assert (Common : same -> (forall k, In k unfed <-> In k (map fst (structured_inputs g)) /\ ~ In k (map fst inputs)) /\ NoDup unfed /\
     wrapped_finalized run supply g captured unfed (py_sorted bytes_leb outs) inputs
     = match wrapped_function run g captured (flatten (inputs ++ get_missing_inputs supply unfed 1)) with
       | Some tf => Some (select tf (py_sorted bytes_leb outs)) | None => None end).
  { intros Sm. assert (U : forall k, In k unfed <-> In k (map fst (structured_inputs g)) /\ ~ In k (map fst inputs)).
    { intros k. unfold unfed. rewrite sorted_unfed_in. split; intros [I N]; (split; [exact I|]); specialize (Sm k I); tauto. }
    split; [exact U|]. split.
    - unfold unfed. eapply Permutation_NoDup; [symmetry; apply py_sorted_perm|apply unfed_nodup].
    - unfold wrapped_finalized.
      assert (Sg : forall k, In k (filter (fun k => negb (existsb (String.eqb k) unfed)) (map fst (structured_inputs g))) <-> In k (map fst inputs)).
      { intros k. rewrite filter_In. destruct (existsb (String.eqb k) unfed) eqn:E; cbn [negb].
        - apply mem_string_in, U in E. split; [intros [_ X]; discriminate|tauto].
        - assert (~ In k unfed) as Nk by (rewrite <- mem_string_in; congruence). rewrite U in Nk. split.
          + intros [I _]. destruct (in_dec string_dec k (map fst inputs)); tauto.
          + intros I. split; [now apply (expected_key inputs)|reflexivity]. }
      assert (forallb (has_key inputs) (filter (fun k => negb (existsb (String.eqb k) unfed)) (map fst (structured_inputs g))) = true) as ->.
      { apply forallb_forall. intros k Ik. apply has_key_in. now apply Sg. }
      assert (forallb (fun e => existsb (String.eqb (fst e)) (filter (fun k => negb (existsb (String.eqb k) unfed)) (map fst (structured_inputs g)))) inputs = true) as ->.
      { apply forallb_forall. intros e Ie. apply mem_string_in, Sg. now apply in_map. }
      reflexivity. }
  split; [|split].
  - intros Sm r. destruct (Common Sm) as (U & Nu & W). destruct (list_eq_dec _ _ _) as [_|Ne]; [|exfalso; apply Ne; now apply unfed_same].
    rewrite W. destruct (wrapped_function _ _ _ _) as [tf|] eqn:E; [|discriminate]. intros X. injection X as <-.
    assert (PO : forall name, In name (py_sorted bytes_leb outs) <-> In name outs) by (intros name; split; apply Permutation_in; [apply py_sorted_perm|symmetry; apply py_sorted_perm]).
    destruct (selected_right inputs unfed 1 tf (py_sorted bytes_leb outs) Ex U Nu E) as [R1 R2].
    { intros name I. apply PO in I. destruct (Fo name I) as (c & Ic & Cc). exists c. split; [exact Ic|]. intros t p It Cp Pp.
      destruct (Cc t p It Cp Pp) as [(k & c' & Ik & Ic' & It')|I']; [left|now right]. exists k, c'. split; [|auto]. apply (Sm k); [now apply (in_map fst) in Ic'|exact Ik]. }
    split; [intros name vs I; destruct (R1 name vs I) as [Ir H]; split; [now apply PO|exact H]|]. intros name I. apply R2. now apply PO.
  - intros Sm A. destruct (Common Sm) as (U & Nu & W). destruct (list_eq_dec _ _ _) as [_|Ne]; [|exfalso; apply Ne; now apply unfed_same]. rewrite W.
    assert (C : complete (inputs ++ get_missing_inputs supply unfed 1)) by (now apply modified_complete).
    destruct (complete_pairs _ C) as (_ & H & O). destruct (wrapped_right _ C) as [_ Wr]. destruct Wr as (tf & ->); [|eauto].
    intros name c Ic. eapply (A 1); [now apply missing_filled|exact H| |exact Ic|exact I].
    intros t v E. destruct (O t v E) as [(k & c' & Ik & I')|I']; [left|now right]. exists k, c'. split; [|exact I']. eapply expected_key; [apply C|exact Ik].
  - intros Ns. destruct (list_eq_dec _ _ _) as [Eq|_]; [|reflexivity]. exfalso. apply Ns. exact (proj2 (unfed_same ins inputs) Eq).
Qed.
End Apply.

(** ** As stated *)
Theorem unexpected_right {value} (run : nat -> list value -> option (list value)) choose supply batch_size_of g captured
    (compat : bool) st (inputs : list (string * list value)) :
  (exists keys, apply_transform_model run choose supply batch_size_of g captured compat st inputs = Unexpected_inputs keys /\
     forall k, In k keys <-> In k (map fst inputs) /\ ~ In k (map fst (structured_inputs g))) <->
  exists k, In k (map fst inputs) /\ ~ In k (map fst (structured_inputs g)).
Proof.
  assert (F : forall k, In k (filter (fun k => negb (has_key (structured_inputs g) k)) (map fst inputs)) <-> In k (map fst inputs) /\ ~ In k (map fst (structured_inputs g))).
  { intros k. rewrite filter_In, negb_true_iff, <- (has_key_in (structured_inputs g)). destruct (has_key _ k); intuition congruence. }
  unfold apply_transform_model. destruct (filter _ (map fst inputs)) as [|x xs].
  - split; [|intros (k & H); apply F in H; destruct H]. intros (keys & E & _). exfalso. revert E. destruct compat.
    + unfold apply_v1_transform_model_in_v2. destruct (run_function _ _ _ _); discriminate.
    + destruct (is_finalized st).
      * unfold apply_v2_transform_model_finalized. destruct (sorted_unfed_input_keys st); [|discriminate]. destruct (keys_eqb _ _); [|discriminate].
        destruct (finalized st) as [[u f]|]; [|discriminate]. destruct (wrapped_finalized _ _ _ _ _ _ _); discriminate.
      * unfold apply_v2_transform_model. destruct (wrapped_function _ _ _ _); discriminate.
  - split; [intros _; exists x; apply F; now left|]. intros _. eexists. split; [reflexivity|exact F].
Qed.
Theorem apply_right {value} (run : nat -> list value -> option (list value)) choose supply batch_size_of g captured
    (compat : bool) st inputs result :
  well_formed g -> well_supplied g supply -> length captured = length (internal_captures g) -> expected g inputs ->
  compat = true \/ is_finalized st = false ->
  apply_transform_model run choose supply batch_size_of g captured compat st inputs = Ok result ->
  right_outputs run g captured inputs result.
Proof.
  intros W S L E H. unfold apply_transform_model. rewrite (expected_no_unexpected g inputs E).
  destruct compat; [now apply apply_v1_right|]. destruct H as [H|H]; [discriminate|]. rewrite H. apply apply_v2_right; assumption.
Qed.
Theorem compat_succeeds {value} (run : nat -> list value -> option (list value)) choose supply batch_size_of g captured st inputs :
  well_formed g -> length captured = length (internal_captures g) -> expected g inputs ->
  all_give run g captured inputs (map fst inputs) (computable g (map fst inputs)) ->
  exists result, apply_transform_model run choose supply batch_size_of g captured true st inputs = Ok result.
Proof. intros W L E A. unfold apply_transform_model. rewrite (expected_no_unexpected g inputs E). now apply apply_v1_succeeds. Qed.
Theorem not_finalized_succeeds {value} (run : nat -> list value -> option (list value)) choose supply batch_size_of g captured st inputs :
  well_formed g -> well_supplied g supply -> length captured = length (internal_captures g) -> expected g inputs ->
  is_finalized st = false ->
  (forall n more, filled_in g supply n inputs more ->
     all_give run g captured (inputs ++ more) (map fst (structured_inputs g)) (fun _ => True)) ->
  exists result, apply_transform_model run choose supply batch_size_of g captured false st inputs = Ok result.
Proof. intros W S L E H A. unfold apply_transform_model. rewrite (expected_no_unexpected g inputs E), H. now apply apply_v2_succeeds. Qed.
Theorem finalize_right (choose : list nat -> nat) g st ins outs : well_formed g ->
  ((exists st', finalize choose g st ins outs = (st', Ok tt)) <->
   forall name, In name outs -> exists components, In (name, components) (structured_outputs g) /\ computable g ins components) /\
  ((exists st', finalize choose g st ins outs = (st', Ok tt)) \/
   exists st' bad, finalize choose g st ins outs = (st', Unexpected_outputs bad)).
Proof. intros W. apply (finalize_accepts (value := nat) (fun _ _ => None) choose (fun _ => 0) g [] W). Qed.
Theorem finalized_right' {value} (run : nat -> list value -> option (list value)) choose supply batch_size_of g captured st ins outs st' inputs :
  well_formed g -> well_supplied g supply -> length captured = length (internal_captures g) ->
  finalize choose g st ins outs = (st', Ok tt) -> expected g inputs ->
  let same := forall k, In k (map fst (structured_inputs g)) -> (In k ins <-> In k (map fst inputs)) in
  (same -> forall result, apply_transform_model run choose supply batch_size_of g captured false st' inputs = Ok result ->
     right_requested run g captured inputs result outs) /\
  (same -> (forall n more, filled_in g supply n inputs more ->
             all_give run g captured (inputs ++ more) (map fst (structured_inputs g)) (fun _ => True)) ->
     exists result, apply_transform_model run choose supply batch_size_of g captured false st' inputs = Ok result) /\
  (~ same -> apply_transform_model run choose supply batch_size_of g captured false st' inputs = Assertion_failed).
Proof. intros W S L. now apply finalized_right. Qed.
