(** Proofs about the types of features and the domains of columns. *)
From Coq Require Import String List Bool Arith ZArith Lia.
From Verif Require Import TypModel TypSpec.
Import ListNotations.

(** ** Types *)

Definition ranks (ps : list partition) : nat := fold_right (fun p n => partition_rank p + n) 0 ps.
Lemma parts_dims : forall ps rows inner, parsed_partitions ps rows inner ->
  exists ds ds', map partition_dim ps = ds ++ ds' /\
    Forall2 (fun lengths d => Forall (fun n => of_dim n d) lengths) rows ds /\ Forall2 of_dim inner ds'.
Proof.
  intros ps rows inner P. induction P as [|ps rows inner l P [ds [ds' [E [R I]]]]|ps inner n P [ds [ds' [E [R I]]]]|ps r inner n k more P [ds [ds' [E [R I]]]]].
  - exists [], []. repeat split; constructor.
  - exists (None :: ds), ds'. split; [cbn; now rewrite E|]. split; [|exact I]. constructor; [|exact R].
    apply Forall_forall. intros x _. now left.
  - inversion R. subst ds. exists [], (Some n :: ds'). split; [cbn; now rewrite E|]. split; [constructor|].
    constructor; [now right | exact I].
  - exists (Some n :: ds), ds'. split; [cbn; now rewrite E|]. split; [|exact I]. constructor; [|exact R].
    apply Forall_forall. intros x X. right. now rewrite (repeat_spec _ _ _ X).
Qed.
Lemma parts_none : forall ps rows inner, parsed_partitions ps rows inner -> rows = [] -> ps = map Uniform inner.
Proof.
  intros ps rows inner P. induction P; intros E; try discriminate; [reflexivity|]. cbn. now rewrite IHP.
Qed.
Lemma uniform_none : forall lengths rows inner, parsed_partitions (map Uniform lengths) rows inner -> rows = [].
Proof.
  induction lengths as [|l ls IH]; intros rows inner P; cbn [map] in P; inversion P; subst; try reflexivity.
  match goal with H : parsed_partitions _ (_ :: _) _ |- _ => apply IH in H; discriminate end.
Qed.
Lemma parts_more : forall ps rows inner, parsed_partitions ps rows inner -> ranks ps <= length rows.
Proof. intros ps rows inner P. unfold ranks. induction P; cbn in *; lia. Qed.
Lemma uniform_ranks : forall ls, ranks (map Uniform ls) = 0.
Proof. unfold ranks. induction ls; cbn; auto. Qed.
Lemma parts_rank : forall ps rows inner, parsed_partitions ps rows inner -> (length rows = ranks ps <-> uniform_last ps).
Proof.
  intros ps rows inner P. induction P as [|ps rows inner l P IH|ps inner n P IH|ps r inner n k more P IH].
  - split; [intros _; exact (only_uniform []) | reflexivity].
  - split.
    + intros E. apply rows_first, IH. unfold ranks in *. cbn in E. lia.
    + intros U. inversion U as [ls E|ps' U']; subst; [destruct ls; discriminate|]. apply IH in U'. unfold ranks in *. cbn. lia.
  - split; [|intros _].
    + intros _. rewrite (parts_none _ _ _ P eq_refl). exact (only_uniform (n :: inner)).
    + rewrite (parts_none _ _ _ P eq_refl). symmetry. exact (uniform_ranks (n :: inner)).
  - split.
    + intros E. pose proof (parts_more _ _ _ P) as M. unfold ranks in *. cbn in *. lia.
    + intros U. inversion U as [ls E|ps' U']; subst. destruct ls as [|l ls]; [discriminate|]. injection E as -> <-.
      apply uniform_none in P. discriminate.
Qed.

Lemma sizes_dims : forall dims sizes, Forall2 of_size dims sizes -> Forall2 of_dim dims (map known sizes).
Proof.
  intros dims sizes F. induction F as [|n z ns zs O F IH]; constructor; [|exact IH].
  unfold known. destruct O as [->| ->]; [now left|]. destruct (Z.eqb_spec (Z.of_nat n) (-1)); [now left|].
  right. now rewrite Nat2Z.id.
Qed.
Lemma some_dims : forall dims, Forall2 of_dim dims (map Some dims).
Proof. induction dims; constructor; [now right | assumption]. Qed.

Lemma types_right : forall names name sequence n f v T,
  type_spec_of names name f = Ok T -> parsed sequence n f v -> (sequence = true <-> In name names) ->
  (has_type (type_of f) v T <-> forall vk ps t, f = Ragged vk ps t -> uniform_last ps).
Proof.
  intros names name sequence n f v T E P S.
  destruct P as [s t|t m|vk sizes dims t F|vk k t|vk ps t lengths steps rows inner L PP S1 S0]; cbn [type_spec_of type_of] in *; try discriminate.
  - injection E as <-. split; [intros _ ? ? ? X; discriminate|]. intros _. apply dense_type. constructor; [now left|].
    destruct s as [d|d]; exact (some_dims d).
  - injection E as <-. split; [intros _ ? ? ? X; discriminate|]. intros _. apply sparse_type. repeat constructor.
  - injection E as <-. split; [intros _ ? ? ? X; discriminate|]. intros _. apply sparse_type. constructor; [now left|].
    now apply sizes_dims.
  - assert (B : existsb (String.eqb name) names = sequence).
    { destruct sequence.
      - apply existsb_exists. exists name. split; [now apply S | apply String.eqb_refl].
      - destruct (existsb (String.eqb name) names) eqn:X; [|reflexivity]. apply existsb_exists in X.
        destruct X as [y [I Y]]. apply String.eqb_eq in Y. subst y. apply S in I. discriminate. }
    rewrite B in E. injection E as <-. fold (ranks ps).
    assert (K : length (lengths :: steps ++ rows) = 1 + (if sequence then 1 else 0) + length rows).
    { cbn [length]. rewrite app_length. destruct sequence; [destruct (S1 eq_refl) as [l ->] | rewrite (S0 eq_refl)]; reflexivity. }
    split.
    + intros H vk' ps' t' [= <- <- <-]. apply (parts_rank _ _ _ PP). remember (Datatypes.S (_ + ranks ps)) as r eqn:Er. inversion H; subst.
      cbn [length] in *. lia.
    + intros U. specialize (U _ _ _ eq_refl). apply (parts_rank _ _ _ PP) in U.
      rewrite <- U. change (Datatypes.S ((if sequence then 1 else 0) + length rows)) with (1 + (if sequence then 1 else 0) + length rows).
      rewrite <- K.
      destruct (parts_dims _ _ _ PP) as [ds [ds' [Ed [R I]]]]. rewrite Ed.
      assert (A : forall l : list nat, Forall (fun n => of_dim n None) l) by (intros l; apply Forall_forall; intros x _; now left).
      assert (G : has_type t (Ragged_data (lengths :: steps ++ rows) inner)
        (RaggedTensorSpec (None :: (None :: (if sequence then [None] else []) ++ ds) ++ ds') t (length (lengths :: steps ++ rows)))).
      { apply ragged_type; [now left | | exact I]. constructor; [apply A|]. apply Forall2_app; [|exact R].
        destruct sequence; [destruct (S1 eq_refl) as [l ->]; constructor; [apply A | constructor] | rewrite (S0 eq_refl); constructor]. }
      cbn [app] in *. rewrite <- app_assoc in G. exact G.
Qed.

(** ** Dicts of specs *)

Lemma each_ok : forall A B (f : string -> A -> result B) d r, each f d = Ok r <-> Forall2 (fun x y => fst x = fst y /\ f (fst x) (snd x) = Ok (snd y)) d r.
Proof.
  intros A B f d. induction d as [|[k x] d IH]; intros r; cbn [each].
  - split; [intros [= <-]; constructor | intros F; inversion F; reflexivity].
  - destruct (f k x) as [y|e] eqn:E.
    + destruct (each f d) as [ys|e].
      * split.
        -- intros [= <-]. constructor; [now split | now apply IH].
        -- intros F. inversion F as [|a b la lb [H1 H2] F']; subst. cbn [fst snd] in *. apply IH in F'. injection F' as ->.
           destruct b as [kb yb]. cbn [fst snd] in *. subst kb. rewrite E in H2. now injection H2 as ->.
      * split; [discriminate|]. intros F. inversion F; subst. apply IH in H3. discriminate.
    + split; [discriminate|]. intros F. inversion F as [|a b la lb [H1 H2] F']; subst. cbn [fst snd] in *. rewrite E in H2. discriminate.
Qed.
Lemma placeholder_same : forall names name f p t, placeholder (Feature f) = Ok p -> type_spec_of names name f = Ok t -> p = t.
Proof.
  intros names name f p t. unfold placeholder. destruct (supported _); [|discriminate].
  destruct f as [[d|d] ty|ty|v [s|k] ty|v ps ty|ty]; cbn; intros [= <-] [= <-]; reflexivity.
Qed.
Lemma takes_ok : forall t, supported t = true <-> takes t.
Proof. unfold takes. intros [| | |n]; cbn; split; auto; try discriminate. intros [E|[E|E]]; discriminate. Qed.
Lemma placeholder_ok : forall f, (exists p, placeholder (Feature f) = Ok p) <-> takes (type_of f) /\ plain f.
Proof.
  intros f. unfold placeholder. change (dtype_of (Feature f)) with (type_of f). rewrite <- takes_ok. destruct (supported (type_of f)).
  - destruct f as [[d|d] ty|ty|v [s|k] ty|v ps ty|ty]; cbn; split; (intros [? X] || intros _); try discriminate; try (now destruct X); eauto.
  - split; [intros [p X]; discriminate | intros [X _]; discriminate].
Qed.

(** ** Dicts *)

Section dicts.
  Context {V : Type}.
  Implicit Types d o : list (string * V).
  Definition keys d := map fst d.
  Lemma set_in : forall d k v k' x, In (k', x) (set d k v) -> k' = k /\ x = v \/ In (k', x) d.
  Proof.
    induction d as [|[a b] d IH]; intros k v k' x; cbn.
    - intros [[= <- <-]|[]]; now left.
    - destruct (String.eqb k a); cbn; intros [E|I]; auto; [injection E as <- <-; now left|].
      destruct (IH k v k' x I) as [H|H]; auto.
  Qed.
  Lemma set_new : forall d k v, In (k, v) (set d k v).
  Proof. induction d as [|[a b] d IH]; intros k v; cbn; [now left|]. destruct (String.eqb k a); [now left | right; apply IH]. Qed.
  Lemma set_old : forall d k v k' x, In (k', x) d -> k' <> k -> In (k', x) (set d k v).
  Proof.
    induction d as [|[a b] d IH]; intros k v k' x I N; cbn; [destruct I|].
    destruct (String.eqb_spec k a) as [->|]; destruct I as [[= <- <-]|I]; [now destruct N | now right | now left | right; now apply IH].
  Qed.
  Lemma set_keys : forall d k v k', In k' (keys (set d k v)) <-> k' = k \/ In k' (keys d).
  Proof.
    induction d as [|[a b] d IH]; intros k v k'; cbn; [intuition congruence|].
    destruct (String.eqb_spec k a) as [->|]; cbn; [intuition congruence|]. rewrite IH. tauto.
  Qed.
  Lemma set_nodup : forall d k v, NoDup (keys d) -> NoDup (keys (set d k v)).
  Proof.
    induction d as [|[a b] d IH]; intros k v N; cbn in *; [repeat constructor; auto|].
    inversion N as [|? ? N1 N2]; subst. destruct (String.eqb_spec k a) as [->|Ne]; cbn; [now constructor|].
    constructor; [|now apply IH]. intros I. apply set_keys in I. destruct I as [->|I]; [now destruct Ne | now destruct N1].
  Qed.
  Lemma update_in : forall o d k x, In (k, x) (update d o) -> In (k, x) o \/ In (k, x) d.
  Proof.
    unfold update. induction o as [|[a b] o IH]; intros d k x; cbn; [auto|]. intros I. apply IH in I.
    destruct I as [I|I]; [auto|]. apply set_in in I. cbn in I. destruct I as [[-> ->]|I]; auto.
  Qed.
  Lemma update_old : forall o d k x, In (k, x) d -> ~ In k (keys o) -> In (k, x) (update d o).
  Proof.
    unfold update. induction o as [|[a b] o IH]; intros d k x I N; cbn in *; [exact I|]. apply IH; [|tauto].
    apply set_old; [exact I|]. intros ->. apply N. now left.
  Qed.
  Lemma update_new : forall o d k x, NoDup (keys o) -> In (k, x) o -> In (k, x) (update d o).
  Proof.
    unfold update. induction o as [|[a b] o IH]; intros d k x N I; cbn in *; [destruct I|].
    inversion N as [|? ? N1 N2]; subst. destruct I as [[= -> ->]|I].
    - apply (update_old o); [apply set_new | exact N1].
    - now apply IH.
  Qed.
  Lemma update_nodup : forall o d, NoDup (keys d) -> NoDup (keys (update d o)).
  Proof. unfold update. induction o as [|[a b] o IH]; intros d N; cbn; [exact N|]. apply IH. now apply set_nodup. Qed.
  Lemma get_in : forall d k x, NoDup (keys d) -> (get d k = Some x <-> In (k, x) d).
  Proof.
    induction d as [|[a b] d IH]; intros k x N; cbn in *; [split; [discriminate | intros []]|].
    inversion N as [|? ? N1 N2]; subst. destruct (String.eqb_spec k a) as [->|Ne].
    - split; [intros [= ->]; now left|]. intros [[= ->]|I]; [reflexivity|]. destruct N1. now apply (in_map fst) in I.
    - rewrite IH by exact N2. split; [auto|]. intros [[= -> ->]|I]; [now destruct Ne | exact I].
  Qed.
  Lemma get_none : forall d k, (forall x, ~ In (k, x) d) -> get d k = None.
  Proof.
    induction d as [|[a b] d IH]; intros k N; cbn; [reflexivity|]. destruct (String.eqb_spec k a) as [->|Ne].
    - exfalso. apply (N b). now left.
    - apply IH. intros x I. apply (N x). now right.
  Qed.
End dicts.

(** ** Domains *)

Fixpoint feature_induction (P : feature -> Prop) (leaf : forall n d, P (Leaf n d))
    (struct : forall s fs, (forall f, In f fs -> P f) -> P (Struct s fs)) (f : feature) : P f :=
  match f with
  | Leaf n d => leaf n d
  | Struct s fs => struct s fs ((fix all (l : list feature) : forall f, In f l -> P f :=
      match l with
      | [] => fun f I => match I with end
      | g :: l' => fun f I => match I with or_introl E => eq_ind g P (feature_induction P leaf struct g) f E | or_intror I' => all l' f I' end
      end) fs)
  end.

Section domains.
  Variable sd : list (string * string).
  Lemma struct_domains : forall s fs, source_domains sd (Struct s fs) = get_source_feature_domains sd fs.
  Proof.
    intros s fs. unfold get_source_feature_domains. cbn [source_domains]. generalize (@nil (string * string)).
    induction fs as [|f fs IH]; intros r; cbn; [reflexivity|]. apply IH.
  Qed.
  Lemma domains_nodup : forall fs r, NoDup (keys r) -> NoDup (keys (fold_left (fun result f => update result (source_domains sd f)) fs r)).
  Proof. induction fs as [|f fs IH]; intros r N; cbn; [exact N|]. apply IH. now apply update_nodup. Qed.
  Lemma source_nodup : forall f, NoDup (keys (source_domains sd f)).
  Proof.
    intros [n d|s fs].
    - cbn. destruct (get_domain sd d); repeat constructor; auto.
    - rewrite struct_domains. apply domains_nodup. constructor.
  Qed.
  Lemma fold_in : forall fs r n x, In (n, x) (fold_left (fun result f => update result (source_domains sd f)) fs r) ->
    (exists f, In f fs /\ In (n, x) (source_domains sd f)) \/ In (n, x) r.
  Proof.
    induction fs as [|f fs IH]; intros r n x; cbn; [auto|]. intros I. apply IH in I.
    destruct I as [[g [G I]]|I]; [left; exists g; auto|]. apply update_in in I. destruct I as [I|I]; [left; exists f; auto | auto].
  Qed.
  Lemma source_sound : forall f n x, In (n, x) (source_domains sd f) -> exists d, column_of [f] n d /\ get_domain sd d = Some x.
  Proof.
    intros f. induction f as [m d|s fs IH] using feature_induction; intros n x I.
    - cbn in I. destruct (get_domain sd d) as [y|] eqn:E; [|destruct I]. destruct I as [[= <- <-]|[]].
      exists d. split; [apply column_here; now left | exact E].
    - rewrite struct_domains in I. apply fold_in in I. destruct I as [[f [F I]]|[]].
      destruct (IH f F n x I) as [d [C E]]. exists d. split; [|exact E]. apply column_in with s fs; [now left|].
      inversion C as [? ? ? H|? s' ch ? ? H H']; subst.
      + destruct H as [->|[]]. now apply column_here.
      + destruct H as [->|[]]. now apply column_in with s' ch.
  Qed.
  Lemma column_columns : forall fs n d, column_of fs n d -> In n (flat_map columns fs).
  Proof.
    intros fs n d C. induction C as [fs n d I|fs s ch n d I C IH]; apply in_flat_map; eexists; (split; [exact I|]); cbn; auto.
  Qed.
  Lemma source_columns : forall f n, In n (keys (source_domains sd f)) -> In n (columns f).
  Proof.
    intros f n I. apply in_map_iff in I. destruct I as [[m x] [<- I]]. apply source_sound in I. destruct I as [d [C _]].
    apply column_columns in C. cbn in C. now rewrite app_nil_r in C.
  Qed.
  Lemma fold_kept : forall fs r n x, In (n, x) r -> ~ In n (flat_map columns fs) ->
    In (n, x) (fold_left (fun result f => update result (source_domains sd f)) fs r).
  Proof.
    induction fs as [|f fs IH]; intros r n x I N; cbn in *; [exact I|]. apply IH.
    - apply update_old; [exact I|]. intros K. apply N, in_or_app. left. now apply source_columns.
    - intros K. apply N, in_or_app. now right.
  Qed.
  Lemma fold_complete : forall fs r f n x, NoDup (flat_map columns fs) -> In f fs -> In (n, x) (source_domains sd f) -> 
    In (n, x) (fold_left (fun result f => update result (source_domains sd f)) fs r).
  Proof.
    induction fs as [|g fs IH]; intros r f n x N I X; [destruct I|]. cbn [flat_map] in N. cbn [fold_left].
    destruct I as [->|I].
    - apply fold_kept; [apply update_new; [apply source_nodup | exact X]|].
      intros K. assert (C : In n (columns f)) by (apply source_columns; now apply (in_map fst) in X).
      clear - N C K. induction (columns f) as [|c cs IHc]; [destruct C|]. cbn in N. inversion N as [|? ? N1 N2]; subst.
      destruct C as [->|C]; [apply N1, in_or_app; now right | now apply IHc].
    - apply IH with f; try assumption. clear - N. induction (columns g); [exact N|]. cbn in N. inversion N; subst. auto.
  Qed.
  Lemma nodup_part : forall fs f, In f fs -> NoDup (flat_map columns fs) -> NoDup (columns f).
  Proof.
    induction fs as [|g fs IH]; intros f I N; [destruct I|]. cbn in N. destruct I as [->|I].
    - clear - N. induction (columns f) as [|c cs IHc]; [constructor|]. cbn in N. inversion N as [|? ? N1 N2]; subst.
      constructor; [intros K; apply N1, in_or_app; now left | now apply IHc].
    - apply IH; [exact I|]. clear - N. induction (columns g); [exact N|]. cbn in N. inversion N; subst. auto.
  Qed.
  Lemma source_complete : forall fs n d, column_of fs n d -> NoDup (flat_map columns fs) -> forall x, get_domain sd d = Some x ->
    In (n, x) (get_source_feature_domains sd fs).
  Proof.
    intros fs n d C. induction C as [fs n d I|fs s ch n d I C IH]; intros N x E.
    - apply fold_complete with (Leaf n d); try assumption. cbn. rewrite E. now left.
    - apply fold_complete with (Struct s ch); try assumption. rewrite struct_domains. apply IH; [|exact E].
      exact (nodup_part fs (Struct s ch) I N).
  Qed.
  Lemma one_column : forall fs n d d', column_of fs n d -> column_of fs n d' -> NoDup (flat_map columns fs) -> d = d'.
  Proof.
    assert (U : forall fs f g n, In f fs -> In g fs -> NoDup (flat_map columns fs) -> In n (columns f) -> In n (columns g) -> f = g).
    { induction fs as [|h fs IH]; intros f g n F G N Cf Cg; [destruct F|]. cbn in N.
      assert (D : forall k, In k fs -> In n (columns h) -> In n (columns k) -> False).
      { intros k K Ch Ck. assert (X : In n (flat_map columns fs)) by (apply in_flat_map; eauto).
        clear - N Ch X. induction (columns h) as [|c cs IHc]; [destruct Ch|]. cbn in N. inversion N as [|? ? N1 N2]; subst.
        destruct Ch as [->|Ch]; [apply N1, in_or_app; now right | now apply IHc]. }
      destruct F as [->|F], G as [->|G]; [reflexivity | | |].
      - destruct (D g G Cf Cg).
      - destruct (D f F Cg Cf).
      - apply (IH f g n F G); try assumption. clear - N. induction (columns h); [exact N|]. cbn in N. inversion N; subst. auto. }
    intros fs n d d' C. revert d'. induction C as [fs n d I|fs s ch n d I C IH]; intros d' C' N; inversion C' as [? ? ? I'|? s' ch' ? ? I' C2]; subst.
    - assert (E : Leaf n d = Leaf n d') by (apply (U fs _ _ n I I' N); now left). now injection E.
    - exfalso. assert (E : Leaf n d = Struct s' ch') by (apply (U fs _ _ n I I' N); [now left | exact (column_columns _ _ _ C2)]). discriminate.
    - exfalso. assert (E : Struct s ch = Leaf n d') by (apply (U fs _ _ n I I' N); [exact (column_columns _ _ _ C) | now left]). discriminate.
    - assert (E : Struct s ch = Struct s' ch') by (apply (U fs _ _ n I I' N); [exact (column_columns _ _ _ C) | exact (column_columns _ _ _ C2)]).
      injection E as <- <-. apply IH; [exact C2|]. exact (nodup_part fs (Struct s ch) I N).
  Qed.
End domains.

Lemma meant : forall s d r, NoDup (map fst (string_domains s)) -> means s d r -> get_domain (get_string_domains s) d = r.
Proof.
  intros s d r N M. assert (N' : NoDup (keys (get_string_domains s))) by (apply update_nodup; constructor).
  destruct M as [|d|n d I|n I]; try reflexivity; cbn [get_domain].
  - apply get_in; [exact N'|]. now apply update_new.
  - apply get_none. intros x X. apply update_in in X. destruct X as [X|[]]. exact (I x X).
Qed.

Lemma domains_right : forall s context sequence specs ds,
  NoDup (map fst context) -> NoDup (flat_map columns (features s)) -> NoDup (map fst (string_domains s)) ->
  sequence_schema_as_feature_spec s context sequence = Ok (specs, ds) ->
  forall n f c, In (n, f) specs -> values_in n f c ->
  (forall d r, column_of (features s) c d -> means s d r -> get ds n = r) /\
  ((forall d, ~ column_of (features s) c d) -> get ds n = None).
Proof.
  intros s ctx seq specs ds Nc Nl Nd E n f c I V.
  unfold sequence_schema_as_feature_spec in E.
  set (by_name := get_source_feature_domains (get_string_domains s) (features s)) in *.
  destruct (each _ (update ctx seq)) as [es|e] eqn:Ee; [|discriminate]. injection E as <- <-.
  apply each_ok in Ee. assert (Ns : NoDup (keys (update ctx seq))) by now apply update_nodup.
  assert (G : get (flat_map (fun e => match snd e with Some d => [(fst e, d)] | None => [] end) es) n = get by_name c).
  { revert I Ns. induction Ee as [|[k g] [k' o] l l' [K1 K2] F IH]; intros I Ns; [destruct I|]. cbn [fst snd keys map] in *. subst k'.
    inversion Ns as [|? ? N1 N2]; subst. destruct I as [[= -> ->]|I].
    - assert (Src : source_feature_name n f = Some c) by (destruct V; reflexivity). rewrite Src in K2. injection K2 as <-.
      cbn [flat_map snd fst]. destruct (get by_name c) as [x|]; [cbn; now rewrite String.eqb_refl|]. cbn [app].
      apply get_none. intros x X. apply in_flat_map in X. destruct X as [[k1 o1] [X1 X2]].
      apply N1. clear - F X1 X2. cbn in X2. destruct o1; [|destruct X2]. destruct X2 as [[= -> ->]|[]].
      induction F as [|[a1 a2] [b1 b2] la lb [H _] F IHF]; [destruct X1|]. cbn in *. destruct X1 as [[= -> ->]|X1]; [left; exact H | right; now apply IHF].
    - assert (Ne : n <> k). { intros ->. apply N1. now apply (in_map fst) in I. }
      cbn [flat_map snd fst]. destruct o as [x|]; cbn [app get]; [destruct (String.eqb_spec n k); [now destruct Ne|]|]; now apply IH. }
  rewrite G. assert (Nb : NoDup (keys by_name)) by (apply domains_nodup; constructor). split.
  - intros d r C M. apply meant in M; [|exact Nd]. destruct (get_domain (get_string_domains s) d) as [x|] eqn:Ed; subst r.
    + apply get_in; [exact Nb|]. now apply source_complete with d.
    + apply get_none. intros x X. apply (fold_in (get_string_domains s)) in X. destruct X as [[g [Gi X]]|[]].
      apply source_sound in X. destruct X as [d' [C' E']].
      assert (C2 : column_of (features s) c d').
      { inversion C' as [? ? ? H|? s' ch ? ? H H']; subst; destruct H as [->|[]]; [now apply column_here | now apply column_in with s' ch]. }
      rewrite (one_column (features s) c d' d C2 C Nl) in E'. congruence.
  - intros No. apply get_none. intros x X. apply (fold_in (get_string_domains s)) in X. destruct X as [[g [Gi X]]|[]].
    apply source_sound in X. destruct X as [d' [C' E']]. apply (No d').
    inversion C' as [? ? ? H|? s' ch ? ? H H']; subst; destruct H as [->|[]]; [now apply column_here | now apply column_in with s' ch].
Qed.
Lemma specs_union : forall s context sequence specs ds,
  NoDup (map fst context) -> NoDup (map fst sequence) -> (forall n, In n (map fst context) -> ~ In n (map fst sequence)) ->
  sequence_schema_as_feature_spec s context sequence = Ok (specs, ds) ->
  forall n f, In (n, f) specs <-> In (n, f) context \/ In (n, f) sequence.
Proof.
  intros s ctx seq specs ds Nc Ns D E n f. unfold sequence_schema_as_feature_spec in E.
  destruct (each _ (update ctx seq)) as [es|e]; [|discriminate]. injection E as <- <-. split.
  - intros I. apply update_in in I. tauto.
  - intros [I|I]; [|now apply update_new]. apply update_old; [exact I|]. apply D. now apply (in_map fst) in I.
Qed.

(** ** Placeholders of dicts *)

Lemma each_total : forall A B (f : string -> A -> result B) d, (exists r, each f d = Ok r) <-> (forall n x, In (n, x) d -> exists y, f n x = Ok y).
Proof.
  intros A B f d. split.
  - intros [r E] n x I. apply each_ok in E. induction E as [|a b la lb [K H] F IH]; [destruct I|].
    destruct I as [->|I]; [exists (snd b); exact H | now apply IH].
  - intros H. induction d as [|[k x] d IH]; cbn; [eauto|]. destruct (H k x (or_introl eq_refl)) as [y ->].
    destruct IH as [r ->]; [|eauto]. intros n z I. apply H. now right.
Qed.
Definition featured (d : list (string * feature_spec)) : list (string * spec) := map (fun e => (fst e, Feature (snd e))) d.
Definition typed (d : list (string * type_spec)) : list (string * spec) := map (fun e => (fst e, Type_spec (snd e))) d.
Lemma each_featured : forall d r, each (fun _ => placeholder) (featured d) = Ok r <-> each (fun _ f => placeholder (Feature f)) d = Ok r.
Proof.
  intros d. unfold featured. induction d as [|[k f] d IH]; intros r; cbn; [tauto|]. destruct (placeholder (Feature f)) as [y|e]; [|tauto].
  destruct (each _ (map _ d)) as [ys|e]; [rewrite (proj1 (IH ys) eq_refl); tauto|].
  destruct (each (fun _ f => placeholder (Feature f)) d) as [zs|e']; [specialize (proj2 (IH zs) eq_refl); discriminate|].
  split; discriminate.
Qed.
Lemma placeholders_same : forall names d p t,
  batched_placeholders_from_specs (featured d) = Ok p -> get_type_specs_from_feature_specs d names = Ok t -> p = t.
Proof.
  intros names d p t P T. unfold batched_placeholders_from_specs in P. destruct (_ || _); [|discriminate].
  apply each_featured, each_ok in P. apply each_ok in T. revert t T. induction P as [|[k f] [k1 y1] la lb [K1 H1] F IH]; intros t T; inversion T as [|a [k2 y2] lc ld [K2 H2] F2]; subst; [reflexivity|].
  cbn [fst snd] in *. subst k1 k2. rewrite (placeholder_same names k f y1 y2 H1 H2). f_equal. now apply IH.
Qed.
Lemma placeholders_accepted : forall d,
  (exists p, batched_placeholders_from_specs (featured d) = Ok p) <-> (forall n f, In (n, f) d -> takes (type_of f) /\ plain f).
Proof.
  intros d. assert (X : (exists p, each (fun _ : string => placeholder) (featured d) = Ok p) <-> (forall n f, In (n, f) d -> takes (type_of f) /\ plain f)).
  { rewrite each_total. split.
    - intros H n f I. apply placeholder_ok. apply (H n). apply in_map_iff. now exists (n, f).
    - intros H n s I. apply in_map_iff in I. destruct I as [[m f] [[= <- <-] I]]. apply placeholder_ok. exact (H m f I). }
  rewrite <- X. unfold batched_placeholders_from_specs. destruct (_ || _) eqn:B; [tauto|]. split; [intros [p E]; discriminate|].
  intros Y. exfalso. rewrite X in Y. apply orb_false_iff in B. destruct B as [B _].
  assert (C : forallb (fun e => is_feature_spec (snd e)) (featured d) = true).
  { apply forallb_forall. intros [n s] I. apply in_map_iff in I. destruct I as [[m f] [[= <- <-] I]]. destruct (Y m f I) as [_ Pl].
    destruct f; try reflexivity. destruct Pl. }
  congruence.
Qed.
Lemma placeholders_typed : forall d, (forall n t, In (n, t) d -> takes (of_type t)) -> batched_placeholders_from_specs (typed d) = Ok d.
Proof.
  intros d H. unfold batched_placeholders_from_specs.
  assert (C : forallb (fun e => is_type_spec (snd e)) (typed d) = true).
  { apply forallb_forall. intros [n s] I. apply in_map_iff in I. destruct I as [[m f] [[= <- <-] I]]. reflexivity. }
  rewrite C, orb_true_r. apply each_ok. unfold typed. induction d as [|[n t] d IH]; cbn [map]; constructor.
  - cbn [fst snd]. split; [reflexivity|]. unfold placeholder.
    assert (S : supported (dtype_of (Type_spec t)) = true).
    { apply takes_ok. replace (dtype_of (Type_spec t)) with (of_type t) by now destruct t. apply (H n). now left. }
    rewrite S. reflexivity.
  - apply IH; [intros m u I; apply (H m); now right|]. cbn in C. exact C.
Qed.
Lemma placeholders_mixed : forall d n f m t, In (n, Feature f) d -> In (m, Type_spec t) d -> batched_placeholders_from_specs d = Err TypeError.
Proof.
  intros d n f m t I J. unfold batched_placeholders_from_specs.
  destruct (forallb (fun e => is_feature_spec (snd e)) d) eqn:E1.
  - rewrite forallb_forall in E1. apply E1 in J. discriminate.
  - destruct (forallb (fun e => is_type_spec (snd e)) d) eqn:E2; [|reflexivity]. rewrite forallb_forall in E2. apply E2 in I. discriminate.
Qed.
Lemma converter_right : forall s specs types name f T sequence n v, NoDup (map fst specs) ->
  converter_types s specs = Ok types -> In (name, f) specs -> get types name = Some T ->
  (sequence = true <-> In name (flat_map child_names (features s))) -> parsed sequence n f v ->
  (has_type (type_of f) v T <-> forall vk ps t, f = Ragged vk ps t -> uniform_last ps).
Proof.
  intros s specs types name f T sequence n v N E I G S P.
  assert (TS : type_spec_of (flat_map child_names (features s)) name f = Ok T); [|exact (types_right _ _ _ _ _ _ _ TS P S)].
  unfold converter_types, get_type_specs_from_feature_specs in E. apply each_ok in E. clear P S. revert N I G.
  induction E as [|[k g] [k1 y1] la lb [K1 H1] F IH]; intros N I G; [destruct I|]. cbn [fst snd map get] in *. subst k1.
  inversion N as [|? ? N1 N2]; subst. destruct I as [[= -> ->]|I].
  - rewrite String.eqb_refl in G. injection G as ->. exact H1.
  - destruct (String.eqb_spec name k) as [->|]; [exfalso; apply N1; now apply (in_map fst) in I | now apply IH].
Qed.
