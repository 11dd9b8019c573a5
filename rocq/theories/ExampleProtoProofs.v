(** Proofs about the coder of `tf.train.Example` messages. *)
From Coq Require Import String List Bool Arith Lia.
From Verif Require Import ExampleProtoModel ExampleProtoSpec.
Import ListNotations.
Local Notation length := List.length.

(** * Handlers *)
Lemma partition_handlers_spec : forall ps u hs, partition_handlers u ps = Ok hs ->
  hs = map (fun key => Handler key KInt64 None) (row_length_keys ps).
Proof.
  induction ps as [|p ps IH]; intros u hs H; cbn in H; [now inversion H|].
  destruct p as [key| |]; [|exact (IH _ _ H)|discriminate].
  destruct u; [discriminate|].
  destruct (partition_handlers false ps) as [hs'|e] eqn:E; [|discriminate].
  inversion H; subst. cbn. now rewrite (IH _ _ E).
Qed.

Definition triple (h : handler) : string * kind * option (list nat) :=
  (h_name h, h_kind h, h_fixed h).

Lemma make_handlers_spec : forall features hs, make_handlers features = Ok hs ->
  map triple hs = flat_map columns_of features.
Proof.
  induction features as [|[name spec] features IH]; intros hs H; cbn [make_handlers] in H.
  - now inversion H.
  - destruct (feature_handlers name spec) as [h1|e] eqn:E; [|discriminate].
    destruct (make_handlers features) as [h2|e]; [|discriminate].
    inversion H; subst hs. rewrite map_app, (IH h2 eq_refl). cbn [flat_map]. f_equal.
    unfold columns_of. cbn [fst snd].
    destruct spec as [k shape|k|k ks vk|k ps vk|]; cbn in E.
    + now inversion E.
    + now inversion E.
    + inversion E; subst. rewrite map_app, map_map. reflexivity.
    + destruct (partition_handlers false ps) as [hs'|e] eqn:Ep; [|discriminate].
      inversion E; subst. rewrite map_app, (partition_handlers_spec _ _ _ Ep), map_map.
      reflexivity.
    + discriminate.
Qed.

(** Handlers of one name are the same. *)
Definition agree (hs : list handler) : Prop :=
  forall h h', In h hs -> In h' hs -> h_name h = h_name h' -> h = h'.

Lemma consistent_agree : forall features hs, make_handlers features = Ok hs ->
  consistent features -> agree hs.
Proof.
  intros features hs H C h h' Hh Hh' E. pose proof (make_handlers_spec _ _ H) as T.
  assert (K : forall x, In x hs -> exists f, In f features /\ In (triple x) (columns_of f)).
  { intros x Hx. apply (in_map triple) in Hx. rewrite T in Hx. apply in_flat_map in Hx.
    destruct Hx as (f & F1 & F2). now exists f. }
  destruct (K _ Hh) as (f & F1 & F2). destruct (K _ Hh') as (f' & F1' & F2').
  unfold triple in F2, F2'. rewrite E in F2.
  destruct (C _ _ _ _ _ _ _ F1 F1' F2 F2') as (E1 & E2).
  destruct h, h'. cbn in *. now subst.
Qed.

Section Coder.
Variables V P : Type.
Variable payload : kind -> V -> outcome P.
Variable reshape : kind -> field_value V -> outcome (list V).
Variable touch : bool.
Notation slot := (slot P).
Notation message := (list (string * slot)).

(** * Updating a message *)
Lemma update_names : forall name f (m : message), map fst (update name f m) = map fst m.
Proof.
  induction m as [|[n s] m IH]; [reflexivity|]. cbn. destruct (String.eqb n name); cbn; congruence.
Qed.

Lemma slot_of_update : forall name f (m : message),
  slot_of name (update name f m) = option_map f (slot_of name m).
Proof.
  induction m as [|[n s] m IH]; [reflexivity|]. cbn.
  destruct (String.eqb n name) eqn:E; cbn; rewrite E; [reflexivity|exact IH].
Qed.

Lemma slot_of_update_other : forall name name' f (m : message), name <> name' ->
  slot_of name' (update name f m) = slot_of name' m.
Proof.
  intros name name' f m N. induction m as [|[n s] m IH]; [reflexivity|]. cbn.
  destruct (String.eqb n name) eqn:E; cbn.
  - apply String.eqb_eq in E. subst n.
    destruct (String.eqb name name') eqn:E'; [|reflexivity].
    apply String.eqb_eq in E'. contradiction.
  - now rewrite IH.
Qed.

Lemma update_update : forall name f g (m : message),
  update name g (update name f m) = update name (fun s => g (f s)) m.
Proof.
  induction m as [|[n s] m IH]; [reflexivity|]. cbn.
  destruct (String.eqb n name) eqn:E; cbn; rewrite E; [reflexivity|now rewrite IH].
Qed.

Lemma update_ext : forall name f g (m : message), (forall s, f s = g s) ->
  update name f m = update name g m.
Proof.
  intros name f g m H. induction m as [|[n s] m IH]; [reflexivity|]. cbn.
  rewrite H, IH. reflexivity.
Qed.

Lemma update_id : forall name (m : message), update name (fun s => s) m = m.
Proof.
  induction m as [|[n s] m IH]; [reflexivity|]. cbn. rewrite IH.
  now destruct (String.eqb n name).
Qed.

Lemma through_through : forall g f f' (s : slot),
  through g f' (through g f s) = through g (fun c => f' (f c)) s.
Proof.
  intros g f f' s. unfold through at 2 3. destruct (Nat.eqb (generation s) g) eqn:E.
  - unfold through. cbn. now rewrite E.
  - unfold through. now rewrite E.
Qed.

Lemma slot_of_In : forall name (m : message), In name (map fst m) <-> exists s, slot_of name m = Some s.
Proof.
  intros name m. induction m as [|[n s] m IH]; cbn.
  - split; [intros []|intros (s & H); discriminate].
  - destruct (String.eqb n name) eqn:E.
    + apply String.eqb_eq in E. split; [intros _; now exists s|now left].
    + rewrite <- IH. apply String.eqb_neq in E. tauto.
Qed.

(** * One value *)
Fixpoint casts (k : kind) (l : list V) : outcome (list P) :=
  match l with
  | [] => Ok []
  | v :: l => match payload k v with
              | Raise e => Raise e
              | Ok p => match casts k l with Raise e => Raise e | Ok ps => Ok (p :: ps) end
              end
  end.

Lemma casts_spec : forall k l ps, casts k l = Ok ps -> Forall2 (fun v p => payload k v = Ok p) l ps.
Proof.
  induction l as [|v l IH]; intros ps H; cbn in H; [inversion H; constructor|].
  destruct (payload k v) as [p|e] eqn:E; [|discriminate].
  destruct (casts k l) as [qs|e]; [|discriminate]. inversion H; subst. constructor; auto.
Qed.

(** What a value is stored as, whatever was stored before. *)
Definition alone (h : handler) (v : field_value V) : outcome (option (list P)) :=
  match h_fixed h, v with
  | None, FNone => Ok None
  | fixed, _ =>
      match match fixed with Some shape => fixed_values reshape h shape v | None => varlen_values v end with
      | Raise e => Raise e
      | Ok l => match casts (h_kind h) l with Raise e => Raise e | Ok ps => Ok (Some ps) end
      end
  end.

Definition done {A} (o : outcome A) : outcome unit :=
  match o with Ok _ => Ok tt | Raise e => Raise e end.

(** Adding values one by one. *)
Definition put (k : kind) (ps : list P) (c : option (kind * list P)) : option (kind * list P) :=
  fold_left (fun c p => append_one k p c) ps c.

Lemma extend_spec : forall h g l (m m' : message) r, extend payload h g l m = (m', r) ->
  exists ps, m' = update (h_name h) (through g (put (h_kind h) ps)) m
    /\ r = done (casts (h_kind h) l)
    /\ (forall qs, casts (h_kind h) l = Ok qs -> ps = qs).
Proof.
  intros h g. induction l as [|v l IH]; intros m m' r E; cbn in E.
  - inversion E; subst. exists []. split; [|split; [reflexivity|]].
    + rewrite (update_ext _ _ (fun s => s)); [now rewrite update_id|].
      intros [gg cc]. unfold through. cbn. now destruct (Nat.eqb gg g).
    + cbn. intros qs H. now inversion H.
  - cbn [casts]. destruct (payload (h_kind h) v) as [p|e] eqn:Ep.
    + destruct (IH _ _ _ E) as (ps & E1 & E2 & E3). exists (p :: ps). split; [|split].
      * rewrite E1, update_update. apply update_ext. intro s. now rewrite through_through.
      * rewrite E2. now destruct (casts (h_kind h) l).
      * intros qs H. destruct (casts (h_kind h) l) as [qs'|e]; [|discriminate].
        inversion H; subst. now rewrite (E3 _ eq_refl).
    + inversion E; subst. exists []. split; [|split; [reflexivity|discriminate]].
      rewrite (update_ext _ _ (fun s => s)); [now rewrite update_id|].
      intros [gg cc]. unfold through. cbn. now destruct (Nat.eqb gg g).
Qed.

Lemma encode_value_spec : forall h g v (m : message) g' m' r,
  encode_value payload reshape touch h g v m = (g', m', r) ->
  r = done (alone h v)
  /\ ((alone h v = Ok None
       /\ m' = update (h_name h) (fun s => Slot (S (generation s)) None) m
       /\ g' = match slot_of (h_name h) m' with Some s => generation s | None => g end)
      \/ (alone h v <> Ok None /\ g' = g
          /\ exists ps, m' = update (h_name h)
                  (through g (fun c => put (h_kind h) ps (delete_all touch (h_kind h) c))) m
                /\ forall qs, alone h v = Ok (Some qs) -> ps = qs)).
Proof.
  intros h g v m g' m' r E. unfold encode_value in E. unfold alone.
  assert (K : forall o,
    match o with
    | Ok l => let '(m0, r0) := extend payload h g l
                (update (h_name h) (through g (delete_all touch (h_kind h))) m) in (g, m0, r0)
    | Raise e => (g, update (h_name h) (through g (delete_all touch (h_kind h))) m, Raise e)
    end = (g', m', r) ->
    let a := match o with
             | Ok l => match casts (h_kind h) l with Ok ps => Ok (Some ps) | Raise e => Raise e end
             | Raise e => Raise e
             end in
    r = done a /\ (a <> Ok None /\ g' = g
          /\ exists ps, m' = update (h_name h)
                  (through g (fun c => put (h_kind h) ps (delete_all touch (h_kind h) c))) m
                /\ forall qs, a = Ok (Some qs) -> ps = qs)).
  { intros o Eo a. subst a. destruct o as [l|e].
    - destruct (extend payload h g l (update (h_name h) (through g (delete_all touch (h_kind h))) m))
        as [m0 r0] eqn:Ee. inversion Eo; subst.
      destruct (extend_spec _ _ _ _ _ _ Ee) as (ps & E1 & E2 & E3).
      split; [rewrite E2; now destruct (casts (h_kind h) l)|].
      split; [now destruct (casts (h_kind h) l)|]. split; [reflexivity|].
      exists ps. split.
      + rewrite E1, update_update. apply update_ext. intro s. now rewrite through_through.
      + intros qs H. destruct (casts (h_kind h) l) as [qs'|e]; [|discriminate].
        inversion H; subst. now apply E3.
    - inversion Eo; subst. split; [reflexivity|]. split; [discriminate|]. split; [reflexivity|].
      exists []. split; [reflexivity|discriminate]. }
  destruct (h_fixed h) as [shape|] eqn:F.
  - destruct (K _ E) as (K1 & K2). split; [exact K1|]. right. exact K2.
  - destruct v as [|x|l|x|l].
    1: { inversion E; subst. split; [reflexivity|]. left. auto. }
    all: match type of E with
         | match ?o with _ => _ end = _ => destruct (K o E) as (K1 & K2)
         end; (split; [exact K1|]); right; exact K2.
Qed.

(** * The invariant *)
Definition current (m : message) (h : handler) (g : nat) : Prop :=
  exists s, slot_of (h_name h) m = Some s /\ generation s = g.

Definition inv (names : list string) (hgs : list (handler * nat)) (m : message) : Prop :=
  map fst m = names
  /\ (forall h g, In (h, g) hgs -> In (h_name h) names)
  /\ (forall name, In name names -> exists h g, In (h, g) hgs /\ h_name h = name /\ current m h g)
  /\ (forall h g s k l, In (h, g) hgs -> slot_of (h_name h) m = Some s ->
        content s = Some (k, l) -> k = h_kind h).

Lemma put_kind : forall k ps c k' l, put k ps c = Some (k', l) ->
  k' = k \/ exists l', c = Some (k', l').
Proof.
  induction ps as [|p ps IH]; intros c k' l H; cbn in H.
  - right. now exists l.
  - destruct (IH _ _ _ H) as [E|(l' & E)]; [now left|].
    unfold append_one in E. destruct c as [[k'' l'']|]; inversion E; subst; [right|left]; eauto.
Qed.

Lemma delete_kind : forall k c k' l, delete_all touch k c = Some (k', l) ->
  k' = k \/ exists l', c = Some (k', l') :> option (kind * list P).
Proof.
  intros k c k' l H. destruct c as [[k'' l'']|]; cbn in H.
  - inversion H; subst. right. eauto.
  - destruct touch; inversion H; subst. now left.
Qed.

Lemma step_inv : forall names pre h g post v (m : message) g' m' r,
  agree (map fst (pre ++ (h, g) :: post)) ->
  inv names (pre ++ (h, g) :: post) m ->
  encode_value payload reshape touch h g v m = (g', m', r) ->
  inv names (pre ++ (h, g') :: post) m'.
Proof.
  intros names pre h g post v m g' m' r A (I1 & I2 & I3 & I4) E.
  assert (Hin : forall x y gx, In (x, gx) (pre ++ (h, y) :: post) ->
            exists gx', In (x, gx') (pre ++ (h, g) :: post)).
  { intros x y gx H. apply in_app_or in H. destruct H as [H|[H|H]].
    - exists gx. apply in_or_app. now left.
    - inversion H; subst. exists g. apply in_or_app. right. now left.
    - exists gx. apply in_or_app. right. now right. }
  assert (Same : forall x gx, In (x, gx) (pre ++ (h, g) :: post) -> h_name x = h_name h -> x = h).
  { intros x gx H N. apply A; [| |exact N].
    - apply in_map_iff. exists (x, gx). split; [reflexivity|exact H].
    - apply in_map_iff. exists (h, g). split; [reflexivity|]. apply in_or_app. right. now left. }
  assert (Hh : In (h_name h) names).
  { apply (I2 h g). apply in_or_app. right. now left. }
  destruct (encode_value_spec _ _ _ _ _ _ _ E) as (_ & [(_ & Em & Eg)|(_ & Eg & ps & Em & _)]).
  - (* clear *)
    assert (Hs : exists s, slot_of (h_name h) m = Some s) by (apply slot_of_In; now rewrite I1).
    destruct Hs as (s & Hs).
    assert (Hs' : slot_of (h_name h) m' = Some (Slot (S (generation s)) None))
      by (rewrite Em, slot_of_update, Hs; reflexivity).
    rewrite Hs' in Eg. cbn in Eg.
    split; [|split; [|split]].
    + now rewrite Em, update_names.
    + intros x gx H. destruct (Hin _ _ _ H) as (gx' & H'). exact (I2 _ _ H').
    + intros name Hn. destruct (string_dec name (h_name h)) as [D|D].
      * subst name. exists h, g'. split; [apply in_or_app; right; now left|].
        split; [reflexivity|]. eexists. split; [exact Hs'|]. now rewrite Eg.
      * destruct (I3 name Hn) as (x & gx & X1 & X2 & X3).
        exists x, gx. split; [|split; [exact X2|]].
        -- apply in_app_or in X1. apply in_or_app. destruct X1 as [X1|[X1|X1]]; [now left| |right; now right].
           inversion X1; subst. now destruct D.
        -- destruct X3 as (sx & S1 & S2). exists sx. split; [|exact S2].
           rewrite Em, slot_of_update_other; [exact S1|]. intro Q. apply D. congruence.
    + intros x gx sx k l H S1 S2. destruct (Hin _ _ _ H) as (gx' & H').
      destruct (string_dec (h_name h) (h_name x)) as [D|D].
      * rewrite <- D in S1. rewrite Hs' in S1. inversion S1; subst. discriminate.
      * rewrite Em, slot_of_update_other in S1 by exact D. exact (I4 _ _ _ _ _ H' S1 S2).
  - (* write *)
    subst g'. split; [|split; [|split]].
    + now rewrite Em, update_names.
    + exact I2.
    + intros name Hn. destruct (I3 name Hn) as (x & gx & X1 & X2 & X3).
      exists x, gx. split; [exact X1|]. split; [exact X2|].
      destruct X3 as (sx & S1 & S2).
      destruct (string_dec (h_name h) (h_name x)) as [D|D].
      * eexists. split.
        { rewrite Em, <- D, slot_of_update, D, S1. reflexivity. }
        unfold through. destruct (Nat.eqb (generation sx) g); exact S2.
      * exists sx. split; [|exact S2]. now rewrite Em, slot_of_update_other.
    + intros x gx sx k l H S1 S2.
      destruct (string_dec (h_name h) (h_name x)) as [D|D].
      * pose proof (Same _ _ H (eq_sym D)) as Ex. subst x.
        rewrite Em, slot_of_update in S1.
        destruct (slot_of (h_name h) m) as [s|] eqn:Sm; [|discriminate].
        cbn in S1. inversion S1; subst sx. unfold through in S2.
        destruct (Nat.eqb (generation s) g); [|exact (I4 _ _ _ _ _ H Sm S2)].
        cbn in S2. destruct (put_kind _ _ _ _ _ S2) as [K|(l' & K)]; [exact K|].
        destruct (delete_kind _ _ _ _ K) as [K'|(l'' & K')]; [exact K'|].
        exact (I4 _ _ _ _ _ H Sm K').
      * rewrite Em, slot_of_update_other in S1 by exact D. exact (I4 _ _ _ _ _ H S1 S2).
Qed.

(** * One call *)
(** The first error of an instance. *)
Fixpoint first_error (hs : list handler) (instance : list (string * field_value V))
  : outcome unit :=
  match hs with
  | [] => Ok tt
  | h :: hs =>
      match lookup (h_name h) instance with
      | None => Raise KeyError
      | Some v => match alone h v with
                  | Raise e => Raise e
                  | Ok _ => first_error hs instance
                  end
      end
  end.

Definition good (k : kind) (ps : list P) (c : option (kind * list P)) : Prop :=
  c = Some (k, ps) \/ touch = false /\ ps = [] /\ c = None.

(** What the handlers that ran have left. *)
Definition ran (instance : list (string * field_value V)) (hgs : list (handler * nat))
    (m : message) : Prop :=
  forall h g, In (h, g) hgs -> exists v s, lookup (h_name h) instance = Some v
    /\ slot_of (h_name h) m = Some s
    /\ ((alone h v = Ok None /\ content s = None)
        \/ exists ps, alone h v = Ok (Some ps)
             /\ (generation s = g -> good (h_kind h) ps (content s))).

Lemma put_good : forall k ps c, (forall k' l, c = Some (k', l) -> k' = k) ->
  good k ps (put k ps (delete_all touch k c)).
Proof.
  intros k ps c H.
  assert (K : forall ps l, put k ps (Some (k, l)) = Some (k, l ++ ps)).
  { induction ps0 as [|p ps0 IH]; intros l; cbn; [now rewrite app_nil_r|].
    fold (put k ps0 (Some (k, l ++ [p]))). rewrite IH, <- app_assoc. reflexivity. }
  unfold good. destruct c as [[k' l]|]; cbn [delete_all].
  - rewrite (H _ _ eq_refl). rewrite K. now left.
  - destruct touch; [rewrite K; now left|].
    destruct ps as [|p ps]; [right; auto|left]. cbn. fold (put k ps (Some (k, [p]))). now rewrite K.
Qed.

Lemma step_ran : forall names pre h g post v instance (m : message) g' m',
  agree (map fst (pre ++ (h, g) :: post)) ->
  inv names (pre ++ (h, g) :: post) m ->
  lookup (h_name h) instance = Some v ->
  ran instance pre m ->
  encode_value payload reshape touch h g v m = (g', m', Ok tt) ->
  ran instance (pre ++ [(h, g')]) m'.
Proof.
  intros names pre h g post v instance m g' m' A I L R E.
  assert (Same : forall x gx, In (x, gx) pre -> h_name x = h_name h -> x = h).
  { intros x gx H N. apply A; [| |exact N].
    - apply in_map_iff. exists (x, gx). split; [reflexivity|]. apply in_or_app. now left.
    - apply in_map_iff. exists (h, g). split; [reflexivity|]. apply in_or_app. right. now left. }
  destruct I as (I1 & I2 & I3 & I4).
  assert (Hs : exists s, slot_of (h_name h) m = Some s).
  { apply slot_of_In. rewrite I1. apply (I2 h g). apply in_or_app. right. now left. }
  destruct Hs as (s & Hs).
  destruct (encode_value_spec _ _ _ _ _ _ _ E) as (Ed & [(Ea & Em & Eg)|(Na & Eg & ps & Em & Ep)]).
  - assert (Hs' : slot_of (h_name h) m' = Some (Slot (S (generation s)) None))
      by (rewrite Em, slot_of_update, Hs; reflexivity).
    intros x gx H. apply in_app_or in H.
    assert (K : h_name x = h_name h /\ x = h \/ h_name h <> h_name x /\ In (x, gx) pre).
    { destruct H as [H|[H|[]]].
      - destruct (string_dec (h_name h) (h_name x)) as [D|D]; [left|right; auto].
        split; [auto|]. exact (Same _ _ H (eq_sym D)).
      - inversion H; subst. now left. }
    destruct K as [(_ & K)|(D & K)].
    + subst x. exists v. eexists. split; [exact L|]. split; [exact Hs'|]. left. auto.
    + destruct (R _ _ K) as (vx & sx & X1 & X2 & X3). exists vx, sx. split; [exact X1|].
      split; [now rewrite Em, slot_of_update_other|exact X3].
  - subst g'.
    assert (Ea : exists qs, alone h v = Ok (Some qs)).
    { destruct (alone h v) as [[qs|]|e]; [now exists qs|congruence|discriminate]. }
    destruct Ea as (qs & Ea). specialize (Ep _ Ea). subst ps.
    assert (Hs' : slot_of (h_name h) m' = Some (through g
        (fun c => put (h_kind h) qs (delete_all touch (h_kind h) c)) s))
      by (rewrite Em, slot_of_update, Hs; reflexivity).
    assert (Gs : good (h_kind h) qs (put (h_kind h) qs (delete_all touch (h_kind h) (content s)))).
    { apply put_good. intros k' l Hc. apply (I4 h g s k' l); auto.
      apply in_or_app. right. now left. }
    intros x gx H. apply in_app_or in H.
    destruct (string_dec (h_name h) (h_name x)) as [D|D].
    + assert (Ex : x = h).
      { destruct H as [H|[H|[]]]; [exact (Same _ _ H (eq_sym D))|now inversion H]. }
      subst x. exists v. eexists. split; [exact L|]. split; [exact Hs'|].
      right. exists qs. split; [exact Ea|].
      unfold through. destruct (Nat.eqb (generation s) g) eqn:Eg; cbn; intro Gx; [exact Gs|].
      destruct H as [H|[H|[]]].
      * destruct (R _ _ H) as (vx & sx & X1 & X2 & X3).
        rewrite L in X1. inversion X1; subst vx. rewrite Hs in X2. inversion X2; subst sx.
        destruct X3 as [(X3 & _)|(qs' & X3 & X4)]; [congruence|].
        rewrite Ea in X3. inversion X3; subst. auto.
      * apply Nat.eqb_neq in Eg. inversion H. congruence.
    + destruct H as [H|[H|[]]]; [|inversion H; subst; now destruct D].
      destruct (R _ _ H) as (vx & sx & X1 & X2 & X3). exists vx, sx. split; [exact X1|].
      split; [now rewrite Em, slot_of_update_other|exact X3].
Qed.

Lemma encode_features_spec : forall names hs gs pre instance (m : message) gs' m' r,
  length gs = length hs ->
  agree (map fst pre ++ hs) ->
  inv names (pre ++ combine hs gs) m ->
  encode_features payload reshape touch hs gs instance m = (gs', m', r) ->
  r = first_error hs instance
  /\ length gs' = length hs
  /\ inv names (pre ++ combine hs gs') m'
  /\ (r = Ok tt -> ran instance pre m -> ran instance (pre ++ combine hs gs') m').
Proof.
  intros names. induction hs as [|h hs IH]; intros gs pre instance m gs' m' r Len A I E.
  - destruct gs; [|discriminate]. cbn in E. inversion E; subst.
    cbn [combine]. split; [reflexivity|]. split; [reflexivity|]. split; [exact I|].
    intros _ R. now rewrite app_nil_r.
  - destruct gs as [|g gs]; [discriminate|]. cbn [length] in Len. injection Len as Len.
    cbn [encode_features] in E. cbn [first_error].
    destruct (lookup (h_name h) instance) as [v|] eqn:L.
    2: { inversion E; subst. cbn [length]. repeat split; auto; try apply I. discriminate. }
    destruct (encode_value payload reshape touch h g v m) as [[g1 m1] r1] eqn:Ev.
    cbn [combine] in I.
    assert (A' : forall y, agree (map fst (pre ++ (h, y) :: combine hs gs))).
    { intro y. rewrite map_app. cbn [map fst].
      assert (Ec : forall (hs0 : list handler) (gs0 : list nat), length gs0 = length hs0 ->
                     map fst (combine hs0 gs0) = hs0).
      { induction hs0 as [|a hs0 IHh]; intros [|b gs0] Hl; cbn in *; try discriminate; auto.
        f_equal. apply IHh. now injection Hl. }
      rewrite (Ec _ _ Len). exact A. }
    pose proof (step_inv _ _ _ _ _ _ _ _ _ _ (A' g) I Ev) as I'.
    destruct (encode_value_spec _ _ _ _ _ _ _ Ev) as (Ed & _).
    destruct r1 as [u|e].
    + destruct u.
      destruct (encode_features payload reshape touch hs gs instance m1) as [[gs2 m2] r2] eqn:Ef.
      inversion E; subst gs' m' r. clear E.
      destruct (IH gs (pre ++ [(h, g1)]) instance m1 gs2 m2 r2 Len) as (J1 & J2 & J3 & J4).
      * rewrite map_app. cbn. rewrite <- app_assoc. exact A.
      * rewrite <- app_assoc. exact I'.
      * exact Ef.
      * destruct (alone h v) as [a|e]; [|discriminate].
        split; [exact J1|]. split; [cbn; now rewrite J2|].
        rewrite <- app_assoc in J3, J4. cbn [app] in J3, J4.
        split; [exact J3|]. intros Er R. apply J4; [exact Er|].
        exact (step_ran _ _ _ _ _ _ _ _ _ _ (A' g) I L R Ev).
    + inversion E; subst gs' m' r. destruct (alone h v) as [a|e']; [discriminate|].
      cbn in Ed. inversion Ed; subst e'.
      split; [reflexivity|]. split; [cbn; now rewrite Len|]. split; [exact I'|discriminate].
Qed.

(** The invariant of a coder's state. *)
Definition state_inv (names : list string) (hs : list handler) (s : state P) : Prop :=
  length (values_taken s) = length hs /\ inv names (combine hs (values_taken s)) (ExampleProtoModel.message s).

Lemma encode_spec : forall names hs s instance s' r,
  agree hs -> state_inv names hs s ->
  encode payload reshape touch hs s instance = (s', r) ->
  state_inv names hs s'
  /\ match first_error hs instance with
     | Raise e => r = Raise e
     | Ok _ => exists m : message, r = Ok (map (fun ns => (fst ns, content (snd ns))) m)
                 /\ map fst m = names
                 /\ forall name, In name names -> exists h v sl,
                      In h hs /\ h_name h = name /\ lookup name instance = Some v
                      /\ slot_of name m = Some sl
                      /\ ((alone h v = Ok None /\ content sl = None)
                          \/ exists ps, alone h v = Ok (Some ps) /\ good (h_kind h) ps (content sl))
     end.
Proof.
  intros names hs s instance s' r A (Len & I) E. unfold encode in E.
  destruct (encode_features payload reshape touch hs (values_taken s) instance
              (ExampleProtoModel.message s)) as [[gs m] r0] eqn:Ef.
  inversion E; subst s' r. clear E.
  destruct (encode_features_spec names hs (values_taken s) [] instance _ _ _ _ Len A I Ef)
    as (J1 & J2 & J3 & J4). cbn [app] in J3, J4.
  split; [split; [exact J2|exact J3]|].
  rewrite <- J1. destruct r0 as [u|e]; [|reflexivity]. destruct u.
  exists m. split; [reflexivity|]. destruct J3 as (K1 & K2 & K3 & K4). split; [exact K1|].
  assert (R : ran instance (combine hs gs) m) by (apply J4; [reflexivity|intros x gx []]).
  intros name Hn. destruct (K3 name Hn) as (h & g & X1 & X2 & X3).
  destruct (R _ _ X1) as (v & sl & Y1 & Y2 & Y3). subst name.
  exists h, v, sl. split; [exact (in_combine_l _ _ _ _ X1)|]. split; [reflexivity|].
  split; [exact Y1|]. split; [exact Y2|].
  destruct Y3 as [Y3|(ps & Y3 & Y4)]; [now left|right]. exists ps. split; [exact Y3|].
  destruct X3 as (s3 & Z1 & Z2). rewrite Y2 in Z1. inversion Z1; subst s3. auto.
Qed.

(** * The first state *)
Definition names_of (hs : list handler) : list string :=
  map fst (ExampleProtoModel.message (init (P := P) hs)).

Definition add_name (m : message) (h : handler) : message :=
  match slot_of (h_name h) m with Some _ => m | None => m ++ [(h_name h, Slot 0 None)] end.

Lemma slot_of_app : forall name (m m' : message), slot_of name (m ++ m')
  = match slot_of name m with Some s => Some s | None => slot_of name m' end.
Proof.
  induction m as [|[n s] m IH]; intros m'; [reflexivity|]. cbn. destruct (String.eqb n name); auto.
Qed.

Lemma init_slots : forall hs (m : message),
  (forall name s, slot_of name m = Some s -> s = Slot 0 None) -> NoDup (map fst m) ->
  let m' := fold_left add_name hs m in
  (forall name s, slot_of name m' = Some s -> s = Slot 0 None)
  /\ NoDup (map fst m')
  /\ forall name, In name (map fst m') <-> In name (map fst m) \/ In name (map h_name hs).
Proof.
  induction hs as [|h hs IH]; intros m H N; cbn [fold_left].
  - cbn. repeat split; auto; tauto.
  - assert (H' : forall name s, slot_of name (add_name m h) = Some s -> s = Slot 0 None).
    { intros name s. unfold add_name. destruct (slot_of (h_name h) m) eqn:E; [apply H|].
      rewrite slot_of_app. destruct (slot_of name m) eqn:E'.
      - intro Q. inversion Q; subst. exact (H _ _ E').
      - cbn. destruct (String.eqb (h_name h) name); [|discriminate]. intro Q. now inversion Q. }
    assert (N' : NoDup (map fst (add_name m h))).
    { unfold add_name. destruct (slot_of (h_name h) m) eqn:E; [exact N|].
      rewrite map_app. cbn. apply NoDup_Add with (a := h_name h) (l := map fst m).
      - rewrite <- (app_nil_r (map fst m)) at 1. apply Add_app.
      - split; [exact N|]. intro K. apply slot_of_In in K. destruct K as (s & K). congruence. }
    destruct (IH _ H' N') as (J1 & J2 & J3). split; [exact J1|]. split; [exact J2|].
    intro name. rewrite J3. cbn [map In]. unfold add_name.
    destruct (slot_of (h_name h) m) eqn:E.
    + split; [tauto|]. intros [K|[K|K]]; auto. left. apply slot_of_In. subst. eauto.
    + rewrite map_app, in_app_iff. cbn. tauto.
Qed.

Lemma init_inv : forall hs, state_inv (names_of hs) hs (init hs)
  /\ NoDup (names_of hs) /\ forall name, In name (names_of hs) <-> In name (map h_name hs).
Proof.
  intros hs. unfold names_of.
  destruct (init_slots hs []) as (J1 & J2 & J3); [discriminate|constructor|].
  fold (@init P hs) in *.
  change (fold_left add_name hs []) with (ExampleProtoModel.message (init (P := P) hs)) in *.
  assert (J4 : forall name, In name (map fst (ExampleProtoModel.message (init (P := P) hs)))
                            <-> In name (map h_name hs)).
  { intro name. rewrite J3. cbn. tauto. }
  split; [|split; [exact J2|exact J4]].
  split; [apply map_length|]. cbn [values_taken init].
  assert (C : forall h g, In (h, g) (combine hs (map (fun _ => 0) hs)) <-> In h hs /\ g = 0).
  { clear. intros h g. induction hs as [|x hs IH]; cbn; [tauto|]. rewrite IH.
    split.
    - intros [K|K]; [inversion K; subst; auto|tauto].
    - intros [[K|K] K']; subst; auto. }
  split; [reflexivity|]. split; [|split].
  - intros h g H. apply C in H. rewrite J4. now apply in_map.
  - intros name H. pose proof (proj1 (J4 _) H) as K. apply in_map_iff in K.
    destruct K as (h & K1 & K2). exists h, 0. split; [now apply C|]. split; [exact K1|].
    apply slot_of_In in H. destruct H as (s & H). subst name. exists s. split; [exact H|].
    now rewrite (J1 _ _ H).
  - intros h g s k l _ H K. rewrite (J1 _ _ H) in K. discriminate.
Qed.

(** * Contents *)
Lemma size_product : forall shape, size shape = product shape.
Proof.
  intros shape. unfold size.
  assert (K : forall l n, fold_left Nat.mul l n = n * product l).
  { induction l as [|m l IH]; intros n; cbn; [lia|]. rewrite IH. lia. }
  rewrite K. lia.
Qed.

Lemma alone_values : forall h v ps, alone h v = Ok (Some ps) ->
  exists l, column_values reshape (h_kind h) (h_fixed h) v l
    /\ Forall2 (fun v p => payload (h_kind h) v = Ok p) l ps
    /\ forall shape, h_fixed h = Some shape -> length l = product shape.
Proof.
  intros h v ps. unfold alone. destruct (h_fixed h) as [shape|] eqn:F.
  - destruct (fixed_values reshape h shape v) as [l|e] eqn:Ef; [|discriminate].
    destruct (casts (h_kind h) l) as [qs|e] eqn:Ec; [|discriminate]. intro H. inversion H; subst.
    exists l. split; [|split; [now apply casts_spec|]].
    + unfold column_values. destruct shape as [|n [|n' shape]]; cbn in Ef.
      * destruct v as [|x|xs|x|[|x [|y xs]]]; inversion Ef; subst; eauto 6.
      * destruct v as [|x|xs|x|xs]; try discriminate;
          destruct (Nat.eqb _ _); inversion Ef; subst; auto.
      * destruct (reshape (h_kind h) v) as [xs|e]; [|discriminate].
        destruct (Nat.eqb _ _); inversion Ef; subst; auto.
    + intros shape' E. inversion E; subst shape'. rewrite <- size_product.
      destruct shape as [|n shape].
      * cbn in Ef. destruct v as [|x|xs|x|[|x [|y xs]]]; inversion Ef; subst; reflexivity.
      * cbn [fixed_values] in Ef.
        destruct (match shape with
                  | [] => match v with FList l0 | FArray l0 => Ok l0 | _ => Raise TypeError end
                  | _ :: _ => reshape (h_kind h) v end) as [xs|e]; [|discriminate].
        destruct (Nat.eqb (length xs) (size (n :: shape))) eqn:En; [|discriminate].
        inversion Ef; subst. now apply Nat.eqb_eq.
  - assert (K : match varlen_values v with
                | Ok l => match casts (h_kind h) l with Ok ps0 => Ok (Some ps0) | Raise e => Raise e end
                | Raise e => Raise e end = Ok (Some ps) -> v <> FNone ->
                exists l, column_values reshape (h_kind h) None v l
                  /\ Forall2 (fun v0 p => payload (h_kind h) v0 = Ok p) l ps
                  /\ forall shape, None = Some shape -> length l = product shape).
    { intros H N. destruct (varlen_values v) as [l|e] eqn:Ev; [|discriminate].
      destruct (casts (h_kind h) l) as [qs|e] eqn:Ec; [|discriminate]. inversion H; subst.
      exists l. split; [|split; [now apply casts_spec|discriminate]].
      unfold column_values. destruct v; inversion Ev; subst; eauto 6. congruence. }
    destruct v; [discriminate| | | |]; intro H; apply K; auto; discriminate.
Qed.

Lemma alone_none : forall h v, alone h v = Ok None -> v = FNone /\ h_fixed h = None.
Proof.
  intros h v. unfold alone. destruct (h_fixed h) as [shape|].
  - destruct (fixed_values reshape h shape v); [|discriminate].
    destruct (casts (h_kind h) a); discriminate.
  - destruct v; auto; try discriminate; destruct (varlen_values _); try discriminate;
      destruct (casts _ _); discriminate.
Qed.

Lemma entry_of : forall (m : message) name s, NoDup (map fst m) -> slot_of name m = Some s ->
  entry name (map (fun ns => (fst ns, content (snd ns))) m) (content s).
Proof.
  intros m name s N H. induction m as [|[n s0] m IH]; [discriminate|].
  cbn in H, N. inversion N as [|? ? N1 N2]; subst. destruct (String.eqb n name) eqn:E.
  - apply String.eqb_eq in E. subst n. inversion H; subst. split; [now left|].
    intros c' [K|K]; [now inversion K|]. destruct N1. apply in_map_iff in K.
    destruct K as (x & K1 & K2). inversion K1; subst. now apply in_map.
  - destruct (IH N2 H) as (J1 & J2). split; [now right|].
    intros c' [K|K]; [|auto]. inversion K; subst. rewrite String.eqb_refl in E. discriminate.
Qed.

Section Features.
Variable features : list (string * feature_spec).
Variable hs : list handler.
Hypothesis Made : make_handlers features = Ok hs.
Hypothesis Cons : consistent features.

Lemma columns_handlers : forall f name k s, In f features -> In (name, k, s) (columns_of f) ->
  exists h, In h hs /\ triple h = (name, k, s).
Proof.
  intros f name k s F C. assert (K : In (name, k, s) (map triple hs)).
  { rewrite (make_handlers_spec _ _ Made). apply in_flat_map. now exists f. }
  apply in_map_iff in K. destruct K as (h & K1 & K2). now exists h.
Qed.

Lemma encode_contents : forall s instance s' m, state_inv (names_of hs) hs s ->
  encode payload reshape touch hs s instance = (s', Ok m) ->
  encodes payload reshape touch features instance m.
Proof.
  intros s instance s' m I E.
  pose proof (consistent_agree _ _ Made Cons) as A.
  destruct (encode_spec _ _ _ _ _ _ A I E) as (_ & K).
  destruct (init_inv hs) as (_ & ND & Nm).
  destruct (first_error hs instance) as [u|e]; [|discriminate].
  destruct K as (mm & K1 & K2 & K3). inversion K1; subst m. clear K1.
  assert (Hfst : map fst (map (fun ns : string * slot => (fst ns, content (snd ns))) mm) = names_of hs).
  { rewrite map_map. cbn. exact K2. }
  assert (Col : forall name, In name (names_of hs) <->
     exists f k s, In f features /\ In (name, k, s) (columns_of f)).
  { intro name. rewrite Nm. split.
    - intro H. apply in_map_iff in H. destruct H as (h & H1 & H2).
      apply (in_map triple) in H2. rewrite (make_handlers_spec _ _ Made) in H2.
      apply in_flat_map in H2. destruct H2 as (f & F1 & F2). unfold triple in F2. rewrite H1 in F2.
      eauto.
    - intros (f & k & sh & F1 & F2). destruct (columns_handlers _ _ _ _ F1 F2) as (h & H1 & H2).
      inversion H2; subst. now apply in_map. }
  split; [intro name; now rewrite Hfst, Col|].
  intros f name k sh F1 F2.
  assert (Hn : In name (names_of hs)) by (apply Col; eauto).
  destruct (K3 name Hn) as (h & v & sl & X1 & X2 & X3 & X4 & X5).
  destruct (columns_handlers _ _ _ _ F1 F2) as (h' & Y1 & Y2).
  assert (h' = h). { apply A; auto. inversion Y2. congruence. } subst h'.
  inversion Y2 as [[Z1 Z2 Z3]].
  exists v, (content sl). split; [now rewrite Z1|]. split.
  { rewrite Z1. apply entry_of; [now rewrite K2|exact X4]. }
  destruct X5 as [(X5 & X6)|(ps & X5 & X6)].
  - left. destruct (alone_none _ _ X5) as (Q1 & Q2). auto.
  - right. destruct (alone_values _ _ _ X5) as (l & Q1 & Q2 & Q3). exists l.
    split; [exact Q1|]. split; [|exact Q3]. exists ps. split; [exact Q2|exact X6].
Qed.

(** The state after any history. *)
Fixpoint after (s : state P) (instances : list (list (string * field_value V))) : state P :=
  match instances with
  | [] => s
  | i :: instances => after (fst (encode payload reshape touch hs s i)) instances
  end.

Lemma after_inv : forall instances s, state_inv (names_of hs) hs s ->
  state_inv (names_of hs) hs (after s instances).
Proof.
  induction instances as [|i l IH]; intros s I; [exact I|]. cbn. apply IH.
  destruct (encode payload reshape touch hs s i) as [s' r] eqn:E. cbn.
  exact (proj1 (encode_spec _ _ _ _ _ _ (consistent_agree _ _ Made Cons) I E)).
Qed.

Lemma encode_all_nth : forall instances s n r,
  nth_error (encode_all payload reshape touch hs s instances) n = Some r ->
  exists i, nth_error instances n = Some i
    /\ r = snd (encode payload reshape touch hs (after s (firstn n instances)) i).
Proof.
  induction instances as [|i l IH]; intros s n r H; [now destruct n|].
  cbn [encode_all] in H.
  destruct (encode payload reshape touch hs s i) as [s' r'] eqn:E.
  destruct n as [|n]; cbn in H.
  - inversion H; subst. exists i. split; [reflexivity|]. cbn. now rewrite E.
  - destruct (IH _ _ _ H) as (j & J1 & J2). exists j. split; [exact J1|]. cbn. rewrite E. exact J2.
Qed.

Lemma history_contents : forall instances n m,
  nth_error (encode_all payload reshape touch hs (init hs) instances) n = Some (Ok m) ->
  exists i, nth_error instances n = Some i /\ encodes payload reshape touch features i m.
Proof.
  intros instances n m H. destruct (encode_all_nth _ _ _ _ H) as (i & I1 & I2).
  exists i. split; [exact I1|].
  destruct (encode payload reshape touch hs (after (init hs) (firstn n instances)) i) as [s' r] eqn:E.
  cbn in I2. subst r. eapply encode_contents; [|exact E]. apply after_inv.
  apply (proj1 (init_inv hs)).
Qed.

Lemma same_output : forall (m1 m2 : message), map fst m1 = map fst m2 -> NoDup (map fst m1) ->
  (forall name s1 s2, slot_of name m1 = Some s1 -> slot_of name m2 = Some s2 ->
     content s1 = content s2) ->
  map (fun ns => (fst ns, content (snd ns))) m1 = map (fun ns => (fst ns, content (snd ns))) m2.
Proof.
  induction m1 as [|[n s] m1 IH]; intros [|[n' s'] m2] E N H; cbn in *; try discriminate; auto.
  inversion E; subst n'. inversion N as [|? ? N1 N2]; subst. f_equal.
  - f_equal. apply (H n); now rewrite String.eqb_refl.
  - apply IH; auto. intros name s1 s2 S1 S2. apply (H name).
    + destruct (String.eqb n name) eqn:Q; [|exact S1]. apply String.eqb_eq in Q. subst.
      destruct N1. apply slot_of_In. eauto.
    + destruct (String.eqb n name) eqn:Q; [|exact S2]. apply String.eqb_eq in Q. subst.
      destruct N1. apply slot_of_In. eauto.
Qed.

Lemma same_result : forall s1 s2 instance, touch = true ->
  state_inv (names_of hs) hs s1 -> state_inv (names_of hs) hs s2 ->
  snd (encode payload reshape touch hs s1 instance)
  = snd (encode payload reshape touch hs s2 instance).
Proof.
  intros s1 s2 instance T I1 I2. pose proof (consistent_agree _ _ Made Cons) as A.
  destruct (encode payload reshape touch hs s1 instance) as [t1 r1] eqn:E1.
  destruct (encode payload reshape touch hs s2 instance) as [t2 r2] eqn:E2. cbn.
  destruct (encode_spec _ _ _ _ _ _ A I1 E1) as (_ & K1).
  destruct (encode_spec _ _ _ _ _ _ A I2 E2) as (_ & K2).
  destruct (first_error hs instance) as [u|e]; [|congruence].
  destruct K1 as (m1 & A1 & A2 & A3). destruct K2 as (m2 & B1 & B2 & B3). subst r1 r2. f_equal.
  apply same_output; [congruence|rewrite A2; apply (init_inv hs)|].
  intros name sl1 sl2 S1 S2.
  assert (Hn : In name (names_of hs)). { rewrite <- A2. apply slot_of_In. eauto. }
  destruct (A3 name Hn) as (h & v & x & X1 & X2 & X3 & X4 & X5).
  destruct (B3 name Hn) as (h' & v' & x' & Y1 & Y2 & Y3 & Y4 & Y5).
  assert (h' = h) by (apply A; congruence). subst h'.
  rewrite X3 in Y3. inversion Y3; subst v'.
  rewrite S1 in X4. inversion X4; subst x. rewrite S2 in Y4. inversion Y4; subst x'.
  destruct X5 as [(X5 & X6)|(ps & X5 & X6)]; destruct Y5 as [(Y5 & Y6)|(qs & Y5 & Y6)];
    rewrite X5 in Y5; inversion Y5; subst; [congruence|].
  unfold good in X6, Y6. rewrite T in X6, Y6.
  destruct X6 as [X6|(X6 & _)]; [|discriminate]. destruct Y6 as [Y6|(Y6 & _)]; [|discriminate].
  congruence.
Qed.

Lemma history_forgotten : forall instances, touch = true ->
  encode_all payload reshape touch hs (init hs) instances
  = map (fun i => snd (encode payload reshape touch hs (init hs) i)) instances.
Proof.
  intros instances T.
  assert (K : forall l s, state_inv (names_of hs) hs s ->
    encode_all payload reshape touch hs s l
    = map (fun i => snd (encode payload reshape touch hs (init hs) i)) l).
  { induction l as [|i l IH]; intros s I; [reflexivity|]. cbn [encode_all map].
    rewrite <- (same_result s (init hs) i T I (proj1 (init_inv hs))).
    destruct (encode payload reshape touch hs s i) as [s' r] eqn:E. cbn [snd]. f_equal.
    apply IH.
    exact (proj1 (encode_spec _ _ _ _ _ _ (consistent_agree _ _ Made Cons) I E)). }
  apply K. apply (proj1 (init_inv hs)).
Qed.

(** ** Which instances are encoded *)
Lemma casts_ok : forall k l, (exists ps, casts k l = Ok ps) <-> Forall (fun x => exists p, payload k x = Ok p) l.
Proof.
  intros k l. split.
  - intros (ps & H). apply casts_spec in H. induction H; constructor; eauto.
  - induction 1 as [|x l (p & E) _ (ps & IH)]; cbn; [eauto|]. rewrite E, IH. eauto.
Qed.

Lemma alone_storable : forall h v, (exists x, alone h v = Ok x) <-> storable payload reshape (h_kind h) (h_fixed h) v.
Proof.
  intros h v. unfold alone.
  assert (K : forall o : outcome (list V),
    (exists x, match o with Raise e => Raise e
               | Ok l => match casts (h_kind h) l with Raise e => Raise e | Ok ps => Ok (Some ps) end end = Ok x)
    <-> exists l, o = Ok l /\ Forall (fun x => exists p, payload (h_kind h) x = Ok p) l).
  { intros [l|e]; [|split; [intros (x & E); discriminate|intros (l & E & _); discriminate]]. split.
    - intros (x & E). exists l. split; [reflexivity|]. apply casts_ok. destruct (casts (h_kind h) l); [eauto|discriminate].
    - intros (l' & E & FA). injection E as <-. apply casts_ok in FA as (ps & ->). eauto. }
  unfold storable. destruct (h_fixed h) as [shape|].
  - rewrite K. destruct shape as [|n [|n' shape]].
    + cbn [fixed_values]. split.
      * intros (l & E & FA). destruct v as [|x|xs|x|[|x [|y xs]]]; try discriminate E; injection E as <-; eauto 6.
      * intros (x & [->|[->| ->]] & FA); exists [x]; auto.
    + cbn [fixed_values]. split.
      * intros (l & E & FA). destruct v as [|x|xs|x|xs]; try discriminate E;
          destruct (Nat.eqb (length xs) (size [n])) eqn:Q; try discriminate E; injection E as <-; exists xs;
          (split; [auto|]); (split; [|exact FA]); apply Nat.eqb_eq in Q; rewrite size_product in Q; cbn in Q; lia.
      * intros (l & D & L & FA). exists l. split; [|exact FA]. assert (size [n] = n) as Z by (rewrite size_product; cbn; lia).
        destruct D as [-> | ->]; rewrite Z, L, Nat.eqb_refl; reflexivity.
    + cbn [fixed_values]. rewrite size_product. split.
      * intros (l & E & FA). destruct (reshape (h_kind h) v) as [xs|e]; [|discriminate].
        destruct (Nat.eqb _ _) eqn:Q; [|discriminate]. injection E as <-. apply Nat.eqb_eq in Q. eauto.
      * intros (l & E & L & FA). exists l. rewrite E, L, Nat.eqb_refl. auto.
  - assert (N : v <> FNone ->
      match v with FNone => Ok None | _ =>
        match varlen_values v with Raise e => Raise e
        | Ok l => match casts (h_kind h) l with Raise e => Raise e | Ok ps => Ok (Some ps) end end end
      = match varlen_values v with Raise e => Raise e
        | Ok l => match casts (h_kind h) l with Raise e => Raise e | Ok ps => Ok (Some ps) end end).
    { destruct v; [congruence|reflexivity..]. }
    destruct v as [|x|xs|x|xs]; [split; eauto|..]; rewrite (K (varlen_values _)); cbn [varlen_values]; split.
    + intros (l & E & FA). injection E as <-. eauto.
    + intros [E|[(y & E & FA)|(l & [E|E] & FA)]]; try discriminate E. injection E as <-. eauto.
    + intros (l & E & FA). injection E as <-. right. right. eauto.
    + intros [E|[(y & E & FA)|(l & [E|E] & FA)]]; try discriminate E. injection E as <-. eauto.
    + intros (l & E & FA). discriminate.
    + intros [E|[(y & E & FA)|(l & [E|E] & FA)]]; discriminate E.
    + intros (l & E & FA). injection E as <-. right. right. eauto.
    + intros [E|[(y & E & FA)|(l & [E|E] & FA)]]; try discriminate E. injection E as <-. eauto.
Qed.

Lemma first_error_ok : forall l instance, first_error l instance = Ok tt <->
  forall h, In h l -> exists v, lookup (h_name h) instance = Some v /\ storable payload reshape (h_kind h) (h_fixed h) v.
Proof.
  induction l as [|h l IH]; intros instance; cbn [first_error]; [split; [intros _ h []|reflexivity]|].
  split.
  - intros H x [<-|I].
    + destruct (lookup (h_name h) instance) as [v|]; [|discriminate]. exists v. split; [reflexivity|].
      apply alone_storable. destruct (alone h v); [eauto|discriminate].
    + apply (proj1 (IH instance)); [|exact I]. destruct (lookup (h_name h) instance) as [v|]; [|discriminate].
      destruct (alone h v); [exact H|discriminate].
  - intros H. destruct (H h (or_introl eq_refl)) as (v & -> & ST). apply alone_storable in ST as (x & ->).
    apply IH. intros y I. apply H. now right.
Qed.

Lemma first_error_encodable : forall instance, first_error hs instance = Ok tt <-> encodable payload reshape features instance.
Proof.
  intros instance. rewrite first_error_ok. unfold encodable. split.
  - intros H f name k s F C. destruct (columns_handlers _ _ _ _ F C) as (h & I & E). injection E as <- <- <-. now apply H.
  - intros H h I. apply (in_map triple) in I. rewrite (make_handlers_spec _ _ Made) in I.
    apply in_flat_map in I as (f & F & C). exact (H _ _ _ _ F C).
Qed.

Lemma encode_all_nth_back : forall instances s n i, nth_error instances n = Some i ->
  nth_error (encode_all payload reshape touch hs s instances) n
  = Some (snd (encode payload reshape touch hs (after s (firstn n instances)) i)).
Proof.
  induction instances as [|j l IH]; intros s n i H; [now destruct n|]. cbn [encode_all].
  destruct (encode payload reshape touch hs s j) as [s' r'] eqn:E. destruct n as [|n]; cbn in H.
  - injection H as <-. cbn. now rewrite E.
  - cbn [nth_error firstn after]. rewrite E. now apply IH.
Qed.

Lemma history_accepts : forall instances n i, nth_error instances n = Some i ->
  ((exists m, nth_error (encode_all payload reshape touch hs (init hs) instances) n = Some (Ok m))
   <-> encodable payload reshape features i).
Proof.
  intros instances n i H. rewrite (encode_all_nth_back _ _ _ _ H), <- first_error_encodable.
  pose proof (after_inv (firstn n instances) (init hs) (proj1 (init_inv hs))) as I.
  destruct (encode payload reshape touch hs (after (init hs) (firstn n instances)) i) as [s' r] eqn:E.
  destruct (encode_spec _ _ _ _ _ _ (consistent_agree _ _ Made Cons) I E) as (_ & K). cbn [snd].
  destruct (first_error hs i) as [[]|e].
  - split; [reflexivity|]. intros _. destruct K as (m & -> & _). eauto.
  - subst r. split; [intros (m & Q); discriminate|discriminate].
Qed.
End Features.
End Coder.
