(** * Packing accumulating combiners *)
From Coq Require Import String.
From Coq Require Import List Arith Bool Lia Permutation.
From Verif Require Import CombineModel PackModel PackSpec PackProofs PackGraphModel PackGraphSpec PackTraverse.
Import ListNotations.
Local Notation length := List.length.

Section Proofs.
Context {Obj X : Type}.
Notation value := (value Obj).
Notation node := (@node Obj X).
Notation kind := (@kind Obj X).
Notation collection := (list value).
Variable size : nat.
Hypothesis SIZE : 0 < size.
Variable other : string -> kind -> list collection -> list collection -> Prop.
Variable values : list node.
Hypothesis WF : well_formed values.
Notation D := (in_graph values).

Lemma D_closed l d ins i x : D (Node l d ins i) -> In x ins -> D x.
Proof. intros (v & I & K) J. exists v. split; [exact I|]. now apply occurs_below with l d ins i. Qed.
Lemma D_unique l d ins i d' ins' i' : D (Node l d ins i) -> D (Node l d' ins' i') -> d = d' /\ ins = ins'.
Proof. apply WF. Qed.
Lemma D_occurs a b : occurs a b -> D b -> D a.
Proof. intros K (v & I & J). exists v. split; [exact I|]. now apply occurs_trans with b. Qed.
Lemma D_wf l d ins i : D (Node l d ins i) -> i < num_outputs d /\ unpacked d /\ known_inputs d ins /\ ~ packing_label values l.
Proof. apply WF. Qed.

(** ** Inspection *)
Definition packs (gp : string) (o : @combiner_op Obj) : Prop :=
  exists lp gins gi pi i, D (Node (op_label o) (CombineAccumulate (op_combiner o)) [Node lp (ExtractKeys (op_keys o)) [Node gp ApplySavedModel gins gi] pi] i).

Lemma add_to_group_perm (s : groups) key (o : @combiner_op Obj) : Permutation (o :: flat_map snd s) (flat_map snd (add_to_group s key o)).
Proof.
  induction s as [|[k l] s IH]; cbn [add_to_group flat_map]; [reflexivity|].
  destruct (String.eqb k key); cbn [flat_map snd].
  - rewrite <- app_assoc. apply Permutation_cons_app. reflexivity.
  - rewrite <- IH. apply Permutation_cons_app. reflexivity.
Qed.
Lemma add_to_group_keys (s : groups) key (o : @combiner_op Obj) : NoDup (map fst s) -> NoDup (map fst (add_to_group s key o)) /\
  forall k, In k (map fst (add_to_group s key o)) -> k = key \/ In k (map fst s).
Proof.
  induction s as [|[k l] s IH]; cbn [add_to_group map fst]; intros N.
  - split; [repeat constructor; auto|]. cbn. intuition.
  - inversion N as [|? ? NI N']. subst. destruct (String.eqb_spec k key) as [->|NE]; cbn [map fst].
    + split; [exact N|]. cbn. intuition.
    + destruct (IH N') as [A B]. split; [constructor; [|exact A]|].
      * intros I. destruct (B k I); [contradiction|contradiction].
      * cbn. intros k' [<-|I]; [auto|]. destruct (B k' I); auto.
Qed.
Lemma add_to_group_in (s : groups) key (o : @combiner_op Obj) k l x : In (k, l) (add_to_group s key o) -> In x l ->
  (k = key /\ x = o) \/ exists l', In (k, l') s /\ In x l'.
Proof.
  induction s as [|[k' l'] s IH]; cbn [add_to_group].
  - intros [[= <- <-]|[]] [<-|[]]. auto.
  - destruct (String.eqb_spec k' key) as [->|NE].
    + intros [[= <- <-]|I] J.
      * apply in_app_or in J. destruct J as [J|[<-|[]]]; [right; exists l'; split; [now left|exact J]|auto].
      * right. exists l. split; [now right|exact J].
    + intros [[= <- <-]|I] J.
      * right. exists l'. split; [now left|exact J].
      * destruct (IH I J) as [E|(l'' & I' & J')]; [auto|]. right. exists l''. split; [now right|exact J'].
Qed.

Definition inspected (visited : list node) (s : groups) : Prop :=
  NoDup (map fst s) /\ NoDup (map op_label (flat_map snd s)) /\
  forall gp group o, In (gp, group) s -> In o group -> In (op_label o) (map label_of visited) /\ packs gp o.

Lemma inspect_step O visited (s : groups) l d ins i : D (Node l d ins i) ->
  (exists rest, O = visited ++ Node l d ins i :: rest) -> (forall v, In v visited -> D v) ->
  (forall x, In x ins -> In (label_of x) (map label_of visited)) ->
  ~ In l (map label_of visited) -> inspected visited s ->
  exists s' o, inspect_accumulate s l d (map (fun x => x) ins) = Some (s', o) /\
    (forall j, D (Node l d ins j) -> output o j = Node l d ins j) /\ inspected (visited ++ [Node l d ins i]) s'.
Proof.
  intros HD _ _ _ NV (N1 & N2 & H). rewrite map_id.
  assert (inspected (visited ++ [Node l d ins i]) s) as SAME.
  { split; [exact N1|]. split; [exact N2|]. intros gp group o I J. destruct (H gp group o I J) as [A B]. split; [|exact B].
    rewrite map_app. apply in_or_app. now left. }
  destruct (D_wf _ _ _ _ HD) as (_ & U & KI & _).
  destruct d as [|keys|key|c|c|n|n|ops|ops|key| |x|x|x|n x]; cbn [inspect_accumulate];
    try (exists s; eexists; split; [reflexivity|]; split; [reflexivity|exact SAME]).
  destruct KI as (p & ->). destruct p as [lp dp pins pi].
  destruct dp as [|keys|key|c'|c'|n|n|ops|ops|key| |x|x|x|n x];
    try (exists s; eexists; split; [reflexivity|]; split; [reflexivity|exact SAME]).
  2:{ assert (D (Node lp (ExtractKey key) pins pi)) as HP by (eapply D_closed; [exact HD|now left]). now destruct (D_wf _ _ _ _ HP) as (_ & [] & _). }
  assert (D (Node lp (ExtractKeys keys) pins pi)) as HP by (eapply D_closed; [exact HD|now left]).
  destruct (D_wf _ _ _ _ HP) as (_ & _ & (gp & gins & gi & ->) & _).
  eexists. eexists. split; [reflexivity|]. split; [reflexivity|].
  destruct (add_to_group_keys s gp (CombinerOp c keys l) N1) as [K1 _].
  split; [exact K1|]. split.
  - eapply Permutation_NoDup; [apply Permutation_map, add_to_group_perm|]. cbn [map op_label]. constructor; [|exact N2].
    intros I. apply in_map_iff in I. destruct I as (o & E & I). apply in_flat_map in I. destruct I as ([g group] & I & J).
    destruct (H _ _ _ I J) as [A _]. rewrite E in A. contradiction.
  - intros g group o I J. destruct (add_to_group_in _ _ _ _ _ _ I J) as [[-> ->]|(l' & I' & J')].
    + split; [rewrite map_app; apply in_or_app; right; now left|]. cbn. now exists lp, gins, gi, pi, i.
    + destruct (H _ _ _ I' J') as [A B]. split; [|exact B]. rewrite map_app. apply in_or_app. now left.
Qed.

(** ** Packing *)
Variable packable : @groups Obj.
Hypothesis G1 : NoDup (map fst packable).
Hypothesis G2 : forall gp group, In (gp, group) packable -> NoDup (map op_label group).
Hypothesis G3 : forall gp group o, In (gp, group) packable -> In o group -> packs gp o.

Definition packed_label (gp : string) : string := ("PackedCombineAccumulate[" ++ gp ++ "]")%string.
Definition packed_node (gp : string) (g : node) : node :=
  Node (packed_label gp) (PackedAccumulate (match lookup gp packable with Some group => group | None => [] end)) [g] 0.

Fixpoint packA (n : node) : node :=
  match n with
  | Node l d ins i =>
      match group_of packable l, map packA ins with
      | Some gp, [Node _ (ExtractKeys _) [g] _] => Node l (ExtractKey l) [packed_node gp g] i
      | _, _ => Node l d (map packA ins) i
      end
  end.

Lemma lookup_in {A} k (a : A) (l : list (string * A)) : NoDup (map fst l) -> In (k, a) l -> lookup k l = Some a.
Proof.
  intros N I. destruct (lookup k l) as [b|] eqn:E.
  - apply lookup_some in E. f_equal. clear - N I E. induction l as [|[k' c] l IH]; [destruct I|]. cbn in N. inversion N as [|? ? NI N']. subst.
    destruct I as [[= -> ->]|I], E as [[= <-]|E]; auto.
    + elim NI. apply in_map_iff. now exists (k, b).
    + subst. elim NI. apply in_map_iff. now exists (k', a).
  - apply lookup_none in E. elim E. apply in_map_iff. now exists (k, a).
Qed.

Lemma group_of_some l gp : group_of packable l = Some gp ->
  exists group o, lookup gp packable = Some group /\ In o group /\ op_label o = l /\ packs gp o /\ NoDup (map op_label group).
Proof.
  unfold group_of. destruct (find _ packable) as [[k group]|] eqn:E; [|discriminate]. intros [= <-]. apply find_some in E. destruct E as [I E].
  apply existsb_exists in E. destruct E as (o & J & E). apply String.eqb_eq in E. exists group, o. repeat split; auto.
  - now apply lookup_in.
  - eapply G3; eauto.
  - eapply G2; eauto.
Qed.

(** The operation with a label of a group. *)
Lemma grouped l d ins i gp : D (Node l d ins i) -> group_of packable l = Some gp ->
  exists group o lp gins gi pi, lookup gp packable = Some group /\ In o group /\ op_label o = l /\ NoDup (map op_label group) /\
    d = CombineAccumulate (op_combiner o) /\ ins = [Node lp (ExtractKeys (op_keys o)) [Node gp ApplySavedModel gins gi] pi].
Proof.
  intros HD E. destruct (group_of_some l gp E) as (group & o & L & I & EL & (lp & gins & gi & pi & i' & HD') & N).
  rewrite EL in HD'. destruct (D_unique _ _ _ _ _ _ _ HD HD') as [-> ->]. exists group, o, lp, gins, gi, pi. auto 10.
Qed.

Lemma packA_same l d ins i : D (Node l d ins i) -> (forall c, d <> CombineAccumulate c) -> packA (Node l d ins i) = Node l d (map packA ins) i.
Proof.
  intros HD NC. cbn [packA]. destruct (group_of packable l) as [gp|] eqn:E; [|reflexivity].
  destruct (grouped _ _ _ _ _ HD E) as (? & o & ? & ? & ? & ? & _ & _ & _ & _ & -> & _). now elim (NC (op_combiner o)).
Qed.
Lemma packA_packed l d ins i gp : D (Node l d ins i) -> group_of packable l = Some gp ->
  exists lp keys gins gi pi, ins = [Node lp (ExtractKeys keys) [Node gp ApplySavedModel gins gi] pi] /\
    packA (Node l d ins i) = Node l (ExtractKey l) [packed_node gp (packA (Node gp ApplySavedModel gins gi))] i.
Proof.
  intros HD E. destruct (grouped _ _ _ _ _ HD E) as (group & o & lp & gins & gi & pi & _ & _ & _ & _ & -> & ->).
  exists lp, (op_keys o), gins, gi, pi. split; [reflexivity|]. remember (Node gp ApplySavedModel gins gi) as g eqn:EG.
  cbn [packA map]. rewrite E.
  assert (D (Node lp (ExtractKeys (op_keys o)) [g] pi)) as HP by (eapply D_closed; [exact HD|now left]).
  pose proof (packA_same _ _ _ _ HP ltac:(discriminate)) as EP. cbn [packA map] in EP. rewrite EP. reflexivity.
Qed.

Lemma packA_shape l d ins i : exists d' ins', packA (Node l d ins i) = Node l d' ins' i.
Proof.
  cbn [packA]. destruct (group_of packable l); [|eauto]. destruct (map packA ins) as [|[? [] [|? []] ?] []]; eauto.
Qed.

Definition cache_ok (visited : list node) (cache : list (string * node)) : Prop :=
  forall gp p, In (gp, p) cache -> exists gins gi, D (Node gp ApplySavedModel gins gi) /\ p = packed_node gp (packA (Node gp ApplySavedModel gins gi)).

Lemma pack_step O visited cache l d ins i : D (Node l d ins i) ->
  (exists rest, O = visited ++ Node l d ins i :: rest) -> (forall v, In v visited -> D v) ->
  (forall x, In x ins -> In (label_of x) (map label_of visited)) ->
  ~ In l (map label_of visited) -> cache_ok visited cache ->
  exists cache' o, pack_accumulate packable cache l d (map packA ins) = Some (cache', o) /\
    (forall j, D (Node l d ins j) -> output o j = packA (Node l d ins j)) /\ cache_ok (visited ++ [Node l d ins i]) cache'.
Proof.
  intros HD _ _ _ NV C. unfold pack_accumulate. destruct (group_of packable l) as [gp|] eqn:E.
  2:{ exists cache. eexists. split; [reflexivity|]. split; [|exact C]. intros j _. cbn [packA output]. now rewrite E. }
  destruct (packA_packed _ _ _ i _ HD E) as (lp & keys & gins & gi & pi & -> & EP).
  destruct (grouped _ _ _ _ _ HD E) as (group & o & ? & ? & ? & ? & L & _ & _ & _ & _ & _).
  assert (D (Node lp (ExtractKeys keys) [Node gp ApplySavedModel gins gi] pi)) as HP by (eapply D_closed; [exact HD|now left]).
  assert (D (Node gp ApplySavedModel gins gi)) as HG by (eapply D_closed; [exact HP|now left]).
  assert (forall j, output (l, ExtractKey l, [packed_node gp (packA (Node gp ApplySavedModel gins gi))]) j = packA (Node l d [Node lp (ExtractKeys keys) [Node gp ApplySavedModel gins gi] pi] j)) as OUT.
  { intros j. assert (D (Node l d [Node lp (ExtractKeys keys) [Node gp ApplySavedModel gins gi] pi] i)) as _ by exact HD.
    remember (Node gp ApplySavedModel gins gi) as g eqn:EG. cbn [packA map output] in *. rewrite E in *.
    destruct (group_of packable lp) as [gp'|] eqn:E'.
    { exfalso. destruct (grouped _ _ _ _ _ HP E') as (? & ? & ? & ? & ? & ? & _ & _ & _ & _ & A & _). discriminate. }
    cbn in *. reflexivity. }
  destruct (lookup gp cache) as [p|] eqn:LC.
  - apply lookup_some in LC. destruct (C _ _ LC) as (gins' & gi' & HG' & ->).
    assert (Node gp ApplySavedModel gins' gi' = Node gp ApplySavedModel gins gi) as EQ.
    { destruct (D_unique _ _ _ _ _ _ _ HG HG') as [_ ->]. f_equal. destruct (D_wf _ _ _ _ HG) as (A & _). destruct (D_wf _ _ _ _ HG') as (B & _). cbn in A, B. lia. }
    rewrite EQ. exists cache. eexists. split; [reflexivity|]. split; [intros j _; apply OUT|exact C].
  - cbn [map]. rewrite (packA_same _ _ _ _ HP) by discriminate. cbn [map].
    destruct (packA_shape gp ApplySavedModel gins gi) as (d' & ins' & ES).
    rewrite L. assert (label_of (packA (Node gp ApplySavedModel gins gi)) = gp) as -> by now rewrite ES.
    rewrite String.eqb_refl.
    assert (Node ("PackedCombineAccumulate[" ++ gp ++ "]") (PackedAccumulate group) [packA (Node gp ApplySavedModel gins gi)] 0 = packed_node gp (packA (Node gp ApplySavedModel gins gi))) as ->.
    { unfold packed_node. now rewrite L. }
    eexists. eexists. split; [reflexivity|]. split; [intros j _; apply OUT|].
    intros gp' p [[= <- <-]|I]; [now exists gins, gi|now apply C].
Qed.

(** ** What the packed graph computes *)
Fixpoint subnodes (n : node) : list node := match n with Node l d ins i => Node l d ins i :: flat_map subnodes ins end.
Lemma subnodes_iff m n : In m (subnodes n) <-> occurs m n.
Proof.
  induction n as [l d ins i IH] using node_rect'. cbn [subnodes]. split.
  - intros [<-|I]; [constructor|]. apply in_flat_map in I. destruct I as (x & I & J). apply occurs_input with x; [exact I|]. now apply IH.
  - intros K. inversion K as [|? ? ? ? x I K']; subst; [now left|]. right. apply in_flat_map. exists x. split; [exact I|]. now apply IH.
Qed.

Definition tuple_of (keys : list string) (e : value) : value :=
  match e with Dict items => Tuple (map (fun k => match dict_get items k with Some v => v | None => PyNone end) keys) | _ => PyNone end.

Variable run1 : string -> list collection.
Definition is_extract (l : string) (n : node) : bool :=
  match n with Node l' (ExtractKeys _) _ _ => String.eqb l' l | _ => false end.
Definition runA (l : string) : list collection :=
  match find (is_extract l) (flat_map subnodes values) with
  | Some (Node _ (ExtractKeys keys) [g] _) => [map (tuple_of keys) (content run1 (packA g))]
  | _ => run1 l
  end.

Lemma run_extract l keys g i : D (Node l (ExtractKeys keys) [g] i) -> runA l = [map (tuple_of keys) (content run1 (packA g))].
Proof.
  intros HD. unfold runA. destruct (find _ _) as [[l' d' ins' i']|] eqn:E.
  - apply find_some in E. destruct E as [I E]. cbn in E. destruct d'; try discriminate. apply String.eqb_eq in E. subst l'.
    apply in_flat_map in I. destruct I as (v & I & J). apply subnodes_iff in J.
    assert (D (Node l (ExtractKeys keys0) ins' i')) as HD' by now exists v.
    destruct (D_unique _ _ _ _ _ _ _ HD HD') as [[= <-] <-]. reflexivity.
  - exfalso. destruct HD as (v & I & J). apply subnodes_iff in J.
    apply find_none with (x := Node l (ExtractKeys keys) [g] i) in E; [|apply in_flat_map; now exists v].
    cbn in E. now rewrite String.eqb_refl in E.
Qed.
Lemma run_not_extract l d ins i : D (Node l d ins i) -> (forall keys, d <> ExtractKeys keys) -> runA l = run1 l.
Proof.
  intros HD NE. unfold runA. destruct (find _ _) as [[l' d' ins' i']|] eqn:E; [|reflexivity].
  apply find_some in E. destruct E as [I E]. cbn in E. destruct d'; try discriminate. apply String.eqb_eq in E. subst l'.
  apply in_flat_map in I. destruct I as (v & I & J). apply subnodes_iff in J.
  assert (D (Node l (ExtractKeys keys) ins' i')) as HD' by now exists v.
  destruct (D_unique _ _ _ _ _ _ _ HD HD') as [-> _]. now elim (NE keys).
Qed.

(** Operations that are left, or replaced together with their consumer. *)
Lemma occurs_packed n : D n -> forall m, occurs m n ->
  occurs (packA m) (packA n) \/
  exists l d j gp, D (Node l d [m] j) /\ group_of packable l = Some gp /\ occurs (packA (Node l d [m] j)) (packA n).
Proof.
  induction n as [n IH] using node_strong. intros HD m K.
  inversion K as [|l d ins i x I K']; subst; [left; constructor|].
  destruct (group_of packable l) as [gp|] eqn:E.
  - destruct (packA_packed _ _ _ _ _ HD E) as (lp & keys & gins & gi & pi & -> & EP). rewrite EP.
    destruct I as [<-|[]]. remember (Node gp ApplySavedModel gins gi) as g eqn:EG.
    assert (D (Node lp (ExtractKeys keys) [g] pi)) as HP by (eapply D_closed; [exact HD|now left]).
    inversion K' as [|? ? ? ? y IY K'']; [subst m|].
    + right. exists l, d, i, gp. split; [exact HD|]. split; [exact E|]. rewrite EP. constructor.
    + subst. destruct IY as [<-|[]]. remember (Node gp ApplySavedModel gins gi) as g eqn:EG.
      assert (D g) as HG by (eapply D_closed; [exact HP|now left]).
      assert (forall z, occurs z (packA g) -> occurs z (Node l (ExtractKey l) [packed_node gp (packA g)] i)) as UP.
      { intros z Z. eapply occurs_input; [now left|]. eapply occurs_input; [now left|]. exact Z. }
      destruct (IH g (Node lp (ExtractKeys keys) [g] pi)) with (m := m) as [A|(l' & d' & j & gp' & A & B & C)]; auto.
      { cbn. auto. }
      { eapply occurs_input; [now left|constructor]. }
      right. exists l', d', j, gp'. auto.
  - assert (packA (Node l d ins i) = Node l d (map packA ins) i) as EP by (cbn [packA]; now rewrite E).
    assert (D x) as HX by now apply D_closed with l d ins i.
    assert (forall z, occurs z (packA x) -> occurs z (packA (Node l d ins i))) as UP.
    { intros z Z. rewrite EP. apply occurs_input with (packA x); [now apply in_map|exact Z]. }
    destruct (IH x x I (occurs_here x) HX m K') as [A|(l' & d' & j & gp' & A & B & C)]; [left; auto|].
    right. exists l', d', j, gp'. auto.
Qed.

Lemma tuple_of_input keys e i : (exists items values, e = Dict items /\ map (dict_get items) keys = map Some values /\ i = Tuple values) -> i = tuple_of keys e.
Proof.
  intros (items & vs & -> & E & ->). cbn [tuple_of]. f_equal. revert vs E. induction keys as [|k keys IH]; intros [|v vs] E; cbn in E; try discriminate; [reflexivity|].
  injection E as E1 E2. cbn [map]. rewrite E1. f_equal. now apply IH.
Qed.
Lemma inputs_tuples keys es is : Forall2 (fun e i => exists items values, e = Dict items /\ map (dict_get items) keys = map Some values /\ i = Tuple values) es is ->
  is = map (tuple_of keys) es.
Proof. induction 1 as [|e i es is H F IH]; [reflexivity|]. cbn [map]. f_equal; [now apply tuple_of_input|exact IH]. Qed.
Lemma tuples_found keys (e : value) : (exists items, e = Dict items /\ forall k, In k keys -> dict_get items k <> None) ->
  exists items values, e = Dict items /\ map (dict_get items) keys = map Some values /\ tuple_of keys e = Tuple values.
Proof.
  intros (items & -> & H). exists items. eexists. split; [reflexivity|]. split; [|reflexivity]. rewrite map_map. apply map_ext_in. intros k I.
  specialize (H k I). now destruct (dict_get items k).
Qed.

(** Results of a packed combine. *)
Lemma packed_result l d ins i gp vs : evaluates size other run1 (map packA vs) -> D (Node l d ins i) -> group_of packable l = Some gp ->
  (exists v, In v vs /\ occurs (packA (Node l d ins i)) (packA v)) ->
  exists o lp gins gi pi s, d = CombineAccumulate (op_combiner o) /\
    ins = [Node lp (ExtractKeys (op_keys o)) [Node gp ApplySavedModel gins gi] pi] /\
    Permutation (elements s) (map (tuple_of (op_keys o)) (content run1 (packA (Node gp ApplySavedModel gins gi)))) /\
    run1 l = [[run_wrapper false (op_combiner o) s]] /\
    Forall (fun e => exists items, e = Dict items /\ forall k, In k (op_keys o) -> dict_get items k <> None) (content run1 (packA (Node gp ApplySavedModel gins gi))).
Proof.
  intros EV HD E (v & IV & OV). destruct (grouped _ _ _ _ _ HD E) as (group & o & lp & gins & gi & pi & L & IO & EL & N & -> & ->).
  destruct (packA_packed _ _ _ _ _ HD E) as (lp' & keys & gins' & gi' & pi' & [= <- <- <- <- <-] & EP).
  rewrite EP in OV. remember (Node gp ApplySavedModel gins gi) as g eqn:EG.
  pose proof (EV (packA v) _ _ _ _ (in_map _ _ _ IV) OV) as C1.
  assert (occurs (packed_node gp (packA g)) (packA v)) as OP by (eapply occurs_below; [|exact OV]; now left).
  pose proof (EV (packA v) _ _ _ _ (in_map _ _ _ IV) OP) as C2. cbn [map] in C1, C2.
  inversion C2; subst. cbn [content packed_node] in C1.
  match goal with H : _ = run1 (packed_label gp) |- _ => rewrite <- H in C1 end. cbn [nth] in C1.
  inversion C1; subst.
  match goal with H : Forall2 _ [r] _ |- _ => inversion H as [|? x ? xs HX HXS]; subst; inversion HXS; subst end.
  destruct HX as (items & -> & GET). rewrite L in *.
  match goal with H : run_packed _ _ _ _ = _ |- _ => rename H into RP end.
  pose proof (accumulate_some _ _ _ _ RP) as DW.
  destruct (packed_accumulate group size s SIZE N DW) as (items' & RP' & _ & ALL). rewrite RP in RP'. injection RP' as <-.
  destruct (ALL o IO) as (s' & F & GET'). rewrite GET in GET'. injection GET' as ->.
  exists o, lp, gins, gi, pi, s'. split; [reflexivity|]. split; [reflexivity|].
  match goal with H : Permutation (elements s) _ |- _ => rename H into P end.
  split; [|split; [now symmetry|]].
  - rewrite <- P. apply inputs_tuples in F. rewrite F. reflexivity.
  - rewrite <- P. apply Forall_forall. intros e I. rewrite Forall_forall in DW. destruct (DW e I) as (it & -> & H). exists it. split; [reflexivity|].
    intros k J. now apply (H o k).
Qed.

Theorem packed_evaluates vs : (forall v, In v vs -> D v) -> evaluates size other run1 (map packA vs) ->
  evaluates size other runA vs /\
  forall v m, In v vs -> occurs m v -> (exists v', In v' vs /\ occurs (packA m) (packA v')) -> content runA m = content run1 (packA m).
Proof.
  intros VD EV.
  assert (forall m, D m -> (forall keys, def_of m <> ExtractKeys keys) -> content runA m = content run1 (packA m)) as NE.
  { intros [l d ins i] HD H. destruct (packA_shape l d ins i) as (d' & ins' & ->). cbn [content]. now rewrite (run_not_extract _ _ _ _ HD H). }
  assert (forall m v, D m -> In v vs -> occurs (packA m) (packA v) -> content runA m = content run1 (packA m)) as LEFT.
  { intros m v HD I K. destruct m as [l d ins i]. destruct d as [|keys|key|c|c|n|n|ops|ops|key| |x|x|x|n x]; try (apply NE; [exact HD|discriminate]).
    destruct (D_wf _ _ _ _ HD) as (_ & _ & (gl & gins & gi & ->) & _). remember (Node gl ApplySavedModel gins gi) as g.
    rewrite packA_same in * by (auto; discriminate). cbn [content]. rewrite (run_extract _ _ _ _ HD).
    pose proof (EV (packA v) _ _ _ _ (in_map _ _ _ I) K) as C. cbn [map] in C. inversion C; subst.
    match goal with H : Forall2 _ _ _ |- _ => apply inputs_tuples in H; rewrite H in * end.
    reflexivity. }
  split; [|intros v m I K (v' & I' & K'); apply LEFT with v'; auto; apply D_occurs with v; auto].
  intros v l d ins i I K.
  assert (D (Node l d ins i)) as HD by (apply D_occurs with v; auto).
  destruct (group_of packable l) as [gp|] eqn:E.
  - assert (exists v, In v vs /\ occurs (packA (Node l d ins i)) (packA v)) as OV.
    { exists v. split; [exact I|]. destruct (occurs_packed v (VD v I) _ K) as [A|(l' & d' & j & gp' & A & B & _)]; [exact A|].
      exfalso. destruct (grouped _ _ _ _ _ A B) as (? & ? & ? & ? & ? & ? & _ & _ & _ & _ & _ & Q). injection Q as -> -> _ _.
      destruct (grouped _ _ _ _ _ HD E) as (? & ? & ? & ? & ? & ? & _ & _ & _ & _ & Q & _). discriminate. }
    destruct (packed_result _ _ _ _ _ _ EV HD E OV) as (o & lp & gins & gi & pi & s & -> & -> & P & R & _).
    cbn [map]. rewrite (run_not_extract _ _ _ _ HD) by discriminate. rewrite R. constructor. cbn [content].
    assert (D (Node lp (ExtractKeys (op_keys o)) [Node gp ApplySavedModel gins gi] pi)) as HP by (eapply D_closed; [exact HD|now left]).
    rewrite (run_extract _ _ _ _ HP). destruct (D_wf _ _ _ _ HP) as (B & _). cbn in B. assert (pi = 0) as -> by lia. exact P.
  - assert (packA (Node l d ins i) = Node l d (map packA ins) i) as EP by (cbn [packA]; now rewrite E).
    destruct (occurs_packed v (VD v I) _ K) as [A|(l' & d' & j & gp' & A & B & C)].
    + assert (map (content runA) ins = map (content run1) (map packA ins)) as ->.
      { rewrite map_map. apply map_ext_in. intros x J. apply LEFT with v; auto; [now apply D_closed with l d ins i|].
        rewrite EP in A. eapply occurs_below; [|exact A]. now apply in_map. }
      rewrite EP in A. pose proof (EV (packA v) _ _ _ _ (in_map _ _ _ I) A) as C.
      assert (runA l = run1 l) as ->; [|exact C].
      destruct d as [|keys|key|c|c|n|n|ops|ops|key| |x|x|x|n x]; try (eapply run_not_extract; [exact HD|discriminate]).
      destruct (D_wf _ _ _ _ HD) as (_ & _ & (gl & gins & gi & ->) & _). rewrite (run_extract _ _ _ _ HD). cbn [map] in C. inversion C; subst.
      match goal with H : Forall2 _ _ _ |- _ => apply inputs_tuples in H; rewrite H in * end. reflexivity.
    + destruct (packed_result _ _ _ _ _ _ EV A B (ex_intro _ v (conj I C))) as (o & lp & gins & gi & pi & s & -> & EQ & _ & _ & F).
      injection EQ as -> -> -> _. cbn [map]. rewrite (run_extract _ _ _ _ HD).
      assert (D (Node gp' ApplySavedModel gins gi)) as HG by (eapply D_closed; [exact HD|now left]).
      rewrite (NE _ HG) by discriminate. constructor. remember (content run1 (packA (Node gp' ApplySavedModel gins gi))) as es.
      clear - F. induction F as [|e es H F IH]; [constructor|]. cbn [map]. constructor; [|exact IH]. now apply tuples_found.
Qed.

(** ** The packed graph is as merging combiners are packed for *)
Notation D1 := (in_graph (map packA values)).

Lemma occurs_inv (m : node) l d ins i : occurs m (Node l d ins i) -> m = Node l d ins i \/ exists y, In y ins /\ occurs m y.
Proof. intros K. inversion K; subst; eauto. Qed.
Lemma packA_kinds n : D n -> forall m, occurs m (packA n) ->
  (exists n', occurs n' n /\ m = packA n') \/
  (exists gp gins gi, occurs (Node gp ApplySavedModel gins gi) n /\ m = packed_node gp (packA (Node gp ApplySavedModel gins gi))).
Proof.
  induction n as [n IH] using node_strong. intros HD m K. destruct n as [l d ins i].
  destruct (group_of packable l) as [gp|] eqn:E.
  - destruct (packA_packed _ _ _ _ _ HD E) as (lp & keys & gins & gi & pi & -> & EP). remember (Node gp ApplySavedModel gins gi) as g eqn:EG.
    assert (occurs g (Node l d [Node lp (ExtractKeys keys) [g] pi] i)) as KG.
    { eapply occurs_input; [now left|]. eapply occurs_input; [now left|constructor]. }
    rewrite EP in K. destruct (occurs_inv _ _ _ _ _ K) as [->|(y & [<-|[]] & KY)].
    { left. eexists. split; [constructor|]. now rewrite EP. }
    destruct (occurs_inv _ _ _ _ _ KY) as [->|(y & [<-|[]] & KY')].
    { right. exists gp, gins, gi. rewrite <- EG. split; [exact KG|reflexivity]. }
    assert (D g) as HG by (eapply D_occurs; [exact KG|exact HD]).
    destruct (IH g (Node lp (ExtractKeys keys) [g] pi)) with (m := m) as [(n' & A & B)|(gp' & gins' & gi' & A & B)]; auto.
    { cbn. auto. }
    { eapply occurs_input; [now left|constructor]. }
    + left. exists n'. split; [now apply occurs_trans with g|exact B].
    + right. exists gp', gins', gi'. split; [now apply occurs_trans with g|exact B].
  - assert (packA (Node l d ins i) = Node l d (map packA ins) i) as EP by (cbn [packA]; now rewrite E).
    rewrite EP in K. inversion K as [|? ? ? ? y IY KY]; subst.
    { left. eexists. split; [constructor|]. now rewrite EP. }
    apply in_map_iff in IY. destruct IY as (x & <- & IX).
    assert (D x) as HX by now apply D_closed with l d ins i.
    destruct (IH x x IX (occurs_here x) HX m KY) as [(n' & A & B)|(gp' & gins' & gi' & A & B)].
    + left. exists n'. split; [now apply occurs_input with x|exact B].
    + right. exists gp', gins', gi'. split; [now apply occurs_input with x|exact B].
Qed.
Lemma D1_kinds m : D1 m -> (exists n, D n /\ m = packA n) \/
  (exists gp gins gi, D (Node gp ApplySavedModel gins gi) /\ m = packed_node gp (packA (Node gp ApplySavedModel gins gi))).
Proof.
  intros (v & I & K). apply in_map_iff in I. destruct I as (w & <- & I). assert (D w) as HW by (exists w; split; [exact I|constructor]).
  destruct (packA_kinds w HW m K) as [(n & A & B)|(gp & gins & gi & A & B)]; [left; exists n|right; exists gp, gins, gi]; (split; [|exact B]); now exists w.
Qed.
Lemma packA_label n : label_of (packA n) = label_of n.
Proof. destruct n as [l d ins i]. destruct (packA_shape l d ins i) as (d' & ins' & ->). reflexivity. Qed.
Lemma packA_op l d ins i j : op_of (packA (Node l d ins i)) = op_of (packA (Node l d ins j)).
Proof. cbn [packA]. destruct (group_of packable l); [|reflexivity]. destruct (map packA ins) as [|[? [] [|? []] ?] []]; reflexivity. Qed.
Lemma label_packed n gp (g : node) : D n -> D g -> label_of g = gp -> label_of n <> packed_label gp.
Proof.
  intros HD HG <- E. destruct n as [l d ins i]. destruct (D_wf _ _ _ _ HD) as (_ & _ & _ & NP). cbn in E. apply NP. rewrite E.
  unfold packed_label. apply (packing_label_of values "PackedCombineAccumulate["); [now left|exact HG].
Qed.

Lemma D1_unique : unique_labels (map packA values).
Proof.
  intros l d ins i d' ins' i' H H'.
  assert (op_of (Node l d ins i) = op_of (Node l d' ins' i')) as E; [|cbn in E; now injection E].
  destruct (D1_kinds _ H) as [(n & A & B)|(gp & gins & gi & A & B)]; destruct (D1_kinds _ H') as [(n' & A' & B')|(gp' & gins' & gi' & A' & B')].
  - pose proof (f_equal label_of B) as L. pose proof (f_equal label_of B') as L'. rewrite packA_label in L, L'. cbn in L, L'.
    rewrite B, B'. destruct n as [ln dn insn jn], n' as [ln' dn' insn' jn']. cbn in L, L'. subst ln ln'. destruct (D_unique _ _ _ _ _ _ _ A A') as [<- <-]. apply packA_op.
  - exfalso. pose proof (f_equal label_of B) as L. pose proof (f_equal label_of B') as L'. rewrite packA_label in L. cbn in L, L'.
    apply (label_packed n gp' _ A A' eq_refl). now rewrite <- L, L'.
  - exfalso. pose proof (f_equal label_of B) as L. pose proof (f_equal label_of B') as L'. rewrite packA_label in L'. cbn in L, L'.
    apply (label_packed n' gp _ A' A eq_refl). now rewrite <- L', L.
  - pose proof (f_equal label_of B) as L. pose proof (f_equal label_of B') as L'. cbn [label_of packed_node] in L, L'. rewrite L in L'.
    unfold packed_label in L'. apply bracket_inj in L'. subst gp'. destruct (D_unique _ _ _ _ _ _ _ A A') as [_ <-].
    rewrite B, B'. cbn [op_of packed_node]. do 2 f_equal. f_equal. destruct (D_wf _ _ _ _ A) as (P & _). destruct (D_wf _ _ _ _ A') as (P' & _). cbn in P, P'. f_equal. lia.
Qed.

(** The kind of an operation of the packed graph. *)
Lemma packA_cases n : D n -> match n with
  | Node l d ins i => packA n = Node l d (map packA ins) i \/ exists gp g, packA n = Node l (ExtractKey l) [packed_node gp g] i /\ i = 0
  end.
Proof.
  destruct n as [l d ins i]. intros HD. destruct (group_of packable l) as [gp|] eqn:E.
  - right. destruct (packA_packed _ _ _ _ _ HD E) as (lp & keys & gins & gi & pi & -> & ->). eexists. eexists. split; [reflexivity|].
    destruct (grouped _ _ _ _ _ HD E) as (group & o & ? & ? & ? & ? & _ & _ & _ & _ & -> & _). destruct (D_wf _ _ _ _ HD) as (P & _). cbn in P. lia.
  - left. cbn [packA]. now rewrite E.
Qed.
Lemma D1_inv l d ins i : D1 (Node l d ins i) ->
  (exists ins0, D (Node l d ins0 i) /\ ins = map packA ins0) \/
  (exists d0 ins0 gp g, D (Node l d0 ins0 i) /\ d = ExtractKey l /\ ins = [packed_node gp g] /\ i = 0) \/
  (exists gp gins gi ops, D (Node gp ApplySavedModel gins gi) /\ l = packed_label gp /\ d = PackedAccumulate ops /\ ins = [packA (Node gp ApplySavedModel gins gi)] /\ i = 0).
Proof.
  intros H. destruct (D1_kinds _ H) as [([ln dn insn jn] & A & B)|(gp & gins & gi & A & B)].
  - destruct (packA_cases _ A) as [E|(gp & g & E & Ei)]; rewrite E in B; injection B as -> -> -> ->; [left; eauto|right; left]. exists dn, insn, gp, g. auto.
  - right. right. unfold packed_node in B. injection B as -> -> -> ->. exists gp, gins, gi. eexists. auto.
Qed.

Lemma D1_kind l d ins i : D1 (Node l d ins i) -> i < num_outputs d /\
  match d with
  | ExtractPackedOutputs _ | PackedMerge _ | AddKey _ => False
  | CombineMerge _ | ExtractOutputs _ => exists v, ins = [v]
  | _ => True
  end.
Proof.
  intros H. destruct (D1_inv _ _ _ _ H) as [(ins0 & A & ->)|[(d0 & ins0 & gp & g & _ & -> & _ & ->)|(gp & gins & gi & ops & _ & _ & -> & _ & ->)]]; [|cbn; auto|cbn; auto].
  destruct (D_wf _ _ _ _ A) as (P & U & KI & _). split; [exact P|]. destruct d; auto; destruct KI as (v & ->); cbn; eauto.
Qed.
Lemma D1_fresh n l : D1 n -> label_of n = l ->
  (forall p lm c ins i, In p ["AddKey["; "ExtractFromDict["; "ExtractPackedCombineMergeOutputs["]%string -> D1 (Node lm (CombineMerge c) ins i) -> l <> (p ++ lm ++ "]")%string) /\
  (forall p k, In p ["FlattenInputForPackedCombineMerge["; "PackedCombineMerge["]%string -> l <> (p ++ decimal k ++ "]")%string).
Proof.
  intros H <-. destruct n as [l d ins i]. cbn [label_of].
  assert ((exists d0 ins0, D (Node l d0 ins0 i)) \/ exists gp, l = packed_label gp) as [(d0 & ins0 & A)|(gp & ->)].
  { destruct (D1_inv _ _ _ _ H) as [(ins0 & A & ->)|[(d0 & ins0 & gp & g & A & _)|(gp & gins & gi & ops & _ & -> & _)]]; eauto. }
  - destruct (D_wf _ _ _ _ A) as (_ & _ & _ & NP). split.
    + intros p lm c ins1 i1 I HM E. apply NP. rewrite E.
      destruct (D1_inv _ _ _ _ HM) as [(ins2 & A2 & _)|[(? & ? & ? & ? & _ & Q & _)|(? & ? & ? & ? & _ & _ & Q & _)]]; try discriminate.
      apply (packing_label_of values p (Node lm (CombineMerge c) ins2 i1)); [now right|exact A2].
    + intros p k I E. apply NP. rewrite E. now constructor.
  - split.
    + intros p lm c ins1 i1 [<-|[<-|[<-|[]]]] _ E; cbn in E; discriminate.
    + intros p k [<-|[<-|[]]] E; cbn in E; discriminate.
Qed.

Lemma no_result_packA n : D n -> no_result n -> no_result (packA n).
Proof.
  intros HD NR l num ins i K. destruct (packA_kinds n HD _ K) as [([ln dn insn jn] & A & B)|(gp & gins & gi & A & B)]; [|discriminate].
  destruct (packA_cases _ (D_occurs _ _ A HD)) as [E|(gp & g & E & _)]; rewrite E in B; [|discriminate]. injection B as -> <- -> ->. now apply (NR _ _ _ _ A).
Qed.
Lemma steps_packA k n : D n -> steps_after_result k n -> steps_after_result k (packA n).
Proof.
  intros HD S. induction S as [l num m i NR|k l d v i S IH Hd].
  - rewrite packA_same by (auto; discriminate). cbn [map]. constructor. apply no_result_packA; [|exact NR]. eapply D_closed; [exact HD|now left].
  - rewrite packA_same; [|exact HD|destruct Hd as (x & [-> | ->]); discriminate]. cbn [map]. constructor; [|exact Hd]. apply IH. eapply D_closed; [exact HD|now left].
Qed.
Lemma packA_def n : D n -> (forall c, def_of n <> CombineAccumulate c) -> def_of (packA n) = def_of n.
Proof. destruct n as [l d ins i]. intros HD NC. now rewrite packA_same. Qed.
Lemma packA_merge n lm c ins i : D n -> packA n = Node lm (CombineMerge c) ins i -> exists ins0, n = Node lm (CombineMerge c) ins0 i.
Proof.
  intros HD E. destruct n as [l d ins0 j]. destruct (packA_cases _ HD) as [E'|(gp & g & E' & _)]; rewrite E' in E; [|discriminate]. injection E as -> -> _ ->. eauto.
Qed.

Lemma single_phase_packA root caches : values = root :: caches -> single_phase root caches -> single_phase (packA root) (map packA caches).
Proof.
  intros EV ((rl & rx & bindings & ER & HB) & HC & HS & ONE & USED & NC).
  assert (D root) as HR by (exists root; rewrite EV; split; [now left|constructor]).
  assert (forall b, In b bindings -> D b) as BD by (intros b I; rewrite ER in HR; eapply D_closed; eauto).
  assert (forall c, In c caches -> D c) as CD by (intros c I; exists c; rewrite EV; split; [now right|constructor]).
  assert (packA root = Node rl (SavedModel rx) (map packA bindings) 0) as EP by (rewrite ER in *; apply packA_same; [exact HR|discriminate]).
  split; [|split; [|split; [|split; [|split]]]].
  - exists rl, rx, (map packA bindings). split; [exact EP|]. intros b I. apply in_map_iff in I. destruct I as (b0 & <- & I).
    destruct (HB b0 I) as ((y & EY) & ST). split.
    + exists y. rewrite packA_def; auto. intros c. now rewrite EY.
    + destruct ST as [NR|(k & LE & ST)]; [left; apply no_result_packA; auto|right]. exists k. split; [exact LE|]. apply steps_packA; auto.
  - intros c I. apply in_map_iff in I. destruct I as (c0 & <- & I). apply no_result_packA; auto.
  - intros l x ins i v I K.
    assert (exists v0, In v0 (inputs_of root ++ caches) /\ v = packA v0) as (v0 & I0 & ->).
    { rewrite EP in I. cbn [inputs_of] in I. rewrite <- map_app in I. apply in_map_iff in I. destruct I as (v0 & <- & I). exists v0. rewrite ER. auto. }
    assert (D v0) as HV. { apply in_app_or in I0. destruct I0 as [I0|I0]; [|now apply CD]. rewrite ER in I0. now apply BD. }
    destruct (packA_kinds v0 HV _ K) as [([ln dn insn jn] & A & B)|(gp & gins & gi & A & B)]; [|discriminate].
    destruct (packA_cases _ (D_occurs _ _ A HV)) as [E|(gp & g & E & _)]; rewrite E in B; [|discriminate]. injection B as -> <- -> ->.
    now rewrite (HS _ _ _ _ _ I0 A).
  - intros l l' num num' ins i i' H H'. change (packA root :: map packA caches) with (map packA (root :: caches)) in *. rewrite <- EV in H, H'.
    destruct (D1_inv _ _ _ _ H) as [(ins0 & A & E0)|[(? & ? & ? & ? & _ & Q & _)|(? & ? & ? & ? & _ & _ & Q & _)]]; try discriminate.
    destruct (D1_inv _ _ _ _ H') as [(ins1 & A' & E1)|[(? & ? & ? & ? & _ & Q & _)|(? & ? & ? & ? & _ & _ & Q & _)]]; try discriminate.
    destruct (D_wf _ _ _ _ A) as (_ & _ & (m & ->) & _). destruct (D_wf _ _ _ _ A') as (_ & _ & (m' & ->) & _).
    assert (m = m') as <-.
    { rewrite E0 in E1. cbn in E1. injection E1 as E1.
      assert (D m) as HM by (eapply D_closed; [exact A|now left]). assert (D m') as HM' by (eapply D_closed; [exact A'|now left]).
      destruct m as [lm dm im jm], m' as [lm' dm' im' jm']. destruct (packA_shape lm dm im jm) as (? & ? & S1). destruct (packA_shape lm' dm' im' jm') as (? & ? & S2).
      change (packA (Node lm dm im jm) = packA (Node lm' dm' im' jm')) in E1.
      rewrite S1, S2 in E1. injection E1 as -> _ _ ->. destruct (D_unique _ _ _ _ _ _ _ HM HM') as [-> ->]. reflexivity. }
    rewrite EV in A, A'. eapply ONE; eauto.
  - intros l d ins i lm c mins mi H I. change (packA root :: map packA caches) with (map packA (root :: caches)) in *. rewrite <- EV in H.
    destruct (D1_inv _ _ _ _ H) as [(ins0 & A & ->)|[(? & ? & ? & ? & _ & _ & -> & _)|(? & ? & ? & ? & HG & _ & _ & -> & _)]].
    + apply in_map_iff in I. destruct I as (x & EX & IX). assert (D x) as HX by (eapply D_closed; eauto).
      destruct (packA_merge _ _ _ _ _ HX EX) as (ins1 & ->). rewrite EV in A. eapply USED; eauto.
    + destruct I as [I|[]]. discriminate.
    + destruct I as [I|[]]. destruct (packA_merge _ _ _ _ _ HG I) as (? & Q). discriminate.
  - intros v c I. apply in_map_iff in I. destruct I as (v0 & <- & I). intros E. destruct (packA v0) as [lv dv iv jv] eqn:EP'. cbn in E. subst dv.
    destruct (packA_merge _ _ _ _ _ (CD _ I) EP') as (ins0 & ->). now elim (NC _ c I).
Qed.
End Proofs.
