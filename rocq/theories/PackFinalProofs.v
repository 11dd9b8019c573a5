(** * Packing keeps what a graph computes *)
From Coq Require Import String.
From Coq Require Import List Arith Bool Lia Permutation.
From Verif Require Import CombineModel PackModel PackSpec PackProofs PackGraphModel PackGraphSpec PackTraverse PackAccProofs PackMergeProofs.
Import ListNotations.
Local Notation length := List.length.

Section Final.
Context {Obj X : Type}.
Notation value := (value Obj).
Notation node := (@node Obj X).
Notation kind := (@kind Obj X).
Notation collection := (list value).
Variable size : nat.
Hypothesis SIZE : 0 < size.
Variable other : string -> kind -> list collection -> list collection -> Prop.

Lemma NoDup_map_filter {A B} (f : A -> B) (p : A -> bool) l : NoDup (map f l) -> NoDup (map f (filter p l)).
Proof.
  induction l as [|a l IH]; intros N; [constructor|]. cbn [map] in N. inversion N as [|? ? NI N']. subst. cbn [filter].
  destruct (p a); [|now apply IH]. cbn [map]. constructor; [|now apply IH]. intros I. apply NI. apply in_map_iff in I. destruct I as (b & E & I).
  rewrite <- E. apply in_map. now apply filter_In in I.
Qed.
Lemma NoDup_flat_map_in {A B C} (f : B -> C) (g : A -> list B) l a : NoDup (map f (flat_map g l)) -> In a l -> NoDup (map f (g a)).
Proof.
  induction l as [|b l IH]; intros N I; [destruct I|]. cbn [flat_map] in N. rewrite map_app in N. destruct I as [<-|I].
  - clear IH. induction (map f (g b)) as [|c cs IHc]; [constructor|]. cbn in N. inversion N as [|? ? NI N']. subst. constructor; [|now apply IHc].
    intros I. apply NI. apply in_or_app. now left.
  - apply IH; [|exact I]. clear - N. induction (map f (g b)) as [|c cs IHc]; [exact N|]. cbn in N. inversion N. auto.
Qed.

Theorem packing_keeps root caches num_phases :
  well_formed (root :: caches) -> of_bindings root ->
  (num_phases <= 1 -> single_phase root caches) ->
  exists root' caches', optimize root caches num_phases = Some (root', caches') /\
    label_of root' = label_of root /\ def_of root' = def_of root /\ length caches' = length caches /\
    forall run', evaluates size other run' (inputs_of root' ++ caches') ->
    exists run, evaluates size other run (inputs_of root ++ caches) /\
      Permutation (map (bound run') (inputs_of root')) (map (bound run) (inputs_of root)) /\
      map (content run') caches' = map (content run) caches.
Proof.
  intros WF (rl & rx & bindings & ER & TB) SPH. set (values := root :: caches) in *.
  assert (forall n, In n values -> in_graph values n) as VG by (intros n I; exists n; split; [exact I|constructor]).
  unfold optimize.
  destruct (traverse_function (in_graph values) (D_closed values) (proj1 WF) inspect_accumulate (fun x => x) (order root []) (inspected values)) with (n := root) (s := @nil (string * list (@combiner_op Obj))) as (memo & packable0 & EI & INS).
  - intros visited s l d ins i. now apply inspect_step.
  - apply VG. now left.
  - reflexivity.
  - split; [constructor|]. split; [constructor|]. intros ? ? ? [].
  - rewrite EI. set (packable := filter (fun g => 1 <? length (snd g)) packable0).
    destruct INS as (N1 & N2 & N3).
    assert (NoDup (map fst packable)) as G1 by now apply NoDup_map_filter.
    assert (forall gp group, In (gp, group) packable -> NoDup (map op_label group)) as G2.
    { intros gp group I. apply filter_In in I. destruct I as [I _]. exact (NoDup_flat_map_in op_label snd packable0 (gp, group) N2 I). }
    assert (forall gp group o, In (gp, group) packable -> In o group -> packs values gp o) as G3.
    { intros gp group o I J. apply filter_In in I. destruct I as [I _]. now apply (N3 gp group o). }
    clearbody packable.
    destruct (traverse_all_function (in_graph values) (D_closed values) (proj1 WF) (pack_accumulate packable) (packA packable) (order_all values []) (cache_ok values packable)) with (ns := values) (s := @nil (string * node)) as (memo1 & c1 & E1 & _).
    + intros visited s l d ins i. now apply (pack_step size).
    + exact VG.
    + reflexivity.
    + intros ? ? [].
    + unfold values in E1 at 1. rewrite E1. unfold values at 1. cbn [map].
      assert (packA packable root = Node rl (SavedModel rx) (map (packA packable) bindings) 0) as EP.
      { pose proof (VG root (or_introl eq_refl)) as HR. rewrite ER in HR |- *. apply (packA_same values WF packable G1 G2 G3); [exact HR|discriminate]. }
      assert (forall b, In b bindings -> in_graph values b) as BG.
      { intros b I. pose proof (VG root (or_introl eq_refl)) as HR. rewrite ER in HR. eapply D_closed; eauto. }
      (* What packing accumulations keeps. *)
      assert (forall run1, evaluates size other run1 (map (packA packable) bindings ++ map (packA packable) caches) ->
        exists run, evaluates size other run (bindings ++ caches) /\
          map (fun b => content run1 (packA packable b)) bindings = map (content run) bindings /\
          map (content run1) (map (packA packable) caches) = map (content run) caches) as KEEP.
      { intros run1 EV. rewrite <- map_app in EV.
        destruct (packed_evaluates size SIZE other values WF packable G1 G2 G3 run1 (bindings ++ caches)) as [A B]; [|exact EV|].
        - intros v I. apply in_app_or in I. destruct I as [I|I]; [now apply BG|]. apply VG. now right.
        - exists (runA values packable run1). split; [exact A|]. split; [|rewrite map_map]; apply map_ext_in; intros v I; symmetry.
          + apply (B v v); [apply in_or_app; now left|constructor|]. exists v. split; [apply in_or_app; now left|constructor].
          + apply (B v v); [apply in_or_app; now right|constructor|]. exists v. split; [apply in_or_app; now right|constructor]. }
      assert (forall run1 run, map (fun b => content run1 (packA packable b)) bindings = map (content run) bindings ->
        map (bound run1) (map (packA packable) bindings) = map (bound run) bindings) as BOUND.
      { intros run1 run E. rewrite map_map. clear - E BG TB WF G1 G2 G3. induction bindings as [|b bs IH]; [reflexivity|]. cbn [map] in E |- *.
        injection E as EB E. f_equal; [|apply IH; auto; intros; [apply TB|apply BG]; now right]. unfold bound. rewrite EB, packA_label.
        rewrite (packA_def values WF packable G1 G2 G3); [reflexivity|apply BG; now left|]. intros c. destruct (TB b (or_introl eq_refl)) as (y & ->). discriminate. }
      destruct (1 <? num_phases) eqn:ENP; [|apply Nat.ltb_ge in ENP; specialize (SPH ENP)].
      * exists (packA packable root), (map (packA packable) caches). split; [reflexivity|]. rewrite EP, ER. cbn [label_of def_of inputs_of].
        split; [reflexivity|]. split; [reflexivity|]. split; [apply map_length|]. intros run' EV.
        destruct (KEEP run' EV) as (run & A & B & C). exists run. split; [exact A|]. split; [|exact C]. now rewrite (BOUND _ _ B).
      * pose proof (D1_unique size SIZE values WF packable G1 G2 G3) as U1. pose proof (D1_kind size SIZE values WF packable G1 G2 G3) as K1.
        pose proof (D1_fresh size SIZE values WF packable G1 G2 G3) as F1. pose proof (single_phase_packA size SIZE values WF packable G1 G2 G3 root caches eq_refl SPH) as S1.
        unfold values in U1, K1, F1. cbn [map] in U1, K1, F1.
        set (root1 := packA packable root) in *. set (caches1 := map (packA packable) caches) in *.
        destruct (traverse_inspect (infos (order root1 [])) root1 caches1 U1 K1 eq_refl) as (n2 & memo2 & E2). rewrite E2, map_length.
        match goal with |- context [?n <=? 1] => destruct (n <=? 1) eqn:EL end.
        -- exists root1, caches1. split; [reflexivity|]. rewrite EP, ER. cbn [label_of def_of inputs_of].
           split; [reflexivity|]. split; [reflexivity|]. split; [apply map_length|]. intros run' EV.
           destruct (KEEP run' EV) as (run & A & B & C). exists run. split; [exact A|]. split; [|exact C]. now rewrite (BOUND _ _ B).
        -- apply Nat.leb_gt in EL.
           destruct (traverse_pack (infos (order root1 [])) root1 caches1 U1 K1 F1 S1 eq_refl EL) as (memo3 & s3 & E3). rewrite E3.
           destruct (rebuild (infos (order root1 [])) root1 caches1 U1 K1 F1 S1 eq_refl EL _ _ _ EP) as (R & memo4 & c4 & E4 & PR). rewrite E4.
           exists (Node rl (SavedModel rx) R 0), caches1. split; [reflexivity|]. rewrite ER. cbn [label_of def_of inputs_of].
           split; [reflexivity|]. split; [reflexivity|]. split; [apply map_length|]. intros run' EV.
           destruct (merge_values (infos (order root1 [])) root1 caches1 U1 K1 F1 S1 eq_refl EL size SIZE other run' _ _ _ R EP PR EV) as (A1 & A2 & A3).
           destruct (KEEP _ A1) as (run & A & B & C). exists run. split; [exact A|]. split; [|now rewrite A3].
           rewrite A2. now rewrite (BOUND _ _ B).
Qed.
End Final.
