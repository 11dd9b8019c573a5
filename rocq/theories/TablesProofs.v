(** * Proofs about readiness in the presence of tables *)
From Coq Require Import List Arith Bool Lia.
From Verif Require Import ReadyModel ReadySpec ReadyProofs.
Import ListNotations.

Lemma find_app {A} k (d e : list (nat * A)) :
  find k (d ++ e) = match find k d with Some v => Some v | None => find k e end.
Proof.
  induction d as [|[k' v] d IH]; cbn; [reflexivity|]. destruct (Nat.eqb k k'); auto.
Qed.

Lemma find_map {A B} (f : A -> B) k (d : list (nat * A)) :
  find k (map (fun e => (fst e, f (snd e))) d) = option_map f (find k d).
Proof.
  induction d as [|[k' v] d IH]; cbn; [reflexivity|]. destruct (Nat.eqb k k'); auto.
Qed.

Lemma find_In {A} k (d : list (nat * A)) v : find k d = Some v -> In (k, v) d.
Proof.
  induction d as [|[k' v'] d IH]; cbn; [discriminate|].
  destruct (Nat.eqb_spec k k') as [->|N]; [intros [= ->]; now left | auto].
Qed.

Lemma find_none {A} k (d : list (nat * A)) : find k d = None <-> ~ In k (map fst d).
Proof.
  induction d as [|[k' v'] d IH]; cbn; [tauto|].
  destruct (Nat.eqb_spec k k') as [->|N]; [split; [discriminate | tauto]|].
  rewrite IH. intuition congruence.
Qed.

Lemma In_find {A} k (d : list (nat * A)) v : NoDup (map fst d) -> In (k, v) d -> find k d = Some v.
Proof.
  induction d as [|[k' v'] d IH]; cbn; [tauto|]. intros ND I. inversion ND; subst.
  destruct (Nat.eqb_spec k k') as [->|N].
  - destruct I as [[= ->]|I]; [reflexivity|]. exfalso. apply H1. now apply (in_map fst) in I.
  - destruct I as [[= -> ->]|I]; [contradiction | auto].
Qed.

Lemma forallb_false {A} (f : A -> bool) l : forallb f l = false -> exists a, In a l /\ f a = false.
Proof.
  induction l as [|a l IH]; cbn; [discriminate|]. destruct (f a) eqn:F; cbn.
  - intros H. destruct (IH H) as (b & ? & ?). eauto.
  - intros _. eauto.
Qed.

Lemma not_ready_because {P} g (infos : list (nat * (bool * P))) x a :
  right_answer g infos x (Some a) -> is_ready a = false ->
  exists s p, reach g infos x s /\ find s infos = Some (false, p).
Proof.
  intros (_ & RD & DS) NR.
  destruct (forallb (fun s => match find s infos with Some (b, _) => b | None => true end)
              (dependent_sources a)) eqn:FB.
  - exfalso. rewrite forallb_forall in FB. assert (is_ready a = true); [|congruence].
    apply RD. intros s b p R Fs. assert (I : In s (dependent_sources a)).
    { apply DS. split; [exact R|]. unfold is_source. congruence. }
    specialize (FB s I). now rewrite Fs in FB.
  - apply forallb_false in FB. destruct FB as (s & I & Q). apply DS in I. destruct I as [R _].
    destruct (find s infos) as [[b p]|] eqn:Fs; [|discriminate]. subst b. eauto.
Qed.

Section Tables.
Context {P : Type}.
Variable g : tf_graph.
Variable translate : nat -> list P -> P.
Variable no_path : P.
Variable inputs : list (nat * P).
Variable replaced : list (nat * bool).
Variable tables : list table.
Hypothesis CG : closed_graph g.
Hypothesis WF : well_formed_signature g inputs replaced tables.

Notation infos0 := (replaced_infos no_path replaced).
Notation reach0 := (reach g infos0).

Lemma find0 x : find x infos0 = option_map (fun b => (b, no_path)) (find x replaced).
Proof. unfold replaced_infos. apply (find_map (fun b => (b, no_path))). Qed.

Lemma source0 x : is_source infos0 x <-> is_replaced replaced x.
Proof.
  unfold is_source, is_replaced. rewrite find0. destruct (find x replaced); cbn; split; congruence.
Qed.

(** What is computed for one table. *)
Definition table_ready (t : table) (b : bool) : Prop :=
  (b = true <-> forall i s v, In i (init_inputs t) -> reach0 i s -> find s replaced = Some v -> v = true) /\
  (b = false -> exists i s, In i (init_inputs t) /\ reach0 i s /\ find s replaced = Some false).

Definition init_fine (t : table) : Prop :=
  forall i y, In i (init_inputs t) -> reach0 i y -> ~ unexpected g infos0 y.

Lemma analyze_all_spec xs : acyclic g infos0 -> (forall x, In x xs -> x < length g) ->
  forall M, sound g infos0 M -> exact g translate infos0 M ->
  exists k M' r, (forall fuel, k <= fuel -> analyze_all g translate infos0 fuel M xs = Some (M', r)) /\
    sound g infos0 M' /\ exact g translate infos0 M' /\
    match r with
    | Some rs => Forall2 (fun x a => right_answer g infos0 x (Some a) /\
                    has_path g translate infos0 x (path a)) xs rs
    | None => exists x y, In x xs /\ reach0 x y /\ unexpected g infos0 y
    end.
Proof.
  intros AC. induction xs as [|x xs IH]; intros L M S E.
  - exists 0, M, (Some []). split; [reflexivity|]. auto.
  - destruct (analyze_answer g translate infos0 CG x M) as (k1 & M1 & r1 & R1 & S1 & E1 & _ & A1); auto.
    { apply L. now left. }
    specialize (E1 AC E). destruct (A1 AC E) as [RA HP]. clear A1.
    destruct r1 as [a|].
    + destruct (IH (fun y Y => L y (or_intror Y)) M1 S1 E1) as (k2 & M2 & r2 & R2 & S2 & E2 & A2).
      exists (k1 + k2), M2, (match r2 with Some rs => Some (a :: rs) | None => None end). split.
      * intros fuel LE. cbn [analyze_all]. rewrite R1 by lia. rewrite R2 by lia.
        destruct r2; reflexivity.
      * split; [exact S2|]. split; [exact E2|]. destruct r2 as [rs|].
        -- constructor; auto.
        -- destruct A2 as (z & y & Z & Rz & U). exists z, y. split; [now right | auto].
    + exists k1, M1, None. split.
      * intros fuel LE. cbn [analyze_all]. now rewrite R1 by lia.
      * split; [exact S1|]. split; [exact E1|]. destruct RA as (y & Ry & U).
        exists x, y. split; [now left | auto].
Qed.

Lemma table_infos_spec : acyclic g infos0 ->
  forall ts, incl ts tables -> forall M acc, sound g infos0 M -> exact g translate infos0 M ->
  exists k r, (forall fuel, k <= fuel -> table_infos g translate infos0 fuel M ts acc = Some r) /\
    match r with
    | Some infos => (forall t, In t ts -> init_fine t) /\
        exists entries, infos = entries ++ acc /\
          Forall2 (fun t e => fst e = table_op t /\ table_ready t (fst (snd e)) /\
                     exists ps, Forall2 (has_path g translate infos0) (init_inputs t) ps /\
                       snd (snd e) = translate (table_op t) ps)
            ts (rev entries)
    | None => exists t, In t ts /\ ~ init_fine t
    end.
Proof.
  intros AC. induction ts as [|t ts IH]; intros IT M acc S E.
  - exists 0, (Some acc). split; [reflexivity|]. split; [intros t []|]. exists []. split; constructor.
  - destruct (analyze_all_spec (init_inputs t) AC) with (M := M) as (k1 & M1 & r1 & R1 & S1 & E1 & A1); auto.
    { intros x X. eapply (wf_init_range _ _ _ _ WF); [apply (IT t); now left | exact X]. }
    destruct r1 as [rs|].
    + set (e := (table_op t, (forallb is_ready rs, translate (table_op t) (map path rs)))).
      destruct (IH (fun y Y => IT y (or_intror Y)) M1 (e :: acc) S1 E1) as (k2 & r2 & R2 & A2).
      assert (FT : init_fine t).
      { intros i y I Ry. destruct (Forall2_In_l _ _ _ _ A1 I) as (a & _ & ((NU & _) & _)). auto. }
      exists (k1 + k2), r2. split.
      * intros fuel LE. cbn [table_infos]. rewrite R1 by lia. apply R2. lia.
      * destruct r2 as [infos|].
        -- destruct A2 as (F2 & en & -> & A2). split.
           { intros u [<-|U]; auto. }
           exists (en ++ [e]). rewrite <- app_assoc. split; [reflexivity|].
           rewrite rev_unit. constructor; [|exact A2]. cbn. split; [reflexivity|]. split.
           ++ unfold table_ready. split.
              2:{ intros NR. apply forallb_false in NR. destruct NR as (a & Ia & NR).
                  destruct (Forall2_In_r _ _ _ _ A1 Ia) as (i & I & RA & _).
                  destruct (not_ready_because g infos0 i a RA NR) as (s & p & Rs & Fs).
                  exists i, s. split; [exact I|]. split; [exact Rs|]. rewrite find0 in Fs.
                  destruct (find s replaced) as [v|]; [|discriminate]. cbn in Fs. congruence. }
              rewrite forallb_forall. split.
              ** intros H i s v I Rs Fs. destruct (Forall2_In_l _ _ _ _ A1 I) as (a & Ia & ((_ & RD & _) & _)).
                 apply (proj1 RD (H a Ia) s v no_path Rs). now rewrite find0, Fs.
              ** intros H a Ia. destruct (Forall2_In_r _ _ _ _ A1 Ia) as (i & I & ((_ & RD & _) & _)).
                 apply RD. intros s b p Rs Fs. rewrite find0 in Fs.
                 destruct (find s replaced) as [v|] eqn:Fv; [|discriminate]. cbn in Fs.
                 injection Fs as <- _. eapply H; eauto.
           ++ exists (map path rs). split; [|reflexivity]. clear - A1.
              induction A1 as [|x a l l' [_ H] F IHF]; cbn; constructor; auto.
        -- destruct A2 as (u & U & NF). exists u. split; [now right | exact NF].
    + exists k1, None. split.
      * intros fuel LE. cbn [table_infos]. now rewrite R1 by lia.
      * exists t. split; [now left|]. destruct A1 as (x & y & X & Rx & U). intros FT.
        exact (FT x y X Rx U).
Qed.

Variable infos : list (nat * (bool * P)).
Variable entries : list (nat * (bool * P)).
Hypothesis INFOS : infos = entries ++ map (fun ip => (fst ip, (true, snd ip))) inputs ++ infos0.
Hypothesis ENTRIES :
  Forall2 (fun t e => fst e = table_op t /\ table_ready t (fst (snd e)) /\
             exists ps, Forall2 (has_path g translate infos0) (init_inputs t) ps /\
               snd (snd e) = translate (table_op t) ps)
    tables (rev entries).
Hypothesis FINE : forall t, In t tables -> init_fine t.

Lemma entries_keys : map fst (rev entries) = map table_op tables.
Proof.
  clear - ENTRIES. induction ENTRIES as [|t e ts es [H _] F IH]; cbn; [reflexivity|]. rewrite H. f_equal. auto.
Qed.

Lemma entries_nodup : NoDup (map fst entries).
Proof.
  rewrite <- (rev_involutive entries), map_rev. apply NoDup_rev. rewrite entries_keys.
  apply (wf_tables _ _ _ _ WF).
Qed.

Lemma entries_find x e : find x entries = Some e ->
  exists t, In t tables /\ table_op t = x /\ table_ready t (fst e).
Proof.
  intros F. apply find_In in F. apply in_rev in F.
  destruct (Forall2_In_r _ _ _ _ ENTRIES F) as (t & T & E & R & _). cbn in *. eauto.
Qed.

Lemma entries_table t : In t tables -> exists e, find (table_op t) entries = Some e /\ table_ready t (fst e).
Proof.
  intros T. destruct (Forall2_In_l _ _ _ _ ENTRIES T) as ([k e] & I & E & R & _). cbn in *. subst k.
  exists e. split; [|exact R]. apply In_find; [apply entries_nodup | now apply in_rev].
Qed.

Lemma entries_none x : ~ is_table tables x -> find x entries = None.
Proof.
  intros N. destruct (find x entries) as [e|] eqn:F; [|reflexivity]. exfalso. apply N.
  destruct (entries_find x e F) as (t & T & E & _). exists t. auto.
Qed.

Lemma find_inputs x : find x (map (fun ip => (fst ip, (true, snd ip))) inputs)
  = option_map (fun p => (true, p)) (find x inputs).
Proof. apply (find_map (fun p => (true, p))). Qed.

Lemma find_infos x : find x infos =
  match find x entries with
  | Some e => Some e
  | None => match find x inputs with
            | Some p => Some (true, p)
            | None => option_map (fun b => (b, no_path)) (find x replaced)
            end
  end.
Proof.
  rewrite INFOS, !find_app, find_inputs, find0.
  destruct (find x entries); [reflexivity|]. destruct (find x inputs); reflexivity.
Qed.

Lemma source_infos x : is_source infos x <->
  is_table tables x \/ is_input inputs x \/ is_replaced replaced x.
Proof.
  unfold is_source. rewrite find_infos. split.
  - intros H. destruct (find x entries) as [e|] eqn:FE.
    + left. destruct (entries_find x e FE) as (t & T & E & _). exists t. auto.
    + right. unfold is_input, is_replaced. destruct (find x inputs); [left; discriminate|].
      right. destruct (find x replaced); [discriminate | cbn in H; congruence].
  - intros [(t & T & <-)|[I|R]].
    + destruct (entries_table t T) as (e & -> & _). discriminate.
    + destruct (find x entries); [discriminate|]. unfold is_input in I.
      destruct (find x inputs); [discriminate | congruence].
    + destruct (find x entries); [discriminate|]. destruct (find x inputs); [discriminate|].
      unfold is_replaced in R. destruct (find x replaced); [discriminate | congruence].
Qed.

Notation reachc := (reach g infos).
Notation needs := (needs g inputs replaced tables).

Lemma needs_trans x y z : needs x y -> needs y z -> needs x z.
Proof. induction 1; eauto using needs_parent, needs_table. Qed.

Lemma reach0_needs i s : reach0 i s -> needs i s.
Proof.
  induction 1 as [|x ps y z NS N I R IH]; [apply needs_refl|].
  rewrite source0 in NS. eapply needs_parent; eauto.
  - intros X. apply (wf_input_nodes _ _ _ _ WF) in X. congruence.
  - intros X. apply (wf_table_nodes _ _ _ _ WF) in X. congruence.
Qed.

Lemma needs_reach0 i s : needs i s ->
  (forall y, reach0 i y -> ~ unexpected g infos0 y) -> reach0 i s.
Proof.
  induction 1 as [|x ps y z NI NR NT N I R IH|x t y z T E I R IH]; intros F.
  - apply reach_refl.
  - assert (NS : ~ is_source infos0 x) by (rewrite source0; exact NR).
    eapply reach_step; eauto. apply IH. intros w W. apply F. eapply reach_step; eauto.
  - exfalso. apply (F x); [apply reach_refl|].
    assert (IT : is_table tables x) by (exists t; auto). split.
    + rewrite source0. now apply (wf_table_replaced _ _ _ _ WF).
    + now apply (wf_table_nodes _ _ _ _ WF).
Qed.

Lemma reachc_needs x s : reachc x s -> needs x s.
Proof.
  induction 1 as [|x ps y z NS N I R IH]; [apply needs_refl|].
  rewrite source_infos in NS. eapply needs_parent; eauto; tauto.
Qed.

Lemma reachc_feeds x s : reachc x s <-> feeds g inputs replaced tables x s.
Proof.
  split.
  - induction 1 as [|x ps y z NS N I R IH]; [apply feeds_refl|].
    rewrite source_infos in NS. eapply feeds_parent; eauto; tauto.
  - induction 1 as [|x ps y z NI NR NT N I R IH]; [apply reach_refl|].
    eapply reach_step; eauto. rewrite source_infos. tauto.
Qed.

Lemma needs_split x s : needs x s ->
  reachc x s \/ exists t i, In t tables /\ reachc x (table_op t) /\ In i (init_inputs t) /\ reach0 i s.
Proof.
  induction 1 as [x|x ps y z NI NR NT N I R IH|x t y z T E I R IH].
  - left. apply reach_refl.
  - assert (NS : ~ is_source infos x) by (rewrite source_infos; tauto).
    destruct IH as [Rz|(t & i & T & Rt & Ii & Ri)].
    + left. eapply reach_step; eauto.
    + right. exists t, i. split; [exact T|]. split; [eapply reach_step; eauto | auto].
  - right. exists t, y. split; [exact T|]. subst x. split; [apply reach_refl|].
    split; [exact I|]. apply needs_reach0; [exact R|]. intros w W. exact (FINE t T y w I W).
Qed.

Lemma acyclic_more : acyclic g infos0 -> acyclic g infos.
Proof.
  intros AC x ps y NS N I R.
  assert (UP : forall a b, reachc a b -> reach0 a b).
  { intros a b H. induction H as [|a qs c d NSa Na Ia Ra IH]; [apply reach_refl|].
    eapply reach_step; eauto. rewrite source0. rewrite source_infos in NSa. tauto. }
  apply (AC x ps y); auto. rewrite source0. rewrite source_infos in NS. tauto.
Qed.

Lemma ready_with_tables x a : right_answer g infos x (Some a) ->
  (is_ready a = true <-> forall s v, needs x s -> find s replaced = Some v -> v = true) /\
  (is_ready a = false -> exists s, needs x s /\ find s replaced = Some false) /\
  (forall s, is_input inputs s -> In s (dependent_sources a) <-> reachc x s).
Proof.
  intros RA. split; [|split].
  2:{ intros NR. destruct (not_ready_because g infos x a RA NR) as (s & p & R & Fs).
      rewrite find_infos in Fs. destruct (find s entries) as [[b' p']|] eqn:FE.
      - injection Fs as -> ->. destruct (entries_find s (false, p) FE) as (t & T & <- & _ & TR).
        destruct (TR eq_refl) as (i & s' & Ii & Ri & Fv). exists s'. split; [|exact Fv].
        eapply needs_trans; [apply reachc_needs; exact R|].
        eapply needs_table; eauto. now apply reach0_needs.
      - destruct (find s inputs); [discriminate|]. exists s. split; [now apply reachc_needs|].
        destruct (find s replaced) as [v|]; [|discriminate]. cbn in Fs. congruence. }
  all: destruct RA as (NU & RD & DS).
  2:{ intros s IS. rewrite DS. split; [tauto|]. intros R. split; [exact R|].
      rewrite source_infos. tauto. }
  rewrite RD. split.
  - intros H s v N Fs. destruct (needs_split x s N) as [R|(t & i & T & Rt & Ii & Ri)].
    + apply (H s v no_path R). rewrite find_infos.
      assert (IR : is_replaced replaced s) by (unfold is_replaced; congruence).
      rewrite entries_none by (intros IT; exact (wf_table_replaced _ _ _ _ WF s IT IR)).
      destruct (find s inputs) as [p|] eqn:FI.
      * exfalso. apply (wf_input_replaced _ _ _ _ WF s); [unfold is_input; congruence | exact IR].
      * now rewrite Fs.
    + destruct (entries_table t T) as ([b p] & FE & TR & _). cbn in TR.
      assert (b = true).
      { apply (H (table_op t) b p Rt). now rewrite find_infos, FE. }
      apply (proj1 TR H0 i s v Ii Ri Fs).
  - intros H s b p R Fs. rewrite find_infos in Fs.
    destruct (find s entries) as [[b' p']|] eqn:FE.
    + injection Fs as -> ->. destruct (entries_find s (b, p) FE) as (t & T & <- & TR & _). cbn in TR.
      apply TR. intros i s' v Ii Ri Fv. apply (H s' v); [|exact Fv].
      eapply needs_trans; [apply reachc_needs; exact R|].
      eapply needs_table; eauto. now apply reach0_needs.
    + destruct (find s inputs) as [q|]; [congruence|].
      destruct (find s replaced) as [v|] eqn:Fv; [|discriminate]. cbn in Fs. injection Fs as <- _.
      apply (H s v); [|exact Fv]. now apply reachc_needs.
Qed.

End Tables.

(** The whole: construction, then a query in any state of the analyzer. *)
Lemma initializable_memo {P} (g : tf_graph) (translate : nat -> list P -> P) (no_path : P)
  inputs replaced tables :
  closed_graph g -> well_formed_signature g inputs replaced tables ->
  acyclic g (replaced_infos no_path replaced) ->
  exists k built, (forall fuel, k <= fuel ->
      complete_infos g translate no_path fuel inputs replaced tables = Some built) /\
  match built with
  | None => exists t i y, In t tables /\ In i (init_inputs t) /\
      needs g inputs replaced tables i y /\
      nth_error g y = Some Unexpected /\ ~ is_replaced replaced y
  | Some infos =>
      acyclic g infos /\
      (forall t, In t tables -> init_fine g no_path replaced t) /\
      forall M x, sound g infos M -> exact g translate infos M -> x < length g ->
      exists k M' r, (forall fuel, k <= fuel ->
          analyze_tensor g translate infos fuel M x = Some (M', r)) /\
        sound g infos M' /\ exact g translate infos M' /\
        match r with
        | None => exists y, feeds g inputs replaced tables x y /\
                            not_provided g inputs replaced tables y
        | Some a =>
            (forall y, feeds g inputs replaced tables x y ->
               ~ not_provided g inputs replaced tables y) /\
            (is_ready a = true <->
               forall s v, needs g inputs replaced tables x s -> find s replaced = Some v -> v = true) /\
            (is_ready a = false ->
               exists s, needs g inputs replaced tables x s /\ find s replaced = Some false) /\
            (forall s, is_input inputs s ->
               In s (dependent_sources a) <-> feeds g inputs replaced tables x s)
        end
  end.
Proof.
  intros CG WF AC.
  destruct (table_infos_spec g translate no_path inputs replaced tables CG WF AC tables (incl_refl _) []
              (map (fun ip => (fst ip, (true, snd ip))) inputs ++ replaced_infos no_path replaced)
              (sound_nil g _) (exact_nil g translate _)) as (k & r & R & A).
  exists k, r. split; [exact R|]. destruct r as [infos|].
  - destruct A as (FINE & entries & E & EN). 
    assert (AC' : acyclic g infos) by (eapply acyclic_more; eauto).
    split; [exact AC'|]. split; [exact FINE|]. intros M x SM EM LX.
    destruct (analyze_answer g translate infos CG x M LX SM) as (k2 & M' & r & R2 & S2 & E2 & _ & RA).
    destruct (RA AC' EM) as [RA' _]. clear RA. rename RA' into RA.
    exists k2, M', r. split; [exact R2|]. split; [exact S2|]. split; [auto|]. 
    assert (FE : forall a b, reach g infos a b <-> feeds g inputs replaced tables a b).
    { intros a b. eapply reachc_feeds; eauto. }
    assert (NP : forall y, unexpected g infos y <-> not_provided g inputs replaced tables y).
    { intros y. unfold unexpected, not_provided.
      rewrite (source_infos g translate no_path inputs replaced tables WF infos entries E EN y). tauto. }
    destruct r as [a|].
    + split.
      { intros y Fy U. apply NP in U. apply FE in Fy. destruct RA as [NU _]. exact (NU y Fy U). }
      destruct (ready_with_tables g translate no_path inputs replaced tables WF infos entries E EN FINE x a RA)
        as (A1 & A2 & A3).
      split; [exact A1|]. split; [exact A2|]. intros s IS. rewrite (A3 s IS). apply FE.
    + destruct RA as (y & Ry & U). exists y. split; [now apply FE | now apply NP].
  - destruct A as (t & T & NF).
    assert (D : exists i y, In i (init_inputs t) /\ reach g (replaced_infos no_path replaced) i y /\
                  unexpected g (replaced_infos no_path replaced) y).
    { (* constructive: analyze the inputs of the initializer *)
      destruct (analyze_all_spec g translate no_path replaced CG (init_inputs t) AC)
        with (M := @nil (nat * analysis P)) as (k1 & M1 & r1 & R1 & S1 & E1 & A1).
      - intros x X. eapply (wf_init_range _ _ _ _ WF); eauto.
      - apply sound_nil.
      - apply exact_nil.
      - destruct r1 as [rs|].
        + exfalso. apply NF. intros i y I Ry.
          destruct (Forall2_In_l _ _ _ _ A1 I) as (a & _ & ((NU & _) & _)). auto.
        + destruct A1 as (i & y & I & Ry & U). eauto. }
    destruct D as (i & y & I & Ry & U). exists t, i, y. split; [exact T|]. split; [exact I|].
    split; [eapply reach0_needs; eauto|]. destruct U as [NS N]. split; [exact N|].
    now rewrite source0 in NS.
Qed.

(** The whole: construction, any history of queries, then a query. *)
Lemma initializable {P} (g : tf_graph) (translate : nat -> list P -> P) (no_path : P)
  inputs replaced tables :
  closed_graph g -> well_formed_signature g inputs replaced tables ->
  acyclic g (replaced_infos no_path replaced) ->
  exists k built, (forall fuel, k <= fuel ->
      complete_infos g translate no_path fuel inputs replaced tables = Some built) /\
  match built with
  | None => exists t i y, In t tables /\ In i (init_inputs t) /\
      needs g inputs replaced tables i y /\
      nth_error g y = Some Unexpected /\ ~ is_replaced replaced y
  | Some infos =>
      forall history x, (forall y, In y history -> y < length g) -> x < length g ->
      exists k M M' r, (forall fuel, k <= fuel ->
          analyze_tensors g translate infos fuel [] history = Some M /\
          analyze_tensor g translate infos fuel M x = Some (M', r)) /\
        match r with
        | None => exists y, feeds g inputs replaced tables x y /\
                            not_provided g inputs replaced tables y
        | Some a =>
            (forall y, feeds g inputs replaced tables x y ->
               ~ not_provided g inputs replaced tables y) /\
            (is_ready a = true <->
               forall s v, needs g inputs replaced tables x s -> find s replaced = Some v -> v = true) /\
            (is_ready a = false ->
               exists s, needs g inputs replaced tables x s /\ find s replaced = Some false) /\
            (forall s, is_input inputs s ->
               In s (dependent_sources a) <-> feeds g inputs replaced tables x s)
        end
  end.
Proof.
  intros CG WF AC.
  destruct (initializable_memo g translate no_path inputs replaced tables CG WF AC) as (k & b & R & A).
  exists k, b. split; [exact R|]. destruct b as [infos|]; [|exact A]. destruct A as [AC' [_ A]].
  intros history x LH LX.
  destruct (analyze_history g translate infos CG history LH [] (sound_nil g infos))
    as (k1 & M & R1 & S1 & E1).
  destruct (A M x S1 (E1 AC' (exact_nil g translate infos)) LX) as (k2 & M' & r & R2 & _ & _ & Q).
  exists (k1 + k2), M, M', r. split; [|exact Q].
  intros fuel LE. split; [apply R1 | apply R2]; lia.
Qed.

(** The whole, with the names of the inputs. *)
Lemma initializable_inputs {P N} (g : tf_graph) (translate : nat -> list P -> P) (no_path : P)
  inputs replaced tables (signature : list (N * list nat)) :
  closed_graph g -> well_formed_signature g inputs replaced tables ->
  acyclic g (replaced_infos no_path replaced) ->
  (forall name comps c, In (name, comps) signature -> In c comps -> is_input inputs c) ->
  exists k built, (forall fuel, k <= fuel ->
      complete_infos g translate no_path fuel inputs replaced tables = Some built) /\
  match built with
  | None => exists t i y, In t tables /\ In i (init_inputs t) /\
      needs g inputs replaced tables i y /\
      nth_error g y = Some Unexpected /\ ~ is_replaced replaced y
  | Some infos =>
      forall history x, (forall y, In y history -> y < length g) -> x < length g ->
      exists k M M' r, (forall fuel, k <= fuel ->
          analyze_tensors g translate infos fuel [] history = Some M /\
          analyze_tensor g translate infos fuel M x = Some (M', r)) /\
        match r with
        | None => exists y, feeds g inputs replaced tables x y /\
                            not_provided g inputs replaced tables y
        | Some a =>
            (forall y, feeds g inputs replaced tables x y ->
               ~ not_provided g inputs replaced tables y) /\
            (is_ready a = true <->
               forall s v, needs g inputs replaced tables x s -> find s replaced = Some v -> v = true) /\
            (is_ready a = false ->
               exists s, needs g inputs replaced tables x s /\ find s replaced = Some false) /\
            (forall name, In name (dependent_inputs signature a) <->
               exists comps c, In (name, comps) signature /\ In c comps /\
                               feeds g inputs replaced tables x c)
        end
  end.
Proof.
  intros CG WF AC SG.
  destruct (initializable g translate no_path inputs replaced tables CG WF AC) as (k & b & R & A).
  exists k, b. split; [exact R|]. destruct b as [infos|]; [|exact A].
  intros history x LH LX. destruct (A history x LH LX) as (k2 & M & M' & r & R2 & Q).
  exists k2, M, M', r. split; [exact R2|]. destruct r as [a|]; [|exact Q].
  destruct Q as (Q1 & Q2 & Q3 & Q4). split; [exact Q1|]. split; [exact Q2|]. split; [exact Q3|].
  intros name. unfold dependent_inputs. rewrite in_map_iff. split.
  - intros ([n comps] & <- & F). apply filter_In in F. destruct F as [I E].
    apply existsb_exists in E. destruct E as (c & C & E). unfold mem in E.
    apply existsb_exists in E. destruct E as (c' & C' & E). apply Nat.eqb_eq in E. subst c'.
    exists comps, c. split; [exact I|]. split; [exact C|]. apply Q4; eauto.
  - intros (comps & c & I & C & F). exists (name, comps). split; [reflexivity|].
    apply filter_In. split; [exact I|]. apply existsb_exists. exists c. split; [exact C|].
    unfold mem. apply existsb_exists. exists c. split; [|apply Nat.eqb_refl]. apply Q4; eauto.
Qed.

(** Graphs whose nodes are numbered after their parents. *)
Lemma numbered_acyclic {P} (g : tf_graph) (infos : list (nat * (bool * P))) :
  (forall x ps y, nth_error g x = Some (Node ps) -> In y ps -> y < x) -> acyclic g infos.
Proof.
  intros NB x ps y _ N I R.
  assert (forall a b, reach g infos a b -> b <= a).
  { clear - NB. induction 1 as [|a qs b c NS N I R IH]; [lia|]. specialize (NB a qs b N I). lia. }
  specialize (H y x R). specialize (NB x ps y N I). lia.
Qed.
