(** * Proofs about applying a transform graph: dependencies and values *)
From Coq Require Import String List Arith Bool Lia Permutation.
From Verif Require Import SortModel SortProofs ServeModel ServeSpec.
Import ListNotations.
Local Open Scope list_scope.
Local Notation length := List.length.

Lemma tensor_eqb_eq a b : tensor_eqb a b = true <-> a = b.
Proof.
  destruct a as [i j], b as [k l]. unfold tensor_eqb. cbn [fst snd]. rewrite andb_true_iff, !Nat.eqb_eq. split; [intros [-> ->]; reflexivity|].
  intros E. injection E as -> ->. auto.
Qed.
Lemma mem_tensor_in t l : mem_tensor t l = true <-> In t l.
Proof.
  unfold mem_tensor. rewrite existsb_exists. split; [intros (x & I & E); apply tensor_eqb_eq in E; congruence|].
  intros I. exists t. split; [exact I|]. now apply tensor_eqb_eq.
Qed.
Lemma mem_nat_in i l : mem_nat i l = true <-> In i l.
Proof.
  unfold mem_nat. rewrite existsb_exists. split; [intros (x & I & E); apply Nat.eqb_eq in E; congruence|].
  intros I. exists i. split; [exact I|]. now apply Nat.eqb_eq.
Qed.
Lemma mem_string_in k l : existsb (String.eqb k) l = true <-> In k l.
Proof.
  rewrite existsb_exists. split; [intros (x & I & E); apply String.eqb_eq in E; congruence|].
  intros I. exists k. split; [exact I|]. apply String.eqb_refl.
Qed.
Lemma nth_in_or {A} n (l : list A) x : l <> [] -> x = hd x l -> In (nth n l x) l.
Proof.
  intros N E. destruct (Nat.lt_ge_cases n (length l)) as [L|L]; [now apply nth_In|].
  rewrite nth_overflow by exact L. destruct l; [contradiction|]. cbn in E. left. now symmetry.
Qed.

Lemma nth_error_firstn {A} (l : list A) : forall n i, i < n -> nth_error (firstn n l) i = nth_error l i.
Proof. induction l as [|x l IH]; intros [|n] [|i] L; cbn; try lia; auto. apply IH. lia. Qed.

(** ** Walking the graph *)
Section Walk.
Variables (choose : list nat -> nat) (g : func_graph).
Hypothesis wf : well_formed g.

Lemma operation_at_some i o : nth_error (operations g) i = Some o -> operation_at g i = o.
Proof. intros E. unfold operation_at. now apply nth_error_nth. Qed.

Variable sinks : list nat.
Hypothesis sinks_in : forall s, In s sinks -> s < length (operations g).

Definition reached (i : nat) : Prop := exists s, In s sinks /\ computed_from g s i.
Lemma computed_step i j o t : computed_from g i j -> nth_error (operations g) j = Some o -> In t (op_inputs o) -> computed_from g i (fst t).
Proof.
  intros C. induction C as [i|i o' t' j E I C IH]; intros Ej It.
  - eapply computed_through; eauto. constructor.
  - eapply computed_through; eauto.
Qed.

Record invariant (to_visit visited : list nat) (sources : list tensor) : Prop := Invariant {
  inv_reached : forall i, In i to_visit \/ In i visited -> reached i;
  inv_range : forall i, In i to_visit \/ In i visited -> i < length (operations g);
  inv_sinks : forall s, In s sinks -> In s to_visit \/ In s visited;
  inv_closed : forall i o t, In i visited -> nth_error (operations g) i = Some o -> In t (op_inputs o) -> In (fst t) to_visit \/ In (fst t) visited;
  inv_sources : forall t, In t sources <-> In (fst t) visited /\ placeholder g (fst t) /\ snd t = 0;
  inv_nodup : NoDup visited;
  inv_disjoint : forall i, In i to_visit -> ~ In i visited }.

Lemma fold_add_in visited l : forall s i,
  In i (fold_left (fun s i => if mem_nat i visited || mem_nat i s then s else i :: s) l s) <-> In i s \/ (In i l /\ (~ In i visited \/ In i s)).
Proof.
  induction l as [|x l IH]; intros s i; cbn [fold_left In]; [tauto|].
  rewrite IH. destruct (mem_nat x visited) eqn:V.
  - cbn [orb]. apply mem_nat_in in V. split; [tauto|]. intros [H|[[->|H] [N|N]]]; tauto.
  - cbn [orb]. assert (NV : ~ In x visited) by (rewrite <- mem_nat_in; congruence). destruct (mem_nat x s) eqn:S.
    + apply mem_nat_in in S. split; [tauto|]. intros [H|[[->|H] [N|N]]]; tauto.
    + cbn [In]. split.
      * intros [[->|H]|[H [N|[->|N]]]]; tauto.
      * intros [H|[[->|H] [N|N]]]; tauto.
Qed.

Lemma walk_sources fuel : forall to_visit visited sources, invariant to_visit visited sources ->
  length (operations g) <= fuel + length visited ->
  forall t, In t (walk choose g fuel true to_visit visited sources) <-> reached (fst t) /\ placeholder g (fst t) /\ snd t = 0.
Proof.
  assert (END : forall visited sources, invariant [] visited sources ->
    forall t, In t sources <-> reached (fst t) /\ placeholder g (fst t) /\ snd t = 0).
  { intros visited sources [R Ra S C So N D] t. rewrite So. split; [intros (I & P & E); auto|]. intros ((s & Is & Cs) & P & E).
    split; [|auto]. clear So P E. destruct (S s Is) as [[]|Iv]. clear S Is. induction Cs as [i|i o t' j E It Cs IH]; [exact Iv|].
    apply IH. destruct (C i o t' Iv E It) as [[]|I]. exact I. }
  induction fuel as [|fuel IH]; intros to_visit visited sources I L t.
  - cbn [walk]. destruct to_visit as [|x rest]; [now apply (END visited)|]. exfalso. destruct I as [R Ra S C So N D].
    assert (H : length (x :: visited) <= length (seq 0 (length (operations g)))).
    { apply NoDup_incl_length; [constructor; [apply D; now left|exact N]|]. intros i [<-|Ii]; apply in_seq; split; try lia; apply Ra; [left; now left|now right]. }
    rewrite seq_length in H. cbn [length] in H. lia.
  - cbn [walk]. destruct to_visit as [|x rest] eqn:ET; [now apply (END visited)|]. rewrite <- ET in *.
    set (op := nth (choose to_visit) to_visit x).
    assert (Iop : In op to_visit) by (apply nth_in_or; subst to_visit; [discriminate|reflexivity]).
    clearbody op. clear ET. destruct I as [R Ra S C So N D].
    destruct (nth_error (operations g) op) as [o|] eqn:E; [|exfalso; apply nth_error_None in E; specialize (Ra op (or_introl Iop)); lia].
    rewrite (operation_at_some _ _ E). destruct wf as (W & _). destruct (W op o E) as (Win & Wc & Wp). rewrite app_nil_r.
    apply IH; [|cbn [length]; lia].
    assert (Tv : forall i, In i (fold_left (fun s i => if mem_nat i (op :: visited) || mem_nat i s then s else i :: s) (map fst (op_inputs o))
                 (filter (fun i => negb (i =? op)) to_visit)) <->
                (In i to_visit /\ i <> op) \/ (In i (map fst (op_inputs o)) /\ ((i <> op /\ ~ In i visited) \/ (In i to_visit /\ i <> op)))).
    { intros i. rewrite fold_add_in, filter_In. cbn [In]. destruct (i =? op) eqn:Ei; [apply Nat.eqb_eq in Ei|apply Nat.eqb_neq in Ei]; cbn [negb].
      - subst i. split; [intros [[_ X]|[_ [X|[_ X]]]]; try discriminate; exfalso; apply X; now left|intros [[_ X]|[_ [[X _]|[_ X]]]]; contradiction].
      - split.
        + intros [[H _]|[H [X|[X _]]]]; [left; auto|right; split; auto; left; split; auto|right; auto].
        + intros [[H _]|[H [[_ X]|[X _]]]]; [left; auto|right; split; auto; left; intros [->|Y]; [now apply Ei|contradiction]|right; auto]. }
    constructor.
    + intros i [Hi|[<-|Hi]]; [|apply R; now left|apply R; now right]. apply Tv in Hi as [[Hi _]|[Hi _]]; [apply R; now left|].
      apply in_map_iff in Hi as (t' & <- & Hi). destruct (R op (or_introl Iop)) as (s & Is & Cs). exists s. split; [exact Is|].
      eapply computed_step; eauto.
    + intros i [Hi|[<-|Hi]]; [|apply Ra; now left|apply Ra; now right]. apply Tv in Hi as [[Hi _]|[Hi _]]; [apply Ra; now left|].
      apply in_map_iff in Hi as (t' & <- & Hi). specialize (Win t' Hi). specialize (Ra op (or_introl Iop)). lia.
    + intros s Is. rewrite Tv. cbn [In]. destruct (S s Is) as [H|H]; [|tauto]. destruct (Nat.eq_dec s op) as [->|Ne]; auto.
    + intros i o' t' [<-|Hi] E' It'; rewrite Tv; cbn [In].
      * assert (o' = o) as -> by congruence. specialize (Win t' It'). assert (fst t' <> op) as Ne by lia.
        destruct (in_dec Nat.eq_dec (fst t') visited) as [Y|Y]; [auto|]. left. right. split; [apply in_map; exact It'|]. auto.
      * destruct (C i o' t' Hi E' It') as [H|H]; [|tauto]. destruct (Nat.eq_dec (fst t') op) as [->|Ne]; auto.
    + intros [p c]. cbn [fst snd]. destruct (is_placeholder o) eqn:P.
      * rewrite in_app_iff, So, (Wp eq_refl). cbn [fst snd seq map In]. split.
        -- intros [(H & Pl & ->)|[X|[]]]; [auto|]. injection X as <- <-. split; [now left|]. split; [exists o; auto|reflexivity].
        -- intros ([<-|H] & Pl & ->); [right; now left|left; auto].
      * rewrite So. cbn [fst snd In]. split; [intros (H & Pl & ->); auto|]. intros ([<-|H] & (o' & E' & P') & ->); [congruence|].
        split; [exact H|]. split; [exists o'; auto|reflexivity].
    + constructor; [now apply D|exact N].
    + intros i Hi. apply Tv in Hi as [[Hi Ne]|[Hi [[Ne Nv]|[Hi' Ne]]]]; cbn [In]; intros [X|X]; try (now symmetry in X); try contradiction; [exact (D i Hi X)|exact (D i Hi' X)].
Qed.

Lemma as_set_in l i : In i (as_set l) <-> In i l.
Proof.
  induction l as [|x l IH]; cbn [as_set fold_right In]; [tauto|]. fold (as_set l). destruct (mem_nat x (as_set l)) eqn:M.
  - apply mem_nat_in in M. rewrite IH. split; [tauto|]. intros [<-|H]; [now apply IH|exact H].
  - cbn [In]. rewrite IH. tauto.
Qed.

Theorem sources_right t : In t (retrieve_sources choose g sinks true) <-> reached (fst t) /\ placeholder g (fst t) /\ snd t = 0.
Proof.
  unfold retrieve_sources. apply walk_sources; [|lia]. constructor; cbn [In].
  - intros i [H|[]]. apply (as_set_in sinks) in H. exists i. split; [exact H|constructor].
  - intros i [H|[]]. apply (as_set_in sinks) in H. auto.
  - intros s H. left. now apply as_set_in.
  - intros i o t' [].
  - intros t'. tauto.
  - constructor.
  - intros i _ [].
Qed.
End Walk.

(** ** Running operations *)
Section Run.
Context {value : Type}.
Variable run : nat -> list value -> option (list value).
Variable g : func_graph.
Hypothesis wf : well_formed g.

Lemma run_operations_prefix feed ops : forall env, firstn (length env) (run_operations run feed env ops) = env /\
  length (run_operations run feed env ops) = length env + length ops.
Proof.
  induction ops as [|o ops IH]; intros env; cbn [run_operations length]; [split; [apply firstn_all|lia]|].
  set (x := run_operation run feed env (length env) o). specialize (IH (env ++ [x])). rewrite app_length in IH. cbn [length] in IH.
  destruct IH as [F L]. split; [|lia].
  transitivity (firstn (length env) (env ++ [x])); [|rewrite firstn_app, firstn_all, Nat.sub_diag; apply app_nil_r].
  rewrite <- F at 2. rewrite firstn_firstn. f_equal. lia.
Qed.
Lemma run_operations_nth feed ops : forall env i o, nth_error ops i = Some o ->
  let E := run_operations run feed env ops in
  nth_error E (length env + i) = Some (run_operation run feed (firstn (length env + i) E) (length env + i) o).
Proof.
  induction ops as [|x ops IH]; intros env i o H; [destruct i; discriminate|]. cbn [run_operations].
  set (y := run_operation run feed env (length env) x). destruct i as [|i]; cbn [nth_error] in H.
  - injection H as <-. rewrite Nat.add_0_r. destruct (run_operations_prefix feed ops (env ++ [y])) as [F _].
    rewrite app_length in F. cbn [length] in F. set (E := run_operations run feed (env ++ [y]) ops) in *. cbn zeta.
    assert (FE : firstn (length env) E = env).
    { transitivity (firstn (length env) (env ++ [y])); [|rewrite firstn_app, firstn_all, Nat.sub_diag; apply app_nil_r].
      rewrite <- F, firstn_firstn. f_equal. lia. }
    rewrite FE. fold y. transitivity (nth_error (firstn (length env + 1) E) (length env)).
    + symmetry. apply nth_error_firstn. lia.
    + rewrite F. rewrite nth_error_app2 by lia. now rewrite Nat.sub_diag.
  - specialize (IH (env ++ [y]) i o H). rewrite app_length in IH. cbn [length] in IH. replace (length env + S i) with (length env + 1 + i) by lia. exact IH.
Qed.
Definition results (feed : tensor -> option value) := run_operations run feed [] (operations g).
Lemma results_nth feed i o : nth_error (operations g) i = Some o ->
  nth_error (results feed) i = Some (run_operation run feed (firstn i (results feed)) i o).
Proof. intros H. exact (run_operations_nth feed (operations g) [] i o H). Qed.

Lemma all_some_spec {A} (l : list (option A)) r : all_some l = Some r <-> l = map Some r.
Proof.
  revert r. induction l as [|[a|] l IH]; intros r; cbn [all_some].
  - split; [intros E; injection E as <-; reflexivity|]. destruct r; [reflexivity|discriminate].
  - destruct (all_some l) as [r'|].
    + split; [intros E; injection E as <-; cbn; f_equal; now apply IH|]. destruct r as [|b r]; cbn; intros E; [discriminate|]. injection E as -> E. apply IH in E. congruence.
    + split; [discriminate|]. destruct r as [|b r]; cbn; intros E; [discriminate|]. injection E as -> E. apply IH in E. discriminate.
  - split; [discriminate|]. destruct r; discriminate.
Qed.
Lemma all_some_map {A B} (f : A -> option B) l r : all_some (map f l) = Some r <-> Forall2 (fun a b => f a = Some b) l r.
Proof.
  rewrite all_some_spec. revert r. induction l as [|a l IH]; intros [|b r]; cbn; split; intros H; try discriminate; try constructor; try (now inversion H).
  - injection H as _ H. now apply IH.
  - inversion H as [|? ? ? ? E F]; subst. rewrite E. f_equal. now apply IH.
Qed.

Theorem results_ran feed i : i < length (operations g) -> forall r, nth_error (results feed) i = Some (Some r) <-> ran run g feed i r.
Proof.
  induction i as [i IH] using lt_wf_ind. intros L r.
  destruct (nth_error (operations g) i) as [o|] eqn:E; [|apply nth_error_None in E; lia].
  rewrite (results_nth feed i o E). destruct wf as (W & _). destruct (W i o E) as (Win & Wc & _).
  assert (V : forall t v, In t (op_inputs o) -> (input_value (firstn i (results feed)) t = Some v <->
              exists rt, ran run g feed (fst t) rt /\ nth_error rt (snd t) = Some v)).
  { intros t v It. specialize (Win t It). unfold input_value. rewrite nth_error_firstn by exact Win. split.
    - destruct (nth_error (results feed) (fst t)) as [[rt|]|] eqn:Et; try discriminate. intros Ev. exists rt. split; [|exact Ev].
      apply IH; [exact Win|lia|exact Et].
    - intros (rt & Rt & Ev). apply IH in Rt; [|exact Win|lia]. now rewrite Rt. }
  unfold run_operation. destruct (is_placeholder o) eqn:P.
  - destruct (feed (i, 0)) as [v|] eqn:F.
    + split; intros H.
      * injection H as <-. eapply ran_placeholder; eauto.
      * inversion H as [? o' v' E' P' F'|? o' vs r' E' P']; subst; [congruence|congruence].
    + split; [discriminate|]. intros H. inversion H as [? o' v' E' P' F'|? o' vs r' E' P']; subst; congruence.
  - destruct (forallb (has_run (firstn i (results feed))) (control_inputs o)) eqn:C.
    + assert (Cr : forall c, In c (control_inputs o) -> exists rc, ran run g feed c rc).
      { intros c Ic. rewrite forallb_forall in C. specialize (C c Ic). unfold has_run in C. specialize (Wc c Ic). rewrite nth_error_firstn in C by exact Wc.
        destruct (nth_error (results feed) c) as [[rc|]|] eqn:Ec; try discriminate. exists rc. apply IH; [exact Wc|lia|exact Ec]. }
      destruct (all_some (map (input_value (firstn i (results feed))) (op_inputs o))) as [vs|] eqn:A.
      * apply all_some_map in A. split; intros H.
        -- injection H as H. eapply ran_operation; eauto. clear -A V. induction A as [|t v ts vs E F IH]; constructor.
           ++ apply V; [now left|exact E].
           ++ apply IH. intros t' v' I. apply V. now right.
        -- inversion H as [? o' v' E' P' F'|? o' vs' r' E' P' C' F' R']; subst; [congruence|]. assert (o' = o) as -> by congruence.
           enough (vs' = vs) as -> by (now rewrite R'). clear -A F' V. revert vs' F'. induction A as [|t v ts vs E F IH]; intros vs' F'; inversion F' as [|? v' ? vs'' H F'']; subst; [reflexivity|].
           f_equal; [apply V in H; [congruence|now left]|]. apply IH; [|exact F'']. intros t' v'' I. apply V. now right.
      * split; [discriminate|]. intros H. inversion H as [? o' v' E' P' F'|? o' vs' r' E' P' C' F' R']; subst; [congruence|]. assert (o' = o) as -> by congruence.
        exfalso. enough (all_some (map (input_value (firstn i (results feed))) (op_inputs o)) = Some vs') by congruence. apply all_some_map.
        clear -F' V. induction F' as [|t v ts vs H F IH]; constructor; [apply V; [now left|exact H]|]. apply IH. intros t' v' I. apply V. now right.
    + split; [discriminate|]. intros H. inversion H as [? o' v' E' P' F'|? o' vs' r' E' P' C' F' R']; subst; [congruence|]. assert (o' = o) as -> by congruence.
      exfalso. enough (forallb (has_run (firstn i (results feed))) (control_inputs o) = true) by congruence. apply forallb_forall. intros c Ic. unfold has_run.
      specialize (Wc c Ic). rewrite nth_error_firstn by exact Wc. destruct (C' c Ic) as (rc & Rc). apply IH in Rc; [|exact Wc|lia]. now rewrite Rc.
Qed.

Lemma ran_range assign i r : ran run g assign i r -> i < length (operations g).
Proof. intros H. inversion H; subst; apply nth_error_Some; congruence. Qed.

(** The value of a tensor is determined by the placeholders it is computed from. *)
Lemma ran_agree a1 a2 : forall i, (forall p, computed_from g i p -> placeholder g p -> a1 (p, 0) = a2 (p, 0)) ->
  forall r1 r2, ran run g a1 i r1 -> ran run g a2 i r2 -> r1 = r2.
Proof.
  induction i as [i IH] using lt_wf_ind. intros H r1 r2 R1 R2.
  inversion R1 as [? o v E P F|? o vs r E P C F R]; subst; inversion R2 as [? o' v' E' P' F'|? o' vs' r' E' P' C' F' R']; subst; try congruence; assert (o' = o) as -> by congruence.
  - assert (a1 (i, 0) = a2 (i, 0)) by (apply H; [constructor|exists o; auto]). congruence.
  - enough (vs = vs') by congruence. destruct wf as (W & _). destruct (W i o E) as (Win & _).
    assert (G : forall ts, (forall t, In t ts -> In t (op_inputs o)) -> forall vs vs',
      Forall2 (fun t v => exists rt, ran run g a1 (fst t) rt /\ nth_error rt (snd t) = Some v) ts vs ->
      Forall2 (fun t v => exists rt, ran run g a2 (fst t) rt /\ nth_error rt (snd t) = Some v) ts vs' -> vs = vs').
    { clear vs vs' F F' R R'. induction ts as [|t ts IHt]; intros S vs vs' F F'; inversion F as [|? v ? vs1 (rt & Rt & Ev) F1]; subst; inversion F' as [|? v' ? vs1' (rt' & Rt' & Ev') F1']; subst; [reflexivity|].
      assert (It : In t (op_inputs o)) by (apply S; now left).
      f_equal; [|apply IHt; auto; intros t' It'; apply S; now right].
      assert (rt = rt') as ->; [|congruence]. apply (IH (fst t) (Win t It)); auto.
      intros p Cp Pp. apply H; [|exact Pp]. eapply computed_through; eauto. }
    eapply G; eauto.
Qed.
Lemma ran_ext a1 a2 : (forall t, a1 t = a2 t) -> forall i r, ran run g a1 i r -> ran run g a2 i r.
Proof.
  intros H. induction i as [i IH] using lt_wf_ind. intros r R. destruct wf as (W & _).
  inversion R as [? o v E P F|? o vs r' E P C F R']; subst.
  - eapply ran_placeholder; eauto. now rewrite <- H.
  - destruct (W i o E) as (Win & Wc & _). eapply ran_operation; eauto.
    + intros c Ic. destruct (C c Ic) as (rc & Rc). exists rc. apply IH; auto.
    + clear R' R. assert (S : forall t, In t (op_inputs o) -> fst t < i) by exact Win. clear -F S IH.
      induction F as [|t v ts vs (rt & Rt & Ev) F IHF]; constructor; [exists rt; split; [apply IH; [apply S; now left|exact Rt]|exact Ev]|].
      apply IHF. intros t' I. apply S. now right.
Qed.

Lemma input_value_gives feed t v : fst t < length (operations g) ->
  (input_value (results feed) t = Some v <-> exists r, ran run g feed (fst t) r /\ nth_error r (snd t) = Some v).
Proof.
  intros L. unfold input_value. split.
  - destruct (nth_error (results feed) (fst t)) as [[r|]|] eqn:E; try discriminate. intros Ev. exists r. split; [now apply results_ran|exact Ev].
  - intros (r & R & Ev). apply results_ran in R; [|exact L]. now rewrite R.
Qed.
Lemma values_gives feed ts vs : (forall t, In t ts -> fst t < length (operations g)) ->
  (all_some (map (input_value (results feed)) ts) = Some vs <-> gives run g feed ts vs).
Proof.
  intros L. rewrite all_some_map. unfold gives. split; intros F.
  - induction F as [|t v ts vs E F IH]; constructor; [apply input_value_gives; [apply L; now left|exact E]|apply IH; intros; apply L; now right].
  - induction F as [|t v ts vs E F IH]; constructor; [apply input_value_gives; [apply L; now left|exact E]|apply IH; intros; apply L; now right].
Qed.

(** [run_function] *)
Lemma run_function_spec pairs fetches r : incl fetches (structured_outputs g) ->
  (run_function run g pairs fetches = Some r <->
   Forall2 (fun o e => fst e = fst o /\ gives run g (feed_of pairs) (snd o) (snd e)) fetches r).
Proof.
  intros I. unfold run_function. fold (results (feed_of pairs)). rewrite all_some_map.
  assert (L : forall o, In o fetches -> forall t, In t (snd o) -> fst t < length (operations g)).
  { intros o Io t It. destruct wf as (_ & _ & _ & _ & _ & W). apply (W (fst o) (snd o)); [destruct o; now apply I|exact It]. }
  clear I. split; intros F; (induction F as [|o e os es E F IH]; constructor; [|apply IH; intros o' Io'; apply L; now right]).
  - destruct (all_some _) as [vs|] eqn:A; [|discriminate]. injection E as <-. split; [reflexivity|]. apply values_gives; [|exact A]. apply L. now left.
  - destruct E as [E G]. apply values_gives in G; [|apply L; now left]. rewrite G. destruct e. cbn in *. congruence.
Qed.
End Run.
