(** Proofs about tracked objects. *)
From Coq Require Import String List Bool Arith Lia.
From Verif Require Import TrackModel TrackSpec.
Import ListNotations.
Local Notation length := List.length.

(** ** First calls of a name *)

Lemma call_prefix pre post i f name : i < length pre -> (call_at (pre ++ post) i f name <-> call_at pre i f name).
Proof. intros H. unfold call_at. now rewrite nth_error_app1. Qed.
Lemma call_length calls i f name : call_at calls i f name -> i < length calls.
Proof. intros H. apply nth_error_Some. unfold call_at in H. congruence. Qed.

Lemma first_prefix pre post n i g : i < length pre -> (first_of_name (pre ++ post) n i g <-> first_of_name pre n i g).
Proof.
  intros H. unfold first_of_name. rewrite (call_prefix pre post i g (Some n) H).
  split; intros (A & B & C); (split; [exact A|split; [exact B|]]); intros k h Hk Hc; apply (C k h Hk).
  - apply call_prefix; [lia|exact Hc].
  - apply (call_prefix pre post); [lia|exact Hc].
Qed.

Lemma first_or_none calls n :
  (exists i g, first_of_name calls n i g) \/ (forall i g, call_at calls i g (Some n) -> g = Fails).
Proof.
  induction calls as [|[f name] calls IH] using rev_ind.
  - right. intros [|i] g H; discriminate.
  - destruct IH as [(i & g & H)|H].
    + left. exists i, g. apply first_prefix; [|exact H]. destruct H as [H _]. now apply call_length in H.
    + assert (D : (name = Some n /\ f <> Fails) \/ (name = Some n -> f = Fails)).
      { destruct name as [m|]; [|right; discriminate]. destruct (string_dec m n) as [->|N]; [|right; congruence].
        destruct f; [right; reflexivity|left; split; congruence|left; split; congruence]. }
      destruct D as [[-> Hf]|D].
      * left. exists (length calls), f. split; [unfold call_at; now rewrite nth_error_app2, Nat.sub_diag by lia|]. split; [exact Hf|].
        intros k g Hk Hc. apply (H k g). now apply (call_prefix calls [Call f (Some n)]).
      * right. intros i g Hc. destruct (Nat.lt_ge_cases i (length calls)) as [L|L].
        -- apply (H i g). now apply (call_prefix calls [Call f name]).
        -- pose proof (call_length _ _ _ _ Hc) as L'. rewrite app_length in L'. cbn in L'.
           assert (i = length calls) by lia. subst i. unfold call_at in Hc. rewrite nth_error_app2, Nat.sub_diag in Hc by lia.
           cbn in Hc. injection Hc as <- ->. now apply D.
Qed.

Lemma first_unique calls n i g j h : first_of_name calls n i g -> first_of_name calls n j h -> i = j /\ g = h.
Proof.
  intros (A & B & C) (A' & B' & C').
  assert (i = j).
  { destruct (lt_eq_lt_dec i j) as [[L|L]|L]; [|exact L|]; exfalso; [apply B, (C' i g L A)|apply B', (C j h L A')]. }
  subst j. unfold call_at in *. split; congruence.
Qed.

Lemma first_last calls f name n :
  (forall i g, call_at calls i g (Some n) -> g = Fails) -> name = Some n -> f <> Fails ->
  first_of_name (calls ++ [Call f name]) n (length calls) f.
Proof.
  intros H -> Hf. split; [unfold call_at; now rewrite nth_error_app2, Nat.sub_diag by lia|]. split; [exact Hf|].
  intros k g Hk Hc. apply (H k g). now apply (call_prefix calls [Call f (Some n)]).
Qed.

Lemma first_snoc calls f name n i g :
  first_of_name (calls ++ [Call f name]) n i g ->
  first_of_name calls n i g \/ (i = length calls /\ g = f /\ name = Some n /\ f <> Fails).
Proof.
  intros H. pose proof (call_length _ _ _ _ (proj1 H)) as L. rewrite app_length in L. cbn in L.
  destruct (Nat.lt_ge_cases i (length calls)) as [L'|L'].
  - left. now apply (first_prefix calls [Call f name]).
  - right. assert (i = length calls) by lia. subst i. destruct H as (A & B & _). unfold call_at in A.
    rewrite nth_error_app2, Nat.sub_diag in A by lia. cbn in A. injection A as <- ->. auto.
Qed.
Lemma first_stays calls f name n i g : first_of_name calls n i g -> first_of_name (calls ++ [Call f name]) n i g.
Proof. intros H. apply first_prefix; [|exact H]. destruct H as [H _]. now apply call_length in H. Qed.

(** ** Runs *)

Section runs.
  Variable has : string -> option value.
  Let env := scope has.

  Lemma run_app st a b : run env st (a ++ b) =
    let '(s1, r1) := run env st a in let '(s2, r2) := run env s1 b in (s2, r1 ++ r2).
  Proof.
    revert st. induction a as [|c a IH]; intros st.
    - cbn [app run]. now destruct (run env st b).
    - cbn [app run]. destruct (make_and_track_object env st c) as [s r]. rewrite IH.
      destruct (run env (tick s) a) as [s1 r1]. now destruct (run env s1 b) as [s2 r2].
  Qed.

  Definition after (calls : list call) : state := fst (run env initial calls).

  Lemma after_snoc calls c : after (calls ++ [c]) = tick (fst (make_and_track_object env (after calls) c)).
  Proof.
    unfold after. rewrite run_app. destruct (run env initial calls) as [s1 r1]. cbn [fst run].
    now destruct (make_and_track_object env s1 c) as [s r].
  Qed.

  Lemma run_length st calls : length (snd (run env st calls)) = length calls.
  Proof.
    revert st. induction calls as [|c calls IH]; intros st; [reflexivity|]. cbn [run].
    destruct (make_and_track_object env st c) as [s r]. specialize (IH (tick s)). destruct (run env (tick s) calls). cbn in *. now f_equal.
  Qed.

  Lemma result_at pre c post : nth_error (snd (run env initial (pre ++ c :: post))) (length pre) =
    Some (snd (make_and_track_object env (after pre) c)).
  Proof.
    rewrite run_app. unfold after. pose proof (run_length initial pre) as L.
    destruct (run env initial pre) as [s1 r1]. cbn [fst snd run] in *.
    destruct (make_and_track_object env s1 c) as [s r]. destruct (run env (tick s) post) as [s2 r2]. cbn [snd].
    now rewrite nth_error_app2, L, Nat.sub_diag by lia.
  Qed.

  Definition lookup (st : state) (n : string) : option value :=
    option_map snd (find (fun a => String.eqb n (fst a)) (attributes st)).

  Lemma attribute_lookup st n : attribute env st n = match lookup st n with Some v => Some v | None => has n end.
  Proof. unfold attribute, lookup. destruct (find _ _) as [[k v]|]; reflexivity. Qed.

  Lemma lookup_snoc st n v objs t inv m :
    lookup st n = None ->
    lookup (State (attributes st ++ [(n, v)]) objs t inv) m = if String.eqb m n then Some v else lookup st m.
  Proof.
    unfold lookup. cbn [attributes]. intros H. induction (attributes st) as [|[k w] l IH].
    - cbn. destruct (String.eqb m n); reflexivity.
    - cbn [app find fst] in *. destruct (String.eqb n k) eqn:E; [discriminate|]. destruct (String.eqb m k) eqn:E'; [|now apply IH].
      destruct (String.eqb m n) eqn:E2; [|reflexivity]. apply String.eqb_eq in E2, E'. subst. now rewrite String.eqb_refl in E.
  Qed.

  (** What one call does. *)
  Lemma call_named st f n : make_and_track_object env st (Call f (Some n)) =
    let st' := State (attributes st) (objects st) (clock st) (invoked st ++ [clock st]) in
    match lookup st n with
    | Some (Some o) => (st, Returns (Some o))
    | Some None => (st', match f with Fails => Raises Factory | _ => Raises AlreadyTracked end)
    | None =>
        match has n with
        | Some (Some o) => (st, Returns (Some o))
        | Some None => (st', match f with Fails => Raises Factory | _ => Raises AlreadyTracked end)
        | None =>
            match f with
            | Fails => (st', Raises Factory)
            | _ => (State (attributes st ++ [(n, given f (clock st))]) (objects st) (clock st) (invoked st ++ [clock st]), Returns (given f (clock st)))
            end
        end
    end.
  Proof.
    unfold make_and_track_object, get_object, track_object, add_trackable_object. cbn [inside_function module tracker env scope c_name c_factory].
    change (attribute env (State (attributes st) (objects st) (clock st) (invoked st ++ [clock st])) n) with (attribute env st n).
    rewrite attribute_lookup. cbv zeta.
    destruct (lookup st n) as [[o|]|] eqn:L; [reflexivity| |destruct (has n) as [[o|]|] eqn:H; [reflexivity| |]];
      (destruct f as [| |[]]; [reflexivity|cbn [clock attributes objects invoked given]..]); cbn [module env scope]; try reflexivity.
  Qed.

  Lemma call_unnamed st f : make_and_track_object env st (Call f None) =
    let st' := State (attributes st) (objects st) (clock st) (invoked st ++ [clock st]) in
    match f with
    | Fails => (st', Raises Factory)
    | Gives true => (st', Raises KerasWithoutName)
    | _ => (State (attributes st) (objects st ++ [given f (clock st)]) (clock st) (invoked st ++ [clock st]), Returns (given f (clock st)))
    end.
  Proof. unfold make_and_track_object. cbn. destruct f as [| |[]]; reflexivity. Qed.

  Lemma clock_step st c : clock (fst (make_and_track_object env st c)) = clock st.
  Proof.
    destruct c as [f [n|]]; [rewrite call_named|rewrite call_unnamed]; cbv zeta;
      [destruct (lookup st n) as [[|]|]; [reflexivity..|]; destruct (has n) as [[|]|]; [reflexivity..|]|]; destruct f as [| |[]]; reflexivity.
  Qed.
  Lemma clock_after calls : clock (after calls) = length calls.
  Proof.
    induction calls as [|c calls IH] using rev_ind; [reflexivity|]. rewrite after_snoc, app_length. cbn [tick clock length].
    rewrite clock_step, IH. lia.
  Qed.

  (** The attributes: the first of each name. *)
  Lemma lookup_after calls n v :
    lookup (after calls) n = Some v <-> has n = None /\ exists i g, first_of_name calls n i g /\ v = given g i.
  Proof.
    revert n v. induction calls as [|[f name] calls IH] using rev_ind; intros n v.
    - split; [discriminate|]. intros [_ (i & g & (H & _) & _)]. destruct i; discriminate.
    - rewrite after_snoc.
      assert (Same : (forall m, name = Some m -> m = n -> has n <> None \/ f = Fails \/ exists i g, first_of_name calls n i g) ->
        (lookup (after calls) n = Some v <-> has n = None /\ exists i g, first_of_name (calls ++ [Call f name]) n i g /\ v = given g i)).
      { intros C. rewrite IH. split; intros (H & i & g & F & E); (split; [exact H|]).
        - exists i, g. split; [now apply first_stays|exact E].
        - apply first_snoc in F as F'. destruct F' as [F'|(-> & -> & En & Nf)]; [now exists i, g|].
          destruct (C n En eq_refl) as [C'|[C'|(i & g & F')]]; [congruence..|].
          destruct (first_unique _ _ _ _ _ _ F (first_stays _ f name _ _ _ F')) as [E' _].
          destruct F' as [F' _]. apply call_length in F'. lia. }
      destruct name as [m|].
      + rewrite call_named. cbv zeta. destruct (lookup (after calls) m) as [[o|]|] eqn:L.
        * cbn [fst tick]. change (lookup (tick (after calls)) n) with (lookup (after calls) n). apply Same. intros m' [= ->] ->.
          right. right. apply IH in L as (_ & i & g & F & _). eauto.
        * cbn [fst]. match goal with |- context [lookup ?s n] => change (lookup s n) with (lookup (after calls) n) end. apply Same. intros m' [= ->] ->.
          right. right. apply IH in L as (_ & i & g & F & _). eauto.
        * destruct (has m) as [[o|]|] eqn:Hm.
          -- cbn [fst]. match goal with |- context [lookup ?s n] => change (lookup s n) with (lookup (after calls) n) end. apply Same. intros m' [= ->] ->. left. congruence.
          -- cbn [fst]. match goal with |- context [lookup ?s n] => change (lookup s n) with (lookup (after calls) n) end. apply Same. intros m' [= ->] ->. left. congruence.
          -- assert (None_before : forall i g, call_at calls i g (Some m) -> g = Fails).
             { destruct (first_or_none calls m) as [(i & g & F)|F]; [|exact F]. exfalso.
               assert (lookup (after calls) m = Some (given g i)) by (apply IH; split; [exact Hm|exists i, g; auto]). congruence. }
             assert (New : f <> Fails ->
               (lookup (State (attributes (after calls) ++ [(m, given f (clock (after calls)))]) (objects (after calls)) (S (clock (after calls))) (invoked (after calls) ++ [clock (after calls)])) n = Some v
                <-> has n = None /\ exists i g, first_of_name (calls ++ [Call f (Some m)]) n i g /\ v = given g i)).
             { intros Nf. rewrite (lookup_snoc (after calls) m _ _ _ _ n L). destruct (String.eqb_spec n m) as [->|N].
               - pose proof (first_last calls f (Some m) m None_before eq_refl Nf) as F. rewrite clock_after. split.
                 + intros [= <-]. split; [exact Hm|]. exists (length calls), f. auto.
                 + intros (_ & i & g & F' & ->). destruct (first_unique _ _ _ _ _ _ F F') as [<- <-]. reflexivity.
               - apply Same. intros m' [= <-]. congruence. }
             destruct f as [| |l]; cbn [fst].
             ++ match goal with |- context [lookup ?s n] => change (lookup s n) with (lookup (after calls) n) end. apply Same. auto.
             ++ now apply New.
             ++ now apply New.
      + rewrite call_unnamed. cbv zeta. destruct f as [| |[]]; cbn [fst];
          match goal with |- context [lookup ?s n] => change (lookup s n) with (lookup (after calls) n) end; apply Same; discriminate.
  Qed.

  Lemma lookup_none calls n : lookup (after calls) n = None -> has n = None -> forall i g, ~ first_of_name calls n i g.
  Proof.
    intros L H i g F. assert (lookup (after calls) n = Some (given g i)) by (apply lookup_after; split; [exact H|exists i, g; auto]). congruence.
  Qed.

  (** ** The results *)

  Lemma outcome_right calls j r : nth_error (snd (run env initial calls)) j = Some r <-> outcome has calls j r.
  Proof.
    destruct (nth_error calls j) as [[f name]|] eqn:E.
    2:{ split.
        - intros H. apply nth_error_None in E. assert (j < length (snd (run env initial calls))) by (apply nth_error_Some; congruence).
          rewrite run_length in H0. lia.
        - intros (f & name & H & _). unfold call_at in H. congruence. }
    apply nth_error_split in E as (pre & post & -> & <-). rewrite result_at.
    assert (At : forall f' name', call_at (pre ++ Call f name :: post) (length pre) f' name' -> f' = f /\ name' = name).
    { intros f' name' H. unfold call_at in H. rewrite nth_error_app2, Nat.sub_diag in H by lia. injection H as <- <-. auto. }
    assert (At' : call_at (pre ++ Call f name :: post) (length pre) f name) by (unfold call_at; now rewrite nth_error_app2, Nat.sub_diag by lia).
    assert (P : forall n i g, i < length pre -> (first_of_name (pre ++ Call f name :: post) n i g <-> first_of_name pre n i g)) by (intros; now apply first_prefix).
    assert (R : outcome has (pre ++ Call f name :: post) (length pre) (snd (make_and_track_object env (after pre) (Call f name)))).
    { exists f, name. split; [exact At'|]. destruct name as [n|].
      - rewrite call_named. cbv zeta. destruct (lookup (after pre) n) as [w|] eqn:L.
        + pose proof L as L'. apply lookup_after in L' as (H & i & g & F & ->). rewrite H.
          assert (Li : i < length pre) by (destruct F as [F _]; now apply call_length in F).
          left. exists i, g. split; [exact Li|]. split; [now apply P|]. destruct g; reflexivity.
        + destruct (has n) as [[o|]|] eqn:H; [reflexivity|reflexivity|].
          right. split.
          * intros i g Hi F. apply (lookup_none pre n L H i g). now apply P.
          * rewrite <- clock_after. destruct f; reflexivity.
      - rewrite call_unnamed. cbv zeta. rewrite <- clock_after. destruct f as [| |[]]; reflexivity. }
    split; [now intros [= <-]|]. intros R'. f_equal.
    destruct R as (f1 & n1 & C1 & R), R' as (f2 & n2 & C2 & R').
    destruct (At _ _ C1) as [-> ->], (At _ _ C2) as [-> ->].
    destruct name as [n|]; [|congruence]. destruct (has n) as [[o|]|]; [congruence..|].
    destruct R as [(i & g & Li & F & R)|[N R]], R' as [(i' & g' & Li' & F' & R')|[N' R']].
    - destruct (first_unique _ _ _ _ _ _ F F') as [<- <-]. destruct g; congruence.
    - now apply N' in F.
    - now apply N in F'.
    - congruence.
  Qed.

  (** ** Which factories are invoked *)

  Lemma invokes_prefix pre post j : j < length pre -> (invokes has (pre ++ post) j <-> invokes has pre j).
  Proof.
    intros L. unfold invokes. split; intros (f & name & C & H); exists f, name; (split; [now apply (call_prefix pre post)|]).
    - destruct name as [n|]; [|exact H]. destruct (has n) as [[|]|]; [exact H..|]. intros i g Hi F. apply (H i g Hi). apply first_prefix; [lia|exact F].
    - destruct name as [n|]; [|exact H]. destruct (has n) as [[|]|]; [exact H..|]. intros i g Hi F. apply (H i g Hi). apply (first_prefix pre post); [lia|exact F].
  Qed.

  Lemma invoked_right calls j : In j (invoked (after calls)) <-> invokes has calls j.
  Proof.
    revert j. induction calls as [|[f name] calls IH] using rev_ind; intros j.
    - split; [intros []|]. intros (f & name & C & _). destruct j; discriminate.
    - rewrite after_snoc. set (c := Call f name).
      assert (Step : forall b : bool,
        invoked (fst (make_and_track_object env (after calls) c)) = invoked (after calls) ++ (if b then [length calls] else []) ->
        (b = true <-> invokes has (calls ++ [c]) (length calls)) ->
        (In j (invoked (tick (fst (make_and_track_object env (after calls) c)))) <-> invokes has (calls ++ [c]) j)).
      { intros b E B. cbn [tick invoked]. rewrite E, in_app_iff, IH. destruct (Nat.lt_ge_cases j (length calls)) as [L|L].
        - rewrite (invokes_prefix calls [c] j L). split; [|auto]. intros [H|H]; [exact H|]. destruct b; [destruct H as [H|[]]; lia|destruct H].
        - split.
          + intros [H|H]; [destruct H as (f' & n' & C & _); apply call_length in C; lia|]. destruct b; [|destruct H]. destruct H as [<-|[]]. now apply B.
          + intros H. pose proof H as (f' & n' & C & _). apply call_length in C. rewrite app_length in C. cbn in C. assert (j = length calls) by lia. subst j.
            right. apply B in H. rewrite H. now left. }
      assert (At : call_at (calls ++ [c]) (length calls) f name) by (unfold call_at; now rewrite nth_error_app2, Nat.sub_diag by lia).
      assert (At2 : forall f' n', call_at (calls ++ [c]) (length calls) f' n' -> f' = f /\ n' = name).
      { intros f' n' H. unfold call_at in H. rewrite nth_error_app2, Nat.sub_diag in H by lia. cbn in H. injection H as <- <-. auto. }
      unfold c in Step |- *. destruct name as [n|].
      + rewrite call_named in Step |- *. cbv zeta in Step |- *. rewrite !clock_after in Step |- *. destruct (lookup (after calls) n) as [w|] eqn:L.
        * pose proof L as L'. apply lookup_after in L' as (Hn & i & g & F & ->).
          assert (Li : i < length calls) by (destruct F as [F' _]; now apply call_length in F').
          assert (Inv : invokes has (calls ++ [c]) (length calls) <-> g = GivesNone).
          { split.
            - intros (f' & n' & C & H). destruct (At2 _ _ C) as [-> ->]. rewrite Hn in H. apply (H i g Li). now apply first_stays.
            - intros ->. exists f, (Some n). split; [exact At|]. rewrite Hn. intros k h Hk F'.
              now destruct (first_unique _ _ _ _ _ _ F' (first_stays _ f (Some n) _ _ _ F)). }
          destruct g as [| |l]; cbn [given] in *.
          -- destruct F as (_ & F & _). congruence.
          -- apply (Step true); [reflexivity|]. fold c. rewrite Inv. tauto.
          -- apply (Step false); [cbn [fst]; now rewrite app_nil_r|]. fold c. rewrite Inv. split; discriminate.
        * destruct (has n) as [[o|]|] eqn:Hn.
          -- apply (Step false); [cbn [fst]; now rewrite app_nil_r|]. split; [discriminate|]. intros (f' & n' & C & H). destruct (At2 _ _ C) as [-> ->]. now rewrite Hn in H.
          -- apply (Step true); [reflexivity|]. split; [|reflexivity]. intros _. exists f, (Some n). split; [exact At|]. now rewrite Hn.
          -- assert (N : invokes has (calls ++ [c]) (length calls)).
             { exists f, (Some n). split; [exact At|]. rewrite Hn. intros i g Hi F. exfalso. apply (lookup_none calls n L Hn i g).
               now apply (first_prefix calls [c]). }
             apply (Step true); [destruct f; reflexivity|]. tauto.
      + rewrite call_unnamed in Step |- *. cbv zeta in Step |- *. rewrite !clock_after in Step |- *. apply (Step true).
        * destruct f as [| |[]]; reflexivity.
        * split; [|reflexivity]. intros _. exists f, None. now split.
  Qed.

  (** ** What is saved *)

  Lemma lookup_in st n v : lookup st n = Some v -> In (n, v) (attributes st).
  Proof.
    unfold lookup. destruct (find _ _) as [[k w]|] eqn:E; [|discriminate]. cbn. intros [= ->]. apply find_some in E as [E1 E2].
    cbn in E2. apply String.eqb_eq in E2. now subst.
  Qed.
  Lemma set_keeps l m v n w : n <> m -> In (n, w) l -> In (n, w) (set_attribute l m v).
  Proof.
    intros N. induction l as [|[k x] l IH]; [intros []|]. cbn [set_attribute]. destruct (String.eqb_spec m k) as [->|M].
    - intros [H|H]; [injection H as -> ->; congruence|now right].
    - intros [H|H]; [now left|right; auto].
  Qed.
  Lemma module_keeps fn st n w : ~ In n (taken fn) -> In (n, w) (attributes st) -> In (n, w) (module_after fn st).
  Proof.
    intros N H. unfold module_after, set_after_tracing. cbn [fold_left].
    repeat (apply set_keeps; [intros ->; apply N; cbn; tauto|]). exact H.
  Qed.

  Definition unnamed_value (j : nat) (c : call) : list value :=
    match c with
    | Call Fails _ | Call (Gives true) None | Call _ (Some _) => []
    | Call f None => [given f j]
    end.
  Fixpoint unnamed_values (j : nat) (calls : list call) : list value :=
    match calls with [] => [] | c :: calls => unnamed_value j c ++ unnamed_values (S j) calls end.
  Lemma unnamed_app j a b : unnamed_values j (a ++ b) = unnamed_values j a ++ unnamed_values (j + length a) b.
  Proof.
    revert j. induction a as [|c a IH]; intros j; cbn [app unnamed_values length]; [now rewrite Nat.add_0_r|].
    rewrite IH, app_assoc. now replace (S j + length a) with (j + S (length a)) by lia.
  Qed.
  Lemma objects_after calls : objects (after calls) = unnamed_values 0 calls.
  Proof.
    induction calls as [|[f name] calls IH] using rev_ind; [reflexivity|]. rewrite after_snoc, unnamed_app. cbn [tick objects unnamed_values plus].
    rewrite app_nil_r, <- IH. destruct name as [n|].
    - rewrite call_named. cbv zeta. replace (unnamed_value (length calls) (Call f (Some n))) with (@nil value) by (now destruct f as [| |[]]). rewrite app_nil_r.
      destruct (lookup (after calls) n) as [[|]|]; [reflexivity..|]. destruct (has n) as [[|]|]; [reflexivity..|]. destruct f; reflexivity.
    - rewrite call_unnamed. cbv zeta. rewrite clock_after. destruct f as [| |[]]; cbn [fst objects unnamed_value]; rewrite ?app_nil_r; reflexivity.
  Qed.

  Lemma saved_right fn calls j f name o :
    call_at calls j f name -> (forall n, name = Some n -> has n = None /\ ~ In n (taken fn)) ->
    nth_error (snd (run env initial calls)) j = Some (Returns (Some o)) ->
    In (Some o) (saved fn (fst (run env initial calls))).
  Proof.
    intros C N H. fold (after calls). unfold saved. apply in_app_iff. apply outcome_right in H as (f' & name' & C' & H).
    assert (E : f' = f /\ name' = name) by (unfold call_at in *; split; congruence). destruct E as [-> ->]. destruct name as [n|].
    - left. destruct (N n eq_refl) as [Hn Nn]. rewrite Hn in H.
      assert (F : exists i g, first_of_name calls n i g /\ Some o = given g i).
      { destruct H as [(i & g & Li & F & R)|[N' R]].
        - exists i, g. split; [exact F|]. destruct g; [destruct f; discriminate..|]. now injection R as ->.
        - destruct f as [| |l]; [discriminate..|]. injection R as R. exists j, (Gives l). split; [|now rewrite R].
          split; [exact C|]. split; [discriminate|]. intros k g Hk Ck. destruct (first_or_none (firstn j calls) n) as [(i & h & F)|F].
          + exfalso. pose proof (call_length _ _ _ _ (proj1 F)) as L. rewrite firstn_length in L. apply (N' i h); [lia|].
            rewrite <- (firstn_skipn j calls). apply first_prefix; [rewrite firstn_length; lia|exact F].
          + apply (F k g). apply call_length in C. apply (call_prefix (firstn j calls) (skipn j calls)); [rewrite firstn_length; lia|]. now rewrite firstn_skipn. }
      apply in_map_iff. exists (n, Some o). split; [reflexivity|]. apply module_keeps; [exact Nn|]. apply lookup_in, lookup_after. auto.
    - right. rewrite objects_after. pose proof C as C2. apply nth_error_split in C2 as (pre & post & -> & <-). rewrite unnamed_app. cbn [unnamed_values plus].
      apply in_app_iff. right. apply in_app_iff. left. destruct f as [| |[]]; cbn [given] in H; try discriminate. injection H as ->. now left.
  Qed.

  Lemma attributes_given calls n v : In (n, v) (attributes (after calls)) -> has n = None /\ exists i g, first_of_name calls n i g /\ v = given g i.
  Proof.
    intros H. apply lookup_after. revert H. induction calls as [|[f name] calls IH] using rev_ind; [intros []|].
    assert (Keep : lookup (after calls) n = Some v -> lookup (after (calls ++ [Call f name])) n = Some v).
    { rewrite !lookup_after. intros (H & i & g & F & E). split; [exact H|]. exists i, g. split; [now apply first_stays|exact E]. }
    rewrite after_snoc in Keep |- *. destruct name as [m|]; [rewrite call_named in Keep |- *|rewrite call_unnamed in Keep |- *]; cbv zeta in Keep |- *.
    - destruct (lookup (after calls) m) as [[|]|] eqn:L; [now auto..|]. destruct (has m) as [[|]|] eqn:Hm; [now auto..|].
      assert (New : In (n, v) (attributes (after calls) ++ [(m, given f (clock (after calls)))]) ->
        lookup (State (attributes (after calls) ++ [(m, given f (clock (after calls)))]) (objects (after calls)) (S (clock (after calls))) (invoked (after calls) ++ [clock (after calls)])) n = Some v).
      { rewrite in_app_iff, (lookup_snoc (after calls) m _ _ _ _ n L). intros [H|[H|[]]].
        - apply IH in H. destruct (String.eqb_spec n m) as [->|]; [congruence|exact H].
        - injection H as <- <-. now rewrite String.eqb_refl. }
      destruct f as [| |l]; [now auto|exact New|exact New].
    - destruct f as [| |[]]; now auto.
  Qed.

  Lemma set_from l m w n o : In (n, Some o) (set_attribute l m w) -> w = None -> In (n, Some o) l.
  Proof.
    intros H ->. induction l as [|[k x] l IH]; cbn [set_attribute] in H; [destruct H as [H|[]]; discriminate|].
    destruct (String.eqb m k); (destruct H as [H|H]; [|now right; auto]); [discriminate|now left].
  Qed.

  Lemma given_returned calls n i g o : first_of_name calls n i g -> has n = None -> Some o = given g i ->
    nth_error (snd (run env initial calls)) i = Some (Returns (Some o)).
  Proof.
    intros F H E. apply outcome_right. exists g, (Some n). split; [apply F|]. rewrite H. right. split.
    - intros k h Hk F'. destruct (first_unique _ _ _ _ _ _ F F') as [-> _]. lia.
    - rewrite E. destruct g; [discriminate..|reflexivity].
  Qed.

  Lemma unnamed_in j calls o : In (Some o) (unnamed_values j calls) -> exists i, nth_error calls i = Some (Call (Gives false) None) /\ o = Made (j + i).
  Proof.
    revert j. induction calls as [|[f name] calls IH]; intros j; [intros []|]. cbn [unnamed_values]. rewrite in_app_iff. intros [H|H].
    - destruct f as [| |[]], name as [m|]; cbn in H; try (destruct H as [H|[]]; discriminate); destruct H as [H|[]] || destruct H.
      injection H as <-. exists 0. split; [reflexivity|]. f_equal. lia.
    - apply IH in H as (i & H & ->). exists (S i). split; [exact H|]. f_equal. lia.
  Qed.

  Lemma saved_only fn calls o : In (Some o) (saved fn (fst (run env initial calls))) ->
    exists j, nth_error (snd (run env initial calls)) j = Some (Returns (Some o)) /\ o = Made j.
  Proof.
    fold (after calls). unfold saved. rewrite in_app_iff. intros [H|H].
    - apply in_map_iff in H as ([n v] & E & H). cbn in E. subst v.
      assert (H' : In (n, Some o) (attributes (after calls))).
      { unfold module_after, set_after_tracing in H. cbn [fold_left] in H. repeat (apply set_from in H; [|reflexivity]). exact H. }
      apply attributes_given in H' as (Hn & i & g & F & E). exists i. split; [now apply (given_returned calls n i g)|].
      destruct g; [discriminate..|]. now injection E as ->.
    - rewrite objects_after in H. apply unnamed_in in H as (i & H & ->). exists i. split; [|reflexivity].
      apply outcome_right. exists (Gives false), None. now split.
  Qed.
End runs.

(** ** Scopes *)

Lemma no_scope_exec p current : no_scope p -> exec p current = (current, finishes p).
Proof.
  revert current. induction p as [ok|t p IH|p IHp q IHq]; intros current H; cbn in *; [reflexivity|destruct H|].
  destruct H as [Hp Hq]. rewrite (IHp _ Hp). destruct (finishes p); [now apply IHq|reflexivity].
Qed.
Lemma not_nested_exec p : not_nested p -> exec p None = (None, finishes p).
Proof.
  induction p as [ok|t p IH|p IHp q IHq]; cbn; intros H; [reflexivity| |].
  - now rewrite (no_scope_exec p (Some t) H).
  - destruct H as [Hp Hq]. rewrite (IHp Hp). destruct (finishes p); [now apply IHq|reflexivity].
Qed.
Lemma exec_restores p : fst (exec p None) = None.
Proof.
  induction p as [ok|t p IH|p IHp q IHq]; cbn; [reflexivity| |].
  - destruct (exec p (Some t)). reflexivity.
  - destruct (exec p None) as [c ok]. cbn in IHp. subst c. destruct ok; [exact IHq|reflexivity].
Qed.

(** ** Outside of a scope *)

Lemma call_outside env st c : inside_function env && tracker env && module env = false -> attributes st = [] ->
  let st' := fst (make_and_track_object env st c) in
  attributes st' = [] /\ ((inside_function env = false \/ tracker env = false) -> objects st' = objects st) /\
  (inside_function env = false -> invoked st' = invoked st).
Proof.
  intros H A. destruct env as [i t m has]. cbn in H. cbv zeta.
  unfold make_and_track_object, track_object, add_trackable_object, get_object. cbn [inside_function tracker module].
  destruct i, t, m; try discriminate; destruct c as [f [n|]]; cbn [c_name c_factory];
    repeat match goal with
    | |- context [match attribute ?e ?s ?x with _ => _ end] => destruct (attribute e s x) as [[|]|]
    | |- context [match f with _ => _ end] => destruct f as [| |[]]
    end; cbn [fst attributes objects invoked]; (split; [exact A|split; [intros [|]; try discriminate; reflexivity|intros; try discriminate; reflexivity]]).
Qed.

Lemma nothing_outside env calls : inside_function env && tracker env && module env = false ->
  let st := fst (run env initial calls) in
  attributes st = [] /\ (inside_function env = false \/ tracker env = false -> objects st = []) /\
  (inside_function env = false -> invoked st = []).
Proof.
  intros H. cbv zeta.
  assert (G : forall st, attributes st = [] ->
    attributes (fst (run env st calls)) = [] /\
    ((inside_function env = false \/ tracker env = false) -> objects (fst (run env st calls)) = objects st) /\
    (inside_function env = false -> invoked (fst (run env st calls)) = invoked st)).
  { induction calls as [|c calls IH]; intros st A; [now repeat split|]. cbn [run].
    destruct (call_outside env st c H A) as (A1 & A2 & A3). destruct (make_and_track_object env st c) as [s r]. cbn [fst] in A1, A2, A3.
    destruct (IH (tick s) A1) as (B1 & B2 & B3). destruct (run env (tick s) calls) as [s2 rs]. cbn [fst] in *.
    split; [exact B1|]. split.
    - intros O. rewrite (B2 O). cbn [tick objects]. auto.
    - intros O. rewrite (B3 O). cbn [tick invoked]. auto. }
  exact (G initial eq_refl).
Qed.
