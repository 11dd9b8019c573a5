(** Lookups in vocabularies while analyzers are pending (C94). *)
From Coq Require Import String List Bool Arith Lia.
From Verif Require Import TabModel TabSpec.
Import ListNotations.

Section props.
Variable inside_function : bool.
Variable evaluated : nat -> option string.
Variable temporary : nat -> string.
Notation trace := (trace inside_function evaluated temporary).
Notation bind := (bind inside_function evaluated temporary).

(** The collection after some vocabularies *)
Definition tracks (coll : collection) (made : list nat) : Prop :=
  (inside_function = false -> coll = []) /\
  (inside_function = true -> (forall n, get coll n <> None <-> In n made /\ evaluated n = None) /\ forall m s, In (m, s) coll -> evaluated m = None /\ In m made).

Lemma get_app c n m s : get (c ++ [(m, s)]) n = if m =? n then Some s else get c n.
Proof. induction c as [|[x y] c IH]; cbn; [now destruct (m =? n)|]. rewrite IH. now destruct (m =? n). Qed.
Lemma bind_tracks coll made n : tracks coll made -> tracks (bind coll n) (n :: made).
Proof.
  intros [F T]. unfold TabModel.bind, tracks. destruct inside_function; [|split; [exact F | discriminate]]. split; [discriminate|]. intros _.
  destruct (T eq_refl) as [G I]. destruct (evaluated n) as [s|] eqn:E.
  - split.
    + intros m. rewrite G. cbn. split; [tauto|]. intros [[<-|H] K]; [congruence | tauto].
    + intros m t H. destruct (I m t H). split; [assumption | now right].
  - split.
    + intros m. rewrite get_app. destruct (Nat.eqb_spec n m) as [<-|N].
      * split; [|discriminate]. intros _. split; [now left | exact E].
      * rewrite G. cbn. tauto.
    + intros m t H. apply in_app_or in H. destruct H as [H|[[= <- <-]|[]]]; [destruct (I m t H); split; [assumption | now right] | split; [exact E | now left]].
Qed.

Fixpoint scoped_in (made : list nat) (fn : list stage) : Prop :=
  match fn with
  | [] => True
  | Vocabulary n :: rest => scoped_in (n :: made) rest
  | Apply p :: rest => match p with Deferred n => In n made | Static _ => True end /\ scoped_in made rest
  end.
Lemma scoped_in_spec fn : scoped fn -> scoped_in [] fn.
Proof.
  intros S. assert (H : forall made, (forall before n after, fn = (before ++ Apply (Deferred n) :: after)%list -> In n made \/ In (Vocabulary n) before) -> scoped_in made fn).
  { clear S. induction fn as [|[m|p] fn IH]; intros made H; cbn; [exact Logic.I | |].
    - apply IH. intros b n a ->. destruct (H (Vocabulary m :: b) n a eq_refl) as [K|[[= ->]|K]]; [left; now right | left; now left | now right].
    - split.
      + destruct p as [s|n]; [exact Logic.I|]. destruct (H [] n fn eq_refl) as [K|[]]. exact K.
      + apply IH. intros b n a ->. destruct (H (Apply p :: b) n a eq_refl) as [K|[K|K]]; [now left | discriminate | now right]. }
  apply H. intros b n a E. right. exact (S b n a E).
Qed.

(** What a lookup has to be *)
Definition right (e : argument * lookup) : Prop :=
  match fst e with
  | Static s => snd e = Lookup (File s) None inside_function
  | Deferred n =>
    if inside_function then
      match evaluated n with
      | Some s => snd e = Lookup (File s) None true
      | None => control_dependency (snd e) = Some n
      end
    else table (snd e) = Value_of n
  end.
Lemma lookup_right coll made p l : tracks coll made -> match p with Deferred n => In n made | Static _ => True end ->
  construct_and_lookup_table inside_function coll (bound inside_function evaluated p) = Some l -> right (p, l).
Proof.
  intros [F T] M. unfold construct_and_lookup_table, asset_and_control, right. destruct p as [s|n]; cbn [bound fst snd].
  - destruct coll; [|discriminate]. now intros [= <-].
  - destruct inside_function.
    + destruct (T eq_refl) as [G _]. destruct (evaluated n) as [s|] eqn:E.
      * destruct coll; now intros [= <-].
      * destruct (get coll n) as [s|] eqn:K; [|destruct (proj2 (G n) (conj M E)); exact K].
        destruct coll; [discriminate|]. now intros [= <-].
    + rewrite (F eq_refl). now intros [= <-].
Qed.
Lemma trace_right fn : forall coll made ls, tracks coll made -> scoped_in made fn -> trace coll fn = Some ls -> Forall right ls /\ map fst ls = lookups fn.
Proof.
  induction fn as [|[n|p] fn IH]; intros coll made ls T S; cbn.
  - intros [= <-]. split; [constructor | reflexivity].
  - intros E. exact (IH _ _ _ (bind_tracks _ _ n T) S E).
  - destruct S as [S1 S2]. destruct (construct_and_lookup_table _ _ _) as [l|] eqn:L; [|discriminate].
    destruct (TabModel.trace _ _ _ coll fn) as [ls'|] eqn:E; [|discriminate]. intros [= <-]. destruct (IH _ _ _ T S2 E) as [R M]. cbn. rewrite M.
    split; [constructor; [exact (lookup_right _ _ _ _ T S1 L) | exact R] | reflexivity].
Qed.
Lemma tracks_nil : tracks [] [].
Proof. split; [easy|]. intros _. split; [|easy]. intros n. cbn. split; [congruence | tauto]. Qed.

(** As long as an analyzer is pending, every lookup in its vocabulary waits for it, so that nothing is computed of its temporary
    file. *)
Theorem c94_pending : forall fn ls n l, scoped fn -> trace [] fn = Some ls -> In (Deferred n, l) ls -> inside_function = false \/ evaluated n = None -> waits_for l n.
Proof.
  intros fn ls n l S E I P. destruct (trace_right fn [] [] ls tracks_nil (scoped_in_spec fn S) E) as [R _].
  rewrite Forall_forall in R. specialize (R _ I). unfold right in R. cbn in R. unfold waits_for. destruct inside_function; [|now right].
  destruct P as [P|P]; [discriminate|]. rewrite P in R. now left.
Qed.

(** In TF2, when an analyzer has been evaluated, lookups read its file, in a table that is made once, and wait for nothing. *)
Theorem c94_evaluated : forall fn ls n s l, inside_function = true -> scoped fn -> trace [] fn = Some ls -> In (Deferred n, l) ls -> evaluated n = Some s ->
  table l = File s /\ lifted l = true /\ forall m, ~ waits_for l m.
Proof.
  intros fn ls n s l Z S E I P. destruct (trace_right fn [] [] ls tracks_nil (scoped_in_spec fn S) E) as [R _].
  rewrite Forall_forall in R. specialize (R _ I). unfold right in R. cbn in R. rewrite Z, P in R. subst l. cbn. split; [reflexivity|]. split; [reflexivity|].
  intros m [K|K]; discriminate.
Qed.

(** Lookups in files of the function's own read these. *)
Theorem c94_static : forall fn ls s l, scoped fn -> trace [] fn = Some ls -> In (Static s, l) ls -> table l = File s /\ forall m, ~ waits_for l m.
Proof.
  intros fn ls s l S E I. destruct (trace_right fn [] [] ls tracks_nil (scoped_in_spec fn S) E) as [R _].
  rewrite Forall_forall in R. specialize (R _ I). unfold right in R. cbn in R. subst l. split; [reflexivity|]. intros m [K|K]; discriminate.
Qed.

Lemma trace_some fn : forall coll made, tracks coll made ->
  (trace coll fn = None <-> inside_function = true /\ exists before s after n, fn = (before ++ Apply (Static s) :: after)%list /\ (In n made \/ In (Vocabulary n) before) /\ evaluated n = None).
Proof.
  induction fn as [|[m|p] fn IH]; intros coll made T; cbn.
  - split; [discriminate|]. intros [_ [b [s [a [n [E _]]]]]]. destruct b; discriminate.
  - rewrite (IH _ _ (bind_tracks _ _ m T)). split; intros [Z [b [s [a [n [E [I P]]]]]]]; (split; [exact Z|]).
    + exists (Vocabulary m :: b), s, a, n. subst fn. split; [reflexivity|]. split; [|exact P]. cbn in *. destruct I as [[->|I]|I]; auto.
    + destruct b as [|x b]; [discriminate|]. injection E as <- ->. exists b, s, a, n. split; [reflexivity|]. split; [|exact P]. cbn in *. destruct I as [I|[[= ->]|I]]; auto.
  - destruct (construct_and_lookup_table _ _ _) as [l|] eqn:L.
    + assert (X : TabModel.trace inside_function evaluated temporary coll fn = None <-> inside_function = true /\ (exists b s a n, Apply p :: fn = (b ++ Apply (Static s) :: a)%list /\ (In n made \/ In (Vocabulary n) b) /\ evaluated n = None)).
      { rewrite (IH _ _ T). split; intros [Z [b [s [a [n [E [I P]]]]]]]; (split; [exact Z|]).
        - exists (Apply p :: b), s, a, n. subst fn. split; [reflexivity|]. split; [|exact P]. cbn. tauto.
        - destruct b as [|x b].
          + injection E as -> ->. exfalso. destruct I as [I|[]]. destruct T as [_ T]. destruct (T Z) as [G _]. 
            unfold construct_and_lookup_table, asset_and_control in L. cbn in L. destruct coll; [|discriminate]. apply (proj2 (G n) (conj I P)). reflexivity.
          + injection E as <- ->. exists b, s, a, n. split; [reflexivity|]. split; [|exact P]. cbn in I. destruct I as [I|[K|I]]; auto. discriminate. }
      rewrite <- X. destruct (TabModel.trace _ _ _ coll fn); split; congruence.
    + split; [|reflexivity]. intros _. destruct T as [F T].
      unfold construct_and_lookup_table, asset_and_control in L. destruct coll as [|[m s'] coll]; [discriminate|].
      destruct inside_function eqn:Z; [|now specialize (F eq_refl)]. destruct (T eq_refl) as [_ I]. destruct (I m s' (or_introl eq_refl)) as [P M].
      split; [reflexivity|]. destruct p as [s|n]; cbn in L.
      * exists [], s, fn, m. split; [reflexivity|]. split; [now left | exact P].
      * destruct (evaluated n); [discriminate|]. destruct (match get coll n with Some _ => _ | None => _ end); discriminate.
Qed.

(** Tracing fails exactly for functions where a lookup in a file of their own comes after a vocabulary that is pending, in TF2. *)
Theorem c94_fails : forall fn, trace [] fn = None <-> inside_function = true /\ static_after_pending evaluated fn.
Proof.
  intros fn. rewrite (trace_some fn [] [] tracks_nil). unfold static_after_pending. split; intros [Z [b [s [a [n [E [I P]]]]]]]; (split; [exact Z|]); exists b, s, a, n; (split; [exact E|]); (split; [|exact P]).
  - now destruct I as [[]|I].
  - now right.
Qed.

(** When all analyzers have been evaluated tracing succeeds, and has every lookup of the function, in order. *)
Theorem c94_final : forall fn, scoped fn -> (forall n, evaluated n <> None) -> exists ls, trace [] fn = Some ls /\ map fst ls = lookups fn.
Proof.
  intros fn S A. destruct (trace [] fn) as [ls|] eqn:E.
  - exists ls. split; [reflexivity|]. now destruct (trace_right fn [] [] ls tracks_nil (scoped_in_spec fn S) E).
  - apply c94_fails in E. destruct E as [_ [b [s [a [n [_ [_ P]]]]]]]. now destruct (A n).
Qed.
End props.

Definition two : list stage := [Vocabulary 1; Apply (Deferred 1); Vocabulary 2; Apply (Deferred 2); Apply (Deferred 1)].
Definition first_done (n : nat) : option string := if n =? 1 then Some "vocab_1"%string else None.
Definition temp (_ : nat) : string := "temporary"%string.
Lemma two_scoped : scoped two.
Proof.
  intros b n a E. unfold two in E. destruct b as [|x1 [|x2 [|x3 [|x4 [|x5 b]]]]]; cbn in E; try discriminate E; injection E; intros; subst; cbn; try tauto. 
  destruct b; discriminate.
Qed.
Example c94_pending_applies : scoped two /\ trace true first_done temp [] two =
  Some [(Deferred 1, Lookup (File "vocab_1") None true); (Deferred 2, Lookup (File "temporary") (Some 2) true); (Deferred 1, Lookup (File "vocab_1") None true)].
Proof. split; [exact two_scoped | reflexivity]. Qed.
Example c94_evaluated_applies : first_done 1 = Some "vocab_1"%string.
Proof. reflexivity. Qed.
Example c94_static_applies : trace true first_done temp [] [Apply (Static "mine"); Vocabulary 2; Apply (Deferred 2)] =
  Some [(Static "mine", Lookup (File "mine") None true); (Deferred 2, Lookup (File "temporary") (Some 2) true)].
Proof. reflexivity. Qed.
Example c94_fails_applies : static_after_pending first_done [Vocabulary 2; Apply (Static "mine")] /\ ~ static_after_pending first_done [Vocabulary 1; Apply (Static "mine")].
Proof.
  split; [now exists [Vocabulary 2], "mine"%string, [], 2; repeat split; left|].
  intros [b [s [a [n [E [I P]]]]]]. destruct b as [|x [|y b]]; [discriminate | |destruct b; discriminate].
  injection E as <- _. destruct I as [[= <-]|[]]. discriminate.
Qed.
Example c94_final_applies : exists ls, trace true (fun _ => Some "done"%string) temp [] two = Some ls /\ map fst ls = [Deferred 1; Deferred 2; Deferred 1].
Proof. eexists. split; reflexivity. Qed.

(** The order of independent lookups does not matter.  Not so: a lookup in a file of the function's own is refused after a
    vocabulary, and not before it. *)
Theorem c94_order_refuted : exists evaluated n s,
  trace true evaluated temp [] [Vocabulary n; Apply (Deferred n); Apply (Static s)] = None /\
  trace true evaluated temp [] [Apply (Static s); Vocabulary n; Apply (Deferred n)] <> None.
Proof. exists (fun _ => None), 1, "mine"%string. split; [reflexivity | discriminate]. Qed.

(** Tables, and so their sizes, are read from the files of their analyzers.  Not so while these are pending: they are read from
    temporary files, and the size waits for nothing. *)
Theorem c94_size_refuted : exists evaluated fn ls n l, scoped fn /\ trace true evaluated temp [] fn = Some ls /\ In (Deferred n, l) ls /\ table l = File (temp n).
Proof.
  exists first_done, two. do 3 eexists. split; [exact two_scoped|]. split; [reflexivity|]. split; [right; now left | reflexivity].
Qed.

Print Assumptions c94_pending.
Print Assumptions c94_evaluated.
Print Assumptions c94_static.
Print Assumptions c94_fails.
Print Assumptions c94_final.
Print Assumptions c94_order_refuted.
Print Assumptions c94_size_refuted.
