(** * The shape of the optimised graph: totality, coverage, datasets read *)
From Coq Require Import String.
From Coq Require Import List Arith Bool Lia.
From Verif Require Import OptimizeModel OptimizeSpec OptimizeProofs.
Import ListNotations.
Local Notation length := List.length.

Section Shape.
Context {B C K : Type}.
Variable partitionable : B -> bool.
Variable cache_coder : B -> option C.
Variable num_outputs : B -> nat.
Variable key_eqb : K -> K -> bool.
Variable is_cached : K -> bool.
Variable class_name : op B C K -> string.
Variable fields : string -> op B C K -> list string.
Variable tensor_path : string -> option string.
Variable sha1 : string -> string.
Variable cache_version : string.
Hypothesis KEY : forall a b, key_eqb a b = true <-> a = b.
Variable keys : list K.
Variable cache : option (K -> string -> bool).

Notation translated := (translated partitionable cache_coder num_outputs).
Notation cached_path := (cached_path partitionable cache_coder).
Notation op_partitionable := (op_partitionable partitionable).
Notation op_coder := (op_coder cache_coder).
Notation first_phase := (first_phase partitionable).
Notation has_hash := (has_hash partitionable class_name fields tensor_path sha1).
Notation has_entry_key := (has_entry_key partitionable class_name fields tensor_path sha1 cache_version).
Notation cacheable := (cacheable cache_coder).
Notation opt := (optimize partitionable cache_coder num_outputs key_eqb is_cached class_name fields
  tensor_path sha1 cache_version keys cache).
Notation apply_ds := (apply_to_dataset cache_coder key_eqb is_cached cache).
Notation node := (node B C K).
Notation view := (view B C K).

Record shape (n : node) (v : view) : Prop := {
  sh_fine : forall f, fine v = Some f ->
    map fst f = keys /\ first_phase n /\ exists h, hashed v = Some h /\ has_hash n h;
  sh_prefer : prefer v = true -> cached_path n = true /\ truthy (fine v) = true /\ cache <> None;
  sh_first : first_phase n -> keys <> [] -> cache <> None -> truthy (fine v) = true
}.

Lemma translated_inputs label (o : op B C K) inputs index (n : node) :
  translated (Node label o inputs index) -> In n inputs -> translated n.
Proof.
  intros T I. inversion T; subst.
  - destruct I.
  - destruct I as [<-|[<-|[]]]; [assumption | constructor].
  - destruct I as [<-|[]]; assumption.
  - auto.
Qed.

Lemma first_phase_input (n : node) : translated n -> first_phase n ->
  exists label k inputs index, occurs (Node label (Input k) inputs index) n.
Proof.
  induction n as [label o inputs index IH] using node_rect'. intros T F.
  inversion T as [l|l p m il TM CP DF|l ks inp TN|l b ins i TN IX PB CC ONE]; subst.
  - inversion F; discriminate.
  - exists il, None, [], 0. eapply occurs_below; [right; left; reflexivity | constructor].
  - inversion F as [|? ? ? ? P NA FI]; subst. destruct (IH inp (or_introl eq_refl) TN (FI inp (or_introl eq_refl)))
      as (l' & k & ins & i & O). exists l', k, ins, i. eapply occurs_below; [left; reflexivity | exact O].
  - inversion F as [|? ? ? ? P NA FI]; subst. cbn in P. destruct (PB P) as [NE _].
    destruct inputs as [|n inputs]; [congruence|].
    destruct (IH n (or_introl eq_refl) (TN n (or_introl eq_refl)) (FI n (or_introl eq_refl)))
      as (l' & k & ins & i' & O). exists l', k, ins, i'. eapply occurs_below; [left; reflexivity | exact O].
Qed.

Lemma data_free_not_first (n : node) : translated n -> data_free n -> ~ first_phase n.
Proof. intros T D F. destruct (first_phase_input n T F) as (l & k & ins & i & O). exact (D l k ins i O). Qed.

(** The three ways of visiting, for the graphs that are built. *)
Inductive how (label : string) (o : op B C K) (inputs : list node) (index : nat) (views : list view)
  (vs : list view) (em : list (K * string * node)) : Prop :=
| how_apply model il : o = Apply 0 -> inputs = [model; Node il (Input None) [] 0] -> index = 0 ->
    data_free model ->
    visit_apply keys label o views = Some (vs, em) -> how label o inputs index views vs em
| how_part : op_partitionable o = true -> o <> Apply 0 -> cache <> None -> index = 0 ->
    (existsb cached_path inputs = true -> length inputs = 1 \/ exists p, o = Apply p) ->
    inputs <> [] -> op_outputs num_outputs o = 1 ->
    visit_partitionable cache_coder num_outputs key_eqb is_cached class_name fields tensor_path sha1
      cache_version keys cache label o views = Some (vs, em) -> how label o inputs index views vs em
| how_other : (op_partitionable o = false \/ cache = None) -> o <> Apply 0 ->
    (cache <> None -> existsb cached_path inputs = true -> length inputs = 1) ->
    visit_other num_outputs label o views = Some (vs, em) -> how label o inputs index views vs em.

Lemma visit_how label o inputs index views vs em :
  translated (Node label o inputs index) ->
  visit partitionable cache_coder num_outputs key_eqb is_cached class_name fields tensor_path sha1
    cache_version keys cache label o views = Some (vs, em) ->
  how label o inputs index views vs em.
Proof.
  intros T V. unfold visit in V. destruct (validate _ _ _ o); [|discriminate].
  inversion T as [l|l p m il TM CP DF|l ks inp TN|l b ins i TN IX PB CC ONE]; subst.
  - destruct cache; (apply how_other; [left; reflexivity | discriminate | discriminate | exact V]).
  - destruct p as [|p].
    + eapply how_apply; eauto.
    + destruct cache as [ca|] eqn:CE.
      * apply how_part; try (congruence || reflexivity); eauto.
      * apply how_other; try congruence; auto.
  - destruct cache as [ca|] eqn:CE.
    + apply how_part; try (congruence || reflexivity); auto.
    + apply how_other; try congruence; auto.
  - destruct cache as [ca|] eqn:CE.
    + cbn [OptimizeModel.op_partitionable] in V. destruct (partitionable b) eqn:P.
      * destruct (PB eq_refl) as [NE NO]. apply how_part; try congruence; auto. lia.
      * apply how_other; try congruence; auto.
    + apply how_other; try congruence; auto.
Qed.

Lemma apply_ds_key label o key fines i k r em : apply_ds label o key fines i k = Some (r, em) -> fst r = k.
Proof.
  unfold apply_to_dataset.
  destruct (op_coder o); [destruct (hit cache k key)|];
    [|destruct (sequence _)|destruct (sequence _)]; intros H; try discriminate; injection H as <- <-; reflexivity.
Qed.

Lemma apply_fine_keys label o fines path f em :
  apply_fine cache_coder key_eqb is_cached cache_version keys cache label o fines path = Some (f, em) ->
  map fst f = keys.
Proof.
  unfold apply_fine. destruct path as [h|]; [|discriminate].
  destruct (sequence _) as [results|] eqn:S; [|discriminate]. intros [= <- <-].
  apply sequence_map in S. transitivity (map snd (combine (seq 0 (length keys)) keys)); [|apply combine_seq_fst].
  induction S as [|[i k] [r e] l rs E S IH]; cbn; [reflexivity|]. cbn in E.
  rewrite (apply_ds_key _ _ _ _ _ _ _ _ E). cbn. now rewrite IH.
Qed.

(** What visiting a partitionable operation gives. *)
Lemma visit_part_spec label o views vs em v :
  op_outputs num_outputs o = 1 ->
  visit_partitionable cache_coder num_outputs key_eqb is_cached class_name fields tensor_path sha1
    cache_version keys cache label o views = Some (vs, em) -> nth_error vs 0 = Some v ->
  flat v = Node label o (map flat views) 0 /\
  (prefer v = true -> truthy (fine v) = true) /\
  prefer v = existsb prefer views || forallb (fun v => truthy (fine v)) views &&
    match op_coder o with Some _ => true | None => false end /\
  hashed v = next_hashed_path class_name fields tensor_path sha1 (map hashed views) label o /\
  ((forallb (fun v => truthy (fine v)) views = true /\ exists f, fine v = Some f /\
      apply_fine cache_coder key_eqb is_cached cache_version keys cache label o
        (map (fun v => match fine v with Some f => f | None => [] end) views) (hashed v) = Some (f, em)) \/
   (forallb (fun v => truthy (fine v)) views = false /\ fine v = None /\ em = [])).
Proof.
  intros ONE V N. unfold visit_partitionable, outputs in V. rewrite ONE in V. cbn [seq map] in V.
  destruct (forallb (fun v => truthy (fine v)) views) eqn:AF.
  - destruct (apply_fine _ _ _ _ _ _ _ _ _ _) as [[f e]|] eqn:A; [|discriminate].
    destruct (make_view _ _ _ _) as [w|] eqn:MV; [|discriminate]. cbn in V. injection V as <- <-.
    cbn in N. injection N as <-. apply make_view_spec in MV. destruct MV as [-> TR]. cbn.
    split; [reflexivity|]. split; [exact TR|]. split; [reflexivity|]. split; [reflexivity|].
    left. eauto.
  - destruct (make_view _ _ _ _) as [w|] eqn:MV; [|discriminate]. cbn in V. injection V as <- <-.
    cbn in N. injection N as <-. apply make_view_spec in MV. destruct MV as [-> TR]. cbn.
    split; [reflexivity|]. split; [exact TR|]. split; [reflexivity|]. split; [reflexivity|].
    right. auto.
Qed.

Lemma visit_other_spec label (o : op B C K) (views vs : list view) em index (v : view) :
  visit_other num_outputs label o views = Some (vs, em) -> nth_error vs index = Some v ->
  fine v = None /\ prefer v = false /\ em = [].
Proof.
  intros V N. unfold visit_other in V. destruct (existsb _ _).
  - destruct (sequence _); [|discriminate]. injection V as <- <-.
    apply (nth_outputs num_outputs) in N. subst v. auto.
  - injection V as <- <-. apply (nth_outputs num_outputs) in N. subst v. auto.
Qed.

Lemma opt_inv label o inputs index v em : translated (Node label o inputs index) ->
  opt (Node label o inputs index) = Some (v, em) ->
  exists rs vs e, Forall2 (fun n r => opt n = Some r) inputs rs /\
    how label o inputs index (map fst rs) vs e /\ nth_error vs index = Some v /\
    em = concat (map snd rs) ++ e.
Proof.
  intros T O. cbn [optimize] in O.
  destruct (sequence (map opt inputs)) as [rs|] eqn:S; [|discriminate]. apply sequence_map in S.
  destruct (visit _ _ _ _ _ _ _ _ _ _ _ _ label o (map fst rs)) as [[vs e]|] eqn:V; [|discriminate].
  destruct (nth_error vs index) as [w|] eqn:N; [|discriminate]. injection O as <- <-.
  exists rs, vs, e. split; [exact S|]. split; [eapply visit_how; eauto|]. auto.
Qed.

Lemma all_fine_first inputs views :
  Forall2 shape inputs views -> forallb (fun v => truthy (fine v)) views = true ->
  (forall n, In n inputs -> first_phase n) /\
  exists hs, map hashed views = map Some hs /\ Forall2 has_hash inputs hs.
Proof.
  induction 1 as [|n v inputs views H F IH]; cbn; intros A.
  - split; [intros n []|]. exists []. split; [reflexivity | constructor].
  - apply andb_true_iff in A. destruct A as [T A]. destruct (IH A) as (FI & hs & HS & HH).
    destruct (fine v) as [f|] eqn:E; [|discriminate T].
    destruct (sh_fine _ _ H f E) as (_ & FP & h & HE & HN).
    split; [intros m [<-|I]; auto|]. exists (h :: hs). cbn. split; [congruence | constructor; assumption].
Qed.

Lemma first_all_fine inputs views :
  Forall2 shape inputs views -> (forall n, In n inputs -> first_phase n) -> keys <> [] -> cache <> None ->
  forallb (fun v => truthy (fine v)) views = true.
Proof.
  induction 1 as [|n v inputs views H F IH]; cbn; intros FI KN CN; [reflexivity|].
  rewrite (sh_first _ _ H (FI n (or_introl eq_refl)) KN CN). cbn. auto.
Qed.

Lemma prefer_cached inputs views :
  Forall2 shape inputs views -> existsb prefer views = true -> existsb cached_path inputs = true.
Proof.
  intros F E. apply existsb_exists in E. destruct E as (v & IV & PV).
  destruct (Forall2_in_r _ _ _ _ F IV) as (n & IN & SH). apply existsb_exists. exists n.
  split; [exact IN | apply (sh_prefer _ _ SH PV)].
Qed.

Lemma shape_ok : forall n : node, translated n -> forall v em, opt n = Some (v, em) -> shape n v.
Proof.
  induction n as [label o inputs index IH] using node_rect'. intros T v em O.
  destruct (opt_inv _ _ _ _ _ _ T O) as (rs & vs & e & S & H & N & _).
  assert (F : Forall2 shape inputs (map fst rs)).
  { assert (TI : forall n, In n inputs -> translated n) by (intros; eapply translated_inputs; eauto).
    clear - S IH TI. induction S as [|n [v e] ns rs E S IHS]; cbn; constructor.
    - eapply IH; [now left | apply TI; now left | exact E].
    - apply IHS; intros; [eapply IH; eauto; now right | apply TI; now right]. }
  destruct H as [m il -> -> -> DF V|P NA CN -> ONE NE NO V|P NA ONE V].
  - unfold visit_apply in V. destruct (existsb _ _); [discriminate|].
    destruct (map fst rs) as [|vm [|vi [|]]]; try discriminate V. injection V as <- <-.
    cbn in N. injection N as <-. constructor; cbn [fine prefer hashed].
    + intros f [= <-]. split; [rewrite map_map; cbn; apply combine_seq_fst|].
      split; [constructor|]. eexists. split; [reflexivity | constructor].
    + discriminate.
    + intros _ KN _. destruct keys; [congruence | reflexivity].
  - destruct (visit_part_spec _ _ _ _ _ _ NO V N) as (_ & TR & PR & HS & D).
    constructor.
    + intros f E. destruct D as [(AF & f' & E' & A)|(_ & E' & _)]; [|congruence].
      rewrite E in E'. injection E' as <-.
      destruct (all_fine_first _ _ F AF) as (FI & hs & HE & HH).
      split; [eapply apply_fine_keys; eauto|]. split; [constructor; auto|].
      destruct (hashed v) as [h|] eqn:HV; [|discriminate A]. exists h. split; [reflexivity|].
      eapply hash_op with (hashes := hs); eauto. rewrite <- HE. now symmetry.
    + intros E. split; [|split; [auto | exact CN]]. cbn [OptimizeSpec.cached_path]. rewrite P. cbn [andb].
      rewrite E in PR. symmetry in PR. apply orb_true_iff in PR. apply orb_true_iff. destruct PR as [PR|PR].
      * right. eapply prefer_cached; eauto.
      * left. apply andb_true_iff in PR. apply PR.
    + intros FP KN _. inversion FP as [|? ? ? ? P' NA' FI]; subst; [congruence|].
      pose proof (first_all_fine _ _ F FI KN CN) as AF.
      destruct D as [(_ & f & E & A)|(AF' & _)]; [|congruence]. rewrite E.
      apply apply_fine_keys in A. destruct f; [cbn in A; congruence | reflexivity].
  - destruct (visit_other_spec _ _ _ _ _ _ _ V N) as (VF & VP & _). constructor.
    + congruence.
    + congruence.
    + intros FP KN CN. destruct P as [P|P]; [|congruence].
      inversion FP; subst; [congruence|]. congruence.
Qed.

Notation paths_known := (paths_known partitionable tensor_path).

Lemma sequence_all_some {A} (l : list (option A)) : (forall x, In x l -> x <> None) -> exists r, sequence l = Some r.
Proof.
  intros H. rewrite <- (map_id l). apply (sequence_some (fun x => x)). exact H.
Qed.

Lemma next_path_some parents label o :
  (forall p, In p parents -> p <> None) ->
  match o with Extract ks => forall key, In key ks -> tensor_path key <> None | _ => True end ->
  next_hashed_path class_name fields tensor_path sha1 parents label o <> None.
Proof.
  intros HP HO. unfold next_hashed_path.
  destruct (sequence_all_some (parents ++ [Some (class_name o)] ++
    match o with Extract ks => map tensor_path ks | _ => map Some (fields label o) end)) as [r ->];
    [|discriminate].
  intros x X. apply in_app_iff in X. destruct X as [X|X]; [auto|]. cbn in X.
  destruct X as [<-|X]; [discriminate|].
  assert (D : forall l, In x (map Some l) -> x <> None).
  { intros l I. apply in_map_iff in I. destruct I as (y & <- & _). discriminate. }
  destruct o; try (apply D in X; exact X).
  apply in_map_iff in X. destruct X as (y & <- & Y). auto.
Qed.

Lemma apply_ds_some label o key fines i k :
  (forall f, In f fines -> In k (map fst f)) -> apply_ds label o key fines i k <> None.
Proof.
  intros H. unfold apply_to_dataset.
  destruct (sequence_some (at_key key_eqb k) fines) as [r ->].
  { intros f I. apply at_key_some; [exact KEY | auto]. }
  destruct (op_coder o); [destruct (hit cache k key)|]; discriminate.
Qed.

Lemma apply_fine_some label o fines h :
  (forall f, In f fines -> map fst f = keys) ->
  exists f em, apply_fine cache_coder key_eqb is_cached cache_version keys cache label o fines (Some h) = Some (f, em).
Proof.
  intros H. unfold apply_fine.
  destruct (sequence_some (fun ik : nat * K => apply_ds label o (cache_entry_key cache_version label h) fines (fst ik) (snd ik))
     (combine (seq 0 (length keys)) keys)) as [r ->]; [|eauto].
  intros [i k] I. apply in_combine_r in I. cbn. apply apply_ds_some. intros f IF. now rewrite (H f IF).
Qed.

Lemma optimize_total : forall n : node, translated n -> paths_known n -> exists v em, opt n = Some (v, em).
Proof.
  induction n as [label o inputs index IH] using node_rect'. intros T PK.
  assert (TI : forall n, In n inputs -> translated n) by (intros; eapply translated_inputs; eauto).
  destruct (sequence_some opt inputs) as [rs S].
  { intros n I. destruct (IH n I (TI n I)) as (v & em & ->); [|discriminate].
    intros l ks ins i O. apply PK. eapply occurs_below; eauto. }
  assert (SF : Forall2 (fun n r => opt n = Some r) inputs rs) by now apply sequence_map.
  assert (F : Forall2 shape inputs (map fst rs)).
  { clear - SF TI. induction SF as [|n [v e] ns rs E S IHS]; cbn; constructor.
    - eapply shape_ok; [apply TI; now left | exact E].
    - apply IHS. intros; apply TI; now right. }
  cbn [optimize]. rewrite S.
  enough (exists vs e v, visit partitionable cache_coder num_outputs key_eqb is_cached class_name fields
            tensor_path sha1 cache_version keys cache label o (map fst rs) = Some (vs, e) /\
            nth_error vs index = Some v) as (vs & e & v & -> & ->) by eauto.
  clear S SF IH. set (views := map fst rs) in *. clearbody views.
  assert (OTHER : op_outputs num_outputs o > index ->
     (existsb (fun v => truthy (fine v) && prefer v) views = true -> length inputs = 1) ->
     exists vs e v, visit_other num_outputs label o views = Some (vs, e) /\ nth_error vs index = Some v).
  { intros GT ONE. unfold visit_other.
    assert (NTH : forall ins : list node, exists v, nth_error (map (fun fl => View false fl None None)
        (outputs num_outputs label o ins)) index = Some v).
    { intros ins. unfold outputs. rewrite map_map.
      destruct (nth_error (map _ _) index) eqn:E; [eauto|].
      apply nth_error_None in E. rewrite map_length, seq_length in E. lia. }
    destruct (existsb (fun v => truthy (fine v) && prefer v) views) eqn:EX.
    - specialize (ONE eq_refl). destruct inputs as [|m [|]]; try discriminate ONE.
      inversion F as [|a b c d SH F' E1 E2]; subst. inversion F'; subst. cbn in EX |- *.
      destruct (fine b) as [f|] eqn:FB.
      + destruct (NTH [Node ("FlattenCache[" ++ label ++ "]")%string Flatten (map snd (f ++ [])) 0]) as [v Hv].
        do 3 eexists. split; [reflexivity | exact Hv].
      + cbn in EX. discriminate.
    - destruct (NTH (map flat views)) as [v Hv]. do 3 eexists. split; [reflexivity | exact Hv]. }
  assert (ONE_FINE : (exists n, inputs = [n]) -> existsb prefer views = true ->
            forallb (fun v => truthy (fine v)) views = true).
  { intros (n & ->) E. inversion F as [|a b c d SH F' E1 E2]; subst. inversion F'; subst. cbn in *.
    rewrite orb_false_r in E. destruct (sh_prefer _ _ SH E) as (_ & -> & _). reflexivity. }
  assert (PART : op_partitionable o = true -> o <> Apply 0 -> cache <> None -> index = 0 -> inputs <> [] ->
     op_outputs num_outputs o = 1 ->
     (existsb prefer views = true -> forallb (fun v => truthy (fine v)) views = true) ->
     exists vs e v, visit_partitionable cache_coder num_outputs key_eqb is_cached class_name fields
       tensor_path sha1 cache_version keys cache label o views = Some (vs, e) /\ nth_error vs index = Some v).
  { intros P NA CN -> NE NO ALL. unfold visit_partitionable, outputs. rewrite NO. cbn [seq map].
    destruct (forallb (fun v => truthy (fine v)) views) eqn:AF.
    - destruct (all_fine_first _ _ F AF) as (FI & hs & HE & _).
      destruct (next_hashed_path class_name fields tensor_path sha1 (map hashed views) label o) as [h|] eqn:NH.
      2:{ exfalso. revert NH. apply next_path_some.
          - intros p I. rewrite HE in I. apply in_map_iff in I. destruct I as (x & <- & _). discriminate.
          - destruct o; auto. eapply PK; [apply occurs_here|]. constructor; auto. }
      assert (KS : forall f, In f (map (fun v => match fine v with Some f => f | None => [] end) views) ->
        map fst f = keys /\ f <> []).
      { intros f I. apply in_map_iff in I. destruct I as (v & <- & IV).
        rewrite forallb_forall in AF. specialize (AF v IV).
        destruct (Forall2_in_r _ _ _ _ F IV) as (n & _ & SH).
        destruct (fine v) as [g|] eqn:FV; [|discriminate]. split.
        - apply (sh_fine _ _ SH g FV).
        - destruct g; discriminate. }
      destruct (apply_fine_some label o (map (fun v => match fine v with Some f => f | None => [] end) views) h)
        as (f & em & A).
      { intros f I. apply KS. exact I. }
      rewrite A. assert (TF : truthy (Some f) = true).
      { apply apply_fine_keys in A. destruct inputs as [|n inputs]; [congruence|].
        inversion F as [|a b c d SH F' E1 E2]; subst.
        destruct (KS (match fine b with Some f => f | None => [] end) (or_introl eq_refl)) as [K1 K2].
        rewrite <- K1 in A. destruct f; [|reflexivity].
        destruct (match fine b with Some f => f | None => [] end); [congruence | discriminate A]. }
      unfold make_view. rewrite TF. cbn [negb]. rewrite andb_false_r. cbn. do 3 eexists. split; reflexivity.
    - assert (PF : existsb prefer views = false).
      { destruct (existsb prefer views); [|reflexivity]. specialize (ALL eq_refl). discriminate. }
      rewrite PF. cbn. do 3 eexists. split; reflexivity. }
  assert (NOPREF : cache = None -> existsb (fun v => truthy (fine v) && prefer v) views = true -> length inputs = 1).
  { intros CN E. exfalso. apply existsb_exists in E. destruct E as (v & IV & E). apply andb_true_iff in E.
    destruct (Forall2_in_r _ _ _ _ F IV) as (n & _ & SH).
    destruct (sh_prefer _ _ SH (proj2 E)) as (_ & _ & Q). congruence. }
  unfold visit. replace (validate partitionable cache_coder num_outputs o) with true.
  2:{ symmetry. unfold validate. inversion T as [l|l p m il TM CP DF|l ks inp TN|l b ins i TN IX PB CC ONE]; subst; try reflexivity.
      cbn. destruct (partitionable b) eqn:P.
      - destruct (PB eq_refl) as [_ ->]. destruct (cache_coder b); reflexivity.
      - destruct (cache_coder b) eqn:CB; [|reflexivity]. discriminate CC. congruence. }
  inversion T as [l|l p m il TM CP DF|l ks inp TN|l b ins i TN IX PB CC ONE]; subst.
  - inversion F; subst. destruct cache; cbn; do 3 eexists; split; reflexivity.
  - inversion F as [|a vm c d SM F' E1 E2]; subst. inversion F' as [|a' vi c' d' SI F'' E3 E4]; subst.
    inversion F''; subst.
    assert (FVI : fine vi = None).
    { destruct (fine vi) as [f|] eqn:E; [|reflexivity].
      destruct (sh_fine _ _ SI f E) as (_ & FP & _). inversion FP; discriminate. }
    destruct p as [|p].
    + unfold visit_apply. cbn [existsb]. rewrite FVI. cbn [truthy orb].
      destruct (truthy (fine vm)) eqn:TM'.
      * exfalso. destruct (fine vm) as [f|] eqn:E; [|discriminate].
        destruct (sh_fine _ _ SM f E) as (_ & FP & _). eapply data_free_not_first; eauto.
      * cbn. do 3 eexists. split; reflexivity.
    + destruct cache as [ca|] eqn:CE.
      * apply PART; try (congruence || reflexivity).
        cbn. intros E. exfalso. rewrite orb_false_r in E. apply orb_true_iff in E. destruct E as [E|E].
        -- destruct (sh_prefer _ _ SM E). congruence.
        -- destruct (sh_prefer _ _ SI E) as (Q & _). discriminate Q.
      * apply OTHER; [cbn; lia | auto].
  - destruct cache as [ca|] eqn:CE.
    + apply PART; try (congruence || reflexivity). apply ONE_FINE. eauto.
    + apply OTHER; [cbn; lia | auto].
  - destruct cache as [ca|] eqn:CE.
    + cbn [OptimizeModel.op_partitionable]. destruct (partitionable b) eqn:P.
      * destruct (PB eq_refl) as [NE NO]. apply PART; try congruence; auto; [lia|].
        intros E. apply ONE_FINE; [|exact E].
        pose proof (ONE (prefer_cached _ _ F E)) as L. destruct inputs as [|n [|]]; try discriminate L. eauto.
      * apply OTHER; [cbn; lia|]. intros E. apply ONE. eapply prefer_cached; [exact F|].
        apply existsb_exists in E. destruct E as (v & IV & E). apply existsb_exists. exists v.
        split; [exact IV|]. apply andb_true_iff in E. apply E.
    + apply OTHER; [cbn; lia | auto].
Qed.

(** Every cacheable value of the first phase is in the cache that was given or in
    the one that is written. *)
Lemma coverage : forall n : node, translated n -> cache <> None -> forall v em, opt n = Some (v, em) ->
  forall n' c k, occurs n' n -> first_phase n' -> cacheable n' c -> In k keys -> is_cached k = true ->
  exists key, has_entry_key n' key /\
    (hit cache k key = true \/ exists m, In (k, key, m) em).
Proof.
  induction n as [label o inputs index IH] using node_rect'. intros T CN v em O n' c k OC FP CA IK IC.
  pose proof (shape_ok _ T _ _ O) as SH.
  destruct (opt_inv _ _ _ _ _ _ T O) as (rs & vs & e & S & H & N & ->).
  assert (TI : forall n, In n inputs -> translated n) by (intros; eapply translated_inputs; eauto).
  inversion OC as [|m x l o' ins i IX OX]; subst.
  - assert (KN : keys <> []) by (intros E; rewrite E in IK; destruct IK).
    cbn in CA. inversion FP as [|? ? ? ? P NA FI]; subst; [discriminate CA|].
    destruct H as [m il -> _ _ _ V|_ _ _ -> ONE NE NO V|[P'|P'] _ _ V]; [discriminate CA| |congruence|congruence].
    destruct (visit_part_spec _ _ _ _ _ _ NO V N) as (_ & TR & PR & HS & D).
    pose proof (sh_first _ _ SH FP KN CN) as TF.
    destruct D as [(AF & f & E & A)|(_ & E & _)]; [|rewrite E in TF; discriminate].
    destruct (sh_fine _ _ SH f E) as (_ & _ & h & HV & HH). rewrite HV in A.
    exists (cache_entry_key cache_version label h). split; [exists h; auto|].
    unfold apply_fine in A. destruct (sequence _) as [results|] eqn:SQ; [|discriminate].
    injection A as <- <-. apply sequence_map in SQ.
    assert (exists i, In (i, k) (combine (seq 0 (length keys)) keys)) as (i & II).
    { rewrite <- (combine_seq_fst keys 0) in IK. apply in_map_iff in IK. destruct IK as ([i k'] & <- & II). eauto. }
    destruct (Forall2_in_l _ _ _ _ SQ II) as ([r em'] & IR & AR). cbn in AR.
    unfold apply_to_dataset in AR. rewrite CA in AR.
    destruct (hit cache k (cache_entry_key cache_version label h)) eqn:HT; [left; reflexivity|].
    destruct (sequence (map (at_key key_eqb k) _)); [|discriminate]. rewrite IC in AR. injection AR as <- <-.
    right. eexists. apply in_app_iff. right. apply in_concat. eexists. split.
    + apply in_map. exact IR.
    + cbn. left. reflexivity.
  - destruct (Forall2_in_l _ _ _ _ S IX) as ([v' em'] & IR & OX').
    destruct (IH x IX (TI x IX) CN v' em' OX' n' c k OX FP CA IK IC) as (key & HK & R).
    exists key. split; [exact HK|]. destruct R as [R|(m' & R)]; [now left|]. right. exists m'.
    apply in_app_iff. left. apply in_concat. exists em'. split; [|exact R].
    change em' with (snd (v', em')). now apply in_map.
Qed.

(** ** The datasets that are read *)

Lemma inputs_of_occurs (m n : node) : occurs m n -> incl (inputs_of m) (inputs_of n).
Proof.
  induction 1 as [|m n label o inputs index I O IH]; [apply incl_refl|].
  intros x X. apply IH in X.
  assert (In x (concat (map inputs_of inputs))) by (apply in_concat; exists (inputs_of n); split; [now apply in_map | exact X]).
  destruct o; cbn; auto.
Qed.

(** Cache entries come from values of the first phase. *)
Lemma emitted_first : forall n : node, translated n -> forall v em, opt n = Some (v, em) -> em <> [] ->
  exists n', occurs n' n /\ translated n' /\ first_phase n'.
Proof.
  induction n as [label o inputs index IH] using node_rect'. intros T v em O NE.
  destruct (opt_inv _ _ _ _ _ _ T O) as (rs & vs & e & S & H & N & ->).
  assert (TI : forall n, In n inputs -> translated n) by (intros; eapply translated_inputs; eauto).
  destruct e as [|x e].
  - rewrite app_nil_r in NE.
    assert (exists r, In r rs /\ snd r <> []) as (r & IR & NR).
    { clear - NE. induction rs as [|[v e] rs IHr]; cbn in NE; [congruence|].
      destruct e as [|y e]; [|exists (v, y :: e); split; [now left | discriminate]].
      destruct IHr as (r & ? & ?); [exact NE|]. exists r. split; [now right | assumption]. }
    destruct (Forall2_in_r _ _ _ _ S IR) as (n & IN & E). destruct r as [v' em'].
    destruct (IH n IN (TI n IN) v' em' E NR) as (n' & O' & R). exists n'. split; [|exact R].
    eapply occurs_below; eauto.
  - exists (Node label o inputs index). split; [constructor|]. split; [exact T|].
    destruct H as [m il -> -> -> DF V|P NA CN -> ONE NE' NO V|P NA ONE V].
    + constructor.
    + destruct (visit_part_spec _ _ _ _ _ _ NO V N) as (_ & _ & _ & _ & [(AF & f & E & A)|(_ & _ & D)]); [|discriminate D].
      apply (sh_fine _ _ (shape_ok _ T _ _ O) f E).
    + destruct (visit_other_spec _ _ _ _ _ _ _ V N) as (_ & _ & D). discriminate D.
Qed.

Lemma at_key_in {A} k (a : A) d : NoDup (map fst d) -> In (k, a) d -> at_key key_eqb k d = Some a.
Proof.
  induction d as [|[k' a'] d IH]; cbn; intros ND I; [destruct I|].
  inversion ND as [|x l NI ND']; subst. destruct (key_eqb k k') eqn:E.
  - apply KEY in E. subst k'. destruct I as [I|I]; [congruence|].
    exfalso. apply NI. apply (in_map fst) in I. exact I.
  - destruct I as [I|I]; [|auto]. injection I as -> ->.
    assert (key_eqb k k = true) by now apply KEY. congruence.
Qed.

Hypothesis ND : NoDup keys.

Definition encodes (e : K * string * node) (x : node) : Prop :=
  exists l c, snd e = Node l (Encode c) [x] 0.

(** What is written to the cache is also used for the result. *)
Lemma emitted_used root : no_nested_caches partitionable cache_coder root ->
  forall n, occurs n root -> translated n -> forall v em, opt n = Some (v, em) ->
  forall e, In e em -> exists x, encodes e x /\
    if truthy (fine v) then
      prefer v = true /\ exists f k m, fine v = Some f /\ In (k, m) f /\ occurs x m
    else occurs x (flat v).
Proof.
  intros NN. induction n as [label o inputs index IH] using node_rect'. intros OR T v em O e IE.
  pose proof (shape_ok _ T _ _ O) as SH.
  destruct (opt_inv _ _ _ _ _ _ T O) as (rs & vs & e0 & S & H & N & ->).
  assert (TI : forall n, In n inputs -> translated n) by (intros; eapply translated_inputs; eauto).
  assert (F : Forall2 shape inputs (map fst rs)).
  { clear - S TI. induction S as [|n [v e] ns rs E S IHS]; cbn; constructor.
    - eapply shape_ok; [apply TI; now left | exact E].
    - apply IHS. intros; apply TI; now right. }
  assert (BELOW : In e (concat (map snd rs)) -> exists n v' em' x, In n inputs /\ In v' (map fst rs) /\
     opt n = Some (v', em') /\ em' <> [] /\ shape n v' /\ encodes e x /\
     if truthy (fine v') then
       prefer v' = true /\ exists f k m, fine v' = Some f /\ In (k, m) f /\ occurs x m
     else occurs x (flat v')).
  { intros I. apply in_concat in I. destruct I as (em' & IM & I). apply in_map_iff in IM.
    destruct IM as ([v' em''] & E & IR). cbn in E. subst em''.
    destruct (Forall2_in_r _ _ _ _ S IR) as (n & IN & E).
    assert (ON : occurs n root).
    { eapply occurs_trans; [|exact OR]. now apply occurs_input. }
    destruct (IH n IN ON (TI n IN) v' em' E e I) as (x & EN & Q).
    exists n, v', em', x. split; [exact IN|]. split; [apply (in_map fst) in IR; exact IR|].
    split; [exact E|]. split; [intros ->; destruct I|]. split; [eapply shape_ok; eauto|]. auto. }
  destruct H as [m il -> -> -> DF V|P NA CN -> ONE NE' NO V|P NA ONE V].
  - (* nothing is emitted below a saved model of the first phase *)
    exfalso. unfold visit_apply in V. destruct (existsb _ _) eqn:EX; [discriminate|].
    destruct (map fst rs) as [|vm [|vi [|]]] eqn:MR; try discriminate V. injection V as <- <-.
    rewrite app_nil_r in IE. destruct (BELOW IE) as (n & v' & em' & x & IN & _ & E & NEM & _).
    destruct (emitted_first n (TI n IN) v' em' E NEM) as (n' & O' & T' & FP).
    destruct IN as [<-|[<-|[]]].
    + destruct (first_phase_input n' T' FP) as (l & k & ins & i & OI). apply (DF l k ins i).
      eapply occurs_trans; eauto.
    + inversion O' as [|? ? ? ? ? ? ABS]; subst; [inversion FP; discriminate | destruct ABS].
  - destruct (visit_part_spec _ _ _ _ _ _ NO V N) as (FL & TR & PR & HS & D).
    apply in_app_iff in IE. destruct D as [(AF & f & E & A)|(AF & E & ->)].
    + assert (KS : map fst f = keys) by (eapply apply_fine_keys; eauto).
      destruct (hashed v) as [h|]; [|discriminate A].
      unfold apply_fine in A. destruct (sequence _) as [results|] eqn:SQ; [|discriminate].
      injection A as <- <-. apply sequence_map in SQ.
      destruct IE as [IE|IE].
      * destruct (BELOW IE) as (n & v' & em' & x & IN & IV & _ & _ & SHn & EN & Q).
        rewrite forallb_forall in AF. rewrite (AF v' IV) in Q. destruct Q as (PV & f' & k & m & FV & IK & OX).
        exists x. split; [exact EN|].
        assert (NC : op_coder o = None).
        { destruct (op_coder o) eqn:OC; [|reflexivity]. exfalso.
          assert (existsb cached_path inputs = false) by (eapply NN; [exact OR | congruence]).
          assert (existsb cached_path inputs = true).
          { apply existsb_exists. exists n. split; [exact IN | apply (sh_prefer _ _ SHn PV)]. }
          congruence. }
        assert (PREF : prefer v = true).
        { rewrite PR. apply orb_true_iff. left. apply existsb_exists. eauto. }
        rewrite (TR PREF). split; [exact PREF|].
        destruct (sh_fine _ _ SHn f' FV) as (KF & _).
        assert (IKk : In k keys) by (rewrite <- KF; apply (in_map fst) in IK; exact IK).
        assert (exists i, In (i, k) (combine (seq 0 (length keys)) keys)) as (i & II).
        { rewrite <- (combine_seq_fst keys 0) in IKk. apply in_map_iff in IKk.
          destruct IKk as ([i k'] & <- & II). eauto. }
        destruct (Forall2_in_l _ _ _ _ SQ II) as ([r em''] & IR & AR). cbn in AR.
        unfold apply_to_dataset in AR. rewrite NC in AR.
        destruct (sequence (map (at_key key_eqb k) _)) as [ins|] eqn:SI; [|discriminate].
        injection AR as <- <-.
        do 3 eexists. split; [exact E|]. split.
        { apply (in_map fst) in IR. exact IR. }
        apply sequence_map in SI.
        assert (IF : In f' (map (fun v => match fine v with Some f => f | None => [] end) (map fst rs))).
        { apply in_map_iff. exists v'. rewrite FV. auto. }
        destruct (Forall2_in_l _ _ _ _ SI IF) as (y & IY & AY).
        rewrite (at_key_in k m f') in AY; [|now rewrite KF | exact IK]. injection AY as <-.
        eapply occurs_below; [exact IY | exact OX].
      * apply in_concat in IE. destruct IE as (em' & IM & IE). apply in_map_iff in IM.
        destruct IM as ([r em''] & EE & IR). cbn in EE. subst em''.
        destruct (Forall2_in_r _ _ _ _ SQ IR) as ([i k] & _ & AR). cbn in AR.
        unfold apply_to_dataset in AR. destruct (op_coder o) as [c|] eqn:OC.
        -- destruct (hit cache k _); [injection AR as <- <-; destruct IE|].
           destruct (sequence (map (at_key key_eqb k) _)) as [ins|]; [|discriminate].
           injection AR as <- <-. destruct (is_cached k); [|destruct IE]. destruct IE as [<-|[]].
           eexists. split; [do 2 eexists; reflexivity|].
           assert (PREF : prefer v = true) by (rewrite PR, AF; cbn; apply orb_true_r).
           rewrite (TR PREF). split; [exact PREF|]. do 3 eexists. split; [exact E|]. split.
           { apply (in_map fst) in IR. exact IR. }
           constructor.
        -- destruct (sequence (map (at_key key_eqb k) _)); [|discriminate]. injection AR as <- <-. destruct IE.
    + destruct IE as [IE|[]]. destruct (BELOW IE) as (n & v' & em' & x & IN & IV & _ & _ & SHn & EN & Q).
      exists x. split; [exact EN|]. rewrite E. cbn [truthy].
      destruct (truthy (fine v')) eqn:TV.
      * exfalso. destruct Q as [PV _]. assert (PREF : prefer v = true).
        { rewrite PR. apply orb_true_iff. left. apply existsb_exists. eauto. }
        specialize (TR PREF). rewrite E in TR. discriminate.
      * rewrite FL. eapply occurs_below; [|exact Q]. now apply in_map.
  - destruct (visit_other_spec _ _ _ _ _ _ _ V N) as (VF & _ & ->). rewrite app_nil_r in IE. rewrite VF. cbn [truthy].
    destruct (BELOW IE) as (n & v' & em' & x & IN & IV & _ & _ & SHn & EN & Q).
    exists x. split; [exact EN|]. unfold visit_other in V.
    destruct (existsb (fun v => truthy (fine v) && prefer v) (map fst rs)) eqn:EX.
    + destruct (sequence (map fine (map fst rs))) as [fines|] eqn:SQ; [|discriminate]. injection V as <-.
      apply (nth_outputs num_outputs) in N. subst v. cbn [flat].
      assert (ONLY : length inputs = 1).
      { apply existsb_exists in EX. destruct EX as (w & IW & EX). apply andb_true_iff in EX.
        destruct (Forall2_in_r _ _ _ _ F IW) as (n1 & IN1 & SH1).
        destruct (sh_prefer _ _ SH1 (proj2 EX)) as (CP & _ & CN).
        apply ONE; [exact CN|]. apply existsb_exists. eauto. }
      destruct inputs as [|n1 [|]]; try discriminate ONLY.
      destruct rs as [|r1 rs]; inversion F as [|a b c d SH1 F' E1 E2]; subst. inversion F'; subst.
      destruct rs; [|discriminate]. cbn [map] in *. destruct IV as [<-|[]].
      cbn in EX. rewrite orb_false_r in EX. apply andb_true_iff in EX. destruct EX as [TV _].
      rewrite TV in Q. destruct Q as (_ & f & k & m & FV & IK & OX).
      rewrite FV in SQ. cbn in SQ. injection SQ as <-. cbn [concat]. rewrite app_nil_r.
      eapply occurs_below; [left; reflexivity|]. eapply occurs_below; [|exact OX].
      apply in_map_iff. exists (k, m). auto.
    + injection V as <-. apply (nth_outputs num_outputs) in N. subst v. cbn [flat].
      destruct (truthy (fine v')) eqn:TV.
      * exfalso. destruct Q as [PV _].
        assert (existsb (fun v => truthy (fine v) && prefer v) (map fst rs) = true); [|congruence].
        apply existsb_exists. exists v'. rewrite TV, PV. auto.
      * eapply occurs_below; [|exact Q]. now apply in_map.
Qed.

End Shape.
