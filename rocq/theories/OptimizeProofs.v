(** * Proofs about caching *)
From Coq Require Import String.
From Coq Require Import List Arith Bool Lia.
From Verif Require Import OptimizeModel OptimizeSpec.
Import ListNotations.
Local Notation length := List.length.

Lemma sequence_Forall2 {A} (l : list (option A)) r :
  sequence l = Some r <-> Forall2 (fun o a => o = Some a) l r.
Proof.
  revert r. induction l as [|[a|] l IH]; intros r; cbn.
  - split; [intros [= <-]; constructor | intros H; inversion H; reflexivity].
  - destruct (sequence l) as [q|] eqn:E.
    + split.
      * intros [= <-]. constructor; [reflexivity | now apply IH].
      * intros H. inversion H as [|x b l' r' H1 H2]; subst. injection H1 as <-.
        apply IH in H2. now injection H2 as <-.
    + split; [discriminate|]. intros H. inversion H as [|x b l' r' H1 H2]; subst.
      apply IH in H2. discriminate.
  - split; [discriminate|]. intros H. inversion H; discriminate.
Qed.

Lemma sequence_map {A D} (f : A -> option D) l r :
  sequence (map f l) = Some r <-> Forall2 (fun a b => f a = Some b) l r.
Proof.
  rewrite sequence_Forall2. revert r. induction l as [|a l IH]; intros r; cbn.
  - split; intros H; inversion H; constructor.
  - split; intros H; inversion H; subst; constructor; auto; now apply IH.
Qed.

Lemma sequence_some {A D} (f : A -> option D) l :
  (forall a, In a l -> f a <> None) -> exists r, sequence (map f l) = Some r.
Proof.
  induction l as [|a l IH]; intros H; cbn; [eauto|].
  destruct (f a) eqn:E; [|exfalso; apply (H a (or_introl eq_refl) E)].
  destruct IH as [r ->]; [intros x X; apply H; now right|]. eauto.
Qed.

Lemma Forall2_in_r {A D} (R : A -> D -> Prop) l r b :
  Forall2 R l r -> In b r -> exists a, In a l /\ R a b.
Proof.
  induction 1 as [|x y l r H F IH]; intros I; [destruct I|].
  destruct I as [<-|I]; [exists x; split; [now left | exact H]|].
  destruct (IH I) as (a & ? & ?). exists a. split; [now right | auto].
Qed.

Lemma Forall2_in_l {A D} (R : A -> D -> Prop) l r a :
  Forall2 R l r -> In a l -> exists b, In b r /\ R a b.
Proof.
  induction 1 as [|x y l r H F IH]; intros I; [destruct I|].
  destruct I as [<-|I]; [exists y; split; [now left | exact H]|].
  destruct (IH I) as (b & ? & ?). exists b. split; [now right | auto].
Qed.

Lemma Forall2_map_same {A D E} (R : D -> E -> Prop) (f : A -> D) (g : A -> E) l :
  (forall a, In a l -> R (f a) (g a)) -> Forall2 R (map f l) (map g l).
Proof. induction l; intros H; cbn; constructor; auto using in_eq, in_cons. Qed.

Lemma Forall2_map_l {A D E} (R : D -> E -> Prop) (f : A -> D) l r :
  Forall2 R (map f l) r <-> Forall2 (fun a b => R (f a) b) l r.
Proof.
  revert r. induction l; intros r; cbn; split; intros H; inversion H; subst; constructor; auto; now apply IHl.
Qed.

Lemma Forall2_impl {A D} (R S : A -> D -> Prop) l r :
  (forall a b, In a l -> In b r -> R a b -> S a b) -> Forall2 R l r -> Forall2 S l r.
Proof.
  intros H F. induction F; constructor.
  - apply H; auto using in_eq.
  - apply IHF. intros. apply H; auto using in_cons.
Qed.

Lemma Forall2_len {A D} (R : A -> D -> Prop) l r : Forall2 R l r -> length l = length r.
Proof. induction 1; cbn; congruence. Qed.

Lemma columns {A P} (f : A -> P) (d : P) (l : list A) :
  forall {Q} (g : P -> Q) , map (fun i => g (nth i (map f l) d)) (seq 0 (length l)) = map (fun a => g (f a)) l.
Proof.
  induction l as [|a l IH]; intros Q g; cbn; [reflexivity|]. f_equal.
  rewrite <- seq_shift, map_map. apply IH.
Qed.

Lemma columns2 {A Kt P Q} (f : Kt -> A -> P) (d : P) (ks : list Kt) (l : list A) (g : list P -> Q) :
  map (fun i => g (map (fun r => nth i r d) (map (fun k => map (f k) l) ks))) (seq 0 (length l))
  = map (fun a => g (map (fun k => f k a) ks)) l.
Proof.
  induction l as [|a l IH]; cbn; [reflexivity|]. f_equal.
  - rewrite map_map. reflexivity.
  - rewrite <- seq_shift, map_map. rewrite <- IH. apply map_ext. intros i. f_equal.
    rewrite !map_map. reflexivity.
Qed.

Section NodeInd.
Context {B C K : Type}.
Variable Q : node B C K -> Prop.
Hypothesis H : forall label o inputs index, (forall n, In n inputs -> Q n) -> Q (Node label o inputs index).
Fixpoint node_rect' (n : node B C K) : Q n :=
  match n with
  | Node label o inputs index =>
      H label o inputs index
        (proj1 (Forall_forall Q inputs)
          ((fix all (l : list (node B C K)) : Forall Q l :=
              match l with
              | [] => Forall_nil Q
              | m :: l => Forall_cons m (node_rect' m) (all l)
              end) inputs))
  end.
End NodeInd.

Section Proofs.
Context {B C K PC : Type}.
Variable partitionable : B -> bool.
Variable cache_coder : B -> option C.
Variable num_outputs : B -> nat.
Variable key_eqb : K -> K -> bool.
Variable is_cached : K -> bool.
Variable class_name : op B C K -> string.
Variable fields : string -> op B C K -> list string.
Variable tensor_path : string -> option string.
Variable sha1 : string -> string.
Variable cache_version : string.
Variable flatten : list PC -> PC.
Variable sem : op B C K -> list PC -> list PC.
Variable encode decode : C -> PC -> PC.
Variable eqv : PC -> PC -> Prop.
Hypothesis KEY : forall a b, key_eqb a b = true <-> a = b.
Hypothesis IMP : implementation partitionable cache_coder flatten sem encode decode eqv.
Variable data : K -> PC.

Notation translated := (translated partitionable cache_coder num_outputs).
Notation cached_path := (cached_path partitionable cache_coder).
Notation op_partitionable := (op_partitionable partitionable).
Notation op_coder := (op_coder cache_coder).
Notation has_hash := (has_hash partitionable class_name fields tensor_path sha1).
Notation has_entry_key := (has_entry_key partitionable class_name fields tensor_path sha1 cache_version).
Notation cacheable := (cacheable cache_coder).
Notation value_on := (value_on flatten sem encode decode data).
Notation out := (out flatten).
Notation "p ~~ q" := (eqv p q) (at level 70).

Lemma rfl p : p ~~ p. Proof. apply (eqv_refl _ _ _ _ _ _ _ IMP). Qed.
Lemma symm p q : p ~~ q -> q ~~ p. Proof. apply (eqv_sym _ _ _ _ _ _ _ IMP). Qed.
Lemma trns p q r : p ~~ q -> q ~~ r -> p ~~ r. Proof. apply (eqv_trans _ _ _ _ _ _ _ IMP). Qed.
Lemma flat_congr ps qs : Forall2 eqv ps qs -> flatten ps ~~ flatten qs.
Proof. apply (flatten_congr _ _ _ _ _ _ _ IMP). Qed.
Lemma congr o xs ys i : Forall2 eqv xs ys -> out i (sem o xs) ~~ out i (sem o ys).
Proof. apply (sem_congr _ _ _ _ _ _ _ IMP). Qed.

Lemma at_key_spec {A} k (d : list (K * A)) a : at_key key_eqb k d = Some a -> In (k, a) d.
Proof.
  induction d as [|[k' a'] d IH]; cbn; [discriminate|].
  destruct (key_eqb k k') eqn:E.
  - intros [= <-]. apply KEY in E. subst. now left.
  - intros H. right. auto.
Qed.

Lemma at_key_some {A} k (d : list (K * A)) : In k (map fst d) -> at_key key_eqb k d <> None.
Proof.
  induction d as [|[k' a'] d IH]; cbn; [intros []|].
  destruct (key_eqb k k') eqn:E; [discriminate|].
  intros [->|I]; [|auto]. assert (key_eqb k k = true) by (apply KEY; reflexivity). congruence.
Qed.

(** Values of data free graphs do not depend on the datasets. *)
Lemma data_free_below label o inputs index n :
  data_free (B := B) (C := C) (K := K) (Node label o inputs index) -> In n inputs -> data_free n.
Proof. intros D I l k ins i O. apply (D l k ins i). eapply occurs_below; eauto. Qed.

Lemma data_free_value keys keys' n : data_free n -> value_on keys n = value_on keys' n.
Proof.
  induction n as [label o inputs index IH] using node_rect'. intros D.
  unfold OptimizeSpec.value_on in *. cbn [eval].
  assert (E : map (eval flatten sem encode decode data keys no_cache) inputs
            = map (eval flatten sem encode decode data keys' no_cache) inputs).
  { apply map_ext_in. intros n I. apply IH; [exact I|]. eapply data_free_below; eauto. }
  rewrite E. destruct o as [[k|]| | | | | |]; try reflexivity.
  exfalso. apply (D label None inputs index). constructor.
Qed.

Lemma value_op keys label o inputs index :
  (match o with Apply _ | Extract _ | Op _ => True | _ => False end) ->
  value_on keys (Node label o inputs index) = out index (sem o (map (value_on keys) inputs)).
Proof. destruct o; intros []; reflexivity. Qed.

Section OneRun.
Variable keys : list K.
Variable cache : option (K -> string -> option PC).

Notation cache_fn := (match cache with Some c => c | None => no_cache end).
Notation ev := (eval flatten sem encode decode data keys cache_fn).
Notation opt := (optimize partitionable cache_coder num_outputs key_eqb is_cached class_name fields
  tensor_path sha1 cache_version keys (option_map entries cache)).
Notation hitf := (hit (option_map entries cache)).
Notation apply_ds := (apply_to_dataset cache_coder key_eqb is_cached (option_map entries cache)).

(** The cached entries of the values in [n] are right. *)
Definition right_entries (root : node B C K) : Prop :=
  forall n c k key p, occurs n root -> cacheable n c -> has_entry_key n key ->
    cache_fn k key = Some p -> decode c p ~~ value_on [k] n.

Definition fine_ok (n : node B C K) (f : list (K * node B C K)) : Prop :=
  map fst f = keys /\
  (forall k m, In (k, m) f -> ev m ~~ value_on [k] n) /\
  value_on keys n ~~ flatten (map (fun k => value_on [k] n) keys).

Record view_ok (n : node B C K) (v : view B C K) : Prop := {
  ok_flat : ev (flat v) ~~ value_on keys n;
  ok_fine : forall f, fine v = Some f -> fine_ok n f /\ exists h, hashed v = Some h /\ has_hash n h;
  ok_prefer : prefer v = true -> cached_path n = true /\ truthy (fine v) = true /\ cache <> None
}.

Definition emitted_ok (root : node B C K) (e : K * string * node B C K) : Prop :=
  In (fst (fst e)) keys /\ hitf (fst (fst e)) (snd (fst e)) = false /\
  is_cached (fst (fst e)) = true /\
  exists n c, occurs n root /\ cacheable n c /\ has_entry_key n (snd (fst e)) /\
    decode c (ev (snd e)) ~~ value_on [fst (fst e)] n.

Lemma ev_op label o inputs index :
  (match o with Apply _ | Extract _ | Op _ => True | _ => False end) ->
  ev (Node label o inputs index) = out index (sem o (map ev inputs)).
Proof. destruct o; intros []; reflexivity. Qed.

Lemma make_view_spec p fl f h v :
  make_view (B := B) (C := C) (K := K) p fl f h = Some v -> v = View p fl f h /\ (p = true -> truthy f = true).
Proof.
  unfold make_view. destruct p, (truthy f); cbn; intros H; try discriminate; injection H as <-; auto.
Qed.

Lemma combine_seq_fst {A} (l : list A) n : map snd (combine (seq n (length l)) l) = l.
Proof. revert n. induction l; intros n; cbn; [reflexivity|]. f_equal. apply IHl. Qed.

(** One dataset of a partitionable operation. *)
Lemma apply_ds_spec label o index inputs fines key h i k r em :
  match o with Extract _ | Op _ => True | _ => False end ->
  Forall2 fine_ok inputs fines ->
  index = 0 ->
  (forall c p, op_coder o = Some c -> cache_fn k key = Some p ->
      decode c p ~~ value_on [k] (Node label o inputs index)) ->
  key = cache_entry_key cache_version label h -> has_hash (Node label o inputs index) h ->
  In k keys ->
  apply_ds label o key fines i k = Some (r, em) ->
  fst r = k /\ ev (snd r) ~~ value_on [k] (Node label o inputs index) /\
  Forall (emitted_ok (Node label o inputs index)) em.
Proof.
  intros OP F -> RE EK HH IK A.
  assert (CMP : forall ins, sequence (map (at_key key_eqb k) fines) = Some ins ->
    Forall2 eqv (map ev ins) (map (value_on [k]) inputs)).
  { intros ins S. apply sequence_map in S. clear - F S KEY.
    revert ins S. induction F as [|n f inputs fines [KS [FK _]] F IH]; intros ins S.
    - inversion S. constructor.
    - inversion S as [|x m y ins' E S']; subst. cbn. constructor; [|auto].
      apply FK. now apply at_key_spec. }
  assert (VAL : forall l ins, Forall2 eqv (map ev ins) (map (value_on [k]) inputs) ->
    ev (Node l o ins 0) ~~ value_on [k] (Node label o inputs 0)).
  { intros l ins Fv. rewrite ev_op, value_op by (destruct o; tauto). now apply congr. }
  unfold apply_to_dataset in A.
  destruct (op_coder o) as [c|] eqn:CO.
  - destruct (hitf k key) eqn:HIT.
    + injection A as <- <-. cbn [fst snd]. split; [reflexivity|]. split; [|constructor].
      cbn [eval]. unfold hit in HIT. destruct cache as [cf|]; [|discriminate]. cbn in HIT.
      unfold entries in HIT. destruct (cf k key) as [p|] eqn:E; [|discriminate].
      apply (RE c p eq_refl eq_refl).
    + destruct (sequence (map (at_key key_eqb k) fines)) as [ins|] eqn:S; [|discriminate].
      injection A as <- <-. cbn [fst snd]. specialize (CMP ins eq_refl).
      split; [reflexivity|]. split; [auto|].
      destruct (is_cached k) eqn:IC; [|constructor]. constructor; [|constructor].
      split; [exact IK|]. split; [exact HIT|]. split; [exact IC|].
      exists (Node label o inputs 0), c. split; [constructor|]. split; [exact CO|].
      split; [exists h; split; [exact HH | exact EK]|]. cbn [fst snd eval map nth].
      destruct o as [| | | | | |b]; try discriminate CO; try tauto.
      cbn in CO. eapply trns; [apply (coder_round_trip _ _ _ _ _ _ _ IMP b c _ CO)|].
      exact (VAL (relabel label i) ins CMP).
  - destruct (sequence (map (at_key key_eqb k) fines)) as [ins|] eqn:S; [|discriminate].
    injection A as <- <-. cbn [fst snd]. split; [reflexivity|]. split; [auto | constructor].
Qed.

(** A partitionable operation on parts of the data. *)
Lemma partition_op label o inputs :
  match o with Extract _ => length inputs = 1 | Op b => partitionable b = true /\ inputs <> [] | _ => False end ->
  (forall n, In n inputs -> value_on keys n ~~ flatten (map (fun k => value_on [k] n) keys)) ->
  value_on keys (Node label o inputs 0)
    ~~ flatten (map (fun k => value_on [k] (Node label o inputs 0)) keys).
Proof.
  intros OP F.
  assert (PURE : match o with Apply _ | Extract _ | Op _ => True | _ => False end) by (destruct o; tauto).
  rewrite value_op by exact PURE.
  eapply trns.
  { apply congr with (ys := map (fun n => flatten (map (fun k => value_on [k] n) keys)) inputs).
    apply Forall2_map_same. exact F. }
  replace (map (fun k => value_on [k] (Node label o inputs 0)) keys)
     with (map (fun k => out 0 (sem o (map (value_on [k]) inputs))) keys).
  2:{ apply map_ext. intros k. now rewrite value_op by exact PURE. }
  destruct o as [| | ks| | | |b]; try tauto.
  - destruct inputs as [|n [|]]; try discriminate OP. cbn [map].
    eapply trns; [apply (sem_extract _ _ _ _ _ _ _ IMP)|]. rewrite map_map. apply rfl.
  - destruct OP as [PB NE].
    pose proof (sem_partitionable _ _ _ _ _ _ _ IMP b PB
      (map (fun k => map (value_on [k]) inputs) keys) (length inputs)) as SP.
    unfold OptimizeSpec.out in SP at 2.
    rewrite (columns2 (fun k => value_on [k]) (flatten []) keys inputs flatten) in SP.
    rewrite map_map in SP. apply SP.
    + destruct inputs; [congruence | cbn; lia].
    + intros r R. apply in_map_iff in R. destruct R as (k & <- & _). apply map_length.
Qed.

Lemma occurs_trans (a b c : node B C K) : occurs a b -> occurs b c -> occurs a c.
Proof. intros H1 H2. induction H2; [exact H1|]. eapply occurs_below; eauto. Qed.

Lemma emitted_up n root e : occurs n root -> emitted_ok n e -> emitted_ok root e.
Proof.
  intros O (A & H & I & m & c & O' & R). repeat (split; [assumption|]).
  exists m, c. split; [eapply occurs_trans; eauto | exact R].
Qed.

Lemma right_entries_below n root : occurs n root -> right_entries root -> right_entries n.
Proof. intros O RE m c k key p O'. apply RE. eapply occurs_trans; eauto. Qed.

Lemma occurs_input label o inputs index n :
  In n inputs -> occurs n (Node (B := B) (C := C) (K := K) label o inputs index).
Proof. intros I. eapply occurs_below; [exact I | constructor]. Qed.

(** An operation applied to the flattened views. *)
Lemma flat_op label o inputs index views :
  match o with Apply _ | Extract _ | Op _ => True | _ => False end ->
  Forall2 view_ok inputs views ->
  ev (Node label o (map flat views) index) ~~ value_on keys (Node label o inputs index).
Proof.
  intros OP F. rewrite ev_op, value_op by exact OP. apply congr.
  induction F as [|n v inputs views H F IH]; cbn; constructor; [apply H | exact IH].
Qed.

Lemma view_none n fl : ev fl ~~ value_on keys n -> view_ok n (View false fl None None).
Proof. intros H. constructor; cbn; [exact H | discriminate | discriminate]. Qed.

Lemma nth_outputs label o (ins : list (node B C K)) {A} (f : node B C K -> A) index v :
  nth_error (map f (outputs num_outputs label o ins)) index = Some v -> v = f (Node label o ins index).
Proof.
  unfold outputs. rewrite map_map. intros N. rewrite nth_error_map in N.
  destruct (nth_error (seq 0 _) index) as [i|] eqn:E; [|discriminate]. injection N as <-.
  assert (index < op_outputs num_outputs o).
  { rewrite <- (seq_length (op_outputs num_outputs o) 0). apply nth_error_Some. congruence. }
  rewrite nth_error_nth' with (d := 0) in E by (now rewrite seq_length).
  rewrite seq_nth in E by assumption. injection E as <-. reflexivity.
Qed.

Lemma visit_other_ok label o inputs index views vs em v :
  match o with Apply _ | Extract _ | Op _ => True | _ => False end ->
  Forall2 view_ok inputs views ->
  (cache <> None -> existsb cached_path inputs = true -> length inputs = 1) ->
  visit_other num_outputs label o views = Some (vs, em) -> nth_error vs index = Some v ->
  view_ok (Node label o inputs index) v /\ em = [].
Proof.
  intros OP F ONE V N. unfold visit_other in V.
  destruct (existsb (fun v => truthy (fine v) && prefer v) views) eqn:EX.
  - apply existsb_exists in EX. destruct EX as (w & IW & TW). apply andb_true_iff in TW.
    destruct TW as [TW PW]. destruct (Forall2_in_r _ _ _ _ F IW) as (m & IM & VM).
    destruct (ok_prefer _ _ VM PW) as (CP & _ & CN).
    assert (LEN : length inputs = 1).
    { apply ONE; [exact CN|]. apply existsb_exists. eauto. }
    destruct inputs as [|m' [|]]; try discriminate LEN. destruct IM as [->|[]].
    inversion F as [|a b c d VM' F' E1 E2]; subst. inversion F'; subst. clear F F'.
    destruct IW as [<-|[]]. cbn [map sequence] in V.
    destruct (fine b) as [f|] eqn:FB; [|discriminate V]. cbn [concat] in V. rewrite app_nil_r in V.
    injection V as <- <-. split; [|reflexivity].
    apply nth_outputs in N. subst v. apply view_none.
    rewrite ev_op, value_op by exact OP. apply congr. cbn [map]. constructor; [|constructor].
    cbn [eval]. destruct (ok_fine _ _ VM' f FB) as [(KS & FK & PT) _].
    eapply trns; [|apply symm; exact PT]. apply flat_congr.
    replace (map (fun k => value_on [k] m) keys) with (map (fun km => value_on [fst km] m) f)
      by (rewrite <- (map_map fst (fun k => value_on [k] m)), KS; reflexivity).
    rewrite map_map. apply Forall2_map_same. intros [k x] I. cbn. auto.
  - injection V as <- <-. split; [|reflexivity].
    apply nth_outputs in N. subst v. apply view_none. now apply flat_op.
Qed.

Lemma fines_ok inputs views :
  Forall2 view_ok inputs views -> forallb (fun v => truthy (fine v)) views = true ->
  Forall2 fine_ok inputs (map (fun v => match fine v with Some f => f | None => [] end) views) /\
  exists hashes, map hashed views = map Some hashes /\ Forall2 has_hash inputs hashes.
Proof.
  induction 1 as [|n v inputs views H F IH]; cbn; intros A.
  - split; [constructor|]. exists []. split; [reflexivity | constructor].
  - apply andb_true_iff in A. destruct A as [T A]. destruct (IH A) as (FF & hs & HS & HH).
    destruct (fine v) as [f|] eqn:E; [|discriminate T].
    destruct (ok_fine _ _ H f E) as (FO & h & HE & HN). split; [constructor; assumption|].
    exists (h :: hs). cbn. split; [congruence | constructor; assumption].
Qed.

Lemma apply_fine_ok label o inputs fines h f em :
  match o with Extract _ | Op _ => True | _ => False end ->
  Forall2 fine_ok inputs fines ->
  right_entries (Node label o inputs 0) ->
  has_hash (Node label o inputs 0) h ->
  apply_fine cache_coder key_eqb is_cached cache_version keys (option_map entries cache)
    label o fines (Some h) = Some (f, em) ->
  map fst f = keys /\ (forall k m, In (k, m) f -> ev m ~~ value_on [k] (Node label o inputs 0)) /\
  Forall (emitted_ok (Node label o inputs 0)) em.
Proof.
  intros OP FF RE HH A. unfold apply_fine in A.
  destruct (sequence _) as [results|] eqn:S; [|discriminate]. injection A as <- <-.
  apply sequence_map in S.
  assert (EACH : forall ik r, In ik (combine (seq 0 (length keys)) keys) ->
      apply_ds label o (cache_entry_key cache_version label h) fines (fst ik) (snd ik) = Some r ->
      fst (fst r) = snd ik /\ ev (snd (fst r)) ~~ value_on [snd ik] (Node label o inputs 0) /\
      Forall (emitted_ok (Node label o inputs 0)) (snd r)).
  { intros [i k] [r e] I A. apply in_combine_r in I. cbn [fst snd] in *.
    eapply apply_ds_spec; eauto. intros c p CO CF.
    apply (RE (Node label o inputs 0) c k (cache_entry_key cache_version label h) p);
      [constructor | exact CO | | exact CF]. exists h. auto. }
  assert (F : Forall2 (fun ik r => fst (fst r) = snd ik /\
      ev (snd (fst r)) ~~ value_on [snd ik] (Node label o inputs 0) /\
      Forall (emitted_ok (Node label o inputs 0)) (snd r)) (combine (seq 0 (length keys)) keys) results).
  { eapply Forall2_impl; [|exact S]. cbn. intros ik r I _ E. now apply EACH. }
  clear S EACH. split.
  - transitivity (map snd (combine (seq 0 (length keys)) keys)); [|apply combine_seq_fst].
    clear - F. induction F as [|ik r l rs (E & _) F IH]; cbn; [reflexivity|]. now rewrite E, IH.
  - split.
    + intros k m I. apply in_map_iff in I. destruct I as ([[k' m'] e] & E & I).
      cbn in E. injection E as -> ->. destruct (Forall2_in_r _ _ _ _ F I) as (ik & _ & E & V & _).
      cbn in E, V. now subst k.
    + induction F as [|ik r l rs (_ & _ & E) F IH]; cbn; [constructor|]. apply Forall_app. auto.
Qed.

Lemma visit_partitionable_ok label o inputs views vs em index v :
  match o with
  | Apply p => p <> 0 /\ forallb (fun v => truthy (fine v)) views = false
  | Extract _ => length inputs = 1
  | Op b => partitionable b = true /\ inputs <> []
  | _ => False
  end ->
  index = 0 -> cache <> None ->
  right_entries (Node label o inputs index) ->
  Forall2 view_ok inputs views ->
  visit_partitionable cache_coder num_outputs key_eqb is_cached class_name fields tensor_path sha1
    cache_version keys (option_map entries cache) label o views = Some (vs, em) ->
  nth_error vs index = Some v ->
  view_ok (Node label o inputs index) v /\ Forall (emitted_ok (Node label o inputs index)) em.
Proof.
  intros OP -> CN RE F V N.
  assert (PURE : match o with Apply _ | Extract _ | Op _ => True | _ => False end) by (destruct o; tauto).
  assert (PART : op_partitionable o = true) by (destruct o; try tauto; reflexivity).
  unfold visit_partitionable in V.
  set (pr := existsb prefer views || _) in V.
  assert (PR : pr = true -> cached_path (Node label o inputs 0) = true).
  { intros E. cbn [OptimizeSpec.cached_path]. rewrite PART. cbn [andb]. unfold pr in E.
    apply orb_true_iff in E. apply orb_true_iff. destruct E as [E|E].
    - right. apply existsb_exists in E. destruct E as (w & IW & PW).
      destruct (Forall2_in_r _ _ _ _ F IW) as (m & IM & VM). apply existsb_exists. exists m.
      split; [exact IM|]. apply (ok_prefer _ _ VM PW).
    - left. apply andb_true_iff in E. apply E. }
  destruct (forallb (fun v => truthy (fine v)) views) eqn:AF.
  - destruct (fines_ok _ _ F AF) as (FF & hs & HS & HH).
    destruct (apply_fine _ _ _ _ _ _ _ _ _ _) as [[f e]|] eqn:A; [|discriminate].
    destruct (sequence _) as [ws|] eqn:S in V; [|discriminate]. injection V as <- <-.
    destruct (next_hashed_path class_name fields tensor_path sha1 (map hashed views) label o) as [h|] eqn:NH.
    2:{ discriminate A. }
    assert (OP2 : match o with Extract _ | Op _ => True | _ => False end) by (destruct o; try tauto; destruct OP; discriminate).
    assert (HASH : has_hash (Node label o inputs 0) h).
    { eapply hash_op with (hashes := hs); eauto; [destruct o; tauto || discriminate | now rewrite <- HS]. }
    destruct (apply_fine_ok label o inputs _ h f e OP2 FF RE HASH A) as (KS & FK & EM).
    split; [|exact EM].
    apply sequence_map in S.
    assert (VV : v = View pr (Node label o (map flat views) 0) (Some f) (Some h) /\ (pr = true -> truthy (Some f) = true)).
    { unfold outputs in S. destruct (op_outputs num_outputs o) as [|q]; [inversion S; subst; discriminate N|].
      cbn in S. inversion S as [|a b c d E S']; subst. cbn in N. injection N as <-.
      now apply make_view_spec. }
    destruct VV as [-> TR]. constructor; cbn [flat fine hashed prefer].
    + now apply flat_op.
    + intros f' [= <-]. split; [|eauto]. split; [exact KS|]. split; [exact FK|].
      apply partition_op; [destruct o; tauto|].
      intros n I. destruct (Forall2_in_l _ _ _ _ FF I) as (fn & _ & FO). apply FO.
    + intros E. auto.
  - destruct (sequence _) as [ws|] eqn:S in V; [|discriminate]. injection V as <- <-.
    split; [|constructor]. apply sequence_map in S.
    unfold outputs in S. destruct (op_outputs num_outputs o) as [|q]; [inversion S; subst; discriminate N|].
    cbn in S. inversion S as [|a b c d E S']; subst. cbn in N. injection N as <-.
    apply make_view_spec in E. destruct E as [-> TR]. constructor; cbn [flat fine hashed prefer].
    + now apply flat_op.
    + discriminate.
    + intros E. specialize (TR E). discriminate.
Qed.

Lemma visit_apply_ok label model input_label views vs em v :
  data_free model ->
  Forall2 view_ok [model; Node input_label (Input None) [] 0] views ->
  visit_apply keys label (Apply 0) views = Some (vs, em) ->
  nth_error vs 0 = Some v ->
  view_ok (Node label (Apply 0) [model; Node input_label (Input None) [] 0] 0) v /\ em = [].
Proof.
  intros DF F V N. unfold visit_apply in V.
  destruct (existsb _ views); [discriminate|].
  inversion F as [|a vm b l VM F' E1 E2]; subst. inversion F' as [|a' vi b' l' VI F'' E3 E4]; subst.
  inversion F''; subst. clear F F' F''. injection V as <- <-. split; [|reflexivity].
  cbn in N. injection N as <-. constructor; cbn [flat fine hashed prefer].
  - apply (flat_op label (Apply 0) _ 0 [vm; vi] I). constructor; [exact VM|]. constructor; [exact VI | constructor].
  - intros f [= <-]. split; [|exists "APPLY_SAVEDMODEL"%string; split; [reflexivity | constructor]].
    split; [|split].
    + rewrite map_map. cbn. apply combine_seq_fst.
    + intros k m I. apply in_map_iff in I. destruct I as ([i k'] & E & I). cbn [fst snd] in E.
      injection E as <- <-. rewrite ev_op, value_op by exact Logic.I. apply congr. cbn [map].
      constructor; [|constructor; [|constructor]].
      * rewrite (data_free_value [k'] keys model DF). apply VM.
      * cbn [eval]. unfold OptimizeSpec.value_on. cbn. apply symm, (flatten_one _ _ _ _ _ _ _ IMP).
    + rewrite value_op by exact Logic.I. cbn [map].
      unfold OptimizeSpec.value_on at 2. cbn [eval].
      eapply trns; [apply (sem_apply _ _ _ _ _ _ _ IMP)|]. apply flat_congr. rewrite map_map.
      apply Forall2_map_same. intros k IK. rewrite value_op by exact Logic.I. cbn [map].
      apply congr. rewrite (data_free_value [k] keys model DF).
      constructor; [apply rfl|]. constructor; [|constructor].
      unfold OptimizeSpec.value_on. cbn. apply symm, (flatten_one _ _ _ _ _ _ _ IMP).
  - discriminate.
Qed.

Lemma optimize_ok : forall n, translated n -> right_entries n ->
  forall v em, opt n = Some (v, em) -> view_ok n v /\ Forall (emitted_ok n) em.
Proof.
  induction n as [label o inputs index IH] using node_rect'. intros T RE v em O.
  cbn [optimize] in O.
  destruct (sequence (map opt inputs)) as [vs|] eqn:S; [|discriminate].
  apply sequence_map in S.
  destruct (visit _ _ _ _ _ _ _ _ _ _ _ _ label o (map fst vs)) as [[views e]|] eqn:V; [|discriminate].
  destruct (nth_error views index) as [w|] eqn:N; [|discriminate]. injection O as <- <-.
  assert (TI : forall n, In n inputs -> translated n).
  { inversion T; subst; intros n I.
    - destruct I.
    - destruct I as [<-|[<-|[]]]; [assumption | constructor].
    - destruct I as [<-|[]]; assumption.
    - auto. }
  assert (SUB : Forall2 (fun n r => view_ok n (fst r) /\ Forall (emitted_ok n) (snd r)) inputs vs).
  { eapply Forall2_impl; [|exact S]. cbn. intros n [v' em'] I _ E. apply (IH n I); auto.
    eapply right_entries_below; [|exact RE]. now apply occurs_input. }
  assert (F : Forall2 view_ok inputs (map fst vs)).
  { clear - SUB. induction SUB as [|n r ns rs [H _] F IH]; cbn; constructor; auto. }
  assert (EM : Forall (emitted_ok (Node label o inputs index)) (concat (map snd vs))).
  { apply Forall_forall. intros x X. apply in_concat in X. destruct X as (l & L & X).
    apply in_map_iff in L. destruct L as (r & <- & R).
    destruct (Forall2_in_r _ _ _ _ SUB R) as (n & IN & _ & E). rewrite Forall_forall in E.
    eapply emitted_up; [apply occurs_input; exact IN | auto]. }
  assert (GOAL : view_ok (Node label o inputs index) w /\ Forall (emitted_ok (Node label o inputs index)) e).
  2:{ destruct GOAL. split; [assumption|]. now apply Forall_app. }
  clear EM SUB IH S. set (vws := map fst vs) in *. clearbody vws.
  unfold visit in V. destruct (validate _ _ _ o); [|discriminate].
  assert (NIL : forall n' : node B C K, e = [] -> Forall (emitted_ok n') e) by (intros ? ->; constructor).
  inversion T as [l|l p m il TM CP DF|l ks inp TN|l b ins i TN IX PB CC ONE]; subst.
  - (* Input *)
    inversion F; subst.
    assert (visit_other num_outputs label (Input None) [] = Some (views, e)) as V'.
    { destruct cache; cbn in V; exact V. }
    cbn in V'. injection V' as <- <-. cbn in N. injection N as <-. split; [|constructor].
    apply view_none. apply rfl.
  - (* Apply *)
    destruct p as [|p].
    + destruct (visit_apply_ok label m il vws views e w (DF eq_refl) F V N) as [VO ->]. auto.
    + destruct cache as [cf|] eqn:CE; cbn [option_map] in V.
      * cbn [OptimizeModel.op_partitionable] in V.
        eapply visit_partitionable_ok; eauto; [|congruence..].
        split; [discriminate|].
        inversion F as [|a vm b l' VM F' E1 E2]; subst. inversion F' as [|a' vi b' l'' VI F'' E3 E4]; subst.
        cbn. destruct (truthy (fine vm)); [|reflexivity]. cbn.
        destruct (fine vi) as [f|] eqn:FI; [|reflexivity].
        destruct (ok_fine _ _ VI f FI) as (_ & h & _ & HH). inversion HH; discriminate.
      * destruct (visit_other_ok label (Apply (S p)) _ 0 vws views e w I F) as [VO ->]; auto.
        congruence.
  - (* Extract *)
    destruct cache as [cf|] eqn:CE; cbn [option_map] in V.
    + cbn [OptimizeModel.op_partitionable] in V.
      eapply visit_partitionable_ok; eauto; try congruence; reflexivity.
    + destruct (visit_other_ok label (Extract ks) _ 0 vws views e w I F) as [VO ->]; auto.
  - (* Op *)
    destruct cache as [cf|] eqn:CE; cbn [option_map] in V.
    + cbn [OptimizeModel.op_partitionable] in V. destruct (partitionable b) eqn:P.
      * destruct (PB eq_refl) as [NE NO].
        assert (index = 0) by lia. subst index.
        eapply visit_partitionable_ok; [split; assumption | reflexivity | congruence | exact RE | exact F | rewrite CE; exact V | exact N].
      * destruct (visit_other_ok label (Op b) _ index vws views e w I F) as [VO ->]; auto.
    + destruct (visit_other_ok label (Op b) _ index vws views e w I F) as [VO ->]; auto.
Qed.
End OneRun.
End Proofs.
