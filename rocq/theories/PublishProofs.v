(** * Proofs about written transform functions *)
From Coq Require Import String.
From Coq Require Import List Arith Bool Lia.
From Verif Require Import PublishModel PublishSpec.
Import ListNotations.
Local Notation length := List.length.

(** ** Paths *)
Lemma strip_some p : forall q r, strip p q = Some r <-> q = p ++ r.
Proof.
  induction p as [|x p IH]; intros q r; cbn [strip app]; [split; congruence|].
  destruct q as [|y q]; [split; discriminate|]. destruct (String.eqb_spec x y) as [->|NE].
  - rewrite IH. split; congruence.
  - split; congruence.
Qed.
Lemma strip_none p q : strip p q = None <-> ~ inside p q.
Proof.
  unfold inside. destruct (strip p q) as [r|] eqn:E.
  - apply strip_some in E. split; [discriminate|]. intros H. destruct H. now exists r.
  - split; [|auto]. intros _ (r & H). apply strip_some in H. congruence.
Qed.
Lemma strip_app p r : strip p (p ++ r) = Some r.
Proof. now apply strip_some. Qed.
Lemma strip_shift d p q : strip (d ++ p) (d ++ q) = strip p q.
Proof. induction d as [|x d IH]; [reflexivity|]. cbn. now rewrite String.eqb_refl. Qed.
Lemma within_inside p q : within p q = true <-> inside p q.
Proof.
  unfold within. destruct (strip p q) as [p0|] eqn:E.
  - apply strip_some in E. split; [now exists p0|reflexivity].
  - apply strip_none in E. split; [discriminate|tauto].
Qed.
Lemma within_false p q : within p q = false <-> ~ inside p q.
Proof. rewrite <- within_inside. destruct (within p q); split; congruence. Qed.
Lemma inside_refl p : inside p p.
Proof. exists []. now rewrite app_nil_r. Qed.
Lemma inside_trans p q r : inside p q -> inside q r -> inside p r.
Proof. intros (x & ->) (y & ->). exists (x ++ y). now rewrite app_assoc. Qed.
Lemma inside_app p r : inside p (p ++ r).
Proof. now exists r. Qed.
Lemma inside_parent p q x : inside p (q ++ [x]) -> inside p q \/ p = q ++ [x].
Proof.
  intros (r & E). destruct r as [|y r _] using rev_ind; [right; now rewrite app_nil_r in E|].
  left. rewrite app_assoc in E. apply app_inj_tail in E. destruct E as [-> _]. apply inside_app.
Qed.
Lemma in_ancestors q : forall p, In q (ancestors p) <-> inside q p.
Proof.
  intros p. revert q. induction p as [|x p IH]; intros q; cbn.
  - split; [intros [<-|[]]; apply inside_refl|]. intros (r & E). symmetry in E. apply app_eq_nil in E. left. now destruct E.
  - rewrite in_map_iff. split.
    + intros [<-|(q' & <- & I)]; [now exists (x :: p)|]. apply IH in I. destruct I as (r & ->). now exists r.
    + intros (r & E). destruct q as [|y q]; [now left|right]. cbn in E. injection E as <- ->. exists q. split; [reflexivity|]. apply IH. now exists r.
Qed.
Lemma parent_app q x : parent (q ++ [x]) = q.
Proof. apply removelast_last. Qed.
Lemma no_longer (q : path) x : q <> q ++ [x].
Proof. intros E. apply (f_equal (@length _)) in E. rewrite app_length in E. cbn in E. lia. Qed.
Lemma not_inside_parent q x : ~ inside (q ++ [x]) q.
Proof. intros (r & E). apply (f_equal (@length _)) in E. rewrite !app_length in E. cbn in E. lia. Qed.
Lemma siblings (d : path) x y r : inside (d ++ [x]) (d ++ y :: r) -> x = y.
Proof. intros (r' & E). rewrite <- app_assoc in E. apply app_inv_head in E. cbn in E. congruence. Qed.

Lemma strip_self p q : strip p q = Some [] <-> q = p.
Proof. rewrite strip_some, app_nil_r. reflexivity. Qed.

(** ** Well formed file systems *)
Lemma exists_some s p : exists_ s p = true <-> s p <> None.
Proof. unfold exists_. destruct (s p); split; congruence. Qed.
Lemma exists_none s p : exists_ s p = false <-> s p = None.
Proof. unfold exists_. destruct (s p); split; congruence. Qed.
Lemma is_dir_true e : is_dir e = true <-> e = Some Directory.
Proof. destruct e as [[|]|]; cbn; split; congruence. Qed.

Lemma wf_above s : well_formed s -> forall r p, s (p ++ r) <> None -> s p <> None.
Proof.
  intros W. induction r as [|x r IH] using rev_ind; intros p H; [now rewrite app_nil_r in H|].
  apply IH. rewrite app_assoc in H. apply W in H. congruence.
Qed.
Lemma wf_nothing s p : well_formed s -> s p = None -> forall r, s (p ++ r) = None.
Proof. intros W N r. destruct (s (p ++ r)) eqn:E; [|reflexivity]. assert (s p <> None) as H; [apply (wf_above s W r); congruence|contradiction]. Qed.

Lemma makedirs_files p s q : fail (MakeDirs p) s = None -> inside q p -> s q = None \/ s q = Some Directory.
Proof.
  cbn [fail]. destruct (existsb _ _) eqn:E; [discriminate|]. intros _ I. apply in_ancestors in I.
  destruct (s q) as [[|c]|] eqn:Q; auto. exfalso. assert (existsb (fun q => is_file (s q)) (ancestors p) = true); [|congruence].
  apply existsb_exists. exists q. now rewrite Q.
Qed.
Lemma makedirs_less p q s : fail (MakeDirs p) s = None -> inside q p -> fail (MakeDirs q) s = None.
Proof.
  intros F I. cbn [fail]. destruct (existsb _ _) eqn:E; [|reflexivity]. apply existsb_exists in E. destruct E as (r & IR & E).
  apply in_ancestors in IR. destruct (makedirs_files p s r F (inside_trans _ _ _ IR I)) as [H|H]; now rewrite H in E.
Qed.

Lemma wf_effect c s : well_formed s -> fail c s = None -> well_formed (effect c s).
Proof.
  intros W F q x H. destruct c as [p|p c|p c|p|a b]; cbn [effect] in *.
  - destruct (within (q ++ [x]) p) eqn:I.
    + apply within_inside in I. assert (inside q p) as IQ by (eapply inside_trans; [apply inside_app|exact I]).
      rewrite (proj2 (within_inside q p) IQ). destruct (makedirs_files p s q F IQ) as [E|E]; now rewrite E.
    + apply W in H. rewrite H. now destruct (within q p).
  - destruct (strip p q) as [[|y r]|] eqn:E.
    + apply strip_self in E. subst q. exfalso. cbn [fail] in F. destruct (is_dir (s (parent p))); [|discriminate].
      destruct (is_dir (s p)) eqn:D; [discriminate|]. rewrite strip_app in H. apply W in H. rewrite H in D. discriminate.
    + destruct (strip p (q ++ [x])) as [[|z t]|] eqn:E'; try now apply W in H.
      apply strip_self in E'. apply strip_some in E. subst q. exfalso. apply (f_equal (@length _)) in E'. rewrite !app_length in E'. cbn in E'. lia.
    + destruct (strip p (q ++ [x])) as [[|z t]|] eqn:E'; try now apply W in H.
      apply strip_self in E'. subst p. cbn [fail] in F. rewrite parent_app in F. destruct (is_dir (s q)) eqn:D; [|discriminate]. now apply is_dir_true.
  - destruct (strip p q) as [[|y r]|] eqn:E.
    + apply strip_self in E. subst q. exfalso. cbn [fail] in F. destruct (is_dir (s (parent p))); [|discriminate].
      destruct (exists_ s p) eqn:D; [discriminate|]. rewrite strip_app in H. apply W in H. apply exists_none in D. congruence.
    + destruct (strip p (q ++ [x])) as [[|z t]|] eqn:E'; try now apply W in H.
      apply strip_self in E'. apply strip_some in E. subst q. exfalso. apply (f_equal (@length _)) in E'. rewrite !app_length in E'. cbn in E'. lia.
    + destruct (strip p (q ++ [x])) as [[|z t]|] eqn:E'; try now apply W in H.
      apply strip_self in E'. subst p. cbn [fail] in F. rewrite parent_app in F. destruct (is_dir (s q)) eqn:D; [|discriminate]. now apply is_dir_true.
  - destruct (within p (q ++ [x])) eqn:I; [congruence|]. apply within_false in I. assert (within p q = false) as ->; [|now apply W in H].
    apply within_false. intros J. apply I. eapply inside_trans; [exact J|apply inside_app].
  - cbn [fail] in F. destruct (exists_ s a && is_dir (s (parent b))) eqn:E; [|discriminate]. apply andb_true_iff in E. destruct E as [EA ED].
    destruct (exists_ s b || within a b) eqn:E; [discriminate|]. apply orb_false_iff in E. destruct E as [EB EI].
    apply within_false in EI. apply is_dir_true in ED.
    destruct (strip b (q ++ [x])) as [rest|] eqn:S1.
    + apply strip_some in S1. destruct rest as [|y rest _] using rev_ind.
      * rewrite app_nil_r in S1. subst b. rewrite parent_app in ED.
        assert (strip (q ++ [x]) q = None) as ->. { apply strip_none, not_inside_parent. }
        assert (within a q = false) as ->; [|exact ED]. apply within_false. intros I. apply EI. eapply inside_trans; [exact I|apply inside_app].
      * rewrite app_assoc in S1. apply app_inj_tail in S1. destruct S1 as [-> _]. rewrite strip_app. rewrite app_assoc in H. now apply W in H.
    + apply strip_none in S1. assert (strip b q = None) as ->.
      { apply strip_none. intros I. apply S1. eapply inside_trans; [exact I|apply inside_app]. }
      destruct (within a (q ++ [x])) eqn:I; [congruence|]. apply within_false in I. assert (within a q = false) as ->; [|now apply W in H].
      apply within_false. intros J. apply I. eapply inside_trans; [exact J|apply inside_app].
Qed.

Lemma wf_within c s s' : well_formed s -> fail c s = None -> within_operation c s s' -> well_formed s'.
Proof.
  intros W F H. destruct c as [p|p c|p c|p|a b]; cbn [within_operation] in H.
  - destruct H as (q & I & ->). apply within_inside in I. apply wf_effect; [exact W|]. now apply (makedirs_less p).
  - destruct H as (c' & ->). now apply wf_effect.
  - destruct H as (c' & ->). now apply wf_effect.
  - intros q x N. destruct (H q) as [_ K]. rewrite (K x N). destruct (H (q ++ [x])) as [[E|[_ E]] _]; [|congruence].
    apply (W q x). congruence.
  - now subst.
Qed.
Lemma wf_dies cs s s' : well_formed s -> dies cs s s' -> well_formed s'.
Proof. intros W D. induction D; auto; [eapply wf_within; eauto|]. apply IHD. now apply wf_effect. Qed.
Lemma wf_run cs : forall s, well_formed s -> well_formed (fst (run cs s)).
Proof.
  induction cs as [|[g c] cs IH]; intros s W; cbn; [exact W|].
  destruct (holds g s); [|auto]. destruct (fail c s) eqn:F; [exact W|]. apply IH. now apply wf_effect.
Qed.
Lemma wf_history root s0 s : well_formed s0 -> history root s0 s -> well_formed s.
Proof.
  intros W H. induction H; auto; try (eapply wf_dies; eassumption).
  replace s' with (fst (run (publish root um ut) s)) by now rewrite H0. now apply wf_run.
Qed.

(** ** Commands that are not refused *)
Fixpoint play (cs : list (guard * command)) (s : fs) : fs :=
  match cs with
  | [] => s
  | (g, c) :: cs => play cs (if holds g s then effect c s else s)
  end.
Lemma run_play cs : forall s s', run cs s = (s', None) -> s' = play cs s.
Proof.
  induction cs as [|[g c] cs IH]; intros s s' H; cbn in *; [congruence|].
  destruct (holds g s); [|auto]. destruct (fail c s); [discriminate|auto].
Qed.
Definition same (s s' : fs) : Prop := forall q, s q = s' q.
Lemma holds_same g s s' : same s s' -> holds g s = holds g s'.
Proof. intros E. destruct g; cbn; unfold exists_; now rewrite ?E. Qed.
Lemma effect_same c s s' : same s s' -> same (effect c s) (effect c s').
Proof.
  intros E q. destruct c; cbn [effect]; rewrite ?E; try reflexivity.
  destruct (strip q0 q); [apply E|reflexivity].
Qed.
Lemma play_same cs : forall s s', same s s' -> same (play cs s) (play cs s').
Proof.
  induction cs as [|[g c] cs IH]; intros s s' E; cbn; [exact E|]. apply IH. rewrite (holds_same g s s' E).
  destruct (holds g s'); [now apply effect_same|exact E].
Qed.
Lemma play_app a b s : play (a ++ b) s = play b (play a s).
Proof. revert s. induction a as [|[g c] a IH]; intros s; cbn; auto. Qed.

(** ** Commands in a directory *)
Definition shift_guard (d : path) (g : guard) : guard :=
  match g with Always => Always | IfExists p => IfExists (d ++ p) | IfAbsent p => IfAbsent (d ++ p) end.
Definition shift (d : path) (gc : guard * command) : guard * command :=
  (shift_guard d (fst gc),
   match snd gc with
   | MakeDirs p => MakeDirs (d ++ p) | WriteFile p c => WriteFile (d ++ p) c | CopyFile p c => CopyFile (d ++ p) c
   | RemoveTree p => RemoveTree (d ++ p) | Rename p q => Rename (d ++ p) (d ++ q) end).
Definition view (d : path) (s : fs) : fs := fun r => s (d ++ r).
Lemma holds_view d g s : holds (shift_guard d g) s = holds g (view d s).
Proof. now destruct g. Qed.
Lemma effect_view d gc s : same (view d (effect (snd (shift d gc)) s)) (effect (snd gc) (view d s)).
Proof.
  intros r. unfold view. destruct gc as [g [p|p c|p c|p|a b]]; cbn [shift snd effect]; unfold within; rewrite ?strip_shift; try reflexivity.
  destruct (strip b r); [now rewrite app_assoc|reflexivity].
Qed.

Lemma effect_outside d gc s q : works_in d gc -> ~ inside d q -> ~ inside q d -> effect (snd gc) s q = s q.
Proof.
  intros H N M. destruct gc as [g c]. destruct H as [[_ H]|(c' & E)].
  - destruct c as [p|p c|p c|p|a b]; cbn [snd effect] in *; try contradiction.
    + destruct H as (r & ->). assert (within q (d ++ r) = false) as ->; [|reflexivity]. apply within_false. intros (r' & E).
      assert (inside d q \/ inside q d) as [?|?]; [|tauto|tauto].
      clear - E. revert q r r' E. induction d as [|x d IH]; intros q r r' E; [left; now exists q|].
      destruct q as [|y q]; [right; now exists (x :: d)|]. cbn in E. injection E as <- E. destruct (IH q r r' E) as [(t & ->)|(t & ->)].
      * left. now exists t.
      * right. now exists t.
    + destruct H as (x & r & ->). destruct (strip (d ++ x :: r) q) as [[|]|] eqn:E; try reflexivity. apply strip_self in E. subst q. destruct N. now eexists.
    + destruct H as (x & r & ->). destruct (strip (d ++ x :: r) q) as [[|]|] eqn:E; try reflexivity. apply strip_self in E. subst q. destruct N. now eexists.
  - injection E as -> ->. cbn [snd effect]. destruct (strip d q) as [[|]|] eqn:E; try reflexivity. apply strip_self in E. subst q. destruct N. apply inside_refl.
Qed.

Lemma temporary_not_inside root u u' r : u <> u' -> ~ inside (temporary root u) (temporary root u' ++ r) /\ ~ inside (temporary root u' ++ r) (temporary root u).
Proof.
  intros N. unfold temporary. split.
  - intros (t & E). rewrite <- !app_assoc in E. apply app_inv_head in E. cbn in E. congruence.
  - intros (t & E). rewrite <- !app_assoc in E. apply app_inv_head in E. cbn in E. congruence.
Qed.
Lemma elsewhere_temporary root q u : elsewhere root q -> ~ inside (temporary root u) q /\ ~ inside q (temporary root u).
Proof.
  intros (_ & _ & B & R). split.
  - intros (r & ->). apply B. exists (u :: r). unfold temporary. now rewrite <- !app_assoc.
  - intros I. unfold temporary in I. change [temp_dir; u] with ([temp_dir] ++ [u]) in I.
    change ["transform_tmp"%string; u] with (["transform_tmp"%string] ++ [u]) in I. rewrite app_assoc in I.
    apply inside_parent in I. destruct I as [I|I]; [|subst q; apply B, inside_app].
    apply inside_parent in I. destruct I as [I|I]; [tauto|]. subst q. apply B, inside_refl.
Qed.

Lemma map_cons_inv {A B} (f : A -> B) l y ys : map f l = y :: ys -> exists x xs, l = x :: xs /\ y = f x /\ ys = map f xs.
Proof. destruct l; [discriminate|]. intros [= <- <-]. eauto. Qed.

Lemma mixed_run root um ut : um <> ut -> forall l1 l2 l,
  mixed (fun gc => exists u, u <> um /\ u <> ut /\ works_in (temporary root u) gc) l1 l2 l ->
  Forall (works_in (temporary root um)) l1 -> Forall (works_in (temporary root ut)) l2 ->
  forall k1 k2, l1 = map (shift (temporary root um)) k1 -> l2 = map (shift (temporary root ut)) k2 -> forall s,
  same (view (temporary root um) (play l s)) (play k1 (view (temporary root um) s)) /\
  same (view (temporary root ut) (play l s)) (play k2 (view (temporary root ut) s)) /\
  (forall q, elsewhere root q -> play l s q = s q).
Proof.
  intros NU. induction 1 as [|x l1 l2 l H IH|x l1 l2 l H IH|x l1 l2 l O H IH]; intros F1 F2 k1 k2 E1 E2 s.
  - symmetry in E1, E2. apply map_eq_nil in E1, E2. subst. cbn. now repeat split.
  - symmetry in E1. apply map_cons_inv in E1. destruct E1 as (y & k & -> & -> & ->). inversion F1 as [|? ? WY F1']; subst.
    destruct (IH F1' F2 k k2 eq_refl eq_refl (if holds (fst (shift (temporary root um) y)) s then effect (snd (shift (temporary root um) y)) s else s)) as (A & B & C).
    destruct y as [g c]. cbn [play]. unfold shift in *. cbn [fst snd] in *. split; [|split].
    + intros q. etransitivity; [apply A|]. apply play_same. rewrite holds_view. destruct (holds g _); [|easy].
      apply (effect_view _ (g, c)).
    + intros q. etransitivity; [apply B|]. apply play_same. intros r. unfold view. destruct (holds _ _); [|reflexivity].
      destruct (temporary_not_inside root um ut r NU) as [N1 N2]. exact (effect_outside _ _ _ _ WY N1 N2).
    + intros q EQ. etransitivity; [now apply C|]. destruct (holds _ _); [|reflexivity].
      destruct (elsewhere_temporary root q um EQ) as [N1 N2]. exact (effect_outside _ _ _ _ WY N1 N2).
  - symmetry in E2. apply map_cons_inv in E2. destruct E2 as (y & k & -> & -> & ->). inversion F2 as [|? ? WY F2']; subst.
    destruct (IH F1 F2' k1 k eq_refl eq_refl (if holds (fst (shift (temporary root ut) y)) s then effect (snd (shift (temporary root ut) y)) s else s)) as (A & B & C).
    destruct y as [g c]. cbn [play]. unfold shift in *. cbn [fst snd] in *. split; [|split].
    + intros q. etransitivity; [apply A|]. apply play_same. intros r. unfold view. destruct (holds _ _); [|reflexivity].
      destruct (temporary_not_inside root ut um r (not_eq_sym NU)) as [N1 N2]. exact (effect_outside _ _ _ _ WY N1 N2).
    + intros q. etransitivity; [apply B|]. apply play_same. rewrite holds_view. destruct (holds g _); [|easy].
      apply (effect_view _ (g, c)).
    + intros q EQ. etransitivity; [now apply C|]. destruct (holds _ _); [|reflexivity].
      destruct (elsewhere_temporary root q ut EQ) as [N1 N2]. exact (effect_outside _ _ _ _ WY N1 N2).
  - destruct O as (u & U1 & U2 & WU).
    destruct (IH F1 F2 k1 k2 E1 E2 (if holds (fst x) s then effect (snd x) s else s)) as (A & B & C). destruct x as [g c]. cbn [play fst snd] in *.
    split; [|split].
    + intros q. etransitivity; [apply A|]. apply play_same. intros r. unfold view. destruct (holds _ _); [|reflexivity].
      destruct (temporary_not_inside root u um r U1) as [N1 N2]. exact (effect_outside _ _ _ _ WU N1 N2).
    + intros q. etransitivity; [apply B|]. apply play_same. intros r. unfold view. destruct (holds _ _); [|reflexivity].
      destruct (temporary_not_inside root u ut r U2) as [N1 N2]. exact (effect_outside _ _ _ _ WU N1 N2).
    + intros q EQ. etransitivity; [now apply C|]. destruct (holds _ _); [|reflexivity].
      destruct (elsewhere_temporary root q u EQ) as [N1 N2]. exact (effect_outside _ _ _ _ WU N1 N2).
Qed.

(** ** The metadata *)
Definition nothing : fs := fun _ => None.
Lemma write_shift sch am d : write_metadata_output sch am d = map (shift d) (write_metadata_output sch am []).
Proof. unfold write_metadata_output, write_metadata, shift. destruct am; cbn; now rewrite app_nil_r. Qed.
Lemma write_works sch am d : Forall (works_in d) (write_metadata_output sch am d).
Proof.
  unfold write_metadata_output, write_metadata. apply Forall_app. split; [|destruct am; repeat constructor; cbn; eauto].
  repeat constructor; cbn; eauto; exists []; now rewrite app_nil_r.
Qed.
Lemma write_result sch am r e : play (write_metadata_output sch am []) nothing r = Some e <-> metadata sch am r e.
Proof.
  unfold write_metadata_output, write_metadata, asset_map_file, nothing.
  split.
  - destruct am as [text|]; cbn [app play holds exists_ negb effect strip within fst snd]; unfold within.
    + destruct r as [|x [|y r]]; cbn [strip].
      * intros [= <-]. apply metadata_directory.
      * destruct (String.eqb_spec "asset_map" x) as [<-|N1]; [intros [= <-]; now apply metadata_assets|].
        destruct (String.eqb_spec "schema.pbtxt" x) as [<-|N2]; [intros [= <-]; apply metadata_schema|discriminate].
      * destruct (String.eqb _ x); destruct (String.eqb _ x); discriminate.
    + destruct r as [|x [|y r]]; cbn [strip].
      * intros [= <-]. apply metadata_directory.
      * destruct (String.eqb_spec "schema.pbtxt" x) as [<-|N2]; [intros [= <-]; apply metadata_schema|discriminate].
      * destruct (String.eqb _ x); discriminate.
  - intros H. destruct H as [| |text ->]; [destruct am; reflexivity|destruct am; reflexivity|reflexivity].
Qed.

(** ** The transform function *)
Section TreeInd.
  Variable Q : tree -> Prop.
  Hypothesis leaf : forall c, Q (Leaf c).
  Hypothesis node : forall ts, Forall (fun nt => Q (snd nt)) ts -> Q (Node ts).
  Fixpoint tree_induction (t : tree) : Q t :=
    match t with
    | Leaf c => leaf c
    | Node ts => node ts ((fix go ts : Forall (fun nt => Q (snd nt)) ts :=
        match ts with [] => Forall_nil _ | nt :: ts => Forall_cons nt (tree_induction (snd nt)) (go ts) end) ts)
    end.
End TreeInd.

Lemma copy_shift d t : forall name p, copy_tree name t (d ++ p) = map (shift d) (copy_tree name t p).
Proof.
  induction t as [c|ts IH] using tree_induction; intros name p; cbn; [reflexivity|].
  destruct (String.eqb name metadata_dir_name); [reflexivity|]. cbn. f_equal.
  induction IH as [|[n t] ts H F IH']; [reflexivity|]. cbn in *. rewrite map_app, IH'. f_equal. rewrite <- H. now rewrite app_assoc.
Qed.
Lemma copy_shift_nil d t name : copy_tree name t d = map (shift d) (copy_tree name t []).
Proof. rewrite <- copy_shift. now rewrite app_nil_r. Qed.
Lemma copy_makes d t : forall name x r, Forall (makes_in d) (copy_tree name t (d ++ x :: r)).
Proof.
  induction t as [c|ts IH] using tree_induction; intros name x r; cbn; [repeat constructor; cbn; eauto|].
  destruct (String.eqb name metadata_dir_name); [constructor|]. constructor; [split; cbn; eauto|].
  induction IH as [|[n t] ts H F IH']; cbn; [constructor|]. apply Forall_app. split; [|exact IH'].
  rewrite <- app_assoc. cbn. apply H.
Qed.
Lemma copy_works d t name : Forall (works_in d) (copy_tree name t d).
Proof.
  destruct t as [c|ts]; cbn; [constructor; [right; eauto|constructor]|].
  destruct (String.eqb name metadata_dir_name); [constructor|]. constructor.
  - left. split; cbn; [easy|]. exists []. now rewrite app_nil_r.
  - induction ts as [|[n t] ts IH]; cbn; [constructor|]. apply Forall_app. split; [|exact IH].
    eapply Forall_impl; [|apply (copy_makes d t n n [])]. intros gc H. now left.
Qed.

Fixpoint child (n : string) (ts : list (string * tree)) : option tree :=
  match ts with [] => None | (m, t) :: ts => if String.eqb m n then Some t else child n ts end.
Definition skip (n : string) (t : tree) : bool :=
  match t with Leaf _ => false | Node _ => String.eqb n metadata_dir_name end.
Fixpoint copy_at (t : tree) (r : path) : option entry :=
  match r with
  | [] => Some (match t with Leaf c => File c | Node _ => Directory end)
  | n :: r => match t with
      | Leaf _ => None
      | Node ts => match child n ts with Some t' => if skip n t' then None else copy_at t' r | None => None end
      end
  end.
Lemma skip_true n t : skip n t = true <-> skipped n t.
Proof.
  unfold skip, skipped, metadata_dir_name. destruct t as [c|ts]; [split; [discriminate|]; intros [_ (ts & E)]; discriminate|].
  rewrite String.eqb_eq. split; [|tauto]. intros ->. split; eauto.
Qed.
Lemma child_in n t ts : NoDup (map fst ts) -> (child n ts = Some t <-> In (n, t) ts).
Proof.
  induction ts as [|[m t'] ts IH]; cbn; intros ND; [split; [discriminate|tauto]|]. inversion ND; subst.
  destruct (String.eqb_spec m n) as [->|N].
  - split; [intros [= ->]; now left|]. intros [[= ->]|I]; [reflexivity|]. destruct H1. now apply (in_map fst) in I.
  - rewrite IH by assumption. split; [now right|]. intros [[= -> ->]|I]; [congruence|exact I].
Qed.
Lemma copied_at t r : distinct t -> forall e, copy_at t r = Some e <-> copied t r e.
Proof.
  revert t. induction r as [|n r IH]; intros t D e; cbn.
  - split.
    + intros [= <-]. destruct t; constructor.
    + intros H. now inversion H.
  - destruct t as [c|ts]; [split; [discriminate|intros H; inversion H]|].
    inversion D as [|? ND F]; subst. destruct (child n ts) as [t|] eqn:C.
    + apply (child_in n t ts ND) in C. destruct (skip n t) eqn:SK.
      * apply skip_true in SK. split; [discriminate|]. intros H. inversion H as [| |? ? t0 ? ? I0 N0 C0]; subst.
        assert (t0 = t) as ->; [|tauto]. apply (child_in n _ ts ND) in C. apply (child_in n _ ts ND) in I0. congruence.
      * rewrite IH by (rewrite Forall_forall in F; exact (F _ C)). split.
        -- intros H. econstructor; eauto. intros S1. apply skip_true in S1. congruence.
        -- intros H. inversion H as [| |? ? t0 ? ? I0 N0 C0]; subst. assert (t0 = t) as <-; [|assumption].
           apply (child_in n _ ts ND) in C. apply (child_in n _ ts ND) in I0. congruence.
    + split; [discriminate|]. intros H. inversion H as [| |? ? t0 ? ? I0 N0 C0]; subst. apply (child_in n _ ts ND) in I0. congruence.
Qed.

Lemma effect_makedirs_only p v q : (forall q, inside q p -> q <> p -> v q <> None) -> v p = None ->
  effect (MakeDirs p) v q = match strip p q with Some [] => Some Directory | _ => v q end.
Proof.
  intros A N. cbn [effect]. destruct (strip p q) as [[|x r]|] eqn:E.
  - apply strip_self in E. subst q. rewrite (proj2 (within_inside p p) (inside_refl p)). now rewrite N.
  - apply strip_some in E. subst q. assert (within (p ++ x :: r) p = false) as ->; [|reflexivity].
    apply within_false. intros (t & E). apply (f_equal (@length _)) in E. rewrite !app_length in E. cbn in E. lia.
  - apply strip_none in E. destruct (within q p) eqn:W; [|reflexivity]. apply within_inside in W.
    assert (q <> p) as NE by (intros ->; apply E, inside_refl). specialize (A q W NE). now destruct (v q).
Qed.

Lemma play_copy t : forall name p v, distinct t -> skip name t = false -> (forall r, v (p ++ r) = None) ->
  (forall q, inside q p -> q <> p -> v q <> None) ->
  forall q, play (copy_tree name t p) v q = match strip p q with Some r => copy_at t r | None => v q end.
Proof.
  induction t as [c|ts IH] using tree_induction; intros name p v D SK N A q.
  - cbn [copy_tree play holds effect]. destruct (strip p q) as [[|x r]|] eqn:E; try reflexivity. apply strip_some in E. subst q. apply N.
  - cbn [copy_tree]. cbn [skip] in SK. rewrite SK. cbn [play holds]. inversion D as [|? ND F]; subst. clear D.
    assert (G : forall w, (forall q, inside q p -> w q <> None) -> (forall n r, In n (map fst ts) -> w (p ++ n :: r) = None) ->
      forall q, play (flat_map (fun nt => copy_tree (fst nt) (snd nt) (p ++ [fst nt])) ts) w q =
        match strip p q with
        | Some (n :: r) => match child n ts with Some t => if skip n t then w q else copy_at t r | None => w q end
        | _ => w q end).
    { clear - IH ND F. revert ND F. induction IH as [|[n t] ts H FH IH]; intros ND F w A N q.
      - cbn. now destruct (strip p q) as [[|]|].
      - cbn [flat_map fst snd map] in *. rewrite play_app. inversion ND as [|? ? NI ND']; subst. inversion F as [|? ? DT F']; subst. cbn [snd] in *.
        assert (HT : forall q, play (copy_tree n t (p ++ [n])) w q =
                     match strip (p ++ [n]) q with Some r => if skip n t then w q else copy_at t r | None => w q end).
        { intros q'. destruct (skip n t) eqn:SK.
          - destruct t as [c|ts']; [discriminate|]. cbn [copy_tree]. cbn [skip] in SK. rewrite SK. cbn. now destruct (strip _ q').
          - apply H; [exact DT|exact SK| |].
            + intros r. rewrite <- app_assoc. apply N. now left.
            + intros q'' I NE. apply A. apply inside_parent in I. tauto. }
        set (w' := play (copy_tree n t (p ++ [n])) w) in *.
        rewrite (IH ND' F' w').
        + destruct (strip p q) as [[|m r]|] eqn:E.
          * apply strip_self in E. subst q. rewrite HT. assert (strip (p ++ [n]) p = None) as ->; [|reflexivity]. apply strip_none, not_inside_parent.
          * apply strip_some in E. subst q. cbn [child]. rewrite !HT. destruct (String.eqb_spec n m) as [->|NM].
            -- assert (child m ts = None) as ->.
               { destruct (child m ts) eqn:C; [|reflexivity]. apply child_in in C; [|exact ND']. destruct NI. now apply (in_map fst) in C. }
               replace (p ++ m :: r) with ((p ++ [m]) ++ r) by now rewrite <- app_assoc. now rewrite strip_app.
            -- assert (strip (p ++ [n]) (p ++ m :: r) = None) as ->; [|reflexivity]. apply strip_none. intros I. now apply siblings in I.
          * rewrite HT. apply strip_none in E. assert (strip (p ++ [n]) q = None) as ->; [|reflexivity].
            apply strip_none. intros I. apply E. eapply inside_trans; [apply inside_app|exact I].
        + intros q' I. rewrite HT. assert (strip (p ++ [n]) q' = None) as ->; [|now apply A].
          apply strip_none. intros J. exact (not_inside_parent p n (inside_trans _ _ _ J I)).
        + intros m r I. rewrite HT. assert (strip (p ++ [n]) (p ++ m :: r) = None) as ->; [|apply N; now right].
          apply strip_none. intros J. apply siblings in J. subst m. contradiction. }
    assert (V : forall q, effect (MakeDirs p) v q = match strip p q with Some [] => Some Directory | _ => v q end).
    { intros q'. apply effect_makedirs_only; [exact A|]. specialize (N []). now rewrite app_nil_r in N. }
    rewrite G.
    + destruct (strip p q) as [[|n r]|] eqn:E; rewrite !V, E; [reflexivity| |reflexivity].
      cbn [copy_at]. apply strip_some in E. subst q. rewrite N. now destruct (child n ts) as [t|].
    + intros q' I. rewrite V. destruct (strip p q') as [[|x r]|] eqn:E; [discriminate| |].
      * apply strip_some in E. subst q'. destruct I as (t & E). apply (f_equal (@length _)) in E. rewrite !app_length in E. cbn in E. lia.
      * apply A; [exact I|]. intros ->. apply strip_none in E. apply E, inside_refl.
    + intros n r _. rewrite V, strip_app. apply N.
Qed.

Lemma copy_result t name : distinct t -> ~ skipped name t -> forall r e, play (copy_tree name t []) nothing r = Some e <-> copied t r e.
Proof.
  intros D SK r e. rewrite <- (copied_at t r D). rewrite play_copy; auto.
  - reflexivity.
  - destruct (skip name t) eqn:E; [|reflexivity]. now apply skip_true in E.
  - intros q (x & E) NE. symmetry in E. apply app_eq_nil in E. tauto.
Qed.
