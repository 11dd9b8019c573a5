(** * Proofs about written transform functions: publishing *)
From Coq Require Import String.
From Coq Require Import List Arith Bool Lia.
From Verif Require Import PublishModel PublishSpec PublishProofs.
Import ListNotations.
Local Notation length := List.length.

Lemma comparable (a : path) : forall b x y, a ++ x = b ++ y -> inside a b \/ inside b a.
Proof.
  induction a as [|h a IH]; intros b x y E; [left; now exists b|].
  destruct b as [|k b]; [right; now exists (h :: a)|]. cbn in E. injection E as <- E.
  destruct (IH b x y E) as [(t & ->)|(t & ->)]; [left|right]; now exists t.
Qed.
Lemma apart a b r : ~ inside a b -> ~ inside b a -> ~ inside a (b ++ r).
Proof. intros N M (t & E). symmetry in E. apply comparable in E. tauto. Qed.

Lemma run_cons g c cs s : run ((g, c) :: cs) s =
  if holds g s then match fail c s with Some e => (s, Some e) | None => run cs (effect c s) end else run cs s.
Proof. reflexivity. Qed.

(** ** Replacing a directory *)
Lemma replace s D T cs : s (parent D) = Some Directory -> ~ inside D (parent D) -> s T <> None -> ~ inside D T -> ~ inside T D ->
  exists s', run ((IfExists D, RemoveTree D) :: (Always, Rename T D) :: cs) s = run cs s' /\
    forall q, s' q = match strip D q with Some r => s (T ++ r) | None => if within T q then None else s q end.
Proof.
  intros PD NP ST N1 N2.
  set (s1 := if holds (IfExists D) s then effect (RemoveTree D) s else s).
  assert (S1 : forall q, ~ inside D q -> s1 q = s q).
  { intros q N. unfold s1. cbn [holds effect]. destruct (exists_ s D); [|reflexivity].
    apply within_false in N. now rewrite N. }
  assert (SD : s1 D = None).
  { unfold s1. cbn [holds effect]. destruct (exists_ s D) eqn:E; [|now apply exists_none].
    now rewrite (proj2 (within_inside D D) (inside_refl D)). }
  exists (effect (Rename T D) s1). split.
  - rewrite run_cons. cbn [holds fail]. replace (if exists_ s D then _ else _) with (run ((Always, Rename T D) :: cs) s1).
    + rewrite run_cons. cbn [holds fail].
      assert (exists_ s1 T = true) as ->. { apply exists_some. now rewrite S1. }
      rewrite (S1 _ NP), PD. cbn [is_dir andb]. rewrite (proj2 (exists_none s1 D) SD). cbn [orb].
      rewrite (proj2 (within_false T D) N2). reflexivity.
    + unfold s1. cbn [holds]. now destruct (exists_ s D).
  - intros q. cbn [effect]. destruct (strip D q) as [r|] eqn:E.
    + apply S1. now apply apart.
    + apply strip_none in E. now rewrite S1.
Qed.

Section Root.
Variable root : path.
Notation M := (output_metadata root).
Notation F := (output_transform_fn root).
Notation B := (root ++ ["transform_tmp"%string]).

Lemma temp_temporary u : temp root u = temporary root u.
Proof. unfold temp, base, temporary. now rewrite <- app_assoc. Qed.
Lemma children_apart x y : x <> y -> ~ inside (root ++ [x]) (root ++ [y]).
Proof. intros N I. apply (siblings root x y []) in I. contradiction. Qed.
Lemma child_temporary x u : x <> "transform_tmp"%string -> ~ inside (root ++ [x]) (temporary root u) /\ ~ inside (temporary root u) (root ++ [x]).
Proof.
  intros N. unfold temporary. split.
  - intros I. now apply siblings in I.
  - intros (r & E). rewrite <- app_assoc in E. apply app_inv_head in E. cbn in E. congruence.
Qed.
Lemma in_base u r : temporary root u ++ r = B ++ u :: r.
Proof. unfold temporary. now rewrite <- !app_assoc. Qed.
Lemma under_root s x : well_formed s -> s (root ++ x) <> None -> x <> [] -> s root = Some Directory.
Proof.
  intros W. induction x as [|y x IH] using rev_ind; intros H N; [contradiction|].
  rewrite app_assoc in H. apply W in H. destruct x as [|z x]; [now rewrite app_nil_r in H|]. apply IH; congruence.
Qed.

Lemma publish_ok s um ut : well_formed s -> um <> ut -> s (temporary root um) <> None -> s (temporary root ut) <> None ->
  exists s2, run (publish root um ut) s = (s2, None) /\
    (forall r, s2 (M ++ r) = s (temporary root um ++ r)) /\ (forall r, s2 (F ++ r) = s (temporary root ut ++ r)) /\
    (forall r, s2 (B ++ r) = None) /\
    (forall q, ~ inside M q -> ~ inside F q -> ~ inside B q -> s2 q = s q).
Proof.
  intros W NU HM HT. unfold publish. rewrite !temp_temporary.
  assert (RD : s root = Some Directory) by (apply (under_root s ["transform_tmp"%string; um] W); [exact HM|discriminate]).
  rewrite run_cons. cbn [holds]. assert (exists_ s root = true) as -> by (apply exists_some; congruence). cbn [negb].
  destruct (child_temporary metadata_dir um) as [A1 A2]; [discriminate|].
  destruct (child_temporary transform_fn_dir ut) as [C1 C2]; [discriminate|].
  destruct (child_temporary metadata_dir ut) as [D1 D2]; [discriminate|].
  destruct (child_temporary transform_fn_dir um) as [G1 G2]; [discriminate|].
  edestruct (replace s (root ++ [metadata_dir]) (temporary root um)) as (s1 & E1 & S1); auto.
  { now rewrite parent_app. } { rewrite parent_app. apply not_inside_parent. }
  rewrite E1. clear E1.
  assert (R1 : s1 root = Some Directory).
  { rewrite S1. assert (strip (root ++ [metadata_dir]) root = None) as -> by apply strip_none, not_inside_parent.
    assert (within (temporary root um) root = false) as ->; [|exact RD]. apply within_false. unfold temporary.
    intros (r & E). apply (f_equal (@length _)) in E. rewrite !app_length in E. cbn in E. lia. }
  assert (T1 : forall r, s1 (temporary root ut ++ r) = s (temporary root ut ++ r)).
  { intros r. rewrite S1. destruct (temporary_not_inside root um ut r NU) as [H1 H2].
    assert (strip (root ++ [metadata_dir]) (temporary root ut ++ r) = None) as ->. { apply strip_none. now apply apart. }
    now rewrite (proj2 (within_false _ _) H1). }
  edestruct (replace s1 (root ++ [transform_fn_dir]) (temporary root ut)) as (s2 & E2 & S2); auto.
  { now rewrite parent_app. } { rewrite parent_app. apply not_inside_parent. }
  { specialize (T1 []). rewrite app_nil_r in T1. congruence. }
  rewrite E2. clear E2. rewrite run_cons. cbn [holds fail effect run]. change (base root) with B.
  assert (MB : forall r, ~ inside B (M ++ r)).
  { intros r I. unfold output_metadata in I. rewrite <- app_assoc in I. apply siblings in I. discriminate. }
  assert (FB : forall r, ~ inside B (F ++ r)).
  { intros r I. unfold output_transform_fn in I. rewrite <- app_assoc in I. apply siblings in I. discriminate. }
  assert (MF : forall r, ~ inside (root ++ [transform_fn_dir]) (M ++ r)).
  { intros r I. unfold output_metadata in I. rewrite <- app_assoc in I. apply siblings in I. discriminate. }
  assert (BF : forall r, ~ inside (root ++ [transform_fn_dir]) (B ++ r)).
  { intros r I. rewrite <- app_assoc in I. apply siblings in I. discriminate. }
  assert (VM : forall r, s2 (M ++ r) = s (temporary root um ++ r)).
  { intros r. rewrite S2. rewrite (proj2 (strip_none _ _) (MF r)).
    assert (within (temporary root ut) (M ++ r) = false) as ->.
    { apply within_false. intros I. apply (MB r). eapply inside_trans; [|exact I]. unfold temporary. exists [ut]. now rewrite <- app_assoc. }
    rewrite S1. change M with (root ++ [metadata_dir]). now rewrite strip_app. }
  assert (VF : forall r, s2 (F ++ r) = s (temporary root ut ++ r)).
  { intros r. rewrite S2. change F with (root ++ [transform_fn_dir]). rewrite strip_app. apply T1. }
  assert (VQ : forall q, ~ inside M q -> ~ inside F q -> ~ inside B q -> s2 q = s q).
  { intros q N1 N2 N3. rewrite S2, S1. rewrite (proj2 (strip_none (root ++ [transform_fn_dir]) q) N2), (proj2 (strip_none (root ++ [metadata_dir]) q) N1).
    assert (forall u, within (temporary root u) q = false) as X.
    { intros u. apply within_false. intros I. apply N3. eapply inside_trans; [|exact I]. exists [u]. unfold temporary. now rewrite <- app_assoc. }
    now rewrite !X. }
  destruct (exists_ s2 B) eqn:EB.
  - eexists. split; [reflexivity|]. split; [|split; [|split]].
    + intros r. rewrite (proj2 (within_false _ _) (MB r)). apply VM.
    + intros r. rewrite (proj2 (within_false _ _) (FB r)). apply VF.
    + intros r. now rewrite (proj2 (within_inside _ _) (inside_app B r)).
    + intros q N1 N2 N3. rewrite (proj2 (within_false _ _) N3). now apply VQ.
  - exists s2. split; [reflexivity|]. split; [exact VM|]. split; [exact VF|]. split; [|exact VQ].
    apply exists_none in EB. intros r. rewrite S2. rewrite (proj2 (strip_none _ _) (BF r)).
    destruct (within (temporary root ut) (B ++ r)); [reflexivity|]. rewrite S1.
    assert (strip (root ++ [metadata_dir]) (B ++ r) = None) as ->. { apply strip_none. intros I. rewrite <- app_assoc in I. apply siblings in I. discriminate. }
    destruct (within (temporary root um) (B ++ r)); [reflexivity|]. apply wf_nothing; [exact W|].
    rewrite S2 in EB. specialize (BF []). rewrite app_nil_r in BF. rewrite (proj2 (strip_none _ _) BF) in EB.
    assert (forall u, within (temporary root u) B = false) as X.
    { intros u. apply within_false. unfold temporary. intros (x & E). apply (f_equal (@length _)) in E. rewrite !app_length in E. cbn in E. lia. }
    rewrite X, S1, X in EB. assert (strip (root ++ [metadata_dir]) B = None) as E. { apply strip_none. apply children_apart. discriminate. }
    now rewrite E in EB.
Qed.

(** ** Elsewhere *)
Lemma works_elsewhere d gc s s' q : works_in d gc -> within_operation (snd gc) s s' -> ~ inside d q -> ~ inside q d -> s' q = s q.
Proof.
  intros H O N1 N2. destruct gc as [g c]. destruct H as [[HG H]|(c' & E)].
  - destruct c as [p|p c|p c|p|a b]; cbn [snd within_operation] in *; try contradiction.
    + destruct O as (p' & I & ->). apply within_inside in I. destruct H as (r & ->). cbn [effect].
      assert (within q p' = false) as ->; [|reflexivity]. apply within_false. intros J.
      destruct (inside_trans _ _ _ J I) as (x & E). symmetry in E. apply comparable in E. tauto.
    + destruct O as (c' & ->). destruct H as (x & r & ->). cbn [effect]. destruct (strip _ q) as [[|]|] eqn:E; try reflexivity.
      apply strip_self in E. subst q. destruct N1. apply inside_app.
    + destruct O as (c' & ->). destruct H as (x & r & ->). cbn [effect]. destruct (strip _ q) as [[|]|] eqn:E; try reflexivity.
      apply strip_self in E. subst q. destruct N1. apply inside_app.
  - injection E as -> ->. cbn [snd within_operation] in O. destruct O as (c & ->). cbn [effect]. destruct (strip _ q) as [[|]|] eqn:E; try reflexivity.
    apply strip_self in E. subst q. destruct N1. apply inside_refl.
Qed.
Lemma dies_elsewhere cs s s' : dies cs s s' -> Forall (fun gc => exists u, works_in (temporary root u) gc) cs ->
  forall q, elsewhere root q -> s' q = s q.
Proof.
  intros D. induction D as [|g c cs s s' G NF O|g c cs s s' G NF D IH|g c cs s s' G D IH]; intros FA q EQ; [reflexivity| | |].
  - inversion FA as [|? ? (u & W) _]; subst. destruct (elsewhere_temporary root q u EQ) as [N1 N2]. exact (works_elsewhere _ _ _ _ _ W O N1 N2).
  - inversion FA as [|? ? (u & W) FA']; subst. rewrite (IH FA' q EQ).
    destruct (elsewhere_temporary root q u EQ) as [N1 N2]. exact (effect_outside _ _ _ _ W N1 N2).
  - inversion FA; subst. now apply IH.
Qed.

Definition publishes (c : command) : Prop :=
  c = MakeDirs root \/ (exists x, In x [metadata_dir; transform_fn_dir; temp_dir] /\ c = RemoveTree (root ++ [x])) \/
  (exists x u, In x [metadata_dir; transform_fn_dir] /\ c = Rename (temporary root u) (root ++ [x])).
Lemma publish_publishes um ut : Forall (fun gc => publishes (snd gc)) (publish root um ut).
Proof.
  unfold publish. rewrite !temp_temporary. unfold publishes.
  repeat match goal with |- Forall _ (_ :: _) => apply Forall_cons; cbn [snd] end.
  - now left.
  - right. left. eexists. split; [|reflexivity]. cbn. tauto.
  - right. right. eexists. exists um. split; [|reflexivity]. cbn. tauto.
  - right. left. eexists. split; [|reflexivity]. cbn. tauto.
  - right. right. eexists. exists ut. split; [|reflexivity]. cbn. tauto.
  - right. left. eexists. split; [|reflexivity]. cbn. tauto.
  - constructor.
Qed.
Lemma elsewhere_child q x : elsewhere root q -> In x [metadata_dir; transform_fn_dir; temp_dir] -> ~ inside (root ++ [x]) q.
Proof. intros (N1 & N2 & N3 & _) [<-|[<-|[<-|[]]]]; assumption. Qed.
Lemma publishes_effect c s q : publishes c -> elsewhere root q -> effect c s q = s q.
Proof.
  intros [->|[(x & I & ->)|(x & u & I & ->)]] EQ; cbn [effect].
  - assert (within q root = false) as ->; [|reflexivity]. apply within_false. apply EQ.
  - now rewrite (proj2 (within_false _ _) (elsewhere_child q x EQ I)).
  - assert (In x [metadata_dir; transform_fn_dir; temp_dir]) as J by (destruct I as [<-|[<-|[]]]; cbn; tauto).
    rewrite (proj2 (strip_none _ _) (elsewhere_child q x EQ J)).
    destruct (elsewhere_temporary root q u EQ) as [N1 _]. now rewrite (proj2 (within_false _ _) N1).
Qed.
Lemma publishes_within c s s' q : publishes c -> within_operation c s s' -> elsewhere root q -> s' q = s q.
Proof.
  intros [->|[(x & I & ->)|(x & u & I & ->)]] O EQ; cbn [within_operation] in O.
  - destruct O as (p & I & ->). cbn [effect]. apply within_inside in I. assert (within q p = false) as ->; [|reflexivity].
    apply within_false. intros J. destruct EQ as (_ & _ & _ & N). apply N. eapply inside_trans; eassumption.
  - destruct (O q) as [[E|[E _]] _]; [exact E|]. apply within_inside in E. now apply elsewhere_child in E.
  - now subst.
Qed.
Lemma publish_dies_elsewhere cs s s' : dies cs s s' -> Forall (fun gc => publishes (snd gc)) cs -> forall q, elsewhere root q -> s' q = s q.
Proof.
  intros D. induction D as [|g c cs s s' G NF O|g c cs s s' G NF D IH|g c cs s s' G D IH]; intros FA q EQ; [reflexivity| | |].
  - inversion FA; subst. eapply publishes_within; eauto.
  - inversion FA; subst. rewrite IH by assumption. now apply publishes_effect.
  - inversion FA; subst. now apply IH.
Qed.
Lemma publish_run_elsewhere cs : forall s, Forall (fun gc => publishes (snd gc)) cs -> forall q, elsewhere root q -> fst (run cs s) q = s q.
Proof.
  induction cs as [|[g c] cs IH]; intros s FA q EQ; [reflexivity|]. inversion FA; subst. rewrite run_cons.
  destruct (holds g s); [|now apply IH]. destruct (fail c s); [reflexivity|]. rewrite IH by assumption. now apply publishes_effect.
Qed.
Lemma history_elsewhere s0 s : history root s0 s -> forall q, elsewhere root q -> s q = s0 q.
Proof.
  induction 1 as [|s cs s' H IH FA D|s um ut s' H IH D|s um ut s' e H IH R]; intros q EQ; [reflexivity| | |].
  - rewrite (dies_elsewhere cs s s' D FA q EQ). now apply IH.
  - rewrite (publish_dies_elsewhere _ s s' D (publish_publishes um ut) q EQ). now apply IH.
  - replace s' with (fst (run (publish root um ut) s)) by now rewrite R.
    rewrite publish_run_elsewhere by (apply publish_publishes || assumption). now apply IH.
Qed.

(** ** The whole *)
Lemma inside_dir s q x r : well_formed s -> s (root ++ x :: r) <> None -> inside q root -> s q = Some Directory.
Proof.
  intros W N (y & ->). clear - W N. rewrite <- app_assoc in N. revert N.
  assert (exists z z', y ++ x :: r = z :: z') as (z & z' & ->) by (destruct y; cbn; eauto).
  induction z' as [|w z' IH] using rev_ind; intros N; [exact (W q z N)|].
  apply IH. change (z :: z' ++ [w]) with ((z :: z') ++ [w]) in N. rewrite app_assoc in N. apply W in N. congruence.
Qed.

Theorem write_and_read s0 s um ut schema am name t cs s1 :
  well_formed s0 -> history root s0 s -> um <> ut -> unused s root um -> unused s root ut -> distinct t -> ~ skipped name t ->
  work root um ut schema am name t cs -> run cs s = (s1, None) ->
  exists s2, run (publish root um ut) s1 = (s2, None) /\ published root schema am t s2 /\
    read_transform_fn s2 root = Some (output_transform_fn root, (false, schema)) /\
    (forall q, inside q root -> s2 q = Some Directory) /\ (forall q, elsewhere root q -> s2 q = s0 q).
Proof.
  intros W0 H NU UM UT D SK WK R. pose proof (wf_history root s0 s W0 H) as W.
  destruct (mixed_run root um ut NU _ _ _ WK (write_works _ _ _) (copy_works _ _ _) _ _ (write_shift _ _ _) (copy_shift_nil _ _ _) s) as (A & B' & C).
  apply run_play in R as E. rewrite <- E in *. 
  assert (VM : forall r e, s1 (temporary root um ++ r) = Some e <-> metadata schema am r e).
  { intros r e. rewrite <- write_result. rewrite <- (play_same _ (view (temporary root um) s) nothing (UM) r). rewrite <- (A r). reflexivity. }
  assert (VT : forall r e, s1 (temporary root ut ++ r) = Some e <-> copied t r e).
  { intros r e. rewrite <- (copy_result t name D SK). rewrite <- (play_same _ (view (temporary root ut) s) nothing (UT) r). rewrite <- (B' r). reflexivity. }
  assert (W1 : well_formed s1). { replace s1 with (fst (run cs s)) by now rewrite R. now apply wf_run. }
  assert (HM : s1 (temporary root um) <> None).
  { pose proof (proj2 (VM [] Directory) (metadata_directory _ _)) as X. rewrite app_nil_r in X. congruence. }
  assert (HT : s1 (temporary root ut) <> None).
  { destruct t as [c|ts].
    - pose proof (proj2 (VT [] (File c)) (copied_file c)) as X. rewrite app_nil_r in X. congruence.
    - pose proof (proj2 (VT [] Directory) (copied_directory ts)) as X. rewrite app_nil_r in X. congruence. }
  destruct (publish_ok s1 um ut W1 NU HM HT) as (s2 & R2 & PM & PF & PB & PQ). exists s2. split; [exact R2|].
  assert (PUB : published root schema am t s2).
  { split; [|split].
    - intros r e. rewrite PM. apply VM.
    - intros r e. rewrite PF. apply VT.
    - intros r. specialize (PB r). now rewrite <- app_assoc in PB. }
  split; [exact PUB|]. split.
  { unfold read_transform_fn, read_metadata. change (root ++ [metadata_dir]) with M.
    now rewrite (proj2 (proj1 PUB _ _) (metadata_schema _ _)). }
  split.
  - intros q I. assert (W2 : well_formed s2). { replace s2 with (fst (run (publish root um ut) s1)) by now rewrite R2. now apply wf_run. }
    apply (inside_dir s2 q metadata_dir [] W2); [|exact I].
    pose proof (proj2 (proj1 PUB [] Directory) (metadata_directory _ _)) as X. rewrite app_nil_r in X. unfold output_metadata in X. unfold metadata_dir. rewrite X. discriminate.
  - intros q EQ. rewrite PQ; try apply EQ. rewrite C by assumption. now apply (history_elsewhere s0).
Qed.

(** ** Dying while publishing *)
Lemma dies_cons g c cs s s' : dies ((g, c) :: cs) s s' ->
  s' = s \/ (holds g s = true /\ fail c s = None /\ (within_operation c s s' \/ dies cs (effect c s) s')) \/ (holds g s = false /\ dies cs s s').
Proof. intros D. inversion D; subst; auto 6. Qed.
Lemma dies_nil s s' : dies [] s s' -> s' = s.
Proof. intros D. now inversion D. Qed.

(** Removing and making directories leaves less. *)
Lemma removed D s s' r : within_operation (RemoveTree D) s s' \/ s' = effect (RemoveTree D) s \/ s' = s ->
  forall d, s' (d ++ r) = s (d ++ r) \/ s' (d ++ r) = None.
Proof.
  intros H d. destruct H as [H|[->| ->]].
  - destruct (H (d ++ r)) as [[E|[_ E]] _]; auto.
  - cbn [effect]. destruct (within D (d ++ r)); auto.
  - now left.
Qed.
Lemma removed_apart D s s' q : within_operation (RemoveTree D) s s' \/ s' = effect (RemoveTree D) s \/ s' = s -> ~ inside D q -> s' q = s q.
Proof.
  intros H N. destruct H as [H|[->| ->]].
  - destruct (H q) as [[E|[E _]] _]; [exact E|]. apply within_inside in E. contradiction.
  - cbn [effect]. now rewrite (proj2 (within_false _ _) N).
  - reflexivity.
Qed.

Definition stage1 um ut s s' : Prop := old_or_less M s s' /\ moved F F s s' /\ moved (temporary root um) (temporary root um) s s' /\ moved (temporary root ut) (temporary root ut) s s'.
Definition stage2 um ut s s' : Prop := moved (temporary root um) M s s' /\ old_or_less F s s' /\ s' (temporary root um) = None /\ moved (temporary root ut) (temporary root ut) s s'.
Definition stage3 um ut s s' : Prop := moved (temporary root um) M s s' /\ moved (temporary root ut) F s s' /\ s' (temporary root um) = None.

Lemma publish_stages um ut s s' : um <> ut -> well_formed s -> dies (publish root um ut) s s' ->
  stage1 um ut s s' \/ stage2 um ut s s' \/ stage3 um ut s s'.
Proof.
  intros NU W D. unfold publish in D. rewrite !temp_temporary in D.
  assert (NF : forall x r, ~ inside (root ++ x :: r) root).
  { intros x r (t & E). apply (f_equal (@length _)) in E. rewrite !app_length in E. cbn in E. lia. }
  assert (XY : forall x y r, x <> y -> ~ inside (root ++ [x]) ((root ++ [y]) ++ r)).
  { intros x y r N I. rewrite <- app_assoc in I. now apply siblings in I. }
  assert (XT : forall x u r, x <> "transform_tmp"%string -> ~ inside (root ++ [x]) (temporary root u ++ r)).
  { intros x u r N I. unfold temporary in I. rewrite <- app_assoc in I. now apply siblings in I. }
  assert (TX : forall x u r, x <> "transform_tmp"%string -> ~ inside (temporary root u) ((root ++ [x]) ++ r)).
  { intros x u r N (t & E). unfold temporary in E. rewrite <- !app_assoc in E. apply app_inv_head in E. cbn in E. congruence. }
  assert (MD : metadata_dir <> "transform_tmp"%string) by discriminate. assert (FD : transform_fn_dir <> "transform_tmp"%string) by discriminate.
  assert (MF : metadata_dir <> transform_fn_dir) by discriminate.
  (* the root *)
  assert (P0 : forall p, inside p root -> forall x r, effect (MakeDirs p) s (root ++ x :: r) = s (root ++ x :: r)).
  { intros p I x r. cbn [effect]. assert (within (root ++ x :: r) p = false) as ->; [|reflexivity].
    apply within_false. intros J. exact (NF x r (inside_trans _ _ _ J I)). }
  assert (ST0 : forall s', (forall x r, s' (root ++ x :: r) = s (root ++ x :: r)) -> stage1 um ut s s').
  { intros s'' H. split; [|split; [|split]]; intros r; unfold output_metadata, output_transform_fn, temporary; rewrite <- ?app_assoc; cbn [app]; rewrite H; auto. }
  assert (exists s0, (forall x r, s0 (root ++ x :: r) = s (root ++ x :: r)) /\ (stage1 um ut s s' \/ 
     dies [(IfExists (root ++ [metadata_dir]), RemoveTree (root ++ [metadata_dir]));
           (Always, Rename (temporary root um) (root ++ [metadata_dir]));
           (IfExists (root ++ [transform_fn_dir]), RemoveTree (root ++ [transform_fn_dir]));
           (Always, Rename (temporary root ut) (root ++ [transform_fn_dir]));
           (IfExists (base root), RemoveTree (base root))] s0 s')) as (s0 & S0 & D0).
  { apply dies_cons in D. destruct D as [->|[(G & NFA & [O|D])|(G & D)]].
    - exists s. split; [reflexivity|left]. now apply ST0.
    - exists s. split; [reflexivity|left]. apply ST0. destruct O as (p & I & ->). apply within_inside in I. now apply P0.
    - exists (effect (MakeDirs root) s). split; [apply P0, inside_refl|now right].
    - exists s. split; [reflexivity|now right]. }
  clear D. destruct D0 as [ST|D]; [now left|].
  (* the old metadata *)
  assert (exists s1, (within_operation (RemoveTree (root ++ [metadata_dir])) s0 s1 \/ s1 = effect (RemoveTree (root ++ [metadata_dir])) s0 \/ s1 = s0) /\
     (s' = s1 \/ dies [(Always, Rename (temporary root um) (root ++ [metadata_dir]));
           (IfExists (root ++ [transform_fn_dir]), RemoveTree (root ++ [transform_fn_dir]));
           (Always, Rename (temporary root ut) (root ++ [transform_fn_dir]));
           (IfExists (base root), RemoveTree (base root))] s1 s')) as (s1 & S1 & D1).
  { apply dies_cons in D. destruct D as [->|[(G & NFA & [O|D])|(G & D)]].
    - exists s0. auto. - exists s'. auto. - eexists. split; [|right; exact D]. auto. - exists s0. auto. }
  clear D.
  assert (ST1 : stage1 um ut s s1).
  { split; [|split; [|split]]; intros r.
    - pose proof (removed _ _ _ r S1 M) as H. unfold output_metadata in *. rewrite <- app_assoc in *. cbn [app] in *. now rewrite S0 in H.
    - rewrite (removed_apart _ _ _ _ S1); [|now apply XY]. unfold output_transform_fn. rewrite <- app_assoc. apply S0.
    - rewrite (removed_apart _ _ _ _ S1); [|now apply XT]. unfold temporary. rewrite <- app_assoc. apply S0.
    - rewrite (removed_apart _ _ _ _ S1); [|now apply XT]. unfold temporary. rewrite <- app_assoc. apply S0. }
  destruct D1 as [->|D]; [now left|]. apply dies_cons in D. destruct D as [->|[(_ & NFA & [O|D])|(G & _)]]; [now left|cbn in O; subst; now left| |discriminate].
  (* the metadata *)
  set (s2 := effect (Rename (temporary root um) (root ++ [metadata_dir])) s1) in *. clear NFA.
  assert (V2 : forall q, s2 q = match strip (root ++ [metadata_dir]) q with Some r => s1 (temporary root um ++ r) | None => if within (temporary root um) q then None else s1 q end) by reflexivity.
  destruct ST1 as (_ & KF & KM & KT).
  assert (M2 : forall r, s2 (M ++ r) = s (temporary root um ++ r)).
  { intros r. rewrite V2. unfold output_metadata. change ["transformed_metadata"%string] with [metadata_dir]. rewrite strip_app. apply KM. }
  assert (F2 : forall r, s2 (F ++ r) = s (F ++ r)).
  { intros r. rewrite V2. change F with (root ++ [transform_fn_dir]). rewrite (proj2 (strip_none _ _) (XY metadata_dir transform_fn_dir r MF)).
    rewrite (proj2 (within_false _ _) (TX transform_fn_dir um r FD)). apply KF. }
  assert (T2 : forall r, s2 (temporary root ut ++ r) = s (temporary root ut ++ r)).
  { intros r. rewrite V2. rewrite (proj2 (strip_none _ _) (XT metadata_dir ut r MD)).
    rewrite (proj2 (within_false _ _) (proj1 (temporary_not_inside root um ut r NU))). apply KT. }
  assert (N2 : s2 (temporary root um) = None).
  { rewrite V2. pose proof (XT metadata_dir um [] MD) as X. rewrite app_nil_r in X. rewrite (proj2 (strip_none _ _) X).
    now rewrite (proj2 (within_inside _ _) (inside_refl _)). }
  clearbody s2. clear V2 KF KM KT S1 S0 s1 s0.
  assert (exists s3, (within_operation (RemoveTree (root ++ [transform_fn_dir])) s2 s3 \/ s3 = effect (RemoveTree (root ++ [transform_fn_dir])) s2 \/ s3 = s2) /\
     (s' = s3 \/ dies [(Always, Rename (temporary root ut) (root ++ [transform_fn_dir]));
           (IfExists (base root), RemoveTree (base root))] s3 s')) as (s3 & S3 & D3).
  { apply dies_cons in D. destruct D as [->|[(G & NFA & [O|D])|(G & D)]].
    - exists s2. auto. - exists s'. auto. - eexists. split; [|right; exact D]. auto. - exists s2. auto. }
  clear D.
  assert (ST3 : stage2 um ut s s3).
  { split; [|split; [|split]]; try intros r.
    - rewrite (removed_apart _ _ _ _ S3); [apply M2|]. apply XY. discriminate.
    - pose proof (removed _ _ _ r S3 F) as H. now rewrite F2 in H.
    - rewrite (removed_apart _ _ _ _ S3); [exact N2|]. pose proof (XT transform_fn_dir um [] FD) as X. now rewrite app_nil_r in X.
    - rewrite (removed_apart _ _ _ _ S3); [apply T2|]. now apply XT. }
  destruct D3 as [->|D]; [auto|]. apply dies_cons in D. destruct D as [->|[(_ & NFA & [O|D])|(G & _)]]; [auto|cbn in O; subst; auto| |discriminate].
  (* the transform function *)
  clear NFA. right. right.
  set (s4 := effect (Rename (temporary root ut) (root ++ [transform_fn_dir])) s3) in *.
  assert (V4 : forall q, s4 q = match strip (root ++ [transform_fn_dir]) q with Some r => s3 (temporary root ut ++ r) | None => if within (temporary root ut) q then None else s3 q end) by reflexivity.
  destruct ST3 as (K1 & _ & K3 & K4).
  assert (M4 : forall r, s4 (M ++ r) = s (temporary root um ++ r)).
  { intros r. rewrite V4. change M with (root ++ [metadata_dir]). rewrite (proj2 (strip_none _ _) (XY transform_fn_dir metadata_dir r (not_eq_sym MF))).
    rewrite (proj2 (within_false _ _) (TX metadata_dir ut r MD)). apply K1. }
  assert (F4 : forall r, s4 (F ++ r) = s (temporary root ut ++ r)).
  { intros r. rewrite V4. unfold output_transform_fn. change ["transform_fn"%string] with [transform_fn_dir]. rewrite strip_app. apply K4. }
  assert (N4 : s4 (temporary root um) = None).
  { rewrite V4. pose proof (XT transform_fn_dir um [] FD) as X. rewrite app_nil_r in X. rewrite (proj2 (strip_none _ _) X).
    now destruct (within _ _). }
  clearbody s4. clear V4.
  assert (within_operation (RemoveTree (base root)) s4 s' \/ s' = effect (RemoveTree (base root)) s4 \/ s' = s4) as S5.
  { apply dies_cons in D. destruct D as [->|[(G & NFA & [O|D])|(G & D)]]; auto; apply dies_nil in D; auto. }
  change (base root) with B in S5.
  split; [|split].
  - intros r. rewrite (removed_apart _ _ _ _ S5); [apply M4|]. apply XY. discriminate.
  - intros r. rewrite (removed_apart _ _ _ _ S5); [apply F4|]. apply XY. discriminate.
  - destruct (removed _ _ _ [] S5 (temporary root um)) as [H|H]; rewrite app_nil_r in H; congruence.
Qed.

(** ** Publishing again *)
Lemma publish_again um ut s s' : um <> ut -> well_formed s -> s (temporary root um) <> None -> s (temporary root ut) <> None ->
  dies (publish root um ut) s s' ->
  (s' (temporary root um) <> None -> exists s2, run (publish root um ut) s' = (s2, None) /\
     moved (temporary root um) M s s2 /\ moved (temporary root ut) F s s2 /\ forall r, s2 (B ++ r) = None) /\
  (s' (temporary root um) = None -> exists s2, run (publish root um ut) s' = (s2, Some NotFoundError) /\
     forall r, s2 (M ++ r) = None).
Proof.
  intros NU W HM HT D. pose proof (wf_dies _ _ _ W D) as W'.
  destruct (publish_stages um ut s s' NU W D) as [(_ & _ & K3 & K4)|ST].
  - assert (E1 : s' (temporary root um) = s (temporary root um)). { specialize (K3 []). now rewrite app_nil_r in K3. }
    assert (E2 : s' (temporary root ut) = s (temporary root ut)). { specialize (K4 []). now rewrite app_nil_r in K4. }
    split; [|congruence]. intros N. destruct (publish_ok s' um ut W' NU N) as (s2 & R & PM & PF & PB & _); [congruence|].
    exists s2. split; [exact R|]. split; [|split]; [| |exact PB]; intros r.
    + rewrite PM. apply K3.
    + rewrite PF. apply K4.
  - assert (KM : moved (temporary root um) M s s' /\ s' (temporary root um) = None) by (destruct ST as [(A & _ & C & _)|(A & _ & C)]; auto).
    destruct KM as [KM N]. split; [congruence|]. intros _.
    assert (SM : s' (root ++ [metadata_dir]) <> None).
    { specialize (KM []). rewrite !app_nil_r in KM. change (root ++ [metadata_dir]) with M. congruence. }
    assert (RD : s' root = Some Directory) by (apply (under_root s' [metadata_dir] W'); [exact SM|discriminate]).
    unfold publish. rewrite run_cons. cbn [holds]. assert (exists_ s' root = true) as -> by (apply exists_some; congruence). cbn [negb].
    rewrite run_cons. cbn [holds fail]. rewrite (proj2 (exists_some s' _) SM).
    rewrite run_cons. cbn [holds fail]. rewrite temp_temporary.
    assert (exists_ (effect (RemoveTree (root ++ [metadata_dir])) s') (temporary root um) = false) as ->.
    { apply exists_none. cbn [effect]. now destruct (within _ _). }
    cbn [andb]. eexists. split; [reflexivity|]. intros r. cbn [effect]. change M with (root ++ [metadata_dir]).
    now rewrite (proj2 (within_inside _ _) (inside_app _ r)).
Qed.
End Root.

(** ** The work is not refused *)
Lemma fail_same c s s' : same s s' -> fail c s = fail c s'.
Proof.
  intros E. destruct c; cbn [fail]; unfold exists_; rewrite ?E; try reflexivity.
  assert (existsb (fun q => is_file (s q)) (ancestors p) = existsb (fun q => is_file (s' q)) (ancestors p)) as ->; [|reflexivity].
  induction (ancestors p) as [|a l IH]; cbn [existsb]; [reflexivity|]. now rewrite IH, E.
Qed.
Lemma run_same cs : forall s s', same s s' -> snd (run cs s) = snd (run cs s').
Proof.
  induction cs as [|[g c] cs IH]; intros s s' E; [reflexivity|]. rewrite !run_cons, (holds_same g s s' E), (fail_same c s s' E).
  destruct (holds g s'); [|now apply IH]. destruct (fail c s'); [reflexivity|]. apply IH. now apply effect_same.
Qed.

Definition makes (gc : guard * command) : Prop :=
  match snd gc with MakeDirs _ => True | WriteFile p _ | CopyFile p _ => p <> [] | _ => False end.
Definition no_files_above (d : path) (s : fs) : Prop := forall q, inside q d -> q <> d -> s q = None \/ s q = Some Directory.

Lemma parent_shift d p : p <> [] -> parent (d ++ p) = d ++ parent p.
Proof. intros N. unfold parent. now apply removelast_app. Qed.
Lemma fail_view d gc s : makes gc -> no_files_above d s -> fail (snd gc) (view d s) = None -> fail (snd (shift d gc)) s = None.
Proof.
  intros K NF H. destruct gc as [g [p|p c|p c|p|a b]]; cbn [snd shift makes] in *; try contradiction.
  - cbn [fail]. destruct (existsb _ _) eqn:E; [exfalso|reflexivity]. apply existsb_exists in E. destruct E as (q & I & E).
    apply in_ancestors in I. pose proof I as (r & EQ). symmetry in EQ. apply comparable in EQ. destruct EQ as [Q|(y & Q)].
    + destruct (list_eq_dec string_dec q d) as [->|NE].
      * destruct (makedirs_files p (view d s) [] H) as [X|X]; [now exists p| |]; unfold view in X; rewrite app_nil_r in X; now rewrite X in E.
      * destruct (NF q Q NE) as [X|X]; now rewrite X in E.
    + subst q. assert (inside y p) as J. { destruct I as (t & I). rewrite <- app_assoc in I. apply app_inv_head in I. now exists t. }
      destruct (makedirs_files p (view d s) y H J) as [X|X]; unfold view in X; now rewrite X in E.
  - cbn [fail] in *. rewrite parent_shift by exact K. exact H.
  - cbn [fail] in *. rewrite parent_shift by exact K. exact H.
Qed.
Lemma shift_effect_files d gc s q : makes gc -> ~ inside d q -> s q = None \/ s q = Some Directory ->
  effect (snd (shift d gc)) s q = None \/ effect (snd (shift d gc)) s q = Some Directory.
Proof.
  intros K N H. destruct gc as [g [p|p c|p c|p|a b]]; cbn [snd shift makes] in *; try contradiction; cbn [effect].
  - destruct (within q (d ++ p)); [|exact H]. destruct H as [->| ->]; auto.
  - destruct (strip (d ++ p) q) as [[|]|] eqn:E; try exact H. apply strip_self in E. subst q. destruct N. apply inside_app.
  - destruct (strip (d ++ p) q) as [[|]|] eqn:E; try exact H. apply strip_self in E. subst q. destruct N. apply inside_app.
Qed.
Lemma above_apart (d q : path) : inside q d -> q <> d -> ~ inside d q.
Proof.
  intros (r & ->) NE (t & E). apply NE. rewrite <- app_assoc in E.
  destruct (r ++ t) eqn:X; [apply app_eq_nil in X; destruct X as [-> _]; now rewrite app_nil_r|].
  exfalso. apply (f_equal (@length _)) in E. rewrite app_length in E. cbn in E. lia.
Qed.

Lemma mixed_succeeds root um ut : um <> ut -> forall l1 l2 l, mixed (fun _ => False) l1 l2 l ->
  Forall (works_in (temporary root um)) l1 -> Forall (works_in (temporary root ut)) l2 ->
  forall k1 k2, l1 = map (shift (temporary root um)) k1 -> l2 = map (shift (temporary root ut)) k2 ->
  Forall makes k1 -> Forall makes k2 -> forall s, no_files_above (temporary root um) s -> no_files_above (temporary root ut) s ->
  snd (run k1 (view (temporary root um) s)) = None -> snd (run k2 (view (temporary root ut) s)) = None -> snd (run l s) = None.
Proof.
  intros NU.
  assert (AB : forall u u' q, u <> u' -> inside q (temporary root u) -> q <> temporary root u -> ~ inside (temporary root u') q).
  { intros u u' q N I NE J. apply (proj1 (temporary_not_inside root u' u [] (not_eq_sym N))). rewrite app_nil_r. eapply inside_trans; eassumption. }
  assert (STEP : forall u u' gc s, u <> u' -> makes gc -> no_files_above (temporary root u) s -> no_files_above (temporary root u') s ->
    no_files_above (temporary root u) (effect (snd (shift (temporary root u) gc)) s) /\
    no_files_above (temporary root u') (effect (snd (shift (temporary root u) gc)) s)).
  { intros u u' gc s N K A1 A2. split; intros q I NE.
    - apply shift_effect_files; [exact K|now apply above_apart|now apply A1].
    - apply shift_effect_files; [exact K| |now apply A2]. apply (AB u' u); auto. }
  induction 1 as [|x l1 l2 l H IH|x l1 l2 l H IH|x l1 l2 l O H IH]; intros F1 F2 k1 k2 E1 E2 G1 G2 s A1 A2 R1 R2; [reflexivity| | |contradiction].
  - symmetry in E1. apply map_cons_inv in E1. destruct E1 as (y & k & -> & -> & ->). inversion F1 as [|? ? WY F1']; subst. inversion G1 as [|? ? KY G1']; subst.
    destruct y as [g c]. change (shift (temporary root um) (g, c)) with (shift_guard (temporary root um) g, snd (shift (temporary root um) (g, c))).
    rewrite run_cons in *. rewrite holds_view. destruct (holds g _) eqn:HG.
    + destruct (fail c (view (temporary root um) s)) eqn:FC; [discriminate|].
      rewrite (fail_view _ (g, c) s KY A1 FC). destruct (STEP um ut (g, c) s NU KY A1 A2) as [B1 B2].
      apply (IH F1' F2 k k2); auto.
      * rewrite <- R1. apply run_same. apply (effect_view _ (g, c)).
      * rewrite <- R2. apply run_same. intros r. unfold view.
        destruct (temporary_not_inside root um ut r NU) as [N1 N2]. exact (effect_outside _ _ _ _ WY N1 N2).
    + now apply (IH F1' F2 k k2).
  - symmetry in E2. apply map_cons_inv in E2. destruct E2 as (y & k & -> & -> & ->). inversion F2 as [|? ? WY F2']; subst. inversion G2 as [|? ? KY G2']; subst.
    destruct y as [g c]. change (shift (temporary root ut) (g, c)) with (shift_guard (temporary root ut) g, snd (shift (temporary root ut) (g, c))).
    rewrite run_cons in *. rewrite holds_view. destruct (holds g _) eqn:HG.
    + destruct (fail c (view (temporary root ut) s)) eqn:FC; [discriminate|].
      rewrite (fail_view _ (g, c) s KY A2 FC). destruct (STEP ut um (g, c) s (not_eq_sym NU) KY A2 A1) as [B1 B2].
      apply (IH F1 F2' k1 k); auto.
      * rewrite <- R1. apply run_same. intros r. unfold view.
        destruct (temporary_not_inside root ut um r (not_eq_sym NU)) as [N1 N2]. exact (effect_outside _ _ _ _ WY N1 N2).
      * rewrite <- R2. apply run_same. apply (effect_view _ (g, c)).
    + now apply (IH F1 F2' k1 k).
Qed.

Lemma run_app a b s : snd (run a s) = None -> run (a ++ b) s = run b (fst (run a s)).
Proof.
  revert s. induction a as [|[g c] a IH]; intros s H; [reflexivity|]. cbn [app]. rewrite !run_cons in *.
  destruct (holds g s); [|now apply IH]. destruct (fail c s); [discriminate|now apply IH].
Qed.
Lemma run_fst cs s : snd (run cs s) = None -> fst (run cs s) = play cs s.
Proof. intros H. apply run_play. destruct (run cs s). cbn in *. now subst. Qed.

Lemma run_copy t : forall name p v, distinct t -> (forall r, v (p ++ r) = None) ->
  (forall q, inside q p -> q <> p -> v q = Some Directory) -> (forall c, t = Leaf c -> p <> []) ->
  snd (run (copy_tree name t p) v) = None.
Proof.
  induction t as [c|ts IH] using tree_induction; intros name p v D N A NL.
  - cbn [copy_tree]. rewrite run_cons. cbn [holds fail]. specialize (NL c eq_refl).
    destruct (exists_last NL) as (d & x & ->). rewrite parent_app. rewrite A; [|apply inside_app|apply no_longer].
    cbn [is_dir]. specialize (N []). rewrite app_nil_r in N. rewrite (proj2 (exists_none v _) N). reflexivity.
  - cbn [copy_tree]. destruct (String.eqb name metadata_dir_name); [reflexivity|]. rewrite run_cons. cbn [holds].
    assert (fail (MakeDirs p) v = None) as ->.
    { cbn [fail]. destruct (existsb _ _) eqn:E; [exfalso|reflexivity]. apply existsb_exists in E. destruct E as (q & I & E). apply in_ancestors in I.
      destruct (list_eq_dec string_dec q p) as [->|NE]; [specialize (N []); rewrite app_nil_r in N; now rewrite N in E|]. now rewrite A in E. }
    assert (V : forall q, effect (MakeDirs p) v q = match strip p q with Some [] => Some Directory | _ => v q end).
    { intros q'. apply effect_makedirs_only; [intros q I NE; now rewrite A|]. specialize (N []). now rewrite app_nil_r in N. }
    inversion D as [|? ND F]; subst.
    assert (A' : forall q, inside q p -> effect (MakeDirs p) v q = Some Directory).
    { intros q I. rewrite V. destruct (strip p q) as [[|x r]|] eqn:E; [reflexivity| |].
      - apply strip_some in E. subst q. destruct I as (t & E). apply (f_equal (@length _)) in E. rewrite !app_length in E. cbn in E. lia.
      - apply A; [exact I|]. intros ->. apply strip_none in E. apply E, inside_refl. }
    assert (N' : forall n r, In n (map fst ts) -> effect (MakeDirs p) v (p ++ n :: r) = None).
    { intros n r _. rewrite V, strip_app. apply N. }
    revert A' N'. generalize (effect (MakeDirs p) v) as w. clear V N A NL v D.
    revert ND F. induction IH as [|[n t] ts H FH IH]; intros ND F w A N; [reflexivity|].
    cbn [flat_map fst snd map] in *. inversion ND as [|? ? NI ND']; subst. inversion F as [|? ? DT F']; subst. cbn [snd] in *.
    assert (R : snd (run (copy_tree n t (p ++ [n])) w) = None).
    { apply H; auto.
      - intros r. rewrite <- app_assoc. apply N. now left.
      - intros q I NE. apply inside_parent in I. destruct I as [I|I]; [now apply A|contradiction].
      - intros _ _ E. now destruct p. }
    rewrite run_app by exact R. rewrite run_fst by exact R.
    assert (HT : forall q, ~ inside (p ++ [n]) q -> play (copy_tree n t (p ++ [n])) w q = w q).
    { intros q NQ. destruct (skip n t) eqn:SK.
      - destruct t as [c|ts']; [discriminate|]. cbn [copy_tree]. cbn [skip] in SK. now rewrite SK.
      - rewrite play_copy; auto.
        + now rewrite (proj2 (strip_none _ _) NQ).
        + intros r. rewrite <- app_assoc. apply N. now left.
        + intros q' I NE. apply inside_parent in I. destruct I as [I|I]; [|contradiction]. now rewrite A. }
    apply IH; auto.
    + intros q I. rewrite HT; [now apply A|]. intros J. exact (not_inside_parent p n (inside_trans _ _ _ J I)).
    + intros m r I. rewrite HT; [apply N; now right|]. intros J. apply siblings in J. subst m. contradiction.
Qed.

Lemma copy_kinds t : forall name p, p <> [] -> Forall makes (copy_tree name t p).
Proof.
  induction t as [c|ts IH] using tree_induction; intros name p N; cbn [copy_tree]; [repeat constructor; exact N|].
  destruct (String.eqb name metadata_dir_name); [constructor|]. constructor; [exact I|].
  induction IH as [|[n t] ts H F IH']; cbn; [constructor|]. apply Forall_app. split; [|exact IH']. apply H. now destruct p.
Qed.
Lemma copy_kinds_node ts name : Forall makes (copy_tree name (Node ts) []).
Proof.
  cbn [copy_tree]. destruct (String.eqb name metadata_dir_name); [constructor|]. constructor; [exact I|].
  induction ts as [|[n t] ts IH]; cbn; [constructor|]. apply Forall_app. split; [|exact IH]. apply copy_kinds. discriminate.
Qed.

Theorem work_succeeds root um ut schema am name ts cs s : um <> ut -> distinct (Node ts) ->
  unused s root um -> unused s root ut -> (forall q, inside q (root ++ [temp_dir]) -> s q = None \/ s q = Some Directory) ->
  undisturbed_work root um ut schema am name (Node ts) cs -> exists s1, run cs s = (s1, None).
Proof.
  intros NU D UM UT NF WK.
  assert (NA : forall u, no_files_above (temporary root u) s).
  { intros u q I NE. apply NF. unfold temporary in *. change ["transform_tmp"%string; u] with ([temp_dir] ++ [u]) in *. rewrite app_assoc in *.
    apply inside_parent in I. destruct I as [I|I]; [exact I|contradiction]. }
  assert (snd (run cs s) = None) as R.
  { eapply (mixed_succeeds root um ut NU _ _ _ WK (write_works _ _ _) (copy_works _ _ _) _ _ (write_shift _ _ _) (copy_shift_nil _ _ _)); auto.
    - unfold write_metadata_output, write_metadata. destruct am; repeat constructor; discriminate.
    - apply copy_kinds_node.
    - rewrite (run_same _ _ nothing UM). destruct am; reflexivity.
    - rewrite (run_same _ _ nothing UT). apply run_copy; auto; [|discriminate]. intros q (r & E) NE. symmetry in E. apply app_eq_nil in E. tauto. }
  exists (fst (run cs s)). destruct (run cs s). cbn in *. now subst.
Qed.
