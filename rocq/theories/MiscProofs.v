(** Proofs about MiscModel. *)
From Coq Require Import String Ascii List ZArith QArith Qround Bool Arith Lia Lqa.
From Verif Require Import CombineModel CombineProofs MiscModel MiscSpec.
Import ListNotations.
Open Scope Z_scope.
Local Notation length := List.length.

(** ** min_diff_from_avg *)

Lemma trunc_floor q : (0 <= q)%Q -> trunc q = Qfloor q.
Proof.
  destruct q as [n d]. unfold trunc, Qfloor, Qle. cbn. intros H. apply Z.quot_div_nonneg; lia.
Qed.
Lemma q_max_spec a b : (a <= q_max a b /\ b <= q_max a b /\ (q_max a b == a \/ q_max a b == b))%Q.
Proof.
  unfold q_max. destruct (Qle_bool a b) eqn:E.
  - apply Qle_bool_iff in E. repeat split; [exact E|apply Qle_refl|now right].
  - assert (~ a <= b)%Q by (rewrite <- Qle_bool_iff; congruence). repeat split; [apply Qle_refl|lra|now left].
Qed.
Lemma q_min_spec a b : (q_min a b <= a /\ q_min a b <= b /\ (q_min a b == a \/ q_min a b == b))%Q.
Proof.
  unfold q_min. destruct (Qle_bool a b) eqn:E.
  - apply Qle_bool_iff in E. repeat split; [apply Qle_refl|exact E|now left].
  - assert (~ a <= b)%Q by (rewrite <- Qle_bool_iff; congruence). repeat split; [lra|apply Qle_refl|now right].
Qed.

Definition slope (n : Z) : Q := ((inject_Z (n - 10000) / inject_Z (1000000 - 10000)) * inject_Z (25 - 2) + (2 # 1))%Q.
Lemma slope_mono n m : n <= m -> (slope n <= slope m)%Q.
Proof.
  intros H. unfold slope. apply Qplus_le_compat; [|apply Qle_refl]. apply Qmult_le_compat_r; [|vm_compute; discriminate].
  unfold Qdiv. apply Qmult_le_compat_r; [|vm_compute; discriminate]. rewrite <- Zle_Qle. lia.
Qed.
Definition clamped (n : Z) : Q := q_min (25 # 1) (q_max (2 # 1) (slope n)).
Lemma clamped_range n : (2 <= clamped n <= 25)%Q.
Proof.
  unfold clamped. pose proof (q_max_spec (2 # 1) (slope n)). pose proof (q_min_spec (25 # 1) (q_max (2 # 1) (slope n))).
  destruct H as (A & B & C), H0 as (D & E & F). split; [|lra]. destruct F as [F|F]; rewrite F; lra.
Qed.
Lemma clamped_mono n m : n <= m -> (clamped n <= clamped m)%Q.
Proof.
  intros H. apply slope_mono in H. unfold clamped.
  pose proof (q_max_spec (2 # 1) (slope n)). pose proof (q_max_spec (2 # 1) (slope m)).
  pose proof (q_min_spec (25 # 1) (q_max (2 # 1) (slope n))). pose proof (q_min_spec (25 # 1) (q_max (2 # 1) (slope m))).
  assert (q_max (2 # 1) (slope n) <= q_max (2 # 1) (slope m))%Q.
  { destruct H0 as (_ & _ & [E|E]); rewrite E; [|apply Qle_trans with (slope m); [exact H|]]; apply H1. }
  destruct H3 as (_ & _ & [E|E]); rewrite E; [apply H2|]. apply Qle_trans with (q_max (2 # 1) (slope n)); [apply H2|exact H4].
Qed.

Lemma recommended_eq n : recommended_min_diff_from_avg n = Qfloor (clamped n).
Proof. unfold recommended_min_diff_from_avg. apply trunc_floor. pose proof (clamped_range n). unfold clamped, slope in *. lra. Qed.

Lemma recommended_range n : 2 <= recommended_min_diff_from_avg n <= 25.
Proof.
  rewrite recommended_eq. pose proof (clamped_range n) as [A B]. apply Qfloor_resp_le in A, B.
  change (Qfloor 2) with 2 in A. change (Qfloor 25) with 25 in B. lia.
Qed.
Lemma recommended_mono n m : n <= m -> recommended_min_diff_from_avg n <= recommended_min_diff_from_avg m.
Proof. intros H. rewrite !recommended_eq. apply Qfloor_resp_le. now apply clamped_mono. Qed.

Lemma recommended_ends n :
  (n <= 10000 -> recommended_min_diff_from_avg n = 2) /\ (1000000 <= n -> recommended_min_diff_from_avg n = 25).
Proof.
  split; intros H.
  - apply recommended_mono in H. pose proof (recommended_range n). change (recommended_min_diff_from_avg 10000) with 2 in H. lia.
  - apply recommended_mono in H. pose proof (recommended_range n). change (recommended_min_diff_from_avg 1000000) with 25 in H. lia.
Qed.

(** ** Labelled weights *)

Lemma extend_nth l n i : nth i (extend l n) 0%Q = nth i l 0%Q.
Proof.
  unfold extend. destruct (Nat.lt_ge_cases i (length l)) as [H|H].
  - now rewrite app_nth1.
  - rewrite app_nth2 by lia. rewrite nth_overflow with (l := l) by lia. apply nth_repeat.
Qed.
Lemma extend_length l n : length (extend l n) = Nat.max (length l) n.
Proof. unfold extend. rewrite app_length, repeat_length. lia. Qed.
Lemma add_prefix_spec l acc : (length acc <= length l)%nat ->
  length (add_prefix l acc) = length l /\ forall i, (nth i (add_prefix l acc) 0 == nth i l 0 + nth i acc 0)%Q.
Proof.
  revert acc. induction l as [|x l IH]; intros [|a acc] H; cbn in *; try lia.
  - split; [reflexivity|]. intros [|i]; lra.
  - split; [reflexivity|]. intros [|i]; cbn; lra.
  - destruct (IH acc) as [HL HN]; [lia|]. split; [now rewrite HL|]. intros [|i]; cbn; [lra|apply HN].
Qed.

(** [a] represents the rows [l]. *)
Definition represents (l : list (Q * list Q)) (a : Q * list Q) : Prop :=
  (fst a == q_total (map fst l))%Q /\
  length (snd a) = fold_right Nat.max 0%nat (map (fun r => length (snd r)) l) /\
  forall i, (nth i (snd a) 0 == q_total (map (label_weight i) l))%Q.

Lemma q_total_app a b : (q_total (a ++ b) == q_total a + q_total b)%Q.
Proof. induction a as [|x a IH]; cbn; [lra|]. rewrite IH. lra. Qed.
Lemma fold_max_app a b : fold_right Nat.max 0%nat (a ++ b) = Nat.max (fold_right Nat.max 0%nat a) (fold_right Nat.max 0%nat b).
Proof. induction a as [|x a IH]; cbn; [reflexivity|]. rewrite IH. lia. Qed.

Lemma sum_step l t lw ls acc :
  represents l (t, lw) -> represents ls acc ->
  represents (l ++ ls) ((t + fst acc)%Q, add_prefix (extend lw (length (snd acc))) (snd acc)).
Proof.
  intros (A & B & C) (A' & B' & C'). cbn [fst snd] in *.
  destruct (add_prefix_spec (extend lw (length (snd acc))) (snd acc)) as [HL HN]; [rewrite extend_length; lia|].
  split; [|split]; cbn [fst snd].
  - rewrite map_app, q_total_app, A, A'. reflexivity.
  - rewrite HL, extend_length, map_app, fold_max_app. lia.
  - intros i. rewrite HN, extend_nth, map_app, q_total_app, C, C'. reflexivity.
Qed.

Lemma sum_represents lls accs : Forall2 represents lls accs -> represents (concat lls) (sum_labeled_weights accs).
Proof.
  unfold sum_labeled_weights. intros H.
  assert (G : forall l t lw, represents l (t, lw) ->
     represents (l ++ concat lls)
       (fold_left (fun '(total_weight, labeled_weights) acc =>
          ((total_weight + fst acc)%Q, add_prefix (extend labeled_weights (length (snd acc))) (snd acc))) accs (t, lw))).
  { induction H as [|l0 a0 lls accs H0 H IH]; intros l t lw Hl; cbn [concat fold_left]; [now rewrite app_nil_r|].
    rewrite app_assoc. apply IH. now apply sum_step. }
  apply (G [] 0%Q []). split; [|split]; cbn; [reflexivity|reflexivity|]. intros [|i]; reflexivity.
Qed.

Lemma single_represents x : represents [x] x.
Proof. split; [|split]; cbn; [lra|lia|]. intros i. unfold label_weight. lra. Qed.

Lemma combine_represents s : represents (elements s) (combine_labeled_weights s).
Proof.
  unfold combine_labeled_weights.
  apply (run_rep (sum_labeled_weights []) (fun a x => sum_labeled_weights [a; x]) sum_labeled_weights represents
           (sum_represents [] [] (Forall2_nil _)) (fun _ => True)).
  - intros l a x _ Ha. replace (l ++ [x]) with (concat [l; [x]]) by reflexivity.
    apply sum_represents. constructor; [exact Ha|]. constructor; [apply single_represents|constructor].
  - intros ls accs _ H. now apply sum_represents.
  - apply Forall_forall. trivial.
Qed.

(** ** Vocabulary range *)

Lemma vocab_range_spec values size : 0 < size ->
  Forall (fun v => 0 <= v < size) (to_vocab_range values size) /\
  length (to_vocab_range values size) = length values /\
  (forall i v, nth_error values i = Some v -> 0 <= v < size -> nth_error (to_vocab_range values size) i = Some v).
Proof.
  intros H. unfold to_vocab_range. split; [|split].
  - apply Forall_map, Forall_forall. intros v _. now apply Z.mod_pos_bound.
  - apply map_length.
  - intros i v Hi Hv. rewrite nth_error_map, Hi. cbn. now rewrite Z.mod_small.
Qed.

Lemma hash_strings_spec hash values n : 0 < n ->
  Forall (fun v => 0 <= v < n) (hash_strings hash values n) /\
  (forall i j s, nth_error values i = Some s -> nth_error values j = Some s ->
     nth_error (hash_strings hash values n) i = nth_error (hash_strings hash values n) j).
Proof.
  intros H. split.
  - apply Forall_map, Forall_forall. intros v _. now apply Z.mod_pos_bound.
  - intros i j s Hi Hj. unfold hash_strings. now rewrite !nth_error_map, Hi, Hj.
Qed.

(** ** File names *)

Definition allowed (c : ascii) : bool := is_word c || is_hyphen c.

Lemma allowed_safe c : allowed c = true -> safe_char c.
Proof. destruct c as [[] [] [] [] [] [] [] []]; cbv; intros H; try discriminate; tauto. Qed.

Lemma word_not_space c : is_word c = true -> is_space c = false /\ is_hyphen c = false.
Proof. destruct c as [[] [] [] [] [] [] [] []]; cbv; intros H; try discriminate; split; reflexivity. Qed.

(** Normal form: allowed characters, no two hyphens in a row. *)
Fixpoint no_double (prev : bool) (s : list ascii) : bool :=
  match s with
  | [] => true
  | c :: s' => if is_hyphen c then negb prev && no_double true s' else no_double false s'
  end.
Definition normal (s : list ascii) : Prop := forallb allowed s = true /\ no_double false s = true.

Definition clean (c : ascii) : bool := is_word c || is_space c || is_hyphen c.
Lemma replace_clean s : forallb clean (replace_special s) = true.
Proof.
  induction s as [|c s IH]; [reflexivity|]. cbn [replace_special map forallb].
  destruct (is_word c || is_space c || is_hyphen c) eqn:E; [unfold clean at 1; rewrite E; exact IH|exact IH].
Qed.
Lemma replace_id s : forallb clean s = true -> replace_special s = s.
Proof.
  induction s as [|c s IH]; [reflexivity|]. cbn [forallb replace_special map]. intros H. apply andb_true_iff in H as [H1 H2].
  unfold clean in H1. rewrite H1. f_equal. now apply IH.
Qed.
Lemma lstrip_forall p s : forallb p s = true -> forallb p (lstrip s) = true.
Proof. induction s as [|c s IH]; [reflexivity|]. cbn. intros H. destruct (is_space c); [apply IH; now apply andb_true_iff in H|exact H]. Qed.
Lemma forallb_rev {A} (p : A -> bool) s : forallb p (rev s) = forallb p s.
Proof.
  induction s as [|c s IH]; [reflexivity|]. cbn. rewrite forallb_app, IH. cbn. rewrite andb_true_r. apply andb_comm.
Qed.
Lemma strip_forall p s : forallb p s = true -> forallb p (strip s) = true.
Proof. intros H. unfold strip. rewrite forallb_rev. apply lstrip_forall. rewrite forallb_rev. now apply lstrip_forall. Qed.
Lemma lstrip_id s : forallb (fun c => negb (is_space c)) s = true -> lstrip s = s.
Proof. destruct s as [|c s]; [reflexivity|]. cbn. intros H. apply andb_true_iff in H as [H _]. apply negb_true_iff in H. now rewrite H. Qed.
Lemma strip_id s : forallb (fun c => negb (is_space c)) s = true -> strip s = s.
Proof.
  intros H. unfold strip. rewrite (lstrip_id s H). rewrite lstrip_id by (now rewrite forallb_rev). apply rev_involutive.
Qed.

Lemma collapse_normal s : forallb clean s = true -> forall r,
  forallb allowed (collapse r s) = true /\ no_double r (collapse r s) = true.
Proof.
  induction s as [|c s IH]; intros H r; [split; reflexivity|]. cbn [forallb] in H. apply andb_true_iff in H as [H1 H2].
  specialize (IH H2). cbn [collapse]. destruct (is_hyphen c || is_space c) eqn:E.
  - destruct r.
    + apply IH.
    + destruct (IH true) as [A B]. cbn [forallb no_double]. split; [exact A|]. exact B.
  - apply orb_false_iff in E as [E1 E2]. destruct (IH false) as [A B]. cbn [forallb no_double]. rewrite E1. split; [|exact B].
    rewrite A. unfold allowed, clean in *. rewrite E1, E2 in *. cbn in *. rewrite !orb_false_r in *. now rewrite H1.
Qed.
Lemma collapse_id s : forall r, forallb allowed s = true -> no_double r s = true -> collapse r s = s.
Proof.
  induction s as [|c s IH]; intros r HA HD; [reflexivity|]. cbn [forallb no_double collapse] in *. apply andb_true_iff in HA as [H1 H2].
  destruct (is_hyphen c) eqn:E.
  - apply andb_true_iff in HD as [HD1 HD2]. destruct r; [discriminate|]. cbn [orb]. rewrite (IH true H2 HD2). f_equal.
    unfold is_hyphen in E. apply Ascii.eqb_eq in E. now symmetry.
  - unfold allowed in H1. rewrite E, orb_false_r in H1. apply word_not_space in H1 as [-> _]. cbn [orb]. f_equal. now apply IH.
Qed.

Lemma sanitized_normal s : normal (sanitized s).
Proof. apply collapse_normal, strip_forall, replace_clean. Qed.

Lemma sanitized_of_normal s : normal s -> sanitized s = s.
Proof.
  intros [H1 H2]. unfold sanitized.
  assert (HC : forallb clean s = true).
  { rewrite forallb_forall in *. intros c Hc. specialize (H1 c Hc). unfold allowed, clean in *.
    apply orb_true_iff in H1 as [-> | ->]; [reflexivity|apply orb_true_r]. }
  assert (HS : forallb (fun c => negb (is_space c)) s = true).
  { rewrite forallb_forall in *. intros c Hc. specialize (H1 c Hc). unfold allowed in H1. apply orb_true_iff in H1 as [H1|H1].
    - now apply word_not_space in H1 as [-> _].
    - unfold is_hyphen in H1. apply Ascii.eqb_eq in H1. now subst. }
  rewrite (replace_id s HC), (strip_id s HS). now apply collapse_id.
Qed.

Lemma sanitized_idempotent s : sanitized (sanitized s) = sanitized s.
Proof. apply sanitized_of_normal, sanitized_normal. Qed.
Lemma sanitized_safe s : Forall safe_char (sanitized s).
Proof.
  destruct (sanitized_normal s) as [H _]. rewrite forallb_forall in H. apply Forall_forall. intros c Hc. now apply allowed_safe, H.
Qed.

(** ** Finding the file again *)

Lemma name_eqb_eq a b : name_eqb a b = true <-> a = b.
Proof. unfold name_eqb. destruct (list_eq_dec ascii_dec a b); split; congruence. Qed.

Lemma glob_single assets name : NoDup assets -> In name assets -> glob assets name = [name].
Proof.
  unfold glob. induction 1 as [|a l Hn HN IH]; intros Hi; [destruct Hi|]. cbn [filter].
  destruct (name_eqb name a) eqn:E.
  - apply name_eqb_eq in E. subst a. f_equal. destruct (filter _ l) as [|x r] eqn:Ef; [reflexivity|]. exfalso.
    assert (Hx : In x (filter (name_eqb name) l)) by (rewrite Ef; now left). apply filter_In in Hx as [Hx Hb]. apply name_eqb_eq in Hb. now subst.
  - destruct Hi as [->|Hi]; [|auto]. assert (name_eqb name name = true) by now apply name_eqb_eq. congruence.
Qed.
Lemma glob_none assets name : ~ In name assets -> glob assets name = [].
Proof.
  intros H. unfold glob. destruct (filter _ assets) as [|x r] eqn:Ef; [reflexivity|]. exfalso.
  assert (Hx : In x (filter (name_eqb name) assets)) by (rewrite Ef; now left). apply filter_In in Hx as [Hx Hb]. apply name_eqb_eq in Hb. now subst.
Qed.

Lemma file_found mapping assets name text scope store f :
  NoDup assets -> ~ In name (map fst mapping) ->
  get_vocab_filename (Some name) store scope = Some f ->
  In (written_name text f) assets -> ~ In (written_name (negb text) f) assets ->
  vocabulary_file_by_name mapping assets name = Found (written_name text f).
Proof.
  intros HN HM Hf HI HO. cbn in Hf. injection Hf as <-. unfold vocabulary_file_by_name.
  assert (E : find (fun e : list ascii * list ascii => name_eqb name (fst e)) mapping = None).
  { destruct (find _ mapping) as [[k v]|] eqn:E; [|reflexivity]. apply find_some in E as [E1 E2]. cbn in E2. apply name_eqb_eq in E2. subst k.
    destruct HM. apply in_map_iff. now exists (name, v). }
  rewrite E. destruct text; cbn [written_name negb] in *.
  - now rewrite (glob_single assets _ HN HI), (glob_none assets _ HO).
  - now rewrite (glob_single assets _ HN HI), (glob_none assets _ HO).
Qed.

Lemma file_mapped mapping assets name f :
  In f assets -> find (fun e => name_eqb name (fst e)) mapping = Some (name, f) ->
  vocabulary_file_by_name mapping assets name = Found f.
Proof.
  intros HI HF. unfold vocabulary_file_by_name. rewrite HF.
  assert (existsb (name_eqb f) assets = true) by (apply existsb_exists; exists f; split; [exact HI|now apply name_eqb_eq]).
  now rewrite H.
Qed.

Lemma file_only_existing mapping assets name f : vocabulary_file_by_name mapping assets name = Found f -> In f assets.
Proof.
  unfold vocabulary_file_by_name.
  assert (G : match glob assets (sanitized name) ++ glob assets (sanitized name ++ tfrecord_suffix) with
              | [] => Missing | [f0] => Found f0 | _ => TooMany end = Found f -> In f assets).
  { destruct (glob assets (sanitized name) ++ glob assets (sanitized name ++ tfrecord_suffix)) as [|x [|y l]] eqn:E; intros H; try discriminate.
    injection H as ->. assert (Hin : In f (glob assets (sanitized name) ++ glob assets (sanitized name ++ tfrecord_suffix))) by (rewrite E; now left).
    apply in_app_or in Hin as [Hin|Hin]; unfold glob in Hin; now apply filter_In in Hin. }
  destruct (find _ mapping) as [[k v]|]; [|exact G]. destruct (existsb (name_eqb v) assets) eqn:E; [|exact G].
  intros [= <-]. apply existsb_exists in E as (x & Hx & E). apply name_eqb_eq in E. now subst.
Qed.
