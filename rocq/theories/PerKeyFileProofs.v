(** * Proofs about per-key statistics in a file *)
From Coq Require Import String Ascii List Bool Arith ZArith Lia Permutation.
From Verif Require Import SortModel SortProofs PerKeyModel PerKeyProofs VocabModel VocabFileModel VocabFileProofs.
From Verif Require Import PerKeyFileModel PerKeyFileSpec.
Import ListNotations.
Local Open Scope list_scope.
Local Open Scope nat_scope.
Local Notation length := List.length.

Lemma no_char_contains c s : no_char c s <-> contains c s = false.
Proof. unfold no_char. now rewrite contains_not_in. Qed.

(** ** First words *)
Fixpoint word (s : string) : string :=
  match s with
  | EmptyString => EmptyString
  | String c s => if Ascii.eqb c " " then EmptyString else String c (word s)
  end.

Lemma word_prefix w rest : contains " "%char w = false -> word (w ++ String " "%char rest) = w.
Proof.
  induction w as [|c w IH]; cbn [append word contains]; [reflexivity|]. intros H.
  apply orb_false_iff in H as [H1 H2]. rewrite H1. now rewrite IH.
Qed.
Lemma word_id w : contains " "%char w = false -> word w = w.
Proof.
  induction w as [|c w IH]; cbn [word contains]; [reflexivity|]. intros H.
  apply orb_false_iff in H as [H1 H2]. rewrite H1. now rewrite IH.
Qed.
Lemma first_word_word k w : first_word k w -> w = word k.
Proof.
  intros [N H]. apply no_char_contains in N. destruct H as [->|[rest ->]].
  - symmetry. now apply word_id.
  - symmetry. exact (word_prefix w rest N).
Qed.
Lemma word_cases k : contains " "%char (word k) = false /\ (k = word k \/ exists rest, k = (word k ++ String " "%char rest)%string).
Proof.
  induction k as [|c k [IH1 IH2]]; cbn [word]; [split; [reflexivity | now left]|].
  destruct (Ascii.eqb c " "%char) eqn:E.
  - split; [reflexivity|]. right. exists k. apply Ascii.eqb_eq in E. now subst c.
  - cbn [contains]. rewrite E. split; [exact IH1|]. destruct IH2 as [H|[rest H]].
    + left. congruence.
    + right. exists rest. cbn [append]. congruence.
Qed.
Lemma split_word k : exists ts, split_spaces EmptyString k = word k :: ts.
Proof.
  destruct (word_cases k) as [N [H|[rest H]]].
  - exists []. rewrite H at 1. rewrite split_none by exact N. reflexivity.
  - eexists. rewrite H at 1. rewrite split_first by exact N. reflexivity.
Qed.

Lemma row_of_line v k : contains " "%char v = false -> table_row (entry_line (v, k)) = Some (word k, v).
Proof.
  intros N. unfold table_row, entry_line. cbn [fst snd]. rewrite split_first by exact N.
  destruct (split_word k) as [ts ->]. reflexivity.
Qed.

(** ** Tables *)
Lemma table_find_none k t : ~ In k (map fst t) -> table_find k t = None.
Proof.
  induction t as [|[k' v] t IH]; cbn; intros H; [reflexivity|].
  destruct (String.eqb_spec k k') as [->|]; [exfalso; auto|]. apply IH. auto.
Qed.
Lemma table_find_in k v t : NoDup (map fst t) -> In (k, v) t -> table_find k t = Some v.
Proof.
  induction t as [|[k' v'] t IH]; cbn; intros ND H; [destruct H|]. inversion ND as [|? ? NI ND']; subst.
  destruct H as [E|H].
  - injection E as -> ->. now rewrite String.eqb_refl.
  - destruct (String.eqb_spec k k') as [->|]; [|now apply IH]. exfalso. apply NI. now apply (in_map fst) in H.
Qed.

Lemma fill_distinct rows : forall t, NoDup (map fst (t ++ rows)) ->
  fill_table (map Some rows) t = Some (t ++ rows).
Proof.
  induction rows as [|[k v] rows IH]; intros t ND; cbn [map fill_table]; [now rewrite app_nil_r|].
  assert (N : ~ In k (map fst t)).
  { rewrite map_app in ND. cbn in ND. apply NoDup_remove_2 in ND. intros I. apply ND. apply in_or_app. now left. }
  rewrite table_find_none by exact N. rewrite IH; rewrite <- app_assoc; [reflexivity | exact ND].
Qed.

(** ** Commas *)
Lemma split_commas_first a : contains comma a = false -> forall acc b,
  split_commas acc (a ++ String comma b) = (acc ++ a)%string :: split_commas EmptyString b.
Proof.
  induction a as [|c a IH]; intros H acc b; cbn [append split_commas].
  - rewrite Ascii.eqb_refl. now rewrite append_empty.
  - cbn in H. apply orb_false_iff in H as [H1 H2]. rewrite H1, (IH H2). now rewrite append_assoc'.
Qed.
Lemma split_commas_none a : contains comma a = false -> forall acc, split_commas acc a = [(acc ++ a)%string].
Proof.
  induction a as [|c a IH]; intros H acc; cbn [split_commas]; [now rewrite append_empty|].
  cbn in H. apply orb_false_iff in H as [H1 H2]. rewrite H1, (IH H2). now rewrite append_assoc'.
Qed.
Lemma split_join a b : contains comma a = false -> contains comma b = false ->
  split_commas EmptyString (join [a; b]) = [a; b].
Proof. intros A B. cbn [join]. rewrite split_commas_first by exact A. now rewrite split_commas_none by exact B. Qed.

Section Numbers.
Context {N : Type}.
Variable show : N -> string.
Variable read : string -> N.
Variable sha1 : string -> string.
Variable zero : N.
Hypothesis ZERO : read "0"%string = zero.

Definition pair_list (v : N * N) : list N := [fst v; snd v].
Definition listed (stats : list (string * (N * N))) : list (string * list N) :=
  map (fun kv => (fst kv, pair_list (snd kv))) stats.
Definition text (v : N * N) : string := join [show (fst v); show (snd v)].
Definition good (v : N * N) : Prop := readable show read (fst v) /\ readable show read (snd v).

Lemma text_no c v : c <> comma -> (forall x, readable show read x -> contains c (show x) = false) -> good v ->
  contains c (text v) = false.
Proof.
  intros NC H [A B]. unfold text. cbn [join]. rewrite contains_app. cbn [contains].
  rewrite (H _ A), (H _ B), orb_false_r. cbn [orb]. apply Ascii.eqb_neq. congruence.
Qed.
Lemma no_space x : readable show read x -> contains " "%char (show x) = false.
Proof. intros (_ & _ & (_ & H) & _). now apply no_char_contains. Qed.
Lemma no_newline x : readable show read x -> contains newline (show x) = false.
Proof. intros (_ & _ & ((H & _) & _) & _). now apply no_char_contains. Qed.
Lemma no_return x : readable show read x -> contains carriage_return (show x) = false.
Proof. intros (_ & _ & ((_ & H) & _) & _). now apply no_char_contains. Qed.

Definition row_of (e : string * string) : string * string := (word (snd e), fst e).

(** The rows of the file. *)
Lemma rows_of_file stats : stats <> [] ->
  Forall (fun kv => PerKeyFileSpec.one_line (fst kv) /\ good (snd kv)) stats ->
  exists os, map table_row (table_lines (per_key_file show sha1 (listed stats))) = map Some (map row_of os) /\
    Permutation os (map (fun kv => (text (snd kv), fst kv)) stats).
Proof.
  intros NE G. unfold per_key_file.
  assert (EN : map (encode_value show) (listed stats) = map (fun kv => (text (snd kv), fst kv)) stats).
  { unfold listed. rewrite map_map. reflexivity. }
  rewrite EN. set (es := map (fun kv => (text (snd kv), fst kv)) stats).
  assert (P : Permutation (ordered sha1 es) es) by apply py_sorted_perm.
  assert (WD : with_dummy (ordered sha1 es) = ordered sha1 es).
  { destruct (ordered sha1 es) eqn:E; [|reflexivity]. apply Permutation_nil in P. unfold es in P.
    destruct stats; [congruence | discriminate]. }
  rewrite WD. set (os := ordered sha1 es) in *.
  assert (OK : Forall (fun e => exists kv, In kv stats /\ e = (text (snd kv), fst kv)) os).
  { rewrite Forall_forall. intros e I. apply (Permutation_in _ P) in I. unfold es in I. apply in_map_iff in I.
    destruct I as (kv & <- & I). eauto. }
  rewrite Forall_forall in G, OK.
  assert (NOC : forall c e, c <> comma -> c <> " "%char -> (forall x, readable show read x -> contains c (show x) = false) ->
      (forall kv, In kv stats -> contains c (fst kv) = false) -> In e os -> contains c (entry_line e) = false).
  { intros c e N1 N2 H1 H2 I. destruct (OK e I) as (kv & IK & ->). destruct (G kv IK) as [_ GV].
    unfold entry_line. cbn [fst snd]. rewrite contains_app. cbn [contains].
    rewrite (text_no c (snd kv) N1 H1 GV), (H2 kv IK), orb_false_r. cbn [orb]. apply Ascii.eqb_neq. congruence. }
  exists os. split; [|exact P]. rewrite table_lines_write.
  - rewrite !map_map. apply map_ext_in. intros e I. destruct (OK e I) as (kv & IK & ->).
    destruct (G kv IK) as [_ GV]. rewrite row_of_line; [reflexivity|].
    apply text_no; [discriminate | apply no_space | exact GV].
  - rewrite Forall_forall. intros l I. apply in_map_iff in I. destruct I as (e & <- & I).
    apply (NOC newline e); [discriminate | discriminate | apply no_newline | | exact I].
    intros kv IK. destruct (G kv IK) as [[H _] _]. now apply no_char_contains.
  - rewrite Forall_forall. intros l I. apply in_map_iff in I. destruct I as (e & <- & I).
    apply (NOC carriage_return e); [discriminate | discriminate | apply no_return | | exact I].
    intros kv IK. destruct (G kv IK) as [[_ H] _]. now apply no_char_contains.
Qed.

(** The table of a file of distinct first words. *)
Lemma table_of_file stats :
  stats <> [] ->
  Forall (fun kv => PerKeyFileSpec.one_line (fst kv) /\ good (snd kv)) stats ->
  NoDup (map (fun kv => word (fst kv)) stats) ->
  exists table, per_key_table (per_key_file show sha1 (listed stats)) = Some table /\
    Permutation table (map (fun kv => (word (fst kv), text (snd kv))) stats) /\ NoDup (map fst table).
Proof.
  intros NE G ND. destruct (rows_of_file stats NE G) as (os & RW & P). unfold per_key_table. rewrite RW.
  exists (map row_of os).
  assert (PT : Permutation (map row_of os) (map (fun kv => (word (fst kv), text (snd kv))) stats)).
  { apply Permutation_trans with (map row_of (map (fun kv => (text (snd kv), fst kv)) stats));
      [now apply Permutation_map | now rewrite map_map]. }
  assert (NT : NoDup (map fst (map row_of os))).
  { apply Permutation_NoDup with (map fst (map (fun kv => (word (fst kv), text (snd kv))) stats)).
    - apply Permutation_sym. now apply Permutation_map.
    - now rewrite map_map. }
  split; [|split; assumption]. change (map row_of os) with ([] ++ map row_of os) at 2. now apply fill_distinct.
Qed.

(** Rows of two numbers each. *)
Lemma numbers_of_table table keys f :
  (forall k, In k keys -> exists a b,
      split_commas EmptyString (match table_find k table with Some v => v | None => default_value end) = [a; b] /\
      (to_number read a, to_number read b) = f k) ->
  columns (map (map (to_number read)) (number_strings table keys)) = Some (map f keys).
Proof.
  intros H. unfold number_strings. cbv zeta.
  set (rows := map (fun k => split_commas EmptyString
                (match table_find k table with Some v => v | None => default_value end)) keys).
  assert (W : fold_right Nat.max 0 (map (@List.length string) rows) <= 2).
  { unfold rows. induction keys as [|k keys IH]; cbn [map fold_right]; [lia|].
    destruct (H k (or_introl eq_refl)) as (a & b & E & _). rewrite E. cbn [List.length].
    apply Nat.max_lub; [lia|]. apply IH. intros k' I. apply H. now right. }
  revert W. generalize (fold_right Nat.max 0 (map (@List.length string) rows)). intros w W.
  unfold rows. clear rows. induction keys as [|k keys IH]; [reflexivity|]. cbn [map].
  destruct (H k (or_introl eq_refl)) as (a & b & E & F). rewrite E. cbn [List.length].
  replace (w - 2) with 0 by lia. cbn [repeat app map columns].
  rewrite IH by (intros k' I; apply H; now right). cbn. now rewrite F.
Qed.

Lemma to_number_show x : readable show read x -> to_number read (show x) = x.
Proof. intros (NE & _ & _ & R). unfold to_number. destruct (show x); [congruence | exact R]. Qed.

Lemma default_split : split_commas EmptyString default_value = ["0"; "0"]%string.
Proof. reflexivity. Qed.

Lemma text_split v : good v -> exists a b, split_commas EmptyString (text v) = [a; b] /\
  (to_number read a, to_number read b) = v.
Proof.
  intros [A B]. exists (show (fst v)), (show (snd v)). split.
  - apply split_join; apply no_char_contains; [destruct A as (_ & H & _) | destruct B as (_ & H & _)]; exact H.
  - rewrite !to_number_show by assumption. now destruct v.
Qed.

(** The pairs of an association list without duplicates, or zeros. *)
Fixpoint assoc (k : string) (l : list (string * (N * N))) : N * N :=
  match l with [] => (zero, zero) | (k', v) :: l => if String.eqb k k' then v else assoc k l end.
Lemma assoc_spec k l : NoDup (map fst l) -> statistics_of zero l k (assoc k l).
Proof.
  intros _. induction l as [|[k' v] l IH]; cbn [assoc]; [apply of_unknown; auto|].
  destruct (String.eqb_spec k k') as [->|NE]; [apply of_known; now left|].
  inversion IH as [v' I E | NI E]; [apply of_known; now right|]. apply of_unknown. intros [C|C]; [cbn in C; congruence | auto].
Qed.
Lemma assoc_in k v l : NoDup (map fst l) -> In (k, v) l -> assoc k l = v.
Proof.
  induction l as [|[k' v'] l IH]; cbn; intros ND H; [destruct H|]. inversion ND as [|? ? NI ND']; subst.
  destruct H as [E|H].
  - injection E as -> ->. now rewrite String.eqb_refl.
  - destruct (String.eqb_spec k k') as [->|]; [|now apply IH]. exfalso. apply NI. now apply (in_map fst) in H.
Qed.
Lemma assoc_out k l : ~ In k (map fst l) -> assoc k l = (zero, zero).
Proof.
  induction l as [|[k' v] l IH]; cbn; intros H; [reflexivity|].
  destruct (String.eqb_spec k k') as [->|]; [exfalso; auto|]. apply IH. auto.
Qed.

Lemma file_by_word stats keys :
  Forall (fun kv => PerKeyFileSpec.one_line (fst kv) /\ good (snd kv)) stats ->
  NoDup (map (fun kv => word (fst kv)) stats) ->
  (stats = [] -> ~ In dummy_key keys) ->
  file_statistics show read sha1 (listed stats) keys =
    Some (map (fun k => assoc k (map (fun kv => (word (fst kv), snd kv)) stats)) keys).
Proof.
  intros G ND DK. unfold file_statistics, apply_per_key_vocabulary.
  assert (DEF : forall k, assoc k [] = (zero, zero)) by reflexivity.
  assert (Z2 : (to_number read "0", to_number read "0") = (zero, zero)) by (unfold to_number; now rewrite ZERO).
  destruct stats as [|kv0 stats'].
  - assert (TB : per_key_table (per_key_file show sha1 (listed [])) = Some [(dummy_key, "1"%string)]) by reflexivity.
    rewrite TB. cbn [option_map]. apply numbers_of_table. intros k I. cbn [table_find map].
    destruct (String.eqb_spec k dummy_key) as [->|]; [exfalso; now apply DK|].
    exists "0"%string, "0"%string. split; [reflexivity | exact Z2].
  - set (stats := kv0 :: stats') in *.
    destruct (table_of_file stats ltac:(discriminate) G ND) as (table & ET & P & NT).
    rewrite ET. cbn [option_map]. apply numbers_of_table. intros k _.
    set (ws := map (fun kv => (word (fst kv), snd kv)) stats).
    assert (NW : NoDup (map fst ws)) by (unfold ws; now rewrite map_map).
    destruct (in_dec string_dec k (map fst ws)) as [I|NI].
    + apply in_map_iff in I. destruct I as ([k' v] & E & I). cbn in E. subst k'.
      rewrite (assoc_in k v ws NW I). unfold ws in I. apply in_map_iff in I. destruct I as (kv & E & IK).
      injection E as EK EV. subst k v.
      rewrite (table_find_in (word (fst kv)) (text (snd kv)) table NT).
      * rewrite Forall_forall in G. destruct (G kv IK) as [_ GV]. exact (text_split (snd kv) GV).
      * apply (Permutation_in _ (Permutation_sym P)). now apply (in_map (fun kv => (word (fst kv), text (snd kv)))).
    + rewrite (assoc_out k ws NI). rewrite table_find_none.
      * exists "0"%string, "0"%string. split; [reflexivity | exact Z2].
      * intros I. apply NI. unfold ws. rewrite map_map.
        apply (Permutation_in _ (Permutation_map fst P)) in I. rewrite map_map in I. exact I.
Qed.

Lemma by_first_word stats words keys :
  Forall (fun kv => PerKeyFileSpec.one_line (fst kv)) stats ->
  Forall (fun kv => readable show read (fst (snd kv)) /\ readable show read (snd (snd kv))) stats ->
  Forall2 (fun kv w => first_word (fst kv) w) stats words -> NoDup words ->
  (stats = [] -> ~ In dummy_key keys) ->
  exists out, file_statistics show read sha1 (listed stats) keys = Some out /\
    Forall2 (statistics_of zero (combine words (map snd stats))) keys out.
Proof.
  intros L G W ND DK.
  assert (EW : words = map (fun kv => word (fst kv)) stats).
  { clear - W. induction W as [|kv w stats words H _ IH]; [reflexivity|]. cbn. f_equal; [now apply first_word_word | exact IH]. }
  assert (EC : combine words (map snd stats) = map (fun kv => (word (fst kv), snd kv)) stats).
  { rewrite EW. clear. induction stats as [|kv stats IH]; [reflexivity|]. cbn. now rewrite IH. }
  eexists. split.
  - apply file_by_word; [| now rewrite <- EW | exact DK].
    rewrite Forall_forall in *. intros kv I. split; [now apply L | now apply G].
  - rewrite EC. assert (NW : NoDup (map fst (map (fun kv => (word (fst kv), snd kv)) stats))).
    { rewrite map_map. cbn [fst]. now rewrite <- EW. }
    induction keys as [|k keys IH]; cbn [map]; constructor; [now apply assoc_spec|].
    apply IH. intros E I. apply (DK E). now right.
Qed.

Lemma file_right stats keys :
  Forall (fun kv => one_word (fst kv)) stats ->
  Forall (fun kv => readable show read (fst (snd kv)) /\ readable show read (snd (snd kv))) stats ->
  NoDup (map fst stats) -> (stats = [] -> ~ In dummy_key keys) ->
  exists out, file_statistics show read sha1 (listed stats) keys = Some out /\
    Forall2 (statistics_of zero stats) keys out.
Proof.
  intros W G ND DK. destruct (by_first_word stats (map fst stats) keys) as (out & E & R); [| exact G | | exact ND | exact DK |].
  - eapply Forall_impl; [|exact W]. now intros kv [H _].
  - clear - W. induction W as [|kv stats [_ H] _ IH]; cbn; constructor; [|exact IH]. split; [exact H | now left].
  - exists out. split; [exact E|]. replace (combine (map fst stats) (map snd stats)) with stats in R; [exact R|].
    clear. induction stats as [|[k v] stats IH]; [reflexivity|]. cbn. now rewrite <- IH.
Qed.

(** ** The same as without a file *)
Lemma statistics_unique stats k v w : NoDup (map fst stats) ->
  statistics_of zero stats k v -> statistics_of zero stats k w -> v = w.
Proof.
  intros ND A B. inversion A as [v' I E | NI E]; inversion B as [w' J F | NJ F]; subst v w.
  - rewrite <- (assoc_in k v' stats ND I). now apply assoc_in.
  - exfalso. apply NJ. now apply (in_map fst) in I.
  - exfalso. apply NI. now apply (in_map fst) in J.
  - reflexivity.
Qed.

Lemma memory_right stats vocab results k :
  NoDup (map fst stats) -> stats <> [] -> merge_outputs_by_key stats = (vocab, results) ->
  exists v, map_per_key (fun _ => (zero, zero)) results vocab k = Some v /\ statistics_of zero stats k v.
Proof.
  intros ND NE E. unfold merge_outputs_by_key in E. injection E as EV ER.
  set (sorted := py_sorted (fun a b : string * (N * N) => bytes_leb (fst a) (fst b)) stats) in *.
  assert (P : Permutation sorted stats) by apply py_sorted_perm.
  assert (NV : NoDup vocab).
  { rewrite <- EV. apply Permutation_NoDup with (map fst stats); [|exact ND]. apply Permutation_sym. now apply Permutation_map. }
  assert (LR : length results = length vocab) by (rewrite <- EV, <- ER, !map_length; reflexivity).
  assert (NEV : vocab <> []).
  { rewrite <- EV. intros C. apply map_eq_nil in C. rewrite C in P. apply Permutation_nil in P. contradiction. }
  destruct (map_per_key_spec (fun _ => (zero, zero)) results vocab k LR NV NEV) as [A B].
  destruct (in_dec string_dec k vocab) as [I|NI].
  - apply In_nth_error in I. destruct I as [j J].
    assert (exists v, nth_error sorted j = Some (k, v)) as [v SV].
    { rewrite <- EV in J. rewrite nth_error_map in J. destruct (nth_error sorted j) as [[k' v]|]; [|discriminate].
      cbn in J. injection J as ->. eauto. }
    exists v. split.
    + rewrite (A j J), <- ER, nth_error_map, SV. reflexivity.
    + constructor. apply (Permutation_in _ P). now apply nth_error_In in SV.
  - destruct (B NI) as [t0 M]. exists (zero, zero). split; [exact M|]. apply of_unknown. intros I. apply NI. rewrite <- EV.
    apply (Permutation_in _ (Permutation_map fst (Permutation_sym P))). exact I.
Qed.

Lemma same_as_memory stats vocab results keys :
  Forall (fun kv => one_word (fst kv)) stats ->
  Forall (fun kv => readable show read (fst (snd kv)) /\ readable show read (snd (snd kv))) stats ->
  NoDup (map fst stats) -> stats <> [] -> merge_outputs_by_key stats = (vocab, results) ->
  exists out, file_statistics show read sha1 (listed stats) keys = Some out /\
    map (map_per_key (fun _ => (zero, zero)) results vocab) keys = map Some out.
Proof.
  intros W G ND NE E. destruct (file_right stats keys W G ND) as (out & EO & R); [congruence|].
  exists out. split; [exact EO|]. clear EO.
  induction R as [|k v keys out RK _ IH]; [reflexivity|]. cbn [map]. f_equal; [|exact IH].
  destruct (memory_right stats vocab results k ND NE E) as (w & M & SW). rewrite M. f_equal.
  now apply (statistics_unique stats k).
Qed.

(** ** Spaces *)
Lemma find_snoc k t r : table_find k (t ++ [r]) =
  match table_find k t with Some v => Some v | None => if String.eqb k (fst r) then Some (snd r) else None end.
Proof.
  induction t as [|[a b] t IH]; cbn; [now destruct r|]. destruct (String.eqb k a); [reflexivity | exact IH].
Qed.

Lemma fill_keeps rows : forall t T, fill_table (map Some rows) t = Some T ->
  (forall k v, table_find k t = Some v -> table_find k T = Some v) /\
  (forall k v, In (k, v) rows -> table_find k T = Some v).
Proof.
  induction rows as [|[k v] rows IH]; intros t T F; cbn [map fill_table] in F.
  - injection F as <-. split; [auto | intros k v []].
  - destruct (table_find k t) as [v'|] eqn:E.
    + destruct (String.eqb_spec v v') as [<-|]; [|discriminate]. destruct (IH t T F) as [K R].
      split; [exact K|]. intros k1 v1 [H|H]; [injection H as <- <-; now apply K | now apply R].
    + destruct (IH _ T F) as [K R]. split.
      * intros k1 v1 H. apply K. rewrite find_snoc, H. reflexivity.
      * intros k1 v1 [H|H]; [|now apply R]. injection H as <- <-. apply K. rewrite find_snoc, E. cbn.
        now rewrite String.eqb_refl.
Qed.

(** Two keys with the same first word and other values: initialization fails. *)
Lemma conflict stats w k1 v1 k2 v2 keys :
  Forall (fun kv => PerKeyFileSpec.one_line (fst kv)) stats ->
  Forall (fun kv => readable show read (fst (snd kv)) /\ readable show read (snd (snd kv))) stats ->
  In (k1, v1) stats -> In (k2, v2) stats -> first_word k1 w -> first_word k2 w -> v1 <> v2 ->
  file_statistics show read sha1 (listed stats) keys = None.
Proof.
  intros L G I1 I2 W1 W2 NE. unfold file_statistics, apply_per_key_vocabulary.
  assert (per_key_table (per_key_file show sha1 (listed stats)) = None) as ->; [|reflexivity].
  destruct (per_key_table (per_key_file show sha1 (listed stats))) as [T|] eqn:E; [|reflexivity]. exfalso.
  assert (LG : Forall (fun kv => PerKeyFileSpec.one_line (fst kv) /\ good (snd kv)) stats).
  { rewrite Forall_forall in *. intros kv I. split; [now apply L | now apply G]. }
  destruct (rows_of_file stats) as (os & ER & P); [intros ->; destruct I1 | exact LG |].
  unfold per_key_table in E. rewrite ER in E. destruct (fill_keeps _ _ _ E) as [_ K].
  assert (F : forall k v, In (k, v) stats -> table_find (word k) T = Some (text v)).
  { intros k v I. apply K. change (word k, text v) with (row_of (text v, k)). apply in_map.
    apply (Permutation_in _ (Permutation_sym P)). now apply (in_map (fun kv => (text (snd kv), fst kv))) in I. }
  pose proof (F k1 v1 I1) as F1. pose proof (F k2 v2 I2) as F2.
  apply first_word_word in W1, W2. rewrite <- W1 in F1. rewrite <- W2 in F2. rewrite F1 in F2. injection F2 as ET.
  rewrite Forall_forall in LG. destruct (text_split v1 (proj2 (LG _ I1))) as (a & b & S1 & R1).
  destruct (text_split v2 (proj2 (LG _ I2))) as (c & d & S2 & R2). rewrite ET in S1. rewrite S1 in S2.
  injection S2 as <- <-. congruence.
Qed.
End Numbers.
