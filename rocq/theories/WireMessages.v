(** The messages of a batch read back. *)
From Coq Require Import String Ascii List Bool Arith NArith ZArith Lia Permutation.
From Verif Require Import SortModel SortProofs WireModel WireSpec WireProofs.
Import ListNotations.
Local Notation length := List.length.

(** ** Rows of tensors *)
Lemma product_fold l : product l = fold_right Nat.mul 1 l.
Proof. induction l as [|x l IH]; [reflexivity|]. cbn. now rewrite IH. Qed.

Lemma segment {A} (d : A) n l k : k + n <= length l ->
  firstn n (skipn k l) = map (fun j => nth (k + j) l d) (seq 0 n).
Proof.
  revert k. induction n as [|n IH]; intros k H; [reflexivity|].
  rewrite <- cons_seq. cbn [map]. rewrite <- seq_shift, map_map.
  destruct (nth_error l k) as [x|] eqn:E; [|apply nth_error_None in E; lia].
  assert (S : skipn k l = x :: skipn (S k) l).
  { apply nth_error_split in E as (a & b & -> & <-). clear. induction a as [|y a IH]; [reflexivity|]. exact IH. }
  rewrite S. cbn [firstn]. f_equal.
  - rewrite Nat.add_0_r. symmetry. now apply nth_error_nth.
  - rewrite IH by lia. apply map_ext. intros j. f_equal. lia.
Qed.

Lemma cell_at_column dt d es i j : default_value dt = Some d -> cell d i j es = at_column dt es i j.
Proof.
  intros D. unfold at_column. induction es as [|[[r c] v] es IH]; cbn [cell find].
  - destruct dt; cbn in D; congruence.
  - cbn [fst snd]. rewrite (Nat.eqb_sym i r), (Nat.eqb_sym j c).
    destruct ((r =? i) && (c =? j)); [reflexivity|exact IH].
Qed.

Lemma valid_of_order b w (l : list (nat * nat)) :
  Forall (fun p => fst p < b /\ snd p < w) l ->
  (forall i j, i < j < length l -> index_lt (nth i l (0, 0)) (nth j l (0, 0))) ->
  indices_valid b w l = true.
Proof.
  induction l as [|[r c] l IH]; intros F O; [reflexivity|]. cbn [indices_valid].
  inversion F as [|? ? [F1 F2] F']; subst. cbn [fst snd] in *.
  rewrite IH; [|exact F'|].
  2:{ intros i j H. apply (O (S i) (S j)). cbn [length]. lia. }
  rewrite (proj2 (Nat.ltb_lt _ _) F1), (proj2 (Nat.ltb_lt _ _) F2). cbn [andb].
  destruct l as [|[r' c'] l]; [reflexivity|].
  assert (I : index_lt (r, c) (r', c')) by (apply (O 0 1); cbn [length]; lia).
  destruct I as [I|[I1 I2]]; cbn [fst snd] in *.
  - now rewrite (proj2 (Nat.ltb_lt _ _) I).
  - rewrite (proj2 (Nat.eqb_eq _ _) I1), (proj2 (Nat.ltb_lt _ _) I2), orb_true_r. reflexivity.
Qed.
(** And only then. *)
Lemma order_of_valid b w (l : list (nat * nat)) : indices_valid b w l = true ->
  Forall (fun p => fst p < b /\ snd p < w) l /\
  (forall i j, i < j < length l -> index_lt (nth i l (0, 0)) (nth j l (0, 0))).
Proof.
  induction l as [|[r c] l IH]; intros V; [split; [constructor|cbn; intros; lia]|]. cbn [indices_valid] in V.
  apply andb_true_iff in V as [V V3]. apply andb_true_iff in V as [V V2]. apply andb_true_iff in V as [V0 V1].
  apply Nat.ltb_lt in V0, V1. destruct (IH V3) as [F O]. split; [constructor; auto|].
  intros [|i] [|j] H; cbn [length] in H; [lia| |lia|cbn [nth]; apply O; lia].
  cbn [nth]. destruct l as [|[r' c'] l]; [cbn in H; lia|].
  assert (I : index_lt (r, c) (r', c')).
  { unfold index_lt; cbn [fst snd]. apply orb_true_iff in V2 as [V2|V2].
    - left. now apply Nat.ltb_lt.
    - apply andb_true_iff in V2 as [V2 V4]. right. split; [now apply Nat.eqb_eq|now apply Nat.ltb_lt]. }
  destruct j as [|j]; [exact I|]. assert (J : index_lt (r', c') (nth j l (0, 0))) by (apply (O 0 (S j)); cbn [length] in *; lia).
  cbn [nth]. unfold index_lt in *; cbn [fst snd] in *. lia.
Qed.

(** Columns of a row are different. *)
Lemma ordered_nodup (l : list (nat * nat)) :
  (forall i j, i < j < length l -> index_lt (nth i l (0, 0)) (nth j l (0, 0))) -> NoDup l.
Proof.
  intros O. apply (NoDup_nth l (0, 0)). intros i j Hi Hj E.
  destruct (Nat.lt_trichotomy i j) as [L|[L|L]]; [|exact L|].
  - specialize (O i j ltac:(lia)). rewrite E in O. unfold index_lt in O. lia.
  - specialize (O j i ltac:(lia)). rewrite E in O. unfold index_lt in O. lia.
Qed.
Lemma columns_nodup (es : list ((nat * nat) * value)) i : NoDup (map fst es) ->
  NoDup (map (fun e => snd (fst e)) (filter (fun e => fst (fst e) =? i) es)).
Proof.
  induction es as [|[[r c] v] es IH]; intros N; [constructor|]. cbn [map fst] in N. inversion N as [|? ? NI N']; subst.
  cbn [filter fst snd]. destruct (Nat.eqb_spec r i) as [->|NE]; [|auto].
  cbn [map fst snd]. constructor; [|auto]. intros I. apply NI. apply in_map_iff in I as ([[r' c'] v'] & E & I).
  apply filter_In in I as [I E']. cbn [fst snd] in *. apply Nat.eqb_eq in E'. subst. apply in_map_iff. now exists ((i, c), v').
Qed.
Lemma filter_size b w es i :
  Forall (fun p => fst p < b /\ snd p < w) (map fst es) -> NoDup (map fst es) ->
  length (filter (fun e : (nat * nat) * value => fst (fst e) =? i) es) <= w.
Proof.
  intros F N. rewrite <- (map_length (fun e => snd (fst e))). rewrite <- (seq_length w 0).
  apply NoDup_incl_length; [now apply columns_nodup|]. intros c I.
  apply in_map_iff in I as (e & <- & I). apply filter_In in I as [I _].
  rewrite Forall_forall in F. specialize (F (fst e) (in_map _ _ _ I)). apply in_seq. lia.
Qed.

Lemma firstn_seq n k m : n <= m -> firstn n (seq k m) = seq k n.
Proof.
  revert k m. induction n as [|n IH]; intros k m H; [reflexivity|].
  destruct m as [|m]; [lia|]. cbn [seq firstn]. f_equal. apply IH. lia.
Qed.

Lemma at_column_ok d es i j : d <> DOther -> Forall (fun e => value_ok d (snd e)) es -> value_ok d (at_column d es i j).
Proof.
  intros ND F. unfold at_column. destruct (find _ es) as [e|] eqn:E.
  - apply find_some in E as [I _]. rewrite Forall_forall in F. auto.
  - destruct d; cbn; try exact Logic.I; try lia. congruence.
Qed.

(** What [rows_of] gives. *)
Lemma rows_of_ok t : tensor_ok t -> dtype_of t <> DOther ->
  exists f, rows_of t = Some f /\
  forall i, i < batch_of t ->
    fst (f i) <= length (snd (f i)) /\ firstn (fst (f i)) (snd (f i)) = first_columns t i /\
    Forall (value_ok (dtype_of t)) (first_columns t i).
Proof.
  destruct t as [d b dims vs|d b w es]; intros OK ND; cbn [dtype_of batch_of] in *.
  - destruct OK as [L F]. eexists. split; [reflexivity|]. intros i H. cbn [fst snd]. rewrite product_fold.
    set (p := fold_right Nat.mul 1 dims) in *.
    assert (LE : i * p + p <= length vs) by (rewrite L; nia).
    rewrite (segment (VInt64 0)) by exact LE. split; [rewrite map_length, seq_length; lia|].
    split; [rewrite firstn_all2 by (rewrite map_length, seq_length; lia); reflexivity|].
    cbn [first_columns row]. fold p. apply Forall_forall. intros v I. apply in_map_iff in I as (j & <- & I).
    apply in_seq in I. rewrite Forall_forall in F. apply F, nth_In. lia.
  - destruct OK as [F O].
    assert (F1 : Forall (fun p => fst p < b /\ snd p < w) (map fst es)).
    { apply Forall_map. eapply Forall_impl; [|exact F]. cbn. tauto. }
    rewrite <- (map_length fst es) in O. unfold rows_of.
    destruct (default_value d) as [x|] eqn:D; [|destruct d; cbn in D; congruence].
    rewrite valid_of_order by assumption. eexists. split; [reflexivity|]. intros i H. cbn [fst snd].
    assert (LE := filter_size b w es i F1 (ordered_nodup _ O)).
    split; [rewrite map_length, seq_length; exact LE|].
    cbn [first_columns]. split.
    + rewrite firstn_map, firstn_seq by exact LE. apply map_ext. intros j. now apply cell_at_column.
    + apply Forall_map. apply Forall_forall. intros j _. apply at_column_ok; [exact ND|].
      eapply Forall_impl; [|exact F]. cbn. tauto.
Qed.

(** ** Messages with one field *)
Lemma encode_single m name f t rows :
  field_of m name = Some f -> rows_of t = Some rows ->
  encode_proto [(name, t)] m
  = all_some (map (fun r => match encode_field f (fst (rows r)) (snd (rows r)) with
                            | Some b => Some (b ++ []) | None => None end) (seq 0 (batch_of t))).
Proof.
  intros E R. unfold encode_proto. cbn [py_sorted fold_right insert_sorted map fst snd all_some].
  rewrite E, R. cbn [all_some forallb snd]. rewrite Nat.eqb_refl. cbn [andb]. unfold encode_op. f_equal.
  apply map_ext. intros r. unfold encode_row. cbn [map fst snd py_sorted fold_right insert_sorted all_some].
  destruct (encode_field f (fst (rows r)) (snd (rows r))); reflexivity.
Qed.

Lemma map_nth_seq {A} (d : A) l : map (fun i => nth i l d) (seq 0 (length l)) = l.
Proof.
  induction l as [|x l IH]; [reflexivity|]. cbn [length seq map]. f_equal. rewrite <- seq_shift, map_map. exact IH.
Qed.

Lemma strings_rows l : exists rows, rows_of (strings l) = Some rows /\
  forall r, r < length l -> rows r = (1, [VString (nth r l [])]).
Proof.
  eexists. split; [reflexivity|]. intros r H. cbn [product]. f_equal.
  rewrite Nat.mul_1_r, (segment (VString [])) by (rewrite map_length; lia).
  cbn [seq map]. now rewrite Nat.add_0_r, map_nth.
Qed.

Definition is_bytes (f : field) : Prop := f_packed f = false /\ wire_type (f_type f) = 2%N.
Lemma encode_field_string f b : is_bytes f ->
  encode_field f 1 [VString b] = Some (tag (f_number f) 2 ++ delimited b).
Proof.
  intros [P T]. destruct f as [k t p]. cbn in P, T |- *. subst p.
  destruct t; try discriminate; unfold encode_field; cbn; now rewrite app_nil_r.
Qed.

Lemma encode_strings m name f l : field_of m name = Some f -> is_bytes f ->
  encode_proto [(name, strings l)] m = Some (map (fun b => tag (f_number f) 2 ++ delimited b) l).
Proof.
  intros E B. destruct (strings_rows l) as (rows & R & H). rewrite (encode_single m name f _ rows E R).
  cbn [strings batch_of].
  rewrite (all_some_map _ (fun r => tag (f_number f) 2 ++ delimited (nth r l []))).
  - f_equal. transitivity (map (fun b => tag (f_number f) 2 ++ delimited b) (map (fun r => nth r l []) (seq 0 (length l)))).
    + now rewrite map_map.
    + now rewrite map_nth_seq.
  - intros r I. apply in_seq in I. rewrite H by lia. cbn [fst snd]. rewrite encode_field_string by exact B.
    now rewrite app_nil_r.
Qed.

Lemma message_one k b : message (tag k 2 ++ delimited b) = Some [(k, Delimited b)].
Proof.
  rewrite <- (app_nil_r (tag k 2 ++ delimited b)).
  exact (message_chunks [tag k 2 ++ delimited b] [(k, Delimited b)] (Forall2_cons _ _ (chunk_delimited k b) (Forall2_nil _))).
Qed.

(** ** Features *)
Lemma nth_map_seq {A} (f : nat -> A) d n i : i < n -> nth i (map f (seq 0 n)) d = f i.
Proof.
  intros H. rewrite (nth_indep _ d (f 0)) by (rewrite map_length, seq_length; exact H).
  rewrite map_nth, seq_nth by exact H. reflexivity.
Qed.
Lemma nth_map_in {A B} (f : A -> B) d e l i : i < length l -> nth i (map f l) e = f (nth i l d).
Proof. intros H. rewrite (nth_indep _ e (f d)) by (rewrite map_length; exact H). apply map_nth. Qed.

Lemma parse_feature_of_list d b vs : d <> DOther ->
  parse_list (list_number d) b = Some vs ->
  parse_feature (tag (list_number d) 2 ++ delimited b) = Some vs.
Proof.
  intros ND P. unfold parse_feature. rewrite message_one. unfold parse_list in P.
  destruct d; cbn [list_number] in *; try congruence; cbn [oneof fold_left N.leb N.compare Pos.compare Pos.compare_cont andb]; exact P.
Qed.

Lemma serialize_feature_ok t : tensor_ok t -> dtype_of t <> DOther ->
  exists l, serialize_feature t = Some l /\ length l = batch_of t /\
  forall i, i < batch_of t -> parse_feature (nth i l []) = Some (feature_of (dtype_of t) (first_columns t i)).
Proof.
  intros OK ND. destruct (rows_of_ok t OK ND) as (rows & R & H).
  set (d := dtype_of t) in *.
  assert (X : exists l, encode_proto [("value"%string, t)] (list_message d) = Some l /\ length l = batch_of t /\
    forall i, i < batch_of t -> parse_list (list_number d) (nth i l []) = Some (feature_of d (first_columns t i))).
  { assert (E : field_of (list_message d) "value" = Some (list_field d)) by (destruct d; congruence || reflexivity).
    rewrite (encode_single _ _ _ _ _ E R).
    assert (Y : forall n, n <= batch_of t -> exists l,
      all_some (map (fun r => match encode_field (list_field d) (fst (rows r)) (snd (rows r)) with
                              | Some b => Some (b ++ []) | None => None end) (seq 0 n)) = Some l /\ length l = n /\
      forall i, i < n -> parse_list (list_number d) (nth i l []) = Some (feature_of d (first_columns t i))).
    2:{ apply Y. lia. }
    induction n as [|n IH]; intros L; [exists []; repeat split; intros; lia|].
    destruct IH as (l & E1 & E2 & E3); [lia|].
    destruct (H n ltac:(lia)) as (H1 & H2 & H3).
    destruct (list_bytes d _ _ _ ND H1 H2 H3) as (b & B1 & B2).
    exists (l ++ [b]). split; [|split].
    - rewrite seq_S, map_app. cbn [map Nat.add].
      assert (AS : forall (a : list (option bytes)) x r, all_some a = Some r -> all_some (a ++ [Some x]) = Some (r ++ [x])).
      { clear. induction a as [|[y|] a IH]; cbn [all_some app]; intros x r E; [| |discriminate].
        - now injection E as <-.
        - destruct (all_some a) as [r'|] eqn:EA; [|discriminate]. injection E as <-. now rewrite (IH x r' eq_refl). }
      rewrite B1. rewrite app_nil_r. apply AS. exact E1.
    - rewrite app_length. cbn. lia.
    - intros i Hi. destruct (Nat.eq_dec i n) as [->|NE].
      + rewrite app_nth2 by lia. rewrite E2, Nat.sub_diag. exact B2.
      + rewrite app_nth1 by lia. apply E3. lia. }
  destruct X as (l & E & L & P).
  exists (map (fun b => tag (list_number d) 2 ++ delimited b) l). split; [|split].
  - unfold serialize_feature. fold d. destruct d; try congruence; cbn [list_message] in E; rewrite E.
    + apply (encode_strings Feature "bytes_list" (Field 1 TMessage false)); [reflexivity|split; reflexivity].
    + apply (encode_strings Feature "int64_list" (Field 3 TMessage false)); [reflexivity|split; reflexivity].
    + apply (encode_strings Feature "float_list" (Field 2 TMessage false)); [reflexivity|split; reflexivity].
  - now rewrite map_length.
  - intros i Hi. rewrite (nth_map_in _ []) by lia. apply parse_feature_of_list; auto.
Qed.

(** ** Entries *)
Lemma encode_pair keys l : length keys = length l ->
  encode_proto [("key"%string, strings keys); ("value"%string, strings l)] FeatureEntry
  = Some (map (fun kb => (tag 1 2 ++ delimited (fst kb)) ++ tag 2 2 ++ delimited (snd kb)) (combine keys l)).
Proof.
  intros L. unfold encode_proto.
  change (py_sorted _ [("key"%string, strings keys); ("value"%string, strings l)])
    with [("key"%string, strings keys); ("value"%string, strings l)].
  destruct (strings_rows keys) as (r1 & R1 & H1). destruct (strings_rows l) as (r2 & R2 & H2).
  cbn [map fst snd]. rewrite R1, R2. cbn [field_of String.eqb Ascii.eqb Bool.eqb all_some forallb fst snd].
  cbn [strings batch_of]. rewrite Nat.eqb_refl, <- L, Nat.eqb_refl. cbn [andb]. unfold encode_op.
  rewrite (all_some_map _ (fun r => (tag 1 2 ++ delimited (nth r keys [])) ++ tag 2 2 ++ delimited (nth r l []))).
  - f_equal. transitivity (map (fun kb : bytes * bytes => (tag 1 2 ++ delimited (fst kb)) ++ tag 2 2 ++ delimited (snd kb))
                             (map (fun r => (nth r keys [], nth r l [])) (seq 0 (length keys)))).
    + now rewrite map_map.
    + f_equal. rewrite <- (map_nth_seq ([], []) (combine keys l)). rewrite combine_length, <- L, Nat.min_id.
      apply map_ext. intros r. now rewrite combine_nth.
  - intros r I. apply in_seq in I. unfold encode_row. cbn [map fst snd].
    cbn [py_sorted fold_right insert_sorted fst f_number N.leb N.compare Pos.compare Pos.compare_cont map].
    rewrite H1, H2 by lia. cbn [fst snd]. rewrite !encode_field_string by (split; reflexivity).
    cbn [all_some concat f_number]. now rewrite app_nil_r.
Qed.

Lemma parse_entry_ok k b f : parse_feature b = Some f ->
  parse_entry ((tag 1 2 ++ delimited k) ++ tag 2 2 ++ delimited b) = Some (k, f).
Proof.
  intros P. unfold parse_entry.
  replace ((tag 1 2 ++ delimited k) ++ tag 2 2 ++ delimited b)
    with (concat [tag 1 2 ++ delimited k; tag 2 2 ++ delimited b]) by (cbn [concat]; now rewrite app_nil_r).
  rewrite (message_chunks _ [(1%N, Delimited k); (2%N, Delimited b)])
    by (repeat (constructor; [apply chunk_delimited|]); constructor).
  unfold message_field, bytes_field, bytes_fields. cbn [flat_map N.eqb Pos.eqb app concat last].
  now rewrite app_nil_r, P.
Qed.

Lemma serialize_entry_ok k t : tensor_ok t -> dtype_of t <> DOther ->
  exists l, serialize_entry k t = Some l /\ length l = batch_of t /\
  forall i, i < batch_of t -> parse_entry (nth i l []) = Some (octets k, feature_of (dtype_of t) (first_columns t i)).
Proof.
  intros OK ND. destruct (serialize_feature_ok t OK ND) as (l & E & L & P).
  unfold serialize_entry. rewrite E.
  exists (map (fun kb => (tag 1 2 ++ delimited (fst kb)) ++ tag 2 2 ++ delimited (snd kb))
            (combine (repeat (bytes_of k) (length l)) l)).
  split; [apply encode_pair; apply repeat_length|]. split.
  - rewrite map_length, combine_length, repeat_length. lia.
  - intros i Hi. rewrite (nth_map_in _ ([], [])) by (rewrite combine_length, repeat_length; lia).
    rewrite combine_nth by apply repeat_length. cbn [fst snd].
    rewrite (nth_indep _ [] (bytes_of k)) by (rewrite repeat_length; lia). rewrite nth_repeat.
    apply parse_entry_ok. auto.
Qed.

(** ** Examples *)
Lemma collect_some {A B} (f : A -> option (list B)) (g : A -> B) l :
  (forall x, In x l -> f x = Some [g x]) -> collect f l = Some (map g l).
Proof.
  induction l as [|x l IH]; intros H; [reflexivity|]. cbn [collect map].
  rewrite (H x) by (left; reflexivity). rewrite IH by (intros; apply H; right; assumption). reflexivity.
Qed.

Lemma flat_map_skip {A} (rows : nat -> list A) w b : (forall i, length (rows i) = w) ->
  forall i, i < b -> firstn w (skipn (i * w) (flat_map rows (seq 0 b))) = rows i.
Proof.
  intros W. assert (G : forall b k i, i < b -> firstn w (skipn (i * w) (flat_map rows (seq k b))) = rows (k + i)).
  2:{ intros i H. rewrite (G b 0 i H). reflexivity. }
  clear b. induction b as [|b IH]; intros k i H; [lia|]. cbn [seq flat_map]. destruct i as [|i].
  - cbn [Nat.mul skipn]. rewrite firstn_app, W, Nat.sub_diag, Nat.add_0_r. cbn [firstn]. rewrite app_nil_r.
    rewrite <- (W k). apply firstn_all.
  - rewrite skipn_app, W. replace (S i * w - w) with (i * w) by lia.
    rewrite skipn_all2 by (rewrite W; lia). cbn [app]. rewrite IH by lia. f_equal. lia.
Qed.

(** The message of features of one row. *)
Lemma encode_features (entries : list (list bytes)) b : entries <> [] -> Forall (fun y => length y = b) entries ->
  exists t, stack entries = Some t /\
  encode_proto [("feature"%string, t)] Features
  = Some (map (fun i => concat (map (fun y => tag 1 2 ++ delimited (nth i y [])) entries)) (seq 0 b)).
Proof.
  intros NE F. destruct entries as [|x entries]; [congruence|]. set (es := x :: entries) in *.
  assert (Lx : length x = b) by (inversion F; assumption).
  assert (E : stack es = Some (Dense DString b [length es]
                (flat_map (fun i => map (fun y => VString (nth i y [])) es) (seq 0 b)))).
  { unfold stack, es. fold es. rewrite Lx. replace (forallb (fun y => length y =? b) es) with true; [reflexivity|].
    symmetry. apply forallb_forall. intros y I. rewrite Forall_forall in F. apply Nat.eqb_eq. auto. }
  eexists. split; [exact E|]. erewrite encode_single; [|reflexivity|reflexivity]. cbn [batch_of fst snd product].
  rewrite Nat.mul_1_r. apply all_some_map. intros i I. apply in_seq in I.
  rewrite (flat_map_skip (fun i => map (fun y => VString (nth i y [])) es) (length es) b) by (intros; rewrite ?map_length; lia).
  unfold encode_field. rewrite map_length, Nat.ltb_irrefl.
  rewrite firstn_all2 by (rewrite map_length; lia). rewrite map_map. cbn [f_type f_packed f_number].
  rewrite (all_some_map _ (fun y => delimited (nth i y []))) by (intros; reflexivity).
  rewrite app_nil_r, flat_map_concat_map, map_map. reflexivity.
Qed.

Lemma parse_example_ok (entries : list (list N)) (parsed : list (list N * feature)) :
  Forall2 (fun b e => parse_entry b = Some e) entries parsed ->
  parse_example (tag 1 2 ++ delimited (concat (map (fun b => tag 1 2 ++ delimited b) entries))) = Some parsed.
Proof.
  intros H. unfold parse_example. rewrite message_one. unfold message_field at 1. unfold bytes_fields at 1.
  cbn [flat_map N.eqb Pos.eqb app concat]. rewrite app_nil_r.
  rewrite (message_chunks _ (map (fun b => (1%N, Delimited b)) entries))
    by (apply Forall2_map2; intros; apply chunk_delimited).
  replace (bytes_fields 1 (map (fun b => (1%N, Delimited b)) entries)) with entries.
  2:{ unfold bytes_fields. clear H. induction entries as [|b l IH]; [reflexivity|].
      cbn [map flat_map N.eqb Pos.eqb app]. now rewrite <- IH. }
  induction H as [|b e bs es H1 H2 IH]; [reflexivity|]. cbn [collect]. rewrite H1, IH. reflexivity.
Qed.

Lemma serialize_sorted (fs : list (string * tensor)) b :
  fs <> [] -> Forall (fun kv => tensor_ok (snd kv) /\ dtype_of (snd kv) <> DOther /\ batch_of (snd kv) = b) fs ->
  exists entries, all_some (map (fun kv => serialize_entry (fst kv) (snd kv)) fs) = Some entries
  /\ length entries = length fs
  /\ Forall (fun y => length y = b) entries
  /\ forall i, i < b -> Forall2 (fun y kv => parse_entry (nth i y [])
       = Some (octets (fst kv), feature_of (dtype_of (snd kv)) (first_columns (snd kv) i))) entries fs.
Proof.
  intros _ F. induction F as [|[k t] fs (OK & ND & B) F IH]; [exists []; repeat split; constructor|].
  destruct IH as (es & E & L & F1 & P). cbn [fst snd] in *.
  destruct (serialize_entry_ok k t OK ND) as (l & E' & L' & P').
  exists (l :: es). cbn [map all_some fst snd]. rewrite E', E. split; [reflexivity|]. split; [cbn; congruence|].
  split; [constructor; congruence|]. intros i Hi. constructor; [cbn [fst snd]; apply P'; congruence|auto].
Qed.

Theorem example_rows features b :
  features <> [] -> Forall (fun kv => tensor_ok (snd kv) /\ dtype_of (snd kv) <> DOther /\ batch_of (snd kv) = b) features ->
  exists rows, serialize_example features = Some rows /\ length rows = b /\
  forall i, i < b -> exists parsed, parse_example (nth i rows []) = Some parsed /\
    Permutation parsed (map (fun kv => (octets (fst kv), feature_of (dtype_of (snd kv)) (first_columns (snd kv) i))) features).
Proof.
  intros NE F. set (fs := py_sorted (fun a b : string * tensor => String.leb (fst a) (fst b)) features).
  assert (P : Permutation fs features) by apply py_sorted_perm.
  assert (NE' : fs <> []) by (intros E; rewrite E in P; apply Permutation_nil in P; congruence).
  assert (F' := Permutation_Forall (Permutation_sym P) F).
  destruct (serialize_sorted fs b NE' F') as (entries & E & L & FL & H).
  assert (NEe : entries <> []) by (intros ->; destruct fs; [congruence|discriminate]).
  destruct (encode_features entries b NEe FL) as (t & T1 & T2).
  unfold serialize_example. fold fs. rewrite E, T1, T2.
  eexists. split; [apply (encode_strings Example "features" (Field 1 TMessage false)); [reflexivity|split; reflexivity]|].
  split; [now rewrite !map_length, seq_length|]. intros i Hi.
  exists (map (fun kv => (octets (fst kv), feature_of (dtype_of (snd kv)) (first_columns (snd kv) i))) fs).
  split; [|now apply Permutation_map].
  rewrite map_map, nth_map_seq by exact Hi. cbn [f_number].
  rewrite <- (map_map (fun y => nth i y []) (fun b => tag 1 2 ++ delimited b)). apply parse_example_ok.
  specialize (H i Hi). clear - H. induction H; cbn [map]; constructor; auto.
Qed.

(** Left-aligned rows are written in full. *)
Lemma find_in_row d (es : list ((nat * nat) * value)) i e :
  NoDup (map fst es) -> In e es -> fst (fst e) = i -> at_column d es i (snd (fst e)) = snd e.
Proof.
  intros N I E. unfold at_column.
  destruct (find (fun e0 => (fst (fst e0) =? i) && (snd (fst e0) =? snd (fst e))) es) as [e'|] eqn:F.
  - apply find_some in F as [I' H]. apply andb_true_iff in H as [H1 H2]. apply Nat.eqb_eq in H1, H2.
    f_equal. destruct e as [[r c] v], e' as [[r' c'] v']. cbn [fst snd] in *. subst.
    f_equal. clear - N I I'. induction es as [|[p w] es IH]; [contradiction|]. cbn [map fst] in N.
    inversion N as [|? ? NI N']; subst. destruct I as [I|I], I' as [I'|I'].
    + congruence.
    + injection I as -> ->. exfalso. apply NI. apply in_map_iff. now exists ((i, c), v').
    + injection I' as -> ->. exfalso. apply NI. apply in_map_iff. now exists ((i, c), v).
    + auto.
  - exfalso. eapply find_none in F; [|exact I]. cbn beta in F. rewrite E, !Nat.eqb_refl in F. discriminate.
Qed.
Lemma aligned_first_columns t i : tensor_ok t -> left_aligned t -> i < batch_of t -> first_columns t i = row t i.
Proof.
  destruct t as [d b dims vs|d b w es]; [reflexivity|]. intros [F O] A Hi. cbn [batch_of left_aligned first_columns row] in *.
  specialize (A i Hi). cbv zeta in A. rewrite map_length in A. rewrite <- A, map_map.
  rewrite <- (map_length fst es) in O. apply ordered_nodup in O.
  apply map_ext_in. intros e I. apply filter_In in I as [I E]. apply find_in_row; [exact O|exact I|now apply Nat.eqb_eq].
Qed.

(** ** When it is an error *)
Lemma rows_of_none t : dtype_of t = DOther -> (forall d b w es, t <> Sparse d b w es) \/ rows_of t = None.
Proof. destruct t; cbn; intros ->; [left; discriminate|right; reflexivity]. Qed.

Lemma all_some_none {A} (l : list (option A)) : In None l -> all_some l = None.
Proof.
  induction l as [|[x|] l IH]; cbn; intros I; [contradiction| |reflexivity].
  destruct I as [I|I]; [discriminate|]. now rewrite IH.
Qed.
Lemma other_type_error features k t : In (k, t) features -> dtype_of t = DOther -> serialize_example features = None.
Proof.
  intros I D. unfold serialize_example.
  rewrite all_some_none; [reflexivity|]. apply in_map_iff. exists (k, t). split.
  - cbn [fst snd]. unfold serialize_entry, serialize_feature. now rewrite D.
  - eapply Permutation_in; [symmetry; apply py_sorted_perm|exact I].
Qed.
Lemma batch_error features k1 t1 k2 t2 :
  Forall (fun kv => tensor_ok (snd kv) /\ dtype_of (snd kv) <> DOther) features ->
  In (k1, t1) features -> In (k2, t2) features -> batch_of t1 <> batch_of t2 -> serialize_example features = None.
Proof.
  intros F I1 I2 NE. unfold serialize_example.
  set (fs := py_sorted (fun a b : string * tensor => String.leb (fst a) (fst b)) features).
  assert (P : Permutation fs features) by apply py_sorted_perm.
  assert (F' := Permutation_Forall (Permutation_sym P) F).
  assert (J1 : In (k1, t1) fs) by (eapply Permutation_in; [symmetry; exact P|exact I1]).
  assert (J2 : In (k2, t2) fs) by (eapply Permutation_in; [symmetry; exact P|exact I2]).
  destruct (all_some _) as [es|] eqn:E; [|reflexivity].
  assert (Q : forall k t, In (k, t) fs -> exists l, In l es /\ length l = batch_of t).
  { clear - F' E. revert es E. induction F' as [|[k0 t0] fs (OK & ND) F IH]; [contradiction|].
    cbn [fst snd] in *. destruct (serialize_entry_ok k0 t0 OK ND) as (l & E1 & L & _).
    cbn [map all_some fst snd]. rewrite E1. destruct (all_some _) as [r|]; [|discriminate].
    intros es [= <-] k t [[= -> ->]|I]; [exists l; split; [left; reflexivity|exact L]|].
    destruct (IH r eq_refl k t I) as (l' & I' & L'). exists l'. split; [right; exact I'|exact L']. }
  destruct (Q k1 t1 J1) as (l1 & K1 & L1). destruct (Q k2 t2 J2) as (l2 & K2 & L2).
  assert (S : stack es = None).
  { unfold stack. destruct es as [|x es]; [reflexivity|].
    destruct (forallb (fun y => length y =? length x) (x :: es)) eqn:A; [|reflexivity].
    rewrite forallb_forall in A. assert (A1 := A l1 K1). assert (A2 := A l2 K2).
    apply Nat.eqb_eq in A1, A2. congruence. }
  now rewrite S.
Qed.

(** ** The order of insertion plays no role *)
Lemma order_irrelevant f1 f2 : Permutation f1 f2 -> NoDup (map fst f1) -> serialize_example f1 = serialize_example f2.
Proof.
  intros P N. unfold serialize_example.
  replace (py_sorted (fun a b : string * tensor => String.leb (fst a) (fst b)) f2)
    with (py_sorted (fun a b : string * tensor => String.leb (fst a) (fst b)) f1); [reflexivity|].
  apply py_sorted_perm_eq; [..|exact P|].
  - intros x y. apply bytes_leb_total.
  - intros x y z. apply bytes_leb_trans.
  - intros [k1 t1] [k2 t2] I1 I2 A B. cbn [fst] in *. assert (k1 = k2) as <- by (now apply bytes_leb_antisym).
    f_equal. clear - N I1 I2. induction f1 as [|[k t] f IH]; [contradiction|]. cbn [map fst] in N.
    inversion N as [|? ? NI N']; subst. destruct I1 as [I1|I1], I2 as [I2|I2].
    + congruence.
    + injection I1 as -> ->. exfalso. apply NI. apply in_map_iff. now exists (k1, t2).
    + injection I2 as -> ->. exfalso. apply NI. apply in_map_iff. now exists (k1, t1).
    + auto.
Qed.

(** ** The annotations *)
Lemma metadata_read name u f : (- 2 ^ 63 <= u < 2 ^ 63)%Z -> (- 2 ^ 63 <= f < 2 ^ 63)%Z ->
  exists m, vocabulary_metadata name u f = Some m /\
  parse_vocabulary_metadata m = Some (octets name, Some u, Some f).
Proof.
  intros U F.
  assert (E : vocabulary_metadata name u f
    = Some (concat [tag 1 2 ++ delimited (bytes_of name); tag 2 0 ++ varint (code u); tag 3 0 ++ varint (code f)])).
  { unfold vocabulary_metadata, encode_proto.
    match goal with |- context [py_sorted ?l ?x] =>
      change (py_sorted l x) with
        [("file_name"%string, strings [bytes_of name]);
         ("filtered_vocabulary_size"%string, Dense DInt64 1 [] [VInt64 f]);
         ("unfiltered_vocabulary_size"%string, Dense DInt64 1 [] [VInt64 u])] end.
    cbn -[tag delimited varint N.of_nat Z.modulo Z.pow bytes_of].
    unfold encode_op, encode_row. cbn -[tag delimited varint N.of_nat Z.modulo Z.pow bytes_of].
    unfold encode_field. cbn -[tag delimited varint N.of_nat Z.modulo Z.pow bytes_of].
    rewrite !app_nil_r. unfold code. rewrite <- ?app_assoc. reflexivity. }
  eexists. split; [exact E|]. unfold parse_vocabulary_metadata.
  rewrite (message_chunks _ [(1%N, Delimited (bytes_of name)); (2%N, Varint (code u)); (3%N, Varint (code f))]).
  2:{ constructor; [apply chunk_delimited|]. constructor; [apply chunk_int|]. constructor; [apply chunk_int|constructor]. }
  unfold int64_fields. cbn [collect N.eqb Pos.eqb app rev hd_error].
  unfold code. rewrite !to_int64_mod by assumption. reflexivity.
Qed.

Lemma boundaries_read l : Forall (fun n => n < 2 ^ 32)%N l ->
  exists m, bucket_boundaries l = Some m /\ parse_bucket_boundaries m = Some l.
Proof.
  intros F. unfold bucket_boundaries, encode_op, encode_row. cbn [seq map fst snd py_sorted fold_right insert_sorted].
  unfold encode_field. rewrite map_length, Nat.ltb_irrefl. rewrite firstn_all2 by (rewrite map_length; lia).
  cbn [f_type f_packed f_number]. rewrite map_map, (all_some_map _ word) by reflexivity.
  cbn [all_some]. eexists. split; [reflexivity|]. cbn [concat]. rewrite app_nil_r.
  rewrite flat_map_concat_map, map_map. unfold parse_bucket_boundaries.
  rewrite (message_chunks _ (map (fun n => (1%N, Fixed32 (word n))) l))
    by (apply Forall2_map2; intros; now apply chunk_fixed).
  unfold float_fields. induction F as [|n l H F IH]; [reflexivity|]. cbn [map collect N.eqb Pos.eqb].
  rewrite IH. cbn [app]. now rewrite to_float_word.
Qed.

(** ** The statements of the properties *)
Lemma aligned_rows features b :
  features <> [] ->
  Forall (fun kv => tensor_ok (snd kv) /\ left_aligned (snd kv) /\
                    dtype_of (snd kv) <> DOther /\ batch_of (snd kv) = b) features ->
  exists rows, serialize_example features = Some rows /\ length rows = b /\
  forall i, i < b -> exists parsed, parse_example (nth i rows []) = Some parsed /\
    Permutation parsed
      (map (fun kv => (octets (fst kv), feature_of (dtype_of (snd kv)) (row (snd kv) i))) features).
Proof.
  intros NE F. destruct (example_rows features b NE) as (rows & E & L & H).
  { eapply Forall_impl; [|exact F]. cbn. tauto. }
  exists rows. split; [exact E|]. split; [exact L|]. intros i Hi. destruct (H i Hi) as (p & P1 & P2).
  exists p. split; [exact P1|]. rewrite P2. apply Permutation_refl'. apply map_ext_in. intros kv I.
  rewrite Forall_forall in F. destruct (F kv I) as (A1 & A2 & A3 & A4).
  rewrite aligned_first_columns by (auto; congruence). reflexivity.
Qed.

Lemma error_iff features :
  Forall (fun kv => dtype_of (snd kv) = DOther \/ tensor_ok (snd kv)) features ->
  (serialize_example features = None <->
   features = [] \/ (exists kv, In kv features /\ dtype_of (snd kv) = DOther) \/
   (exists kv1 kv2, In kv1 features /\ In kv2 features /\ batch_of (snd kv1) <> batch_of (snd kv2))).
Proof.
  intros F. rewrite Forall_forall in F.
  assert (D : (exists kv, In kv features /\ dtype_of (snd kv) = DOther)
              \/ Forall (fun kv => tensor_ok (snd kv) /\ dtype_of (snd kv) <> DOther) features).
  { induction features as [|kv fs IH]; [right; constructor|].
    destruct IH as [(kv' & I & E)|IH]; [intros; apply F; now right|left; exists kv'; split; [now right|exact E]|].
    destruct (F kv (or_introl eq_refl)) as [E|OK]; [left; exists kv; split; [now left|exact E]|].
    destruct (dtype_of (snd kv)) eqn:E; try (right; constructor; [split; [exact OK|congruence]|exact IH]).
    left. exists kv. split; [now left|exact E]. }
  destruct D as [([k t] & I & E)|D].
  - split; [intros _; right; left; now exists (k, t)|]. intros _. eapply other_type_error; eauto.
  - split.
    + intros N. destruct features as [|[k t] fs]; [now left|]. right. right.
      destruct (forallb (fun kv => batch_of (snd kv) =? batch_of t) ((k, t) :: fs)) eqn:A.
      * exfalso. rewrite forallb_forall in A.
        destruct (example_rows ((k, t) :: fs) (batch_of t)) as (rows & E & _); [discriminate| |congruence].
        apply Forall_forall. intros kv I. rewrite Forall_forall in D. destruct (D kv I).
        repeat split; auto. now apply Nat.eqb_eq, A.
      * assert (X : exists kv, In kv ((k, t) :: fs) /\ batch_of (snd kv) <> batch_of t).
        { clear - A. induction ((k, t) :: fs) as [|kv l IH]; [discriminate|]. cbn [forallb] in A.
          destruct (Nat.eqb_spec (batch_of (snd kv)) (batch_of t)) as [_|NE]; [|exists kv; split; [now left|exact NE]].
          destruct (IH A) as (kv' & I & NE). exists kv'. split; [now right|exact NE]. }
        destruct X as (kv & I & NE). exists kv, (k, t). split; [exact I|]. split; [now left|exact NE].
    + intros [->|[(kv & I & E)|([k1 t1] & [k2 t2] & I1 & I2 & NE)]].
      * reflexivity.
      * rewrite Forall_forall in D. now destruct (D kv I).
      * exact (batch_error features k1 t1 k2 t2 D I1 I2 NE).
Qed.
