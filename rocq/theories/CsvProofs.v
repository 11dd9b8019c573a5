(** Proofs about the CSV coder. *)
From Coq Require Import Arith NArith String List Bool Lia.
From Verif Require Import CsvModel CsvSpec.
Import ListNotations.
Local Notation length := List.length.

(** * Reading what the writer wrote *)
Section Round.
Variable qn : bool.
Variable d : N.
Hypothesis Hd : proper_delimiter d.

Definition ready (f : text) : Prop := qn = true \/ one_line f.

Lemma d_quote : (d =? quote)%N = false.
Proof. apply N.eqb_neq. apply Hd. Qed.

Lemma d_newline : is_newline d = false.
Proof.
  unfold is_newline. apply orb_false_iff. split; apply N.eqb_neq; apply Hd.
Qed.

Lemma d_lf : (d =? line_feed)%N = false.
Proof. apply N.eqb_neq. apply Hd. Qed.

Lemma newline_lf : forall c, is_newline c = false -> (c =? line_feed)%N = false.
Proof. intros c H. apply orb_false_iff in H. apply H. Qed.

Lemma plain_char : forall c f, existsb (special qn d) (c :: f) = false -> ready (c :: f) ->
  (c =? d)%N = false /\ (c =? quote)%N = false /\ is_newline c = false
  /\ existsb (special qn d) f = false /\ ready f.
Proof.
  intros c f E R. cbn in E. apply orb_false_iff in E. destruct E as [E1 E2].
  unfold special in E1. apply orb_false_iff in E1. destruct E1 as [E1 E3].
  apply orb_false_iff in E1. destruct E1 as [E1 E4].
  repeat split; auto.
  - destruct R as [R|R]; [|apply R; now left]. rewrite R in E3. exact E3.
  - destruct R as [R|R]; [now left|right]. intros x Hx. apply R. now right.
Qed.

Lemma read_cons : forall c t s s', read_char d c s = Some s' -> (c =? line_feed)%N = false ->
  read_chars d (c :: t) s = read_chars d t s'.
Proof. intros c t s s' H E. cbn [read_chars]. now rewrite H, E. Qed.

Lemma read_plain : forall f field fields records rest,
  existsb (special qn d) f = false -> ready f ->
  read_chars d (f ++ rest) (Reader InField field fields records)
  = read_chars d rest (Reader InField (rev f ++ field) fields records).
Proof.
  induction f as [|c f IH]; intros field fields records rest E R; [reflexivity|].
  destruct (plain_char _ _ E R) as (E1 & E2 & E3 & E4 & E5).
  cbn [app read_chars read_char r_mode]. rewrite E3, E1, (newline_lf _ E3).
  unfold add; cbn [r_field r_fields r_records].
  rewrite (IH _ _ _ _ E4 E5). cbn [rev]. now rewrite <- app_assoc.
Qed.

Lemma read_quoted : forall f field fields records rest,
  read_chars d (flat_map (fun c => if (c =? quote)%N then [quote; quote] else [c]) f ++ rest)
    (Reader InQuoted field fields records)
  = read_chars d rest (Reader InQuoted (rev f ++ field) fields records).
Proof.
  induction f as [|c f IH]; intros field fields records rest; [reflexivity|].
  cbn [flat_map]. destruct (c =? quote)%N eqn:E.
  - apply N.eqb_eq in E. subst c. rewrite <- app_assoc. cbn [app].
    rewrite (read_cons quote _ _ (Reader QuoteInQuoted field fields records))
      by reflexivity.
    rewrite (read_cons quote _ _ (Reader InQuoted (quote :: field) fields records))
      by reflexivity.
    rewrite IH. cbn [rev]. now rewrite <- app_assoc.
  - cbn [app read_chars read_char r_mode]. rewrite E. unfold add; cbn [r_field r_fields r_records].
    assert (K : (if (c =? line_feed)%N
                 then end_of_line (Reader InQuoted (c :: field) fields records)
                 else Reader InQuoted (c :: field) fields records)
                = Reader InQuoted (c :: field) fields records).
    { destruct (c =? line_feed)%N; reflexivity. }
    rewrite K, IH. cbn [rev]. now rewrite <- app_assoc.
Qed.

(** A field, read up to the character after it. *)
Lemma read_field : forall f fields records rest, ready f ->
  exists m, (m = StartField /\ f = [] \/ m = InField \/ m = QuoteInQuoted)
    /\ read_chars d (write_field qn d f ++ rest) (Reader StartField [] fields records)
       = read_chars d rest (Reader m (rev f) fields records).
Proof.
  intros f fields records rest R. unfold write_field.
  destruct (existsb (special qn d) f) eqn:E.
  - exists QuoteInQuoted. split; [tauto|].
    cbn [app]. rewrite (read_cons quote _ _ (Reader InQuoted [] fields records))
      by reflexivity.
    rewrite <- app_assoc, read_quoted. cbn [app].
    rewrite (read_cons quote _ _ (Reader QuoteInQuoted (rev f ++ []) fields records))
      by reflexivity.
    now rewrite app_nil_r.
  - destruct f as [|c f].
    + exists StartField. split; [tauto|reflexivity].
    + exists InField. split; [tauto|].
      destruct (plain_char _ _ E R) as (E1 & E2 & E3 & E4 & E5).
      cbn [app read_chars read_char r_mode]. unfold start_field.
      rewrite E3, E2, E1, (newline_lf _ E3). unfold add; cbn [r_field r_fields r_records].
      rewrite (read_plain _ _ _ _ _ E4 E5). reflexivity.
Qed.

Lemma read_delimiter : forall m f fields records rest,
  m = StartField /\ f = [] \/ m = InField \/ m = QuoteInQuoted ->
  read_chars d (d :: rest) (Reader m (rev f) fields records)
  = read_chars d rest (Reader StartField [] (f :: fields) records).
Proof.
  intros m f fields records rest H. cbn [read_chars]. unfold read_char.
  destruct H as [[Hm Hf]|[Hm|Hm]]; subst m; cbn [r_mode].
  - subst f. unfold start_field. rewrite d_newline, d_quote, N.eqb_refl, d_lf. reflexivity.
  - rewrite d_newline, N.eqb_refl, d_lf. unfold save; cbn [r_field r_fields r_records].
    now rewrite rev_involutive.
  - rewrite d_quote, N.eqb_refl, d_lf. unfold save; cbn [r_field r_fields r_records].
    now rewrite rev_involutive.
Qed.

Lemma read_end : forall m f fields records rest,
  m = StartField /\ f = [] \/ m = InField \/ m = QuoteInQuoted ->
  read_chars d (line_feed :: rest) (Reader m (rev f) fields records)
  = read_chars d rest (Reader StartRecord [] [] (rev (f :: fields) :: records)).
Proof.
  intros m f fields records rest H. cbn [read_chars]. unfold read_char.
  change (line_feed =? line_feed)%N with true.
  assert (K : (line_feed =? d)%N = false) by (rewrite N.eqb_sym; apply d_lf).
  destruct H as [[Hm Hf]|[Hm|Hm]]; subst m; cbn [r_mode].
  - subst f. unfold start_field. change (is_newline line_feed) with true. reflexivity.
  - change (is_newline line_feed) with true. unfold save, end_of_line.
    cbn [r_field r_fields r_records r_mode]. now rewrite rev_involutive.
  - change (line_feed =? quote)%N with false. rewrite K. change (is_newline line_feed) with true.
    unfold save, end_of_line.
    cbn [r_field r_fields r_records r_mode]. now rewrite rev_involutive.
Qed.

Lemma read_fields : forall l f fields records rest, Forall ready (f :: l) ->
  read_chars d (join d (map (write_field qn d) (f :: l)) ++ line_feed :: rest)
    (Reader StartField [] fields records)
  = read_chars d rest (Reader StartRecord [] [] ((rev fields ++ f :: l) :: records)).
Proof.
  induction l as [|g l IH]; intros f fields records rest R.
  - cbn [map join]. inversion R as [|? ? R1 R2]; subst.
    destruct (read_field f fields records (line_feed :: rest) R1) as (m & Hm & E).
    rewrite E, (read_end _ _ _ _ _ Hm). cbn [rev]. reflexivity.
  - inversion R as [|? ? R1 R2]; subst.
    change (join d (map (write_field qn d) (f :: g :: l)))
      with (write_field qn d f ++ d :: join d (map (write_field qn d) (g :: l))).
    rewrite <- app_assoc.
    destruct (read_field f fields records
                ((d :: join d (map (write_field qn d) (g :: l))) ++ line_feed :: rest) R1)
      as (m & Hm & E).
    rewrite E. cbn [app]. rewrite (read_delimiter _ _ _ _ _ Hm).
    rewrite IH by assumption. cbn [rev]. now rewrite <- app_assoc.
Qed.

Lemma write_field_head : forall f, ready f ->
  match write_field qn d f with c :: _ => is_newline c = false | [] => True end.
Proof.
  intros f R. unfold write_field. destruct (existsb (special qn d) f) eqn:E; [reflexivity|].
  destruct f as [|c f]; [exact I|].
  destruct (plain_char _ _ E R) as (_ & _ & E3 & _). exact E3.
Qed.

Lemma write_field_nil : forall f, write_field qn d f = [] -> f = [].
Proof.
  intros f. unfold write_field. destruct (existsb (special qn d) f); [discriminate|auto].
Qed.

Lemma start_record_field : forall c t fields records, is_newline c = false ->
  read_chars d (c :: t) (Reader StartRecord [] fields records)
  = read_chars d (c :: t) (Reader StartField [] fields records).
Proof.
  intros c t fields records H. cbn [read_chars]. unfold read_char. cbn [r_mode].
  rewrite H. unfold start_field. rewrite H. unfold go, save, add.
  cbn [r_field r_fields r_records]. reflexivity.
Qed.

(** One row, read back whatever follows it. *)
Lemma read_row : forall fields records rest, Forall ready fields ->
  read_chars d (write_row qn d fields ++ line_feed :: rest) (Reader StartRecord [] [] records)
  = read_chars d rest (Reader StartRecord [] [] (fields :: records)).
Proof.
  intros fields records rest R.
  assert (H : fields = [] \/ fields = [[]]
              \/ exists f l, fields = f :: l /\ write_row qn d fields
                             = join d (map (write_field qn d) fields)
                             /\ (f <> [] \/ l <> [])).
  { destruct fields as [|f l]; [now left|]. right. destruct f as [|c f].
    - destruct l as [|g l]; [now left|]. right. exists [], (g :: l).
      repeat split; auto. right. discriminate.
    - right. exists (c :: f), l. repeat split; auto. left. discriminate. }
  destruct H as [H|[H|(f & l & H & E & N)]].
  - subst fields. cbn [write_row map join app]. reflexivity.
  - subst fields. cbn [write_row app]. rewrite start_record_field by reflexivity.
    rewrite (read_cons quote _ _ (Reader InQuoted [] [] records)) by reflexivity.
    rewrite (read_cons quote _ _ (Reader QuoteInQuoted [] [] records)) by reflexivity.
    apply (read_end QuoteInQuoted [] [] records rest). tauto.
  - rewrite E.
    rewrite H.
    assert (K : exists c t, join d (map (write_field qn d) (f :: l)) = c :: t
                            /\ is_newline c = false).
    { subst fields. inversion R as [|? ? R1 R2]; subst.
      pose proof (write_field_head f R1) as Hh.
      destruct (write_field qn d f) as [|c t] eqn:Ew.
      - apply write_field_nil in Ew. subst f. destruct N as [N|N]; [now destruct N|].
        destruct l as [|g l]; [now destruct N|].
        exists d, (join d (map (write_field qn d) (g :: l))). split; [|apply d_newline].
        cbn [map join]. unfold write_field at 1. cbn [existsb]. reflexivity.
      - destruct l as [|g l].
        + exists c, t. split; [cbn [map join]; exact Ew|exact Hh].
        + exists c. cbn [map join]. rewrite Ew. eexists. split; [reflexivity|exact Hh]. }
    destruct K as (c & t & Ek & Hc).
    rewrite Ek. cbn [app]. rewrite (start_record_field _ _ _ _ Hc).
    change (c :: t ++ line_feed :: rest) with ((c :: t) ++ line_feed :: rest).
    rewrite <- Ek, read_fields by (now rewrite <- H). reflexivity.
Qed.

Lemma read_rows : forall rows records, Forall (Forall ready) rows ->
  read_chars d (file_of (map (write_row qn d) rows)) (Reader StartRecord [] [] records)
  = Some (Reader StartRecord [] [] (rev rows ++ records)).
Proof.
  induction rows as [|r rows IH]; intros records R; [reflexivity|].
  inversion R as [|? ? R1 R2]; subst.
  unfold file_of. cbn [map flat_map]. rewrite <- app_assoc. cbn [app].
  rewrite (read_row _ _ _ R1). fold (file_of (map (write_row qn d) rows)).
  rewrite (IH _ R2). cbn [rev]. now rewrite <- app_assoc.
Qed.

Lemma rows_back : forall rows, Forall (Forall ready) rows ->
  read_file d (file_of (map (write_row qn d) rows)) = Some rows.
Proof.
  intros rows R. unfold read_file. rewrite (read_rows _ _ R), app_nil_r.
  now rewrite rev_involutive.
Qed.

(** Characters of a row. *)
Lemma write_field_chars : forall f c, In c (write_field qn d f) -> In c f \/ c = quote.
Proof.
  intros f c. unfold write_field. destruct (existsb (special qn d) f); [|now left].
  intros [H|H]; [now right|]. apply in_app_or in H. destruct H as [H|H].
  - apply in_flat_map in H. destruct H as (x & Hx & H).
    destruct (x =? quote)%N eqn:E.
    + right. cbn in H. repeat destruct H as [H|H]; auto; now destruct H.
    + left. destruct H as [H|[]]. now subst.
  - destruct H as [H|[]]. now right.
Qed.

Lemma join_chars : forall l c, In c (join d l) -> c = d \/ exists f, In f l /\ In c f.
Proof.
  induction l as [|f l IH]; intros c H; [now destruct H|].
  destruct l as [|g l].
  - right. exists f. split; [now left|exact H].
  - change (join d (f :: g :: l)) with (f ++ d :: join d (g :: l)) in H.
    apply in_app_or in H. destruct H as [H|[H|H]].
    + right. exists f. split; [now left|exact H].
    + now left.
    + destruct (IH _ H) as [K|(x & K1 & K2)]; [now left|].
      right. exists x. split; [now right|exact K2].
Qed.

Lemma write_row_chars : forall l c, In c (write_row qn d l) ->
  c = d \/ c = quote \/ exists f, In f l /\ In c f.
Proof.
  intros l c H.
  assert (K : In c (join d (map (write_field qn d) l)) \/ c = quote).
  { unfold write_row in H. destruct l as [|[|x f] [|g l]]; auto.
    cbn in H. repeat destruct H as [H|H]; auto; now destruct H. }
  destruct K as [K|K]; [|tauto].
  destruct (join_chars _ _ K) as [E|(f & H1 & H2)]; [tauto|].
  apply in_map_iff in H1. destruct H1 as (g & E & H1). subst f.
  destruct (write_field_chars _ _ H2) as [H3|H3]; [|tauto].
  right; right. now exists g.
Qed.

Lemma write_row_encodable : forall l, Forall encodable l ->
  forallb encodable_char (write_row qn d l) = true.
Proof.
  intros l H. apply forallb_forall. intros c Hc.
  destruct (write_row_chars _ _ Hc) as [E|[E|(f & H1 & H2)]].
  - subst. apply Hd.
  - subst. reflexivity.
  - rewrite Forall_forall in H. exact (H f H1 c H2).
Qed.

Lemma write_row_ready : forall l, Forall ready l -> ready (write_row qn d l).
Proof.
  intros l H. destruct qn eqn:Q; [now left|]. right. intros c Hc.
  destruct (write_row_chars l c) as [E|[E|(f & H1 & H2)]].
  - now rewrite Q.
  - subst. apply d_newline.
  - subst. reflexivity.
  - rewrite Forall_forall in H. destruct (H f H1) as [K|K].
    + rewrite Q in K. discriminate.
    + exact (K c H2).
Qed.
End Round.

(** * The row of an instance *)
Lemma store_length : forall A i (x : A) l, length (store i x l) = length l.
Proof.
  intros A i x l. revert i. induction l as [|y l IH]; intros [|i]; cbn; auto.
Qed.

Lemma store_same : forall A i (x : A) l, i < length l -> nth_error (store i x l) i = Some x.
Proof.
  intros A i x l. revert i. induction l as [|y l IH]; intros [|i] H; cbn in *; try lia; auto.
  apply IH. lia.
Qed.

Lemma store_other : forall A i j (x : A) l, i <> j ->
  nth_error (store i x l) j = nth_error l j.
Proof.
  intros A i j x l. revert i j.
  induction l as [|y l IH]; intros [|i] [|j] H; cbn; auto; try congruence.
Qed.

Lemma last_index_nth : forall name columns i,
  last_index name columns = Some i -> nth_error columns i = Some name.
Proof.
  intros name. induction columns as [|c l IH]; intros i H; [discriminate|].
  cbn in H. destruct (last_index name l) as [j|] eqn:E.
  - inversion H; subst. cbn. auto.
  - destruct (String.eqb c name) eqn:K; [|discriminate].
    inversion H; subst. apply String.eqb_eq in K. now subst.
Qed.

Section Instance.
Variable qn : bool.
Variable cast : value -> value.
Variable show_sequence : list value -> text.

Lemma fill_ok : forall (c : coder) instance (P : handler -> value -> Prop) hs row,
  (forall h, In h hs -> exists v x, lookup (h_name h) instance = Some v
     /\ encode_value qn cast show_sequence c fresh h v = (fresh, Ok x) /\ P h x) ->
  NoDup (map h_index hs) ->
  exists row', fill qn cast show_sequence c instance hs fresh row = (fresh, Ok row')
    /\ length row' = length row
    /\ (forall h, In h hs -> h_index h < length row ->
          exists x, nth_error row' (h_index h) = Some x /\ P h x)
    /\ (forall i, ~ In i (map h_index hs) -> nth_error row' i = nth_error row i).
Proof.
  intros c instance P. induction hs as [|h hs IH]; intros row H ND.
  - exists row. cbn. repeat split; auto. intros h [].
  - destruct (H h (or_introl eq_refl)) as (v & x & L & E & Px).
    inversion ND as [|? ? N1 N2]; subst.
    destruct (IH (store (h_index h) x row)) as (row' & F & Len & I1 & I2).
    { intros g Hg. apply H. now right. }
    { exact N2. }
    exists row'. cbn [fill]. rewrite L, E. split; [exact F|].
    rewrite store_length in Len, I1. split; [exact Len|]. split.
    + intros g [Hg|Hg] Lt; [|now apply I1].
      subst g. exists x. split; [|exact Px].
      rewrite (I2 _ N1). now apply store_same.
    + intros i Hi. rewrite I2 by (intro K; apply Hi; now right).
      apply store_other. intro K. apply Hi. now left.
Qed.

(** The handlers a coder gets. *)
Definition handler_of (columns multivalent : list string) (features : list (string * feature_spec))
    (f : string * feature_spec) (column : string) (h : handler) : Prop :=
  h_name h = column
  /\ h_fixed h = match snd f with FixedLen shape => Some shape | _ => None end
  /\ h_multi h = existsb (String.eqb (fst f)) multivalent
  /\ last_index column columns = Some (h_index h).

Lemma key_handlers_spec : forall columns multi keys hs,
  key_handlers columns multi keys = Ok hs ->
  map h_name hs = keys
  /\ (forall k, In k keys -> exists h, In h hs /\ h_name h = k)
  /\ (forall h, In h hs -> In (h_name h) keys /\ h_fixed h = None /\ h_multi h = multi
        /\ last_index (h_name h) columns = Some (h_index h)).
Proof.
  intros columns multi. induction keys as [|k keys IH]; intros hs H; cbn in H.
  - inversion H; subst. cbn. repeat split; intros; tauto.
  - destruct (last_index k columns) as [i|] eqn:E; [|discriminate].
    destruct (key_handlers columns multi keys) as [hs'|e]; [|discriminate].
    inversion H; subst hs. clear H. destruct (IH hs' eq_refl) as (I1 & I2 & I3).
    split; [cbn; now rewrite I1|]. split.
    + intros x [Hx|Hx].
      * subst x. eexists. split; [now left|reflexivity].
      * destruct (I2 _ Hx) as (h & H1 & H2). exists h. split; [now right|exact H2].
    + intros h [Hh|Hh].
      * subst h. cbn. repeat split; auto.
      * destruct (I3 _ Hh) as (H1 & H2). split; [now right|exact H2].
Qed.

Lemma feature_handlers_spec : forall columns multivalent name spec hs,
  feature_handlers columns multivalent name spec = Ok hs ->
  spec <> OtherSpec /\
  map h_name hs = filled_by (name, spec)
  /\ (forall h, In h hs -> In (h_name h) (filled_by (name, spec))
        /\ handler_of columns multivalent [] (name, spec) (h_name h) h).
Proof.
  intros columns multivalent name spec hs H. unfold handler_of, filled_by. cbn [fst snd].
  unfold feature_handlers in H. destruct spec as [shape| |ks vk|].
  - destruct (last_index name columns) as [i|] eqn:E; [|discriminate].
    inversion H; subst hs. split; [discriminate|]. split; [reflexivity|].
    intros h [Hh|[]]. subst h. cbn. repeat split; auto.
  - destruct (last_index name columns) as [i|] eqn:E; [|discriminate].
    inversion H; subst hs. split; [discriminate|]. split; [reflexivity|].
    intros h [Hh|[]]. subst h. cbn. repeat split; auto.
  - destruct (key_handlers_spec _ _ _ _ H) as (I1 & I2 & I3).
    split; [discriminate|]. split; [exact I1|]. intros h Hh. destruct (I3 _ Hh) as (H1 & H2 & H3 & H4).
    repeat split; auto.
  - discriminate.
Qed.

Lemma all_handlers_spec : forall columns multivalent features hs,
  all_handlers columns multivalent features = Ok hs ->
  map h_name hs = flat_map filled_by features
  /\ (forall h, In h hs -> exists f, In f features /\ In (h_name h) (filled_by f)
        /\ snd f <> OtherSpec
        /\ handler_of columns multivalent features f (h_name h) h)
  /\ (forall f column, In f features -> In column (filled_by f) ->
        exists h, In h hs /\ handler_of columns multivalent features f column h).
Proof.
  intros columns multivalent. induction features as [|[name spec] features IH]; intros hs H.
  - cbn in H. inversion H; subst. cbn. split; [reflexivity|]. split; intros; tauto.
  - cbn [all_handlers] in H.
    destruct (feature_handlers columns multivalent name spec) as [h1|e] eqn:E1; [|discriminate].
    destruct (all_handlers columns multivalent features) as [h2|e] eqn:E2; [|discriminate].
    inversion H; subst hs. clear H.
    destruct (feature_handlers_spec _ _ _ _ _ E1) as (S0 & S1 & S2).
    destruct (IH _ eq_refl) as (I1 & I2 & I3).
    split; [cbn [flat_map]; rewrite map_app; now rewrite S1, I1|]. split.
    + intros h Hh. apply in_app_or in Hh. destruct Hh as [Hh|Hh].
      * exists (name, spec). destruct (S2 _ Hh) as (K1 & K2).
        split; [now left|]. repeat split; auto; apply K2.
      * destruct (I2 _ Hh) as (f & K1 & K2). exists f. split; [now right|exact K2].
    + intros f column [Hf|Hf] Hc.
      * subst f. rewrite <- S1 in Hc. apply in_map_iff in Hc. destruct Hc as (h & K1 & K2).
        exists h. split; [apply in_or_app; now left|]. subst column.
        destruct (S2 _ K2) as (_ & K3). exact K3.
      * destruct (I3 _ _ Hf Hc) as (h & K1 & K2).
        exists h. split; [apply in_or_app; now right|exact K2].
Qed.

Lemma shows_to_string : forall v t, shows v t -> to_string v = Ok t.
Proof. intros v t H. inversion H; reflexivity. Qed.

Lemma shows_to_strings : forall l ts, Forall2 shows l ts -> to_strings l = Ok ts.
Proof.
  intros l ts H. induction H as [|v t l ts H1 H2 IH]; [reflexivity|].
  cbn. now rewrite (shows_to_string _ _ H1), IH.
Qed.

Lemma size_product : forall shape, size shape = product shape.
Proof.
  intros shape. unfold size.
  assert (K : forall l n, fold_left Nat.mul l n = n * product l).
  { induction l as [|m l IH]; intros n; cbn; [lia|]. rewrite IH. lia. }
  rewrite K. lia.
Qed.

Lemma Forall2_len : forall A B (R : A -> B -> Prop) l m, Forall2 R l m -> length l = length m.
Proof. intros A B R l m H. induction H; cbn; auto. Qed.

(** What a handler stores. *)
Definition cell_of (c : coder) (h : handler) (texts : list text) (x : value) : Prop :=
  exists cell, to_string x = Ok cell /\ encodable cell /\ (Forall (ready qn) texts -> ready qn cell)
    /\ (Forall (ready qn) texts -> cell_shows (secondary c) (h_multi h) texts cell).

Lemma secondary_ok : forall (c : coder) h l texts d2,
  secondary c = Some d2 -> proper_delimiter d2 -> h_multi h = true ->
  Forall2 shows l texts -> Forall encodable texts ->
  exists x, encode_secondary qn c fresh l = (fresh, Ok x) /\ cell_of c h texts x.
Proof.
  intros c h l texts d2 E Hd M F En. unfold encode_secondary. rewrite E.
  cbn [second fresh]. unfold encode_record. rewrite (shows_to_strings _ _ F). cbn [app].
  rewrite (write_row_encodable qn d2 Hd texts En).
  eexists. split; [reflexivity|]. exists (write_row qn d2 texts). split; [reflexivity|].
  split.
  { pose proof (write_row_encodable qn d2 Hd texts En) as K.
    rewrite forallb_forall in K. exact K. }
  split; [apply write_row_ready; assumption|].
  intro R. unfold cell_shows. rewrite M. exists d2. split; [exact E|].
  pose proof (rows_back qn d2 Hd [texts] (Forall_cons _ R (Forall_nil _))) as K.
  exact K.
Qed.

Lemma single_ok : forall (c : coder) h v t,
  h_multi h = false -> shows v t -> encodable t ->
  exists x, match to_string v with Ok s => Ok (VStr s) | Raise e => Raise e end = Ok x
            /\ cell_of c h [t] x.
Proof.
  intros c h v t M S E. rewrite (shows_to_string _ _ S). exists (VStr t).
  split; [reflexivity|]. exists t. split; [reflexivity|]. split; [exact E|].
  split; [intro R; now inversion R|].
  intros _. unfold cell_shows. rewrite M. auto.
Qed.

Lemma encode_value_ok : forall (c : coder) columns multivalent features f h v texts,
  handler_of columns multivalent features f (h_name h) h ->
  (forall d2, secondary c = Some d2 -> proper_delimiter d2) ->
  (h_multi h = true -> secondary c <> None) ->
  writable cast (snd f) (existsb (String.eqb (fst f)) multivalent) v texts ->
  exists x, encode_value qn cast show_sequence c fresh h v = (fresh, Ok x)
            /\ cell_of c h texts x.
Proof.
  intros c columns multivalent features f h v texts (_ & Hf & Hm & _) Hs Hn W.
  rewrite <- Hm in W. destruct W as ((l & Vl & F) & En & One1 & Sp).
  assert (Sec : h_multi h = true -> exists d2, secondary c = Some d2 /\ proper_delimiter d2).
  { intro M. destruct (secondary c) as [d2|] eqn:E; [|now destruct (Hn M)].
    exists d2. split; auto. }
  unfold encode_value. rewrite Hf. destruct (snd f) as [shape| |ks vk|] eqn:Es.
  - assert (Fl : flattened cast show_sequence shape v = Ok (spec_values cast (FixedLen shape) l)
                 /\ length texts = product shape
                 /\ (h_multi h = false -> length texts = 1)).
    { destruct shape as [|n [|n' shape]].
      - destruct Sp as (w & E). subst v. inversion Vl; subst. cbn [flattened spec_values] in *.
        pose proof (Forall2_len _ _ _ _ _ F) as K. cbn in K. cbn. auto.
      - destruct Sp as (S1 & S2 & S3). split; [|auto]. inversion Vl; subst; try reflexivity.
        destruct (S1 v0). reflexivity.
      - destruct Sp as (S1 & S2 & S3). split; [|auto]. inversion Vl; subst; try reflexivity.
        }
    destruct Fl as (Fl & Len & Len1). rewrite Fl.
    pose proof (Forall2_len _ _ _ _ _ F) as K.
    rewrite size_product, K, Len, Nat.eqb_refl. cbn [negb].
    destruct (h_multi h) eqn:M.
    + destruct (Sec eq_refl) as (d2 & E2 & P2).
      exact (secondary_ok c h _ _ _ E2 P2 M F En).
    + specialize (Len1 eq_refl).
      destruct F as [|w t ws ts F1 F2]; [discriminate|].
      destruct ts as [|? ts]; [|discriminate].
      inversion En as [|? ? En1 En2]; subst.
      destruct (single_ok c h w t M F1 En1) as (x & E & Cx).
      exists x. rewrite E. auto.
  - destruct Sp as (S1 & S2).
    assert (Sq : sequence v = Ok l).
    { inversion Vl; subst; try reflexivity. destruct (S1 v0). reflexivity. }
    destruct (h_multi h) eqn:M.
    + rewrite Sq. destruct (Sec eq_refl) as (d2 & E2 & P2).
      exact (secondary_ok c h _ _ _ E2 P2 M F En).
    + specialize (S2 eq_refl). specialize (One1 eq_refl).
      inversion Vl; subst; [destruct (S1 v0 eq_refl)| |destruct (S2 l eq_refl)].
      cbn [spec_values] in F. cbn [sequence_truth].
      destruct F as [|w t ws ts F1 F2].
      * exists (VStr []). split; [reflexivity|]. exists []. split; [reflexivity|].
        split; [intros ? []|]. split; [intro; right; intros ? []|].
        intros _. unfold cell_shows. now rewrite M.
      * cbn [sequence]. destruct ts as [|? ts]; [|cbn in One1; lia].
        inversion En as [|? ? En1 En2]; subst.
        destruct (single_ok c h w t M F1 En1) as (x & E & Cx).
        exists x. rewrite E. auto.
  - destruct Sp as (S1 & S2).
    assert (Sq : sequence v = Ok l).
    { inversion Vl; subst; try reflexivity. destruct (S1 v0). reflexivity. }
    destruct (h_multi h) eqn:M.
    + rewrite Sq. destruct (Sec eq_refl) as (d2 & E2 & P2).
      exact (secondary_ok c h _ _ _ E2 P2 M F En).
    + specialize (S2 eq_refl). specialize (One1 eq_refl).
      inversion Vl; subst; [destruct (S1 v0 eq_refl)| |destruct (S2 l eq_refl)].
      cbn [spec_values] in F. cbn [sequence_truth].
      destruct F as [|w t ws ts F1 F2].
      * exists (VStr []). split; [reflexivity|]. exists []. split; [reflexivity|].
        split; [intros ? []|]. split; [intro; right; intros ? []|].
        intros _. unfold cell_shows. now rewrite M.
      * cbn [sequence]. destruct ts as [|? ts]; [|cbn in One1; lia].
        inversion En as [|? ? En1 En2]; subst.
        destruct (single_ok c h w t M F1 En1) as (x & E & Cx).
        exists x. rewrite E. auto.
  - destruct Sp.
Qed.

Lemma existsb_nil_false : forall name, existsb (String.eqb name) [] = true -> False.
Proof. cbn. discriminate. Qed.

(** From the cells of all columns to the row. *)
Lemma row_of_cells : forall (Q : string -> text -> Prop) columns row,
  length row = length columns ->
  (forall i name, nth_error columns i = Some name ->
     exists x cell, nth_error row i = Some x /\ to_string x = Ok cell /\ Q name cell) ->
  exists cells, to_strings row = Ok cells /\ Forall2 Q columns cells.
Proof.
  intros Q. induction columns as [|name l IH]; intros row Len H.
  - destruct row; [|discriminate]. exists []. split; [reflexivity|constructor].
  - destruct row as [|x row]; [discriminate|].
    destruct (H 0 name eq_refl) as (x' & cell & E & T & K). cbn in E. inversion E; subst x'.
    destruct (IH row) as (cells & T' & K').
    { now inversion Len. }
    { intros i n Hi. exact (H (S i) n Hi). }
    exists (cell :: cells). cbn. rewrite T, T'. split; [reflexivity|now constructor].
Qed.

Variables (columns : list string) (features : list (string * feature_spec))
          (d : N) (sec : option N) (multivalent : list string) (c : coder).
Hypothesis Made : make_coder columns features d sec multivalent = Ok c.
Hypothesis Hd : proper_delimiter d.
Hypothesis Hsec : forall d2, sec = Some d2 -> proper_delimiter d2.
Hypothesis Match : matching_columns columns features.

Lemma made : all_handlers columns multivalent features = Ok (handlers c)
  /\ CsvModel.columns c = columns /\ delimiter c = d /\ secondary c = sec
  /\ (multivalent <> [] -> sec <> None).
Proof.
  pose proof Made as M. unfold make_coder in M.
  assert (K : match all_handlers columns multivalent features with
              | Ok hs => Ok (Coder columns d sec hs) | Raise e => Raise e end = Ok c
              /\ (multivalent <> [] -> sec <> None)).
  { destruct sec as [d2|]; [split; [exact M|discriminate]|].
    destruct multivalent; [split; [exact M|congruence]|discriminate]. }
  destruct K as (K & K2).
  destruct (all_handlers columns multivalent features) as [hs|e]; [|discriminate].
  inversion K; subst. cbn. auto.
Qed.

Lemma nodup_indices : NoDup (map h_index (handlers c)).
Proof.
  destruct made as (A & _). destruct (all_handlers_spec _ _ _ _ A) as (N & I2 & _).
  assert (ND : NoDup (map h_name (handlers c))) by (rewrite N; apply Match).
  clear A N. induction (handlers c) as [|h hs IH]; [constructor|].
  cbn in *. inversion ND as [|? ? N1 N2]; subst. constructor.
  - intro K. apply in_map_iff in K. destruct K as (g & E & Hg).
    apply N1. apply in_map_iff. exists g. split; [|exact Hg].
    destruct (I2 h (or_introl eq_refl)) as (f & _ & _ & _ & Hh).
    destruct (I2 g (or_intror Hg)) as (f' & _ & _ & _ & Hg').
    destruct Hh as (_ & _ & _ & Lh). destruct Hg' as (_ & _ & _ & Lg).
    apply last_index_nth in Lh. apply last_index_nth in Lg. rewrite E in Lg. congruence.
  - apply IH; auto.
Qed.

Lemma encode_ok : forall instance texts,
  writable_instance cast features multivalent instance texts ->
  exists row, encode qn cast show_sequence c fresh instance
              = (fresh, Ok (write_row qn d row))
    /\ ((forall column, Forall (ready qn) (texts column)) ->
        Forall (ready qn) row /\ row_shows columns features sec multivalent texts row).
Proof.
  intros instance texts W. destruct made as (A & C1 & C2 & C3 & C4).
  destruct (all_handlers_spec _ _ _ _ A) as (N & I2 & I3).
  destruct (fill_ok c instance (fun h x => cell_of c h (texts (h_name h)) x) (handlers c)
              (repeat none_value (length columns))) as (row' & F & Len & K1 & _).
  { intros h Hh. destruct (I2 _ Hh) as (f & F1 & F2 & F3 & F4).
    destruct (W f (h_name h) F1 F2) as (v & L & Wv).
    destruct (encode_value_ok c columns multivalent features f h v (texts (h_name h)) F4)
      as (x & E & Cx).
    - intros d2 E2. apply Hsec. now rewrite <- C3.
    - intros M. rewrite C3. apply C4. destruct F4 as (_ & _ & F5 & _). rewrite F5 in M.
      intro Z. rewrite Z in M. discriminate.
    - exact Wv.
    - exists v, x. auto. }
  { apply nodup_indices. }
  rewrite repeat_length in Len, K1.
  destruct (row_of_cells (fun name cell =>
      encodable cell /\ ((forall column, Forall (ready qn) (texts column)) ->
        ready qn cell /\ forall f, In f features -> In name (filled_by f) ->
          cell_shows sec (existsb (String.eqb (fst f)) multivalent) (texts name) cell))
      columns row' Len) as (cells & T & F2).
  { intros i name Hi.
    assert (Inn : In name columns) by (eapply nth_error_In; exact Hi).
    destruct Match as (NDc & NDf & Eq). pose proof (proj1 (Eq name) Inn) as Inf.
    apply in_flat_map in Inf. destruct Inf as (f & F1 & F3).
    destruct (I3 f name F1 F3) as (h & H1 & H2).
    pose proof (last_index_nth _ _ _ (proj2 (proj2 (proj2 H2)))) as Lh.
    assert (Ei : h_index h = i).
    { assert (h_index h < length columns)
        by (apply nth_error_Some; rewrite Lh; discriminate).
      eapply (proj1 (NoDup_nth_error columns) NDc); [assumption|congruence]. }
    destruct (K1 h H1) as (x & X1 & X2).
    { rewrite Ei. apply nth_error_Some. rewrite Hi. discriminate. }
    destruct X2 as (cell & Y1 & Y2 & Y3 & Y4).
    exists x, cell. rewrite <- Ei at 1. split; [exact X1|]. split; [exact Y1|].
    split; [exact Y2|]. intro R. split; [apply Y3, R|].
    intros g G1 G2. destruct (I3 g name G1 G2) as (h' & H1' & H2').
    assert (Eh : h_multi h' = h_multi h).
    { f_equal.
      assert (ND : NoDup (map h_name (handlers c))) by (rewrite N; exact NDf).
      destruct H2 as (En & _). destruct H2' as (En' & _).
      clear - ND H1 H1' En En'. induction (handlers c) as [|y hs IH]; [destruct H1|].
      cbn in ND. inversion ND as [|? ? N1 N2]; subst.
      destruct H1 as [H1|H1]; destruct H1' as [H1'|H1'].
      - congruence.
      - destruct N1. subst y. rewrite <- En'. now apply in_map.
      - destruct N1. subst y. rewrite En'. now apply in_map.
      - auto. }
    destruct H2' as (_ & _ & Mm & _). rewrite <- Mm, Eh.
    destruct H2 as (En & _). rewrite En in Y4. rewrite <- C3. apply Y4, R. }
  exists cells. split.
  - unfold encode. rewrite C1, F. unfold encode_record. rewrite T. cbn [main fresh app].
    rewrite C2, (write_row_encodable qn d Hd cells); [reflexivity|].
    clear - F2. induction F2; constructor; tauto.
  - intro R. split.
    + clear - F2 R. induction F2; constructor; auto. now apply H.
    + unfold row_shows. clear - F2 R. induction F2; constructor; auto.
      intros f G1 G2. now apply H.
Qed.

(** A whole history on one coder. *)
Lemma encode_all_ok : forall instances,
  Forall (fun i => exists texts, writable_instance cast features multivalent (fst i) texts
                                 /\ texts = snd i) instances ->
  exists rows,
    encode_all qn cast show_sequence c fresh (map fst instances)
    = map (fun r => Ok (write_row qn d r)) rows
    /\ ((forall i, In i instances -> forall column, Forall (ready qn) (snd i column)) ->
        Forall (Forall (ready qn)) rows
        /\ Forall2 (fun i row => row_shows columns features sec multivalent (snd i) row)
             instances rows).
Proof.
  induction instances as [|i l IH]; intros H.
  - exists []. split; [reflexivity|]. intros _. split; constructor.
  - inversion H as [|? ? (texts & W & E) H2]; subst.
    destruct (encode_ok _ _ W) as (row & Er & R1).
    destruct (IH H2) as (rows & Ers & R2).
    exists (row :: rows). cbn [map encode_all]. rewrite Er, Ers. split; [reflexivity|].
    intro R. destruct R1 as (A1 & A2); [intro column; apply (R i); now left|].
    destruct R2 as (B1 & B2); [intros j Hj; apply R; now right|].
    split; constructor; auto.
Qed.
End Instance.

Theorem lines_read_back :
  forall qn cast show_sequence columns features d sec multivalent c instances textss,
  make_coder columns features d sec multivalent = Ok c ->
  proper_delimiter d -> (forall d2, sec = Some d2 -> proper_delimiter d2) ->
  matching_columns columns features ->
  Forall2 (writable_instance cast features multivalent) instances textss ->
  qn = true \/ (forall texts column, In texts textss -> Forall one_line (texts column)) ->
  exists lines rows,
    encode_all qn cast show_sequence c fresh instances = map Ok lines
    /\ read_file d (file_of lines) = Some rows
    /\ Forall2 (row_shows columns features sec multivalent) textss rows.
Proof.
  intros qn cast show_sequence columns features d sec multivalent c instances textss
    Made Hd Hs Mt W R.
  assert (L : exists l, map fst l = instances /\ map snd l = textss
     /\ Forall (fun i => exists texts,
           writable_instance cast features multivalent (fst i) texts /\ texts = snd i) l).
  { clear R. induction W as [|i t is ts W1 W2 IH].
    - exists []. repeat split. constructor.
    - destruct IH as (l & E1 & E2 & F). exists ((i, t) :: l). cbn.
      rewrite E1, E2. repeat split. constructor; [|exact F]. exists t. auto. }
  destruct L as (l & E1 & E2 & F).
  destruct (encode_all_ok qn cast show_sequence columns features d sec multivalent c Made Hd Hs
              Mt l F) as (rows & Er & K).
  destruct K as (K1 & K2).
  { intros i Hi column. apply Forall_forall. intros t Ht.
    destruct R as [R|R]; [now left|right].
    assert (In (snd i) textss) by (rewrite <- E2; now apply in_map).
    specialize (R _ column H). rewrite Forall_forall in R. auto. }
  exists (map (write_row qn d) rows), rows. split.
  - rewrite <- E1, Er, map_map. reflexivity.
  - split; [apply rows_back; assumption|].
    rewrite <- E2. clear - K2. induction K2; constructor; auto.
Qed.

(** * Fixed lengths are checked *)
Section Checked.
Variable qn : bool.
Variable cast : value -> value.
Variable show_sequence : list value -> text.

Lemma encode_value_count : forall c b h v b' x shape,
  encode_value qn cast show_sequence c b h v = (b', Ok x) -> h_fixed h = Some shape ->
  shape <> [] -> forall l, values_of v l -> length l = product shape.
Proof.
  intros c b h v b' x shape E F N l Vl. unfold encode_value in E. rewrite F in E.
  destruct (flattened cast show_sequence shape v) as [fl|e] eqn:Ef; [|discriminate].
  destruct (Nat.eqb (length fl) (size shape)) eqn:En; cbn in E; [|discriminate].
  apply Nat.eqb_eq in En. rewrite size_product in En. rewrite <- En.
  destruct shape as [|n [|m shape]]; [congruence| |]; cbn [flattened] in Ef.
  - inversion Vl; subst; cbn in Ef; inversion Ef; subst; reflexivity.
  - inversion Vl; subst; inversion Ef; subst; cbn; now rewrite ?map_length.
Qed.

Lemma fill_lookup : forall c instance hs b row b' row',
  fill qn cast show_sequence c instance hs b row = (b', Ok row') ->
  forall h, In h hs -> exists v b1 b2 x, lookup (h_name h) instance = Some v
    /\ encode_value qn cast show_sequence c b1 h v = (b2, Ok x).
Proof.
  intros c instance. induction hs as [|g hs IH]; intros b row b' row' E h Hh; [destruct Hh|].
  cbn [fill] in E. destruct (lookup (h_name g) instance) as [v|] eqn:L; [|discriminate].
  destruct (encode_value qn cast show_sequence c b g v) as [b1 r] eqn:Ev.
  destruct r as [x|e]; [|discriminate].
  destruct Hh as [Hh|Hh].
  - subst g. exists v, b, b1, x. auto.
  - exact (IH _ _ _ _ E h Hh).
Qed.

Lemma counts_checked : forall columns features d sec multivalent c b b' instance line,
  make_coder columns features d sec multivalent = Ok c ->
  encode qn cast show_sequence c b instance = (b', Ok line) ->
  forall name shape, In (name, FixedLen shape) features -> shape <> [] ->
  exists v, lookup name instance = Some v
    /\ forall l, values_of v l -> length l = product shape.
Proof.
  intros columns features d sec multivalent c b b' instance line Made E name shape Hf N.
  assert (A : all_handlers columns multivalent features = Ok (handlers c)).
  { unfold make_coder in Made.
    destruct (all_handlers columns multivalent features) as [hs|e];
      destruct sec, multivalent; now inversion Made. }
  destruct (all_handlers_spec _ _ _ _ A) as (_ & _ & I3).
  destruct (I3 (name, FixedLen shape) name Hf (or_introl eq_refl)) as (h & H1 & H2).
  unfold encode in E.
  destruct (fill qn cast show_sequence c instance (handlers c) b
              (repeat none_value (length (CsvModel.columns c)))) as [b1 r] eqn:Ef.
  destruct r as [row|e]; [|discriminate].
  destruct (fill_lookup _ _ _ _ _ _ _ Ef h H1) as (v & b2 & b3 & x & L & Ev).
  destruct H2 as (En & Eh & _). rewrite En in L. exists v. split; [exact L|].
  exact (encode_value_count _ _ _ _ _ _ _ Ev Eh N).
Qed.
End Checked.

(** * A record that cannot be encoded *)
Section Stuck.
Variable qn : bool.
Variable cast : value -> value.
Variable show_sequence : list value -> text.

Lemma encode_value_main : forall c b h v b' r,
  encode_value qn cast show_sequence c b h v = (b', r) -> main b' = main b.
Proof.
  intros c b h v b' r E. unfold encode_value, encode_secondary in E.
  repeat match type of E with
         | context [match ?x with _ => _ end] => destruct x
         end; inversion E; reflexivity.
Qed.

Lemma fill_main : forall c instance hs b row b' r,
  fill qn cast show_sequence c instance hs b row = (b', r) -> main b' = main b.
Proof.
  intros c instance. induction hs as [|h hs IH]; intros b row b' r E; cbn [fill] in E.
  - now inversion E.
  - destruct (lookup (h_name h) instance) as [v|]; [|now inversion E].
    destruct (encode_value qn cast show_sequence c b h v) as [b1 [x|e]] eqn:Ev.
    + rewrite (IH _ _ _ _ E). exact (encode_value_main _ _ _ _ _ _ Ev).
    + inversion E; subst. exact (encode_value_main _ _ _ _ _ _ Ev).
Qed.

Lemma stuck_once : forall c b instance b' r, forallb encodable_char (main b) = false ->
  encode qn cast show_sequence c b instance = (b', r) ->
  (exists e, r = Raise e) /\ forallb encodable_char (main b') = false.
Proof.
  intros c b instance b' r H E. unfold encode in E.
  destruct (fill qn cast show_sequence c instance (handlers c) b
              (repeat none_value (length (CsvModel.columns c)))) as [b1 [row|e]] eqn:Ef;
    pose proof (fill_main _ _ _ _ _ _ _ Ef) as M.
  - unfold encode_record in E. destruct (to_strings row) as [fs|e].
    + rewrite forallb_app, M, H in E. cbn [andb] in E. inversion E; subst. cbn [main].
      rewrite forallb_app, H. split; [now eexists|reflexivity].
    + inversion E; subst. cbn [main]. rewrite M. split; [now eexists|exact H].
  - inversion E; subst. rewrite M. split; [now eexists|exact H].
Qed.

Lemma stuck : forall c instances b, forallb encodable_char (main b) = false ->
  forall r, In r (encode_all qn cast show_sequence c b instances) -> exists e, r = Raise e.
Proof.
  intros c. induction instances as [|i l IH]; intros b H r Hr; [destruct Hr|].
  cbn [encode_all] in Hr.
  destruct (encode qn cast show_sequence c b i) as [b' r'] eqn:E.
  destruct (stuck_once _ _ _ _ _ H E) as (R & H').
  destruct Hr as [Hr|Hr]; [now subst|exact (IH _ H' _ Hr)].
Qed.
End Stuck.
