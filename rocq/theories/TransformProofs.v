(** * Proofs about transformed datasets (C51) *)
From Coq Require Import String.
From Coq Require Import List Arith Bool Lia.
From Verif Require Import TransformModel TransformSpec.
Import ListNotations.
Local Notation length := List.length.
Local Open Scope list_scope.

(** ** Dicts *)
Section Dicts.
Context {A : Type}.
Implicit Types d e : list (string * A).

Lemma lookup_none d k : lookup k d = None <-> ~ In k (map fst d).
Proof.
  induction d as [|[k' x] d IH]; cbn; [tauto|].
  destruct (String.eqb_spec k k') as [->|N]; [split; [discriminate|tauto]|]. rewrite IH. intuition congruence.
Qed.
Lemma lookup_in d k x : lookup k d = Some x -> In (k, x) d.
Proof.
  induction d as [|[k' y] d IH]; cbn; [discriminate|].
  destruct (String.eqb_spec k k') as [->|N]; [intros [= ->]|]; auto.
Qed.
Lemma lookup_app d e k : lookup k (d ++ e) = match lookup k d with Some x => Some x | None => lookup k e end.
Proof. induction d as [|[k' x] d IH]; cbn; [reflexivity|]. destruct (String.eqb k k'); auto. Qed.
Lemma assign_absent d k x : ~ In k (map fst d) -> assign k x d = d ++ [(k, x)].
Proof.
  induction d as [|[k' y] d IH]; cbn; [reflexivity|]. intros N.
  destruct (String.eqb_spec k k') as [->|NE]; [tauto|]. rewrite IH; tauto.
Qed.
Lemma update_absent e : forall d, NoDup (map fst e) -> (forall k, In k (map fst e) -> ~ In k (map fst d)) ->
  update d e = d ++ e.
Proof.
  unfold update. induction e as [|[k x] e IH]; intros d ND DJ; cbn [fold_left fst snd]; [now rewrite app_nil_r|].
  inversion ND; subst. rewrite assign_absent by (apply DJ; now left).
  rewrite IH; auto; [now rewrite <- app_assoc|].
  intros k' I. rewrite map_app, in_app_iff. cbn. intros [J|[<-|[]]]; [|contradiction].
  apply (DJ k'); [now right|exact J].
Qed.
Lemma lookup_assign d k x k' : lookup k' (assign k x d) = if String.eqb k' k then Some x else lookup k' d.
Proof.
  induction d as [|[k2 y] d IH]; cbn [assign lookup]; [reflexivity|].
  destruct (String.eqb_spec k k2) as [->|N]; cbn [lookup].
  - destruct (String.eqb_spec k' k2); reflexivity.
  - rewrite IH. destruct (String.eqb_spec k' k2) as [->|N']; [|reflexivity].
    destruct (String.eqb_spec k2 k); congruence.
Qed.
Lemma without_all keys d :
  fold_left (fun d k => without k d) keys d = filter (fun kx => negb (existsb (String.eqb (fst kx)) keys)) d.
Proof.
  revert d. induction keys as [|k keys IH]; intros d; cbn [fold_left existsb].
  - induction d as [|kx d IHd]; cbn; [reflexivity|]. f_equal. exact IHd.
  - rewrite IH. unfold without. induction d as [|kx d IHd]; cbn; [reflexivity|].
    rewrite (String.eqb_sym (fst kx) k). destruct (String.eqb k (fst kx)); cbn; [exact IHd|].
    destruct (existsb _ keys); cbn; congruence.
Qed.
Lemma in_existsb k keys : existsb (String.eqb k) keys = true <-> In k keys.
Proof.
  rewrite existsb_exists. split; [intros (x & I & E); apply String.eqb_eq in E; now subst|].
  intros I. exists k. now rewrite String.eqb_refl.
Qed.
Lemma lookup_in_nodup d k x : NoDup (map fst d) -> In (k, x) d -> lookup k d = Some x.
Proof.
  induction d as [|[k' y] d IH]; cbn; [tauto|]. intros ND. inversion ND; subst. intros [[= -> ->]|I].
  - now rewrite String.eqb_refl.
  - destruct (String.eqb_spec k k') as [->|N]; [|auto]. destruct H1. now apply (in_map fst) in I.
Qed.
(** The entries of some keys. *)
Definition entries (keys : list string) d : list (string * A) :=
  flat_map (fun k => match lookup k d with Some x => [(k, x)] | None => [] end) keys.
Lemma entries_keys keys d : map fst (entries keys d) = filter (fun k => match lookup k d with Some _ => true | None => false end) keys.
Proof. unfold entries. induction keys as [|k keys IH]; cbn; [reflexivity|]. destruct (lookup k d); cbn; rewrite IH; reflexivity. Qed.
Lemma entries_nodup keys d : NoDup keys -> NoDup (map fst (entries keys d)).
Proof. rewrite entries_keys. intros ND. now apply NoDup_filter. Qed.
Lemma entries_lookup keys d k : lookup k (entries keys d) = if existsb (String.eqb k) keys then lookup k d else None.
Proof.
  induction keys as [|k' keys IH]; cbn [entries flat_map existsb]; [reflexivity|].
  rewrite lookup_app. fold (entries keys d). rewrite IH.
  destruct (lookup k' d) as [x|] eqn:L; cbn [lookup].
  - destruct (String.eqb_spec k k') as [->|N]; cbn [orb]; [now rewrite L|reflexivity].
  - destruct (String.eqb_spec k k') as [->|N]; cbn [orb]; [|reflexivity]. rewrite L. destruct (existsb _ keys); reflexivity.
Qed.
End Dicts.

Lemma lookup_map {A B} (f : A -> B) (d : list (string * A)) k :
  lookup k (map (fun kx => (fst kx, f (snd kx))) d) = option_map f (lookup k d).
Proof. induction d as [|[k' x] d IH]; cbn; [reflexivity|]. destruct (String.eqb k k'); auto. Qed.
Lemma map_fst_map {A B} (f : A -> B) (d : list (string * A)) :
  map fst (map (fun kx => (fst kx, f (snd kx))) d) = map fst d.
Proof. rewrite map_map. reflexivity. Qed.

Section Proofs.
Context {P T : Type}.
Variable eqb : P -> P -> bool.
Variable nbytes : record_batch P -> nat.
Variable max_bytes : nat.
Variable adapt : record_batch P -> option (list (string * T)).
Variable graph : list (string * T) -> option (list (string * T)).
Variable convert : list (string * T) -> option (record_batch P).
Variable validate : list (string * T) -> bool.
Notation cell := (cell P).
Notation record_batch := (record_batch P).

(** ** Slices *)
Lemma rect_rows n (b : record_batch) : rectangular n b -> num_rows b = n.
Proof. intros (N & _ & F). destruct b as [|[k c] b]; [contradiction|]. now inversion F. Qed.

Lemma rect_slice n (b : record_batch) o l : rectangular n b -> o + l <= n -> rectangular l (slice o l b).
Proof.
  intros (N & ND & F) H. unfold slice. split; [destruct b; [contradiction|discriminate]|].
  rewrite (map_fst_map (fun c : list cell => firstn l (skipn o c))). split; [exact ND|].
  apply Forall_forall. intros nc I. apply in_map_iff in I. destruct I as (nc' & <- & I). cbn [snd].
  rewrite Forall_forall in F. specialize (F _ I). rewrite firstn_length, skipn_length. lia.
Qed.

Lemma slices fuel : forall n (b : record_batch), rectangular n b -> n <= fuel ->
  Forall (fun s => (exists n', rectangular n' s /\ (0 < n -> 0 < n')) /\ map fst s = map fst b /\
                   (nbytes s <= max_bytes \/ num_rows s < 2)) (maybe_slice nbytes max_bytes fuel b) /\
  forall name c, lookup name b = Some c ->
    flat_map (fun s => match lookup name s with Some c => c | None => [] end) (maybe_slice nbytes max_bytes fuel b) = c.
Proof.
  induction fuel as [|fuel IH]; intros n b R LE; cbn [maybe_slice];
    destruct (Nat.ltb_spec max_bytes (nbytes b)) as [BIG|SMALL].
  1, 3: destruct (Nat.ltb_spec (num_rows b) 2) as [FEW|MANY].
  2: { rewrite (rect_rows n) in MANY by exact R. lia. }
  1, 2, 4, 5: split; [constructor; [|constructor]; split; [exists n; auto|auto]|];
     intros name c L; cbn [flat_map]; rewrite L; apply app_nil_r.
  pose proof (rect_rows n b R) as NR. rewrite NR in *.
  assert (0 < n / 2 < n) as MID by (pose proof (Nat.div_lt n 2); pose proof (Nat.div_le_lower_bound n 2 1); lia).
  assert (R1 : rectangular (n / 2) (slice 0 (n / 2) b)) by (apply (rect_slice n); [exact R|lia]).
  assert (R2 : rectangular (n - n / 2) (slice (n / 2) (n - n / 2) b)) by (apply (rect_slice n); [exact R|lia]).
  destruct (IH _ _ R1) as [F1 C1]; [lia|]. destruct (IH _ _ R2) as [F2 C2]; [lia|].
  assert (K : forall o l, map fst (slice o l b) = map fst b) by (intros; unfold slice; now rewrite map_map).
  rewrite K in F1, F2. split.
  - apply Forall_app. split; eapply Forall_impl; try eassumption; cbv beta; intros s ((n' & Rn & Pn) & Q);
      (split; [exists n'; split; [exact Rn|intros _; apply Pn; lia]|exact Q]).
  - intros name c L. rewrite flat_map_app.
    assert (L1 : lookup name (slice 0 (n / 2) b) = Some (firstn (n / 2) c))
      by (unfold slice; rewrite (lookup_map (fun c => firstn _ (skipn _ c))), L; reflexivity).
    assert (L2 : lookup name (slice (n / 2) (n - n / 2) b) = Some (firstn (n - n / 2) (skipn (n / 2) c)))
      by (unfold slice; rewrite (lookup_map (fun c => firstn _ (skipn _ c))), L; reflexivity).
    refine (eq_trans (f_equal2 (@app _) (C1 name _ L1) (C2 name _ L2)) _).
    rewrite (firstn_all2 (skipn (n / 2) c)); [apply firstn_skipn|].
    rewrite skipn_length. destruct R as (_ & _ & F). rewrite Forall_forall in F.
    apply lookup_in, F in L. cbn [snd] in L. lia.
Qed.

(** ** Passthrough columns *)
Definition fitted (n : nat) (c : list cell) : list cell :=
  if Nat.eqb (length c) n || Nat.eqb (length c) 1 then c else [nth 0 c None].

Lemma data_set_constant (v : option P) : (forall x, eqb x x = true) ->
  forall cells : list cell, Forall (fun x => x = option_map (fun y => [y]) v) cells ->
  data_set eqb cells [v] = Some [v].
Proof.
  intros RF cells. induction 1 as [|c cells E F IH]; cbn [data_set]; [reflexivity|].
  subst c. assert (first_value (option_map (fun y => [y]) v) = Some v) as -> by (now destruct v).
  assert (existsb (same_value eqb v) [v] = true) as -> by (destruct v; cbn; rewrite ?RF; reflexivity). exact IH.
Qed.

Lemma fit_ok n c : (forall x, eqb x x = true) -> can_be_carried (length c) n c -> fit eqb n c = Ok (fitted n c).
Proof.
  intros RF H. unfold fit, fitted. destruct (_ || _) eqn:E; [reflexivity|].
  apply orb_false_iff in E. destruct E as [E1 E2]. apply Nat.eqb_neq in E1, E2.
  destruct H as [H|[H|(L & v & F)]]; [contradiction|contradiction|].
  destruct c as [|x c]; [cbn in L; lia|]. inversion F as [|? ? EX F']; subst. cbn [data_set].
  assert (first_value (option_map (fun y => [y]) v) = Some v) as -> by (now destruct v).
  cbn [existsb app]. now rewrite (data_set_constant v RF c F').
Qed.

Lemma fitted_length n c : 0 < length c -> length (fitted n c) = n \/ length (fitted n c) = 1.
Proof.
  intros L. unfold fitted. destruct (_ || _) eqn:E; [|right; reflexivity].
  apply orb_true_iff in E. rewrite !Nat.eqb_eq in E. exact E.
Qed.

Lemma data_set_spec : forall (cells : list cell) seen s, data_set eqb cells seen = Some s ->
  (exists t, s = seen ++ t) /\
  forall c v, In c cells -> first_value c = Some v -> existsb (same_value eqb v) s = true \/ In v s.
Proof.
  induction cells as [|c cells IH]; intros seen s; cbn [data_set].
  - intros [= ->]. split; [exists []; now rewrite app_nil_r|intros c v []].
  - destruct (first_value c) as [v|] eqn:FV; [|discriminate]. intros E. apply IH in E. destruct E as [(t & ->) IN].
    destruct (existsb (same_value eqb v) seen) eqn:EX.
    + split; [now exists t|]. intros c' v' [<-|I] F; [|now apply (IN c')].
      left. rewrite FV in F. injection F as <-. rewrite existsb_app, EX. reflexivity.
    + rewrite <- app_assoc. split; [now exists ([v] ++ t)|]. intros c' v' [<-|I] F.
      * right. rewrite FV in F. injection F as <-. rewrite in_app_iff. right. now left.
      * rewrite app_assoc. now apply (IN c').
Qed.

Lemma data_set_total (cells : list cell) : forall seen, (forall c, In c cells -> first_value c <> None) ->
  data_set eqb cells seen <> None.
Proof.
  induction cells as [|c cells IH]; intros seen H; cbn [data_set]; [discriminate|].
  destruct (first_value c) eqn:E; [|now apply (H c (or_introl eq_refl)) in E].
  apply IH. intros c' I. apply H. now right.
Qed.

Lemma fit_error n c : (forall x y, eqb x y = true -> x = y) ->
  length c <> n -> (forall x, In x c -> exists v : option P, x = option_map (fun y => [y]) v) ->
  (exists x y, In x c /\ In y c /\ x <> y) -> fit eqb n c = Raise ValueError.
Proof.
  intros EQ NE SG (x & y & IX & IY & NXY). unfold fit.
  destruct (_ || _) eqn:E1.
  { apply orb_true_iff in E1. rewrite !Nat.eqb_eq in E1. destruct E1 as [E1|E1]; [contradiction|].
    destruct c as [|a [|]]; try discriminate E1. destruct IX as [<-|[]], IY as [<-|[]]. contradiction. }
  assert (SG' : forall x, In x c -> first_value x <> None).
  { intros z I. destruct (SG z I) as ([v|] & ->); discriminate. }
  destruct (data_set eqb c []) as [s|] eqn:D; [|now apply data_set_total in D].
  apply data_set_spec in D. destruct D as [_ IN].
  destruct s as [|v [|w s]]; [reflexivity| |reflexivity]. exfalso. apply NXY.
  assert (U : forall z, In z c -> z = option_map (fun y => [y]) v).
  { intros z I. destruct (SG z I) as (u & EZ). assert (FV : first_value z = Some u) by (rewrite EZ; now destruct u).
    rewrite EZ. f_equal. destruct (IN z u I FV) as [E|[E|[]]]; [|congruence].
    cbn in E. rewrite orb_false_r in E. destruct u, v; cbn in E; try discriminate; [|reflexivity].
    f_equal. now apply EQ. }
  now rewrite (U x IX), (U y IY).
Qed.

Definition fits (n : nat) (kc : string * list cell) : bool := Nat.eqb (length (fitted n (snd kc))) n.
Lemma add_ok n : (forall x, eqb x x = true) -> forall pd columns unary,
  Forall (fun kc : string * list cell => can_be_carried (length (snd kc)) n (snd kc)) pd ->
  @add_passthrough P T eqb n (map (fun kc => (fst kc, inr (snd kc))) pd) columns unary =
  Ok (columns ++ map (fun kc => (fst kc, fitted n (snd kc))) (filter (fits n) pd),
      unary ++ map (fun kc => (fst kc, fitted n (snd kc))) (filter (fun kc => negb (fits n kc)) pd)).
Proof.
  intros RF. induction pd as [|[k c] pd IH]; intros columns unary F; cbn [map add_passthrough fst snd filter].
  - now rewrite !app_nil_r.
  - inversion F; subst. cbn [snd] in *. rewrite fit_ok by assumption.
    change (fits n (k, c)) with (Nat.eqb (length (fitted n c)) n).
    destruct (Nat.eqb (length (fitted n c)) n); cbn [negb map fst snd]; rewrite IH by assumption;
      rewrite <- app_assoc; reflexivity.
Qed.

Lemma add_error n : (forall x, eqb x x = true) -> (forall x y, eqb x y = true -> x = y) -> forall pd columns unary,
  (forall k (c : list cell), In (k, c) pd -> length c <> n /\ (0 < length c) /\
     forall x, In x c -> exists v : option P, x = option_map (fun y => [y]) v) ->
  (exists k c x y, In (k, c) pd /\ In x c /\ In y c /\ x <> y) ->
  @add_passthrough P T eqb n (map (fun kc => (fst kc, inr (snd kc))) pd) columns unary = Raise ValueError.
Proof.
  intros RF EQ. induction pd as [|[k c] pd IH]; intros columns unary SG (k0 & c0 & x & y & I & IX & IY & NE); [destruct I|].
  cbn [map add_passthrough fst snd].
  destruct (SG k c (or_introl eq_refl)) as (NL & POS & S1).
  destruct (fit eqb n c) as [c'|e] eqn:FT.
  - destruct I as [[= -> ->]|I].
    { rewrite fit_error in FT by eauto. discriminate. }
    assert (R : exists k c x y, In (k, c) pd /\ In x c /\ In y c /\ x <> y) by (exists k0, c0, x, y; auto).
    assert (SG' : forall k c, In (k, c) pd -> length c <> n /\ 0 < length c /\
              forall x, In x c -> exists v : option P, x = option_map (fun y => [y]) v)
      by (intros; apply (SG k1); now right).
    destruct (Nat.eqb (length c') n); now apply IH.
  - destruct (data_set eqb c []) as [s|] eqn:D.
    + unfold fit in FT. rewrite D in FT. destruct (_ || _); [discriminate|].
      destruct s as [|v [|]]; try discriminate; now injection FT as <-.
    + apply data_set_total in D; [destruct D|].
      intros z I0. destruct (S1 z I0) as ([v|] & ->); discriminate.
Qed.

(** ** The dict between the two steps *)
Lemma steps keys records b feed outputs columns :
  NoDup keys -> adapt b = Some feed -> graph feed = Some outputs -> convert outputs = Some columns -> columns <> [] ->
  (forall k, In k keys -> ~ In k (map fst outputs)) -> (records = false -> validate outputs = true) ->
  transform_batch eqb nbytes max_bytes adapt graph convert validate keys records b =
  match @add_passthrough P T eqb (num_rows columns) (map (fun kc => (fst kc, inr (snd kc))) (entries keys b)) columns [] with
  | Raise e => Raise e
  | Ok (cs, unary) => Ok (map (fun s => (s, unary)) (maybe_slice nbytes max_bytes (num_rows cs) cs))
  end.
Proof.
  intros ND EA EG EC NC DJ VL. unfold transform_batch, handle_batch. rewrite EA, EG.
  change (passthrough_data keys b) with (entries keys b).
  rewrite update_absent.
  2: { rewrite map_fst_map. now apply entries_nodup. }
  2: { intros k. rewrite !map_fst_map. intros I J. apply (DJ k); [|exact J]. rewrite entries_keys, filter_In in I. tauto. }
  unfold convert_to_record_batch.
  set (outs := map (fun kt : string * T => (fst kt, @inl T (list cell) (snd kt))) outputs).
  set (pd := map (fun kc : string * list cell => (fst kc, @inr T (list cell) (snd kc))) (entries keys b)).
  assert (KO : map fst outs = map fst outputs) by apply map_fst_map.
  assert (D : flat_map (fun k => match lookup k (outs ++ pd) with Some x => [(k, x)] | None => [] end) keys = pd).
  { subst pd. rewrite <- flat_map_concat_map || idtac. unfold entries at 2.
    assert (E : forall k, In k keys -> lookup k (outs ++ map (fun kc : string * list cell => (fst kc, @inr T (list cell) (snd kc))) (entries keys b))
                = option_map inr (lookup k b)).
    { intros k I. rewrite lookup_app. destruct (lookup k outs) as [x|] eqn:L.
      - apply lookup_in, (in_map fst) in L. rewrite KO in L. now apply DJ in L.
      - rewrite lookup_map, entries_lookup. apply in_existsb in I. now rewrite I. }
    revert E. generalize (outs ++ map (fun kc : string * list cell => (fst kc, @inr T (list cell) (snd kc))) (entries keys b)).
    clear. intros l E. induction keys as [|k keys IH]; [reflexivity|]. cbn [flat_map]. rewrite map_app, IH.
    - rewrite E by now left. destruct (lookup k b); reflexivity.
    - intros k' I. apply E. now right. }
  rewrite D.
  assert (TS : flat_map (fun kx : string * (T + list cell) => match snd kx with inl t => [(fst kx, t)] | inr _ => [] end)
                 (fold_left (fun d k => without k d) keys (outs ++ pd)) = outputs).
  { rewrite without_all, filter_app, flat_map_app.
    assert (filter (fun kx : string * (T + list cell) => negb (existsb (String.eqb (fst kx)) keys)) pd = []) as ->.
    { assert (KP : forall kx, In kx pd -> In (fst kx) keys).
      { intros kx I. apply (in_map fst) in I. unfold pd in I. rewrite map_fst_map, entries_keys, filter_In in I. tauto. }
      clear - KP. induction pd as [|kx l IH]; [reflexivity|]. cbn [filter].
      rewrite (proj2 (in_existsb (fst kx) keys)) by (apply KP; now left). apply IH. intros. apply KP. now right. }
    cbn [flat_map]. rewrite app_nil_r. subst outs. clear - DJ.
    assert (DJ' : forall k, In k (map fst outputs) -> existsb (String.eqb k) keys = false).
    { intros k I. destruct (existsb _ keys) eqn:E; [|reflexivity]. apply in_existsb in E. now apply DJ in E. }
    clear DJ. induction outputs as [|[k t] l IH]; [reflexivity|]. cbn [map filter fst snd].
    rewrite DJ' by now left. cbn [negb flat_map snd fst app]. f_equal. apply IH. intros k' I. apply DJ'. now right. }
  rewrite TS, EC.
  assert (negb records && negb (validate outputs) = false) as ->.
  { destruct records; [reflexivity|]. now rewrite VL. }
  destruct columns; [contradiction|reflexivity].
Qed.

(** ** Results *)
Definition all_ok n pd := Forall (fun kc : string * list cell => can_be_carried (length (snd kc)) n (snd kc)) pd.

Section Result.
Variables (keys : list string) (records : bool) (b : record_batch) (m n : nat).
Variables (feed outputs : list (string * T)) (columns : record_batch).
Hypothesis RF : forall x, eqb x x = true.
Hypothesis ND : NoDup keys.
Hypothesis EA : adapt b = Some feed.
Hypothesis EG : graph feed = Some outputs.
Hypothesis EC : convert outputs = Some columns.
Hypothesis RC : rectangular n columns.
Hypothesis RB : Forall (fun nc => length (snd nc) = m) b.
Hypothesis DJ : forall k, In k keys -> ~ In k (map fst outputs) /\ ~ In k (map fst columns).
Hypothesis VL : records = false -> validate outputs = true.
Hypothesis CC : forall k c, In k keys -> lookup k b = Some c -> can_be_carried m n c.

Definition matched := map (fun kc => (fst kc, fitted n (snd kc))) (filter (fits n) (entries keys b)).
Definition unmatched := map (fun kc => (fst kc, fitted n (snd kc))) (filter (fun kc => negb (fits n kc)) (entries keys b)).

Lemma col_length k c : lookup k b = Some c -> length c = m.
Proof. intros L. apply lookup_in in L. rewrite Forall_forall in RB. exact (RB _ L). Qed.

Lemma in_entries k c : In (k, c) (entries keys b) -> In k keys /\ lookup k b = Some c.
Proof.
  intros I. apply lookup_in_nodup in I; [|now apply entries_nodup]. rewrite entries_lookup in I.
  destruct (existsb _ keys) eqn:E; [|discriminate]. now apply in_existsb in E.
Qed.

Lemma lookup_filtered (f : string * list cell -> bool) k :
  lookup k (map (fun kc => (fst kc, fitted n (snd kc))) (filter f (entries keys b))) =
  match lookup k (entries keys b) with
  | Some c => if f (k, c) then Some (fitted n c) else None
  | None => None
  end.
Proof.
  rewrite lookup_map. pose proof (entries_nodup keys b ND) as NDE. revert NDE.
  induction (entries keys b) as [|[k' c] l IH]; [reflexivity|]. cbn [map fst]. intros NDE. inversion NDE; subst.
  cbn [filter lookup]. destruct (f (k', c)) eqn:E; cbn [lookup].
  - destruct (String.eqb_spec k k') as [->|N]; [now rewrite E|auto].
  - destruct (String.eqb_spec k k') as [->|N]; [|auto]. rewrite E.
    assert (lookup k' (filter f l) = None) as ->; [|reflexivity].
    apply lookup_none. intros I. apply H1. apply in_map_iff in I. destruct I as (x & <- & I).
    apply filter_In in I. apply in_map, I.
Qed.

Lemma rect_all : rectangular n (columns ++ matched).
Proof.
  destruct RC as (N & NDC & F). split; [destruct columns; [contradiction|discriminate]|]. split.
  - rewrite map_app. unfold matched. rewrite map_fst_map.
    assert (ND2 : NoDup (map fst (filter (fits n) (entries keys b)))).
    { pose proof (entries_nodup keys b ND) as H. clear - H. induction (entries keys b) as [|kc l IH]; cbn; [constructor|].
      cbn in H. inversion H; subst. destruct (fits n kc); [|auto]. cbn. constructor; [|auto].
      intros I. apply H2. apply in_map_iff in I. destruct I as (x & E & I). rewrite <- E. apply in_map.
      apply filter_In in I. tauto. }
    assert (D2 : forall k, In k (map fst (filter (fits n) (entries keys b))) -> ~ In k (map fst columns)).
    { intros k I. apply in_map_iff in I. destruct I as ([k' c] & <- & I). apply filter_In in I. destruct I as [I _].
      apply in_entries in I. apply DJ. tauto. }
    clear - NDC ND2 D2. induction (map fst columns) as [|k l IH]; [exact ND2|]. inversion NDC; subst. cbn. constructor.
    + rewrite in_app_iff. intros [I|I]; [contradiction|]. apply (D2 k I). now left.
    + apply IH; auto. intros k' I J. apply (D2 k' I). now right.
  - apply Forall_app. split; [exact F|]. unfold matched. apply Forall_forall. intros x I.
    apply in_map_iff in I. destruct I as (kc & <- & I). apply filter_In in I. destruct I as [_ I]. cbn [snd].
    now apply Nat.eqb_eq.
Qed.

Lemma result : transform_batch eqb nbytes max_bytes adapt graph convert validate keys records b =
  Ok (map (fun s => (s, unmatched)) (maybe_slice nbytes max_bytes n (columns ++ matched))).
Proof.
  rewrite (steps keys records b feed outputs columns); auto; [| |].
  - rewrite (rect_rows n columns RC). rewrite add_ok; [|exact RF|].
    + cbn [app]. fold matched unmatched. now rewrite (rect_rows n _ rect_all).
    + apply Forall_forall. intros [k c] I. apply in_entries in I. destruct I as [I L]. cbn [snd].
      rewrite (col_length _ _ L). now apply (CC k).
  - apply RC.
  - intros k I. now apply DJ.
Qed.

(** What is carried for a key. *)
Lemma carried_key k c : In k keys -> lookup k b = Some c -> 0 < n ->
  (lookup k matched = Some (fitted n c) /\ lookup k unmatched = None /\ length (fitted n c) = n /\
     fitted n c = map (carried m n c) (seq 0 n)) \/
  (lookup k matched = None /\ lookup k unmatched = Some (fitted n c) /\ nth 0 (fitted n c) None = carried m n c 0 /\
     n <> m).
Proof.
  intros I L POS. unfold matched, unmatched. rewrite !lookup_filtered, entries_lookup.
  apply in_existsb in I as I'. rewrite I', L. unfold fits. cbn [snd]. pose proof (col_length k c L) as LC.
  destruct (Nat.eqb_spec (length (fitted n c)) n) as [E|E]; cbn [negb].
  - left. repeat split; auto. apply (nth_ext _ _ (None : cell) (None : cell)); [now rewrite map_length, seq_length|]. intros i LT'.
    assert (LT : i < n) by (rewrite <- E; exact LT').
    rewrite (nth_indep (map (carried m n c) (seq 0 n)) None (carried m n c 0)) by (rewrite map_length, seq_length; lia).
    rewrite map_nth, seq_nth by exact LT. cbn [plus]. unfold carried.
    unfold fitted in *. rewrite LC in *. destruct (Nat.eqb_spec m n) as [->|NM]; [reflexivity|]. cbn [orb] in *.
    destruct (Nat.eqb_spec m 1) as [->|N1].
    + congruence.
    + cbn in E. assert (i = 0) as -> by lia. reflexivity.
  - right. repeat split; auto.
    + unfold carried, fitted in *. rewrite LC in *. destruct (Nat.eqb_spec m n) as [->|NM]; [cbn in E; lia|].
      cbn [orb] in *. destruct (Nat.eqb_spec m 1); reflexivity.
    + intros ->. apply E. unfold fitted. rewrite LC, Nat.eqb_refl. exact LC.
Qed.

Lemma absent_key k : ~ In k keys \/ lookup k b = None -> lookup k matched = None /\ lookup k unmatched = None.
Proof.
  intros H. unfold matched, unmatched. rewrite !lookup_filtered, entries_lookup.
  destruct (existsb _ keys) eqn:E; [|auto]. apply in_existsb in E. destruct H as [H| ->]; [contradiction|auto].
Qed.
End Result.

(** ** Instances *)
Lemma nth_map_seq {X} (c : list X) (x : X) : map (fun i => nth i c x) (seq 0 (length c)) = c.
Proof.
  apply (nth_ext _ _ x x); [now rewrite map_length, seq_length|]. intros i LT. rewrite map_length, seq_length in LT.
  rewrite (nth_indep _ x (nth 0 c x)) by (now rewrite map_length, seq_length).
  rewrite (map_nth (fun i => nth i c x)), seq_nth by exact LT. reflexivity.
Qed.

Lemma instance_column n (s : record_batch) name c : rectangular n s -> lookup name s = Some c ->
  map (lookup name) (instance_dicts s) = map Some c.
Proof.
  intros R L. unfold instance_dicts. rewrite map_map, (rect_rows n s R).
  assert (length c = n) as <-.
  { destruct R as (_ & _ & F). apply lookup_in in L. rewrite Forall_forall in F. exact (F _ L). }
  refine (eq_trans _ (f_equal (map Some) (nth_map_seq c None))). rewrite map_map. apply map_ext. intros i.
  refine (eq_trans (lookup_map (fun c : list cell => nth i c None) s name) _). now rewrite L.
Qed.

Lemma instance_count n (s : record_batch) : rectangular n s -> length (instance_dicts s) = n.
Proof. intros R. unfold instance_dicts. now rewrite map_length, seq_length, (rect_rows n s R). Qed.

Lemma lookup_unary (unary : list (string * list cell)) : NoDup (map fst unary) -> forall instance k,
  lookup k (fold_left (fun d kc => assign (fst kc) (nth 0 (snd kc) None) d) unary instance) =
  match lookup k unary with Some c => Some (nth 0 c None) | None => lookup k instance end.
Proof.
  induction unary as [|[k' c] unary IH]; intros ND instance k; cbn [fold_left lookup fst snd]; [reflexivity|].
  inversion ND; subst. rewrite IH by assumption. rewrite lookup_assign.
  destruct (String.eqb_spec k k') as [->|N]; [|reflexivity].
  assert (lookup k' unary = None) as -> by (now apply lookup_none). reflexivity.
Qed.

(** ** The theorems *)
Section Theorems.
Variables (keys : list string) (b : record_batch) (m n : nat).
Variables (feed outputs : list (string * T)) (columns : record_batch).
Hypothesis RF : forall x, eqb x x = true.
Hypothesis ND : NoDup keys.
Hypothesis EA : adapt b = Some feed.
Hypothesis EG : graph feed = Some outputs.
Hypothesis EC : convert outputs = Some columns.
Hypothesis RC : rectangular n columns.
Hypothesis RB : Forall (fun nc => length (snd nc) = m) b.
Hypothesis DJ : forall k, In k keys -> ~ In k (map fst outputs) /\ ~ In k (map fst columns).
Hypothesis CC : forall k c, In k keys -> lookup k b = Some c -> can_be_carried m n c.

Notation cols := (columns ++ matched keys b n).

Lemma cols_name name c : lookup name columns = Some c -> lookup name cols = Some c.
Proof. intros L. now rewrite lookup_app, L. Qed.
Lemma cols_key k : In k keys -> lookup k cols = lookup k (matched keys b n).
Proof.
  intros I. rewrite lookup_app. assert (lookup k columns = None) as ->; [|reflexivity].
  apply lookup_none. now apply DJ.
Qed.

Lemma cols_rect : rectangular n cols.
Proof. eapply rect_all; eauto. Qed.

Notation slices_of := (maybe_slice nbytes max_bytes n cols).

Lemma slice_has s name c : In s slices_of -> lookup name cols = Some c -> exists c', lookup name s = Some c'.
Proof.
  intros I L. destruct (slices n n cols cols_rect (le_n n)) as [F _]. rewrite Forall_forall in F.
  destruct (F s I) as (_ & K & _). destruct (lookup name s) as [c'|] eqn:E; [now exists c'|].
  apply lookup_none in E. rewrite K in E. apply lookup_in, (in_map fst) in L. contradiction.
Qed.
Lemma slice_has_not s name : In s slices_of -> lookup name cols = None -> lookup name s = None.
Proof.
  intros I L. destruct (slices n n cols cols_rect (le_n n)) as [F _]. rewrite Forall_forall in F.
  destruct (F s I) as (_ & K & _). apply lookup_none. rewrite K. now apply lookup_none.
Qed.

Lemma cells_of name c (U : list (string * list cell)) : lookup name cols = Some c ->
  all_cells name (map (fun s => (s, U)) slices_of) = c.
Proof.
  intros L. unfold all_cells. destruct (slices n n cols cols_rect (le_n n)) as [_ C].
  refine (eq_trans _ (C name c L)). clear. induction (maybe_slice _ _ _ _) as [|s l IH]; [reflexivity|].
  cbn [map flat_map fst]. now rewrite IH.
Qed.

Lemma records_theorem records : (records = false -> validate outputs = true) -> 0 < n ->
  exists outs, transform_batch eqb nbytes max_bytes adapt graph convert validate keys records b = Ok outs /\
    Forall (fun o => exists n', 0 < n' /\ rectangular n' (fst o) /\
              (nbytes (fst o) <= max_bytes \/ n' = 1)) outs /\
    (forall name c, lookup name columns = Some c -> all_cells name outs = c) /\
    (forall k c, In k keys -> lookup k b = Some c ->
       all_cells k outs = map (carried m n c) (seq 0 n) \/
       (m <> n /\ Forall (fun o => lookup k (fst o) = None /\
                            option_map (fun c : list cell => nth 0 c None) (lookup k (snd o)) = Some (carried m n c 0)) outs)) /\
    (forall name, ~ In name (map fst columns) -> ~ In name keys \/ lookup name b = None ->
       Forall (fun o => lookup name (fst o) = None /\ lookup name (snd o) = None) outs).
Proof.
  intros VL POS. eexists. split; [eapply result; eauto|].
  destruct (slices n n cols cols_rect (le_n n)) as [F C].
  split; [|split; [|split]].
  - apply Forall_forall. intros o I. apply in_map_iff in I. destruct I as (s & <- & I). cbn [fst].
    rewrite Forall_forall in F. destruct (F s I) as ((n' & R & Q) & _ & B). exists n'.
    split; [auto|]. split; [exact R|]. destruct B as [B|B]; [now left|right].
    rewrite (rect_rows n' s R) in B. specialize (Q POS). lia.
  - intros name c L. apply cells_of. now apply cols_name.
  - intros k c I L. destruct (carried_key keys b m n columns ND RC RB CC k c I L POS) as [(M & U & LE & E)|(M & U & E & NE)].
    + left. rewrite <- E. apply cells_of. now rewrite cols_key.
    + right. split; [congruence|]. apply Forall_forall. intros o J. apply in_map_iff in J. destruct J as (s & <- & J).
      cbn [fst snd]. split; [apply slice_has_not; [exact J|now rewrite cols_key]|].
      refine (eq_trans (f_equal _ U) _). cbn [option_map]. f_equal. exact E.
  - intros name N1 N2. destruct (absent_key keys b n ND name N2) as [M U].
    apply Forall_forall. intros o J. apply in_map_iff in J. destruct J as (s & <- & J). cbn [fst snd].
    split; [|exact U]. apply slice_has_not; [exact J|]. rewrite lookup_app.
    assert (lookup name columns = None) as -> by (now apply lookup_none). exact M.
Qed.

Lemma unmatched_nodup : NoDup (map fst (unmatched keys b n)).
Proof.
  unfold unmatched. rewrite map_fst_map. pose proof (entries_nodup keys b ND) as H. clear - H.
  induction (entries keys b) as [|kc l IH]; cbn; [constructor|].
  cbn in H. inversion H; subst. destruct (negb (fits n kc)); [|auto]. cbn. constructor; [|auto].
  intros I. apply H2. apply in_map_iff in I. destruct I as (x & E & I). rewrite <- E. apply in_map.
  apply filter_In in I. tauto.
Qed.

Lemma instances_of name c : lookup name cols = Some c -> lookup name (unmatched keys b n) = None ->
  map (lookup name) (flat_map to_instance_dicts (map (fun s => (s, unmatched keys b n)) slices_of)) = map Some c.
Proof.
  intros L U. refine (eq_trans _ (f_equal (map Some) (cells_of name c [] L))). unfold all_cells.
  destruct (slices n n cols cols_rect (le_n n)) as [F _]. pose proof slice_has as SH. revert F SH.
  generalize (maybe_slice nbytes max_bytes n cols) as l.
  induction l as [|s l IH]; intros F SH; [reflexivity|]. cbn [map flat_map fst]. rewrite !map_app, IH.
  2: { now inversion F. } 2: { intros s' name' c' I. apply SH. now right. }
  f_equal. destruct (SH s name c (or_introl eq_refl) L) as (c' & L'). rewrite L'.
  apply Forall_inv in F. destruct F as ((n' & R & _) & _).
  refine (eq_trans _ (instance_column n' s name c' R L')).
  unfold to_instance_dicts. rewrite map_map. apply map_ext. intros i.
  rewrite lookup_unary by apply unmatched_nodup. now rewrite U.
Qed.

Lemma instances_theorem : validate outputs = true -> 0 < n ->
  exists instances, transform_to_instances eqb nbytes max_bytes adapt graph convert validate keys b = Ok instances /\
    length instances = n /\
    (forall name c, lookup name columns = Some c -> map (lookup name) instances = map Some c) /\
    (forall k c, In k keys -> lookup k b = Some c ->
       map (lookup k) instances = map (fun i => Some (carried m n c i)) (seq 0 n)) /\
    (forall name, ~ In name (map fst columns) -> ~ In name keys \/ lookup name b = None ->
       Forall (fun instance => lookup name instance = None) instances).
Proof.
  intros VL POS. unfold transform_to_instances. eexists. split.
  { erewrite result by eauto. reflexivity. }
  assert (A : forall name c, lookup name columns = Some c ->
    map (lookup name) (flat_map to_instance_dicts (map (fun s => (s, unmatched keys b n)) slices_of)) = map Some c).
  { intros name c L. apply instances_of; [now apply cols_name|].
    destruct (existsb (String.eqb name) keys) eqn:E.
    - apply in_existsb in E. apply DJ in E. apply lookup_in, (in_map fst) in L. tauto.
    - apply absent_key; [exact ND|]. left. intros I. apply in_existsb in I. congruence. }
  assert (LN : length (flat_map to_instance_dicts (map (fun s => (s, unmatched keys b n)) slices_of)) = n).
  { destruct RC as (NE & _ & FC). destruct columns as [|[name c] cs]; [contradiction|].
    specialize (A name c). cbn [lookup] in A. rewrite String.eqb_refl in A. specialize (A eq_refl).
    apply (f_equal (@length _)) in A. rewrite !map_length in A. rewrite A. now inversion FC. }
  split; [exact LN|]. split; [exact A|]. split.
  2: { intros name N1 N2. destruct (absent_key keys b n ND name N2) as [M U].
    apply Forall_forall. intros inst J. apply in_flat_map in J.
    destruct J as (o & J & J'). apply in_map_iff in J. destruct J as (s & <- & J).
    unfold to_instance_dicts in J'. apply in_map_iff in J'. destruct J' as (inst' & <- & J').
    rewrite lookup_unary by apply unmatched_nodup. rewrite U. unfold instance_dicts in J'.
    apply in_map_iff in J'. destruct J' as (i & <- & _).
    refine (eq_trans (lookup_map (fun c : list cell => nth i c None) s name) _).
    rewrite (slice_has_not s name J); [reflexivity|]. rewrite lookup_app.
    assert (lookup name columns = None) as -> by (now apply lookup_none). exact M. }
  intros k c I L.
  destruct (carried_key keys b m n columns ND RC RB CC k c I L POS) as [(M & U & LE & E)|(M & U & E & NE)].
  - rewrite (instances_of k (fitted n c)); [rewrite E; now rewrite map_map|now rewrite cols_key|exact U].
  - apply (nth_ext _ _ None None); [rewrite !map_length, seq_length; exact LN|].
    rewrite map_length, LN. intros i LT.
    rewrite (nth_indep (map (fun i => Some (carried m n c i)) (seq 0 n)) None (Some (carried m n c 0)))
      by (rewrite map_length, seq_length; exact LT).
    rewrite (map_nth (fun i => Some (carried m n c i)) (seq 0 n) 0 i), seq_nth by exact LT. cbn [plus].
    assert (carried m n c i = carried m n c 0) as ->.
    { unfold carried. destruct (Nat.eqb_spec m n); [congruence|reflexivity]. }
    rewrite <- E.
    assert (G : forall x, In x (map (lookup k) (flat_map to_instance_dicts (map (fun s => (s, unmatched keys b n)) slices_of))) ->
      x = Some (nth 0 (fitted n c) None)).
    { intros x J. apply in_map_iff in J. destruct J as (inst & <- & J). apply in_flat_map in J.
      destruct J as (o & J & J'). apply in_map_iff in J. destruct J as (s & <- & _).
      unfold to_instance_dicts in J'. apply in_map_iff in J'. destruct J' as (inst' & <- & _).
      rewrite lookup_unary by apply unmatched_nodup. now rewrite U. }
    apply G. apply nth_In. rewrite map_length, LN. exact LT.
Qed.

Lemma mixed_theorem records : (forall x y, eqb x y = true -> x = y) ->
  (records = false -> validate outputs = true) -> m <> n -> 0 < m ->
  (forall k c, In k keys -> lookup k b = Some c -> forall x, In x c -> exists v : option P, x = option_map (fun y => [y]) v) ->
  (exists k c x y, In k keys /\ lookup k b = Some c /\ In x c /\ In y c /\ x <> y) ->
  transform_batch eqb nbytes max_bytes adapt graph convert validate keys records b = Raise ValueError.
Proof.
  intros EQ VL NE POS SG (k & c & x & y & I & L & IX & IY & NXY).
  rewrite (steps keys records b feed outputs columns); auto; [|apply RC|intros k0 I0; now apply DJ].
  rewrite (rect_rows n columns RC). rewrite add_error; auto.
  - intros k0 c0 I0. apply (in_entries keys b ND) in I0. destruct I0 as [I0 L0].
    rewrite (col_length b m RB k0 c0 L0). split; [exact NE|]. split; [exact POS|]. now apply (SG k0).
  - exists k, c, x, y. split; [|auto]. apply lookup_in. rewrite entries_lookup.
    apply in_existsb in I. now rewrite I.
Qed.
End Theorems.

Lemma pointwise {X Y} (I : list X) (R : list Y) (f : string -> X -> option cell) (g : string -> Y -> option cell) :
  (forall name, map (f name) I = map (g name) R) -> Forall2 (fun i r => forall name, f name i = g name r) I R.
Proof.
  revert R. induction I as [|i I IH]; intros [|r R] H; try (specialize (H ""%string); discriminate); constructor.
  - intros name. specialize (H name). now injection H.
  - apply IH. intros name. specialize (H name). now injection H.
Qed.
Lemma pointwise_back {X Y} (I : list X) (R : list Y) (f : X -> option cell) (g : Y -> option cell) :
  Forall2 (fun i r => f i = g r) I R -> map f I = map g R.
Proof. induction 1; cbn; congruence. Qed.

Lemma batching_theorem keys schema_keys row_fn :
  (forall x, eqb x x = true) -> NoDup keys -> (forall k, In k keys -> ~ In k schema_keys) ->
  works_by_rows adapt graph convert validate keys row_fn ->
  forall batches, Forall (fun b => exists n, 0 < n /\ rectangular n b) batches ->
  exists instances, transform_dataset eqb nbytes max_bytes adapt graph convert validate keys schema_keys batches = Ok instances /\
    Forall2 (fun instance row => forall name,
               lookup name instance = if existsb (String.eqb name) keys then lookup name row else lookup name (row_fn row))
      instances (flat_map instance_dicts batches).
Proof.
  intros RF ND HID W batches F. unfold transform_dataset.
  assert (keys_allowed keys schema_keys = true) as ->.
  { unfold keys_allowed. rewrite negb_true_iff. destruct (existsb _ keys) eqn:E; [|reflexivity].
    apply existsb_exists in E. destruct E as (k & I & E). apply in_existsb in E. now apply HID in I. }
  induction F as [|b bs (n & POS & R) F IH]; cbn [transform_batches flat_map]; [exists []; split; [reflexivity|constructor]|].
  destruct (W n b POS R) as (feed & outputs & columns & EA & EG & EC & VL & RC & DJ & F2).
  destruct (instances_theorem keys b n n feed outputs columns) as (I1 & E1 & LN & IC & IK & IN); auto.
  { apply R. } { intros. now left. }
  destruct IH as (I2 & E2 & F2'). exists (I1 ++ I2). rewrite E1, E2. split; [reflexivity|].
  apply Forall2_app; [|exact F2'].
  apply (pointwise I1 (instance_dicts b) lookup
           (fun name row => if existsb (String.eqb name) keys then lookup name row else lookup name (row_fn row))).
  intros name.
  assert (NONE : forall (s : record_batch), lookup name s = None -> Forall (fun inst => lookup name inst = None) (instance_dicts s)).
  { intros s L. apply Forall_forall. intros inst J. unfold instance_dicts in J.
    apply in_map_iff in J. destruct J as (i & <- & _).
    refine (eq_trans (lookup_map (fun c : list cell => nth i c None) s name) _). now rewrite L. }
  assert (LB : length (instance_dicts b) = n) by (now apply instance_count).
  assert (NN : forall J J' : list (list (string * cell)), length J = n -> length J' = n ->
    Forall (fun inst => lookup name inst = None) J -> Forall (fun inst => lookup name inst = None) J' ->
    map (lookup name) J = map (lookup name) J').
  { clear. intros J. revert n. induction J as [|x J IH]; intros n [|y J'] L L' FJ FJ'; cbn in *; try congruence.
    inversion FJ; inversion FJ'; subst. f_equal; [congruence|]. apply (IH (length J)); auto. }
  destruct (existsb (String.eqb name) keys) eqn:E.
  - apply in_existsb in E. destruct (lookup name b) as [c|] eqn:L.
    + rewrite (IK name c E L). refine (eq_trans _ (eq_sym (instance_column n b name c R L))).
      assert (length c = n) as LC by (apply (col_length b n) with (k := name); [apply R|exact L]).
      refine (eq_trans _ (f_equal (map Some) (nth_map_seq c None))). rewrite map_map, LC. apply map_ext. intros i.
      unfold carried. now rewrite Nat.eqb_refl.
    + apply NN; auto. apply IN; [now apply DJ|now right].
  - assert (ROWS : map (lookup name) (instance_dicts columns) = map (fun row => lookup name (row_fn row)) (instance_dicts b)).
    { apply pointwise_back. clear - F2. induction F2; constructor; auto. }
    rewrite <- ROWS. destruct (lookup name columns) as [c|] eqn:L.
    + now rewrite (IC name c L), (instance_column n columns name c RC L).
    + apply NN; auto; [now apply instance_count|]. apply IN; [now apply lookup_none|].
      left. intros I. apply in_existsb in I. congruence.
Qed.
End Proofs.
