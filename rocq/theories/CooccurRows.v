(** Proofs about what a batch contributes to a vocabulary ranked by mutual information (C64): from tensors to rows. *)
From Coq Require Import List ZArith QArith Bool Arith Lia.
From Verif Require Import FloatModel WeightedModel CooccurModel CooccurSpec CooccurProofs.
Import ListNotations.
Local Open Scope nat_scope.

(** ** Row numbers *)
Fixpoint numbers_from {A} (k : nat) (rows : list (list A)) : list nat :=
  match rows with [] => [] | r :: rs => repeat k (length r) ++ numbers_from (S k) rs end.
Lemma row_numbers_from {A} (rows : list (list A)) : row_numbers rows = numbers_from 0 rows.
Proof.
  unfold row_numbers. generalize 0. induction rows as [|r rows IH]; intros k; [reflexivity|]. cbn [length seq combine map concat fst snd numbers_from]. f_equal. apply IH.
Qed.
Definition spread {A B} (ys : list B) (rows : list (list A)) : list B := concat (map (fun p => repeat (fst p) (length (snd p))) (combine ys rows)).
Lemma gather_app {A} (p : list A) i j a b : gather p i = Some a -> gather p j = Some b -> gather p (i ++ j) = Some (a ++ b).
Proof.
  revert a. induction i as [|k i IH]; intros a Ha Hb; [injection Ha as <-; exact Hb|]. cbn [gather app] in *.
  destruct (nth_error p k); [|discriminate]. destruct (gather p i) as [c|]; [|discriminate]. injection Ha as <-. now rewrite (IH c eq_refl Hb).
Qed.
Lemma gather_repeat {A} (p : list A) k y n : nth_error p k = Some y -> gather p (repeat k n) = Some (repeat y n).
Proof. intros E. induction n as [|n IH]; [reflexivity|]. cbn [repeat gather]. now rewrite E, IH. Qed.
Lemma gather_numbers {A B} (rows : list (list A)) : forall (pre ys : list B), length ys = length rows -> gather (pre ++ ys) (numbers_from (length pre) rows) = Some (spread ys rows).
Proof.
  induction rows as [|r rows IH]; intros pre [|y ys] L; try discriminate; [reflexivity|]. cbn [numbers_from]. unfold spread. cbn [combine map concat fst snd].
  apply gather_app.
  - apply gather_repeat. rewrite nth_error_app2 by lia. now rewrite Nat.sub_diag.
  - replace (pre ++ y :: ys) with ((pre ++ [y]) ++ ys) by (now rewrite <- app_assoc). replace (S (length pre)) with (length (pre ++ [y])) by (rewrite app_length; cbn; lia).
    apply IH. cbn in L. lia.
Qed.
Lemma gather_rows {A B} (rows : list (list A)) (ys : list B) : length ys = length rows -> gather ys (row_numbers rows) = Some (spread ys rows).
Proof. intros L. rewrite row_numbers_from. exact (gather_numbers rows [] ys L). Qed.
Lemma row_numbers_length {A} (rows : list (list A)) : length (row_numbers rows) = length (concat rows).
Proof.
  rewrite row_numbers_from. generalize 0. induction rows as [|r rows IH]; intros k; [reflexivity|]. cbn. now rewrite !app_length, repeat_length, IH.
Qed.
Lemma spread_same {A} k (g : list (list A)) : concat (map (fun p : nat * list A => repeat (fst p) (length (snd p))) (combine (repeat k (length g)) g)) = repeat k (length (concat g)).
Proof. induction g as [|r g IH]; [reflexivity|]. cbn [length repeat combine map concat fst snd]. now rewrite IH, app_length, repeat_app. Qed.
Lemma combine_app' {A B} (a a' : list A) (b b' : list B) : length a = length b -> combine (a ++ a') (b ++ b') = combine a b ++ combine a' b'.
Proof. revert b. induction a as [|x a IH]; intros [|y b] L; try discriminate; [reflexivity|]. cbn. f_equal. apply IH. cbn in L. lia. Qed.
Lemma spread_groups {A} (groups : list (list (list A))) : spread (row_numbers groups) (concat groups) = row_numbers (map (@concat A) groups).
Proof.
  rewrite !row_numbers_from. generalize 0. induction groups as [|g groups IH]; intros k; [reflexivity|]. unfold spread in *. cbn [numbers_from concat map].
  rewrite combine_app' by apply repeat_length. now rewrite map_app, concat_app, spread_same, IH.
Qed.
Lemma concat_concat {A} (groups : list (list (list A))) : concat (map (@concat A) groups) = concat (concat groups).
Proof. induction groups as [|g groups IH]; [reflexivity|]. cbn. now rewrite concat_app, IH. Qed.

Lemma reduce_max_right l m : (forall y, In y l -> 0 <= y <= Z.of_nat m)%Z -> l <> [] -> m = 0 \/ In (Z.of_nat m) l -> reduce_max l = Z.of_nat m.
Proof.
  intros B Ne H. assert (U : forall l, (forall y, In y l -> 0 <= y <= Z.of_nat m)%Z -> (reduce_max l <= Z.of_nat m)%Z).
  { clear. induction l as [|y l IH]; intros B; cbn [reduce_max fold_right]; [lia|]. pose proof (B y (or_introl eq_refl)). fold (reduce_max l). specialize (IH (fun z Hz => B z (or_intror Hz))). lia. }
  assert (Lo : forall l y, In y l -> (y <= reduce_max l)%Z).
  { clear. induction l as [|z l IH]; intros y I; [destruct I|]. cbn [reduce_max fold_right]. fold (reduce_max l). destruct I as [<-|I]; [lia|]. specialize (IH y I). lia. }
  specialize (U l B). destruct H as [->|I].
  - destruct l as [|y l]; [congruence|]. pose proof (B y (or_introl eq_refl)). pose proof (Lo (y :: l) y (or_introl eq_refl)). lia.
  - specialize (Lo l _ I). lia.
Qed.

Lemma sequence_map {A B} (f : A -> option B) g l : (forall a, In a l -> f a = Some (g a)) -> sequence (map f l) = Some (map g l).
Proof.
  induction l as [|a l IH]; intros H; [reflexivity|]. cbn [map sequence]. rewrite (H a) by (cbn; auto). rewrite IH by (intros; apply H; cbn; auto). reflexivity.
Qed.
Lemma add_matrices_map {A} (F G : A -> nat -> Q) u js : add_matrices (map (fun t => map (F t) js) u) (map (fun t => map (G t) js) u) = map (fun t => map (fun j => (F t j + G t j)%Q) js) u.
Proof.
  unfold add_matrices. rewrite combine_map_map, map_map. apply map_ext. intros t. cbn [fst snd]. rewrite combine_map_map, map_map. reflexivity.
Qed.
Lemma add_columns {A} (F : nat -> A -> nat -> Q) u js : forall cs G,
  fold_left add_matrices (map (fun c => map (fun t => map (F c t) js) u) cs) (map (fun t => map (G t) js) u)
  = map (fun t => map (fun j => fold_left (fun s c => (s + F c t j)%Q) cs (G t j)) js) u.
Proof.
  induction cs as [|c cs IH]; intros G; [reflexivity|]. cbn [map fold_left]. rewrite add_matrices_map, (IH (fun t j => (G t j + F c t j)%Q)). reflexivity.
Qed.

Section Rows.
Variable token : Type.
Variable token_eqb : token -> token -> bool.
Hypothesis token_spec : forall a b, reflect (a = b) (token_eqb a b).
Local Notation unique := (unique token token_eqb).
Local Notation feature := (feature token).
Local Notation ctoken := (ctoken token).
Local Notation clabel := (clabel token).
Local Notation cweight := (cweight token).
Local Notation cell := (cell token).

Lemma ragged_right n outer last flat rows : ragged_rows token n outer last flat rows ->
  n = length rows /\ flat = concat rows /\ ragged_batch_value_rowids outer last = Some (row_numbers rows).
Proof.
  induction 1 as [rows|n outer last flat groups H (E1 & E2 & E3)]; [now repeat split|]. split; [now rewrite map_length|]. split; [now rewrite concat_concat|].
  unfold ragged_batch_value_rowids in *. cbn [rev]. rewrite fold_left_app, E3. cbn [fold_left].
  rewrite gather_rows by apply row_numbers_length. f_equal. apply spread_groups.
Qed.

(** ** Flat tensors *)
Definition cells_of (toks : list (list token)) (ys : list Z) (ws : list Q) : list cell :=
  flat_map (fun p => map (fun t => (t, snd (fst p), snd p)) (fst (fst p))) (combine (combine toks ys) ws).
Lemma cells_tokens toks : forall ys ws, length ys = length toks -> length ws = length toks -> map ctoken (cells_of toks ys ws) = concat toks.
Proof.
  induction toks as [|r toks IH]; intros [|y ys] [|w ws] L1 L2; try discriminate; [reflexivity|]. unfold cells_of in *. cbn [combine flat_map fst snd concat].
  rewrite map_app, map_map, IH by (cbn in *; lia). f_equal. rewrite <- (map_id r) at 2. now apply map_ext.
Qed.
Lemma map_const {A B} (b : B) (l : list A) : map (fun _ => b) l = repeat b (length l).
Proof. induction l as [|a l IH]; [reflexivity|]. cbn. now rewrite IH. Qed.
Lemma cells_labels toks : forall ys ws, length ys = length toks -> length ws = length toks -> map clabel (cells_of toks ys ws) = spread ys toks.
Proof.
  induction toks as [|r toks IH]; intros [|y ys] [|w ws] L1 L2; try discriminate; [reflexivity|]. unfold cells_of, spread in *. cbn [combine flat_map fst snd map concat].
  rewrite map_app, map_map, IH by (cbn in *; lia). f_equal. exact (map_const _ r).
Qed.
Lemma cells_weights toks : forall ys ws, length ys = length toks -> length ws = length toks -> map cweight (cells_of toks ys ws) = spread ws toks.
Proof.
  induction toks as [|r toks IH]; intros [|y ys] [|w ws] L1 L2; try discriminate; [reflexivity|]. unfold cells_of, spread in *. cbn [combine flat_map fst snd map concat].
  rewrite map_app, map_map, IH by (cbn in *; lia). f_equal. exact (map_const _ r).
Qed.
Lemma spread_ones toks ws : length ws = length toks -> Forall (fun w => w = 1%Q) ws -> spread (A := token) ws toks = map (fun _ => 1%Q) (concat toks).
Proof.
  revert ws. induction toks as [|r toks IH]; intros [|w ws] L F; try discriminate; [reflexivity|]. inversion F as [|? ? -> F']; subst. unfold spread in *. cbn [combine map concat fst snd].
  rewrite map_app, IH by (cbn in *; auto; lia). f_equal. symmetry. apply map_const.
Qed.
Lemma spread_single {B} toks (ws : list B) : length ws = length toks -> Forall (fun r => length r = 1) toks -> spread (A := token) ws toks = ws.
Proof.
  revert ws. induction toks as [|r toks IH]; intros [|w ws] L F; try discriminate; [reflexivity|]. inversion F as [|? ? E F']; subst. unfold spread in *. cbn [combine map concat fst snd].
  rewrite E. cbn [repeat app]. f_equal. apply IH; [cbn in L; lia|exact F'].
Qed.
Lemma single_concat (toks : list (list token)) : Forall (fun r => length r = 1) toks -> length (concat toks) = length toks.
Proof. induction 1 as [|r toks E F IH]; [reflexivity|]. cbn. rewrite app_length, IH, E. reflexivity. Qed.
Lemma broadcast_spread {B} n toks (ys : list B) : length ys = length toks -> Forall (fun r => length r = n) toks -> flat_map (fun v => repeat v n) ys = spread (A := token) ys toks.
Proof.
  revert ys. induction toks as [|r toks IH]; intros [|y ys] L F; try discriminate; [reflexivity|]. inversion F as [|? ? E F']; subst. unfold spread in *. cbn [combine map concat fst snd flat_map].
  f_equal. apply IH; [cbn in L; lia|exact F'].
Qed.
Lemma broadcast_flat {B} (y : list B) : flat_map (fun v => repeat v 1) y = y.
Proof. induction y as [|a y IH]; [reflexivity|]. cbn. f_equal. exact IH. Qed.

Definition keep (filter_regex : option (token -> bool)) (c : cell) : bool :=
  match filter_regex with None => true | Some matches => negb (matches (ctoken c)) end.
Definition weights_ok (x : feature) (weights : option (list nat * list Q)) (toks : list (list token)) (ws : list Q) : Prop :=
  length ws = length toks /\
  match weights with
  | None => Forall (fun w => w = 1%Q) ws
  | Some (shape, flat) => shape = [length ws] /\ flat = ws /\ Forall (fun r => length r = 1) toks /\ match x with Dense _ _ (_ :: _) _ => False | _ => True end
  end.
Lemma shapes_equal_refl s : shapes_equal s s = true.
Proof. unfold shapes_equal. destruct (list_eq_dec Nat.eq_dec s s); congruence. Qed.
Lemma filter_true {A} (l : list A) : filter (fun _ => true) l = l.
Proof. induction l as [|a l IH]; [reflexivity|]. cbn. now rewrite IH. Qed.

Theorem preprocess_right x toks ys weights ws filter_regex : has_rows token x toks -> length ys = length toks -> weights_ok x weights toks ws ->
  let cells := filter (keep filter_regex) (cells_of toks ys ws) in
  preprocess token x ys weights filter_regex = Some (map ctoken cells, map clabel cells, map cweight cells).
Proof.
  intros X L [Lw W] cells. set (all := cells_of toks ys ws) in *.
  assert (E1 : map ctoken all = concat toks) by (apply cells_tokens; congruence).
  assert (E2 : map clabel all = spread ys toks) by (apply cells_labels; congruence).
  assert (E3 : map cweight all = spread ws toks) by (apply cells_weights; congruence).
  assert (Ll : length (spread ys toks) = length (concat toks)) by (rewrite <- E1, <- E2; now rewrite !map_length).
  assert (M : match filter_regex with
      | None => Some (map ctoken all, map clabel all, map cweight all)
      | Some regex_full_match =>
          Some (boolean_mask (map ctoken all) (map (fun t => negb (regex_full_match t)) (map ctoken all)), boolean_mask (map clabel all) (map (fun t => negb (regex_full_match t)) (map ctoken all)),
                boolean_mask (map cweight all) (map (fun t => negb (regex_full_match t)) (map ctoken all)))
      end = Some (map ctoken cells, map clabel cells, map cweight cells)).
  { unfold cells, keep. destruct filter_regex as [f|]; [|now rewrite filter_true]. rewrite map_map, !mask_map. reflexivity. }
  assert (Wt : forall shape, (match x with Dense _ _ (_ :: _) _ => True | _ => shape = [length (concat toks)] end) ->
    match weights with
    | None => Some (map (fun _ => 1%Q) (concat toks))
    | Some (weights_shape, weights) => if shapes_equal shape weights_shape then Some weights else None
    end = Some (map cweight all)).
  { intros shape Hs. rewrite E3. destruct weights as [[ws' fl]|].
    - destruct W as (-> & -> & F & D). rewrite spread_single by assumption.
      replace shape with [length ws]; [now rewrite shapes_equal_refl|]. destruct x as [? [|? ?] ?| |]; [| contradiction| |]; rewrite Hs, single_concat by exact F; congruence.
    - now rewrite spread_ones by assumption. }
  unfold preprocess. destruct x as [batch inner flat|batch rows values|nrows outer last flat]; cbn [has_rows] in X.
  - destruct X as (-> & -> & F). cbn [broadcast_to_x_shape]. rewrite Wt.
    + rewrite L, Nat.eqb_refl. rewrite (broadcast_spread _ toks ys L F), <- E2, <- E1. exact M.
    + destruct inner; [|exact Logic.I]. cbn in F. now rewrite single_concat.
  - destruct X as (-> & -> & ->). rewrite L, Nat.eqb_refl, gather_rows by assumption. rewrite Wt by reflexivity. cbn [broadcast_to_x_shape fold_right].
    rewrite Ll, Nat.eqb_refl, broadcast_flat, <- E2, <- E1. exact M.
  - destruct (ragged_right _ _ _ _ _ X) as (-> & -> & ->). rewrite L, Nat.leb_refl, gather_rows by assumption. rewrite Wt by reflexivity. cbn [broadcast_to_x_shape fold_right].
    rewrite Ll, Nat.eqb_refl, broadcast_flat, <- E2, <- E1. exact M.
Qed.

(** ** Labels *)
Definition lab (v : option Z) : Z := match v with Some y => y | None => (-1)%Z end.
(** The labels as a matrix in which values may be missing. *)
Definition matrix (y : labels) (width : nat) (cells : list (list (option Z))) : Prop :=
  match y with
  | Dense_labels _ flat => width = 1 /\ cells = map (fun v => [Some v]) flat
  | Sparse_labels w c => width = w /\ cells = c
  end.
Definition column_labels (cells : list (list (option Z))) (c : nat) : list Z := map (fun r => lab (nth c r None)) cells.
Definition column_cells (filter_regex : option (token -> bool)) (toks : list (list token)) (cells : list (list (option Z))) (ws : list Q) (c : nat) : list cell :=
  filter (keep filter_regex) (cells_of toks (column_labels cells c) ws).
Definition column_sum (filter_regex : option (token -> bool)) (toks : list (list token)) (cells : list (list (option Z))) (ws : list Q) (c : nat) (t : token) (j : nat) : Q :=
  sumq (map cweight (filter (fun k => token_eqb t (ctoken k) && (clabel k =? Z.of_nat j)%Z) (column_cells filter_regex toks cells ws c))).

Lemma column_right cells width c : Forall (fun r => length r = width) cells -> c < width -> column c (to_dense missing_mask_value cells) = column_labels cells c.
Proof.
  intros F L. unfold column, to_dense, column_labels. rewrite map_map. apply map_ext_in. intros r I. rewrite Forall_forall in F. specialize (F r I).
  rewrite (nth_indep _ 0%Z (lab None)) by (rewrite map_length; lia). exact (map_nth lab r None c).
Qed.
Lemma column_labels_length cells c : length (column_labels cells c) = length cells.
Proof. unfold column_labels. apply map_length. Qed.
Lemma column_tokens filter_regex toks cells ws c : length cells = length toks -> length ws = length toks ->
  map ctoken (column_cells filter_regex toks cells ws c) = filter (fun t => match filter_regex with None => true | Some f => negb (f t) end) (concat toks).
Proof.
  intros L1 L2. unfold column_cells. rewrite <- (cells_tokens toks (column_labels cells c) ws) by (try rewrite column_labels_length; assumption).
  rewrite filter_map'. reflexivity.
Qed.

(** The labels of the matrix are at most [m]. *)
Definition bounded (m : nat) (cells : list (list (option Z))) : Prop := forall r y, In r cells -> In (Some y) r -> (0 <= y <= Z.of_nat m)%Z.
Lemma column_labels_bounded m cells c : bounded m cells -> Forall (fun y => (-1 <= y <= Z.of_nat m)%Z) (column_labels cells c).
Proof.
  intros B. apply Forall_forall. intros y I. apply in_map_iff in I as (r & <- & I). destruct (nth_in_or_default c r None) as [In'|E]; [|rewrite E; cbn; lia].
  destruct (nth c r None) as [y|] eqn:E; [|cbn; lia]. specialize (B r y I In'). cbn. lia.
Qed.
Lemma cells_bounded m f toks cells ws c : bounded m cells -> Forall (fun k => (-1 <= clabel k <= Z.of_nat m)%Z) (column_cells f toks cells ws c).
Proof.
  intros B. apply Forall_forall. intros k I. apply filter_In in I as [I _]. unfold cells_of in I. apply in_flat_map in I as ([[ts y] w] & I & It).
  apply in_map_iff in It as (t & <- & _). apply in_combine_l, in_combine_r in I. pose proof (column_labels_bounded m cells c B) as F. rewrite Forall_forall in F. exact (F y I).
Qed.

Definition tokens_kept (filter_regex : option (token -> bool)) (toks : list (list token)) : list token :=
  filter (fun t => match filter_regex with None => true | Some f => negb (f t) end) (concat toks).

Lemma counts_of_column x weights filter_regex toks cells ws m ys c : has_rows token x toks -> length cells = length toks -> weights_ok x weights toks ws ->
  bounded m cells -> ys = column_labels cells c ->
  compute_weighted_counts token token_eqb x ys weights filter_regex (Z.of_nat m) =
  let u := unique (tokens_kept filter_regex toks) in
  Some (Reduced token u (map (fun t => sumq (map cweight (filter (fun k => token_eqb t (ctoken k)) (column_cells filter_regex toks cells ws c)))) u)
    (map (fun t => map (column_sum filter_regex toks cells ws c t) (seq 0 (S m))) u)
    (map (fun t => length (filter (token_eqb t) (tokens_kept filter_regex toks))) u)).
Proof.
  intros X L W B ->. unfold compute_weighted_counts.
  rewrite (preprocess_right x toks (column_labels cells c) weights ws filter_regex X) by (try rewrite column_labels_length; assumption).
  pose proof (counted_right token token_eqb token_spec (column_cells filter_regex toks cells ws c) m (cells_bounded m _ _ _ _ _ B)) as C.
  cbv zeta in C. unfold counted in C. fold (column_cells filter_regex toks cells ws c). destruct W as [Lw _].
  rewrite (column_tokens filter_regex toks cells ws c L Lw) in *. fold (tokens_kept filter_regex toks) in *. exact C.
Qed.

(** The weights do not depend on the column. *)
Lemma weights_of_column toks : forall ys ys' ws t, length ys = length toks -> length ys' = length toks -> length ws = length toks ->
  forall f, map cweight (filter (fun k => token_eqb t (ctoken k)) (filter (keep f) (cells_of toks ys ws)))
  = map cweight (filter (fun k => token_eqb t (ctoken k)) (filter (keep f) (cells_of toks ys' ws))).
Proof.
  induction toks as [|r toks IH]; intros [|y ys] [|y' ys'] [|w ws] t L1 L2 L3 f; try discriminate; [reflexivity|]. unfold cells_of in *. cbn [combine flat_map fst snd].
  rewrite !filter_app, !map_app. rewrite (IH ys ys' ws) by (cbn in *; lia). f_equal. rewrite !filter_filter', !filter_map', !map_map. reflexivity.
Qed.

Theorem reduced_right x y weights filter_regex toks width cells ws m : has_rows token x toks -> matrix y width cells -> 0 < width -> Forall (fun r => length r = width) cells ->
  length cells = length toks -> toks <> [] -> weights_ok x weights toks ws -> bounded m cells -> (m = 0 \/ exists r, In r cells /\ In (Some (Z.of_nat m)) r) ->
  let u := unique (tokens_kept filter_regex toks) in
  reduce_without_sentinel token token_eqb x y weights filter_regex =
  Some (Reduced token u (map (fun t => sumq (map cweight (filter (fun k => token_eqb t (ctoken k)) (column_cells filter_regex toks cells ws 0)))) u)
    (map (fun t => map (fun j => fold_left (fun s c => (s + column_sum filter_regex toks cells ws c t j)%Q) (seq 1 (width - 1)) (column_sum filter_regex toks cells ws 0 t j)) (seq 0 (S m))) u)
    (map (fun t => length (filter (token_eqb t) (tokens_kept filter_regex toks))) u)).
Proof.
  intros X My Pw F L Ne W B Hm u. unfold reduce_without_sentinel. destruct y as [shape flat|w rows]; cbn [matrix] in My; destruct My as [-> ->].
  - assert (Nf : flat <> []) by (intros ->; destruct toks; [congruence|discriminate]).
    rewrite (reduce_max_right flat m).
    + rewrite (counts_of_column x weights filter_regex toks (map (fun v => [Some v]) flat) ws m flat 0); [reflexivity|assumption..|].
      unfold column_labels. rewrite map_map. cbn. symmetry. apply map_id.
    + intros v I. apply (B [Some v] v); [apply in_map_iff; now exists v|cbn; auto].
    + exact Nf.
    + destruct Hm as [Hm|(r & I & Hm)]; [now left|right]. apply in_map_iff in I as (v & <- & I). destruct Hm as [E|[]]. congruence.
  - assert (Nr : concat (to_dense 0 rows) <> []).
    { destruct rows as [|r rows]; [destruct toks; [congruence|discriminate]|]. inversion F as [|? ? E _]; subst. destruct r; [cbn in Pw; lia|discriminate]. }
    rewrite (reduce_max_right (concat (to_dense 0 rows)) m).
    + rewrite (sequence_map _ (fun c => Reduced token u (map (fun t => sumq (map cweight (filter (fun k => token_eqb t (ctoken k)) (column_cells filter_regex toks rows ws c)))) u)
        (map (fun t => map (column_sum filter_regex toks rows ws c t) (seq 0 (S m))) u)
        (map (fun t => length (filter (token_eqb t) (tokens_kept filter_regex toks))) u))).
      2: { intros c Hc. apply in_seq in Hc. apply counts_of_column; try assumption. apply (column_right rows w c F). lia. }
      set (js := seq 0 (S m)). destruct w as [|w]; [lia|]. replace (seq 0 (S w)) with (0 :: seq 1 w) by reflexivity. cbn [map]. cbn [unique_x summed_weights_per_x summed_positive_per_x_and_y counts_per_x].
      f_equal. f_equal. rewrite map_map. cbn [summed_positive_per_x_and_y]. rewrite (add_columns (fun c t j => column_sum filter_regex toks rows ws c t j)). cbn [Nat.sub]. rewrite Nat.sub_0_r. reflexivity.
    + intros v I. apply in_concat in I as (l & I & Iv). apply in_map_iff in I as (r & <- & Ir). apply in_map_iff in Iv as ([z|] & <- & Iz); [exact (B r z Ir Iz)|lia].
    + exact Nr.
    + destruct Hm as [Hm|(r & I & Hm)]; [now left|right]. apply in_concat. exists (map (fun v => match v with Some y => y | None => 0%Z end) r). split.
      * unfold to_dense. now apply (in_map (map (fun v => match v with Some y => y | None => 0%Z end))).
      * apply in_map_iff. now exists (Some (Z.of_nat m)).
Qed.
End Rows.
