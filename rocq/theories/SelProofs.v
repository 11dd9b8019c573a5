(** The combiner of numpy reductions, coordinate by coordinate. *)
From Coq Require Import List ZArith Bool Lia.
From Verif Require Import CombineModel CombineProofs NumericModel SelModel.
Import ListNotations.
Local Open Scope nat_scope.

Lemma sequence_Some {X} (l : list X) : sequence (map Some l) = Some l.
Proof. induction l as [|x l IH]; cbn; [reflexivity|]. rewrite IH. reflexivity. Qed.

Lemma map_nth_seq {X} (d : X) l : map (fun i => nth i l d) (seq 0 (length l)) = l.
Proof.
  induction l as [|x l IH]; [reflexivity|]. cbn [length seq map nth]. f_equal.
  rewrite <- seq_shift, map_map. exact IH.
Qed.

Lemma nth_map_seq {X} (d : X) (f : nat -> X) n j : j < n -> nth j (map f (seq 0 n)) d = f j.
Proof.
  intro H. rewrite (nth_indep _ d (f 0)) by (rewrite map_length, seq_length; exact H).
  rewrite map_nth, seq_nth by exact H. reflexivity.
Qed.

Lemma combine_map_seq {A B} (f : nat -> A) (g : nat -> B) l :
  combine (map f l) (map g l) = map (fun i => (f i, g i)) l.
Proof. induction l as [|x l IH]; cbn; [reflexivity|]. rewrite IH. reflexivity. Qed.

Lemma zip_star_nth {X} (d : X) k ls :
  ls <> [] -> Forall (fun l => length l = k) ls ->
  zip_star ls = map (fun i => map (fun l => nth i l d) ls) (seq 0 k).
Proof.
  destruct ls as [|l0 ls]; [congruence|]. intros _ F. inversion F as [|a b F0 FR]; subst. clear F.
  unfold zip_star. revert FR. induction ls as [|l ls IH] using rev_ind; intro FR.
  - cbn [fold_left]. rewrite <- (map_nth_seq d l0) at 1. rewrite map_map. reflexivity.
  - apply Forall_app in FR as [FR FL]. inversion FL as [|a b FL0 _]; subst.
    rewrite fold_left_app. cbn [fold_left]. rewrite (IH FR).
    rewrite <- (map_nth_seq d l) at 1. rewrite FL0, combine_map_seq, map_map.
    apply map_ext. intro i. cbn [fst snd]. cbn [map app]. rewrite map_app. reflexivity.
Qed.

Lemma zip_two {X} (a b : list X) : map (fun p => [fst p; snd p]) (combine a b) = zip_star [a; b].
Proof.
  unfold zip_star. cbn [fold_left].
  revert b. induction a as [|x a IH]; intros [|y b]; cbn; try reflexivity. f_equal. apply IH.
Qed.

Lemma all_gvec_map {X} n (l : list (list X)) :
  Forall (fun v => length v = n) l -> all_gvec n (map GVec l) = Some l.
Proof.
  induction 1 as [|v l V _ IH]; cbn; [reflexivity|]. rewrite V, Nat.eqb_refl, IH. reflexivity.
Qed.

Section generic.
  Context {X : Type}.
  Variables (fn : list X -> X) (default : X) (is_default : X -> bool).
  Variables (k n : nat) (shape : oshape).
  Variables (R : list X -> X -> Prop) (P : X -> Prop).
  Hypothesis k_pos : 0 < k.
  Hypothesis default_ok : is_default default = true.
  Hypothesis shape_ok : shape = KnownShape n \/ shape = UnknownShape.
  Hypothesis R_nil : R [] default.
  Hypothesis R_one : forall x, P x -> R [x] x.
  Hypothesis R_fn : forall ls xs, ls <> [] -> Forall2 R ls xs -> R (concat ls) (fn xs).

  Let comb := gnp_combiner fn default is_default (repeat shape k).

  Definition cell (i j : nat) (t : list (list X)) : X := nth j (nth i t []) default.

  Definition dims (t : list (list X)) : Prop := length t = k /\ Forall (fun v => length v = n) t.
  Definition good (t : list (list X)) : Prop := dims t /\ Forall (Forall P) t.

  Lemma reduce_vec l :
    l <> [] -> Forall (fun v => length v = n) l ->
    gnp_reduce fn default (map GVec l)
    = Some (GVec (map (fun j => fn (map (fun r => nth j r default) l)) (seq 0 n))).
  Proof.
    destruct l as [|v l]; [congruence|]. intros _ F. cbn [map gnp_reduce].
    assert (length v = n) as -> by (inversion F; assumption).
    change (GVec v :: map GVec l) with (map GVec (v :: l)). rewrite all_gvec_map by exact F. reflexivity.
  Qed.

  Definition table (ts : list (list (list X))) : list (list X) :=
    map (fun i => map (fun j => fn (map (cell i j) ts)) (seq 0 n)) (seq 0 k).

  Lemma table_dims ts : dims (table ts).
  Proof.
    split; [unfold table; rewrite map_length, seq_length; reflexivity|].
    apply Forall_map, Forall_forall. intros i _. rewrite map_length, seq_length. reflexivity.
  Qed.

  Lemma table_cell ts i j : i < k -> j < n -> cell i j (table ts) = fn (map (cell i j) ts).
  Proof.
    intros I J. unfold cell at 1, table. rewrite (nth_map_seq [] _ k i I).
    exact (nth_map_seq default (fun j0 => fn (map (cell i j0) ts)) n j J).
  Qed.

  Lemma dims_row t i : dims t -> i < k -> length (nth i t []) = n.
  Proof.
    intros [L F] I. rewrite Forall_forall in F. apply F. apply nth_In. rewrite L. exact I.
  Qed.

  Lemma reduce_all ts :
    ts <> [] -> Forall dims ts ->
    sequence (map (gnp_reduce fn default) (zip_star (map (map GVec) ts))) = Some (map GVec (table ts)).
  Proof.
    intros N F. rewrite (zip_star_nth (GVec []) k).
    - rewrite <- (sequence_Some (map GVec (table ts))). f_equal. unfold table. rewrite !map_map.
      apply map_ext_in. intros i I. apply in_seq in I.
      rewrite map_map, (map_ext _ (fun t => GVec (nth i t []))) by (intro t; apply (map_nth GVec)).
      rewrite <- (map_map (fun t => nth i t []) GVec). rewrite reduce_vec.
      + do 2 f_equal. apply map_ext. intro j. rewrite map_map. reflexivity.
      + destruct ts; [congruence|discriminate].
      + apply Forall_map. eapply Forall_impl; [|exact F]. cbv beta. intros t D. apply dims_row; [exact D|lia].
    - destruct ts; [congruence|discriminate].
    - apply Forall_map. eapply Forall_impl; [|exact F]. cbv beta. intros t [L _]. rewrite map_length. exact L.
  Qed.

  Definition Rel (l : list (list (garr X))) (a : option (list (garr X))) : Prop :=
    exists ts, l = map (map GVec) ts /\ Forall good ts
      /\ ((ts = [] /\ shape = UnknownShape /\ a = Some (repeat (GSc default) k))
          \/ exists vs, dims vs /\ a = Some (map GVec vs)
               /\ forall i j, i < k -> j < n -> R (map (cell i j) ts) (cell i j vs)).

  Lemma Rel_create : Rel [] (create_accumulator comb).
  Proof.
    exists []. split; [reflexivity|]. split; [constructor|]. cbn [create_accumulator comb gnp_combiner].
    unfold gnp_create. destruct shape_ok as [E|E].
    - right. exists (repeat (repeat default n) k). split.
      + split; [apply repeat_length|]. apply Forall_forall. intros v V. apply repeat_spec in V as ->.
        apply repeat_length.
      + split.
        * f_equal. rewrite E. clear. induction k as [|m IH]; cbn; [reflexivity|]. f_equal. exact IH.
        * intros i j I J. cbn [map]. unfold cell.
          assert (nth i (repeat (repeat default n) k) [] = repeat default n) as ->.
          { apply (repeat_spec k). apply nth_In. rewrite repeat_length. exact I. }
          rewrite nth_repeat. exact R_nil.
    - left. split; [reflexivity|]. split; [exact E|]. f_equal. rewrite E. clear.
      induction k as [|m IH]; cbn; [reflexivity|]. f_equal. exact IH.
  Qed.

  Lemma first_vec vs : dims vs -> gnp_first is_default (map GVec vs) = Some false.
  Proof. intros [L _]. destruct vs as [|v vs]; [cbn in L; lia|]. reflexivity. Qed.

  Lemma first_default : gnp_first is_default (repeat (GSc default) k) = Some true.
  Proof. destruct k as [|m]; [lia|]. cbn. rewrite default_ok. reflexivity. Qed.

  Lemma cell_P t i j : good t -> i < k -> j < n -> P (cell i j t).
  Proof.
    intros [D F] I J. unfold cell. rewrite Forall_forall in F.
    assert (In (nth i t []) t) as H by (apply nth_In; destruct D as [-> _]; exact I).
    specialize (F _ H). rewrite Forall_forall in F. apply F. apply nth_In.
    rewrite (dims_row t i D I). exact J.
  Qed.

  Lemma Rel_add l a x :
    (exists t, x = map GVec t /\ good t) -> Rel l a -> Rel (l ++ [x]) (add_input comb a x).
  Proof.
    intros (t & -> & G) (ts & -> & F & H). exists (ts ++ [t]).
    split; [rewrite map_app; reflexivity|].
    split; [apply Forall_app; split; [exact F|constructor; [exact G|constructor]]|].
    right. cbn [add_input comb gnp_combiner].
    destruct H as [(-> & _ & ->)|(vs & D & -> & H)].
    - exists t. split; [exact (proj1 G)|]. unfold gnp_add_input. rewrite first_default.
      split; [reflexivity|]. intros i j I J. cbn. apply R_one. apply cell_P; assumption.
    - exists (table [vs; t]). split; [apply table_dims|]. unfold gnp_add_input. rewrite first_vec by exact D.
      split.
      + rewrite <- (map_map (fun p => [fst p; snd p]) (gnp_reduce fn default)), zip_two.
        apply (reduce_all [vs; t]); [discriminate|]. constructor; [exact D|]. constructor; [exact (proj1 G)|constructor].
      + intros i j I J. rewrite table_cell by assumption. cbn [map].
        rewrite map_app. cbn [map].
        replace (map (cell i j) ts ++ [cell i j t]) with (concat [map (cell i j) ts; [cell i j t]])
          by (cbn; rewrite ?app_nil_r; reflexivity).
        apply R_fn; [discriminate|]. constructor; [apply H; assumption|].
        constructor; [|constructor]. apply R_one. apply cell_P; assumption.
  Qed.

  Definition is_vec (a : list (garr X)) : bool :=
    match gnp_first is_default a with Some b => negb b | None => true end.

  Lemma Rel_merge ls ags :
    ls <> [] -> Forall2 Rel ls ags -> Rel (concat ls) (merge_accumulators comb ags).
  Proof.
    intros N F2.
    assert (exists tss accs vss, ls = map (map (map GVec)) tss /\ Forall (Forall good) tss
              /\ ags = map Some accs /\ (exists fs, sequence (map (gnp_first is_default) accs) = Some fs)
              /\ filter is_vec accs = map (map GVec) vss /\ Forall dims vss
              /\ (forall i j, i < k -> j < n ->
                    exists cs, concat cs = map (cell i j) (concat tss) /\ Forall2 R cs (map (cell i j) vss))
              /\ (vss = [] -> concat tss = [] /\ (ls <> [] -> shape = UnknownShape)))
      as (tss & accs & vss & -> & G & -> & (fs & E) & FV & D & C & Z0).
    { clear N. induction F2 as [|l a ls ags (ts & -> & G & H) _ (tss & accs & vss & -> & GG & -> & (fs & E) & FV & D & C & Z0)].
      - exists [], [], []. repeat split; try (constructor; fail).
        + exists []. reflexivity.
        + intros i j _ _. exists []. split; [reflexivity|constructor].
        + congruence.
      - destruct H as [(-> & SH & ->)|(vs & DV & -> & H)].
        + exists ([] :: tss), (repeat (GSc default) k :: accs), vss.
          split; [reflexivity|]. split; [constructor; assumption|]. split; [reflexivity|].
          split; [exists (true :: fs); cbn [map sequence]; rewrite first_default, E; reflexivity|].
          split; [cbn [filter]; unfold is_vec at 1; rewrite first_default; exact FV|].
          split; [exact D|]. split; [exact C|].
          intros V. destruct (Z0 V) as [Z1 _]. split; [exact Z1|]. intros _. exact SH.
        + exists (ts :: tss), (map GVec vs :: accs), (vs :: vss).
          split; [reflexivity|]. split; [constructor; assumption|]. split; [reflexivity|].
          split; [exists (false :: fs); cbn [map sequence]; rewrite first_vec, E by exact DV; reflexivity|].
          split; [cbn [filter]; unfold is_vec at 1; rewrite first_vec by exact DV; cbn [negb map]; rewrite FV; reflexivity|].
          split; [constructor; assumption|]. split; [|discriminate].
          intros i j I J. destruct (C i j I J) as (cs & C1 & C2).
          exists (map (cell i j) ts :: cs). split.
          * cbn [concat]. rewrite C1, map_app. reflexivity.
          * constructor; [apply H; assumption|exact C2]. }
    exists (concat tss). split; [symmetry; apply concat_map|]. split; [apply Forall_concat; exact G|].
    cbn [merge_accumulators comb gnp_combiner]. unfold gnp_merge. rewrite sequence_Some, E.
    change (filter (fun acc => match gnp_first is_default acc with Some b => negb b | None => true end) accs)
      with (filter is_vec accs). rewrite FV.
    destruct vss as [|vs vss].
    - left. destruct (Z0 eq_refl) as [Z1 Z2]. specialize (Z2 N). split; [exact Z1|]. split; [exact Z2|].
      cbn [map]. f_equal. unfold gnp_create. rewrite Z2. clear.
      induction k as [|m IH]; cbn; [reflexivity|]. f_equal. exact IH.
    - right. exists (table (vs :: vss)). split; [apply table_dims|]. split.
      + exact (reduce_all (vs :: vss) ltac:(discriminate) D).
      + intros i j I J. rewrite table_cell by assumption. destruct (C i j I J) as (cs & C1 & C2).
        rewrite <- C1. apply R_fn; [|exact C2]. intros ->. inversion C2.
  Qed.

  (** The analysis of batches that are tables of [k] rows of length [n]. *)
  Lemma gnp_analyze (s : sched (sched (list (garr X)))) ts :
    batches_of s = map (map GVec) ts -> Forall good ts ->
    (shape = UnknownShape -> ts <> []) ->
    exists vs, analyze comb s = Some (map GVec vs) /\ dims vs
      /\ forall i j, i < k -> j < n -> R (map (cell i j) ts) (cell i j vs).
  Proof.
    intros E G N.
    destruct (analyze_rep comb Rel (fun x => exists t, x = map GVec t /\ good t)
                Rel_create Rel_add Rel_merge s) as (a & Ha & ->).
    { rewrite E. apply Forall_map. eapply Forall_impl; [|exact G]. cbv beta. intros t T. exists t. split; [reflexivity|exact T]. }
    rewrite E in Ha. destruct Ha as (ts' & E' & _ & H).
    assert (ts = ts') as <-.
    { clear - E'. revert ts' E'. induction ts as [|t ts IH]; intros [|t' ts'] E; cbn in E; try discriminate; [reflexivity|].
      inversion E as [[E1 E2]]. f_equal; [|apply IH; exact E2]. clear - E1. revert t' E1.
      induction t as [|v t IH]; intros [|v' t'] E; cbn in E; try discriminate; [reflexivity|].
      inversion E as [[E1 E2]]. f_equal. apply IH. exact E2. }
    cbn [extract_output comb gnp_combiner].
    destruct H as [(-> & SH & _)|(vs & D & -> & H)]; [specialize (N SH); congruence|].
    exists vs. auto.
  Qed.
End generic.

Lemma batches_of_map {A B} (f : A -> B) (s : sched (sched A)) :
  batches_of (map_sched (map_sched f) s) = map f (batches_of s).
Proof.
  unfold batches_of. rewrite elements_map. rewrite !flat_map_concat_map, map_map.
  rewrite (map_ext _ (fun x => map f (elements x))).
  - rewrite <- (map_map elements (map f)), <- concat_map. reflexivity.
  - intros x. apply elements_map.
Qed.
