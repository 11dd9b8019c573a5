(** * Packing merging combiners: the packed graph *)
From Coq Require Import String.
From Coq Require Import List Arith Bool Lia Permutation.
From Coq Require DecimalString DecimalNat.
From Verif Require Import CombineModel PackModel PackSpec PackProofs PackGraphModel PackGraphSpec PackTraverse PackAccProofs OptimizeHistory.
Import ListNotations.
Local Notation length := List.length.

Section Merge.
Context {Obj X : Type}.
Notation value := (value Obj).
Notation node := (@node Obj X).
Notation kind := (@kind Obj X).
Notation collection := (list value).
Notation combiner_op := (@combiner_op Obj).

(** ** The combines that are packed *)
Definition entry : Type := string * combiner_op * node.
Definition entry_label (x : entry) : string := fst (fst x).
Definition entry_merge (x : entry) : string := op_label (snd (fst x)).
Definition info (n : node) : option entry :=
  match n with
  | Node l (ExtractOutputs _) (Node lm (CombineMerge c) [v] _ :: _) _ =>
      if combine_parent (def_of v) then Some (l, CombinerOp c [lm] lm, v) else None
  | _ => None
  end.
Definition infos (ns : list node) : list entry := flat_map (fun n => match info n with Some x => [x] | None => [] end) ns.
Lemma infos_app a b : infos (a ++ b) = infos a ++ infos b.
Proof. apply flat_map_app. Qed.
Lemma info_label n x : info n = Some x -> entry_label x = label_of n.
Proof.
  destruct n as [l d ins i]. destruct d; try discriminate. destruct ins as [|[lm dm mins mi] rest]; try discriminate.
  destruct dm; try discriminate. destruct mins as [|v [|]]; try discriminate. cbn. destruct (combine_parent (def_of v)); [|discriminate]. now intros [= <-].
Qed.
Lemma info_inv n x : info n = Some x -> exists num lm c v mi rest i,
  n = Node (entry_label x) (ExtractOutputs num) (Node lm (CombineMerge c) [v] mi :: rest) i /\ snd (fst x) = CombinerOp c [lm] lm /\ snd x = v /\ combine_parent (def_of v) = true.
Proof.
  destruct n as [l d ins i]. destruct d; try discriminate. destruct ins as [|[lm dm mins mi] rest]; try discriminate.
  destruct dm; try discriminate. destruct mins as [|v [|]]; try discriminate. cbn. destruct (combine_parent (def_of v)) eqn:E; [|discriminate]. intros [= <-].
  exists num_outputs, lm, c, v, mi, rest, i. auto.
Qed.
Lemma info_index l d ins i j : info (Node l d ins i) = info (Node l d ins j).
Proof. reflexivity. Qed.
Lemma infos_in x ns : In x (infos ns) <-> exists n, In n ns /\ info n = Some x.
Proof.
  unfold infos. rewrite in_flat_map. split; intros (n & I & J); exists n; (split; [exact I|]).
  - destruct (info n) as [y|]; [|destruct J]. destruct J as [->|[]]. reflexivity.
  - rewrite J. now left.
Qed.
Lemma infos_labels_in ns l : In l (map entry_label (infos ns)) -> In l (map label_of ns).
Proof.
  intros I. apply in_map_iff in I. destruct I as (x & <- & I). apply infos_in in I. destruct I as (n & I & E).
  rewrite (info_label _ _ E). now apply in_map.
Qed.
Lemma infos_nodup ns : NoDup (map label_of ns) -> NoDup (map entry_label (infos ns)).
Proof.
  induction ns as [|n ns IH]; intros N; [constructor|]. inversion N as [|? ? NI N']. subst. unfold infos. cbn [flat_map]. fold (infos ns).
  destruct (info n) as [x|] eqn:E; [|now apply IH]. cbn [app map]. constructor; [|now apply IH].
  rewrite (info_label _ _ E). intros I. apply NI. now apply infos_labels_in.
Qed.

(** ** The packed graph; [mk]: the packed merge for the entry at a position. *)
Variable L : list entry.
Fixpoint index_in (l : string) (xs : list entry) : option nat :=
  match xs with
  | [] => None
  | x :: xs => if String.eqb (entry_label x) l then Some 0 else option_map S (index_in l xs)
  end.
Lemma index_in_none l xs : index_in l xs = None <-> ~ In l (map entry_label xs).
Proof.
  induction xs as [|x xs IH]; cbn; [tauto|]. destruct (String.eqb_spec (entry_label x) l) as [->|NE]; [split; [discriminate|tauto]|].
  assert (option_map S (index_in l xs) = None <-> index_in l xs = None) as -> by (destruct (index_in l xs); split; discriminate || reflexivity).
  rewrite IH. tauto.
Qed.
Lemma index_in_split a x b : ~ In (entry_label x) (map entry_label a) -> index_in (entry_label x) (a ++ x :: b) = Some (length a).
Proof.
  induction a as [|y a IH]; intros N; cbn.
  - now rewrite String.eqb_refl.
  - cbn in N. destruct (String.eqb_spec (entry_label y) (entry_label x)) as [E|NE]; [tauto|]. rewrite IH by tauto. reflexivity.
Qed.
Lemma index_in_some l xs k : index_in l xs = Some k -> exists x, nth_error xs k = Some x /\ entry_label x = l.
Proof.
  revert k. induction xs as [|x xs IH]; intros k; cbn; [discriminate|]. destruct (String.eqb_spec (entry_label x) l) as [E|NE].
  - intros [= <-]. exists x. auto.
  - destruct (index_in l xs) as [j|]; [|discriminate]. intros [= <-]. apply (IH j eq_refl).
Qed.

Definition add_key (x : entry) : node := Node ("AddKey[" ++ entry_merge x ++ "]") (AddKey (entry_merge x)) [snd x] 0.
Definition flatten_node (k : nat) : node :=
  Node ("FlattenInputForPackedCombineMerge[" ++ decimal k ++ "]") Flatten (firstn k (map add_key L)) 0.
Definition merge_label (k : nat) : string := ("PackedCombineMerge[" ++ decimal k ++ "]")%string.
Definition merged (k : nat) : node := Node (merge_label k) (PackedMerge (map (fun x => snd (fst x)) L)) [flatten_node k] 0.
Definition extract_node (lm : string) (M : node) : node := Node ("ExtractFromDict[" ++ lm ++ "]") (ExtractKey lm) [M] 0.
Definition result_label (lm : string) : string := ("ExtractPackedCombineMergeOutputs[" ++ lm ++ "]")%string.

Fixpoint packG (mk : nat -> node) (n : node) : node :=
  match n with
  | Node l d ins i =>
      match index_in l L, d, ins with
      | Some k, ExtractOutputs num, Node lm (CombineMerge _) _ _ :: _ =>
          Node (result_label lm) (ExtractPackedOutputs num) [extract_node lm (mk k)] i
      | _, _, _ => Node l d (map (packG mk) ins) i
      end
  end.
Definition packB : node -> node := packG (fun k => merged (S k)).
Definition packT : node -> node := packG (fun _ => merged (length L)).

Lemma packG_other mk l d ins i : (forall num, d <> ExtractOutputs num) -> packG mk (Node l d ins i) = Node l d (map (packG mk) ins) i.
Proof. intros H. cbn [packG]. destruct (index_in l L); [|reflexivity]. destruct d; try reflexivity. now elim (H num_outputs). Qed.
Lemma packG_unlisted mk l d ins i : index_in l L = None -> packG mk (Node l d ins i) = Node l d (map (packG mk) ins) i.
Proof. intros H. cbn [packG]. now rewrite H. Qed.
Lemma no_result_input l d ins i (x : node) : no_result (Node l d ins i) -> In x ins -> no_result x.
Proof. intros H I l' num ins' i' K. apply (H l' num ins' i'). now apply occurs_input with x. Qed.
Lemma packG_no_result mk n : no_result n -> packG mk n = n.
Proof.
  induction n as [l d ins i IH] using node_rect'. intros H. rewrite packG_other.
  - f_equal. rewrite <- (map_id ins) at 2. apply map_ext_in. intros x I. apply IH; [exact I|]. eapply no_result_input; eauto.
  - intros num ->. apply (H l num ins i). constructor.
Qed.

(** ** Graphs before merges are packed *)
Variable root : node.
Variable caches : list node.
Notation D := (in_graph (root :: caches)).
Hypothesis D_unique : unique_labels (root :: caches).
Hypothesis D_kinds : forall l d ins i, D (Node l d ins i) -> i < num_outputs d /\
  match d with
  | ExtractPackedOutputs _ | PackedMerge _ | AddKey _ => False
  | CombineMerge _ | ExtractOutputs _ => exists v, ins = [v]
  | _ => True
  end.
Hypothesis D_fresh : forall n l, D n -> label_of n = l ->
  (forall p lm c ins i, In p ["AddKey["; "ExtractFromDict["; "ExtractPackedCombineMergeOutputs["]%string -> D (Node lm (CombineMerge c) ins i) -> l <> (p ++ lm ++ "]")%string) /\
  (forall p k, In p ["FlattenInputForPackedCombineMerge["; "PackedCombineMerge["]%string -> l <> (p ++ decimal k ++ "]")%string).
Hypothesis SP : single_phase root caches.

Lemma closedD l d ins i x : D (Node l d ins i) -> In x ins -> D x.
Proof. intros (v & I & K) J. exists v. split; [exact I|]. now apply occurs_below with l d ins i. Qed.
Lemma occursD a b : occurs a b -> D b -> D a.
Proof. intros K (v & I & J). exists v. split; [exact I|]. now apply occurs_trans with b. Qed.

Lemma result_end k (b : node) l num ins i : steps_after_result k b -> occurs (Node l (ExtractOutputs num) ins i) b -> exists m, ins = [m] /\ no_result m.
Proof.
  induction 1 as [l' num' m i' NR|k l' d v i' S IH (x & Hd)]; intros K.
  - inversion K as [|? ? ? ? y IY K']; subst; [eauto|]. destruct IY as [<-|[]]. exfalso. now apply (NR l num ins i).
  - inversion K as [|? ? ? ? y IY K']; subst; [destruct Hd; discriminate|]. destruct IY as [<-|[]]. now apply IH.
Qed.
Lemma result_input l num ins i : D (Node l (ExtractOutputs num) ins i) -> exists m, ins = [m] /\ no_result m.
Proof.
  destruct SP as ((rl & rx & bindings & ER & HB) & HC & _). intros (v & [<-|I] & K).
  - rewrite ER in K. inversion K as [|? ? ? ? b IB K']; subst. destruct (HB b IB) as (_ & [NR|(k & _ & S)]).
    + exfalso. now apply (NR l num ins i).
    + eapply result_end; eauto.
  - exfalso. now apply (HC v I l num ins i).
Qed.

(** The list of entries. *)
Hypothesis LE : L = infos (order root []).

Definition O_all := order_all (root :: caches) [].
Lemma all_order : exists t, O_all = order root [] ++ t /\ infos t = [].
Proof.
  unfold O_all. cbn [order_all]. destruct (order_all_extends caches (order root [])) as (t & E). exists t. split; [exact E|].
  destruct (infos t) as [|x xs] eqn:EI; [reflexivity|]. exfalso.
  assert (In x (infos t)) as I by (rewrite EI; now left). apply infos_in in I. destruct I as (n & I & EN).
  assert (NoDup (map label_of (order_all caches (order root [])))) as ND.
  { apply (order_all_nodup D closedD D_unique).
    - intros c IC. exists c. split; [now right|constructor].
    - apply (order_nodup D closedD D_unique); [exists root; split; [now left|constructor]|constructor]. }
  assert (In n (order_all caches (order root []))) as IN by (rewrite E; apply in_or_app; now right).
  destruct (order_all_adds _ _ _ IN) as [J|(c & J & K)].
  - rewrite E, map_app in ND. apply in_map with (f := label_of) in I. apply in_map with (f := label_of) in J.
    revert ND I J. generalize (label_of n). generalize (map label_of (order root [])). generalize (map label_of t). intros b a z. clear.
    intros N I J. induction a as [|y a IH]; [destruct J|]. cbn in N. inversion N as [|? ? NI N']. subst. destruct J as [->|J]; [|now apply IH].
    apply NI. apply in_or_app. now right.
  - destruct (info_inv _ _ EN) as (num & lm & c0 & v & mi & rest & i & -> & _). destruct SP as (_ & HC & _). now apply (HC c J _ _ _ _ K).
Qed.
Lemma L_all : L = infos O_all.
Proof. destruct all_order as (t & -> & E). now rewrite infos_app, E, app_nil_r. Qed.
Lemma all_D n : In n O_all -> D n.
Proof. intros I. destruct (order_all_adds _ _ _ I) as [[]|(c & J & K)]. exists c. auto. Qed.
Lemma all_nodup : NoDup (map label_of O_all).
Proof.
  apply (order_all_nodup D closedD D_unique); [|constructor]. intros c IC. exists c. split; [exact IC|constructor].
Qed.
Lemma L_D x : In x L -> exists n, D n /\ info n = Some x.
Proof. rewrite L_all. intros I. apply infos_in in I. destruct I as (n & I & E). exists n. split; [now apply all_D|exact E]. Qed.
Lemma L_nodup : NoDup (map entry_label L).
Proof. rewrite L_all. apply infos_nodup, all_nodup. Qed.
Lemma L_complete n x : D n -> info n = Some x -> In x L.
Proof.
  intros HD E. assert (In (label_of n) (map label_of O_all)) as I.
  { destruct HD as (v & I & K). unfold O_all.
    assert (forall ns visited, (forall c, In c ns -> D c) -> (forall c, In c visited -> D c) -> complete visited ->
      forall c y, In c ns -> occurs y c -> In (label_of y) (map label_of (order_all ns visited))) as A.
    { induction ns as [|c ns IH]; intros visited H1 H2 C c' y IC KY; [destruct IC|]. cbn [order_all].
      destruct (order_complete D closedD D_unique c (H1 c (or_introl eq_refl)) visited H2 C) as [C1 C2].
      destruct IC as [<-|IC].
      - destruct (order_all_extends ns (order c visited)) as (t & ->). rewrite map_app. apply in_or_app. left. now apply C2.
      - apply IH with c'; auto. + intros; apply H1; now right.
        + intros z IZ. destruct (order_adds _ _ _ IZ) as [J|J]; [now apply H2|]. apply occursD with c; [exact J|]. apply H1. now left. }
    apply A with v; auto.
    - intros c IC. exists c. split; [exact IC|constructor].
    - intros c [].
    - intros m y []. }
  rewrite L_all. apply infos_in. apply in_map_iff in I. destruct I as (n' & EL & I'). exists n'. split; [exact I'|].
  destruct n as [l d ins i], n' as [l' d' ins' i']. cbn in EL. subst l'. destruct (D_unique _ _ _ _ _ _ _ HD (all_D _ I')) as [<- <-].
  rewrite <- E. apply info_index.
Qed.
Lemma listed_info l d ins i k : D (Node l d ins i) -> index_in l L = Some k -> exists x, nth_error L k = Some x /\ info (Node l d ins i) = Some x.
Proof.
  intros HD E. destruct (index_in_some _ _ _ E) as (x & N & EL). exists x. split; [exact N|].
  destruct (L_D x (nth_error_In _ _ N)) as (n & HN & EN). pose proof (info_label _ _ EN) as E'. destruct n as [l' d' ins' i']. cbn in E'.
  rewrite EL in E'. subst l'. destruct (D_unique _ _ _ _ _ _ _ HD HN) as [-> ->]. rewrite <- EN. apply info_index.
Qed.
Lemma info_listed n x : D n -> info n = Some x -> exists k, index_in (label_of n) L = Some k /\ nth_error L k = Some x.
Proof.
  intros HD E. destruct (index_in (label_of n) L) as [k|] eqn:EK.
  - exists k. split; [reflexivity|]. destruct n as [l d ins i]. destruct (listed_info _ _ _ _ _ HD EK) as (y & N & EY). congruence.
  - apply index_in_none in EK. elim EK. apply in_map_iff. exists x. split; [now apply info_label|]. now apply L_complete with n.
Qed.

(** An entry of the graph. *)
Lemma info_shape n x : D n -> info n = Some x -> exists num lm c v mi i,
  n = Node (entry_label x) (ExtractOutputs num) [Node lm (CombineMerge c) [v] mi] i /\ x = (entry_label x, CombinerOp c [lm] lm, v) /\
  entry_merge x = lm /\ combine_parent (def_of v) = true /\ no_result v.
Proof.
  intros HD E. destruct (info_inv _ _ E) as (num & lm & c & v & mi & rest & i & -> & E1 & E2 & E3).
  destruct (result_input _ _ _ _ HD) as (m & EM & NR). injection EM as <- ->.
  exists num, lm, c, v, mi, i. split; [reflexivity|]. split; [destruct x as [[? ?] ?]; cbn in *; subst; reflexivity|].
  split; [unfold entry_merge; now rewrite E1|]. split; [exact E3|]. eapply no_result_input; [exact NR|now left].
Qed.

(** ** The traversals *)
Lemma inspect_merge_step O visited (s : list (string * combiner_op)) l d ins i : D (Node l d ins i) ->
  (exists rest, O = visited ++ Node l d ins i :: rest) -> (forall v, In v visited -> D v) ->
  (forall x, In x ins -> In (label_of x) (map label_of visited)) ->
  ~ In l (map label_of visited) -> s = map fst (infos visited) ->
  exists s' o, inspect_merge s l d (map (fun x => x) ins) = Some (s', o) /\
    (forall j, D (Node l d ins j) -> output o j = Node l d ins j) /\ s' = map fst (infos (visited ++ [Node l d ins i])).
Proof.
  intros HD _ _ _ _ ->. rewrite map_id, infos_app, map_app.
  destruct (D_kinds _ _ _ _ HD) as (_ & KD).
  destruct d as [|keys|key|c|c|n|n|ops|ops|key| |x|x|x|n x]; try (eexists; eexists; split; [reflexivity|]; split; [reflexivity|]; cbn; now rewrite app_nil_r).
  destruct KD as (m & ->). destruct m as [lm dm mins mi].
  destruct dm as [|keys|key|c|c|n'|n'|ops|ops|key| |x|x|x|n' x]; try (eexists; eexists; split; [reflexivity|]; split; [reflexivity|]; cbn; now rewrite app_nil_r).
  assert (D (Node lm (CombineMerge c) mins mi)) as HM by (eapply closedD; [exact HD|now left]).
  destruct (D_kinds _ _ _ _ HM) as (_ & (v & ->)). cbn [inspect_merge]. eexists. eexists. split; [reflexivity|]. split; [reflexivity|].
  cbn [infos flat_map info]. destruct (combine_parent (def_of v)); cbn [map fst app]; [reflexivity|now rewrite app_nil_r].
Qed.

Lemma lookup_L l : lookup l (map fst L) = None <-> index_in l L = None.
Proof.
  rewrite index_in_none. setoid_rewrite lookup_none. rewrite map_map. reflexivity.
Qed.

Definition pack_state (visited : list node) (s : list node * option string) : Prop :=
  fst s = map add_key (infos visited) /\
  snd s = match infos visited with [] => None | _ => Some (merge_label (length (infos visited))) end.

Lemma pack_merge_step visited s l d ins i : D (Node l d ins i) ->
  (exists rest, O_all = visited ++ Node l d ins i :: rest) -> (forall v, In v visited -> D v) ->
  (forall x, In x ins -> In (label_of x) (map label_of visited)) ->
  ~ In l (map label_of visited) -> pack_state visited s ->
  exists s' o, pack_merge (map fst L) s l d (map packB ins) = Some (s', o) /\
    (forall j, D (Node l d ins j) -> output o j = packB (Node l d ins j)) /\ pack_state (visited ++ [Node l d ins i]) s'.
Proof.
  intros HD (rest & EO) _ _ NV (S1 & S2). unfold pack_merge. destruct (lookup l (map fst L)) as [o|] eqn:EL.
  - destruct (index_in l L) as [k|] eqn:EK; [|apply lookup_L in EK; congruence].
    destruct (listed_info _ _ _ _ _ HD EK) as (x & N & EX).
    destruct (info_shape _ _ HD EX) as (num & lm & c & v & mi & i' & EN & Ex & Em & CP & NR). injection EN as El -> -> <-.
    assert (packB (Node lm (CombineMerge c) [v] mi) = Node lm (CombineMerge c) [v] mi) as EB.
    { unfold packB. rewrite packG_other by discriminate. cbn [map]. now rewrite packG_no_result. }
    cbn [map]. rewrite EB.
    assert (L = infos visited ++ x :: infos rest) as SPLIT.
    { rewrite L_all, EO, infos_app. f_equal. unfold infos. cbn [flat_map]. now rewrite EX. }
    assert (k = length (infos visited)) as ->.
    { rewrite SPLIT, El, index_in_split in EK; [congruence|]. rewrite <- El. intros I. apply NV. now apply infos_labels_in. }
    assert (fst s ++ map (fun v0 => Node ("AddKey[" ++ lm ++ "]") (AddKey lm) [v0] 0) [v] = firstn (S (length (infos visited))) (map add_key L)) as FI.
    { rewrite S1, SPLIT, map_app, firstn_app, map_length, firstn_all2 by (rewrite map_length; lia).
      replace (S (length (infos visited)) - length (infos visited)) with 1 by lia. cbn [map firstn]. unfold add_key at 3. now rewrite Em, Ex. }
    assert (length (firstn (S (length (infos visited))) (map add_key L)) = S (length (infos visited))) as LF.
    { apply firstn_length_le. rewrite map_length, SPLIT, app_length. cbn [length]. lia. }
    cbv zeta. cbn [map] in FI |- *. rewrite FI, LF. eexists. eexists. split; [reflexivity|]. split.
    + intros j _. cbn [output]. unfold packB. cbn [packG]. rewrite EK. rewrite map_map. reflexivity.
    + split; cbn [fst snd].
      * rewrite infos_app, map_app, <- FI, S1. f_equal. unfold infos. cbn [flat_map]. rewrite EX. cbn. unfold add_key. now rewrite Em, Ex.
      * rewrite infos_app. assert (infos [Node l (ExtractOutputs num) [Node lm (CombineMerge c) [v] mi] i] = [x]) as -> by (unfold infos; cbn [flat_map]; now rewrite EX).
        rewrite app_length. cbn [length]. rewrite Nat.add_1_r. destruct (infos visited); reflexivity.
  - apply lookup_L in EL. eexists. eexists. split; [reflexivity|]. split.
    + intros j _. cbn [output]. unfold packB. now rewrite packG_unlisted.
    + assert (infos [Node l d ins i] = []) as EI.
      { unfold infos. cbn [flat_map]. destruct (info (Node l d ins i)) as [x|] eqn:EX; [|reflexivity].
        destruct (info_listed _ _ HD EX) as (k & EK & _). cbn in EK. congruence. }
      unfold pack_state. now rewrite infos_app, EI, app_nil_r.
Qed.

(** ** Labels of the packed graph *)
Lemma L_merge x : In x L -> exists c v mi num i, D (Node (entry_merge x) (CombineMerge c) [v] mi) /\
  D (Node (entry_label x) (ExtractOutputs num) [Node (entry_merge x) (CombineMerge c) [v] mi] i) /\
  x = (entry_label x, CombinerOp c [entry_merge x] (entry_merge x), v) /\ combine_parent (def_of v) = true /\ no_result v.
Proof.
  intros I. destruct (L_D x I) as (n & HD & E). destruct (info_shape n x HD E) as (num & lm & c & v & mi & i & -> & Ex & Em & CP & NR).
  rewrite Em. exists c, v, mi, num, i. split; [eapply closedD; [exact HD|now left]|]. auto.
Qed.
Lemma L_merge_inj x y : In x L -> In y L -> entry_merge x = entry_merge y -> x = y.
Proof.
  intros I J E. destruct (L_merge x I) as (c & v & mi & num & i & H1 & H2 & Ex & _). destruct (L_merge y J) as (c' & v' & mi' & num' & i' & H1' & H2' & Ey & _).
  rewrite E in *. destruct (D_unique _ _ _ _ _ _ _ H1 H1') as [[= <-] [= <-]].
  assert (mi = mi') as <-. { destruct (D_kinds _ _ _ _ H1) as (A & _). destruct (D_kinds _ _ _ _ H1') as (B & _). cbn in A, B. lia. }
  destruct SP as (_ & _ & _ & ONE & _). pose proof (ONE _ _ _ _ _ _ _ H2 H2') as EL. rewrite Ex, Ey, EL. reflexivity.
Qed.

Section Labels.
Variable mk : nat -> node.
Hypothesis MK : forall k, k < length L -> exists j, mk k = merged j.

Inductive packed_kind : node -> Prop :=
| pk_orig l d ins i : D (Node l d ins i) -> index_in l L = None -> packed_kind (Node l d (map (packG mk) ins) i)
| pk_result k x num ins i : nth_error L k = Some x -> D (Node (entry_label x) (ExtractOutputs num) ins i) ->
    packed_kind (Node (result_label (entry_merge x)) (ExtractPackedOutputs num) [extract_node (entry_merge x) (mk k)] i)
| pk_extract k x : nth_error L k = Some x -> packed_kind (extract_node (entry_merge x) (mk k))
| pk_merged j : packed_kind (merged j)
| pk_flatten j : packed_kind (flatten_node j)
| pk_key x : In x L -> packed_kind (add_key x).

Lemma listed_packG l d ins i k : D (Node l d ins i) -> index_in l L = Some k -> exists x num, nth_error L k = Some x /\ entry_label x = l /\
  d = ExtractOutputs num /\ packG mk (Node l d ins i) = Node (result_label (entry_merge x)) (ExtractPackedOutputs num) [extract_node (entry_merge x) (mk k)] i.
Proof.
  intros HD E. destruct (listed_info _ _ _ _ _ HD E) as (x & N & EX). destruct (info_shape _ _ HD EX) as (num & lm & c & v & mi & i' & EN & _ & Em & _).
  injection EN as El -> -> _. exists x, num. repeat split; auto. cbn [packG]. rewrite E. now rewrite Em.
Qed.

Lemma unlisted_below n m : D n -> no_result n -> occurs m n -> index_in (label_of m) L = None.
Proof.
  intros HD NR K. destruct m as [l d ins i]. cbn. destruct (index_in l L) as [k|] eqn:E; [|reflexivity].
  destruct (listed_packG l d ins i k (occursD _ _ K HD) E) as (x & num & _ & _ & -> & _). now elim (NR l num ins i).
Qed.

Lemma packed_kinds n : D n -> forall m, occurs m (packG mk n) -> packed_kind m.
Proof.
  induction n as [l d ins i IH] using node_rect'. intros HD m K. destruct (index_in l L) as [k|] eqn:E.
  - destruct (listed_packG l d ins i k HD E) as (x & num & N & EL & -> & EP). rewrite EP in K. subst l.
    inversion K as [|? ? ? ? y IY K1]; subst; [now apply pk_result with ins|]. destruct IY as [<-|[]].
    inversion K1 as [|? ? ? ? y IY K2]; subst; [now apply pk_extract|]. destruct IY as [<-|[]].
    destruct (MK k) as (j & EJ); [apply nth_error_Some; congruence|]. rewrite EJ in K2.
    inversion K2 as [|? ? ? ? y IY K3]; subst; [apply pk_merged|]. destruct IY as [<-|[]].
    inversion K3 as [|? ? ? ? y IY K4]; subst; [apply pk_flatten|].
    assert (In y (map add_key L)) as IY'. { rewrite <- (firstn_skipn j). apply in_or_app. now left. }
    apply in_map_iff in IY'. destruct IY' as (z & <- & IZ).
    inversion K4 as [|? ? ? ? y IY' K5]; subst; [now apply pk_key|]. destruct IY' as [<-|[]].
    destruct (L_merge z IZ) as (c & v & mi & num' & i' & H1 & _ & Ez & _ & NR). rewrite Ez in K5. cbn [snd] in K5.
    assert (D v) as HV by (eapply closedD; [exact H1|now left]).
    destruct m as [l' d' ins' i''].
    assert (map (packG mk) ins' = ins') as EM.
    { rewrite <- (map_id ins') at 2. apply map_ext_in. intros q IQ. apply packG_no_result. intros l1 num1 ins1 i1 K6.
      apply (NR l1 num1 ins1 i1). apply occurs_trans with (Node l' d' ins' i''); [|exact K5]. now apply occurs_input with q. }
    rewrite <- EM. apply pk_orig; [now apply occursD with v|]. apply (unlisted_below v _ HV NR K5).
  - rewrite packG_unlisted in K by exact E. inversion K as [|? ? ? ? y IY K1]; subst; [now apply pk_orig|].
    apply in_map_iff in IY. destruct IY as (q & <- & IQ). apply (IH q IQ); [|exact K1]. now apply closedD with l d ins i.
Qed.

Lemma orig_label n l p x : D n -> label_of n = l -> In x L -> In p ["AddKey["; "ExtractFromDict["; "ExtractPackedCombineMergeOutputs["]%string ->
  l <> (p ++ entry_merge x ++ "]")%string.
Proof.
  intros HD E I J. destruct (L_merge x I) as (c & v & mi & _ & _ & H1 & _). destruct (D_fresh n l HD E) as [F _]. eapply F; eauto.
Qed.
Lemma orig_number n l p k : D n -> label_of n = l -> In p ["FlattenInputForPackedCombineMerge["; "PackedCombineMerge["]%string ->
  l <> (p ++ decimal k ++ "]")%string.
Proof. intros HD E J. destruct (D_fresh n l HD E) as [_ F]. now apply F. Qed.

Lemma nth_in k (x : entry) : nth_error L k = Some x -> In x L.
Proof. apply nth_error_In. Qed.
Lemma nth_label_inj k k' (x : entry) : nth_error L k = Some x -> nth_error L k' = Some x -> k = k'.
Proof.
  intros N N'. pose proof L_nodup as ND. eapply NoDup_nth_error; [exact ND| |].
  - rewrite map_length. apply nth_error_Some. congruence.
  - now rewrite !nth_error_map, N, N'.
Qed.

Lemma packed_kind_unique n n' : packed_kind n -> packed_kind n' -> label_of n = label_of n' -> op_of n = op_of n'.
Proof.
  intros [l d ins i HD NI|k x num ins i N HD|k x N|j|j|x I] [l' d' ins' i' HD' NI'|k' x' num' ins' i' N' HD'|k' x' N'|j'|j'|x' I'] E;
    cbn [label_of extract_node merged flatten_node add_key] in E; unfold result_label, merge_label in E.
  - subst l'. destruct (D_unique _ _ _ _ _ _ _ HD HD') as [<- <-]. reflexivity.
  - exfalso. eapply (orig_label _ l "ExtractPackedCombineMergeOutputs[" x' HD eq_refl (nth_in _ _ N')); [|exact E]. cbn; auto.
  - exfalso. eapply (orig_label _ l "ExtractFromDict[" x' HD eq_refl (nth_in _ _ N')); [|exact E]. cbn; auto.
  - exfalso. eapply (orig_number _ l "PackedCombineMerge[" j' HD eq_refl); [|exact E]. cbn; auto.
  - exfalso. eapply (orig_number _ l "FlattenInputForPackedCombineMerge[" j' HD eq_refl); [|exact E]. cbn; auto.
  - exfalso. eapply (orig_label _ l "AddKey[" x' HD eq_refl I'); [|exact E]. cbn; auto.
  - exfalso. symmetry in E. eapply (orig_label _ l' "ExtractPackedCombineMergeOutputs[" x HD' eq_refl (nth_in _ _ N)); [|exact E]. cbn; auto.
  - apply bracket_inj in E. assert (x = x') as <- by (apply L_merge_inj; eauto using nth_in).
    assert (k = k') as <- by (eapply nth_label_inj; eauto). destruct (D_unique _ _ _ _ _ _ _ HD HD') as [[= <-] _]. reflexivity.
  - cbn in E. discriminate E.
  - cbn in E. discriminate E.
  - cbn in E. discriminate E.
  - cbn in E. discriminate E.
  - exfalso. symmetry in E. eapply (orig_label _ l' "ExtractFromDict[" x HD' eq_refl (nth_in _ _ N)); [|exact E]. cbn; auto.
  - cbn in E. discriminate E.
  - apply bracket_inj in E. assert (x = x') as <- by (apply L_merge_inj; eauto using nth_in).
    assert (k = k') as <- by (eapply nth_label_inj; eauto). reflexivity.
  - cbn in E. discriminate E.
  - cbn in E. discriminate E.
  - cbn in E. discriminate E.
  - exfalso. symmetry in E. eapply (orig_number _ l' "PackedCombineMerge[" j HD' eq_refl); [|exact E]. cbn; auto.
  - cbn in E. discriminate E.
  - cbn in E. discriminate E.
  - apply bracket_inj, decimal_inj in E. now subst.
  - cbn in E. discriminate E.
  - cbn in E. discriminate E.
  - exfalso. symmetry in E. eapply (orig_number _ l' "FlattenInputForPackedCombineMerge[" j HD' eq_refl); [|exact E]. cbn; auto.
  - cbn in E. discriminate E.
  - cbn in E. discriminate E.
  - cbn in E. discriminate E.
  - apply bracket_inj, decimal_inj in E. now subst.
  - cbn in E. discriminate E.
  - exfalso. symmetry in E. eapply (orig_label _ l' "AddKey[" x HD' eq_refl I); [|exact E]. cbn; auto.
  - cbn in E. discriminate E.
  - cbn in E. discriminate E.
  - cbn in E. discriminate E.
  - cbn in E. discriminate E.
  - apply bracket_inj in E. assert (x = x') as <- by (apply L_merge_inj; auto). reflexivity.
Qed.
End Labels.

(** ** Values computed from a packed combine *)
Inductive post : nat -> entry -> nat -> list (string * kind) -> node -> Prop :=
| post_result l num m i x : info (Node l (ExtractOutputs num) [m] i) = Some x ->
    post 0 x i [(result_label (entry_merge x), ExtractPackedOutputs num); (("ExtractFromDict[" ++ entry_merge x ++ "]")%string, ExtractKey (entry_merge x))]
      (Node l (ExtractOutputs num) [m] i)
| post_step k x i defs l d v j : post k x i defs v -> (exists y, d = TensorBinding y \/ d = Other 1 y) ->
    post (S k) x i ((l, d) :: defs) (Node l d [v] j).

Definition plain (b : node) : Prop := forall n, occurs n b -> info n = None.

Lemma post_or_plain k b : steps_after_result k b -> (exists x i defs, post k x i defs b) \/ plain b.
Proof.
  induction 1 as [l num m i NR|k l d v i S IH Hd].
  - destruct (info (Node l (ExtractOutputs num) [m] i)) as [x|] eqn:E; [left; exists x, i; eexists; now constructor|right].
    intros n K. inversion K as [|? ? ? ? y IY K1]; subst; [exact E|]. destruct IY as [<-|[]]. destruct (info n) as [y|] eqn:EN; [|reflexivity].
    destruct (info_inv _ _ EN) as (num' & lm & c & v & mi & rest & i' & -> & _). now elim (NR _ _ _ _ K1).
  - destruct IH as [(x & i' & defs & P)|P].
    + left. exists x, i', ((l, d) :: defs). now constructor.
    + right. intros n K. inversion K as [|? ? ? ? y IY K1]; subst; [|destruct IY as [<-|[]]; now apply P].
      destruct Hd as (y & [-> | ->]); reflexivity.
Qed.
Lemma no_result_plain b : no_result b -> plain b.
Proof.
  intros NR n K. destruct (info n) as [y|] eqn:EN; [|reflexivity].
  destruct (info_inv _ _ EN) as (num' & lm & c & v & mi & rest & i' & -> & _). now elim (NR _ _ _ _ K).
Qed.
Lemma plain_packG mk b : D b -> plain b -> packG mk b = b.
Proof.
  induction b as [l d ins i IH] using node_rect'. intros HD P.
  assert (map (packG mk) ins = ins) as EM.
  { rewrite <- (map_id ins) at 2. apply map_ext_in. intros x I. apply IH; [exact I|now apply closedD with l d ins i|].
    intros n K. apply P. now apply occurs_input with x. }
  destruct (index_in l L) as [k|] eqn:E; [|now rewrite packG_unlisted, EM].
  destruct (listed_info _ _ _ _ _ HD E) as (x & _ & EX). rewrite (P _ (occurs_here _)) in EX. discriminate.
Qed.
Lemma post_info k x i defs b : post k x i defs b -> D b -> forall n y, occurs n b -> info n = Some y -> y = x.
Proof.
  induction 1 as [l num m i x E|k x i defs l d v j P IH Hd]; intros HD n y K EN.
  - inversion K as [|? ? ? ? z IZ K1]; subst; [congruence|]. destruct IZ as [<-|[]].
    destruct (result_input _ _ _ _ HD) as (m' & [= <-] & NR). rewrite (no_result_plain _ NR _ K1) in EN. discriminate.
  - inversion K as [|? ? ? ? z IZ K1]; subst; [destruct Hd as (z & [-> | ->]); discriminate|]. destruct IZ as [<-|[]].
    apply (IH (closedD _ _ _ _ _ HD (or_introl eq_refl)) n y K1 EN).
Qed.

(** The position of the combine of a value. *)
Fixpoint rank (n : node) : nat :=
  match n with
  | Node l _ ins _ => match index_in l L with Some k => k | None => match ins with x :: _ => rank x | [] => 0 end end
  end.

Lemma simple_unlisted l (d : kind) ins i : D (Node l d ins i) -> (exists y, d = TensorBinding y \/ d = Other 1 y) -> index_in l L = None.
Proof.
  intros HD (y & Hd). destruct (index_in l L) as [k|] eqn:E; [|reflexivity].
  destruct (listed_packG (fun _ => root) l d ins i k HD E) as (x & num & _ & _ & -> & _). destruct Hd; discriminate.
Qed.
Lemma post_rank k x i defs b : post k x i defs b -> D b -> nth_error L (rank b) = Some x.
Proof.
  induction 1 as [l num m i x E|k x i defs l d v j P IH Hd]; intros HD; cbn [rank].
  - destruct (info_listed _ _ HD E) as (k & EK & N). cbn in EK. now rewrite EK.
  - rewrite (simple_unlisted _ _ _ _ HD Hd). apply IH. eapply closedD; [exact HD|now left].
Qed.

(** What becomes of them. *)
Lemma post_packG mk k x i defs b : post k x i defs b -> D b ->
  match b with
  | Node l d ins j =>
      match k with
      | 0 => exists num, packG mk b = Node (result_label (entry_merge x)) (ExtractPackedOutputs num) [extract_node (entry_merge x) (mk (rank b))] j /\ j = i /\ j < num /\
               defs = [(result_label (entry_merge x), ExtractPackedOutputs num); (("ExtractFromDict[" ++ entry_merge x ++ "]")%string, ExtractKey (entry_merge x))]
      | S _ => exists v, ins = [v] /\ packG mk b = Node l d [packG mk v] j /\ j = 0
      end
  end.
Proof.
  intros P HD. inversion P as [l num m i' x' E|k' x' i' defs' l d v j P' Hd]; subst.
  - destruct (info_listed _ _ HD E) as (k & EK & N). cbn in EK. destruct (listed_packG mk _ _ _ _ _ HD EK) as (x' & num' & N' & _ & [= <-] & EP).
    assert (x' = x) as -> by congruence. exists num. cbn [rank]. rewrite EK. destruct (D_kinds _ _ _ _ HD) as (LT & _). cbn in LT. auto.
  - exists v. split; [reflexivity|]. rewrite packG_unlisted by (eapply simple_unlisted; eauto). split; [reflexivity|].
    destruct (D_kinds _ _ _ _ HD) as (LT & _). destruct Hd as (y & [-> | ->]); cbn in LT; lia.
Qed.
Lemma post_packG_rank mk mk' k x i defs b : post k x i defs b -> D b -> mk (rank b) = mk' (rank b) -> packG mk b = packG mk' b.
Proof.
  induction 1 as [l num m i x E|k x i defs l d v j P IH Hd]; intros HD EM.
  - assert (post 0 x i _ _) as P by (constructor; exact E).
    destruct (info_listed _ _ HD E) as (k & EK & N). cbn in EK.
    destruct (listed_packG mk _ _ _ _ _ HD EK) as (x' & num' & N' & _ & [= <-] & ->). destruct (listed_packG mk' _ _ _ _ _ HD EK) as (x'' & num'' & N'' & _ & [= <-] & ->).
    cbn [rank] in EM. rewrite EK in EM. rewrite EM. congruence.
  - rewrite !packG_unlisted by (eapply simple_unlisted; eauto). cbn [map]. f_equal. f_equal. apply IH; [eapply closedD; [exact HD|now left]|].
    cbn [rank] in EM. now rewrite (simple_unlisted _ _ _ _ HD Hd) in EM.
Qed.

(** ** Searching for packed merges *)
Definition pure (n : node) : bool := fst (search max_depth n []).
Fixpoint clean (n : node) : bool :=
  match n with
  | Node _ _ (x :: _) _ => negb (is_packed_merge x) && clean x
  | _ => true
  end.
Definition index_of_node (n : node) : nat := match n with Node _ _ _ i => i end.

Lemma search_mono d d' (n : node) : forall p p', d <= d' -> fst (search d n p) = true -> fst (search d' n p') = true.
Proof.
  revert d' n. induction d as [|d IH]; intros d' n p p' LE1 H.
  - destruct n as [l k [|x ins] i]; cbn in H; discriminate.
  - destruct d' as [|d']; [lia|]. destruct n as [l k [|x ins] i]; cbn [search inputs_of] in *; [exact H|].
    destruct (is_packed_merge x); [reflexivity|]. apply (IH d' x (Node l k (x :: ins) i :: p) _); [lia|exact H].
Qed.
Lemma search_input d l k x ins i (p : list node) : is_packed_merge x = false ->
  search (S d) (Node l k (x :: ins) i) p = search d x (Node l k (x :: ins) i :: p).
Proof. intros E. cbn [search inputs_of]. now rewrite E. Qed.
Lemma clean_search d : forall (n : node) p, clean n = true -> fst (search d n p) = false.
Proof.
  induction d as [|d IH]; intros n p C; destruct n as [l k [|x ins] i]; try reflexivity. cbn [search inputs_of clean] in *.
  apply andb_prop in C. destruct C as [C1 C2]. apply negb_true_iff in C1. rewrite C1. now apply IH.
Qed.
Lemma search_passed d : forall (n : node) p, d <= max_depth -> forall m, In m (snd (search d n p)) -> In m p \/
  (occurs m n /\ (fst (search d n p) = true -> pure m = true) /\ (clean n = true -> clean m = true)).
Proof.
  induction d as [|d IH]; intros n p LE1 m I; destruct n as [l k [|x ins] i]; cbn [search inputs_of] in I; try (now left).
  cbn [search inputs_of]. destruct (is_packed_merge x) eqn:E.
  - cbn [snd fst] in *. destruct I as [<-|I]; [right|now left]. split; [constructor|]. split; [|auto]. intros _. unfold pure, max_depth. cbn [search inputs_of]. now rewrite E.
  - destruct (IH x (Node l k (x :: ins) i :: p) ltac:(lia) m I) as [[<-|J]|(A & B & C)].
    + right. split; [constructor|]. split; [|auto]. intros T. unfold pure, max_depth in *. rewrite search_input by exact E.
      eapply search_mono; [|exact T]. lia.
    + now left.
    + right. split; [eapply occurs_input; [now left|exact A]|]. split; [exact B|]. intros C'. apply C. cbn [clean] in C'. now apply andb_prop in C'.
Qed.

(** ** The graph after merges are packed *)
Notation D2 := (in_graph (packB root :: caches)).
Lemma cache_packB c : In c caches -> packB c = c.
Proof. intros I. destruct SP as (_ & HC & _). apply packG_no_result. now apply HC. Qed.
Lemma D2_kind n : D2 n -> packed_kind (fun k => merged (S k)) n.
Proof.
  intros (v & I & K). assert (exists v0, D v0 /\ v = packB v0) as (v0 & HD & ->).
  { destruct I as [<-|I]; [exists root|exists v; rewrite cache_packB by exact I]; (split; [|reflexivity]).
    - exists root. split; [now left|constructor].
    - exists v. split; [now right|constructor]. }
  eapply packed_kinds; [|exact HD|exact K]. intros k _. now exists (S k).
Qed.
Lemma D2_closed l d ins i x : D2 (Node l d ins i) -> In x ins -> D2 x.
Proof. intros (v & I & K) J. exists v. split; [exact I|]. now apply occurs_below with l d ins i. Qed.
Lemma D2_unique : unique_labels (packB root :: caches).
Proof.
  intros l d ins i d' ins' i' H H'. pose proof (packed_kind_unique _ _ _ (D2_kind _ H) (D2_kind _ H') eq_refl) as E. cbn in E. now injection E.
Qed.
Lemma D2_occurs a b : occurs a b -> D2 b -> D2 a.
Proof. intros K (v & I & J). exists v. split; [exact I|]. now apply occurs_trans with b. Qed.

Definition post_ok (cache : post_cache) : Prop :=
  forall l i b, In (l, i, b) cache -> forall n, D2 n -> label_of n = l -> index_of_node n = i -> pure n = b.

Lemma is_post_ok cache n : D2 n -> post_ok cache -> (pure n = true \/ clean n = true) ->
  exists cache', is_post cache n = (pure n, cache') /\ post_ok cache'.
Proof.
  intros HD OK H. unfold is_post. destruct (cached_post cache n) as [b|] eqn:E.
  - exists cache. split; [|exact OK]. f_equal. destruct n as [l d ins i]. unfold cached_post in E. destruct (find _ cache) as [[[l' i'] b']|] eqn:F; [|discriminate].
    injection E as <-. apply find_some in F. destruct F as [I EQ]. cbn in EQ. apply andb_prop in EQ. destruct EQ as [E1 E2].
    apply String.eqb_eq in E1. apply Nat.eqb_eq in E2. subst. cbn [snd]. symmetry. now apply (OK l i b' I (Node l d ins i)).
  - destruct (search max_depth n []) as [r ps] eqn:ES. assert (pure n = r) as EP by (unfold pure; now rewrite ES).
    rewrite EP in *. eexists. split; [reflexivity|].
    intros l i b I m HM EL EI. apply in_app_or in I. destruct I as [I|I]; [|now apply (OK l i b I m)].
    apply in_map_iff in I. destruct I as (m' & EM & I). injection EM as E1 E2 <-.
    pose proof (search_passed max_depth n [] ltac:(reflexivity) m') as SPm. rewrite ES in SPm. cbn [snd fst] in SPm.
    destruct (SPm I) as [[]|(K & A & B)].
    assert (m' = m) as ->.
    { destruct m as [lm dm im jm], m' as [lm' dm' im' jm']. cbn in *. subst. destruct (D2_unique _ _ _ _ _ _ _ HM (D2_occurs _ _ K HD)) as [-> ->]. reflexivity. }
    destruct H as [H|H]; [subst r; now apply A|].
    assert (r = false) as ->. { rewrite <- EP. unfold pure. now apply clean_search. }
    unfold pure. apply clean_search. now apply B.
Qed.

Lemma clean_D n : D n -> clean n = true.
Proof.
  induction n as [l d ins i IH] using node_rect'. intros HD. destruct ins as [|x ins]; [reflexivity|]. cbn [clean].
  assert (D x) as HX by (eapply closedD; [exact HD|now left]). rewrite (IH x (or_introl eq_refl) HX), andb_true_r.
  destruct x as [lx dx insx ix]. unfold is_packed_merge. cbn. destruct (D_kinds _ _ _ _ HX) as (_ & KD). destruct dx; auto; destruct KD.
Qed.
Lemma D_not_packed n : D n -> is_packed_merge n = false.
Proof. destruct n as [l d ins i]. intros HD. destruct (D_kinds _ _ _ _ HD) as (_ & KD). destruct d; auto; destruct KD. Qed.
Lemma clean_merged j : clean (merged j) = true.
Proof.
  cbn [clean merged flatten_node is_packed_merge def_of negb andb]. destruct j as [|j]; [reflexivity|].
  destruct L as [|x xs] eqn:EL; [reflexivity|]. rewrite <- EL in *. assert (In x L) as IX by (rewrite EL; now left).
  destruct (L_merge x IX) as (c & v & mi & num & i & H1 & _ & Ex & _). 
  assert (D v) as HV by (eapply closedD; [exact H1|now left]). rewrite EL. cbn [map firstn add_key is_packed_merge def_of negb andb clean].
  rewrite Ex. cbn [snd]. rewrite (clean_D _ HV), (D_not_packed _ HV). reflexivity.
Qed.

(** Distance from a packed merge. *)
Lemma post_search k x i defs b : post k x i defs b -> D b -> forall d p, k + 2 <= d -> fst (search d (packB b) p) = true.
Proof.
  induction 1 as [l num m i x E|k x i defs l d v j P IH Hd]; intros HD d0 p LE1.
  - assert (post 0 x i _ _) as P by (constructor; exact E). destruct (post_packG (fun k => merged (S k)) _ _ _ _ _ P HD) as (num' & EP & _).
    unfold packB. rewrite EP. destruct d0 as [|[|d0]]; try lia. reflexivity.
  - assert (post (S k) x i _ (Node l d [v] j)) as P' by (constructor; eauto). destruct (post_packG (fun k => merged (S k)) _ _ _ _ _ P' HD) as (v' & [= <-] & EP & _).
    unfold packB. rewrite EP. destruct d0 as [|d0]; [lia|]. cbn [search inputs_of]. destruct (is_packed_merge _); [reflexivity|].
    apply IH; [eapply closedD; [exact HD|now left]|lia].
Qed.
Lemma post_pure k x i defs b : post k x i defs b -> D b -> k <= 3 -> pure (packB b) = true.
Proof. intros P HD LE0. unfold pure. eapply post_search; eauto. unfold max_depth. lia. Qed.

Lemma pure_extract lm j : pure (extract_node lm (merged j)) = true.
Proof. reflexivity. Qed.
Lemma pure_merged j : pure (merged j) = false.
Proof. unfold pure. apply clean_search, clean_merged. Qed.

Lemma skip_merged cache j : D2 (merged j) -> post_ok cache -> exists cache', skip_post cache (merged j) = Some (merged j, cache') /\ post_ok cache'.
Proof.
  intros HD OK. destruct (is_post_ok cache (merged j) HD OK (or_intror (clean_merged j))) as (cache' & E & OK').
  exists cache'. split; [|exact OK']. remember (merged j) as M eqn:EM. destruct M as [l d ins i0]. cbn [skip_post]. rewrite E.
  rewrite EM, pure_merged. reflexivity.
Qed.
Lemma skip_step cache l d x ins i M : D2 (Node l d (x :: ins) i) -> post_ok cache -> pure (Node l d (x :: ins) i) = true ->
  (forall cache, post_ok cache -> exists cache', skip_post cache x = Some (M, cache') /\ post_ok cache') ->
  exists cache', skip_post cache (Node l d (x :: ins) i) = Some (M, cache') /\ post_ok cache'.
Proof.
  intros HD OK P H. destruct (is_post_ok cache _ HD OK (or_introl P)) as (cache1 & E & OK1). cbn [skip_post]. rewrite E, P. now apply H.
Qed.
Lemma skip_extract cache lm j : D2 (extract_node lm (merged j)) -> post_ok cache ->
  exists cache', skip_post cache (extract_node lm (merged j)) = Some (merged j, cache') /\ post_ok cache'.
Proof.
  intros HD OK. apply skip_step; auto. intros c OKc. apply skip_merged; [|exact OKc]. eapply D2_closed; [exact HD|now left].
Qed.
Lemma skip_post_ok k x i defs b : post k x i defs b -> D b -> k <= 3 -> D2 (packB b) -> forall cache, post_ok cache ->
  exists cache', skip_post cache (packB b) = Some (merged (S (rank b)), cache') /\ post_ok cache'.
Proof.
  induction 1 as [l num m i x E|k x i defs l d v j P IH Hd]; intros HD LE0 HD2 cache OK.
  - assert (post 0 x i _ _) as P by (constructor; exact E). pose proof (post_pure _ _ _ _ _ P HD LE0) as PU.
    destruct (post_packG (fun k => merged (S k)) _ _ _ _ _ P HD) as (num' & EP & _).
    unfold packB in *. rewrite EP in *. apply skip_step; auto. intros c OKc. apply skip_extract; [|exact OKc]. eapply D2_closed; [exact HD2|now left].
  - assert (post (S k) x i _ (Node l d [v] j)) as P' by (constructor; eauto). pose proof (post_pure _ _ _ _ _ P' HD LE0) as PU.
    destruct (post_packG (fun k => merged (S k)) _ _ _ _ _ P' HD) as (v' & [= <-] & EP & _).
    unfold packB in *. rewrite EP in *. cbn [rank]. rewrite (simple_unlisted _ _ _ _ HD Hd). apply skip_step; auto. intros c OKc.
    apply IH; auto; [eapply closedD; [exact HD|now left]|lia|eapply D2_closed; [exact HD2|now left]].
Qed.

Lemma trace_step cache l d x ins i index index' defs index2 M : D2 (Node l d (x :: ins) i) -> post_ok cache -> pure (Node l d (x :: ins) i) = true ->
  (match d, index with ExtractPackedOutputs _, None => Some (Some i) | ExtractPackedOutputs _, Some _ => None | _, _ => Some index end) = Some index' ->
  (forall cache, post_ok cache -> exists cache', trace_post cache x index' = Some (defs, index2, M, cache') /\ post_ok cache') ->
  exists cache', trace_post cache (Node l d (x :: ins) i) index = Some ((l, d) :: defs, index2, M, cache') /\ post_ok cache'.
Proof.
  intros HD OK P EI H. destruct (is_post_ok cache _ HD OK (or_introl P)) as (cache1 & E & OK1). cbn [trace_post]. rewrite E, P, EI.
  destruct (H cache1 OK1) as (cache2 & -> & OK2). exists cache2. auto.
Qed.
Lemma trace_merged cache j index : D2 (merged j) -> post_ok cache -> exists cache', trace_post cache (merged j) index = Some ([], index, merged j, cache') /\ post_ok cache'.
Proof.
  intros HD OK. destruct (is_post_ok cache (merged j) HD OK (or_intror (clean_merged j))) as (cache' & E & OK').
  exists cache'. split; [|exact OK']. remember (merged j) as M eqn:EM. destruct M as [l d ins i0]. cbn [trace_post]. rewrite E.
  rewrite EM, pure_merged. reflexivity.
Qed.
Lemma trace_post_ok k x i defs b : post k x i defs b -> D b -> k <= 3 -> D2 (packB b) -> forall cache, post_ok cache ->
  exists cache', trace_post cache (packB b) None = Some (defs, Some i, merged (S (rank b)), cache') /\ post_ok cache'.
Proof.
  induction 1 as [l num m i x E|k x i defs l d v j P IH Hd]; intros HD LE0 HD2 cache OK.
  - assert (post 0 x i _ _) as P by (constructor; exact E). pose proof (post_pure _ _ _ _ _ P HD LE0) as PU.
    destruct (post_packG (fun k => merged (S k)) _ _ _ _ _ P HD) as (num' & EP & _ & _ & [= <-]).
    unfold packB in *. rewrite EP in *. eapply trace_step; auto. intros c OKc.
    assert (D2 (extract_node (entry_merge x) (merged (S (rank (Node l (ExtractOutputs num) [m] i)))))) as HE by (eapply D2_closed; [exact HD2|now left]).
    eapply trace_step; auto. intros c' OKc'. apply trace_merged; [|exact OKc']. eapply D2_closed; [exact HE|now left].
  - assert (post (S k) x i _ (Node l d [v] j)) as P' by (constructor; eauto). pose proof (post_pure _ _ _ _ _ P' HD LE0) as PU.
    destruct (post_packG (fun k => merged (S k)) _ _ _ _ _ P' HD) as (v' & [= <-] & EP & _).
    unfold packB in *. rewrite EP in *. cbn [rank]. rewrite (simple_unlisted _ _ _ _ HD Hd).
    eapply trace_step; auto.
    + destruct Hd as (y & [-> | ->]); reflexivity.
    + intros c OKc. apply IH; auto; [eapply closedD; [exact HD|now left]|lia|eapply D2_closed; [exact HD2|now left]].
Qed.

(** ** Creating values again *)
Notation K := (length L).
Definition made_ok (made : list (string * (string * kind * list node))) : Prop :=
  forall l o, In (l, o) made -> exists i, packed_kind (fun _ => merged K) (output o i) /\ label_of (output o i) = l.

Lemma made_same made l d ins i o : made_ok made -> packed_kind (fun _ => merged K) (Node l d ins i) -> lookup l made = Some o -> o = (l, d, ins).
Proof.
  intros OK P E. apply lookup_some in E. destruct (OK _ _ E) as (j & P' & EL). destruct o as [[l' d'] ins']. cbn in EL. subst l'.
  pose proof (packed_kind_unique _ _ _ P' P eq_refl) as EQ. exact EQ.
Qed.
Lemma made_step made l d ins i : made_ok made -> packed_kind (fun _ => merged K) (Node l d ins i) ->
  exists made', (match lookup l made with Some o => (o, made) | None => ((l, d, ins), (l, (l, d, ins)) :: made) end) = ((l, d, ins), made') /\ made_ok made'.
Proof.
  intros OK P. destruct (lookup l made) as [o|] eqn:E.
  - rewrite (made_same _ _ _ _ _ _ OK P E). exists made. auto.
  - eexists. split; [reflexivity|]. intros l' o' [[= <- <-]|I]; [|now apply OK]. exists i. split; [exact P|reflexivity].
Qed.

Lemma create_chain_app a : forall made b index ins, @create_chain Obj X made (a ++ b) index ins =
  match create_chain made a index ins with Some (v, made') => create_chain made' b index v | None => None end.
Proof.
  induction a as [|[l d] a IH]; intros made b index ins; [reflexivity|]. cbn [create_chain app].
  destruct (lookup l made) as [o|]; destruct d; try apply IH; (destruct index; [|reflexivity]); destruct (nth_error _ _); try apply IH; reflexivity.
Qed.

Lemma packT_kind b : D b -> packed_kind (fun _ => merged K) (packT b).
Proof. intros HD. eapply packed_kinds; [|exact HD|constructor]. intros k _. now exists K. Qed.

Lemma create_chain_ok k x i defs b : post k x i defs b -> D b -> forall made, made_ok made ->
  exists made', create_chain made (rev defs) (Some i) [merged K] = Some ([packT b], made') /\ made_ok made'.
Proof.
  induction 1 as [l num m i x E|k x i defs l d v j P IH Hd]; intros HD made OK.
  - assert (post 0 x i _ _) as P by (constructor; exact E).
    destruct (post_packG (fun _ => merged K) _ _ _ _ _ P HD) as (num' & EP & _ & LT & [= <-]). pose proof (packT_kind _ HD) as PK. unfold packT in *. rewrite EP in *.
    assert (packed_kind (fun _ => merged K) (extract_node (entry_merge x) (merged K))) as PE.
    { apply pk_extract with (k := rank (Node l (ExtractOutputs num) [m] i)). eapply post_rank; eauto. }
    cbn [rev app create_chain].
    destruct (made_step _ _ _ _ _ OK PE) as (made1 & -> & OK1). cbn [outputs num_outputs seq map output].
    fold (extract_node (entry_merge x) (merged K)).
    destruct (made_step _ _ _ _ _ OK1 PK) as (made2 & -> & OK2). cbn [outputs num_outputs].
    rewrite nth_error_map, nth_error_nth' with (d := 0) by (rewrite seq_length; exact LT). rewrite seq_nth by exact LT. cbn [option_map output].
    exists made2. auto.
  - assert (post (S k) x i _ (Node l d [v] j)) as P' by (constructor; eauto).
    destruct (post_packG (fun _ => merged K) _ _ _ _ _ P' HD) as (v' & [= <-] & EP & ->). pose proof (packT_kind _ HD) as PK. unfold packT in *. rewrite EP in *.
    cbn [rev]. rewrite create_chain_app. destruct (IH (closedD _ _ _ _ _ HD (or_introl eq_refl)) made OK) as (made1 & -> & OK1).
    cbn [create_chain]. destruct (made_step _ _ _ _ _ OK1 PK) as (made2 & -> & OK2). exists made2. split; [|exact OK2].
    destruct Hd as (y & [-> | ->]); reflexivity.
Qed.

(** ** The inputs of the final operation *)
Definition binding_value (b : node) : Prop :=
  D b /\ D2 (packB b) /\ (exists y, def_of b = TensorBinding y) /\ ((exists k x i defs, k <= 3 /\ post k x i defs b) \/ plain b).
Definition posted (b : node) : bool := pure (packB b).
Definition final (b : node) : bool := S (rank b) =? K.

Lemma posted_cases b : binding_value b -> (posted b = true /\ exists k x i defs, k <= 3 /\ post k x i defs b) \/ (posted b = false /\ clean (packB b) = true /\ plain b).
Proof.
  intros (HD & _ & _ & [(k & x & i & defs & LE0 & P)|P]).
  - left. split; [eapply post_pure; eauto|]. now exists k, x, i, defs.
  - right. unfold posted. assert (packB b = b) as -> by now apply plain_packG. pose proof (clean_D _ HD) as C. split; [|auto]. unfold pure. now apply clean_search.
Qed.
Lemma binding_def b y : D b -> def_of b = TensorBinding y -> def_of (packB b) = TensorBinding y.
Proof. intros HD E. destruct b as [l d ins i]. cbn in E. subst d. unfold packB. rewrite packG_other by discriminate. reflexivity. Qed.

Lemma split_ok bs : (forall b, In b bs -> binding_value b) -> forall cache, post_ok cache ->
  exists cache', split_redundant cache (map packB bs) = Some (map packB (filter posted bs), map packB (filter (fun b => negb (posted b)) bs), cache') /\ post_ok cache'.
Proof.
  induction bs as [|b bs IH]; intros H cache OK; [exists cache; auto|]. cbn [map split_redundant].
  pose proof (H b (or_introl eq_refl)) as HB. destruct HB as (HD & HD2 & (y & EY) & _). rewrite (binding_def _ _ HD EY).
  destruct (is_post_ok cache (packB b) HD2 OK) as (cache1 & E1 & OK1).
  { destruct (posted_cases b (H b (or_introl eq_refl))) as [[A _]|[_ [A _]]]; [now left|now right]. }
  rewrite E1. destruct (IH (fun c h => H c (or_intror h)) cache1 OK1) as (cache2 & E2 & OK2). rewrite E2. cbn [filter].
  fold (posted b). exists cache2. split; [|exact OK2]. destruct (posted b); reflexivity.
Qed.

Lemma final_label_iff b : (is_packed_merge (merged (S (rank b))) && String.eqb (label_of (merged (S (rank b)))) (merge_label K))%bool = final b.
Proof.
  cbn [is_packed_merge merged def_of andb label_of]. unfold final. destruct (Nat.eqb_spec (S (rank b)) K) as [->|NE]; [apply String.eqb_refl|].
  apply String.eqb_neq. intros E. apply NE. unfold merge_label in E. now apply bracket_inj, decimal_inj in E.
Qed.

Definition posted_value (b : node) : Prop := binding_value b /\ exists k x i defs, k <= 3 /\ post k x i defs b.

Lemma find_final_ok bs : (forall b, In b bs -> posted_value b) -> forall cache, post_ok cache ->
  exists cache', find_final (merge_label K) cache (map packB bs) =
    Some (if existsb final bs then Some (merged K) else None, map packB (filter final bs), cache') /\ post_ok cache'.
Proof.
  induction bs as [|b bs IH]; intros H cache OK; [exists cache; auto|]. cbn [map find_final].
  destruct (H b (or_introl eq_refl)) as ((HD & HD2 & (y & EY) & _) & (k & x & i & defs & LE0 & P)).
  inversion P as [l num m i' x' E|k' x' i' defs' l d v j P' Hd]; subst; [discriminate|].
  destruct (post_packG (fun k => merged (S k)) _ _ _ _ _ P HD) as (v' & [= <-] & EP & _).
  assert (D v) as HV by (eapply closedD; [exact HD|now left]).
  assert (D2 (packB v)) as HV2. { unfold packB in *. rewrite EP in HD2. eapply D2_closed; [exact HD2|now left]. }
  assert (inputs_of (packB (Node l d [v] j)) = [packB v]) as -> by (unfold packB; now rewrite EP).
  destruct (skip_post_ok _ _ _ _ _ P' HV ltac:(lia) HV2 cache OK) as (cache1 & -> & OK1).
  destruct (IH (fun c h => H c (or_intror h)) cache1 OK1) as (cache2 & -> & OK2). exists cache2. split; [|exact OK2].
  assert (rank (Node l d [v] j) = rank v) as ER by (cbn [rank]; now rewrite (simple_unlisted _ _ _ _ HD Hd)).
  rewrite <- ER, final_label_iff. cbn [existsb filter]. destruct (final (Node l d [v] j)) eqn:EF; cbn [orb map]; [|reflexivity].
  unfold final in EF. apply Nat.eqb_eq in EF. rewrite EF. destruct (existsb final bs); reflexivity.
Qed.

Lemma to_be_created_ok bs : (forall b, In b bs -> posted_value b) -> forall cache, post_ok cache ->
  exists todo cache', to_be_created (merge_label K) cache (map packB bs) = Some (todo, cache') /\ post_ok cache' /\
    Forall2 (fun info b => exists k x i defs, post k x i defs b /\ info = (defs, Some i)) todo (filter (fun b => negb (final b)) bs).
Proof.
  induction bs as [|b bs IH]; intros H cache OK; [exists [], cache; cbn; auto|]. cbn [map to_be_created].
  destruct (H b (or_introl eq_refl)) as ((HD & HD2 & _ & _) & (k & x & i & defs & LE0 & P)).
  destruct (trace_post_ok _ _ _ _ _ P HD LE0 HD2 cache OK) as (cache1 & -> & OK1).
  destruct (IH (fun c h => H c (or_intror h)) cache1 OK1) as (todo & cache2 & -> & OK2 & F). eexists. exists cache2. split; [reflexivity|]. split; [exact OK2|].
  pose proof (final_label_iff b) as FL. cbn [is_packed_merge merged def_of andb] in FL. rewrite FL. cbn [filter].
  destruct (final b); cbn [negb]; [exact F|]. constructor; [|exact F]. now exists k, x, i, defs.
Qed.

Lemma create_bindings_ok todo : forall bs made, (forall b, In b bs -> binding_value b) -> made_ok made ->
  Forall2 (fun info b => exists k x i defs, post k x i defs b /\ info = (defs, Some i)) todo bs ->
  create_bindings made (merged K) todo = Some (map packT bs).
Proof.
  induction todo as [|info todo IH]; intros bs made H OK F; inversion F as [|? b ? bs' HB F']; subst; [reflexivity|].
  destruct HB as (k & x & i & defs & P & ->). destruct (H b (or_introl eq_refl)) as (HD & _ & (y & EY) & _). cbn [create_bindings map].
  destruct (create_chain_ok _ _ _ _ _ P HD made OK) as (made1 & -> & OK1).
  assert (def_of (packT b) = TensorBinding y) as ->.
  { destruct b as [l d ins j]. cbn in EY. subst d. unfold packT. rewrite packG_other by discriminate. reflexivity. }
  now rewrite (IH bs' made1 (fun c h => H c (or_intror h)) OK1 F').
Qed.

Lemma filter_partition {A} (f : A -> bool) l : Permutation (filter f l ++ filter (fun a => negb (f a)) l) l.
Proof.
  induction l as [|a l IH]; [constructor|]. cbn. destruct (f a); cbn; [now constructor|]. rewrite <- Permutation_middle. now constructor.
Qed.

Lemma reconstruct_ok bs : (forall b, In b bs -> binding_value b) -> existsb (fun b => posted b && final b)%bool bs = true ->
  exists R cache', reconstruct (merge_label K) [] (map packB bs) = Some (R, cache') /\ Permutation R (map packT bs).
Proof.
  intros H EX. unfold reconstruct.
  destruct (split_ok bs H [] ltac:(intros ? ? ? [])) as (c1 & -> & OK1).
  assert (forall b, In b (filter posted bs) -> posted_value b) as HP.
  { intros b I. apply filter_In in I. destruct I as [I PO]. split; [now apply H|]. destruct (posted_cases b (H b I)) as [[_ A]|[A _]]; [exact A|congruence]. }
  destruct (find_final_ok _ HP c1 OK1) as (c2 & -> & OK2).
  destruct (to_be_created_ok _ HP c2 OK2) as (todo & c3 & -> & _ & F).
  assert (existsb final (filter posted bs) = true) as EF.
  { apply existsb_exists in EX. destruct EX as (b & I & E). apply andb_prop in E. destruct E as [E1 E2]. apply existsb_exists. exists b. split; [|exact E2]. apply filter_In. auto. }
  rewrite EF.
  assert (match todo with [] => Some [] | _ => create_bindings [] (merged K) todo end = Some (map packT (filter (fun b => negb (final b)) (filter posted bs)))) as EC.
  { transitivity (create_bindings [] (merged K) todo); [destruct todo; reflexivity|]. apply create_bindings_ok; [|intros ? ? []|exact F].
    intros b I. apply filter_In in I. destruct I as [I _]. now apply HP. }
  assert ((match todo with [] => Some [] | _ :: _ => create_bindings [] (merged K) todo end) = Some (map packT (filter (fun b => negb (final b)) (filter posted bs)))) as -> by exact EC.
  assert (map packB (filter final (filter posted bs)) = map packT (filter final (filter posted bs))) as E1.
  { apply map_ext_in. intros b I. apply filter_In in I. destruct I as [I FB]. destruct (HP b I) as ((HD & _) & (k & x & i & defs & _ & P)).
    unfold packB, packT. eapply post_packG_rank; eauto. unfold final in FB. apply Nat.eqb_eq in FB. now rewrite FB. }
  assert (map packB (filter (fun b => negb (posted b)) bs) = map packT (filter (fun b => negb (posted b)) bs)) as E2.
  { apply map_ext_in. intros b I. apply filter_In in I. destruct I as [I NP]. pose proof (H b I) as HB. destruct (posted_cases b HB) as [[A _]|(_ & _ & PL)]; [rewrite A in NP; discriminate|].
    unfold packB, packT. destruct HB as (HD & _). now rewrite !plain_packG. }
  rewrite E1, E2.
  assert (Permutation (map packT (filter final (filter posted bs)) ++ map packT (filter (fun b => negb (posted b)) bs) ++ map packT (filter (fun b => negb (final b)) (filter posted bs))) (map packT bs)) as PM.
  { rewrite (Permutation_app_comm (map packT (filter (fun b => negb (posted b)) bs))), app_assoc, <- map_app, filter_partition, <- map_app, filter_partition. reflexivity. }
  assert (length (map packB bs) = length (map packT (filter final (filter posted bs)) ++ map packT (filter (fun b => negb (posted b)) bs) ++ map packT (filter (fun b => negb (final b)) (filter posted bs)))) as LEN.
  { rewrite (Permutation_length PM). now rewrite !map_length. }
  rewrite LEN, Nat.eqb_refl. eexists. eexists. split; [reflexivity|exact PM].
Qed.

(** ** The whole pass *)
Hypothesis MANY : 1 < length L.

Lemma traverse_pack : exists memo s, traverse_all (pack_merge (map fst L)) (root :: caches) [] ([], None) = Some (packB root :: caches, memo, (s, Some (merge_label K))).
Proof.
  destruct (traverse_all_function D closedD D_unique (pack_merge (map fst L)) packB O_all pack_state pack_merge_step (root :: caches) ([], None)) as (memo & s & E & S1 & S2).
  - intros n I. exists n. split; [exact I|constructor].
  - reflexivity.
  - split; reflexivity.
  - rewrite <- L_all in S2. destruct s as [s1 s2]. cbn in S2.
    destruct L as [|x xs] eqn:EL; [cbn in MANY; lia|]. rewrite <- EL in *. subst s2. exists memo, s1. rewrite E. cbn [map]. do 3 f_equal.
    f_equal. rewrite <- (map_id caches) at 2. apply map_ext_in. apply cache_packB.
Qed.
Lemma traverse_inspect : exists n memo, traverse inspect_merge root [] [] = Some (n, memo, map fst L).
Proof.
  destruct (traverse_function D closedD D_unique inspect_merge (fun x => x) (order root []) (fun visited s => s = map fst (infos visited))
    (inspect_merge_step (order root [])) root []) as (memo & s & E & S).
  - exists root. split; [now left|constructor].
  - reflexivity.
  - reflexivity.
  - exists root, memo. now rewrite E, S, LE.
Qed.

Lemma root_binding b : In b (inputs_of root) -> binding_value b.
Proof.
  intros I. destruct SP as ((rl & rx & bindings & ER & HB) & _). rewrite ER in I. cbn in I. destruct (HB b I) as (TB & ST).
  assert (D b) as HD. { exists root. split; [now left|]. rewrite ER. apply occurs_input with b; [exact I|constructor]. }
  split; [exact HD|]. split; [|split; [exact TB|]].
  - exists (packB root). split; [now left|]. rewrite ER. unfold packB. rewrite packG_other by discriminate. eapply occurs_input; [|constructor]. now apply in_map.
  - destruct ST as [NR|(k & LE0 & ST)]; [right; now apply no_result_plain|]. destruct (post_or_plain _ _ ST) as [(x & i & defs & P)|P]; [left|now right].
    exists k, x, i, defs. auto.
Qed.
Lemma some_final : existsb (fun b => posted b && final b)%bool (inputs_of root) = true.
Proof.
  destruct (nth_error L (K - 1)) as [x|] eqn:N; [|apply nth_error_None in N; lia].
  destruct (L_D x (nth_in _ _ N)) as (n & (v & IV & KV) & EN). destruct (info_inv _ _ EN) as (num & lm & c & w & mi & rest & i & EQ & _).
  destruct IV as [<-|IV]; [|exfalso; destruct SP as (_ & HC & _); rewrite EQ in KV; now apply (HC v IV _ _ _ _ KV)].
  assert (exists rl rx bindings, root = Node rl (SavedModel rx) bindings 0) as (rl & rx & bindings & ER) by (destruct SP as ((rl & rx & bindings & ER & _) & _); eauto).
  assert (inputs_of root = bindings) as EI by now rewrite ER. rewrite ER in KV.
  inversion KV as [|? ? ? ? b IB KB]; subst n; [discriminate|]. rewrite <- EI in IB. apply existsb_exists. exists b. split; [exact IB|]. pose proof (root_binding b IB) as HB.
  destruct (posted_cases b HB) as [(PO & k & y & i' & defs & _ & P)|(_ & _ & PL)]; [|rewrite (PL _ KB) in EN; discriminate].
  rewrite PO. unfold final. destruct HB as (HD & _). pose proof (post_info _ _ _ _ _ P HD _ _ KB EN) as ->. pose proof (post_rank _ _ _ _ _ P HD) as NR.
  apply Nat.eqb_eq. rewrite (nth_label_inj _ _ _ NR N). lia.
Qed.

Lemma packB_root rl rx bindings : root = Node rl (SavedModel rx) bindings 0 -> packB root = Node rl (SavedModel rx) (map packB bindings) 0.
Proof. intros ->. unfold packB. now rewrite packG_other. Qed.

Lemma rebuild rl rx bindings : root = Node rl (SavedModel rx) bindings 0 ->
  exists R memo c, traverse_all (remove_redundant (merge_label K)) (packB root :: caches) [] [] = Some (Node rl (SavedModel rx) R 0 :: caches, memo, c) /\
    Permutation R (map packT bindings).
Proof.
  intros ER.
  assert (forall b, In b bindings -> binding_value b) as RB. { intros b I. apply root_binding. now rewrite ER. }
  pose proof some_final as SF. rewrite ER in SF. cbn [inputs_of] in SF.
  destruct (reconstruct_ok bindings RB SF) as (R & c & EC & PR).
  pose proof (packB_root _ _ _ ER) as EB.
  assert (bindings <> []) as NE by (intros ->; discriminate).
  assert (forall v l x ins i, In v (inputs_of root ++ caches) -> occurs (Node l (SavedModel x) ins i) v -> ins = []) as SM.
  { destruct SP as (_ & _ & SM & _). intros; eapply SM; eauto. }
  assert (forall l x ins i, D (Node l (SavedModel x) ins i) -> l = rl \/ ins = []) as SM2.
  { intros l x ins i (v & [<-|I] & KV).
    - rewrite ER in KV. inversion KV as [|? ? ? ? b IB KB]; subst; [now left|]. right. apply (SM b l x ins i); [|exact KB]. rewrite ER. apply in_or_app. now left.
    - right. apply (SM v l x ins i); [|exact KV]. apply in_or_app. now right. }
  set (F := fun n : node => if String.eqb (label_of n) rl then Node rl (SavedModel rx) R (index_of_node n) else n).
  assert (D2 (Node rl (SavedModel rx) (map packB bindings) 0)) as HR3 by (rewrite <- EB; exists (packB root); split; [now left|constructor]).
  assert (forall l d ins i x, D2 (Node l d ins i) -> In x ins -> label_of x <> rl) as BELOW.
  { intros l d ins i x HD I E. assert (D2 x) as HX by (eapply D2_closed; eauto).
    destruct x as [lx dx insx ix]. cbn in E. subst lx. destruct (D2_unique _ _ _ _ _ _ _ HX HR3) as [-> ->].
    destruct HD as (v & [<-|IV] & KV).
    - rewrite EB in KV. inversion KV as [|? ? ? ? y IY KY]; subst.
      + apply (acyclic D2 D2_closed D2_unique _ _ _ _ _ _ HR3 I (occurs_here _)). reflexivity.
      + apply (acyclic D2 D2_closed D2_unique _ _ _ _ _ (Node rl (SavedModel rx) (map packB bindings) ix) HR3 IY); [|reflexivity]. eapply occurs_below; [|exact KY]. exact I.
    - assert (map packB bindings = []) as EM.
      { apply (SM v rl rx (map packB bindings) ix); [apply in_or_app; now right|]. eapply occurs_below; [|exact KV]. exact I. }
      destruct bindings; [congruence|discriminate]. }
  assert (forall l d ins i, D2 (Node l d ins i) -> map F ins = ins) as FI.
  { intros l d ins i HD. rewrite <- (map_id ins) at 2. apply map_ext_in. intros x I. unfold F.
    destruct (String.eqb_spec (label_of x) rl) as [E|_]; [|reflexivity]. now elim (BELOW _ _ _ _ _ HD I). }
  destruct (traverse_all_function D2 D2_closed D2_unique (remove_redundant (merge_label K)) F (order_all (packB root :: caches) [])
    (fun visited s => ~ In rl (map label_of visited) -> s = [])) with (ns := packB root :: caches) (s := @nil (string * nat * bool)) as (memo & s & E & _).
  - intros visited s l d ins i HD _ _ _ NV INV. rewrite (FI _ _ _ _ HD). destruct (String.eqb_spec l rl) as [->|NL].
    + destruct (D2_unique _ _ _ _ _ _ _ HD HR3) as [-> ->]. rewrite (INV NV).
      exists c, (rl, SavedModel rx, R). split; [|split].
      * destruct bindings as [|b0 bs0] eqn:EBS; [congruence|]. cbn [map remove_redundant]. cbn [map] in EC. rewrite EC. reflexivity.
      * intros j _. unfold F. cbn [label_of]. now rewrite String.eqb_refl.
      * intros N. elim N. rewrite map_app. apply in_or_app. right. now left.
    + exists s, (l, d, ins). split; [|split].
      * destruct d; try reflexivity. destruct ins as [|y ins]; [reflexivity|]. exfalso.
        pose proof (D2_kind _ HD) as PK. inversion PK as [l0 d0 ins0 i0 HD0 NI0 E0| | | | |]; subst.
        destruct (SM2 _ _ _ _ HD0) as [A|A]; [contradiction|]. subst ins0. discriminate.
      * intros j _. unfold F. cbn [label_of]. now destruct (String.eqb_spec l rl).
      * intros N. apply INV. intros I. apply N. rewrite map_app. apply in_or_app. now left.
  - intros n I. exists n. split; [exact I|constructor].
  - reflexivity.
  - reflexivity.
  - exists R, memo, s. split; [|exact PR]. rewrite E. cbn [map]. do 3 f_equal.
    unfold F at 1. rewrite EB. cbn [label_of index_of_node]. rewrite String.eqb_refl. f_equal.
    rewrite <- (map_id caches) at 2. apply map_ext_in. intros v IV. unfold F. destruct (String.eqb_spec (label_of v) rl) as [EL|_]; [|reflexivity]. exfalso.
    assert (D2 v) as HV by (exists v; split; [now right|constructor]). destruct v as [lv dv insv iv]. cbn in EL. subst lv.
    destruct (D2_unique _ _ _ _ _ _ _ HV HR3) as [-> ->].
    assert (map packB bindings = []) as EM. { eapply SM; [apply in_or_app; right; exact IV|constructor]. }
    destruct bindings; [congruence|discriminate].
Qed.

(** ** What it computes *)
Variable size : nat.
Hypothesis SIZE : 0 < size.
Variable other : string -> kind -> list collection -> list collection -> Prop.
Variable run' : string -> list collection.

Definition find_merge (l : string) : option entry := find (fun x => String.eqb (entry_merge x) l) L.
Definition find_label (l : string) : option entry := find (fun x => String.eqb (entry_label x) l) L.
Definition runM (l : string) : list collection :=
  match find_merge l with
  | Some x => run' ("ExtractFromDict[" ++ entry_merge x ++ "]")
  | None => match find_label l with Some x => run' (result_label (entry_merge x)) | None => run' l end
  end.

Lemma find_merge_in x : In x L -> find_merge (entry_merge x) = Some x.
Proof.
  intros I. unfold find_merge. destruct (find _ L) as [y|] eqn:E.
  - apply find_some in E. destruct E as [J E]. apply String.eqb_eq in E. f_equal. now apply L_merge_inj.
  - apply find_none with (x := x) in E; [|exact I]. now rewrite String.eqb_refl in E.
Qed.
Lemma find_label_in x : In x L -> find_label (entry_label x) = Some x.
Proof.
  intros I. unfold find_label. destruct (find _ L) as [y|] eqn:E.
  - apply find_some in E. destruct E as [J E]. apply String.eqb_eq in E. f_equal.
    destruct (In_nth_error _ _ I) as (a & A). destruct (In_nth_error _ _ J) as (b & B).
    assert (a = b) as <-; [|congruence]. eapply NoDup_nth_error; [exact L_nodup| |].
    + rewrite map_length. apply nth_error_Some. congruence.
    + rewrite !nth_error_map, A, B. cbn. now rewrite E.
  - apply find_none with (x := x) in E; [|exact I]. now rewrite String.eqb_refl in E.
Qed.
Lemma find_merge_kind l d ins i x : D (Node l d ins i) -> find_merge l = Some x -> In x L /\ l = entry_merge x /\ exists c, d = CombineMerge c.
Proof.
  intros HD E. unfold find_merge in E. apply find_some in E. destruct E as [I E]. apply String.eqb_eq in E. split; [exact I|]. split; [now symmetry|].
  destruct (L_merge x I) as (c & v & mi & num & i' & H1 & _). rewrite E in H1. destruct (D_unique _ _ _ _ _ _ _ HD H1) as [-> _]. eauto.
Qed.
Lemma find_label_kind l d ins i x : D (Node l d ins i) -> find_label l = Some x -> In x L /\ l = entry_label x /\ exists num, d = ExtractOutputs num.
Proof.
  intros HD E. unfold find_label in E. apply find_some in E. destruct E as [I E]. apply String.eqb_eq in E. split; [exact I|]. split; [now symmetry|].
  destruct (L_merge x I) as (c & v & mi & num & i' & _ & H1 & _). rewrite E in H1. destruct (D_unique _ _ _ _ _ _ _ HD H1) as [-> _]. eauto.
Qed.
Lemma find_label_index l : find_label l = None <-> index_in l L = None.
Proof.
  rewrite index_in_none. unfold find_label. split.
  - intros E I. apply in_map_iff in I. destruct I as (x & <- & I). apply find_none with (x := x) in E; [|exact I]. now rewrite String.eqb_refl in E.
  - intros N. destruct (find _ L) as [x|] eqn:E; [|reflexivity]. apply find_some in E. destruct E as [I E]. apply String.eqb_eq in E.
    elim N. apply in_map_iff. now exists x.
Qed.

Lemma content_kept n : D n -> find_merge (label_of n) = None -> content runM n = content run' (packT n).
Proof.
  destruct n as [l d ins i]. intros HD NM. cbn [label_of] in NM. cbn [content]. unfold runM. rewrite NM.
  destruct (find_label l) as [x|] eqn:FL.
  - destruct (find_label_kind _ _ _ _ _ HD FL) as (I & -> & num & ->). destruct (index_in (entry_label x) L) as [k|] eqn:EK; [|apply find_label_index in EK; congruence].
    destruct (listed_packG (fun _ => merged K) _ _ _ _ _ HD EK) as (y & num' & N & EL & _ & EP). unfold packT. rewrite EP. cbn [content].
    assert (y = x) as ->; [|reflexivity]. apply nth_in in N. rewrite <- EL, find_label_in in FL by exact N. congruence.
  - apply find_label_index in FL. unfold packT. rewrite packG_unlisted by exact FL. reflexivity.
Qed.
Lemma used_inputs l d ins i x : D (Node l d ins i) -> In x ins -> index_in l L = None -> find_merge (label_of x) = None.
Proof.
  intros HD I NI. destruct (find_merge (label_of x)) as [y|] eqn:E; [exfalso|reflexivity].
  assert (D x) as HX by now apply closedD with l d ins i. destruct x as [lx dx insx ix]. cbn in E.
  destruct (find_merge_kind _ _ _ _ _ HX E) as (IY & -> & c & ->).
  destruct SP as (_ & _ & _ & ONE & USED & _). destruct (USED _ _ _ _ _ _ _ _ HD I) as (num & ->).
  destruct (L_merge y IY) as (c' & v & mi & num' & i' & H1 & H2 & _). destruct (D_unique _ _ _ _ _ _ _ HX H1) as [[= <-] ->].
  destruct (D_kinds _ _ _ _ HD) as (_ & (m & ->)). destruct I as [->|[]].
  assert (ix = mi) as ->. { destruct (D_kinds _ _ _ _ HX) as (A & _). destruct (D_kinds _ _ _ _ H1) as (B & _). cbn in A, B. lia. }
  rewrite (ONE _ _ _ _ _ _ _ HD H2) in NI. apply index_in_none in NI. apply NI. now apply in_map.
Qed.

Lemma merge_free b : D b -> find_merge (label_of b) = None -> no_result b -> forall n, occurs n b -> find_merge (label_of n) = None.
Proof.
  induction b as [l d ins i IH] using node_rect'. intros HD NM NR n KN.
  inversion KN as [|? ? ? ? y IY KY]; subst; [exact NM|].
  assert (D y) as HY by now apply closedD with l d ins i.
  apply (IH y IY HY); [|now apply no_result_input with l d ins i|exact KY].
  eapply used_inputs; [exact HD|exact IY|]. exact (unlisted_below (fun _ => root) _ _ HD NR (occurs_here _)).
Qed.
Lemma merge_unlisted x : In x L -> index_in (entry_merge x) L = None.
Proof.
  intros I. destruct (L_merge x I) as (c & v & mi & num & i & H1 & _). destruct (index_in (entry_merge x) L) as [k|] eqn:E; [|reflexivity].
  destruct (listed_info _ _ _ _ _ H1 E) as (y & _ & EY). discriminate.
Qed.

(** Operations that are left, or packed. *)
Lemma occurs_T b : D b -> find_merge (label_of b) = None -> forall n, occurs n b -> (find_merge (label_of n) = None /\ occurs (packT n) (packT b)) \/
  exists x num m i, In x L /\ label_of n = entry_merge x /\ D (Node (entry_label x) (ExtractOutputs num) m i) /\
    occurs (packT (Node (entry_label x) (ExtractOutputs num) m i)) (packT b).
Proof.
  induction b as [l d ins i IH] using node_rect'. intros HD NM n KN.
  inversion KN as [|? ? ? ? y IY KY]; subst; [left; split; [exact NM|constructor]|].
  destruct (index_in l L) as [k|] eqn:E.
  - destruct (listed_packG (fun _ => merged K) _ _ _ _ _ HD E) as (x & num & N & EL & -> & EP).
    destruct (L_merge x (nth_in _ _ N)) as (c & v & mi & num' & i' & H1 & H2 & EX & CP & NR). rewrite EL in H2.
    destruct (D_unique _ _ _ _ _ _ _ HD H2) as [_ ->]. destruct IY as [<-|[]].
    inversion KY as [|? ? ? ? z IZ KZ]; subst.
    + right. exists x, num, [Node (entry_merge x) (CombineMerge c) [v] mi], i. split; [now apply nth_in with k|]. split; [reflexivity|]. split; [exact HD|constructor].
    + destruct IZ as [<-|[]]. left. split.
      { apply (merge_free v); auto; [eapply closedD; [exact H1|now left]|]. eapply used_inputs; [exact H1|now left|]. apply merge_unlisted. now apply nth_in with k. }
      assert (packT n = n) as ->. { apply packG_no_result. intros l1 n1 i1 j1 K1. apply (NR l1 n1 i1 j1). now apply occurs_trans with n. }
      unfold packT. rewrite EP. eapply occurs_input; [now left|]. eapply occurs_input; [now left|]. eapply occurs_input; [now left|].
      apply occurs_input with (add_key x).
      * rewrite firstn_all2 by (rewrite map_length; lia). apply in_map. now apply nth_in with k.
      * eapply occurs_input; [now left|]. rewrite EX. exact KZ.
  - assert (packT (Node l d ins i) = Node l d (map packT ins) i) as EP by now apply packG_unlisted.
    rewrite EP. assert (D y) as HY by now apply closedD with l d ins i.
    destruct (IH y IY HY (used_inputs _ _ _ _ _ HD IY E) n KY) as [[NN A]|(x & num & m & j & A & B & C & Q)].
    + left. split; [exact NN|]. eapply occurs_input; [apply in_map; exact IY|exact A].
    + right. exists x, num, m, j. repeat split; auto. eapply occurs_input; [apply in_map; exact IY|exact Q].
Qed.

Lemma accumulators_for_app k (a b : collection) : accumulators_for k (a ++ b) = accumulators_for k a ++ accumulators_for k b.
Proof. apply flat_map_app. Qed.
Lemma accumulators_for_key k k' (vs : collection) : accumulators_for k (map (fun v => Tuple [Str k'; v]) vs) = if String.eqb k' k then vs else [].
Proof.
  induction vs as [|v vs IH]; cbn [map accumulators_for flat_map]; [now destruct (String.eqb k' k)|]. unfold accumulators_for in IH. rewrite IH.
  destruct (String.eqb k' k); reflexivity.
Qed.
Lemma accumulators_all (f : entry -> collection) x xs : (forall y z, In y xs -> In z xs -> entry_merge y = entry_merge z -> y = z) -> NoDup xs -> In x xs ->
  accumulators_for (entry_merge x) (concat (map (fun y => map (fun v => Tuple [Str (entry_merge y); v]) (f y)) xs)) = f x.
Proof.
  intros INJ ND I.
  assert (forall ys, (forall y, In y ys -> In y xs) -> ~ In x ys -> accumulators_for (entry_merge x) (concat (map (fun y => map (fun v => Tuple [Str (entry_merge y); v]) (f y)) ys)) = []) as NONE.
  { induction ys as [|y ys IH]; intros SUB NI; [reflexivity|]. cbn [map concat]. rewrite accumulators_for_app, accumulators_for_key, IH; [|intros; apply SUB; now right|intros J; apply NI; now right].
    destruct (String.eqb_spec (entry_merge y) (entry_merge x)) as [E|_]; [|reflexivity]. elim NI. left. apply INJ; auto. apply SUB. now left. }
  apply in_split in I. destruct I as (a & b & ->). apply NoDup_remove_2 in ND.
  rewrite map_app, concat_app. cbn [map concat]. rewrite !accumulators_for_app, accumulators_for_key, String.eqb_refl.
  rewrite (NONE a), (NONE b), app_nil_r; [reflexivity|intros y J; apply in_or_app; right; now right|intros J; apply ND; apply in_or_app; now right|intros y J; apply in_or_app; now left|intros J; apply ND; apply in_or_app; now left].
Qed.

Lemma add_key_inv l key ins outs : computes size other l (AddKey key) ins outs -> exists i, ins = [i] /\ outs = [map (fun v => Tuple [Str key; v]) i].
Proof. intros C. inversion C; subst. eauto. Qed.
Lemma flatten_inv l ins outs : computes size other l Flatten ins outs -> outs = [concat ins].
Proof. intros C. inversion C; subst. reflexivity. Qed.
Lemma packed_merge_inv l ops ins outs : computes size other l (PackedMerge ops) ins outs ->
  exists i s r, ins = [i] /\ outs = [[r]] /\ Permutation (elements s) i /\ run_packed true size ops s = Some r.
Proof. intros C. inversion C; subst. eauto 10. Qed.
Lemma key_inv l key ins outs : computes size other l (ExtractKey key) ins outs ->
  exists i o, ins = [i] /\ outs = [o] /\ Forall2 (fun e r => exists items, e = Dict items /\ dict_get items key = Some r) i o.
Proof. intros C. inversion C; subst. eauto 10. Qed.

Theorem merge_evaluates vs : (forall v, In v vs -> D v /\ find_merge (label_of v) = None) -> evaluates size other run' (map packT vs) ->
  evaluates size other runM vs /\ (forall v, In v vs -> content runM v = content run' (packT v)).
Proof.
  intros VD EV. split; [|intros v I; destruct (VD v I); now apply content_kept].
  intros v l d ins i I KN. destruct (VD v I) as [HV NV].
  assert (D (Node l d ins i)) as HD by now apply occursD with v.
  destruct (occurs_T v HV NV _ KN) as [[FM A]|(x & num & m & j & IX & EL & HO & A)].
  - cbn [label_of] in FM. destruct (index_in l L) as [k|] eqn:E.
    + destruct (listed_packG (fun _ => merged K) _ _ _ _ _ HD E) as (x & num & N & EL & -> & EP).
      destruct (L_merge x (nth_in _ _ N)) as (c & w & mi & num' & i' & H1 & H2 & EX & CP & NR). rewrite EL in H2.
      destruct (D_unique _ _ _ _ _ _ _ HD H2) as [_ ->]. unfold packT in A. rewrite EP in A.
      pose proof (EV _ _ _ _ _ (in_map _ _ _ I) A) as C. cbn [map content extract_node] in C. inversion C as [| | | | |n r cols OC| | | | | | | | |]; subst n.
      cbn [map content]. assert (runM (entry_merge x) = run' ("ExtractFromDict[" ++ entry_merge x ++ "]")) as EM.
      { unfold runM. rewrite find_merge_in by (now apply nth_in with k). reflexivity. }
      assert (mi = 0) as -> by (destruct (D_kinds _ _ _ _ H1) as (B & _); cbn in B; lia).
      rewrite EM. assert (runM l = run' (result_label (entry_merge x))) as ->; [|now constructor].
      unfold runM. rewrite FM, <- EL, find_label_in by (now apply nth_in with k). reflexivity.
    + unfold packT in A. rewrite packG_unlisted in A by exact E. pose proof (EV _ _ _ _ _ (in_map _ _ _ I) A) as C.
      assert (map (content runM) ins = map (content run') (map packT ins)) as ->.
      { rewrite map_map. apply map_ext_in. intros y IY. apply content_kept; [now apply closedD with l d ins i|]. eapply used_inputs; eauto. }
      assert (runM l = run' l) as ->; [|exact C]. unfold runM. rewrite FM. apply find_label_index in E. now rewrite E.
  - cbn [label_of] in EL. subst l.
    destruct (L_merge x IX) as (c & w & mi & num' & i' & H1 & H2 & EX & CP & NR).
    destruct (D_unique _ _ _ _ _ _ _ HD H1) as [-> ->].
    assert (exists k, index_in (entry_label x) L = Some k) as (k & EK).
    { destruct (index_in (entry_label x) L) eqn:EK; [eauto|]. apply index_in_none in EK. elim EK. now apply in_map. }
    destruct (listed_packG (fun _ => merged K) _ _ _ _ _ HO EK) as (y & num'' & N & EL & _ & EP).
    assert (y = x) as ->. { pose proof (find_label_in y (nth_in _ _ N)) as F1. rewrite EL, find_label_in in F1 by exact IX. congruence. }
    unfold packT in A at 1. rewrite EP in A.
    assert (forall u, occurs u (merged K) -> occurs u (packT v)) as UP.
    { intros u KU. apply occurs_trans with (merged K); [exact KU|]. eapply occurs_below; [|eapply occurs_below; [|exact A]; now left]. now left. }
    assert (occurs (extract_node (entry_merge x) (merged K)) (packT v)) as KE by (eapply occurs_below; [|exact A]; now left).
    pose proof (EV _ _ _ _ _ (in_map _ _ _ I) KE) as C1.
    pose proof (EV _ _ _ _ _ (in_map _ _ _ I) (UP _ (occurs_here _))) as C2.
    assert (occurs (flatten_node K) (merged K)) as KF by (eapply occurs_input; [now left|constructor]).
    pose proof (EV _ _ _ _ _ (in_map _ _ _ I) (UP _ KF)) as C3.
    assert (firstn K (map add_key L) = map add_key L) as EF by (apply firstn_all2; rewrite map_length; lia).
    assert (forall z, In z L -> content run' (add_key z) = map (fun v => Tuple [Str (entry_merge z); v]) (content run' (snd z))) as KEYS.
    { intros z IZ. assert (occurs (add_key z) (merged K)) as KA.
      { eapply occurs_input; [now left|]. apply occurs_input with (add_key z); [|constructor]. rewrite EF. now apply in_map. }
      pose proof (EV _ _ _ _ _ (in_map _ _ _ I) (UP _ KA)) as C4. apply add_key_inv in C4. destruct C4 as (inp & [= <-] & E4). cbn [content add_key]. rewrite E4. reflexivity. }
    apply flatten_inv in C3. rewrite EF, map_map, (map_ext_in _ _ _ KEYS) in C3.
    apply packed_merge_inv in C2. destruct C2 as (inp & s & r & EI & ER & PS & RP). assert (inp = content run' (flatten_node K)) as -> by (injection EI as <-; reflexivity).
    assert (content run' (flatten_node K) = concat (map (fun z => map (fun v => Tuple [Str (entry_merge z); v]) (content run' (snd z))) L)) as EC by (unfold flatten_node, content at 1; rewrite C3; reflexivity).
    rewrite EC in PS.
    apply key_inv in C1. destruct C1 as (inp & outp & EI' & EO & FR). assert (inp = content run' (merged K)) as -> by (injection EI' as <-; reflexivity).
    assert (content run' (merged K) = [r]) as EC' by (unfold merged, content; rewrite ER; reflexivity). rewrite EC' in FR.
    inversion FR as [|? res ? rs' HR FR']; subst. inversion FR'; subst. destruct HR as (items & -> & GET).
    pose proof (merging_some _ _ _ _ RP) as KD.
    assert (map op_label (map (fun x => snd (fst x)) L) = map entry_merge L) as E1 by (rewrite map_map; reflexivity).
    assert (map (fun o => hd ""%string (op_keys o)) (map (fun x => snd (fst x)) L) = map entry_merge L) as E2.
    { rewrite map_map. apply map_ext_in. intros z IZ. destruct (L_merge z IZ) as (? & ? & ? & ? & ? & _ & _ & EZ & _). rewrite EZ at 1. reflexivity. }
    assert (NoDup L) as NDL by (eapply NoDup_map_inv; exact L_nodup).
    assert (NoDup (map entry_merge L)) as NDM.
    { pose proof L_merge_inj as INJ. clear - NDL INJ. assert (forall xs, (forall z, In z xs -> In z L) -> NoDup xs -> NoDup (map entry_merge xs)) as G; [|now apply G].
      induction xs as [|z xs IH]; intros SUB ND; [constructor|]. inversion ND as [|? ? NI ND']; subst. cbn [map]. constructor; [|apply IH; auto; intros; apply SUB; now right].
      intros J. apply in_map_iff in J. destruct J as (z' & EZ & J). apply NI. rewrite <- (INJ z' z); auto; apply SUB; [now right|now left]. }
    destruct (packed_merging _ size s SIZE ltac:(rewrite E1; exact NDM) ltac:(rewrite E2; exact NDM) KD) as (items' & RP' & _ & ALL).
    rewrite RP in RP'. injection RP' as <-.
    destruct (ALL (snd (fst x)) ltac:(apply in_map with (f := fun x => snd (fst x)); exact IX)) as (s' & ES & GET').
    fold (entry_merge x) in GET'. rewrite GET in GET'. injection GET' as ->.
    assert (hd ""%string (op_keys (snd (fst x))) = entry_merge x) as EH by (rewrite EX at 1; reflexivity). rewrite EH in ES.
    cbn [map]. assert (runM (entry_merge x) = [[run_wrapper true c s']]) as ->.
    { unfold runM. rewrite find_merge_in by exact IX. rewrite EO. assert (op_combiner (snd (fst x)) = c) as -> by (rewrite EX; reflexivity). reflexivity. }
    constructor. rewrite ES.
    assert (content runM w = content run' (snd x)) as ->.
    { rewrite EX. cbn [snd]. assert (D w) as HW by (eapply closedD; [exact H1|now left]). rewrite content_kept; [|exact HW|].
      - unfold packT. now rewrite packG_no_result.
      - eapply used_inputs; [exact H1|now left|]. now apply merge_unlisted. }
    rewrite <- (accumulators_all (fun z => content run' (snd z)) x L L_merge_inj NDL IX).
    now apply accumulators_permutation.
Qed.

Theorem merge_values rl rx bindings R : root = Node rl (SavedModel rx) bindings 0 -> Permutation R (map packT bindings) ->
  evaluates size other run' (R ++ caches) ->
  evaluates size other runM (bindings ++ caches) /\
  Permutation (map (bound run') R) (map (bound runM) bindings) /\ map (content run') caches = map (content runM) caches.
Proof.
  intros ER PR EV.
  assert (forall b, In b bindings -> D b /\ exists y, def_of b = TensorBinding y) as BD.
  { intros b I. destruct (root_binding b) as (HD & _ & TB & _); [now rewrite ER|]. auto. }
  assert (forall c, In c caches -> D c) as CD by (intros c I; exists c; split; [now right|constructor]).
  assert (forall c, In c caches -> packT c = c) as CT. { intros c I. destruct SP as (_ & HC & _). apply packG_no_result. now apply HC. }
  destruct (merge_evaluates (bindings ++ caches)) as [E1 E2].
  - intros v I. apply in_app_or in I. destruct I as [I|I].
    + destruct (BD v I) as (HD & y & EY). split; [exact HD|]. destruct (find_merge (label_of v)) as [x|] eqn:FM; [|reflexivity]. exfalso.
      destruct v as [l d ins i]. cbn in EY. subst d. destruct (find_merge_kind _ _ _ _ _ HD FM) as (_ & _ & c & E). discriminate.
    + split; [now apply CD|]. destruct (find_merge (label_of v)) as [x|] eqn:FM; [|reflexivity]. exfalso. pose proof (CD v I) as HD.
      destruct v as [l d ins i]. destruct (find_merge_kind _ _ _ _ _ HD FM) as (_ & _ & c & E). subst d.
      destruct SP as (_ & _ & _ & _ & _ & NC). now elim (NC _ c I).
  - intros v l d ins i I KN. apply (EV v l d ins i); [|exact KN]. apply in_or_app. rewrite map_app in I. apply in_app_or in I. destruct I as [I|I]; [left|right].
    + now apply (Permutation_in _ (Permutation_sym PR)).
    + apply in_map_iff in I. destruct I as (c & <- & I). now rewrite CT.
  - split; [exact E1|]. split.
    + rewrite PR, map_map. apply Permutation_refl'. apply map_ext_in. intros b I. destruct (BD b I) as (HD & y & EY). unfold bound. rewrite E2 by (apply in_or_app; now left).
      destruct b as [l d ins i]. cbn in EY. subst d. unfold packT. rewrite packG_other by discriminate. reflexivity.
    + apply map_ext_in. intros c I. rewrite E2 by (apply in_or_app; now right). now rewrite CT.
Qed.
End Merge.
