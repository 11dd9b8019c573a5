(** * Proofs about the traverser of PackGraphModel *)
From Coq Require Import String.
From Coq Require Import List Arith Bool Lia.
From Verif Require Import CombineModel PackModel PackSpec PackGraphModel PackGraphSpec.
From Coq Require DecimalString DecimalNat.
From Verif Require Import OptimizeHistory.
Import ListNotations.
Local Notation length := List.length.

Lemma decimal_inj a b : decimal a = decimal b -> a = b.
Proof.
  unfold decimal. intros E. apply (f_equal DecimalString.NilZero.uint_of_string) in E.
  assert (forall n, Nat.to_uint n <> Decimal.Nil) as NN.
  { intros n H. apply (f_equal Nat.of_uint) in H as H'. rewrite DecimalNat.Unsigned.of_to in H'. subst n. discriminate H. }
  rewrite !DecimalString.NilZero.usu in E by apply NN. injection E as E. now apply DecimalNat.Unsigned.to_uint_inj.
Qed.
Lemma length_append (a b : string) : String.length (a ++ b) = String.length a + String.length b.
Proof. induction a as [|x a IH]; cbn; [reflexivity|]. now rewrite IH. Qed.
Lemma append_tail_cancel (a b c : string) : (a ++ c)%string = (b ++ c)%string -> a = b.
Proof.
  intros E. assert (String.length a = String.length b) as L.
  { apply (f_equal String.length) in E. rewrite !length_append in E. lia. }
  revert b E L. induction a as [|x a IH]; intros [|y b] E L; cbn in *; try discriminate; [reflexivity|]. injection E as -> E. f_equal. now apply IH; [|lia].
Qed.
Lemma bracket_inj p a b : (p ++ a ++ "]")%string = (p ++ b ++ "]")%string -> a = b.
Proof. intros E. apply append_cancel in E. now apply append_tail_cancel in E. Qed.

Section NodeInd.
Context {Obj X : Type}.
Notation node := (@node Obj X).
Variable Q : node -> Prop.
Hypothesis H : forall l d ins i, (forall n, In n ins -> Q n) -> Q (Node l d ins i).
Fixpoint node_rect' (n : node) : Q n :=
  match n with
  | Node l d ins i =>
      H l d ins i
        (proj1 (Forall_forall Q ins)
          ((fix all (ns : list node) : Forall Q ns :=
              match ns with
              | [] => Forall_nil Q
              | m :: ns => Forall_cons m (node_rect' m) (all ns)
              end) ins))
  end.
End NodeInd.

Section Strong.
Context {Obj X : Type}.
Notation node := (@node Obj X).

Lemma occurs_trans (a b c : node) : occurs a b -> occurs b c -> occurs a c.
Proof. intros H K. induction K as [|l d ins i m I K IH]; [exact H|]. now apply occurs_input with m. Qed.

Lemma occurs_below (l : string) d ins i (x : node) n : In x ins -> occurs (Node l d ins i) n -> occurs x n.
Proof. intros I. apply occurs_trans. apply occurs_input with x; [exact I|constructor]. Qed.

Lemma node_strong (Q : node -> Prop) :
  (forall n, (forall m x, In x (inputs_of n) -> occurs m x -> Q m) -> Q n) -> forall n, Q n.
Proof.
  intros H n. assert (forall m, occurs m n -> Q m) as A; [|apply A; constructor].
  induction n as [l d ins i IH] using node_rect'.
  assert (forall m x, In x ins -> occurs m x -> Q m) as B.
  { intros m x I K. now apply (IH x I). }
  intros m K. inversion K as [|? ? ? ? x I K']; subst; [apply H; exact B|now apply (B m x)].
Qed.

Fixpoint weight (n : node) : nat :=
  match n with Node _ _ ins _ => S (list_sum (map weight ins)) end.

Lemma weight_in (x : node) ins : In x ins -> weight x <= list_sum (map weight ins).
Proof. induction ins as [|y ins IH]; cbn; [tauto|]. intros [->|I]; [lia|]. specialize (IH I). unfold list_sum in *. cbn. lia. Qed.
Lemma weight_occurs (a b : node) : occurs a b -> weight a <= weight b.
Proof. induction 1 as [|l d ins i m I K IH]; [lia|]. pose proof (weight_in m ins I). cbn [weight]. lia. Qed.
End Strong.

Section Order.
Context {Obj X : Type}.
Notation node := (@node Obj X).

(** The order of the first visits. *)
Definition has_label (l : string) (visited : list node) : bool := existsb (fun m => String.eqb (label_of m) l) visited.
Fixpoint order (n : node) (visited : list node) : list node :=
  match n with
  | Node l d ins i =>
      if has_label l visited then visited
      else (fix order_list (ns : list node) (visited : list node) :=
              match ns with
              | [] => visited
              | n :: ns => order_list ns (order n visited)
              end) ins visited ++ [Node l d ins i]
  end.
Fixpoint order_all (ns : list node) (visited : list node) : list node :=
  match ns with [] => visited | n :: ns => order_all ns (order n visited) end.

Lemma order_eq l d ins i visited : order (Node l d ins i) visited =
  if has_label l visited then visited else order_all ins visited ++ [Node l d ins i].
Proof.
  cbn [order]. destruct (has_label l visited); reflexivity.
Qed.

Lemma has_label_iff l visited : has_label l visited = true <-> In l (map label_of visited).
Proof.
  unfold has_label. rewrite existsb_exists, in_map_iff. split; intros (m & A & B).
  - exists m. split; [now apply String.eqb_eq|exact A].
  - exists m. split; [exact B|now apply String.eqb_eq].
Qed.

Lemma order_extends n : forall visited, exists t, order n visited = visited ++ t.
Proof.
  induction n as [l d ins i IH] using node_rect'. intros visited. rewrite order_eq.
  destruct (has_label l visited); [exists []; now rewrite app_nil_r|].
  assert (forall ns visited, (forall n, In n ns -> In n ins) -> exists t, order_all ns visited = visited ++ t) as A.
  { induction ns as [|n ns IHns]; intros v S; [exists []; cbn; now rewrite app_nil_r|]. cbn [order_all].
    destruct (IH n (S n (or_introl eq_refl)) v) as (t & ->). destruct (IHns (v ++ t)) as (t' & ->); [intros; apply S; now right|].
    exists (t ++ t'). now rewrite app_assoc. }
  destruct (A ins visited (fun _ h => h)) as (t & ->). exists (t ++ [Node l d ins i]). now rewrite app_assoc.
Qed.
Lemma order_all_extends ns : forall visited, exists t, order_all ns visited = visited ++ t.
Proof.
  induction ns as [|n ns IH]; intros v; [exists []; cbn; now rewrite app_nil_r|]. cbn [order_all].
  destruct (order_extends n v) as (t & ->). destruct (IH (v ++ t)) as (t' & ->). exists (t ++ t'). now rewrite app_assoc.
Qed.

(** Only values upstream are added. *)
Lemma order_adds n : forall visited m, In m (order n visited) -> In m visited \/ occurs m n.
Proof.
  induction n as [l d ins i IH] using node_rect'. intros visited m. rewrite order_eq.
  destruct (has_label l visited); [tauto|]. intros I. apply in_app_or in I. destruct I as [I|[<-|[]]]; [|right; constructor].
  assert (forall ns visited, (forall n, In n ns -> In n ins) -> In m (order_all ns visited) -> In m visited \/ exists n, In n ns /\ occurs m n) as A.
  { clear I. induction ns as [|n ns IHns]; intros v S I; [now left|]. cbn [order_all] in I.
    destruct (IHns _ (fun x h => S x (or_intror h)) I) as [J|(x & J & K)]; [|right; exists x; split; [now right|exact K]].
    destruct (IH n (S n (or_introl eq_refl)) v m J) as [K|K]; [now left|right; exists n; split; [now left|exact K]]. }
  destruct (A ins visited (fun _ h => h) I) as [J|(n & J & K)]; [now left|right; now apply occurs_input with n].
Qed.
Lemma order_all_adds ns : forall visited m, In m (order_all ns visited) -> In m visited \/ exists n, In n ns /\ occurs m n.
Proof.
  induction ns as [|n ns IH]; intros v m I; [now left|]. cbn [order_all] in I.
  destruct (IH _ _ I) as [J|(x & J & K)]; [|right; exists x; split; [now right|exact K]].
  destruct (order_adds n v m J) as [K|K]; [now left|right; exists n; split; [now left|exact K]].
Qed.

Section Unique.
Variable D : node -> Prop.
Hypothesis closed : forall l d ins i x, D (Node l d ins i) -> In x ins -> D x.
Hypothesis unique : forall l d ins i d' ins' i', D (Node l d ins i) -> D (Node l d' ins' i') -> d = d' /\ ins = ins'.

Lemma closed_occurs a b : occurs a b -> D b -> D a.
Proof. induction 1 as [|l d ins i m I K IH]; intros HD; [exact HD|]. apply IH. now apply closed with l d ins i. Qed.

(** No operation is upstream of itself. *)
Lemma acyclic l d ins i x m : D (Node l d ins i) -> In x ins -> occurs m x -> label_of m <> l.
Proof.
  intros HD I K E. destruct m as [l' d' ins' i']. cbn in E. subst l'.
  assert (D (Node l d' ins' i')) as HD'. { apply (closed_occurs _ x); [exact K|]. now apply closed with l d ins i. }
  destruct (unique _ _ _ _ _ _ _ HD HD') as [<- <-]. apply weight_occurs in K. pose proof (weight_in x ins I). cbn [weight] in K. lia.
Qed.

Lemma inputs_new l d ins i visited : D (Node l d ins i) -> has_label l visited = false ->
  ~ In l (map label_of (order_all ins visited)).
Proof.
  intros HD NV I. apply in_map_iff in I. destruct I as (m & E & I). destruct (order_all_adds _ _ _ I) as [J|(x & J & K)].
  - assert (In l (map label_of visited)) as C by (apply in_map_iff; now exists m). apply has_label_iff in C. congruence.
  - now apply (acyclic l d ins i x m HD J K).
Qed.

Lemma order_nodup n : D n -> forall visited, NoDup (map label_of visited) -> NoDup (map label_of (order n visited)).
Proof.
  induction n as [l d ins i IH] using node_rect'. intros HD visited N. rewrite order_eq.
  destruct (has_label l visited) eqn:E; [exact N|]. rewrite map_app. cbn [map label_of].
  assert (forall ns visited, (forall n, In n ns -> In n ins) -> NoDup (map label_of visited) -> NoDup (map label_of (order_all ns visited))) as A.
  { induction ns as [|n ns IHns]; intros v S Nv; [exact Nv|]. cbn [order_all]. apply IHns; [intros; apply S; now right|].
    apply IH; [apply S; now left| |exact Nv]. apply closed with l d ins i; [exact HD|apply S; now left]. }
  assert (forall (a : list string) b, NoDup a -> ~ In b a -> NoDup (a ++ [b])) as SN.
  { intros a b Na Nb. apply Permutation.Permutation_NoDup with (b :: a); [apply Permutation.Permutation_cons_append|now constructor]. }
  apply SN; [apply A; auto|]. now apply inputs_new with d i.
Qed.
Lemma order_all_nodup ns : (forall n, In n ns -> D n) -> forall visited, NoDup (map label_of visited) -> NoDup (map label_of (order_all ns visited)).
Proof.
  induction ns as [|n ns IH]; intros HD v N; [exact N|]. cbn [order_all]. apply IH; [intros; apply HD; now right|].
  apply order_nodup; [apply HD; now left|exact N].
Qed.

(** Everything upstream is visited. *)
Definition complete (visited : list node) : Prop :=
  forall m x, In m visited -> occurs x m -> In (label_of x) (map label_of visited).

Lemma order_complete n : D n -> forall visited, (forall v, In v visited -> D v) -> complete visited ->
  complete (order n visited) /\ (forall x, occurs x n -> In (label_of x) (map label_of (order n visited))).
Proof.
  induction n as [l d ins i IH] using node_rect'. intros HD visited VD C. rewrite order_eq.
  destruct (has_label l visited) eqn:E.
  - split; [exact C|]. intros x K. apply has_label_iff in E. apply in_map_iff in E. destruct E as ([l' d' ins' i'] & EL & I).
    cbn in EL. subst l'. destruct (unique _ _ _ _ _ _ _ HD (VD _ I)) as [<- <-].
    inversion K as [|? ? ? ? y IY K']; subst; [cbn; apply in_map_iff; exists (Node l d ins i'); auto|].
    apply (C (Node l d ins i') x I). now apply occurs_input with y.
  - assert (forall ns visited, (forall n, In n ns -> In n ins) -> (forall v, In v visited -> D v) -> complete visited ->
      complete (order_all ns visited) /\ (forall n x, In n ns -> occurs x n -> In (label_of x) (map label_of (order_all ns visited)))) as A.
    { clear VD C E. clear visited. induction ns as [|n ns IHns]; intros v S VD C; [split; [exact C|intros ? ? []]|]. cbn [order_all].
      assert (In n ins) as IN by (apply S; now left). assert (D n) as DN by now apply closed with l d ins i.
      destruct (IH n IN DN v VD C) as [C1 H1].
      destruct (IHns (order n v)) as [C2 H2].
      - intros; apply S; now right.
      - intros m I. destruct (order_adds _ _ _ I) as [J|J]; [now apply VD|now apply closed_occurs with n].
      - exact C1.
      - split; [exact C2|]. intros m x [<-|I] K; [|now apply (H2 m)].
        destruct (order_all_extends ns (order n v)) as (t & ->). rewrite map_app. apply in_or_app. left. now apply H1. }
    destruct (A ins visited (fun _ h => h) VD C) as [C1 H1].
    assert (forall x, occurs x (Node l d ins i) -> In (label_of x) (map label_of (order_all ins visited ++ [Node l d ins i]))) as G.
    { intros x K. rewrite map_app. apply in_or_app. inversion K as [|? ? ? ? y IY K']; subst; [right; now left|left; now apply (H1 y)]. }
    split; [|exact G]. intros m x I K. apply in_app_or in I. destruct I as [I|[<-|[]]]; [|now apply G].
    rewrite map_app. apply in_or_app. left. now apply (C1 m).
Qed.

(** ** A traversal computes a function of values *)
Section Run.
Context {S : Type}.
Variable visit : S -> string -> @kind Obj X -> list node -> option (S * (string * @kind Obj X * list node)).
Variable F : node -> node.
(** All visits of the traversal in order. *)
Variable O : list node.
Variable Inv : list node -> S -> Prop.
Hypothesis step : forall visited s l d ins i, D (Node l d ins i) ->
  (exists rest, O = visited ++ Node l d ins i :: rest) ->
  (forall v, In v visited -> D v) ->
  (forall x, In x ins -> In (label_of x) (map label_of visited)) ->
  ~ In l (map label_of visited) -> Inv visited s ->
  exists s' o, visit s l d (map F ins) = Some (s', o) /\
    (forall j, D (Node l d ins j) -> output o j = F (Node l d ins j)) /\
    Inv (visited ++ [Node l d ins i]) s'.

Definition memo_ok (visited : list node) (memo : list (string * (string * @kind Obj X * list node))) : Prop :=
  map fst memo = rev (map label_of visited) /\
  (forall v, In v visited -> D v) /\ complete visited /\
  forall l o, In (l, o) memo -> forall d ins j, D (Node l d ins j) -> output o j = F (Node l d ins j).

Lemma lookup_some {A} l (memo : list (string * A)) o : lookup l memo = Some o -> In (l, o) memo.
Proof.
  unfold lookup. destruct (find _ memo) as [[k a]|] eqn:E; [|discriminate]. cbn. intros [= <-]. apply find_some in E.
  destruct E as [I E]. apply String.eqb_eq in E. cbn in E. now subst.
Qed.
Lemma lookup_none {A} l (memo : list (string * A)) : lookup l memo = None <-> ~ In l (map fst memo).
Proof.
  unfold lookup. destruct (find _ memo) as [[k a]|] eqn:E; cbn; split; try discriminate.
  - apply find_some in E. destruct E as [I E]. apply String.eqb_eq in E. cbn in E. subst. intros N. elim N. apply in_map_iff. now exists (l, a).
  - intros _ I. apply in_map_iff in I. destruct I as ([k a] & EK & I). cbn in EK. subst. apply find_none with (x := (l, a)) in E; [|exact I].
    cbn in E. now rewrite String.eqb_refl in E.
  - auto.
Qed.

Lemma traverse_eq n memo s : traverse visit n memo s =
  match n with
  | Node l d ins i =>
      match lookup l memo with
      | Some o => Some (output o i, memo, s)
      | None =>
          match traverse_all visit ins memo s with
          | None => None
          | Some (ins', memo, s) =>
              match visit s l d ins' with
              | None => None
              | Some (s, o) => Some (output o i, (l, o) :: memo, s)
              end
          end
      end
  end.
Proof.
  destruct n as [l d ins i]. cbn [traverse]. destruct (lookup l memo); [reflexivity|].
  match goal with |- match ?f ins memo s with _ => _ end = _ => assert (forall ns m s, f ns m s = traverse_all visit ns m s) as -> end; [|reflexivity].
  induction ns as [|n ns IH]; intros m s'; [reflexivity|]. cbn [traverse_all]. destruct (traverse visit n m s') as [[[n' m'] s'']|]; [|reflexivity].
  now rewrite IH.
Qed.

Definition runs (n : node) : Prop := forall visited memo s,
  (exists rest, O = order n visited ++ rest) -> memo_ok visited memo -> Inv visited s ->
  exists memo' s', traverse visit n memo s = Some (F n, memo', s') /\ memo_ok (order n visited) memo' /\ Inv (order n visited) s'.

Lemma traverse_all_runs ns : (forall n, In n ns -> runs n) -> forall visited memo s,
  (exists rest, O = order_all ns visited ++ rest) -> memo_ok visited memo -> Inv visited s ->
  exists memo' s', traverse_all visit ns memo s = Some (map F ns, memo', s') /\ memo_ok (order_all ns visited) memo' /\ Inv (order_all ns visited) s'.
Proof.
  induction ns as [|n ns IH]; intros R visited memo s PR M I; [exists memo, s; auto|]. cbn [order_all traverse_all] in *.
  destruct (R n (or_introl eq_refl) visited memo s) as (memo1 & s1 & E1 & M1 & I1); auto.
  { destruct PR as (rest & ->). destruct (order_all_extends ns (order n visited)) as (t & ->). exists (t ++ rest). now rewrite app_assoc. }
  rewrite E1. destruct (IH (fun x h => R x (or_intror h)) _ memo1 s1 PR M1 I1) as (memo2 & s2 & E2 & M2 & I2). rewrite E2.
  exists memo2, s2. auto.
Qed.

Lemma traverse_runs n : D n -> runs n.
Proof.
  induction n as [l d ins i IH] using node_rect'. intros HD visited memo s PR M I. rewrite traverse_eq.
  rewrite order_eq in *. destruct M as (MK & VD & C & MO).
  destruct (has_label l visited) eqn:E.
  - destruct (lookup l memo) as [o|] eqn:L.
    + exists memo, s. split; [|split; [repeat split; assumption|exact I]]. now rewrite (MO l o (lookup_some _ _ _ L) d ins i HD).
    + apply lookup_none in L. exfalso. apply L. rewrite MK, <- in_rev. now apply has_label_iff.
  - assert (lookup l memo = None) as ->.
    { apply lookup_none. rewrite MK, <- in_rev. intros J. apply has_label_iff in J. congruence. }
    assert (forall x, In x ins -> D x) as ID by (intros x J; now apply closed with l d ins i).
    destruct (traverse_all_runs ins (fun x J => IH x J (ID x J)) visited memo s) as (memo1 & s1 & E1 & (MK1 & VD1 & C1 & MO1) & I1).
    { destruct PR as (rest & ->). exists ([Node l d ins i] ++ rest). now rewrite app_assoc. }
    { repeat split; assumption. }
    { exact I. }
    rewrite E1.
    assert (forall x y, In x ins -> occurs y x -> In (label_of y) (map label_of (order_all ins visited))) as CI.
    { clear E1 MK1 VD1 C1 MO1 I1 PR MO MK I. clear - ID VD C unique closed. 
      revert visited VD C. induction ins as [|n ns IHns]; intros v VD C x y J K; [destruct J|]. cbn [order_all].
      destruct (order_complete n (ID n (or_introl eq_refl)) v VD C) as [C1 H1].
      destruct J as [<-|J].
      - destruct (order_all_extends ns (order n v)) as (t & ->). rewrite map_app. apply in_or_app. left. now apply H1.
      - eapply IHns; eauto. { intros; apply ID; now right. }
        intros m L. destruct (order_adds _ _ _ L) as [L'|L']; [now apply VD|apply closed_occurs with n; [exact L'|apply ID; now left]]. }
    destruct (step (order_all ins visited) s1 l d ins i HD) as (s2 & o & EV & EO & I2); auto.
    { destruct PR as (rest & ->). exists rest. now rewrite <- app_assoc. }
    { intros x J. apply (CI x x J). constructor. }
    { now apply inputs_new with d i. }
    rewrite EV. exists ((l, o) :: memo1), s2. split; [now rewrite (EO i HD)|]. split; [|exact I2]. repeat split.
    + rewrite map_app, rev_app_distr. cbn. now rewrite MK1.
    + intros v J. apply in_app_or in J. destruct J as [J|[<-|[]]]; [now apply VD1|exact HD].
    + intros m x J K. rewrite map_app. apply in_or_app. apply in_app_or in J. destruct J as [J|[<-|[]]]; [left; now apply (C1 m)|].
      inversion K as [|? ? ? ? y IY K']; subst; [right; now left|left; now apply (CI y x)].
    + intros l' o' [[= <- <-]|J] d' ins' j HD'; [|now apply MO1].
      destruct (unique _ _ _ _ _ _ _ HD HD') as [<- <-]. now apply EO.
Qed.

Theorem traverse_function n s : D n -> O = order n [] -> Inv [] s ->
  exists memo s', traverse visit n [] s = Some (F n, memo, s') /\ Inv O s'.
Proof.
  intros HD EO I. destruct (traverse_runs n HD [] [] s) as (memo & s' & E & _ & I'); auto.
  - exists []. now rewrite app_nil_r.
  - repeat split; [intros ? []|intros ? ? []|intros ? ? []].
  - exists memo, s'. rewrite EO. auto.
Qed.
Theorem traverse_all_function ns s : (forall n, In n ns -> D n) -> O = order_all ns [] -> Inv [] s ->
  exists memo s', traverse_all visit ns [] s = Some (map F ns, memo, s') /\ Inv O s'.
Proof.
  intros HD EO I. destruct (traverse_all_runs ns (fun n J => traverse_runs n (HD n J)) [] [] s) as (memo & s' & E & _ & I'); auto.
  - exists []. now rewrite app_nil_r.
  - repeat split; [intros ? []|intros ? ? []|intros ? ? []].
  - exists memo, s'. rewrite EO. auto.
Qed.
End Run.
End Unique.
End Order.
