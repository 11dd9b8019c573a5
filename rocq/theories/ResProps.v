(** Reserved tokens of vocabularies (C95). *)
From Coq Require Import String Ascii List Bool Arith Lia.
From Verif Require Import MiscModel ByNameModel ResModel ResSpec.
Import ListNotations.

Lemma name_eqb_spec a b : name_eqb a b = true <-> a = b.
Proof. unfold name_eqb. destruct (list_eq_dec ascii_dec a b); split; congruence. Qed.

Section props.
Variable run : nat -> option (list string).
Notation fetch := (fetch run).
Notation value := (value run).
Notation make_pipeline := (make_pipeline run).

(** The first one of a name *)
Fixpoint find_first (fn : list declared) (n : name) : option tokens :=
  match fn with
  | [] => None
  | d :: fn => match d_reserved d with Some r => if name_eqb (d_filename d) n then Some r else find_first fn n | None => find_first fn n end
  end.
Lemma index_app l n m : index (l ++ [m]) n = match index l n with Some i => Some i | None => if name_eqb m n then Some (length l) else None end.
Proof.
  induction l as [|x l IH]; cbn; [reflexivity|]. destruct (name_eqb x n); [reflexivity|]. rewrite IH.
  destruct (index l n); [reflexivity|]. now destruct (name_eqb m n).
Qed.
Lemma index_less l n i : index l n = Some i -> i < length l.
Proof.
  revert i. induction l as [|x l IH]; cbn; intros i; [discriminate|]. destruct (name_eqb x n); [intros [= <-]; lia|].
  destruct (index l n) as [j|]; [|discriminate]. intros [= <-]. specialize (IH j eq_refl). lia.
Qed.
Definition at_name (g : collections) (n : name) : option tokens :=
  match index (ids g) n with Some i => nth_error (registered g) i | None => None end.
Lemma at_register g n m r : length (ids g) = length (registered g) ->
  at_name (register g m r) n = match index (ids g) n with Some _ => at_name g n | None => if name_eqb m n then Some r else None end.
Proof.
  intros L. unfold at_name, register. cbn [ids registered]. rewrite index_app. destruct (index (ids g) n) as [i|] eqn:E.
  - apply index_less in E. apply nth_error_app1. lia.
  - destruct (name_eqb m n); [|reflexivity]. rewrite nth_error_app2, L, Nat.sub_diag; [reflexivity | lia].
Qed.
Lemma trace_from fn : forall g, length (ids g) = length (registered g) ->
  length (ids (fold_left declare fn g)) = length (registered (fold_left declare fn g)) /\
  forall n, at_name (fold_left declare fn g) n = match index (ids g) n with Some _ => at_name g n | None => find_first fn n end.
Proof.
  induction fn as [|d fn IH]; intros g L; cbn [fold_left find_first].
  - split; [exact L|]. intros n. unfold at_name. now destruct (index (ids g) n).
  - unfold declare at 2 4 6. destruct (d_reserved d) as [r|] eqn:R; [|exact (IH g L)].
    destruct (IH (register g (d_filename d) r)) as [L' A]; [cbn; rewrite !app_length; cbn; lia|].
    split; [exact L'|]. intros n. rewrite A. rewrite (at_register g n _ r L). cbn [register ids]. rewrite index_app.
    destruct (index (ids g) n); [reflexivity|]. now destruct (name_eqb (d_filename d) n).
Qed.
Lemma fetch_first fn n : fetch (trace fn) n = match find_first fn n with Some r => value r | None => None end.
Proof.
  destruct (trace_from fn no_collections eq_refl) as [L A]. specialize (A n). cbn [no_collections ids index] in A. unfold trace.
  unfold ResModel.fetch. rewrite (proj2 (Nat.eqb_eq _ _) L). unfold at_name in A. rewrite <- A. now destruct (index _ n).
Qed.
Lemma find_first_spec fn n r : find_first fn n = Some r -> exists d, first_with fn n d /\ d_reserved d = Some r.
Proof.
  induction fn as [|d fn IH]; cbn; [discriminate|]. intros E.
  assert (find_first fn n = Some r -> (d_reserved d <> None -> d_filename d <> n) -> exists e, first_with (d :: fn) n e /\ d_reserved e = Some r) as K.
  { intros F N. destruct (IH F) as [e [[b [a [-> [P [Q H]]]]] R]]. exists e. split; [|exact R]. exists (d :: b), a. split; [reflexivity|].
    split; [exact P|]. split; [exact Q|]. intros x [<-|X]; [exact N | exact (H x X)]. }
  destruct (d_reserved d) as [q|] eqn:D; [|apply K; [exact E | congruence]].
  destruct (name_eqb (d_filename d) n) eqn:M; [|apply K; [exact E|]; intros _ Z; apply name_eqb_spec in Z; congruence].
  injection E as ->. exists d. split; [|exact D]. exists [], fn. split; [reflexivity|]. split; [congruence|]. split; [now apply name_eqb_spec | intros x []].
Qed.
Lemma find_first_some fn d : In d fn -> d_reserved d <> None -> exists r, find_first fn (d_filename d) = Some r.
Proof.
  induction fn as [|e fn IH]; cbn; [intros []|]. intros [->|I] N.
  - destruct (d_reserved d) as [r|]; [|congruence]. exists r. now rewrite (proj2 (name_eqb_spec _ _) eq_refl).
  - destruct (IH I N) as [r R]. destruct (d_reserved e) as [q|]; [|eauto]. destruct (name_eqb _ _); eauto.
Qed.
Lemma first_in fn n d : first_with fn n d -> In d fn /\ d_reserved d <> None /\ d_filename d = n.
Proof. intros [b [a [-> [P [Q _]]]]]. split; [|tauto]. apply in_or_app. right. now left. Qed.
Lemma value_are r l : value r = Some l <-> are run r l.
Proof.
  split.
  - destruct r as [s|t]; cbn; intros E; [injection E as <-; constructor | now constructor].
  - intros [s|t s E]; [reflexivity | exact E].
Qed.
Lemma inputs_forall2 g ds : forall xs, inputs run g ds = Some xs <-> Forall2 (fun d x => second_input run g d = Some x) ds xs.
Proof.
  induction ds as [|d ds IH]; intros xs; cbn.
  - split; [intros [= <-]; constructor | intros H; now inversion H].
  - split.
    + destruct (second_input run g d) as [x|] eqn:X; [|discriminate]. destruct (inputs run g ds) as [ys|]; [|discriminate]. intros [= <-].
      constructor; [exact X | now apply IH].
    + intros H. inversion H as [|? x ? ys X Y]; subst. rewrite X. apply IH in Y. now rewrite Y.
Qed.
Lemma forall2_in {A B} (P Q : A -> B -> Prop) l m : (forall a b, In a l -> P a b -> Q a b) -> Forall2 P l m -> Forall2 Q l m.
Proof. intros I H. induction H as [|a b l m p H IH]; constructor; [apply I; [now left | exact p] | apply IH; intros; apply I; [now right | assumption]]. Qed.

(** When the pipeline is made, every vocabulary is given the tokens of the first one of its name that has reserved tokens; and none if it asks for none. *)
Theorem c95_first : forall fn xs, make_pipeline fn = Some xs ->
  Forall2 (fun d x => match d_reserved d, x with
                      | None, None => True
                      | Some _, Some l => exists e r, first_with fn (d_filename d) e /\ d_reserved e = Some r /\ are run r l
                      | _, _ => False
                      end) fn xs.
Proof.
  intros fn xs H. apply inputs_forall2 in H. revert H. apply forall2_in. intros d x _ X. unfold second_input in X.
  destruct (d_reserved d) as [r|]; [|now injection X as <-]. rewrite fetch_first in X.
  destruct (find_first fn (d_filename d)) as [q|] eqn:F; [|discriminate]. destruct (value q) as [l|] eqn:V; [|discriminate]. injection X as <-.
  destruct (find_first_spec _ _ _ F) as [e [E R]]. exists e, q. split; [exact E|]. split; [exact R | now apply value_are].
Qed.

(** Every vocabulary is given its own reserved tokens, in their order. *)
Theorem c95_own : forall fn xs, own_names fn -> make_pipeline fn = Some xs -> Forall2 (given run) fn xs.
Proof.
  intros fn xs O H. apply c95_first in H. revert H. apply forall2_in. intros d x I X. unfold given.
  destruct (d_reserved d) as [q|] eqn:D, x as [l|]; try exact X. destruct X as [e [r [E [R A]]]].
  destruct (first_in _ _ _ E) as [J [N F]]. assert (d_reserved d = d_reserved e) as Z by (apply O; congruence). congruence.
Qed.

(** The pipeline is made exactly if all reserved tokens can be computed without data. *)
Theorem c95_made : forall fn, own_names fn ->
  (make_pipeline fn <> None <-> forall d r, In d fn -> d_reserved d = Some r -> exists l, are run r l).
Proof.
  intros fn O. split.
  - intros N d r I R. destruct (make_pipeline fn) as [xs|] eqn:E; [|congruence]. pose proof (c95_own _ _ O E) as H. clear E N O.
    induction H as [|a x l m G H IH]; [destruct I|]. destruct I as [->|I]; [|exact (IH I)]. unfold given in G. rewrite R in G.
    destruct x as [y|]; [eauto | destruct G].
  - intros A. assert (forall d, In d fn -> second_input run (trace fn) d <> None) as S.
    { intros d I. unfold second_input. destruct (d_reserved d) as [r|] eqn:R; [|discriminate]. rewrite fetch_first.
      destruct (find_first_some fn d I) as [q Q]; [congruence|]. rewrite Q. destruct (find_first_spec _ _ _ Q) as [e [E RE]].
      destruct (first_in _ _ _ E) as [J _]. destruct (A e q J RE) as [l L]. apply value_are in L. now rewrite L. }
    unfold ResModel.make_pipeline. revert S. generalize (trace fn). intros g. clear. induction fn as [|d ds IH]; cbn; [discriminate|]. intros S.
    pose proof (S d (or_introl eq_refl)) as D. destruct (second_input run g d) as [x|]; [|congruence].
    destruct (inputs run g ds); [discriminate|]. apply IH. intros e I. apply S. now right.
Qed.

(** The size that is annotated is the number of entries of the file, reserved tokens included. *)
Theorem c95_size : forall fn xs, own_names fn -> make_pipeline fn = Some xs ->
  Forall2 (fun d x => d_approximate d = false -> annotated_size run d = Some (entries d x)) fn xs.
Proof.
  intros fn xs O H. pose proof (c95_own _ _ O H) as G. revert G. apply forall2_in. intros d x _ G A. unfold annotated_size, entries. rewrite A.
  unfold given in G. destruct (d_reserved d) as [r|], x as [l|]; try contradiction; [|reflexivity].
  apply value_are in G. rewrite G. cbn. f_equal. lia.
Qed.

(** What a vocabulary is given does not change when vocabularies are added after all others. *)
Theorem c95_appended : forall fn more xs ys, make_pipeline fn = Some xs -> make_pipeline (fn ++ more) = Some ys -> exists zs, ys = (xs ++ zs)%list.
Proof.
  intros fn more xs ys H K. apply inputs_forall2 in H, K. apply Forall2_app_inv_l in K. destruct K as [us [zs [U [_ ->]]]]. exists zs. f_equal.
  assert (forall d, In d fn -> second_input run (trace (fn ++ more)) d = second_input run (trace fn) d) as S.
  { intros d I. unfold second_input. destruct (d_reserved d) as [r|] eqn:R; [|reflexivity]. rewrite !fetch_first.
    destruct (find_first_some fn d I) as [q Q]; [congruence|]. rewrite Q.
    assert (forall l n, find_first l n = Some q -> find_first (l ++ more) n = Some q) as F.
    { clear. induction l as [|e l IH]; cbn; [discriminate|]. intros n. destruct (d_reserved e); [destruct (name_eqb _ _); [tauto|]|]; apply IH. }
    now rewrite (F _ _ Q). }
  revert S U. generalize (trace (fn ++ more)), (trace fn), H. clear. intros g h H. revert us. induction H as [|d x l m X H IH]; intros us S U; inversion U; subst; [reflexivity|].
  f_equal; [|apply IH; [intros; apply S; now right | assumption]]. assert (Some y = Some x) as [= ->]; [|reflexivity].
  rewrite <- X. rewrite <- (S d (or_introl eq_refl)). now symmetry.
Qed.
End props.

Definition nm (s : string) : name := list_ascii_of_string s.
Definition nothing (t : nat) : option (list string) := if t =? 0 then Some ["pad"%string] else None.
Definition words : declared := Declared (Some (nm "words")) false (nm "vocabulary") true false (Some (Strings ["<s>"; "</s>"]%string)) 3.
Definition tags : declared := Declared (Some (nm "tags")) false (nm "vocabulary_1") false true (Some (Computed 0)) 2.
Definition plain : declared := Declared (Some (nm "words")) false (nm "vocabulary_2") false false None 3.

Lemma three_own : own_names [words; tags; plain].
Proof.
  intros d e I J N M E. cbn in I, J. destruct I as [<-|[<-|[<-|[]]]], J as [<-|[<-|[<-|[]]]]; try reflexivity; try (now destruct N); try (now destruct M); vm_compute in E; discriminate.
Qed.
Example c95_own_applies : exists xs, own_names [words; tags; plain] /\ make_pipeline nothing [words; tags; plain] = Some xs /\
  xs = [Some ["<s>"; "</s>"]%string; Some ["pad"]%string; None] /\ annotated_size nothing words = Some 5.
Proof. eexists. split; [exact three_own|]. split; [vm_compute; reflexivity | now split]. Qed.
Example c95_appended_applies : make_pipeline nothing [words] = Some [Some ["<s>"; "</s>"]%string] /\
  make_pipeline nothing ([words] ++ [tags]) = Some [Some ["<s>"; "</s>"]%string; Some ["pad"]%string].
Proof. now split; vm_compute. Qed.
(** Tokens that are computed from features: the pipeline is not made. *)
Example c95_made_applies : own_names [words; Declared (Some (nm "x")) false [] true false (Some (Computed 1)) 0] /\
  make_pipeline nothing [words; Declared (Some (nm "x")) false [] true false (Some (Computed 1)) 0] = None.
Proof.
  split; [|vm_compute; reflexivity]. intros d e I J N M E. cbn in I, J. destruct I as [<-|[<-|[]]], J as [<-|[<-|[]]]; try reflexivity; vm_compute in E; discriminate.
Qed.

Definition words_gzip : declared := Declared (Some (nm "words")) false (nm "vocabulary_1") false false (Some (Strings ["unknown"]%string)) 3.
(** Finding: reserved tokens are kept by the name without the suffix of the format, and the first ones of a name are taken: of two vocabularies
    that are written to different files, one as text and one as compressed records, the second gets the reserved tokens of the first. *)
Theorem c95_formats_refuted : exists fn xs, NoDup (map d_file fn) /\ make_pipeline nothing fn = Some xs /\ ~ Forall2 (given nothing) fn xs.
Proof.
  exists [words; words_gzip], [Some ["<s>"; "</s>"]%string; Some ["<s>"; "</s>"]%string]. split; [|split; [vm_compute; reflexivity|]].
  - vm_compute. constructor; [intros [H|[]]; discriminate|]. constructor; [intros [] | constructor].
  - intros H. inversion H as [|? ? ? ? _ K]. inversion K as [|? ? ? ? G _]. unfold given in G. cbn in G. inversion G.
Qed.

(** ... and the size that is annotated for it is not the number of entries of its file. *)
Theorem c95_size_refuted : exists fn xs d x, NoDup (map d_file fn) /\ make_pipeline nothing fn = Some xs /\ In (d, x) (combine fn xs) /\
  d_approximate d = false /\ annotated_size nothing d = Some 4 /\ entries d x = 5.
Proof.
  exists [words; words_gzip], [Some ["<s>"; "</s>"]%string; Some ["<s>"; "</s>"]%string], words_gzip, (Some ["<s>"; "</s>"]%string).
  split; [|split; [vm_compute; reflexivity|]].
  - vm_compute. constructor; [intros [H|[]]; discriminate|]. constructor; [intros [] | constructor].
  - split; [right; now left|]. now repeat split.
Qed.

Definition spaced : declared := Declared (Some (nm "my words")) false (nm "vocabulary") true false (Some (Strings ["<s>"]%string)) 3.
Definition hyphened : declared := Declared (Some (nm "my-words")) false (nm "vocabulary_1") true false (Some (Strings ["unknown"]%string)) 3.
(** Finding: file names that the user chose to be different may be the same name, with the same tokens. *)
Theorem c95_names_refuted : exists fn xs, NoDup (map d_name fn) /\ make_pipeline nothing fn = Some xs /\ ~ Forall2 (given nothing) fn xs.
Proof.
  exists [spaced; hyphened], [Some ["<s>"]%string; Some ["<s>"]%string]. split; [|split; [vm_compute; reflexivity|]].
  - vm_compute. constructor; [intros [H|[]]; discriminate|]. constructor; [intros [] | constructor].
  - intros H. inversion H as [|? ? ? ? _ K]. inversion K as [|? ? ? ? G _]. unfold given in G. cbn in G. inversion G.
Qed.

Print Assumptions c95_first.
Print Assumptions c95_own.
Print Assumptions c95_made.
Print Assumptions c95_size.
Print Assumptions c95_appended.
Print Assumptions c95_formats_refuted.
Print Assumptions c95_size_refuted.
Print Assumptions c95_names_refuted.
