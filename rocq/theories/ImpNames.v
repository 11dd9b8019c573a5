(** Names of operations. *)
From Coq Require Import String Ascii List Bool Arith Lia DecimalString DecimalNat FinFun.
From Verif Require Import PreModel ImpModel ImpSpec.
Import ListNotations.

Lemma app_assoc_s : forall a b c : string, ((a ++ b) ++ c = a ++ (b ++ c))%string.
Proof. induction a as [|x a IH]; intros b c; cbn; [reflexivity | now rewrite IH]. Qed.
Lemma app_inv_s : forall a b c : string, (a ++ b = a ++ c)%string -> b = c.
Proof. induction a as [|x a IH]; intros b c H; cbn in H; [exact H|]. injection H as H. now apply IH. Qed.
Lemma lower_app : forall a b, lower (a ++ b) = (lower a ++ lower b)%string.
Proof. induction a as [|x a IH]; intros b; cbn; [reflexivity | now rewrite IH]. Qed.
Lemma digits_lower : forall d, lower (NilEmpty.string_of_uint d) = NilEmpty.string_of_uint d.
Proof. induction d; cbn; [reflexivity| | | | | | | | | |]; now rewrite IHd. Qed.
Definition has_slash (s : string) : Prop := exists a b, s = (a ++ "/" ++ b)%string.
Lemma slash_cons : forall c s, has_slash (String c s) -> c = "/"%char \/ has_slash s.
Proof. intros c s [[|x a] [b E]]; cbn in E; injection E as -> E; [now left | right; now exists a, b]. Qed.
Lemma digits_free : forall d, ~ has_slash (NilEmpty.string_of_uint d).
Proof.
  induction d; cbn; intros H; [destruct H as [[|x a] [b E]]; discriminate| | | | | | | | | |];
    apply slash_cons in H; destruct H as [H|H]; try discriminate H; now apply IHd.
Qed.
Lemma slash_app : forall a b, has_slash (a ++ b) -> has_slash a \/ has_slash b.
Proof.
  induction a as [|c a IH]; intros b H; cbn in H; [now right|]. destruct (slash_cons _ _ H) as [->|H'].
  - left. exists EmptyString, a. reflexivity.
  - destruct (IH b H') as [[x [y ->]]|H2]; [left; now exists (String c x), y | now right].
Qed.
Lemma slash_not_free : forall s, slash_free s <-> ~ has_slash s.
Proof. intros s. unfold slash_free, has_slash. split; [intros F [a [b E]]; exact (F a b E) | intros H a b E; apply H; now exists a, b]. Qed.
Lemma nil_zero : forall d, d <> Decimal.Nil -> NilZero.string_of_uint d = NilEmpty.string_of_uint d.
Proof. now intros [] H. Qed.
Lemma uint_nonnil : forall n, Nat.to_uint n <> Decimal.Nil.
Proof. intros n E. pose proof (Unsigned.of_to n) as F. rewrite E in F. cbn in F. subst n. discriminate E. Qed.
Lemma suffixed_eq : forall n i, suffixed n i = (n ++ "_" ++ NilEmpty.string_of_uint (Nat.to_uint i))%string.
Proof. intros n i. unfold suffixed. rewrite nil_zero by apply uint_nonnil. reflexivity. Qed.
Lemma suffixed_inj : forall n i j, suffixed n i = suffixed n j -> i = j.
Proof.
  intros n i j E. rewrite !suffixed_eq in E. apply app_inv_s, app_inv_s in E.
  apply (f_equal NilEmpty.uint_of_string) in E. rewrite !NilEmpty.usu in E. injection E as E. now apply Unsigned.to_uint_inj.
Qed.
Lemma suffixed_lower : forall n i, lower (suffixed n i) = suffixed (lower n) i.
Proof. intros n i. rewrite !suffixed_eq, !lower_app, digits_lower. reflexivity. Qed.

Lemma dict_get_keys : forall A (d : list (string * A)) k, dict_get d k <> None <-> In k (map fst d).
Proof.
  induction d as [|[k' a] d IH]; intros k; cbn; [tauto|]. destruct (String.eqb_spec k' k) as [->|N].
  - split; [now left | discriminate].
  - rewrite IH. split; [now right | intros [E|I]; [now destruct N | exact I]].
Qed.
Lemma find_free_free : forall used base fuel i, (forall k, k < fuel -> dict_get used (suffixed base (i + k)) <> None) \/
  dict_get used (suffixed base (find_free fuel used base i)) = None.
Proof.
  induction fuel as [|fuel IH]; intros i; [left; intros k H; lia|]. cbn [find_free].
  destruct (dict_get used (suffixed base i)) eqn:E; [|now right].
  destruct (IH (S i)) as [H|H]; [left | now right]. intros [|k] K; [rewrite Nat.add_0_r, E; discriminate|].
  replace (i + S k) with (S i + k) by lia. apply H. lia.
Qed.
Lemma find_free_none : forall used base i, dict_get used (suffixed base (find_free (S (length used)) used base i)) = None.
Proof.
  intros used base i. destruct (find_free_free used base (S (length used)) i) as [H|H]; [exfalso|exact H].
  assert (I : incl (map (fun k => suffixed base (i + k)) (seq 0 (S (length used)))) (map fst used)).
  { intros x X. apply in_map_iff in X. destruct X as [k [<- K]]. apply in_seq in K. apply dict_get_keys, H. lia. }
  apply NoDup_incl_length in I.
  - rewrite !map_length, seq_length in I. lia.
  - apply Injective_map_NoDup; [|apply seq_NoDup]. intros a b E. apply suffixed_inj in E. lia.
Qed.

(** A unique name was not in use, now is, and begins with the name asked for. *)
Lemma unique_name_spec : forall used name n used', unique_name used name = (n, used') ->
  dict_get used (lower n) = None /\ dict_get used' (lower n) <> None /\ (forall k, dict_get used k <> None -> dict_get used' k <> None) /\
  (n = name \/ exists i, n = suffixed name i).
Proof.
  intros used name n used' E. unfold unique_name in E.
  destruct (dict_get used (lower name)) as [i|] eqn:U.
  - cbv zeta in E. set (u := (lower name, S i) :: used) in *.
    set (j := find_free (S (length u)) u (lower name) i) in *.
    pose proof (f_equal fst E) as E1. pose proof (f_equal snd E) as E2. cbn [fst snd] in E1, E2. subst n used'. rewrite suffixed_lower.
    assert (F : dict_get u (suffixed (lower name) j) = None) by apply find_free_none.
    assert (Keep : forall k, dict_get used k <> None -> dict_get u k <> None).
    { intros k H. apply dict_get_keys. apply dict_get_keys in H. now right. }
    split; [|split; [|split]].
    + destruct (dict_get used (suffixed (lower name) j)) eqn:X; [|reflexivity]. exfalso. apply (Keep (suffixed (lower name) j)); [rewrite X; discriminate | exact F].
    + apply dict_get_keys. now left.
    + intros k H. apply dict_get_keys. right. apply dict_get_keys. now apply Keep.
    + right. now exists j.
  - injection E as <- <-. split; [exact U|]. split; [|split; [|now left]].
    + apply dict_get_keys. now left.
    + intros k H. apply dict_get_keys. right. now apply dict_get_keys.
Qed.

Lemma in_graph_spec : forall n ns, in_graph n ns = true <-> In n ns.
Proof.
  intros n ns. unfold in_graph. rewrite existsb_exists. split.
  - intros [x [I E]]. apply String.eqb_eq in E. now subst.
  - intros I. exists n. split; [exact I | apply String.eqb_refl].
Qed.
Lemma in_graph_not : forall n ns, in_graph n ns = false <-> ~ In n ns.
Proof. intros n ns. rewrite <- in_graph_spec. destruct (in_graph n ns); split; congruence || (intros H; now destruct H). Qed.

Lemma in_scope_inj : forall s a b, in_scope s a = in_scope s b -> a = b.
Proof. intros [|c s] a b E; cbn in E; [exact E|]. injection E as E. apply app_inv_s in E. now injection E. Qed.
Lemma in_scope_suffixed : forall s n i, suffixed (in_scope s n) i = in_scope s (suffixed n i).
Proof. intros [|c s] n i; [reflexivity|]. rewrite !suffixed_eq. cbn [in_scope]. rewrite !app_assoc_s. reflexivity. Qed.
Lemma in_scope_below : forall scope n, scope <> EmptyString -> below scope (in_scope scope n).
Proof. intros [|c s] n H; [now destruct H|]. exists n. reflexivity. Qed.
Lemma below_in_scope : forall current s n, below (in_scope current s) n -> exists r, n = in_scope current (s ++ "/" ++ r).
Proof.
  intros [|c cur] s n [r ->]; exists r; [reflexivity|]. cbn [in_scope]. rewrite !app_assoc_s. reflexivity.
Qed.
(** Of two names with a slash the first parts *)
Lemma first_part : forall a b r r', slash_free a -> slash_free b -> (a ++ "/" ++ r = b ++ "/" ++ r')%string -> a = b /\ r = r'.
Proof.
  induction a as [|x a IH]; intros [|y b] r r' Fa Fb E; cbn in E.
  - now injection E as ->.
  - injection E as <- E. exfalso. apply (Fb EmptyString b). reflexivity.
  - injection E as -> E. exfalso. apply (Fa EmptyString a). reflexivity.
  - injection E as -> E. apply IH in E.
    + destruct E as [-> ->]. now split.
    + intros u v ->. apply (Fa (String y u) v). reflexivity.
    + intros u v ->. apply (Fb (String y u) v). reflexivity.
Qed.
Lemma suffix_free : forall n i, slash_free n -> slash_free (suffixed n i).
Proof.
  intros n i F. rewrite slash_not_free in *. rewrite suffixed_eq. intros H. apply slash_app in H. destruct H as [H|H]; [now apply F|].
  apply slash_app in H. destruct H as [H|H]; [|now apply digits_free in H].
  destruct H as [[|a [|b s]] [t E]]; cbn in E; discriminate.
Qed.
Ltac free := apply slash_not_free; intros [a [b E]]; repeat (destruct a as [|? a]; cbn in E; [discriminate E | injection E as _ E]); destruct a; discriminate E.
Lemma transform_free : slash_free "transform".
Proof. free. Qed.
Lemma const_free : slash_free "Const".
Proof. free. Qed.

Lemma strip_prefix_app : forall p s, strip_prefix p (p ++ s) = Some s.
Proof. induction p as [|c p IH]; intros s; cbn; [reflexivity|]. now rewrite Ascii.eqb_refl. Qed.
Lemma strip_prefix_some : forall p s r, strip_prefix p s = Some r -> s = (p ++ r)%string.
Proof.
  induction p as [|c p IH]; intros s r H; cbn in H; [now injection H as ->|]. destruct s as [|d s]; [discriminate|].
  destruct (Ascii.eqb_spec c d) as [->|]; [|discriminate]. apply IH in H. now rewrite H.
Qed.
