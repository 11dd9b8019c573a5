(** Proofs for CacheCoderModel.v *)
From Coq Require DecimalString DecimalZ DecimalPos.
From Coq Require Import Ascii String List ZArith NArith Bool Arith Lia.
From Verif Require Import CacheCoderModel CacheCoderSpec.
Import ListNotations.
Open Scope Z_scope.
Open Scope list_scope.
Local Notation length := List.length.

(** ** struct *)

Lemma byte_at_value n i : Z.of_N (N_of_ascii (byte_at n i)) = n / 256 ^ Z.of_nat i mod 256.
Proof.
  unfold byte_at. pose proof (Z.mod_pos_bound (n / 256 ^ Z.of_nat i) 256 eq_refl).
  rewrite N_ascii_embedding; lia.
Qed.

Lemma little_value_seq n k : forall i, 0 <= n ->
  little_value (map (byte_at n) (seq i k)) = n / 256 ^ Z.of_nat i mod 256 ^ Z.of_nat k.
Proof.
  induction k as [|k IH]; intros i Hn; cbn [seq map little_value]; [now rewrite Z.mod_1_r|].
  rewrite IH by exact Hn. rewrite byte_at_value.
  set (m := n / 256 ^ Z.of_nat i).
  assert (E : n / 256 ^ Z.of_nat (S i) = m / 256).
  { unfold m. rewrite Z.div_div by lia. f_equal. rewrite Nat2Z.inj_succ, Z.pow_succ_r by lia. lia. }
  rewrite E. rewrite Nat2Z.inj_succ, Z.pow_succ_r by lia.
  symmetry. apply Z.rem_mul_r; lia.
Qed.

Lemma pack_q_length e n b : pack_q e n = Some b -> length b = 8%nat.
Proof.
  unfold pack_q. destruct (_ && _); [|discriminate]. intros [= <-]. now destruct e.
Qed.

Lemma unpack_pack e n b : 0 <= n -> pack_q e n = Some b -> unpack_q e b = n.
Proof.
  intros Hn. unfold pack_q. destruct ((- 2 ^ 63 <=? n) && (n <? 2 ^ 63)) eqn:E; [|discriminate].
  apply andb_prop in E as [_ E]. apply Z.ltb_lt in E. unfold unpack_q.
  assert (V : little_value (map (byte_at n) (seq 0 8)) = n).
  { rewrite little_value_seq by exact Hn. cbn [Z.of_nat]. rewrite Z.pow_0_r, Z.div_1_r. apply Z.mod_small.
    split; [lia|]. apply (Z.lt_trans _ (2 ^ 63)); [exact E|reflexivity]. }
  revert V. generalize (map (byte_at n) (seq 0 8)). intros l V [= <-]. destruct e.
  - rewrite rev_involutive, V. now apply Z.ltb_lt in E as ->.
  - rewrite V. now apply Z.ltb_lt in E as ->.
Qed.

(** ** The key-value coder *)

Lemma kv_decode_app e (a b t v s : list ascii) :
  length a = 8%nat -> length b = 8%nat ->
  unpack_q e a = Z.of_nat (length t) -> unpack_q e b = Z.of_nat (length v) ->
  kv_decode e (a ++ b ++ t ++ v ++ s) = Some (t, v).
Proof.
  intros La Lb Ua Ub. unfold kv_decode.
  assert (P : firstn 16 (a ++ b ++ t ++ v ++ s) = a ++ b).
  { rewrite app_assoc. replace 16%nat with (length (a ++ b)) by (rewrite app_length; lia).
    rewrite firstn_app, firstn_all, Nat.sub_diag. cbn. apply app_nil_r. }
  assert (R : skipn 16 (a ++ b ++ t ++ v ++ s) = t ++ v ++ s).
  { rewrite app_assoc. replace 16%nat with (length (a ++ b)) by (rewrite app_length; lia).
    rewrite skipn_app, skipn_all, Nat.sub_diag. reflexivity. }
  cbv zeta. rewrite P, R.
  assert (P8 : firstn 8 (a ++ b) = a).
  { rewrite <- La, firstn_app, firstn_all, Nat.sub_diag. cbn. apply app_nil_r. }
  assert (S8 : skipn 8 (a ++ b) = b) by (rewrite <- La, skipn_app, skipn_all, Nat.sub_diag; reflexivity).
  rewrite P8, S8, Ua, Ub.
  destruct (Nat.ltb_spec (length (a ++ b)) 16) as [H|_]; [rewrite app_length in H; lia|].
  destruct (Z.ltb_spec (Z.of_nat (length t)) 0); [lia|]. destruct (Z.ltb_spec (Z.of_nat (length v)) 0); [lia|].
  cbn [orb]. destruct (Z.ltb_spec (Z.of_nat (length (t ++ v ++ s))) (Z.of_nat (length t) + Z.of_nat (length v))) as [H1|_];
    [rewrite !app_length in H1; lia|].
  rewrite !Nat2Z.id. f_equal. f_equal.
  - rewrite firstn_app, firstn_all, Nat.sub_diag. cbn. apply app_nil_r.
  - rewrite skipn_app, skipn_all, Nat.sub_diag. cbn. rewrite firstn_app, firstn_all, Nat.sub_diag. cbn. apply app_nil_r.
Qed.

Lemma kv_round_trip e t v b s : kv_encode e (t, v) = Some b -> kv_decode e (b ++ s) = Some (t, v).
Proof.
  unfold kv_encode. destruct (pack_q e (Z.of_nat (length t))) as [a|] eqn:Ea; [|discriminate].
  destruct (pack_q e (Z.of_nat (length v))) as [b'|] eqn:Eb; [|discriminate]. intros [= <-].
  rewrite <- !app_assoc. apply kv_decode_app; eauto using pack_q_length.
  - apply unpack_pack; [lia|exact Ea].
  - apply unpack_pack; [lia|exact Eb].
Qed.

Lemma kv_encode_accepts e t v :
  Z.of_nat (length t) < 2 ^ 63 -> Z.of_nat (length v) < 2 ^ 63 -> exists b, kv_encode e (t, v) = Some b.
Proof.
  intros Ht Hv. unfold kv_encode, pack_q.
  assert (E : forall n, (n < 2 ^ 63) -> 0 <= n -> (- 2 ^ 63 <=? n) && (n <? 2 ^ 63) = true).
  { intros n H1 H2. apply andb_true_intro. split; [apply Z.leb_le|apply Z.ltb_lt]; lia. }
  rewrite !E by lia. eauto.
Qed.

Lemma kv_truncated e t v b k : kv_encode e (t, v) = Some b -> (k < length b)%nat -> kv_decode e (firstn k b) = None.
Proof.
  unfold kv_encode. destruct (pack_q e (Z.of_nat (length t))) as [a|] eqn:Ea; [|discriminate].
  destruct (pack_q e (Z.of_nat (length v))) as [b'|] eqn:Eb; [|discriminate]. intros [= <-] Hk.
  pose proof (pack_q_length _ _ _ Ea) as La. pose proof (pack_q_length _ _ _ Eb) as Lb.
  apply unpack_pack in Ea; [|lia]. apply unpack_pack in Eb; [|lia].
  rewrite !app_length in Hk. unfold kv_decode. cbv zeta.
  destruct (Nat.ltb_spec (length (firstn 16 (firstn k (a ++ b' ++ t ++ v)))) 16) as [_|H]; [reflexivity|].
  rewrite !firstn_length, !app_length in H.
  assert (Hk16 : (16 <= k)%nat) by lia.
  assert (P : firstn 16 (firstn k (a ++ b' ++ t ++ v)) = a ++ b').
  { rewrite firstn_firstn, Nat.min_l by lia. rewrite app_assoc.
    replace 16%nat with (length (a ++ b')) by (rewrite app_length; lia).
    rewrite firstn_app, firstn_all, Nat.sub_diag. cbn. apply app_nil_r. }
  rewrite P.
  assert (P8 : firstn 8 (a ++ b') = a) by (rewrite <- La, firstn_app, firstn_all, Nat.sub_diag; cbn; apply app_nil_r).
  assert (S8 : skipn 8 (a ++ b') = b') by (rewrite <- La, skipn_app, skipn_all, Nat.sub_diag; reflexivity).
  rewrite P8, S8, Ea, Eb. destruct (_ || _); [reflexivity|].
  rewrite skipn_length, firstn_length, !app_length.
  destruct (Z.ltb_spec (Z.of_nat (Nat.min k (length a + (length b' + (length t + length v))) - 16))
    (Z.of_nat (length t) + Z.of_nat (length v))) as [_|H2]; [reflexivity|lia].
Qed.

(** ** JSON *)

Definition plain_text (s : list ascii) : Prop := s <> [] /\ Forall number_char s.

Lemma digits_plain d : Forall number_char (list_ascii_of_string (DecimalString.NilEmpty.string_of_uint d)).
Proof.
  induction d; cbn; constructor; auto; unfold number_char; cbn; intuition discriminate.
Qed.

Lemma uint_plain d : plain_text (list_ascii_of_string (DecimalString.NilZero.string_of_uint d)).
Proof.
  unfold plain_text, DecimalString.NilZero.string_of_uint. destruct d.
  { split; [discriminate|]. repeat constructor. unfold number_char. cbn. intuition discriminate. }
  all: match goal with |- context [DecimalString.NilEmpty.string_of_uint ?d] => split; [discriminate|exact (digits_plain d)] end.
Qed.

Lemma show_int_plain n : plain_text (show_int n).
Proof.
  unfold show_int. destruct (Z.to_int n) as [d|d]; cbn [DecimalString.NilZero.string_of_int].
  - apply uint_plain.
  - cbn [list_ascii_of_string]. split; [discriminate|]. constructor; [|apply uint_plain].
    unfold number_char. cbn. intuition discriminate.
Qed.

Lemma pos_uint_nonnil p : Pos.to_uint p <> Decimal.Nil.
Proof. apply DecimalPos.Unsigned.to_uint_nonnil. Qed.

Section json.
  Context {F : Type} (show : F -> list ascii) (read : list ascii -> option F) (HF : float_literals show read).

  Lemma number_show_int n : number F read (show_int n) = Some (JInt F n).
  Proof.
    unfold number, show_int. rewrite string_of_list_ascii_of_string. rewrite DecimalString.NilZero.isi.
    - now rewrite DecimalZ.of_to.
    - destruct n; cbn; try discriminate. intros [= E]. now apply pos_uint_nonnil in E.
    - destruct n; cbn; try discriminate. intros [= E]. now apply pos_uint_nonnil in E.
  Qed.

  Lemma number_show_float f : number F read (show f) = Some (JFloat F f).
  Proof. unfold number. destruct (HF f) as (_ & _ & -> & ->). reflexivity. Qed.

  Section induction.
    Variable P : json F -> Prop.
    Hypotheses (HI : forall n, P (JInt F n)) (Hf : forall f, P (JFloat F f)) (HL : forall l, Forall P l -> P (JList F l)).
    Fixpoint json_ind' (j : json F) : P j :=
      match j with
      | JInt _ n => HI n
      | JFloat _ f => Hf f
      | JList _ l => HL l ((fix go (l : list (json F)) : Forall P l :=
                              match l with [] => Forall_nil P | x :: l' => Forall_cons x (json_ind' x) (go l') end) l)
      end.
  End induction.

  (** the tokens of a value *)
  Fixpoint toks (j : json F) : list token :=
    match j with
    | JInt _ n => [Number (show_int n)]
    | JFloat _ f => [Number (show f)]
    | JList _ l =>
        LBracket :: match l with
                    | [] => [RBracket]
                    | x :: l' => toks x ++ flat_map (fun y => Comma :: toks y) l' ++ [RBracket]
                    end
    end.

  Definition delimited (rest : list ascii) : Prop :=
    match rest with [] => True | c :: _ => ~ number_char c end.

  Lemma number_char_cases c : number_char c ->
    Ascii.eqb c "["%char = false /\ Ascii.eqb c "]"%char = false /\ Ascii.eqb c ","%char = false /\ is_blank c = false.
  Proof.
    unfold number_char, is_blank. intros H. cbn in H |- *.
    repeat split; try (destruct (Ascii.eqb_spec c "["%char), (Ascii.eqb_spec c "]"%char), (Ascii.eqb_spec c ","%char); subst; intuition congruence).
    destruct (Ascii.eqb_spec c " "%char), (Ascii.eqb_spec c "009"%char), (Ascii.eqb_spec c "010"%char), (Ascii.eqb_spec c "013"%char);
      subst; cbn; intuition.
  Qed.

  Lemma tokenise_plain s : Forall number_char s -> forall acc rest, tokenise acc (s ++ rest) = tokenise (rev s ++ acc) rest.
  Proof.
    induction 1 as [|c s Hc _ IH]; intros acc rest; [reflexivity|]. cbn [app tokenise rev].
    apply number_char_cases in Hc as (-> & -> & -> & ->). rewrite IH. now rewrite <- app_assoc.
  Qed.

  Lemma tokenise_delimited acc rest : delimited rest -> tokenise acc rest = flush acc ++ tokenise [] rest.
  Proof.
    destruct rest as [|c rest]; cbn [tokenise delimited]; [cbn; now rewrite app_nil_r|]. intros Hc.
    destruct (Ascii.eqb c "["%char) eqn:E1; [reflexivity|]. destruct (Ascii.eqb c "]"%char) eqn:E2; [reflexivity|].
    destruct (Ascii.eqb c ","%char) eqn:E3; [reflexivity|]. destruct (is_blank c) eqn:E4; [reflexivity|].
    destruct Hc. intros HIn. cbn in HIn. unfold is_blank in E4. cbn in E4.
    repeat (destruct HIn as [<-|HIn]; [vm_compute in E1, E2, E3, E4; discriminate|]). exact HIn.
  Qed.

  Lemma tokenise_number s rest : plain_text s -> delimited rest -> tokenise [] (s ++ rest) = Number s :: tokenise [] rest.
  Proof.
    intros [Hn Hs] Hd. rewrite tokenise_plain by exact Hs. rewrite app_nil_r, tokenise_delimited by exact Hd.
    unfold flush. destruct (rev s) eqn:E.
    - apply (f_equal (@rev ascii)) in E. rewrite rev_involutive in E. now rewrite E in Hn.
    - rewrite <- E, rev_involutive. reflexivity.
  Qed.

  Lemma tokenise_dumps j : forall rest, delimited rest -> tokenise [] (dumps F show j ++ rest) = toks j ++ tokenise [] rest.
  Proof.
    induction j as [n|f|l IH] using json_ind'; intros rest Hd.
    - apply tokenise_number; [apply show_int_plain|exact Hd].
    - apply tokenise_number; [split; apply HF|exact Hd].
    - cbn [dumps toks]. destruct l as [|x l].
      + reflexivity.
      + cbn [app]. cbn [tokenise Ascii.eqb Bool.eqb flush app].
        assert (G : forall l, Forall (fun j => forall rest, delimited rest -> tokenise [] (dumps F show j ++ rest) = toks j ++ tokenise [] rest) l ->
          let items := (fix items (first : bool) (l : list (json F)) : list ascii :=
             match l with
             | [] => []
             | x :: l' => (if first then [] else [","%char; " "%char]) ++ dumps F show x ++ items false l'
             end) in
          delimited (items false l ++ "]"%char :: rest) /\
          tokenise [] (items false l ++ "]"%char :: rest) = flat_map (fun y => Comma :: toks y) l ++ RBracket :: tokenise [] rest).
        { clear. intros l H items. induction H as [|y l Hy _ IHl]; [cbn; split; [|reflexivity]|].
          - intros C. apply C. cbn. auto.
          - cbn [items app]. split; [cbn; intros C; apply C; cbn; auto|].
            cbn [tokenise Ascii.eqb Bool.eqb flush app is_blank existsb orb flat_map].
            rewrite <- app_assoc. rewrite Hy by apply IHl. destruct IHl as [_ ->]. cbn [app]. now rewrite <- app_assoc. }
        inversion IH as [|? ? Hx Hl]; subst. specialize (G l Hl). cbv zeta in G. destruct G as [G1 G2].
        rewrite <- !app_assoc. cbn [app]. rewrite Hx by exact G1. rewrite G2.
        reflexivity.
  Qed.

  Definition deliver (stack : list (list (json F))) (v : json F) (ts : list token) : option (json F) :=
    match stack with
    | [] => match ts with [] => Some v | _ => None end
    | top :: stack' => parse F read Separator ((v :: top) :: stack') ts
    end.

  Lemma parse_number text v next stack ts : next <> Separator -> number F read text = Some v ->
    parse F read next stack (Number text :: ts) = deliver stack v ts.
  Proof. intros Hn E. destruct next; [| |congruence]; cbn [parse]; rewrite E; reflexivity. Qed.

  Lemma parse_close next top stack ts : next <> Value ->
    parse F read next (top :: stack) (RBracket :: ts) = deliver stack (JList F (rev top)) ts.
  Proof. intros H. destruct next; [congruence| |]; destruct stack; reflexivity. Qed.

  Lemma parse_toks j : forall next stack ts, next <> Separator -> parse F read next stack (toks j ++ ts) = deliver stack j ts.
  Proof.
    induction j as [n|f|l IH] using json_ind'; intros next stack ts Hn.
    - apply parse_number; [exact Hn|apply number_show_int].
    - apply parse_number; [exact Hn|apply number_show_float].
    - assert (G : forall l, Forall (fun j => forall next stack ts, next <> Separator -> parse F read next stack (toks j ++ ts) = deliver stack j ts) l ->
        forall top, parse F read Separator (top :: stack) (flat_map (fun y => Comma :: toks y) l ++ RBracket :: ts) = deliver stack (JList F (rev top ++ l)) ts).
      { clear. intros l H. induction H as [|y l Hy _ IHl]; intros top; cbn [flat_map app].
        - rewrite app_nil_r. now rewrite parse_close by discriminate.
        - cbn [parse]. rewrite <- app_assoc. rewrite Hy by discriminate. cbn [deliver]. rewrite IHl. cbn [rev]. now rewrite <- app_assoc. }
      cbn [toks app]. assert (E : forall ts', parse F read next stack (LBracket :: ts') = parse F read ValueOrEnd ([] :: stack) ts')
        by (destruct next; [reflexivity|reflexivity|congruence]).
      rewrite E. destruct l as [|x l].
      + cbn [app]. now rewrite parse_close by discriminate.
      + inversion IH as [|? ? Hx Hl]; subst. rewrite <- !app_assoc. cbn [app]. rewrite Hx by discriminate. cbn [deliver].
        rewrite (G l Hl). reflexivity.
  Qed.

  Lemma json_round_trip j : loads F read (dumps F show j) = Some j.
  Proof.
    unfold loads. rewrite <- (app_nil_r (dumps F show j)). rewrite tokenise_dumps by exact I.
    rewrite parse_toks by discriminate. reflexivity.
  Qed.

  Lemma vocabulary_round_trip e (is_string : bool) t v b :
    vocabulary_encode F show e is_string (t, v) = Some b ->
    vocabulary_decode F read e is_string b = Some (t, v).
  Proof.
    unfold vocabulary_encode, vocabulary_decode. intros H.
    destruct is_string, t as [tb|tn]; try discriminate; apply (kv_round_trip _ _ _ _ []) in H; rewrite app_nil_r in H;
      rewrite H; [|rewrite json_round_trip]; (destruct v; rewrite json_round_trip; reflexivity).
  Qed.

  Lemma per_key_round_trip e key value b :
    per_key_encode F show e (key, value) = Some b -> per_key_decode F read e b = Some (key, value).
  Proof.
    unfold per_key_encode, per_key_decode. intros H. apply (kv_round_trip _ _ _ _ []) in H. rewrite app_nil_r in H.
    rewrite H, json_round_trip. reflexivity.
  Qed.
End json.
