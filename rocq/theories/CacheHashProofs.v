From Coq Require Import String.
From Coq Require Import List Arith Bool Lia Permutation.
From Coq Require DecimalNat DecimalString.
From Verif Require Import SortModel SortProofs ReadyModel ReadySpec OptimizeModel OptimizeSpec OptimizeProofs OptimizeHistory CacheHashModel CacheHashSpec.
Import ListNotations.
Local Notation length := List.length.

(** ** Strings *)

Lemma append_assoc (a b c : string) : ((a ++ b) ++ c)%string = (a ++ (b ++ c))%string.
Proof. induction a; cbn; congruence. Qed.

Lemma concat_cons (a : string) l : String.concat "" (a :: l) = (a ++ String.concat "" l)%string.
Proof. destruct l; cbn; [|reflexivity]. induction a; cbn; congruence. Qed.

Lemma concat_app (l r : list string) : String.concat "" (l ++ r) = (String.concat "" l ++ String.concat "" r)%string.
Proof.
  induction l as [|a l IH]; [reflexivity|]. cbn [app]. rewrite !concat_cons, IH, append_assoc. reflexivity.
Qed.

Lemma append_split (a b x y : string) : String.length a = String.length b ->
  (a ++ x)%string = (b ++ y)%string -> a = b /\ x = y.
Proof.
  revert b. induction a as [|c a IH]; intros [|d b] L E; cbn in *; try lia; auto.
  injection E as -> E. destruct (IH b) as [-> ->]; auto.
Qed.

Lemma append_split_end (a b x y : string) : String.length x = String.length y ->
  (a ++ x)%string = (b ++ y)%string -> a = b /\ x = y.
Proof.
  intros L E. assert (a = b) by (eapply append_same_end; eauto). subst b.
  split; [reflexivity|]. eapply append_cancel; eauto.
Qed.

Lemma concat_same_lengths (l r : list string) :
  Forall2 (fun a b => String.length a = String.length b) l r ->
  String.concat "" l = String.concat "" r -> l = r.
Proof.
  induction 1 as [|a b l r L F IH]; [reflexivity|]. rewrite !concat_cons. intros E.
  apply append_split in E; [|exact L]. destruct E as [-> E]. f_equal. auto.
Qed.

Lemma concat_length (l r : list string) :
  Forall2 (fun a b => String.length a = String.length b) l r ->
  String.length (String.concat "" l) = String.length (String.concat "" r).
Proof.
  assert (L : forall s t, String.length (s ++ t) = String.length s + String.length t) by (induction s; cbn; auto).
  induction 1 as [|a b l r E F IH]; [reflexivity|]. rewrite !concat_cons, !L. congruence.
Qed.

Lemma attr_text_serialize attrs : attr_text attrs = option_map (String.concat "") (serialize_op_attr attrs).
Proof.
  unfold attr_text, serialize_op_attr, sort_attrs.
  assert (E : filter (fun kv : string * attr => negb (existsb (fun kv => String.eqb (fst kv) "f") attrs)
                        || String.eqb (fst kv) "Tin" || String.eqb (fst kv) "Tout")
                (py_sorted (fun kv kv' => bytes_leb (fst kv) (fst kv')) attrs)
            = if existsb (fun kv => String.eqb (fst kv) "f") attrs
              then filter (fun kv => String.eqb (fst kv) "Tin" || String.eqb (fst kv) "Tout")
                     (py_sorted (fun kv kv' => bytes_leb (fst kv) (fst kv')) attrs)
              else py_sorted (fun kv kv' => bytes_leb (fst kv) (fst kv')) attrs).
  { destruct (existsb _ attrs); cbn [negb orb]; [reflexivity|].
    induction (py_sorted _ attrs) as [|x l IH]; cbn; congruence. }
  rewrite E. clear E. destruct (existsb (fun kv => attr_list_func (snd kv)) _); [reflexivity|].
  cbn [option_map]. f_equal.
  induction (if existsb _ attrs then _ else _) as [|x l IH]; [reflexivity|].
  cbn [map concat app]. rewrite !concat_cons, IH, append_assoc. reflexivity.
Qed.

(** ** Induction on computations *)
Section CompInd.
Variable Q : comp -> Prop.
Hypothesis HS : forall name, Q (Source name).
Hypothesis HA : Q AnalyzerResult.
Hypothesis HT : forall i o, Q o -> Q (TensorOf i o).
Hypothesis HO : forall t attrs ps, (forall c, In c ps -> Q c) -> Q (OpOf t attrs ps).
Fixpoint comp_ind' (c : comp) : Q c :=
  match c with
  | Source name => HS name
  | AnalyzerResult => HA
  | TensorOf i o => HT i o (comp_ind' o)
  | OpOf t attrs ps =>
      HO t attrs ps (proj1 (Forall_forall Q ps)
        ((fix all (l : list comp) : Forall Q l :=
            match l with [] => Forall_nil Q | c :: l => Forall_cons c (comp_ind' c) (all l) end) ps))
  end.
End CompInd.

Lemma uint_nonnil n : Nat.to_uint n <> Decimal.Nil.
Proof.
  intros E. pose proof (DecimalNat.Unsigned.of_to n) as O. rewrite E in O. cbn in O. subst n. discriminate E.
Qed.

(** ** Paths *)
Section Paths.
Variable sha1 : string -> string.
Hypothesis SL : forall s, String.length (sha1 s) = 20.

Lemma describe_some values parents p : describe sha1 values parents = Some p ->
  exists ps, parents = map Some ps /\ p = sha1 (String.concat "" values ++ String.concat "" ps)%string.
Proof.
  unfold describe. destruct (sequence parents) as [ps|] eqn:S; [|discriminate]. intros [= <-].
  exists ps. rewrite concat_app. split; [|reflexivity].
  rewrite <- (map_id parents) in S. apply sequence_map in S.
  induction S as [|a b l r E F IH]; cbn; congruence.
Qed.

Lemma path_length c p : path_of sha1 c = Some (Some p) -> String.length p = 20.
Proof.
  destruct c; cbn [path_of].
  - intros [= <-]. apply SL.
  - discriminate.
  - destruct (path_of sha1 c) as [q|]; [|discriminate]. intros [= E].
    apply describe_some in E. destruct E as (ps & _ & ->). apply SL.
  - destruct (sequence (map (path_of sha1) parents)), (serialize_op_attr op_attr); try discriminate. intros [= E].
    apply describe_some in E. destruct E as (ps & _ & ->). apply SL.
Qed.

Lemma op_path t attrs parents p : path_of sha1 (OpOf t attrs parents) = Some (Some p) ->
  exists text ps, attr_text attrs = Some text /\
    map (path_of sha1) parents = map (fun q => Some (Some q)) ps /\ p = sha1 (text ++ String.concat "" ps)%string.
Proof.
  cbn [path_of]. destruct (sequence (map (path_of sha1) parents)) as [qs|] eqn:S; [|discriminate].
  destruct (serialize_op_attr attrs) as [values|] eqn:V; [|discriminate]. intros [= E].
  apply describe_some in E. destruct E as (ps & -> & ->). exists (String.concat "" values), ps.
  rewrite attr_text_serialize, V. split; [reflexivity|]. split; [|reflexivity].
  apply sequence_map in S. clear - S. revert ps S. induction parents as [|c cs IH]; intros ps S; inversion S; subst.
  - destruct ps; [reflexivity | discriminate].
  - destruct ps as [|q ps]; [discriminate|]. cbn in *. injection H1 as -> ->.  rewrite (IH ps); [congruence | assumption].
Qed.

Lemma describe_texts values values' parents : String.concat "" values = String.concat "" values' ->
  describe sha1 values parents = describe sha1 values' parents.
Proof. intros E. unfold describe. destruct (sequence parents); [|reflexivity]. now rewrite !concat_app, E. Qed.

Lemma alike_same_path c c' : alike c c' -> path_of sha1 c = path_of sha1 c'.
Proof.
  revert c'. induction c as [name| |i o IH|t attrs ps IH] using comp_ind'; intros c' A; inversion A as [|? ? o' AO|? t' ? attrs' ? ps' text T T' F]; subst.
  - reflexivity.
  - cbn [path_of]. now rewrite (IH o' AO).
  - cbn [path_of].
    assert (map (path_of sha1) ps = map (path_of sha1) ps') as ->.
    { clear - F IH. induction F as [|c c' cs cs' E F IHF]; [reflexivity|]. cbn. f_equal.
      - apply IH; [now left | exact E].
      - apply IHF. intros; apply IH; [now right | assumption]. }
    rewrite attr_text_serialize in T, T'. destruct (sequence _); [|reflexivity].
    destruct (serialize_op_attr attrs) as [v|], (serialize_op_attr attrs') as [v'|]; try discriminate.
    f_equal. apply describe_texts. cbn in T, T'. congruence.
Qed.

Lemma paths_partial : forall c c' p, same_shape c c' ->
  path_of sha1 c = Some (Some p) -> path_of sha1 c' = Some (Some p) -> alike c c' \/ collision sha1 c c'.
Proof.
  induction c as [name| |i o IH|t attrs ps IH] using comp_ind'; intros c' p S P P'.
  - inversion S as [? name'| | |]; subst.
    cbn in P, P'. injection P as <-. injection P' as E.
    destruct (string_dec name name') as [<-|NE]; [left; constructor|].
    right. exists name, name'. repeat split; try constructor; auto.
  - discriminate P.
  - inversion S as [| |? i' ? o' SO|]; subst. cbn [path_of] in P, P'.
    destruct (path_of sha1 o) as [q|] eqn:Q; [|discriminate]. destruct (path_of sha1 o') as [q'|] eqn:Q'; [|discriminate].
    injection P as P. injection P' as P'. apply describe_some in P, P'.
    destruct P as (qs & E1 & ->). destruct P' as (qs' & E1' & E).
    destruct qs as [|x [|]]; try discriminate E1. destruct qs' as [|x' [|]]; try discriminate E1'.
    cbn in E1, E1'. injection E1 as ->. injection E1' as ->. cbn [String.concat] in E.
    destruct (string_dec (value_index_text i ++ x) (value_index_text i' ++ x')) as [EQ|NE].
    + apply append_split_end in EQ.
      2:{ rewrite (path_length _ _ Q), (path_length _ _ Q'). reflexivity. }
      destruct EQ as [EI ->]. destruct (IH _ _ SO eq_refl Q') as [A|(s & s' & H & H' & R)].
      * left. assert (i = i') as <-.
        { unfold value_index_text in EI. apply (f_equal DecimalString.NilZero.uint_of_string) in EI.
          rewrite !DecimalString.NilZero.usu in EI by apply uint_nonnil.
          injection EI as EI. apply DecimalNat.Unsigned.to_uint_inj. exact EI. }
        now constructor.
      * right. exists s, s'. repeat split; try (now constructor); apply R.
    + right. exists (value_index_text i ++ x)%string, (value_index_text i' ++ x')%string.
      repeat split; try (now constructor); auto.
  - inversion S as [| | |? t' ? attrs' ? ps' SP]; subst.
    apply op_path in P, P'. destruct P as (text & qs & T & M & ->). destruct P' as (text' & qs' & T' & M' & E).
    destruct (string_dec (text ++ String.concat "" qs) (text' ++ String.concat "" qs')) as [EQ|NE].
    + assert (L : Forall2 (fun a b => String.length a = String.length b) qs qs').
      { clear - M M' SP SL. revert qs qs' M M'. induction SP as [|c c' cs cs' S SP IHS]; intros [|q qs] [|q' qs'] M M';
          try discriminate; constructor; cbn in M, M'; injection M as M1 M2; injection M' as M1' M2'.
        - now rewrite (path_length _ _ M1), (path_length _ _ M1').
        - now apply IHS. }
      apply append_split_end in EQ; [|now apply concat_length]. destruct EQ as [<- EQ].
      apply concat_same_lengths in EQ; [|exact L]. subst qs'. clear L E.
      assert (D : Forall2 alike ps ps' \/ exists c c', In c ps /\ In c' ps' /\ collision sha1 c c').
      { clear - IH SP M M'. revert qs M M'. induction SP as [|c c' cs cs' S SP IHS]; intros [|q qs] M M'; try discriminate.
        - left. constructor.
        - cbn in M, M'. injection M as M1 M2. injection M' as M1' M2'.
          destruct (IH c (or_introl eq_refl) c' q S M1 M1') as [A|CO].
          + destruct (IHS (fun c I => IH c (or_intror I)) qs M2 M2') as [F|(x & x' & I & I' & CO)].
            * left. now constructor.
            * right. exists x, x'. cbn. auto.
          + right. exists c, c'. cbn. auto. }
      destruct D as [D|(c & c' & I & I' & s & s' & H & H' & R)].
      * left. econstructor; eauto.
      * right. exists s, s'. repeat split; try (eapply hashed_op; eauto); apply R.
    + right. exists (text ++ String.concat "" qs)%string, (text' ++ String.concat "" qs')%string.
      repeat split; auto; eapply hashed_op_top; eauto.
Qed.

Lemma path_written c p : path_of sha1 c = Some (Some p) ->
  exists w, written sha1 c w /\ p = sha1 (String.concat "" (snd w)).
Proof.
  destruct c as [name| |i o|t attrs ps].
  - cbn. intros [= <-]. exists (0, [name]). split; [constructor|reflexivity].
  - discriminate.
  - cbn [path_of]. destruct (path_of sha1 o) as [q|] eqn:Q; [|discriminate]. intros [= E].
    apply describe_some in E. destruct E as (qs & E1 & ->).
    destruct qs as [|x [|]]; try discriminate E1. injection E1 as ->.
    exists (1, [value_index_text i; x]). split; [now constructor|]. reflexivity.
  - intros E. apply op_path in E. destruct E as (text & qs & T & M & ->).
    exists (2, text :: qs). split; [now constructor|]. cbn [snd]. now rewrite concat_cons.
Qed.

Lemma written_hashed c w : written sha1 c w -> hashed sha1 c (String.concat "" (snd w)).
Proof.
  destruct 1 as [name|i o p P|t attrs parents text ps T M]; cbn [snd].
  - cbn. constructor.
  - rewrite concat_cons. cbn. now constructor.
  - rewrite concat_cons. eapply hashed_op_top; eauto.
Qed.

Lemma value_index_text_inj i j : value_index_text i = value_index_text j -> i = j.
Proof.
  unfold value_index_text. intros E. apply (f_equal DecimalString.NilZero.uint_of_string) in E.
  assert (forall n, Nat.to_uint n <> Decimal.Nil) as NN.
  { intros n H. apply (f_equal Nat.of_uint) in H as H'. rewrite DecimalNat.Unsigned.of_to in H'. subst n. discriminate H. }
  rewrite !DecimalString.NilZero.usu in E by apply NN.
  injection E as E. now apply DecimalNat.Unsigned.to_uint_inj.
Qed.

Lemma paths_any_shape : forall c c' p,
  path_of sha1 c = Some (Some p) -> path_of sha1 c' = Some (Some p) ->
  alike c c' \/ collision sha1 c c' \/ ambiguous sha1 c c'.
Proof.
  assert (Eq : forall x y : nat * list string, {x = y} + {x <> y}).
  { decide equality; [apply (list_eq_dec string_dec)|apply Nat.eq_dec]. }
  induction c as [name| |i o IH|t attrs ps IH] using comp_ind'; intros c' p P P';
    destruct (path_written _ _ P) as (w & W & Ew); destruct (path_written _ _ P') as (w' & W' & Ew');
    (destruct (string_dec (String.concat "" (snd w)) (String.concat "" (snd w'))) as [E|NE];
     [|right; left; do 2 eexists; split; [apply written_hashed, W|]; split; [apply written_hashed, W'|];
       split; [exact NE|congruence]]);
    (destruct (Eq w w') as [<-|NW];
     [|right; right; do 4 eexists; split; [apply inside_here|]; split; [apply inside_here|];
       split; [exact W|]; split; [exact W'|]; split; [exact NW|exact E]]).
  - inversion W; subst. inversion W'; subst. left. constructor.
  - discriminate P.
  - inversion W as [|? ? q Q|]; subst. inversion W' as [|i' o' q' Q' E1|]; subst.
    match goal with H : value_index_text i' = _ |- _ => apply value_index_text_inj in H; subst i' end.
    destruct (IH o' q Q Q') as [A|[(s & s' & H & H' & R)|(d & d' & v & v' & I & I' & R)]].
    + left. now constructor.
    + right. left. exists s, s'. split; [now constructor|]. split; [now constructor|exact R].
    + right. right. exists d, d', v, v'. split; [now constructor|]. split; [now constructor|exact R].
  - inversion W as [| |? ? ? text qs T M]; subst. inversion W' as [| |t' attrs' ps' text' qs' T' M']; subst.
    assert (D : Forall2 alike ps ps' \/
      exists c c', In c ps /\ In c' ps' /\ (collision sha1 c c' \/ ambiguous sha1 c c')).
    { clear - IH M M'. revert ps' qs M M'. induction ps as [|c cs IHs]; intros ps' [|q qs] M M'; try discriminate.
      - destruct ps'; [left; constructor|discriminate].
      - destruct ps' as [|c' cs']; [discriminate|]. cbn in M, M'. injection M as M1 M2. injection M' as M1' M2'.
        destruct (IH c (or_introl eq_refl) c' q M1 M1') as [A|CO].
        + destruct (IHs (fun c I => IH c (or_intror I)) cs' qs M2 M2') as [F|(x & x' & I & I' & CO)].
          * left. now constructor.
          * right. exists x, x'. cbn. auto.
        + right. exists c, c'. cbn. auto. }
    destruct D as [D|(c & c' & I & I' & [(s & s' & H & H' & R)|(d & d' & v & v' & J & J' & R)])].
    + left. econstructor; eauto.
    + right. left. exists s, s'. split; [eapply hashed_op; eauto|]. split; [eapply hashed_op; eauto|exact R].
    + right. right. exists d, d', v, v'. split; [eapply inside_op; eauto|]. split; [eapply inside_op; eauto|exact R].
Qed.

(** The path that the analyzer of graphs computes (C37) is this one. *)
Lemma unfolds_path g kinds names infos :
  (forall x, match names x with
             | Some n => exists ready, find x infos = Some (ready, source_path sha1 n)
             | None => find x infos = None
             end) ->
  forall c x, unfolds g kinds names x c ->
  has_path g (translate_kind sha1 kinds) infos x (path_of sha1 c).
Proof.
  intros HI. induction c as [name| |i o IH|t attrs ps IH] using comp_ind'; intros x U;
    specialize (HI x) as HX;
    inversion U as [? ? NM|? NM|? ? y ? NM G KD UO|? ? ? ys ? NM G KD UO]; subst; rewrite NM in HX.
  - destruct HX as (b & HX). eapply path_source. exact HX.
  - destruct HX as (b & HX). eapply path_source. exact HX.
  - assert (NS : ~ is_source infos x) by (unfold is_source; congruence).
    assert (E : path_of sha1 (TensorOf i o) = translate_kind sha1 kinds x [path_of sha1 o]).
    { unfold translate_kind. rewrite KD. cbn [path_of sequence]. destruct (path_of sha1 o); reflexivity. }
    rewrite E. eapply path_node; eauto.
  - assert (NS : ~ is_source infos x) by (unfold is_source; congruence).
    assert (E : path_of sha1 (OpOf t attrs ps) = translate_kind sha1 kinds x (map (path_of sha1) ps)).
    { unfold translate_kind. rewrite KD. cbn [path_of]. reflexivity. }
    rewrite E. eapply path_node; eauto. clear - IH UO.
    induction UO as [|y c ys cs UC F IHF]; cbn; constructor.
    + apply IH; [now left | exact UC].
    + apply IHF. intros; eapply IH; eauto. now right.
Qed.
End Paths.

(** ** The order of attributes does not matter *)

Lemma existsb_perm {A} (f : A -> bool) l r : Permutation l r -> existsb f l = existsb f r.
Proof.
  induction 1; cbn; try congruence. rewrite !orb_assoc. f_equal. apply orb_comm.
Qed.

Lemma serialize_order attrs attrs' : Permutation attrs attrs' -> NoDup (map fst attrs) ->
  serialize_op_attr attrs = serialize_op_attr attrs'.
Proof.
  intros P ND. unfold serialize_op_attr.
  assert (sort_attrs attrs = sort_attrs attrs') as ->.
  { apply py_sorted_perm_eq.
    - intros x y. apply bytes_leb_total.
    - intros x y z. apply bytes_leb_trans.
    - exact P.
    - intros [k a] [k' a'] I I' L L'. assert (k = k') as <- by (apply bytes_leb_antisym; assumption).
      f_equal. clear - ND I I'. induction attrs as [|[k0 a0] l IH]; [destruct I|].
      inversion ND as [|? ? NI ND']; subst. destruct I as [E|I], I' as [E'|I'].
      + congruence.
      + injection E as -> ->. exfalso. apply NI. apply (in_map fst) in I'. exact I'.
      + injection E' as -> ->. exfalso. apply NI. apply (in_map fst) in I. exact I.
      + auto. }
  now rewrite (existsb_perm _ _ _ P).
Qed.

(** ** Values of the analysis graph *)
Section Nodes.
Variable sha1 : string -> string.
Hypothesis SL : forall s, String.length (sha1 s) = 20.
Context {B C K : Type}.
Variable partitionable : B -> bool.
Variable class_name : op B C K -> string.
Hypothesis CN : forall ks ks', class_name (Extract ks) = class_name (Extract ks').
Variable fields : string -> op B C K -> list string.
Variable cache_version : string.

Notation has_hash t := (has_hash partitionable class_name fields (tensor_paths sha1 t) sha1) (only parsing).
Notation hashed_node := (hashed_node sha1 partitionable class_name fields).

Lemma hash_inv t label o inputs index h : has_hash t (Node label o inputs index) h ->
  (o = Apply 0 /\ h = "APPLY_SAVEDMODEL"%string) \/
  (o <> Apply 0 /\ exists hashes s, Forall2 (has_hash t) inputs hashes /\ h = sha1 s /\
     hashed_node t (Node label o inputs index) s /\
     match o with
     | Extract keys => exists ps, map (tensor_paths sha1 t) keys = map Some ps /\
         s = (String.concat "" hashes ++ class_name o ++ String.concat "" ps)%string
     | _ => s = (String.concat "" hashes ++ op_text class_name fields label o)%string
     end).
Proof.
  intros H. inversion H as [|? ? ? ? hashes h' NA P F N]; subst; [now left|].
  right. split; [exact NA|]. unfold next_hashed_path in N.
  destruct (sequence _) as [texts|] eqn:S; [|discriminate]. injection N as <-.
  assert (E : forall l, map Some hashes ++ [Some (class_name o)] ++ map Some l = map Some (hashes ++ class_name o :: l)).
  { intros l. now rewrite map_app. }
  assert (ST : forall (l : list string) r, sequence (map Some l) = Some r -> l = r).
  { clear. induction l as [|a l IH]; intros r H; [cbn in H; congruence|]. cbn in H.
    destruct (sequence (map Some l)) eqn:Q; [|discriminate]. injection H as <-. f_equal. auto. }
  assert (G : exists s, sha1 (String.concat "" texts) = sha1 s /\
     match o with
     | Extract keys => exists ps, map (tensor_paths sha1 t) keys = map Some ps /\
         s = (String.concat "" hashes ++ class_name o ++ String.concat "" ps)%string
     | _ => s = (String.concat "" hashes ++ op_text class_name fields label o)%string
     end).
  { destruct o; try (rewrite E in S; apply ST in S; subst texts; eexists; split; [reflexivity|];
      rewrite concat_app, concat_cons; reflexivity).
    assert (exists ps, map (tensor_paths sha1 t) keys = map Some ps) as (ps & EP).
    { clear - S. assert (exists r, sequence (map (tensor_paths sha1 t) keys) = Some r) as (r & R).
      { revert S. generalize (map (tensor_paths sha1 t) keys) as l. generalize (class_name (Extract keys)) as c.
        intros c l. revert texts. assert (forall a (b : list (option string)) r, sequence (a ++ b) = Some r -> exists r', sequence b = Some r').
        { clear. induction a as [|[x|] a IH]; cbn; intros b r H; [eauto| |discriminate].
          destruct (sequence (a ++ b)) eqn:Q; [|discriminate]. eauto. }
        intros texts S. rewrite app_assoc in S. eapply H. exact S. }
      exists r. apply (sequence_map (tensor_paths sha1 t)) in R. clear S.
      induction R as [|a b l r X F IH]; cbn; congruence. }
    rewrite EP, E in S. apply ST in S. subst texts. eexists. split; [reflexivity|].
    exists ps. split; [exact EP|]. now rewrite concat_app, concat_cons. }
  destruct G as (s & HS & G). exists hashes, s. repeat split; auto. eapply hashed_here; eauto.
Qed.

Lemma tensor_path_some t k p : tensor_paths sha1 t k = Some p -> path_of sha1 (t k) = Some (Some p).
Proof. unfold tensor_paths. destruct (path_of sha1 (t k)); congruence. Qed.

Section Two.
Variable tensors tensors' : string -> comp.
Notation same_node_shape := (same_node_shape tensors tensors').
Notation alike_nodes := (alike_nodes class_name fields tensors tensors').
Notation node_collision := (node_collision sha1 partitionable class_name fields tensors tensors').

Lemma hash_lengths (n n' : node B C K) h h' : same_node_shape n n' -> has_hash tensors n h -> has_hash tensors' n' h' ->
  String.length h = String.length h'.
Proof.
  intros S H H'. destruct n as [l o ins i], n' as [l' o' ins' i'].
  apply hash_inv in H, H'.
  destruct H as [[-> ->]|(NA & hs & s & _ & -> & _)], H' as [[-> ->]|(NA' & hs' & s' & _ & -> & _)].
  - reflexivity.
  - inversion S; subst; congruence.
  - inversion S; subst; congruence.
  - now rewrite !SL.
Qed.

Lemma nodes_partial : forall (n n' : node B C K) h, same_node_shape n n' ->
  has_hash tensors n h -> has_hash tensors' n' h -> alike_nodes n n' \/ node_collision n n'.
Proof.
  induction n as [label o inputs index IH] using node_rect'. intros n' h S H H'.
  destruct n' as [label' o' inputs' index'].
  apply hash_inv in H, H'.
  destruct H as [[-> ->]|(NA & hs & s & F & -> & HN & T)], H' as [[-> E]|(NA' & hs' & s' & F' & E & HN' & T')].
  - left. constructor.
  - inversion S; subst; congruence.
  - inversion S; subst; congruence.
  - destruct (string_dec s s') as [<-|NE].
    2:{ right. exists s, s'. auto. }
    clear E.
    assert (SI : Forall2 same_node_shape inputs inputs').
    { inversion S; subst; auto; congruence. }
    assert (L : Forall2 (fun a b => String.length a = String.length b) hs hs').
    { clear - SL SI F F'. revert hs hs' F F'. induction SI as [|n n' ns ns' S SI IHS]; intros hs hs' F F';
        inversion F; inversion F'; subst; constructor; [eapply hash_lengths; eauto | auto]. }
    assert (SUB : hs = hs' -> Forall2 alike_nodes inputs inputs' \/
       exists m m', In m inputs /\ In m' inputs' /\ node_collision m m').
    { intros <-. clear - IH SI F F'. revert hs F F'. induction SI as [|n n' ns ns' S SI IHS]; intros hs F F'.
      - left. constructor.
      - inversion F as [|? h ? hs0 H1 F1]; subst. inversion F' as [|? ? ? ? H1' F1']; subst.
        destruct (IH n (or_introl eq_refl) n' h S H1 H1') as [A|CO].
        + destruct (IHS (fun m I => IH m (or_intror I)) hs0 F1 F1') as [FA|(m & m' & I & I' & CO)].
          * left. now constructor.
          * right. exists m, m'. cbn. auto.
        + right. exists n, n'. cbn. auto. }
    assert (UP : (exists m m', In m inputs /\ In m' inputs' /\ node_collision m m') ->
       node_collision (Node label o inputs index) (Node label' o' inputs' index')).
    { intros (m & m' & I & I' & t & t' & Ht & Ht' & R). exists t, t'. repeat split; try (eapply hashed_below; eauto); apply R. }
    inversion S as [|? ks ? ? ? ks' ? ? SK _|? ? ? ? ? ? ? ? NA1 NA2 NE1 NE2 _]; subst; [congruence| |].
    + destruct T as (ps & EP & ->). destruct T' as (ps' & EP' & E).
      rewrite (CN ks' ks) in E.
      apply append_split in E; [|now apply concat_length]. destruct E as [E1 E].
      apply concat_same_lengths in E1; [|exact L]. apply append_cancel in E.
      apply concat_same_lengths in E.
      2:{ clear - SL EP EP' SK. revert ps ps' EP EP'. induction SK as [|k k' ks ks' S SK IHS]; intros [|p ps] [|p' ps'] EP EP';
            try discriminate; constructor; cbn in EP, EP'; injection EP as EP1 EP2; injection EP' as EP1' EP2'.
          - rewrite (path_length sha1 SL _ _ (tensor_path_some _ _ _ EP1)), (path_length sha1 SL _ _ (tensor_path_some _ _ _ EP1')). reflexivity.
          - auto. }
      subst ps'. destruct (SUB E1) as [FA|CO]; [|right; auto].
      assert (D : Forall2 (fun k k' => alike (tensors k) (tensors' k')) ks ks' \/
         exists k k', In k ks /\ In k' ks' /\ collision sha1 (tensors k) (tensors' k')).
      { clear - SL EP EP' SK. revert ps EP EP'. induction SK as [|k k' ks ks' S SK IHS]; intros [|p ps] EP EP'; try discriminate.
        - left. constructor.
        - cbn in EP, EP'; injection EP as EP1 EP2; injection EP' as EP1' EP2'.
          destruct (paths_partial sha1 SL _ _ p S (tensor_path_some _ _ _ EP1) (tensor_path_some _ _ _ EP1')) as [A|CO].
          + destruct (IHS ps EP2 EP2') as [D|(x & x' & I & I' & CO)].
            * left. now constructor.
            * right. exists x, x'. cbn. auto.
          + right. exists k, k'. cbn. auto. }
      destruct D as [D|(k & k' & I & I' & t & t' & Ht & Ht' & R)].
      * left. now constructor.
      * right. exists t, t'. repeat split; try (eapply hashed_tensor_path; eauto); apply R.
    + assert (T0 : s = (String.concat "" hs ++ op_text class_name fields label o)%string).
      { destruct o; try exact T. destruct (NE1 _ eq_refl). }
      assert (T0' : s = (String.concat "" hs' ++ op_text class_name fields label' o')%string).
      { destruct o'; try exact T'. destruct (NE2 _ eq_refl). }
      rewrite T0 in T0'. apply append_split in T0'; [|now apply concat_length]. destruct T0' as [E1 E2].
      apply concat_same_lengths in E1; [|exact L]. destruct (SUB E1) as [FA|CO]; [|right; auto].
      left. now constructor.
Qed.

(** Keys of entries. *)
Lemma entry_keys_partial (n n' : node B C K) key : same_node_shape n n' ->
  (forall label inputs index, n <> Node label (Apply 0) inputs index) ->
  OptimizeSpec.has_entry_key partitionable class_name fields (tensor_paths sha1 tensors) sha1 cache_version n key ->
  OptimizeSpec.has_entry_key partitionable class_name fields (tensor_paths sha1 tensors') sha1 cache_version n' key ->
  (match n, n' with Node label _ _ _, Node label' _ _ _ => label = label' end /\ alike_nodes n n') \/ node_collision n n'.
Proof.
  intros S NA H H'. destruct n as [l o ins i], n' as [l' o' ins' i'].
  destruct H as (h & HH & ->). destruct H' as (h' & HH' & E).
  unfold cache_entry_key in E. apply append_cancel in E.
  apply append_split_end in E.
  2:{ cbn. f_equal. eapply hash_lengths; eauto. }
  destruct E as [-> E]. cbn in E. injection E as <-.
  destruct (nodes_partial _ _ _ S HH HH') as [A|CO]; auto.
Qed.

Lemma concat_map_some (ks ks' : list string) ps :
  Forall2 (fun k k' => alike (tensors k) (tensors' k')) ks ks' ->
  map (tensor_paths sha1 tensors) ks = ps -> map (tensor_paths sha1 tensors') ks' = ps.
Proof.
  intros F <-. induction F as [|k k' ks ks' A F IH]; cbn; [reflexivity|]. rewrite IH. f_equal.
  unfold tensor_paths. now rewrite (alike_same_path sha1 _ _ A).
Qed.

(** Values that are computed alike have the same hash. *)
Lemma alike_same_hash :
  (forall l (o : op B C K) l' o', op_text class_name fields l o = op_text class_name fields l' o' ->
     op_partitionable partitionable o = op_partitionable partitionable o') ->
  forall (n n' : node B C K) h, alike_nodes n n' -> has_hash tensors n h -> has_hash tensors' n' h.
Proof.
  intros OP. induction n as [label o inputs index IH] using node_rect'. intros n' h A H.
  assert (SUB : forall ins' hs, Forall2 alike_nodes inputs ins' -> Forall2 (has_hash tensors) inputs hs ->
    Forall2 (has_hash tensors') ins' hs).
  { clear - IH. intros ins' hs F. revert hs. induction F as [|n n' ns ns' A F IHF]; intros hs G;
      inversion G; subst; constructor; [eapply IH; eauto; now left | apply IHF; auto].
    intros; eapply IH; eauto. now right. }
  inversion H as [|? ? ? ? hs ? NA P F N]; subst.
  { inversion A; subst; try congruence. constructor. }
  inversion A as [|? ks ? ? ? ks' ? ? FK FI|? ? ? ? ? ? ? ? NA1 NA2 NE1 NE2 T FI]; subst; [congruence| |].
  - eapply hash_op; [congruence | exact P | eapply SUB; eauto|].
    rewrite <- N. unfold next_hashed_path. rewrite (CN ks' ks), (concat_map_some _ _ _ FK eq_refl). reflexivity.
  - eapply hash_op; [exact NA2 | rewrite <- (OP _ _ _ _ T); exact P | eapply SUB; eauto|].
    rewrite <- N. unfold next_hashed_path.
    assert (E : forall l, map Some hs ++ [Some (class_name o)] ++ map Some l = map Some (hs ++ class_name o :: l)).
    { intros l. now rewrite map_app. }
    assert (E' : forall l, map Some hs ++ [Some (class_name o')] ++ map Some l = map Some (hs ++ class_name o' :: l)).
    { intros l. now rewrite map_app. }
    assert (ST : forall l : list string, sequence (map Some l) = Some l).
    { clear. induction l as [|a l IHl]; cbn; [reflexivity|]. now rewrite IHl. }
    assert (X : forall l, sequence (map Some hs ++ [Some (class_name o)] ++ map Some l) = Some (hs ++ class_name o :: l)).
    { intros l. now rewrite E, ST. }
    assert (X' : forall l, sequence (map Some hs ++ [Some (class_name o')] ++ map Some l) = Some (hs ++ class_name o' :: l)).
    { intros l. now rewrite E', ST. }
    assert (Y : String.concat "" (hs ++ class_name o' :: fields label' o') = String.concat "" (hs ++ class_name o :: fields label o)).
    { rewrite !concat_app, !concat_cons. unfold op_text in T. now rewrite T. }
    destruct o, o'; try (destruct (NE1 _ eq_refl)); try (destruct (NE2 _ eq_refl)); rewrite X, X', Y; reflexivity.
Qed.
End Two.
End Nodes.
