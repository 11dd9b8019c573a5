(** * Proofs about LegacyModel: JSON schemas *)
From Coq Require Import String Ascii List ZArith Bool Arith Permutation Lia.
From Verif Require Import SortModel SchemaModel SchemaProofs FspecModel FspecSpec FspecProofs FspecReadProofs LegacyModel LegacySpec.
Import ListNotations.
Local Notation length := List.length.

Lemma has_get j k v : has j k v -> exists items, j = J_object items /\ dict_get items k = Some v.
Proof. intros (items & -> & N & I). exists items. split; [reflexivity|]. apply dict_get_iff; assumption. Qed.
Lemma dict_get_none {V} (d : dict V) k : ~ In k (map fst d) -> dict_get d k = None.
Proof.
  intros N. destruct (dict_get d k) as [v|] eqn:E; [|reflexivity]. exfalso. apply N. unfold dict_get in E. destruct (List.find _ d) as [[k' v']|] eqn:F; [|discriminate].
  apply find_some in F as [I Q]. cbn in Q. apply String.eqb_eq in Q as ->. apply (in_map fst) in I. exact I.
Qed.
Lemma has_no_get j k : has_no j k -> exists items, j = J_object items /\ dict_get items k = None.
Proof. intros (items & -> & N). exists items. split; [reflexivity|]. apply dict_get_none, N. Qed.
Lemma has_item j k v : has j k v -> get_item j k = Returned v.
Proof. intros (items & -> & E)%has_get. cbn. rewrite E. reflexivity. Qed.
Lemma has_or_none j k v : has j k v -> get_or_none j k = Returned v.
Proof. intros (items & -> & E)%has_get. cbn. rewrite E. reflexivity. Qed.
Lemma has_no_or_none j k : has_no j k -> get_or_none j k = Returned J_null.
Proof. intros (items & -> & E)%has_no_get. cbn. rewrite E. reflexivity. Qed.
Lemma is_null_false j : j <> J_null -> is_null j = false.
Proof. destruct j; try reflexivity. intros H. destruct (H eq_refl). Qed.
Lemma has_not_null j k v : has j k v -> j <> J_null.
Proof. intros (items & -> & _). discriminate. Qed.
Lemma has_no_not_null j k : has_no j k -> j <> J_null.
Proof. intros (items & -> & _). discriminate. Qed.

Section proofs.
  Context (ios : string -> option Z).
  Lemma integer_as j z : integer ios j z -> as_int ios j = Returned z.
  Proof. intros [->|(s & -> & E)]; cbn; [reflexivity|]. rewrite E. reflexivity. Qed.
  Lemma integer_not_null j z : integer ios j z -> j <> J_null.
  Proof. intros [->|(s & -> & _)]; discriminate. Qed.
  Lemma integer_not_list j z : integer ios j z -> forall l, j <> J_list l.
  Proof. intros [->|(s & -> & _)] l; discriminate. Qed.
  Lemma maybe_integer_get j k z : maybe_integer ios j k z -> exists v, get_or_none j k = Returned v /\ maybe_to_int ios v = Returned z.
  Proof.
    destruct z as [z|]; cbn.
    - intros (v & H & I). exists v. split; [apply has_or_none, H|]. unfold maybe_to_int. destruct v; try (rewrite (integer_as _ _ I); reflexivity).
      destruct (integer_not_null _ _ I eq_refl).
    - intros H. exists J_null. split; [apply has_no_or_none, H|reflexivity].
  Qed.

  Lemma describes_values_dtype j v : describes_values ios j v ->
    dtype_from_json j = Returned (match v with Ints _ _ _ => Int64 | Floats => Float32 | Strings => String_type end).
  Proof.
    unfold dtype_from_json. destruct v as [lo hi c| |]; cbn.
    - intros (i & H & M & _). rewrite (has_or_none _ _ _ H). cbn [bind]. rewrite is_null_false; [reflexivity|].
      destruct lo; cbn in M; [destruct M as (v & M & _); apply (has_not_null _ _ _ M)|apply (has_no_not_null _ _ M)].
    - intros (N & f & H & NN). rewrite (has_no_or_none _ _ N). cbn [bind is_null negb]. rewrite (has_or_none _ _ _ H). cbn [bind]. rewrite (is_null_false _ NN). reflexivity.
    - intros (N & N' & f & H & NN). rewrite (has_no_or_none _ _ N). cbn [bind is_null negb]. rewrite (has_no_or_none _ _ N'). cbn [bind is_null negb].
      rewrite (has_or_none _ _ _ H). cbn [bind]. rewrite (is_null_false _ NN). reflexivity.
  Qed.
  Lemma describes_values_domain j v : describes_values ios j v ->
    domain_from_json ios j = Returned (match v with Ints lo hi c => Some (Int_domain lo hi c) | _ => None end).
  Proof.
    unfold domain_from_json. destruct v as [lo hi c| |]; cbn [describes_values].
    - intros (i & H & M & M' & C). rewrite (has_or_none _ _ _ H). cbn [bind].
      assert (NN : is_null i = false) by (apply is_null_false; destruct C as [C|[C _]]; [apply (has_not_null _ _ _ C)|apply (has_no_not_null _ _ C)]).
      rewrite NN. apply maybe_integer_get in M as (x & -> & E), M' as (x' & E2 & E'). cbn [bind]. rewrite E. cbn [bind]. rewrite E2. cbn [bind]. rewrite E'. cbn [bind].
      destruct C as [C|[C ->]]; [rewrite (has_or_none _ _ _ C)|rewrite (has_no_or_none _ _ C)]; reflexivity.
    - intros (N & _). rewrite (has_no_or_none _ _ N). reflexivity.
    - intros (N & _). rewrite (has_no_or_none _ _ N). reflexivity.
  Qed.
  Lemma describes_default_get j d : describes_default ios j d -> default_value_from_json ios j = Returned d.
  Proof.
    unfold describes_default, default_value_from_json. destruct d.
    - intros [(v & z & H & I)|[(l & zs & H & F)|[(N & v & H & NN)|(N & N' & v & H & NN)]]].
      + apply has_get in H as (items & -> & ->). rewrite (integer_as _ _ I). destruct v; try reflexivity. destruct (integer_not_list _ _ I l eq_refl).
      + apply has_get in H as (items & -> & ->). assert (E : map_result (as_int ios) l = Returned zs).
        { induction F as [|x z l zs I F IH]; [reflexivity|]. cbn [map_result]. rewrite (integer_as _ _ I). cbn [bind]. rewrite IH. reflexivity. }
        rewrite E. reflexivity.
      + apply has_no_get in N as (items & -> & ->). apply has_get in H as (items' & [= <-] & ->). rewrite (is_null_false _ NN). reflexivity.
      + apply has_no_get in N as (items & -> & ->). apply has_no_get in N' as (items' & [= <-] & ->). apply has_get in H as (items' & [= <-] & ->). rewrite (is_null_false _ NN). reflexivity.
    - intros (N & N' & N''). apply has_no_get in N as (items & -> & ->). apply has_no_get in N' as (items' & [= <-] & ->). apply has_no_get in N'' as (items' & [= <-] & ->). reflexivity.
  Qed.

  Definition read_spec (f : old_feature) : fspec :=
    match of_kind f with
    | Fixed shape true => match snd (spec_of f) with Fixed_len s d _ => Fixed_len s d (Some (Value "default")) | x => x end
    | _ => snd (spec_of f)
    end.
  Lemma describes_column j f : describes_feature ios j f -> column_schema_from_json ios j = Returned (read_spec f).
  Proof.
    intros (_ & (d & HD & V) & po & o & HP & HO & K). unfold column_schema_from_json. rewrite (has_item _ _ _ HD). cbn [bind]. rewrite (describes_values_dtype _ _ V). cbn [bind].
    rewrite (has_item _ _ _ HP). cbn [bind]. rewrite (has_item _ _ _ HO). cbn [bind]. unfold read_spec, spec_of. destruct (of_kind f) as [shape df|].
    - destruct K as (fixed & s & HF & DD & HS & DS). rewrite (has_or_none _ _ _ HF). cbn [bind].
      assert (NN : is_null fixed = false).
      { apply is_null_false. unfold describes_default in DD. destruct df.
        - destruct DD as [(v & z & H & I)|[(l & zs & H & F)|[(N & v & H & NN)|(N & N' & v & H & NN)]]]; apply (has_not_null _ _ _ H).
        - destruct DD as (N & _). apply (has_no_not_null _ _ N). }
      rewrite NN. cbn [negb]. rewrite (describes_default_get _ _ DD). cbn [bind]. rewrite (has_item _ _ _ HS). cbn [bind].
      destruct DS as [(axes & HA & F)|[NA ->]].
      + apply has_get in HA as (items & -> & ->). cbn [bind].
        assert (E : map_result (fun axis => bind (get_item axis "size") (as_int ios)) axes = Returned shape).
        { induction F as [|x z l zs (v & I & I') F IH]; [reflexivity|]. cbn [map_result]. rewrite (has_item _ _ _ I). cbn [bind]. rewrite (integer_as _ _ I'). cbn [bind]. rewrite IH. reflexivity. }
        rewrite E. cbn [bind]. destruct df; reflexivity.
      + apply has_no_get in NA as (items & -> & ->). cbn [bind map_result]. destruct df; reflexivity.
    - destruct K as (N & v & H & NN). rewrite (has_no_or_none _ _ N). cbn [bind is_null negb]. rewrite (has_or_none _ _ _ H). cbn [bind]. rewrite (is_null_false _ NN). reflexivity.
  Qed.

  Lemma map_result_all {A B} (f : A -> result B) l l' : Forall2 (fun a b => f a = Returned b) l l' -> map_result f l = Returned l'.
  Proof. induction 1 as [|a b l l' E F IH]; [reflexivity|]. cbn [map_result]. rewrite E. cbn [bind]. rewrite IH. reflexivity. Qed.
  Lemma parse_described j fs : describes ios j fs ->
    parse_schema_json ios j = from_feature_spec (map (fun f => (of_name f, read_spec f)) fs) (flat_map domains_of fs).
  Proof.
    intros [ND D]. unfold parse_schema_json.
    assert (X : exists l, match j with J_object items => match dict_get items "feature" with None => Returned [] | Some (J_list l) => Returned l | Some _ => Raised end | _ => Raised end = Returned l
      /\ Forall2 (describes_feature ios) l fs).
    { destruct D as [(l & H & F)|[N ->]].
      - exists l. apply has_get in H as (items & -> & ->). auto.
      - exists []. apply has_no_get in N as (items & -> & ->). auto. }
    destruct X as (l & -> & F). cbn [bind].
    rewrite (map_result_all _ l (map (fun f => (of_name f, read_spec f)) fs)).
    2:{ clear D ND. induction F as [|x f l fs D F IH]; [constructor|]. constructor; [|exact IH]. pose proof D as (N & _). rewrite (has_item _ _ _ N). cbn [bind as_text].
        rewrite (describes_column _ _ D). reflexivity. }
    cbn [bind]. rewrite (map_result_all _ l (map (fun f => (of_name f, match of_values f with Ints lo hi c => Some (Int_domain lo hi c) | _ => None end)) fs)).
    2:{ clear D ND. induction F as [|x f l fs D F IH]; [constructor|]. constructor; [|exact IH]. destruct D as (N & (d & HD & V) & _). rewrite (has_item _ _ _ N). cbn [bind as_text].
        rewrite (has_item _ _ _ HD). cbn [bind]. rewrite (describes_values_domain _ _ V). reflexivity. }
    cbn [bind]. rewrite !to_dict_new by (rewrite map_map; exact ND). f_equal.
    clear. induction fs as [|f fs IH]; [reflexivity|]. cbn [map flat_map fst snd]. rewrite IH. unfold domains_of. destruct (of_values f); reflexivity.
  Qed.
  Lemma domains_NoDup fs : NoDup (map of_name fs) -> NoDup (map fst (flat_map domains_of fs)).
  Proof.
    induction fs as [|f fs IH]; intros H; [constructor|]. inversion H as [|x y N ND]; subst. cbn [flat_map]. rewrite map_app. unfold domains_of at 1. specialize (IH ND).
    destruct (of_values f); cbn [map app]; try exact IH. constructor; [|exact IH]. intros I. apply N. clear - I. induction fs as [|g fs IH]; [destruct I|]. cbn [flat_map map] in I |- *.
    rewrite map_app in I. apply in_app_or in I as [I|I]; [|right; apply IH, I]. left. unfold domains_of in I. destruct (of_values g); cbn in I; [destruct I as [<-|[]]; reflexivity|destruct I..].
  Qed.
  Lemma domains_In fs k d : In (k, d) (flat_map domains_of fs) -> In k (map of_name fs) /\ is_domain d.
  Proof.
    intros I. apply in_flat_map in I as (f & I & D). unfold domains_of in D. destruct (of_values f); cbn in D; [destruct D as [[= <- <-]|[]]|destruct D..].
    split; [apply in_map, I|exact Logic.I].
  Qed.
  Lemma described_schema j fs : describes ios j fs -> (forall f, In f fs -> ~ has_default f) ->
    exists s fs' ds', parse_schema_json ios j = Returned s /\ as_feature_spec s = Returned (fs', ds') /\
      same_items (map spec_of fs) fs' /\ same_items (flat_map domains_of fs) ds'.
  Proof.
    intros D ND. rewrite (parse_described j fs D). destruct D as [N _].
    assert (E : map (fun f => (of_name f, read_spec f)) fs = map spec_of fs).
    { apply map_ext_in. intros f I. specialize (ND f I). unfold read_spec, has_default in *. destruct (of_kind f) as [shape [|]|] eqn:K; try reflexivity. destruct (ND eq_refl). }
    rewrite E. assert (N' : NoDup (map fst (map spec_of fs))) by (rewrite map_map; exact N).
    destruct (round_trip (map spec_of fs) (flat_map domains_of fs) N' (domains_NoDup fs N)) as (s & fs' & ds' & A & B & C & DD).
    - intros name sp I. split.
      + apply in_map_iff in I as (f & EQ & I). unfold spec_of in EQ. injection EQ as <- <-. split; [|destruct (of_kind f); exact Logic.I].
        destruct (of_kind f); destruct (of_values f); cbn; unfold example_dtype; auto.
      + intros d J. apply domains_In in J as [_ J]. exact J.
    - unfold no_shared_columns. replace (flat_map _ (map spec_of fs)) with (map of_name fs); [exact N|].
      clear. induction fs as [|f fs IH]; [reflexivity|]. cbn [map flat_map]. rewrite <- IH. unfold spec_of. cbn [fst snd]. destruct (of_kind f); reflexivity.
    - exists s, fs', ds'. split; [exact A|]. split; [exact B|]. split; [exact C|]. destruct DD as [X Y]. split; [apply domains_NoDup, N|]. split; [exact X|].
      intros k v. rewrite (Y k v). split; [|intros [H _]; exact H]. intros H. split; [exact H|]. rewrite map_map. apply domains_In in H as [H _]. exact H.
  Qed.
  Lemma described_default j fs f : describes ios j fs -> In f fs -> has_default f -> parse_schema_json ios j = Raised.
  Proof.
    intros D I H. rewrite (parse_described j fs D). destruct D as [N _].
    assert (N' : NoDup (map fst (map (fun f => (of_name f, read_spec f)) fs))) by (rewrite map_map; exact N).
    destruct (from_feature_spec _ _) as [s|] eqn:E; [|reflexivity]. exfalso.
    destruct (proj1 (accepts _ _ N' (domains_NoDup fs N)) (ex_intro _ s E) (of_name f) (read_spec f)) as [A _]; [apply in_map_iff; exists f; auto|].
    unfold has_default in H. unfold read_spec, spec_of in A. destruct (of_kind f) as [shape d|]; [|destruct H]. subst d. cbn in A. destruct A as [_ A]. discriminate.
  Qed.
End proofs.
