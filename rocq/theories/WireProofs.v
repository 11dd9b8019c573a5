From Coq Require Import String Ascii List Bool Arith NArith ZArith Lia Permutation.
From Verif Require Import SortModel SortProofs WireModel WireSpec.
Import ListNotations.
Local Notation length := List.length.

(** ** Varints *)
Lemma size_nat_size n : N.of_nat (N.size_nat n) = N.size n.
Proof.
  destruct n as [|p]; [reflexivity|]. cbn [N.size_nat N.size].
  induction p as [p IH|p IH|]; cbn [Pos.size_nat Pos.size]; [| |reflexivity];
    rewrite Nat2N.inj_succ, IH; lia.
Qed.
Lemma below_size n : (n < 2 ^ N.of_nat (N.size_nat n))%N.
Proof. rewrite size_nat_size. apply N.size_gt. Qed.

Lemma read_varint_loop rest fuel : forall n, (n < 2 ^ N.of_nat fuel)%N ->
  read_varint (varint_loop (S fuel) n ++ rest) = Some (n, rest).
Proof.
  induction fuel as [|fuel IH]; intros n H; cbn [varint_loop].
  - change (2 ^ N.of_nat 0)%N with 1%N in H. assert (n = 0%N) as -> by lia. reflexivity.
  - destruct (N.ltb_spec n 128) as [L|L]; cbn [app read_varint].
    + destruct (N.ltb_spec n 128); [reflexivity|lia].
    + assert (M : (n mod 128 < 128)%N) by (apply N.mod_lt; lia).
      replace (n mod 128 + 128 <? 128)%N with false by (symmetry; apply N.ltb_ge; clear; generalize (n mod 128)%N; intros; lia).
      assert (D : (n = 128 * (n / 128) + n mod 128)%N) by (apply N.div_mod; lia).
      specialize (IH (n / 128)%N). cbn [varint_loop] in IH. rewrite IH.
      * f_equal. f_equal. rewrite D at 3. clear. generalize (n mod 128)%N (n / 128)%N. intros; lia.
      * rewrite Nat2N.inj_succ, N.pow_succ_r' in H. apply N.div_lt_upper_bound; lia.
Qed.
Lemma read_varint_varint n rest : read_varint (varint n ++ rest) = Some (n, rest).
Proof. apply read_varint_loop, below_size. Qed.
Lemma varint_nonempty n : varint n <> [].
Proof. unfold varint. cbn [varint_loop]. destruct (n <? 128)%N; discriminate. Qed.

(** ** Fields *)
Lemma take_app b rest : take (N.of_nat (length b)) (b ++ rest) = Some (b, rest).
Proof.
  unfold take. rewrite app_length. destruct (N.ltb_spec (N.of_nat (length b + length rest)) (N.of_nat (length b))); [lia|].
  rewrite Nat2N.id, firstn_app, skipn_app, Nat.sub_diag, firstn_all, skipn_all. cbn. now rewrite app_nil_r.
Qed.
Lemma tag_parts k wt : (wt < 8)%N -> ((k * 8 + wt) / 8 = k)%N /\ ((k * 8 + wt) mod 8 = wt)%N.
Proof.
  intros H. split.
  - rewrite N.div_add_l by lia. rewrite N.div_small by lia. lia.
  - rewrite N.add_comm, N.mod_add by lia. apply N.mod_small. lia.
Qed.
Lemma read_delimited k b rest : read_field (tag k 2 ++ delimited b ++ rest) = Some ((k, Delimited b), rest).
Proof.
  unfold read_field, tag, delimited. rewrite read_varint_varint.
  destruct (tag_parts k 2 eq_refl) as [-> ->]. cbv beta iota zeta. rewrite <- app_assoc.
  rewrite read_varint_varint, take_app. reflexivity.
Qed.
Lemma read_int k n rest : read_field (tag k 0 ++ varint n ++ rest) = Some ((k, Varint n), rest).
Proof.
  unfold read_field, tag. rewrite read_varint_varint.
  destruct (tag_parts k 0 eq_refl) as [-> ->]. cbv beta iota zeta.
  rewrite read_varint_varint. reflexivity.
Qed.
Lemma read_fixed32 k b rest : length b = 4 -> read_field (tag k 5 ++ b ++ rest) = Some ((k, Fixed32 b), rest).
Proof.
  intros H. unfold read_field, tag. rewrite read_varint_varint.
  destruct (tag_parts k 5 eq_refl) as [-> ->]. cbv beta iota zeta.
  replace 4%N with (N.of_nat (length b)) by (rewrite H; reflexivity). rewrite take_app. reflexivity.
Qed.

(** ** Sequences of chunks *)
Definition chunk {A} (read : list N -> option (A * list N)) (c : list N) (x : A) : Prop :=
  c <> [] /\ forall rest, read (c ++ rest) = Some (x, rest).
Lemma read_all_chunks {A} (read : list N -> option (A * list N)) cs xs :
  Forall2 (chunk read) cs xs -> forall fuel, length (concat cs) <= fuel ->
  read_all read fuel (concat cs) = Some xs.
Proof.
  induction 1 as [|c x cs xs [NE R] H IH]; intros fuel L; [destruct fuel; reflexivity|].
  cbn [concat] in *. rewrite app_length in L.
  destruct c as [|n c]; [congruence|]. cbn [length] in L. destruct fuel as [|fuel]; [lia|].
  specialize (R (concat cs)). cbn [app] in R |- *. cbn [read_all]. rewrite R, IH by lia. reflexivity.
Qed.
Lemma message_chunks cs fs : Forall2 (chunk read_field) cs fs -> message (concat cs) = Some fs.
Proof. intros H. apply read_all_chunks; auto. Qed.
Lemma app_nonempty {A} (a b : list A) : a <> [] -> a ++ b <> [].
Proof. destruct a; [congruence|discriminate]. Qed.
Lemma chunk_delimited k b : chunk read_field (tag k 2 ++ delimited b) (k, Delimited b).
Proof. split; [apply app_nonempty, varint_nonempty|]. intros rest. rewrite <- app_assoc. apply read_delimited. Qed.
Lemma chunk_int k n : chunk read_field (tag k 0 ++ varint n) (k, Varint n).
Proof. split; [apply app_nonempty, varint_nonempty|]. intros rest. rewrite <- app_assoc. apply read_int. Qed.
Lemma chunk_fixed k b : length b = 4 -> chunk read_field (tag k 5 ++ b) (k, Fixed32 b).
Proof. intros H. split; [apply app_nonempty, varint_nonempty|]. intros rest. rewrite <- app_assoc. now apply read_fixed32. Qed.

(** ** Values *)
Definition word (n : N) : list N := [n mod 256; n / 256 mod 256; n / 65536 mod 256; n / 16777216 mod 256]%N.
Lemma to_float_word n : (n < 2 ^ 32)%N -> to_float (word n) = n.
Proof.
  intros H. unfold word, to_float.
  assert (D1 : (n = 256 * (n / 256) + n mod 256)%N) by (apply N.div_mod; lia).
  assert (E2 : (n / 65536 = n / 256 / 256)%N) by (rewrite N.div_div by lia; reflexivity).
  assert (E3 : (n / 16777216 = n / 256 / 256 / 256)%N) by (rewrite !N.div_div by lia; reflexivity).
  rewrite E2, E3.
  assert (D2 : (n / 256 = 256 * (n / 256 / 256) + (n / 256) mod 256)%N) by (apply N.div_mod; lia).
  assert (D3 : (n / 256 / 256 = 256 * (n / 256 / 256 / 256) + (n / 256 / 256) mod 256)%N) by (apply N.div_mod; lia).
  assert (S4 : (n / 256 / 256 / 256 < 256)%N).
  { rewrite <- E3. apply N.div_lt_upper_bound; [lia|]. exact H. }
  rewrite (N.mod_small (n / 256 / 256 / 256)) by exact S4. lia.
Qed.
Lemma to_int64_mod z : (- 2 ^ 63 <= z < 2 ^ 63)%Z -> to_int64 (Z.to_N (z mod 2 ^ 64)) = z.
Proof.
  intros H. unfold to_int64. rewrite Z2N.id by (apply Z.mod_pos_bound; lia). rewrite Z.mod_mod by lia.
  destruct (Z.ltb_spec z 0) as [L|L].
  - replace (z mod 2 ^ 64)%Z with (z + 2 ^ 64)%Z
      by (rewrite <- (Z.mod_add z 1) by lia; rewrite Z.mod_small; lia).
    destruct (Z.ltb_spec (z + 2 ^ 64) (2 ^ 63)); lia.
  - rewrite Z.mod_small by lia. destruct (Z.ltb_spec z (2 ^ 63)); lia.
Qed.
Definition code (z : Z) : N := Z.to_N (z mod 2 ^ 64).

Lemma all_some_map {A B} (f : A -> option B) g l :
  (forall x, In x l -> f x = Some (g x)) -> all_some (map f l) = Some (map g l).
Proof.
  induction l as [|x l IH]; intros H; [reflexivity|]. cbn [map all_some].
  rewrite (H x) by (left; reflexivity). rewrite IH by (intros; apply H; right; assumption). reflexivity.
Qed.
Lemma all_some_length {A} (l : list (option A)) : forall r, all_some l = Some r -> length r = length l.
Proof.
  induction l as [|[x|] l IH]; cbn [all_some]; intros r H; [|destruct (all_some l)|discriminate].
  - now injection H as <-.
  - injection H as <-. cbn. now rewrite (IH _ eq_refl).
  - discriminate.
Qed.

(** ** The three lists *)
Definition as_bytes (v : value) : bytes := match v with VString b => b | _ => [] end.
Definition as_int (v : value) : Z := match v with VInt64 z => z | _ => 0%Z end.
Definition as_float (v : value) : N := match v with VFloat n => n | _ => 0%N end.

Definition list_message (d : dtype) : message_type :=
  match d with DString => BytesList | DFloat => FloatList | _ => Int64List end.
Definition list_field (d : dtype) : field :=
  match d with DString => Field 1 TBytes false | DFloat => Field 1 TFloat true | _ => Field 1 TInt64 true end.
Definition list_number (d : dtype) : N := match d with DString => 1 | DFloat => 2 | _ => 3 end%N.

Definition parse_list (k : N) (b : list N) : option feature :=
  match message b with
  | None => None
  | Some m =>
      if (k =? 1)%N then Some (BytesFeature (bytes_fields 1 m))
      else if (k =? 2)%N then match float_fields 1 m with Some l => Some (FloatFeature l) | None => None end
      else match int64_fields 1 m with Some l => Some (Int64Feature l) | None => None end
  end.

Lemma map_ok {A B} (f g : A -> B) l (P : A -> Prop) :
  Forall P l -> (forall x, P x -> f x = g x) -> map f l = map g l.
Proof. intros F H. apply map_ext_in. intros x I. rewrite Forall_forall in F. auto. Qed.

Lemma Forall2_map2 {A B C} (R : B -> C -> Prop) (f : A -> B) (g : A -> C) l :
  (forall x, In x l -> R (f x) (g x)) -> Forall2 R (map f l) (map g l).
Proof. induction l as [|x l IH]; intros H; cbn; constructor; [apply H; left; reflexivity|apply IH; intros; apply H; right; assumption]. Qed.

(** The bytes of a list of values read back. *)
Lemma list_bytes d vs rowv size :
  d <> DOther -> size <= length rowv -> firstn size rowv = vs -> Forall (value_ok d) vs ->
  exists b, encode_field (list_field d) size rowv = Some b /\ parse_list (list_number d) b = Some (feature_of d vs).
Proof.
  intros ND LE E F. unfold encode_field. destruct (Nat.ltb_spec (length rowv) size); [lia|]. rewrite E. clear E LE H rowv.
  destruct d; cbn [list_field f_type f_packed f_number list_number]; [| | |congruence].
  - rewrite (all_some_map _ (fun v => delimited (as_bytes v))).
    2:{ intros v I. rewrite Forall_forall in F. specialize (F v I). destruct v; try contradiction. reflexivity. }
    eexists. split; [reflexivity|]. unfold parse_list. rewrite flat_map_concat_map, map_map.
    rewrite (message_chunks _ (map (fun v => (1%N, Delimited (as_bytes v))) vs))
      by (apply Forall2_map2; intros; apply chunk_delimited).
    cbn [N.eqb Pos.eqb feature_of]. do 2 f_equal. unfold bytes_fields.
    clear F. induction vs as [|v vs IH]; [reflexivity|]. cbn [map flat_map N.eqb Pos.eqb app]. rewrite IH. reflexivity.
  - rewrite (all_some_map _ (fun v => varint (code (as_int v)))).
    2:{ intros v I. rewrite Forall_forall in F. specialize (F v I). destruct v; try contradiction. reflexivity. }
    assert (R : forall fuel, length (concat (map (fun v => varint (code (as_int v))) vs)) <= fuel ->
              read_all read_varint fuel (concat (map (fun v => varint (code (as_int v))) vs))
              = Some (map (fun v => code (as_int v)) vs)).
    { apply read_all_chunks, Forall2_map2. intros v _. split; [apply varint_nonempty|]. intros. apply read_varint_varint. }
    destruct vs as [|v vs]; [eexists; split; reflexivity|]. set (vvs := v :: vs) in *.
    change (map (fun v0 : value => varint (code (as_int v0))) vvs)
      with (varint (code (as_int v)) :: map (fun v => varint (code (as_int v))) vs) at 1.
    cbv beta iota.
    change (varint (code (as_int v)) :: map (fun v => varint (code (as_int v))) vs)
      with (map (fun v0 : value => varint (code (as_int v0))) vvs).
    eexists. split; [reflexivity|]. unfold parse_list.
    rewrite <- (app_nil_r (tag 1 2 ++ _)).
    change (tag 1 2 ++ delimited ?b) with (tag 1 2 ++ delimited b).
    match goal with |- context [delimited ?b] =>
      change ((tag 1 2 ++ delimited b) ++ []) with (concat [tag 1 2 ++ delimited b]);
      rewrite (message_chunks [tag 1 2 ++ delimited b] [(1%N, Delimited b)]) by (constructor; [apply chunk_delimited|constructor])
    end.
    cbn [N.eqb Pos.eqb]. unfold int64_fields. cbn [collect N.eqb Pos.eqb].
    rewrite R by lia. rewrite app_nil_r. cbn [feature_of]. do 2 f_equal. rewrite map_map.
    eapply map_ok; [exact F|]. intros [| |] H; try contradiction. apply to_int64_mod. exact H.
  - rewrite (all_some_map _ (fun v => word (as_float v))).
    2:{ intros v I. rewrite Forall_forall in F. specialize (F v I). destruct v; try contradiction. reflexivity. }
    assert (R : forall fuel, length (concat (map (fun v => word (as_float v)) vs)) <= fuel ->
              read_all read_float fuel (concat (map (fun v => word (as_float v)) vs))
              = Some (map (fun v => to_float (word (as_float v))) vs)).
    { apply read_all_chunks, Forall2_map2. intros v _. split; [discriminate|]. intros rest. unfold read_float.
      change 4%N with (N.of_nat (length (word (as_float v)))). rewrite take_app. reflexivity. }
    destruct vs as [|v vs]; [eexists; split; reflexivity|]. set (vvs := v :: vs) in *.
    change (map (fun v0 : value => word (as_float v0)) vvs)
      with (word (as_float v) :: map (fun v => word (as_float v)) vs) at 1.
    cbv beta iota.
    change (word (as_float v) :: map (fun v => word (as_float v)) vs)
      with (map (fun v0 : value => word (as_float v0)) vvs).
    eexists. split; [reflexivity|]. unfold parse_list.
    rewrite <- (app_nil_r (tag 1 2 ++ _)).
    match goal with |- context [delimited ?b] =>
      change ((tag 1 2 ++ delimited b) ++ []) with (concat [tag 1 2 ++ delimited b]);
      rewrite (message_chunks [tag 1 2 ++ delimited b] [(1%N, Delimited b)]) by (constructor; [apply chunk_delimited|constructor])
    end.
    cbn [N.eqb Pos.eqb]. unfold float_fields. cbn [collect N.eqb Pos.eqb].
    rewrite R by lia. rewrite app_nil_r. cbn [feature_of]. do 2 f_equal.
    eapply map_ok; [exact F|]. intros [| |] H; try contradiction. apply to_float_word. exact H.
Qed.
