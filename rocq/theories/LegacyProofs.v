(** * Proofs about LegacyModel: signatures and saved models *)
From Coq Require Import String Ascii List ZArith Bool Arith Permutation Lia.
From Verif Require Import SortModel SchemaModel SchemaProofs FspecModel FspecSpec FspecProofs FspecReadProofs LegacyModel LegacySpec LegacyJsonProofs.
Import ListNotations.
Local Notation length := List.length.

(** ** Names *)
Lemma length_append a b : String.length (a ++ b) = String.length a + String.length b.
Proof. induction a as [|c a IH]; cbn; congruence. Qed.
Lemma strip_append suffix p : strip_suffix suffix (p ++ suffix) = Some p.
Proof.
  induction p as [|c p IH]; cbn [append].
  - destruct suffix; cbn; [reflexivity|]. rewrite Ascii.eqb_refl, String.eqb_refl. reflexivity.
  - cbn [strip_suffix]. destruct (String.eqb (String c (p ++ suffix)) suffix) eqn:E.
    + apply String.eqb_eq in E. apply (f_equal String.length) in E. cbn in E. rewrite length_append in E. lia.
    + rewrite IH. reflexivity.
Qed.
Lemma strip_some suffix s : forall p, strip_suffix suffix s = Some p -> s = (p ++ suffix)%string.
Proof.
  induction s as [|c s IH]; intros p; cbn [strip_suffix].
  - destruct (String.eqb EmptyString suffix) eqn:E; [|discriminate]. intros [= <-]. apply String.eqb_eq in E as <-. reflexivity.
  - destruct (String.eqb (String c s) suffix) eqn:E; [intros [= <-]; apply String.eqb_eq in E as <-; reflexivity|].
    destruct (strip_suffix suffix s) as [q|]; [|discriminate]. cbn. intros [= <-]. cbn. f_equal. apply IH. reflexivity.
Qed.
Lemma strip_none suffix s : (forall p, s <> (p ++ suffix)%string) -> strip_suffix suffix s = None.
Proof. intros H. destruct (strip_suffix suffix s) as [p|] eqn:E; [|reflexivity]. destruct (H p). apply strip_some, E. Qed.
Lemma list_of_append a b : list_ascii_of_string (a ++ b) = list_ascii_of_string a ++ list_ascii_of_string b.
Proof. induction a as [|c a IH]; [reflexivity|]. cbn. rewrite IH. reflexivity. Qed.
Lemma has_newline_iff s : has_newline s = true <-> exists a b, s = (a ++ String newline b)%string.
Proof.
  induction s as [|c s IH]; cbn.
  - split; [discriminate|]. intros ([|x a] & b & E); discriminate.
  - rewrite orb_true_iff, IH, Ascii.eqb_eq. split.
    + intros [->|(a & b & ->)]; [exists EmptyString, s; reflexivity|exists (String c a), b; reflexivity].
    + intros ([|x a] & b & E); injection E as -> ->; [left; reflexivity|right; eauto].
Qed.
Lemma one_line_no n : one_line n -> has_newline n = false.
Proof. intros H. apply not_true_is_false. rewrite has_newline_iff. intros (a & b & E). exact (H a b E). Qed.

Definition mangle (n : string) (c : component) : string := (n ++ "$" ++ component_text c)%string.
Lemma last_of a b x y : (a ++ x)%string = (b ++ y)%string -> rev (list_ascii_of_string x) ++ rev (list_ascii_of_string a) = rev (list_ascii_of_string y) ++ rev (list_ascii_of_string b).
Proof. intros E. rewrite <- !rev_app_distr, <- !list_of_append, E. reflexivity. Qed.
Lemma mangle_other n m c c' : mangle n c = mangle m c' -> c = c'.
Proof. intros E. apply last_of in E. destruct c, c'; cbn in E; try reflexivity; discriminate. Qed.
Lemma append_cancel a b s : (a ++ s)%string = (b ++ s)%string -> a = b.
Proof.
  intros E. assert (X : strip_suffix s (a ++ s) = strip_suffix s (b ++ s)) by (rewrite E; reflexivity). rewrite !strip_append in X. congruence.
Qed.
Lemma match_mangle n c c' : has_newline n = false -> match_component (mangle n c) c' = if match c, c' with Indices, Indices | Values_, Values_ | Dense_shape, Dense_shape | Dense_tensor, Dense_tensor => true | _, _ => false end then Some (n, c') else None.
Proof.
  intros H. unfold match_component, mangle.
  assert (S : c = c' -> match strip_suffix ("$" ++ component_text c') (n ++ "$" ++ component_text c) with Some prefix => if has_newline prefix then None else Some (prefix, c') | None => None end = Some (n, c')).
  { intros <-. rewrite strip_append, H. reflexivity. }
  assert (D : c <> c' -> match strip_suffix ("$" ++ component_text c') (n ++ "$" ++ component_text c) with Some prefix => if has_newline prefix then None else Some (prefix, c') | None => None end = None).
  { intros NE. rewrite strip_none; [reflexivity|]. intros p E. apply NE, (mangle_other n p), E. }
  destruct c, c'; first [apply S; reflexivity|apply D; discriminate].
Qed.
Lemma mangled_mangle n c : has_newline n = false -> mangled (mangle n c) = Some (n, c).
Proof.
  intros H. unfold mangled. rewrite (strip_none _ (mangle n c)).
  - cbn [map]. rewrite !match_mangle by exact H. destruct c; reflexivity.
  - intros p E. unfold mangle in E. apply last_of in E. destruct c; cbn in E; discriminate.
Qed.
Lemma mangled_none n : plain_name n -> mangled n = None.
Proof.
  intros H. unfold mangled.
  assert (X : forall s, n = s \/ n = (s ++ String newline EmptyString)%string -> first_some (map (match_component s) [Indices; Values_; Dense_shape; Dense_tensor]) = None).
  { intros s S. assert (N : forall c, match_component s c = None).
    { intros c. unfold match_component. rewrite strip_none; [reflexivity|]. intros p ->.
      assert (I : In (component_text c) ["indices"; "values"; "dense_shape"; "dense_tensor"]%string) by (destruct c; cbn; auto).
      destruct (H p _ I) as [A B]. destruct S as [->| ->]; [exact (A eq_refl)|]. apply B. clear. induction p as [|x p IH]; [reflexivity|]. cbn. f_equal. exact IH. }
    cbn [map]. rewrite !N. reflexivity. }
  destruct (strip_suffix (String newline EmptyString) n) as [p|] eqn:E; apply X; [right; apply strip_some, E|left; reflexivity].
Qed.

(** ** Dicts *)
Lemma get_set {V} (d : dict V) k v k' : dict_get (dict_set d k v) k' = if String.eqb k k' then Some v else dict_get d k'.
Proof.
  unfold dict_get. induction d as [|[x y] d IH]; cbn [dict_set List.find fst snd].
  - destruct (String.eqb k k') eqn:E; reflexivity.
  - destruct (String.eqb x k) eqn:E.
    + apply String.eqb_eq in E as ->. cbn [List.find fst]. destruct (String.eqb k k') eqn:E'; reflexivity.
    + cbn [List.find fst]. destruct (String.eqb x k') eqn:E'; [|exact IH]. apply String.eqb_eq in E' as ->. rewrite String.eqb_sym in E. rewrite E. reflexivity.
Qed.
Lemma get_delete {V} (d : dict V) k k' : dict_get (delete d k) k' = if String.eqb k k' then None else dict_get d k'.
Proof.
  unfold dict_get, delete. induction d as [|[x y] d IH]; cbn [filter List.find fst snd].
  - destruct (String.eqb k k'); reflexivity.
  - destruct (String.eqb x k) eqn:E; cbn [negb].
    + rewrite IH. apply String.eqb_eq in E as ->. destruct (String.eqb k k'); reflexivity.
    + cbn [List.find fst]. destruct (String.eqb x k') eqn:E'; [|exact IH]. apply String.eqb_eq in E' as ->. rewrite String.eqb_sym in E. rewrite E. reflexivity.
Qed.
Lemma delete_NoDup {V} (d : dict V) k : NoDup (map fst d) -> NoDup (map fst (delete d k)).
Proof. apply filter_keys_NoDup. Qed.

(** ** Signatures *)
Lemma update_items_app a : forall d b, update_items d (a ++ b) = bind (update_items d a) (fun d' => update_items d' b).
Proof. induction a as [|n a IH]; intros d b; [reflexivity|]. cbn [app update_items]. destruct (update_item d n) as [d'|]; [|reflexivity]. cbn [bind]. apply IH. Qed.
Lemma update_plain (d : dict tensor_info) : (forall n t, In (n, t) d -> plain_name n) -> update_map d = Returned d.
Proof.
  intros H. unfold update_map. assert (F : forall l, incl l (map fst d) -> update_items d l = Returned d).
  { induction l as [|n l IH]; intros I; [reflexivity|]. cbn [update_items]. unfold update_item. rewrite mangled_none; [cbn [bind]; apply IH; intros x J; apply I; right; exact J|].
    assert (J : In n (map fst d)) by (apply I; left; reflexivity). apply in_map_iff in J as ((n' & t) & <- & J). exact (H n' t J). }
  apply F, incl_refl.
Qed.

Section old.
  Variable fs : list (string * feature).
  Hypothesis T : told_apart fs.
  Let keys := map fst (flat_map old_items fs).
  Hypothesis NK : NoDup keys.

  Lemma fs_get n f : In (n, f) fs -> dict_get fs n = Some f.
  Proof. intros I. apply dict_get_iff; [apply T|exact I]. Qed.
  Lemma name_not_key n f : In (n, f) fs -> ~ In n keys.
  Proof.
    intros I J. unfold keys in J. apply in_map_iff in J as ((k & t) & E & J). cbn in E. subst k. apply in_flat_map in J as (g & G & J). destruct T as (_ & _ & A). exact (A n f g n t I G J eq_refl).
  Qed.
  Lemma key_of n f k t : In (n, f) fs -> In (k, t) (old_items (n, f)) -> In k keys /\ dict_get (flat_map old_items fs) k = Some t.
  Proof.
    intros I J. assert (K : In (k, t) (flat_map old_items fs)) by (apply in_flat_map; exists (n, f); auto). split; [apply (in_map fst) in K; exact K|].
    apply dict_get_iff; [exact NK|exact K].
  Qed.

  Definition partial (done : list string) (n : string) (f : feature) : option tensor_info :=
    match f with
    | Dense t => if mem done (mangle n Dense_tensor) then Some t else None
    | Sparse i v s =>
        let bi := mem done (mangle n Indices) in let bv := mem done (mangle n Values_) in let bs := mem done (mangle n Dense_shape) in
        if bi || bv || bs
        then Some (Tensor_info (if bv then t_dtype v else 0) None
                     (Coo_sparse (if bv then t_name v else EmptyString) (if bi then t_name i else EmptyString) (if bs then t_name s else EmptyString)))
        else None
    end.
  Definition expected (done : list string) (k : string) : option tensor_info :=
    if mem keys k then (if mem done k then None else dict_get (flat_map old_items fs) k)
    else match dict_get fs k with Some f => partial done k f | None => None end.

  Lemma mem_snoc done m k : mem (done ++ [m]) k = mem done k || String.eqb m k.
  Proof.
    destruct (mem (done ++ [m]) k) eqn:E; symmetry.
    - apply mem_In, in_app_or in E as [E|[E|[]]]; apply orb_true_iff; [left; apply mem_In, E|right; apply String.eqb_eq, E].
    - apply mem_not in E. apply orb_false_iff. split; [apply mem_not; intros I; apply E, in_or_app; auto|]. apply String.eqb_neq. intros ->. apply E, in_or_app. right; left; reflexivity.
  Qed.
  Lemma mangle_neq n c m c' : has_newline n = false -> has_newline m = false -> n <> m -> String.eqb (mangle n c) (mangle m c') = false.
  Proof. intros H H' NE. apply String.eqb_neq. intros E. apply NE. pose proof (mangled_mangle n c H) as X. rewrite E, (mangled_mangle m c' H') in X. congruence. Qed.
  Lemma mangle_same n c c' : String.eqb (mangle n c) (mangle n c') = match c, c' with Indices, Indices | Values_, Values_ | Dense_shape, Dense_shape | Dense_tensor, Dense_tensor => true | _, _ => false end.
  Proof.
    assert (S : c = c' -> String.eqb (mangle n c) (mangle n c') = true) by (intros ->; apply String.eqb_refl).
    assert (D : c <> c' -> String.eqb (mangle n c) (mangle n c') = false) by (intros H; apply String.eqb_neq; intros E; apply H, (mangle_other n n), E).
    destruct c, c'; first [apply S; reflexivity|apply D; discriminate].
  Qed.

  Definition component_info (f : feature) (c : component) : option tensor_info :=
    match f, c with Dense t, Dense_tensor => Some t | Sparse i _ _, Indices => Some i | Sparse _ v _, Values_ => Some v | Sparse _ _ s, Dense_shape => Some s | _, _ => None end.
  Lemma old_item_component n f k t : In (k, t) (old_items (n, f)) <-> exists c, component_info f c = Some t /\ k = mangle n c.
  Proof.
    split.
    - destruct f as [t'|i v s]; cbn [old_items In]; intros H.
      + destruct H as [[= <- <-]|[]]. exists Dense_tensor. split; reflexivity.
      + destruct H as [[= <- <-]|[[= <- <-]|[[= <- <-]|[]]]]; [exists Indices|exists Values_|exists Dense_shape]; split; reflexivity.
    - intros (c & E & ->). destruct f as [t'|i v s], c; try discriminate E; injection E as <-; cbn [old_items In]; auto.
  Qed.

  Lemma update_step done m d : In m keys -> ~ In m done -> NoDup (map fst d) -> (forall k, dict_get d k = expected done k) ->
    (exists i v s c, In ("dense_shape"%string, Sparse i v s) fs /\ m = mangle "dense_shape" c /\ (exists c', In (mangle "dense_shape" c') done) /\ update_item d m = Raised) \/
    (exists d', update_item d m = Returned d' /\ NoDup (map fst d') /\ (forall k, dict_get d' k = expected (done ++ [m]) k) /\
      forall c c' i v s, m = mangle "dense_shape" c -> In ("dense_shape"%string, Sparse i v s) fs -> component_info (Sparse i v s) c' <> None -> ~ In (mangle "dense_shape" c') done).
  Proof.
    intros M ND N H. unfold keys in M. apply in_map_iff in M as ((m' & t) & E & M). cbn in E. subst m'. apply in_flat_map in M as ((n & f) & I & J).
    destruct (key_of n f m t I J) as [MK MG]. pose proof (name_not_key n f I) as NN. pose proof (fs_get n f I) as FG.
    assert (OL : has_newline n = false) by (apply one_line_no; destruct T as (_ & T' & _); exact (T' n f I)).
    pose proof J as J0. apply old_item_component in J0 as (c & CI & EM).
    assert (GM : dict_get d m = Some t).
    { rewrite H. unfold expected. rewrite (proj2 (mem_In keys m) MK). apply mem_not in ND as ->. exact MG. }
    assert (GN : dict_get d n = partial done n f).
    { rewrite H. unfold expected. rewrite (proj2 (mem_not keys n) NN), FG. reflexivity. }
    apply mem_not in ND.
    assert (OTHER : forall k, k <> m -> k <> n -> expected (done ++ [m]) k = expected done k).
    { intros k K K'. unfold expected. destruct (mem keys k) eqn:MK'.
      - rewrite mem_snoc. apply not_eq_sym in K. apply String.eqb_neq in K as ->. rewrite orb_false_r. reflexivity.
      - destruct (dict_get fs k) as [g|] eqn:G; [|reflexivity]. apply dict_get_iff in G; [|apply T].
        assert (OK : has_newline k = false) by (apply one_line_no; destruct T as (_ & T' & _); exact (T' k g G)).
        unfold partial. destruct g; rewrite !mem_snoc, EM, ?mangle_neq by (auto); rewrite !orb_false_r; reflexivity. }
    unfold update_item. rewrite EM, (mangled_mangle n c OL), <- EM, GM, GN.
    destruct (if String.eqb n "dense_shape" then match partial done n f with None => true | Some _ => false end
              else match partial done n f with None => true | Some t => is_coo_sparse t end) eqn:CHECK.
    2:{ left. destruct f as [t'|i v s].
        - exfalso. destruct c; try discriminate CI. unfold partial in CHECK. rewrite <- EM, ND in CHECK. destruct (String.eqb n "dense_shape"); discriminate.
        - destruct (String.eqb n "dense_shape") eqn:DS.
          + apply String.eqb_eq in DS as ->. exists i, v, s, c. split; [exact I|]. split; [exact EM|]. split; [|reflexivity]. unfold partial in CHECK.
            destruct (mem done (mangle "dense_shape" Indices)) eqn:B1; [exists Indices; apply mem_In, B1|].
            destruct (mem done (mangle "dense_shape" Values_)) eqn:B2; [exists Values_; apply mem_In, B2|].
            destruct (mem done (mangle "dense_shape" Dense_shape)) eqn:B3; [exists Dense_shape; apply mem_In, B3|]. discriminate CHECK.
          + unfold partial in CHECK. destruct (_ || _ || _); discriminate CHECK. }
    right.
    assert (ALONE : forall c0 c' i v s, m = mangle "dense_shape" c0 -> In ("dense_shape"%string, Sparse i v s) fs -> component_info (Sparse i v s) c' <> None -> ~ In (mangle "dense_shape" c') done).
    { intros c0 c' i v s E0 I0 CC J'. assert (n = "dense_shape"%string).
      { pose proof (mangled_mangle n c OL) as X. rewrite <- EM, E0, (mangled_mangle "dense_shape" c0 eq_refl) in X. congruence. }
      subst n. rewrite String.eqb_refl in CHECK. assert (f = Sparse i v s) by (pose proof (fs_get _ _ I0); congruence). subst f.
      unfold partial in CHECK. apply mem_In in J'. destruct c'; cbn in CC; try (destruct (CC eq_refl)); rewrite J' in CHECK; rewrite ?orb_true_r in CHECK; cbn [orb] in CHECK; rewrite ?orb_true_r in CHECK; discriminate CHECK. }
    clear CHECK.  set (new := match partial done n f with Some t => t | None => empty_info end).
    destruct (coo_fields new) as [[cv ci] cs] eqn:CF. eexists. split; [reflexivity|]. split; [apply delete_NoDup, dict_set_NoDup, N|]. split; [|exact ALONE].
    intros k. rewrite get_delete, get_set. destruct (String.eqb m k) eqn:EK.
    { apply String.eqb_eq in EK as <-. unfold expected. rewrite (proj2 (mem_In keys m) MK), mem_snoc, String.eqb_refl, orb_true_r. reflexivity. }
    apply String.eqb_neq in EK. destruct (String.eqb n k) eqn:EN.
    - apply String.eqb_eq in EN as <-. unfold expected. rewrite (proj2 (mem_not keys n) NN), FG. unfold new, partial in CF |- *. unfold partial.
      destruct f as [t'|i v s]; destruct c; try discriminate CI; injection CI as ->; rewrite ?mem_snoc, EM, ?mangle_same; rewrite <- EM; rewrite ?orb_true_r; cbn [orb]; rewrite ?orb_false_r; try reflexivity;
        rewrite <- EM in CF; rewrite ND in CF |- *;
        repeat match goal with |- context [mem done ?x] => destruct (mem done x) | _ : context [mem done ?x] |- _ => destruct (mem done x) end;
        cbn [orb] in CF |- *; cbn in CF; injection CF as <- <- <-; reflexivity.
    - apply String.eqb_neq in EN. rewrite H. symmetry. apply OTHER; auto.
  Qed.
  Lemma update_loop l : forall done d1, NoDup (done ++ l) -> incl l keys -> NoDup (map fst d1) -> (forall k, dict_get d1 k = expected done k) ->
    (exists i v s, In ("dense_shape"%string, Sparse i v s) fs /\ update_items d1 l = Raised) \/
    (exists d', update_items d1 l = Returned d' /\ NoDup (map fst d') /\ (forall k, dict_get d' k = expected (done ++ l) k) /\
      forall i v s c c', In ("dense_shape"%string, Sparse i v s) fs -> component_info (Sparse i v s) c <> None -> component_info (Sparse i v s) c' <> None ->
        In (mangle "dense_shape" c) (done ++ l) -> In (mangle "dense_shape" c') l -> c = c').
  Proof.
    induction l as [|m l IH]; intros done d1 ND I N1 E; [right; exists d1; rewrite app_nil_r; repeat split; auto; intros i v s c c' _ _ _ _ []|].
    assert (MD : ~ In m done) by (intros J; apply NoDup_remove_2 in ND; apply ND, in_or_app; auto).
    destruct (update_step done m d1) as [(i & v & s & c & J & _ & _ & U)|(d2 & U & N2 & E2 & A)]; [apply I; left; reflexivity|exact MD|exact N1|exact E| |].
    { left. exists i, v, s. split; [exact J|]. cbn [update_items]. rewrite U. reflexivity. }
    cbn [update_items]. rewrite U. cbn [bind].
    assert (ND' : NoDup ((done ++ [m]) ++ l)) by (rewrite <- app_assoc; exact ND).
    destruct (IH (done ++ [m]) d2 ND') as [(i & v & s & J & U3)|(d3 & U3 & N3 & E3 & A3)]; [intros x J; apply I; right; exact J|exact N2|exact E2| |].
    { left. exists i, v, s. auto. }
    right. exists d3. rewrite <- app_assoc in E3. split; [exact U3|]. split; [exact N3|]. split; [exact E3|].
    intros i v s c c' J CC CC' J1 [->|J2].
    - apply in_app_or in J1 as [J1|[J1|J1]].
      + destruct (A c' c i v s eq_refl J CC J1).
      + symmetry. exact (mangle_other _ _ _ _ J1).
      + symmetry. apply (A3 i v s c' c J CC' CC); [apply in_or_app; left; apply in_or_app; right; left; reflexivity|exact J1].
    - apply (A3 i v s c c' J CC CC'); [rewrite <- app_assoc; exact J1|exact J2].
  Qed.
  Lemma start d : same_items d (flat_map old_items fs) -> NoDup (map fst d) /\ incl (map fst d) keys /\ (forall k, In k keys -> In k (map fst d)) /\ forall k, dict_get d k = expected [] k.
  Proof.
    intros (N & _ & H).
    assert (K : forall k, In k (map fst d) <-> In k keys).
    { intros k. unfold keys. rewrite !in_map_iff. split; intros ([k' v] & E & I); exists (k', v); split; auto; apply (H k' v), I. }
    split; [exact N|]. split; [intros k I; apply K, I|]. split; [intros k I; apply K, I|].
    intros k. unfold expected. cbn [mem existsb]. destruct (mem keys k) eqn:MK.
    - apply mem_In in MK. apply K in MK. apply in_map_iff in MK as ((k' & v) & EQ & I). cbn in EQ. subst k'.
      rewrite (proj2 (dict_get_iff d k v N) I). symmetry. apply dict_get_iff; [exact NK|apply H, I].
    - rewrite dict_get_none; [|rewrite K; apply mem_not, MK]. destruct (dict_get fs k) as [[t|i v s]|]; reflexivity.
  Qed.
  Lemma update_old d : ~ sparse_dense_shape fs -> same_items d (flat_map old_items fs) -> exists d', update_map d = Returned d' /\ same_items d' (map new_item fs).
  Proof.
    intros NS S. destruct (start d S) as (N & I & I' & E0). unfold update_map.
    destruct (update_loop (map fst d) [] d N I N E0) as [(i & v & s & J & _)|(d' & U & N' & E & _)]; [exfalso; apply NS; exists i, v, s; exact J|].
    exists d'. split; [exact U|]. cbn [app] in E.
    assert (NN : map fst (map new_item fs) = map fst fs) by (rewrite map_map; apply map_ext; intros [n [t|i v s]]; reflexivity).
    assert (DONE : forall k, In k keys -> mem (map fst d) k = true) by (intros k J; apply mem_In, I', J).
    assert (G : forall n f, In (n, f) fs -> expected (map fst d) n = Some (snd (new_item (n, f)))).
    { intros n f J. unfold expected. rewrite (proj2 (mem_not keys n) (name_not_key n f J)), (fs_get n f J).
      assert (D : forall c t, component_info f c = Some t -> mem (map fst d) (mangle n c) = true).
      { intros c t C. apply DONE. apply (key_of n f (mangle n c) t J). apply old_item_component. eauto. }
      destruct f as [t|i v s]; unfold partial; [rewrite (D Dense_tensor t eq_refl); reflexivity|].
      rewrite (D Indices i eq_refl), (D Values_ v eq_refl), (D Dense_shape s eq_refl). reflexivity. }
    split; [exact N'|]. split; [rewrite NN; apply T|]. intros k v. rewrite <- (dict_get_iff d' k v N'), E. split.
    - intros EX. unfold expected in EX. destruct (mem keys k) eqn:MK.
      + rewrite (DONE k) in EX by (apply mem_In, MK). discriminate.
      + destruct (dict_get fs k) as [f|] eqn:F; [|discriminate]. apply dict_get_iff in F; [|apply T]. specialize (G k f F). unfold expected in G. rewrite MK, (fs_get k f F) in G.
        rewrite EX in G. injection G as ->. apply in_map_iff. exists (k, f). split; [destruct f; reflexivity|exact F].
    - intros J. apply in_map_iff in J as ((n & f) & EQ & J). assert (n = k) by (destruct f; injection EQ; auto). subst n. rewrite (G k f J), EQ. reflexivity.
  Qed.
  Lemma update_raises d : sparse_dense_shape fs -> same_items d (flat_map old_items fs) -> update_map d = Raised.
  Proof.
    intros (i & v & s & J) S. destruct (start d S) as (N & I & I' & E0). unfold update_map.
    destruct (update_loop (map fst d) [] d N I N E0) as [(_ & _ & _ & _ & U)|(d' & U & N' & E & A)]; [exact U|exfalso].
    assert (K : forall c t, component_info (Sparse i v s) c = Some t -> In (mangle "dense_shape" c) (map fst d)).
    { intros c t C. apply I'. apply (key_of _ _ (mangle "dense_shape" c) t J). apply old_item_component. eauto. }
    discriminate (A i v s Indices Values_ J ltac:(discriminate) ltac:(discriminate) (K Indices i eq_refl) (K Values_ v eq_refl)).
  Qed.
End old.
Lemma same_items_nodup {V} (a b : dict V) : same_items a b -> NoDup (map fst b).
Proof. intros (_ & N & _). exact N. Qed.

(** ** Saved models *)
Lemma same_set_transform l : same_set l ["transform"%string] = true <-> (l <> [] /\ forall x, In x l -> x = "transform"%string).
Proof.
  unfold same_set. rewrite andb_true_iff, !forallb_forall. split.
  - intros [A B]. split.
    + intros ->. specialize (B "transform"%string (or_introl eq_refl)). discriminate.
    + intros x I. specialize (A x I). cbn in A. rewrite orb_false_r in A. apply String.eqb_eq, A.
  - intros [NE A]. split.
    + intros x I. rewrite (A x I). reflexivity.
    + intros x [<-|[]]. destruct l as [|y l]; [destruct (NE eq_refl)|]. cbn [existsb]. rewrite (A y (or_introl eq_refl)). reflexivity.
Qed.
Lemma load_finds before m after sig : (forall m', In m' before -> ~ (tags m' <> [] /\ forall x, In x (tags m') -> x = "transform"%string)) ->
  tags m <> [] -> (forall x, In x (tags m) -> x = "transform"%string) -> NoDup (map fst (signature_def m)) -> In ("transform_signature"%string, sig) (signature_def m) ->
  load_signature (before ++ m :: after) = update_legacy_signature sig.
Proof.
  intros B NE A N I. unfold load_signature, choose_meta_graph_def.
  assert (F : List.find (fun m => same_set (tags m) ["transform"%string]) (before ++ m :: after) = Some m).
  { induction before as [|m' before IH]; cbn [app List.find].
    - rewrite (proj2 (same_set_transform (tags m)) (conj NE A)). reflexivity.
    - destruct (same_set (tags m') _) eqn:E; [exfalso; apply (B m' (or_introl eq_refl)), same_set_transform, E|]. apply IH. intros x J. apply B. right; exact J. }
  rewrite F. rewrite (proj2 (dict_get_iff _ _ _ N) I). reflexivity.
Qed.
Lemma load_old before m after i o ins outs :
  (forall m', In m' before -> ~ (tags m' <> [] /\ forall x, In x (tags m') -> x = "transform"%string)) ->
  tags m <> [] -> (forall x, In x (tags m) -> x = "transform"%string) -> NoDup (map fst (signature_def m)) -> In ("transform_signature"%string, Signature i o) (signature_def m) ->
  told_apart ins -> told_apart outs -> ~ sparse_dense_shape ins -> ~ sparse_dense_shape outs ->
  same_items i (flat_map old_items ins) -> same_items o (flat_map old_items outs) ->
  exists i' o', load_signature (before ++ m :: after) = Returned (Signature i' o') /\ same_items i' (map new_item ins) /\ same_items o' (map new_item outs).
Proof.
  intros B NE A N I T T' NS NS' SI SO. rewrite (load_finds before m after _ B NE A N I). unfold update_legacy_signature. cbn [inputs outputs].
  destruct (update_old ins T (same_items_nodup _ _ SI) i NS SI) as (i' & -> & Si). cbn [bind].
  destruct (update_old outs T' (same_items_nodup _ _ SO) o NS' SO) as (o' & -> & So). cbn [bind]. eauto.
Qed.
Lemma old_raises i o ins : told_apart ins -> sparse_dense_shape ins -> same_items i (flat_map old_items ins) -> update_legacy_signature (Signature i o) = Raised.
Proof. intros T S SI. unfold update_legacy_signature. cbn [inputs]. rewrite (update_raises ins T (same_items_nodup _ _ SI) i S SI). reflexivity. Qed.
Lemma new_unchanged i o : (forall n t, In (n, t) i \/ In (n, t) o -> plain_name n) -> update_legacy_signature (Signature i o) = Returned (Signature i o).
Proof. intros H. unfold update_legacy_signature. cbn [inputs outputs]. rewrite !update_plain by (intros n t I; apply (H n t); auto). reflexivity. Qed.
Lemma exported_iff ms : exported_as_v1 ms = true <-> exists m, In m ms /\ tags m <> [] /\ forall x, In x (tags m) -> x = "transform"%string.
Proof.
  unfold exported_as_v1, choose_meta_graph_def. split.
  - destruct (List.find _ ms) as [m|] eqn:F; [|discriminate]. intros _. apply find_some in F as [I E]. exists m. split; [exact I|]. apply same_set_transform, E.
  - intros (m & I & H). apply same_set_transform in H. destruct (List.find _ ms) eqn:F; [reflexivity|]. apply (find_none _ _ F) in I. cbv beta in I. congruence.
Qed.
Lemma load_other ms : exported_as_v1 ms = false -> load_signature ms = Raised.
Proof. unfold exported_as_v1, load_signature. destruct (choose_meta_graph_def ms); [discriminate|reflexivity]. Qed.
