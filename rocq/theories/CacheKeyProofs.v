(** Proofs for CacheKeyModel.v *)
From Coq Require Import String Ascii List Bool Arith Lia.
From Verif Require Import CacheKeyModel CacheKeySpec.
Import ListNotations.
Open Scope list_scope.
Local Notation length := List.length.

Lemma replace_app c r a b : replace c r (a ++ b) = replace c r a ++ replace c r b.
Proof. apply flat_map_app. Qed.

Lemma replace_id c r s : ~ In c s -> replace c r s = s.
Proof.
  induction s as [|x s IH]; intros H; [reflexivity|]. cbn. destruct (Ascii.eqb_spec x c) as [->|]; [destruct H; now left|].
  cbn. f_equal. apply IH. intros C. apply H. now right.
Qed.

Lemma replace_In c r s x : In x (replace c r s) -> (In x s /\ x <> c) \/ In x r.
Proof.
  induction s as [|y s IH]; cbn; [intros []|]. intros H. apply in_app_or in H as [H|H].
  - destruct (Ascii.eqb_spec y c) as [->|]; [now right|]. destruct H as [<-|[]]. left. split; [now left|assumption].
  - apply IH in H as [[H1 H2]|H]; [left; split; [now right|assumption]|now right].
Qed.

Lemma sanitized_In s x : In x (make_valid_cache_component s) -> ~ In x special /\ (In x s \/ In x (text "-STARATPE")).
Proof.
  unfold make_valid_cache_component, replacements. cbn [fold_left fst snd]. intros H.
  repeat (apply replace_In in H as [[H ?]|H];
    [|split; [cbn in H |- *; intuition (subst; discriminate)|right; cbn in H |- *; tauto]]).
  split; [|now left]. cbn. intuition congruence.
Qed.

Lemma sanitized_id s : (forall x, In x s -> ~ In x special) -> make_valid_cache_component s = s.
Proof.
  intros H. unfold make_valid_cache_component, replacements. cbn [fold_left fst snd].
  assert (G : forall c r, In c special -> replace c r s = s) by (intros c r Hc; apply replace_id; intros C; now apply (H c C)).
  rewrite !G by (cbn; tauto). reflexivity.
Qed.

Lemma sanitized_idempotent s : make_valid_cache_component (make_valid_cache_component s) = make_valid_cache_component s.
Proof. apply sanitized_id. intros x Hx. now apply sanitized_In in Hx. Qed.

Lemma allowed_not_special x : allowed x = true -> ~ In x special.
Proof. intros H C. cbn in C. repeat (destruct C as [<-|C]; [vm_compute in H; discriminate|]). exact C. Qed.

Lemma allowed_not_newline x : allowed x = true -> x <> "010"%char.
Proof. intros H ->. vm_compute in H. discriminate. Qed.

Lemma matches_spec s : matches s = true <->
  exists body, body <> [] /\ (forall c, In c body -> allowed c = true) /\ (s = body \/ s = body ++ ["010"%char]).
Proof.
  unfold matches. split.
  - intros H. set (body := match rev s with "010"%char :: r => rev r | _ => s end) in *.
    exists body. split; [destruct body; discriminate|]. split.
    + destruct body as [|c l]; [discriminate|]. now apply forallb_forall.
    + unfold body. destruct (rev s) as [|c r] eqn:E; [now left|].
      assert (Es : s = rev r ++ [c]) by (rewrite <- (rev_involutive s), E; reflexivity).
      destruct c as [[] [] [] [] [] [] [] []]; try (now left). right. exact Es.
  - intros (body & Hn & Ha & [->| ->]).
    + assert (E : match rev body with "010"%char :: r => rev r | _ => body end = body).
      { destruct (rev body) as [|c r] eqn:E; [reflexivity|].
        assert (Hc : allowed c = true) by (apply Ha, in_rev; rewrite E; now left).
        apply allowed_not_newline in Hc. destruct c as [[] [] [] [] [] [] [] []]; try reflexivity. congruence. }
      rewrite E. destruct body; [congruence|]. now apply forallb_forall.
    + rewrite rev_app_distr. cbn [rev app]. rewrite rev_involutive. destruct body; [congruence|]. now apply forallb_forall.
Qed.

Lemma validated_unchanged name cached : matches name = true -> key (new_dataset_key name cached) = name.
Proof.
  intros H. apply matches_spec in H as (body & _ & Ha & [->| ->]); cbn; apply sanitized_id; intros x Hx.
  - now apply allowed_not_special, Ha.
  - apply in_app_or in Hx as [Hx|[<-|[]]]; [now apply allowed_not_special, Ha|].
    cbn. intuition discriminate.
Qed.

Lemma no_slash_join base k : ~ In "/"%char k -> join base k = match base with [] => k | _ => if Ascii.eqb (last base " "%char) "/"%char then base ++ k else base ++ "/"%char :: k end.
Proof.
  intros H. unfold join. destruct k as [|c k]; [reflexivity|]. 
  assert (Hc : c <> "/"%char) by (intros ->; apply H; now left). destruct c as [[] [] [] [] [] [] [] []]; try reflexivity. congruence.
Qed.

Lemma key_no_slash name cached : ~ In "/"%char (key (new_dataset_key name cached)).
Proof. intros C. cbn in C. apply sanitized_In in C as [C _]. apply C. cbn. tauto. Qed.

Lemma path_injective base s t c c' : cache_path base (new_dataset_key s c) = cache_path base (new_dataset_key t c') ->
  key (new_dataset_key s c) = key (new_dataset_key t c').
Proof.
  unfold cache_path. rewrite !no_slash_join by apply key_no_slash. destruct base as [|b base]; [auto|].
  destruct (Ascii.eqb (last (b :: base) " "%char) "/"%char); intros H.
  - now apply app_inv_head in H.
  - apply app_inv_head in H. now injection H.
Qed.

Lemma split_no_slash k : ~ In "/"%char k -> forall current, split current k = [current ++ k].
Proof.
  induction k as [|c k IH]; intros H current; cbn; [now rewrite app_nil_r|].
  destruct (Ascii.eqb_spec c "/"%char) as [->|]; [destruct H; now left|]. rewrite IH by (intros C; apply H; now right).
  now rewrite <- app_assoc.
Qed.

Lemma split_app a k : ~ In "/"%char k -> forall current, split current (a ++ "/"%char :: k) = split current a ++ [k].
Proof.
  intros H. induction a as [|c a IH]; intros current; cbn [app split].
  - rewrite Ascii.eqb_refl, split_no_slash by exact H. reflexivity.
  - destruct (Ascii.eqb_spec c "/"%char); [now rewrite IH|apply IH].
Qed.

Lemma walk_component dir k : k <> [] -> k <> text "." -> k <> text ".." -> walk dir k = dir ++ [k].
Proof.
  intros H1 H2 H3. unfold walk. destruct (list_eq_dec ascii_dec k []); [congruence|].
  destruct (list_eq_dec ascii_dec k (text ".")); [congruence|]. destruct (list_eq_dec ascii_dec k (text "..")); congruence.
Qed.

Lemma split_trailing a : forall current, split current (a ++ ["/"%char]) = split current a ++ [[]].
Proof. intros current. apply (split_app a []). intros []. Qed.

Lemma directory_path base name cached :
  let k := key (new_dataset_key name cached) in
  k <> [] -> k <> text "." -> k <> text ".." ->
  directory (cache_path base (new_dataset_key name cached)) = directory base ++ [k].
Proof.
  intros k H1 H2 H3. unfold cache_path. fold k.
  assert (HS : ~ In "/"%char k) by apply key_no_slash. rewrite no_slash_join by exact HS. unfold directory.
  destruct base as [|b base]; [rewrite split_no_slash by exact HS; cbn; now apply walk_component|].
  remember (b :: base) as base' eqn:Eb. 
  assert (G : forall a, split [] (a ++ "/"%char :: k) = split [] a ++ [k]) by (intros a; now apply split_app).
  destruct (Ascii.eqb_spec (last base' " "%char) "/"%char) as [El|].
  - assert (Ea : base' = removelast base' ++ ["/"%char]).
    { rewrite <- El. apply app_removelast_last. subst base'. discriminate. }
    rewrite Ea. rewrite <- app_assoc. cbn [app]. rewrite G, split_trailing. rewrite !fold_left_app. cbn [fold_left].
    rewrite (walk_component _ k) by assumption. reflexivity.
  - rewrite G. rewrite fold_left_app. cbn [fold_left]. now apply walk_component.
Qed.

Lemma non_cacheable_injective k l : is_cached k = is_cached l -> non_cacheable k = non_cacheable l -> k = l.
Proof.
  destruct k as [a ca], l as [b cb]. cbn. intros -> H. unfold non_cacheable in H. cbn in H. injection H as ->. reflexivity.
Qed.
