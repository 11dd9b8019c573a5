(** Proofs about applying a SavedModel of TF1 to tensors of a graph. *)
From Coq Require Import String Ascii List Bool Arith Lia.
From Verif Require Import PreModel ImpModel ImpSpec ImpNames PreProofs.
Import ListNotations.

(** ** Lists *)

Lemma nodup_app : forall A (a b : list A), NoDup (a ++ b) <-> NoDup a /\ NoDup b /\ forall x, In x a -> ~ In x b.
Proof.
  induction a as [|y a IH]; intros b; cbn.
  - split; [intros H; split; [constructor | split; [exact H | intros x []]] | tauto].
  - rewrite !NoDup_cons_iff, IH, in_app_iff. split.
    + intros [N [Na [Nb D]]]. repeat split; try tauto. intros x [<-|I]; [tauto | now apply D].
    + intros [[N Na] [Nb D]]. repeat split; try tauto; [intros [I|I]; [tauto | exact (D y (or_introl eq_refl) I)]|].
      intros x I. apply D. now right.
Qed.
Lemma flat_part : forall A B (f : A -> list B) l e, In e l -> NoDup (flat_map f l) -> NoDup (f e).
Proof.
  induction l as [|x l IH]; intros e I N; [destruct I|]. cbn in N. apply nodup_app in N. destruct I as [->|I]; [tauto|]. now apply IH.
Qed.
Lemma flat_same : forall A B (f : A -> list B) l e e' t, In e l -> In e' l -> In t (f e) -> In t (f e') -> NoDup (flat_map f l) -> e = e'.
Proof.
  induction l as [|x l IH]; intros e e' t I I' T T' N; [destruct I|]. cbn in N. apply nodup_app in N. destruct N as [N1 [N2 D]].
  destruct I as [->|I], I' as [->|I']; [reflexivity | | | exact (IH e e' t I I' T T' N2)].
  - destruct (D t T). apply in_flat_map. now exists e'.
  - destruct (D t T'). apply in_flat_map. now exists e.
Qed.
Lemma combine_keys : forall A B (a : list A) (b : list B) x, In x (map fst (combine a b)) -> In x a.
Proof. intros A B a b x I. apply in_map_iff in I. destruct I as [[u w] [<- I]]. now apply in_combine_l in I. Qed.
Lemma combine_nodup : forall A B (a : list A) (b : list B), NoDup a -> NoDup (map fst (combine a b)).
Proof.
  induction a as [|x a IH]; intros [|y b] N; cbn; try constructor; inversion N; subst; [|now apply IH].
  intros I. now apply combine_keys in I.
Qed.
Lemma combine_map : forall A B (f : A -> option B) (a : list A) b t (u : B), Forall2 (fun x y => f x = Some y) a b -> In (t, u) (combine a b) -> f t = Some u.
Proof. intros A B f a b t u F. induction F as [|x y a b E F IH]; cbn; [intros []|]. intros [[= <- <-]|I]; auto. Qed.
Lemma same_key : forall A (l : list (string * A)) k a b, NoDup (map fst l) -> In (k, a) l -> In (k, b) l -> a = b.
Proof.
  induction l as [|[k' c] l IH]; intros k a b N I J; [destruct I|]. cbn in N. apply NoDup_cons_iff in N. destruct N as [N1 N2].
  destruct I as [[= -> ->]|I], J as [J|J].
  - now injection J.
  - destruct N1. now apply (in_map fst) in J.
  - injection J as -> ->. destruct N1. now apply (in_map fst) in I.
  - now apply (IH k).
Qed.
Lemma dict_get_in : forall A (d : list (string * A)) k a, dict_get d k = Some a -> In (k, a) d.
Proof.
  induction d as [|[k' b] d IH]; intros k a E; cbn in E; [discriminate|]. destruct (String.eqb_spec k' k) as [->|]; [injection E as ->; now left | right; now apply IH].
Qed.
Lemma dict_get_nodup : forall A (d : list (string * A)) k a, NoDup (map fst d) -> In (k, a) d -> dict_get d k = Some a.
Proof.
  intros A d k a N I. destruct (dict_get d k) as [b|] eqn:E.
  - f_equal. apply dict_get_in in E. exact (same_key A d k b a N E I).
  - exfalso. apply (proj2 (dict_get_keys A d k)); [|exact E]. now apply (in_map fst) in I.
Qed.

(** ** Maps of tensors *)

Lemma tensor_eqb_eq : forall a b, tensor_eqb a b = true <-> a = b.
Proof.
  intros [o i] [o' i']. unfold tensor_eqb. cbn. rewrite andb_true_iff, String.eqb_eq, Nat.eqb_eq. split; [intros [-> ->]; reflexivity | intros [= -> ->]; auto].
Qed.
Lemma get_tensor_spec : forall d k v, NoDup (map fst d) -> (get_tensor d k = Some v <-> In (k, v) d).
Proof.
  induction d as [|[k' w] d IH]; intros k v N; cbn; [split; [discriminate | intros []]|]. cbn in N. apply NoDup_cons_iff in N. destruct N as [N1 N2].
  destruct (tensor_eqb k k') eqn:E.
  - apply tensor_eqb_eq in E. subst k'. split; [intros [= ->]; now left|]. intros [[= ->]|I]; [reflexivity|]. destruct N1. now apply (in_map fst) in I.
  - rewrite IH by exact N2. split; [now right|]. intros [[= -> ->]|I]; [|exact I]. assert (X : tensor_eqb k k = true) by now apply tensor_eqb_eq. congruence.
Qed.
Lemma get_tensor_none : forall d k, get_tensor d k = None <-> ~ In k (map fst d).
Proof.
  induction d as [|[k' w] d IH]; intros k; cbn; [tauto|]. destruct (tensor_eqb k k') eqn:E.
  - apply tensor_eqb_eq in E. subst k'. split; [discriminate | intros H; destruct H; now left].
  - rewrite IH. split; [intros H [X|X]; [|tauto]|tauto]. subst k'. assert (Y : tensor_eqb k k = true) by now apply tensor_eqb_eq. congruence.
Qed.
Lemma set_tensor_new : forall d k v, ~ In k (map fst d) -> set_tensor d k v = d ++ [(k, v)].
Proof.
  induction d as [|[k' w] d IH]; intros k v N; cbn in *; [reflexivity|]. destruct (tensor_eqb k k') eqn:E.
  - apply tensor_eqb_eq in E. subst. tauto.
  - rewrite IH; tauto.
Qed.
Lemma update_map_app : forall o d, NoDup (map fst (d ++ o)) -> update_map d o = d ++ o.
Proof.
  unfold update_map. induction o as [|[k v] o IH]; intros d N; cbn; [now rewrite app_nil_r|].
  rewrite map_app in N. cbn in N. pose proof (NoDup_remove_2 _ _ _ N) as N2. rewrite set_tensor_new.
  - rewrite IH; rewrite <- app_assoc; [reflexivity|]. cbn. rewrite map_app. exact N.
  - intros I. apply N2, in_or_app. now left.
Qed.

(** ** Names below a scope *)

Lemma imported_name_fresh : forall existing scope n, scope <> EmptyString -> (forall x, In x existing -> ~ below scope x) ->
  imported_name existing scope n = in_scope scope n.
Proof.
  intros existing scope n S F. unfold imported_name. destruct (in_graph (in_scope scope n) existing) eqn:E; [|reflexivity].
  apply in_graph_spec in E. destruct (F _ E). now apply in_scope_below.
Qed.

Section proofs.
  Variables O V : Type.
  Variable run : O -> list V -> list V.
  Variable checkpoint : string -> string -> option nat -> option V.
  Local Notation node := (node O V).
  Local Notation graph := (graph O V).
  Local Notation Node := (Node O V).
  Local Notation node_name := (node_name O V).
  Local Notation node_inputs := (node_inputs O V).
  Local Notation node_kind := (node_kind O V).
  Local Notation nodes := (nodes O V).
  Local Notation names := (names O V).
  Local Notation names_in_use := (names_in_use O V).
  Local Notation initializers := (initializers O V).
  Local Notation value := (value O V run).
  Local Notation initialized := (initialized O V checkpoint).
  Local Notation feed := (feed V).

  Section induction.
    Variables (ns : list node) (fed : feed) (variable : string -> V -> Prop) (P : tensor -> V -> Prop).
    Hypothesis Hf : forall t Q v, fed t = Some Q -> Q v -> P t v.
    Hypothesis Hc : forall n v, fed (Tensor n 0) = None -> In (Node n (Constant O V v) []) ns -> P (Tensor n 0) v.
    Hypothesis Hv : forall n slice ins v, fed (Tensor n 0) = None -> In (Node n (Variable_op O V slice) ins) ns -> variable n v -> P (Tensor n 0) v.
    Hypothesis Ho : forall n i o ins vs v, fed (Tensor n i) = None -> In (Node n (Operation O V o) ins) ns ->
      Forall2 (value ns fed variable) ins vs -> Forall2 P ins vs -> nth_error (run o vs) i = Some v -> P (Tensor n i) v.
    Fixpoint value_induction (t : tensor) (v : V) (H : value ns fed variable t v) : P t v :=
      match H in ImpSpec.value _ _ _ _ _ _ t v return P t v with
      | value_fed _ _ _ _ _ _ t Q v E q => Hf t Q v E q
      | value_constant _ _ _ _ _ _ n v E J => Hc n v E J
      | value_variable _ _ _ _ _ _ n s ins v E J x => Hv n s ins v E J x
      | value_operation _ _ _ _ _ _ n i o ins vs v E J F X =>
          Ho n i o ins vs v E J F
            ((fix all ins vs (F : Forall2 (value ns fed variable) ins vs) : Forall2 P ins vs :=
                match F with Forall2_nil _ => Forall2_nil _ | Forall2_cons t v h F' => Forall2_cons t v (value_induction t v h) (all _ _ F') end) ins vs F) X
      end.
  End induction.

  (** ** Part of a graph *)

  (** A tensor has the value that it has in a part of the graph with all it depends on. *)
  Lemma part_value : forall (a b : list node) fed va vb,
    (forall n t, In n a -> In t (node_inputs n) -> In (t_op t) (map node_name a)) ->
    NoDup (map node_name (a ++ b)) -> (forall n v, In n (map node_name a) -> (va n v <-> vb n v)) ->
    forall t v, In (t_op t) (map node_name a) -> (value (a ++ b) fed vb t v <-> value a fed va t v).
  Proof.
    intros a b fed va vb C N Vs t v T. rewrite map_app in N. apply nodup_app in N. destruct N as [_ [_ D]].
    assert (L : forall n k ins, In n (map node_name a) -> In (Node n k ins) (a ++ b) -> In (Node n k ins) a).
    { intros n k ins I J. apply in_app_or in J. destruct J as [J|J]; [exact J|]. destruct (D n I). now apply (in_map node_name) in J. }
    split.
    - intros H. revert t v H T. refine (value_induction (a ++ b) fed vb (fun t v => In (t_op t) (map node_name a) -> value a fed va t v) _ _ _ _);
        [intros t Q v E q T|intros n v E I T|intros n s ins v E I x T|intros n i o ins vs v E I F IH X T].
      + exact (value_fed O V run a fed va t Q v E q).
      + apply value_constant; [exact E|]. exact (L _ _ _ T I).
      + apply value_variable with s ins; [exact E | exact (L _ _ _ T I) | now apply Vs].
      + apply value_operation with o ins vs; [exact E | exact (L _ _ _ T I) | | exact X].
        assert (CI : forall u, In u ins -> In (t_op u) (map node_name a)) by (intros u U; exact (C _ u (L _ _ _ T I) U)).
        clear - IH CI. induction IH as [|u w us ws H F IHF]; constructor; [apply H, CI; now left | apply IHF; intros u' U; apply CI; now right].
    - intros H. revert t v H T. refine (value_induction a fed va (fun t v => In (t_op t) (map node_name a) -> value (a ++ b) fed vb t v) _ _ _ _);
        [intros t Q v E q T|intros n v E I T|intros n s ins v E I x T|intros n i o ins vs v E I F IH X T].
      + exact (value_fed O V run _ fed vb t Q v E q).
      + apply value_constant; [exact E | apply in_or_app; now left].
      + apply value_variable with s ins; [exact E | apply in_or_app; now left | now apply Vs].
      + apply value_operation with o ins vs; [exact E | apply in_or_app; now left | | exact X].
        assert (CI : forall u, In u ins -> In (t_op u) (map node_name a)) by (intros u U; exact (C _ u I U)).
        clear - IH CI. induction IH as [|u w us ws H F IHF]; constructor; [apply H, CI; now left | apply IHF; intros u' U; apply CI; now right].
  Qed.

  (** ** Imported nodes *)

  Section import.
    Variables (old saved : list node) (scope : string) (imap : list (tensor * tensor)).
    Hypothesis scope_name : scope <> EmptyString.
    Hypothesis fresh : forall n, In n (map node_name old) -> ~ below scope n.
    Definition image (t : tensor) : tensor := match get_tensor imap t with Some r => r | None => Tensor (in_scope scope (t_op t)) (t_index t) end.
    Definition imported : list node := map (fun n => Node (in_scope scope (node_name n)) (node_kind n) (map image (node_inputs n))) saved.
    Lemma import_nodes : map (import_node O V (map node_name old) scope imap) saved = imported.
    Proof.
      apply map_ext. intros [n k ins]. unfold import_node. cbn. rewrite (imported_name_fresh _ _ _ scope_name fresh). f_equal.
      apply map_ext. intros t. unfold image. destruct (get_tensor imap t); [reflexivity|]. now rewrite (imported_name_fresh _ _ _ scope_name fresh).
    Qed.
    Lemma imported_names : map node_name imported = map (in_scope scope) (map node_name saved).
    Proof. unfold imported. rewrite !map_map. reflexivity. Qed.
    Lemma in_imported : forall n k ins, In (Node (in_scope scope n) k ins) (old ++ imported) -> exists ins', In (Node n k ins') saved /\ ins = map image ins'.
    Proof.
      intros n k ins I. apply in_app_or in I. destruct I as [I|I].
      - apply (in_map node_name) in I. destruct (fresh _ I). now apply in_scope_below.
      - apply in_map_iff in I. destruct I as [[n' k' ins'] [E I]]. cbn in E. injection E as E -> <-. apply in_scope_inj in E. subst n'. now exists ins'.
    Qed.

    Variables (fed given : feed) (variable saved_variable : string -> V -> Prop).
    Hypothesis mapped : forall t r, get_tensor imap t = Some r -> exists P, given t = Some P /\ forall v, P v <-> value (old ++ imported) fed variable r v.
    Hypothesis unmapped : forall t, get_tensor imap t = None -> given t = fed (Tensor (in_scope scope (t_op t)) (t_index t)).
    Hypothesis variables : forall n s ins v, In (Node n (Variable_op O V s) ins) saved -> (saved_variable n v <-> variable (in_scope scope n) v).
    Lemma import_value : forall t v, value saved given saved_variable t v <-> value (old ++ imported) fed variable (image t) v.
    Proof.
      assert (Un : forall t, given t = None -> get_tensor imap t = None /\ fed (Tensor (in_scope scope (t_op t)) (t_index t)) = None).
      { intros t E. destruct (get_tensor imap t) as [r|] eqn:G; [destruct (mapped t r G) as [P [X _]]; congruence|]. split; [reflexivity|]. now rewrite <- (unmapped t G). }
      assert (Im : forall t, get_tensor imap t = None -> image t = Tensor (in_scope scope (t_op t)) (t_index t)) by (intros t E; unfold image; now rewrite E).
      intros t v. split.
      - intros H. revert t v H. refine (value_induction saved given saved_variable (fun t v => value (old ++ imported) fed variable (image t) v) _ _ _ _);
          [intros t Q v E q|intros n v E I|intros n s ins v E I x|intros n i o ins vs v E I F IH X].
        + destruct (get_tensor imap t) as [r|] eqn:G.
          * destruct (mapped t r G) as [P [E' W]]. rewrite E in E'. injection E' as <-. apply W in q. unfold image. now rewrite G.
          * rewrite (Im t G). apply value_fed with Q; [|exact q]. now rewrite <- (unmapped t G).
        + destruct (Un _ E) as [G Fd]. rewrite (Im _ G). cbn in *. apply value_constant; [exact Fd|]. apply in_or_app. right.
          apply in_map_iff. exists (Node n (Constant O V v) []). now split.
        + destruct (Un _ E) as [G Fd]. rewrite (Im _ G). cbn in *. apply value_variable with s (map image ins); [exact Fd| |now apply (variables n s ins)].
          apply in_or_app. right. apply in_map_iff. exists (Node n (Variable_op O V s) ins). now split.
        + destruct (Un _ E) as [G Fd]. rewrite (Im _ G). cbn in *. apply value_operation with o (map image ins) vs; [exact Fd| | |exact X].
          * apply in_or_app. right. apply in_map_iff. exists (Node n (Operation O V o) ins). now split.
          * clear - IH. induction IH; cbn; constructor; auto.
      - remember (image t) as u eqn:U. intros H. revert u v H t U.
        refine (value_induction (old ++ imported) fed variable (fun u v => forall t, u = image t -> value saved given saved_variable t v) _ _ _ _);
          [intros u Q v E q t U|intros n v E I t U|intros n s ins v E I x t U|intros n i o ins vs v E I F IH X t U];
          (destruct (get_tensor imap t) as [r|] eqn:G;
            [destruct (mapped t r G) as [P [E' W]]; apply value_fed with P; [exact E'|]; apply W;
             assert (Ur : image t = r) by (unfold image; now rewrite G); rewrite <- Ur, <- U | rewrite (Im t G) in U; pose proof (unmapped t G) as Gt; rewrite <- U in Gt]).
        + exact (value_fed O V run _ fed variable u Q v E q).
        + apply value_fed with Q; [congruence | exact q].
        + now apply value_constant.
        + injection U as -> Ui. apply in_imported in I. destruct I as [ins' [I Ei]]. destruct ins'; [|discriminate]. destruct t as [a b]. cbn in *. subst b.
          apply value_constant; [congruence | exact I].
        + now apply value_variable with s ins.
        + injection U as -> Ui. apply in_imported in I. destruct I as [ins' [I Ei]]. destruct t as [a b]. cbn in *. subst b.
          apply value_variable with s ins'; [congruence | exact I | now apply (variables a s ins')].
        + now apply value_operation with o ins vs.
        + injection U as -> ->. apply in_imported in I. destruct I as [ins' [I ->]]. destruct t as [a b]. cbn in *.
          apply value_operation with o ins' vs; [congruence | exact I | | exact X]. clear - IH. remember (map image ins') as us eqn:Eu.
          revert ins' Eu. induction IH as [|u w us ws H F IHF]; intros [|t ts] Eu; try discriminate; constructor; injection Eu as -> ->; [now apply H | now apply IHF].
    Qed.
  End import.
End proofs.
