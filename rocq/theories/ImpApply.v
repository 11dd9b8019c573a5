(** Proofs about partially_apply_saved_transform. *)
From Coq Require Import String Ascii List Bool Arith Lia.
From Verif Require Import PreModel ImpModel ImpSpec ImpNames PreProofs ImpProofs.
Import ListNotations.

Lemma dict_get_app : forall A (a b : list (string * A)) k, dict_get (a ++ b) k = match dict_get a k with Some x => Some x | None => dict_get b k end.
Proof. induction a as [|[k' x] a IH]; intros b k; cbn; [reflexivity|]. destruct (String.eqb k' k); [reflexivity | apply IH]. Qed.
Lemma nodup_keys : forall A B (l : list (A * B)), NoDup (map fst l) -> NoDup l.
Proof. intros A B l N. exact (NoDup_map_inv fst l N). Qed.

Lemma combine_image : forall A B (f : A -> B) l, combine l (map f l) = map (fun x => (x, f x)) l.
Proof. induction l as [|x l IH]; cbn; [reflexivity | now rewrite IH]. Qed.
Lemma once : forall A B (f : A -> B) (l : list A) x y, NoDup (map f l) -> In x l -> In y l -> f x = f y -> x = y.
Proof.
  induction l as [|z l IH]; intros x y N I J E; [destruct I|]. cbn in N. apply NoDup_cons_iff in N. destruct N as [N1 N2].
  destruct I as [<-|I], J as [<-|J]; [reflexivity | | | now apply IH]; exfalso; apply N1; [rewrite E | rewrite <- E]; now apply in_map.
Qed.

Section apply.
  Variables O V : Type.
  Variable run : O -> list V -> list V.
  Variable checkpoint : string -> string -> option nat -> option V.
  Local Notation node := (node O V).
  Local Notation graph := (graph O V).
  Local Notation saved_model := (saved_model O V).
  Local Notation Node := (Node O V).
  Local Notation node_name := (node_name O V).
  Local Notation node_inputs := (node_inputs O V).
  Local Notation node_kind := (node_kind O V).
  Local Notation nodes := (nodes O V).
  Local Notation names := (names O V).
  Local Notation names_in_use := (names_in_use O V).
  Local Notation initializers := (initializers O V).
  Local Notation value := (value O V run).
  Local Notation initialized := (initialized O V checkpoint).
  Local Notation feed := (feed V).
  Local Notation well_formed := (well_formed O V).
  Local Notation scoped := (scoped O V).
  Local Notation image := image.

  (** ** Constants *)

  Lemma add_constants_spec : forall current assets g g1 am, well_formed g -> scoped current g -> add_constants O V current assets g = (g1, am) ->
    exists consts, nodes g1 = nodes g ++ consts /\ well_formed g1 /\ scoped current g1 /\ initializers g1 = initializers g /\ asset_filepaths O V g1 = asset_filepaths O V g /\
      (forall n, In n consts -> node_inputs n = []) /\
      Forall2 (fun a b => fst a = fst b /\ exists n, snd b = Tensor n 0 /\ In (Node n (Constant O V (snd a)) []) consts) assets am.
  Proof.
    intros current. induction assets as [|[t path] assets IH]; intros g g1 am W S E; cbn in E.
    - injection E as <- <-. exists []. rewrite app_nil_r. repeat split; try apply W; try assumption; [intros n [] | constructor].
    - destruct (unique_name (names_in_use g) (in_scope current "Const")) as [n used] eqn:U.
      set (g0 := Graph O V (nodes g ++ [Node n (Constant O V path) []]) used (asset_filepaths O V g) (initializers g)) in *.
      destruct (add_constants O V current assets g0) as [g2 m] eqn:A. injection E as <- <-.
      destruct (unique_name_spec _ _ _ _ U) as [U1 [U2 [U3 U4]]]. destruct W as [W1 [W2 [W3 W4]]].
      assert (Nn : ~ In n (map node_name (nodes g))) by (intros X; exact (W2 n X U1)).
      assert (W0 : well_formed g0).
      { unfold g0. split; [|split; [|split]]; cbn.
        - rewrite map_app. apply nodup_app. split; [exact W1|]. split; [repeat constructor; auto|]. cbn. intros x X [<-|[]]. now apply Nn.
        - intros x X. rewrite map_app in X. apply in_app_or in X. destruct X as [X|[<-|[]]]; [apply U3; now apply W2 | exact U2].
        - intros x u X I. rewrite map_app. apply in_app_or in X. apply in_or_app. destruct X as [X|[<-|[]]]; [left; now apply (W3 x) | destruct I].
        - intros x i X. rewrite map_app. apply in_or_app. left. now apply (W4 x i). }
      assert (S0 : scoped current g0).
      { intros s x X Fs B. unfold g0 in *. cbn in *. rewrite map_app in X. apply in_app_or in X. destruct X as [X|[<-|[]]]; [apply U3; now apply (S s x)|].
        exfalso. apply below_in_scope in B. destruct B as [r B]. cbn in B.
        assert (F : exists c, slash_free c /\ n = in_scope current c).
        { destruct U4 as [->|[i ->]]; [exists "Const"%string; split; [exact const_free | reflexivity]|].
          exists (suffixed "Const" i). split; [apply suffix_free, const_free | apply in_scope_suffixed]. }
        destruct F as [c [Fc ->]]. apply in_scope_inj in B. exact (Fc s r B). }
      destruct (IH g0 g2 m W0 S0 A) as [consts [H1 [H2 [H3 [H4 [H4' [H5 H6]]]]]]].
      exists (Node n (Constant O V path) [] :: consts). split; [rewrite H1; unfold g0; cbn; now rewrite <- app_assoc|].
      split; [exact H2|]. split; [exact H3|]. split; [exact H4|]. split; [exact H4'|]. split; [intros x [<-|X]; [reflexivity | now apply H5]|].
      constructor; [split; [reflexivity | exists n; split; [reflexivity | now left]]|].
      clear - H6. induction H6 as [|a b la lb [K [x [X Y]]] F IHF]; constructor; [|exact IHF]. split; [exact K|]. exists x. split; [exact X | now right].
  Qed.

  (** ** Inputs *)

  Lemma expand_spec : forall e x l, expand e x = Some l -> l = combine (components e) (parts x).
  Proof. intros [t|i v d|ts|] [t'|i' v' d'|ts'] l E; cbn in *; try discriminate; injection E as <-; reflexivity. Qed.
  Lemma expand_map_spec : forall given sig ex, expand_input_map given sig = Some ex -> exists entries, ex = update_map [] (concat entries) /\
    Forall2 (fun kx l => exists e, dict_get sig (fst kx) = Some e /\ l = combine (components e) (parts (snd kx))) given entries.
  Proof.
    intros given sig ex E. unfold expand_input_map in E. destruct (all_some _) as [entries|] eqn:A; [|discriminate]. injection E as <-.
    exists entries. split; [reflexivity|]. apply all_some_map in A. clear - A. induction A as [|[k x] l ks ls H F IH]; constructor; [|exact IH].
    cbn in *. destruct (dict_get sig k) as [e|]; [|discriminate]. exists e. split; [reflexivity | now apply expand_spec].
  Qed.
  Lemma entries_in : forall given sig entries, NoDup (map fst sig) ->
    Forall2 (fun (kx : string * tensor_or_composite) l => exists e, dict_get sig (fst kx) = Some e /\ l = combine (components e) (parts (snd kx))) given entries ->
    forall t r, In (t, r) (concat entries) <-> exists k e x, In (k, e) sig /\ In (k, x) given /\ In (t, r) (combine (components e) (parts x)).
  Proof.
    intros given sig entries N F. induction F as [|[k x] l ks ls [e [D ->]] F IH]; intros t r; cbn [concat].
    - split; [intros [] | intros [k [e [x [_ [[] _]]]]]].
    - rewrite in_app_iff, IH. cbn [fst snd] in *. split.
      + intros [H|[k' [e' [x' [H1 [H2 H3]]]]]]; [exists k, e, x; split; [now apply dict_get_in | split; [now left | exact H]] | exists k', e', x'; split; [exact H1 | split; [now right | exact H3]]].
      + intros [k' [e' [x' [H1 [[E|H2] H3]]]]]; [injection E as -> ->; left; apply (dict_get_nodup _ _ _ _ N) in H1; rewrite D in H1; injection H1 as ->; exact H3|].
        right. now exists k', e', x'.
  Qed.
  Lemma entries_nodup : forall (sig : list (string * encoding)) given entries, NoDup (flat_map (fun e => components (snd e)) sig) -> NoDup (map fst given) ->
    Forall2 (fun (kx : string * tensor_or_composite) l => exists e, dict_get sig (fst kx) = Some e /\ l = combine (components e) (parts (snd kx))) given entries ->
    NoDup (map fst (concat entries)) /\ forall t, In t (map fst (concat entries)) -> exists k e, In k (map fst given) /\ In (k, e) sig /\ In t (components e).
  Proof.
    intros sig given entries N Ng F. induction F as [|[k x] l ks ls [e [D ->]] F IH]; cbn [concat map fst snd] in *; [split; [constructor | intros t []]|].
    apply NoDup_cons_iff in Ng. destruct Ng as [Nk Ng]. destruct (IH Ng) as [I1 I2]. rewrite map_app. pose proof (dict_get_in _ _ _ _ D) as De. split.
    - apply nodup_app. split; [apply combine_nodup; exact (flat_part _ _ (fun e => components (snd e)) sig (k, e) De N)|]. split; [exact I1|].
      intros t T T'. apply combine_keys in T. destruct (I2 t T') as [k' [e' [K [E' C]]]].
      assert (X : (k, e) = (k', e')) by (apply (flat_same _ _ (fun e => components (snd e)) sig _ _ t De E'); assumption). injection X as <- _. exact (Nk K).
    - intros t T. apply in_app_or in T. destruct T as [T|T].
      + apply combine_keys in T. exists k, e. split; [now left | now split].
      + destruct (I2 t T) as [k' [e' [K X]]]. exists k', e'. split; [now right | exact X].
  Qed.

  (** ** Outputs *)

  Lemma lookup_image : forall g scope imap t u, lookup_remapped_tensor O V g scope imap t = Some u -> u = image scope imap t.
  Proof. intros g scope imap t u E. unfold lookup_remapped_tensor, ImpProofs.image in *. destruct (get_tensor imap t); [now injection E|]. destruct (in_graph _ _); [now injection E | discriminate]. Qed.
  Lemma lookup_info_parts : forall g scope imap e x, lookup_info O V g scope imap e = Some x -> parts x = map (image scope imap) (components e).
  Proof.
    intros g scope imap e x E. unfold lookup_info in E. destruct e as [t|i v d|ts|].
    - destruct (lookup_remapped_tensor O V g scope imap t) as [u|] eqn:L; [|discriminate]. injection E as <-. apply lookup_image in L. subst u. reflexivity.
    - destruct (lookup_remapped_tensor O V g scope imap i) as [i'|] eqn:L1; [|discriminate].
      destruct (lookup_remapped_tensor O V g scope imap v) as [v'|] eqn:L2; [|discriminate].
      destruct (lookup_remapped_tensor O V g scope imap d) as [d'|] eqn:L3; [|discriminate].
      injection E as <-. apply lookup_image in L1, L2, L3. subst. reflexivity.
    - destruct (all_some _) as [us|] eqn:L; [|discriminate]. injection E as <-. apply all_some_map in L. cbn. clear - L.
      induction L as [|t u ts us H F IH]; cbn; [reflexivity|]. apply lookup_image in H. now rewrite H, IH.
    - discriminate.
  Qed.
  Lemma lookup_all_parts : forall g scope imap d l, lookup_all O V g scope imap d = Some l ->
    Forall2 (fun ki kx => fst ki = fst kx /\ parts (snd kx) = map (image scope imap) (components (snd ki))) d l.
  Proof.
    intros g scope imap d l E. unfold lookup_all in E. apply all_some_map in E. induction E as [|[k e] kx d l H F IH]; constructor; [|exact IH].
    cbn [fst snd] in *. destruct (lookup_info O V g scope imap e) as [x|] eqn:L; [|discriminate]. injection H as <-. cbn. split; [reflexivity | exact (lookup_info_parts _ _ _ _ _ L)].
  Qed.

  Lemma lookup_there : forall g scope imap t u, lookup_remapped_tensor O V g scope imap t = Some u -> get_tensor imap t = None -> there O V g u.
  Proof.
    intros g scope imap t u E N. unfold lookup_remapped_tensor in E. rewrite N in E. destruct (in_graph _ _) eqn:I; [|discriminate]. injection E as <-.
    apply in_graph_spec in I. exact I.
  Qed.
  Lemma lookup_all_there : forall g scope imap d l, lookup_all O V g scope imap d = Some l ->
    forall k e t, In (k, e) d -> In t (components e) -> get_tensor imap t = None -> there O V g (image scope imap t).
  Proof.
    intros g scope imap d l E k e t I C N. unfold lookup_all in E. apply all_some_map in E. induction E as [|ke kx d l H F IH]; [destruct I|].
    destruct I as [->|I]; [|now apply IH]. clear IH F. cbn [fst snd] in H. destruct (lookup_info O V g scope imap e) as [x|] eqn:L; [|discriminate]. clear H.
    assert (T : exists u, lookup_remapped_tensor O V g scope imap t = Some u).
    { unfold lookup_info in L. destruct e as [t'|i v w|ts|]; cbn in C.
      - destruct C as [<-|[]]. destruct (lookup_remapped_tensor O V g scope imap t'); [eauto | discriminate].
      - destruct (lookup_remapped_tensor O V g scope imap i) eqn:X1; [|discriminate].
        destruct (lookup_remapped_tensor O V g scope imap v) eqn:X2; [|discriminate].
        destruct (lookup_remapped_tensor O V g scope imap w) eqn:X3; [|discriminate].
        destruct C as [<-|[<-|[<-|[]]]]; eauto.
      - destruct (all_some _) as [us|] eqn:A; [|discriminate]. apply all_some_map in A. clear - A C. induction A as [|a u ts us H F IH]; [destruct C|].
        destruct C as [->|C]; [eauto | now apply IH].
      - destruct C. }
    destruct T as [u T]. rewrite <- (lookup_image _ _ _ _ _ T). exact (lookup_there _ _ _ _ _ T N).
  Qed.

  (** ** Variables *)

  Lemma initializer_in : forall dir scope ns inits, all_some (map (variable_initializer O V checkpoint dir scope) ns) = Some inits ->
    forall k i, In (k, i) (concat inits) <-> exists s ins original, In (Node k (Variable_op O V s) ins) ns /\ k = (scope ++ "/" ++ original)%string /\
      checkpoint_initializer dir original s = Some i.
  Proof.
    intros dir scope ns inits E k i. apply all_some_map in E. induction E as [|n l ns inits H F IH]; cbn [concat].
    - split; [intros [] | intros [s [ins [o [[] _]]]]].
    - rewrite in_app_iff, IH. clear IH F. destruct n as [n kd ins]. unfold variable_initializer in H. cbn [ImpModel.node_kind ImpModel.node_name] in H. split.
      + intros [X|[s [ins' [o [X Y]]]]]; [|exists s, ins', o; split; [now right | exact Y]].
        destruct kd as [|v|s|o]; try (injection H as <-; destruct X).
        destruct (strip_prefix (scope ++ "/") n) as [o|] eqn:P; [|injection H as <-; destruct X].
        destruct (checkpoint_initializer dir o s) as [j|] eqn:C; [|discriminate]. destruct (checkpoint _ _ _); [|discriminate]. injection H as <-.
        destruct X as [[= <- <-]|[]]. apply strip_prefix_some in P. rewrite app_assoc_s in P. exists s, ins, o. split; [now left | now split].
      + intros [s [ins' [o [[X|X] [Y Z]]]]]; [|right; now exists s, ins', o]. injection X as -> -> ->. left.
        assert (P : strip_prefix (scope ++ "/") k = Some o) by (rewrite Y, <- app_assoc_s; apply strip_prefix_app). rewrite P, Z in H.
        destruct (checkpoint _ _ _); [|discriminate]. injection H as <-. now left.
  Qed.
  Lemma initializer_exists : forall dir scope ns inits, all_some (map (variable_initializer O V checkpoint dir scope) ns) = Some inits ->
    forall original s ins, In (Node (scope ++ "/" ++ original) (Variable_op O V s) ins) ns -> exists i, checkpoint_initializer dir original s = Some i.
  Proof.
    intros dir scope ns inits E o s ins I. apply all_some_map in E. induction E as [|n l ns inits H F IH]; [destruct I|].
    destruct I as [->|I]; [|now apply IH]. unfold variable_initializer in H. cbn [ImpModel.node_kind ImpModel.node_name] in H.
    assert (P : strip_prefix (scope ++ "/") (scope ++ "/" ++ o) = Some o) by (rewrite <- app_assoc_s; apply strip_prefix_app). rewrite P in H.
    destruct (checkpoint_initializer dir o s) as [i|]; [now exists i | discriminate].
  Qed.

  (** ** The call *)

  Section call.
    Variables (g : graph) (current dir : string) (m : saved_model).
    Variables (given : list (string * tensor_or_composite)) (replacements : list (tensor * tensor)).
    Variables (g' : graph) (unbound outputs : list (string * tensor_or_composite)).
    Hypothesis W : well_formed g.
    Hypothesis S : scoped current g.
    Hypothesis P : proper O V m replacements.
    Hypothesis Ng : NoDup (map fst given).
    Hypothesis Tg : forall k x r, In (k, x) given -> In r (parts x) -> there O V g r.
    Hypothesis Tr : forall t r, In (t, r) replacements -> there O V g r.
    Hypothesis call : partially_apply_saved_transform O V checkpoint g current dir m given replacements = Some (g', unbound, outputs).

    Record facts (g1 : graph) (am : list (tensor * tensor)) (scope : string) (imap : list (tensor * tensor)) (consts : list node) (inits : list (string * initializer)) : Prop := {
      f_nodes1 : nodes g1 = nodes g ++ consts;
      f_wf1 : well_formed g1;
      f_scoped1 : scoped current g1;
      f_init1 : initializers g1 = initializers g;
      f_consts : forall n, In n consts -> node_inputs n = [];
      f_assets : Forall2 (fun a b => fst a = fst b /\ exists n, snd b = Tensor n 0 /\ In (Node n (Constant O V (snd a)) []) consts) (saved_assets O V m) am;
      f_scope : exists s, slash_free s /\ s <> EmptyString /\ scope = in_scope current s;
      f_free : dict_get (names_in_use g1) (lower scope) = None;
      f_map : forall t r, get_tensor imap t = Some r <-> stands_for O V m given replacements t r \/ In (t, r) am;
      f_nodes : nodes g' = nodes g1 ++ imported O V (saved_nodes O V m) scope imap;
      f_used : names_in_use g' = map (fun n => (lower (node_name n), 1)) (imported O V (saved_nodes O V m) scope imap) ++ (lower scope, 1) :: names_in_use g1;
      f_files : asset_filepaths O V g' = asset_filepaths O V g ++ map snd am;
      f_inits : initializers g' = inits ++ initializers g;
      f_variables : forall k i, In (k, i) inits <-> exists s ins original, In (Node k (Variable_op O V s) ins) (nodes g') /\ k = (scope ++ "/" ++ original)%string /\
        checkpoint_initializer dir original s = Some i;
      f_exists : forall original s ins, In (Node (scope ++ "/" ++ original) (Variable_op O V s) ins) (nodes g') -> exists i, checkpoint_initializer dir original s = Some i;
      f_outputs : Forall2 (fun ki kx => fst ki = fst kx /\ parts (snd kx) = map (image scope imap) (components (snd ki))) (output_signature O V m) outputs;
      f_unbound : Forall2 (fun ki kx => fst ki = fst kx /\ parts (snd kx) = map (image scope imap) (components (snd ki)))
        (filter (fun ki => negb (has_name given (fst ki))) (input_signature O V m)) unbound;
      f_there : forall k e t, In (k, e) (filter (fun ki => negb (has_name given (fst ki))) (input_signature O V m)) -> In t (components e) -> get_tensor imap t = None ->
        there O V g' (image scope imap t);
      f_expected : forall k x, In (k, x) given -> In k (map fst (input_signature O V m)) }.

    Lemma nonempty_scope : forall cur s, s <> EmptyString -> in_scope cur s <> EmptyString.
    Proof. intros [|c cur] s H; cbn; [exact H | discriminate]. Qed.
    Lemma fresh_scope : forall g1 scope, scoped current g1 -> (exists s, slash_free s /\ s <> EmptyString /\ scope = in_scope current s) ->
      dict_get (names_in_use g1) (lower scope) = None -> forall n, In n (map node_name (nodes g1)) -> ~ below scope n.
    Proof. intros g1 scope S1 [s [F [_ ->]]] D n I B. exact (S1 s n I F B D). Qed.

    Lemma call_facts : exists g1 am scope imap consts inits, facts g1 am scope imap consts inits.
    Proof.
      unfold partially_apply_saved_transform in call. destruct (add_constants O V current (saved_assets O V m) g) as [g1 am] eqn:A.
      destruct (add_constants_spec _ _ _ _ _ W S A) as [consts [H1 [H2 [H3 [H4 [H4' [H5 H6]]]]]]].
      destruct (forallb _ given) eqn:X; [|discriminate].
      destruct (expand_input_map given (input_signature O V m)) as [ex|] eqn:E; [|discriminate].
      destruct (unique_name (names_in_use g1) (in_scope current "transform")) as [scope used] eqn:U. cbn [fst] in call.
      set (imap := update_map (update_map ex am) replacements) in *.
      destruct (trainable_variables O V m); [discriminate|].
      destruct (import_meta_graph O V g1 scope imap (saved_nodes O V m)) as [g2|] eqn:Im; [|discriminate].
      destruct (initialize_variables O V checkpoint dir scope _) as [g4|] eqn:In4; [|discriminate].
      destruct (lookup_all O V g4 scope imap (output_signature O V m)) as [outs|] eqn:L1; [|discriminate].
      destruct (lookup_all O V g4 scope imap (filter _ _)) as [unb|] eqn:L2; [|discriminate].
      injection call as E1 E2 E3. subst g4 unb outs.
      destruct (unique_name_spec _ _ _ _ U) as [U1 [_ [_ U4]]].
      assert (Sc : exists s, slash_free s /\ s <> EmptyString /\ scope = in_scope current s).
      { destruct U4 as [->|[i ->]].
        - exists "transform"%string. split; [exact transform_free | split; [discriminate | reflexivity]].
        - exists (suffixed "transform" i). split; [apply suffix_free, transform_free | split; [discriminate | apply in_scope_suffixed]]. }
      assert (Se : scope <> EmptyString) by (destruct Sc as [s [_ [N ->]]]; now apply nonempty_scope).
      pose proof (fresh_scope g1 scope H3 Sc U1) as Fr.
      unfold import_meta_graph in Im. destruct (forallb _ imap); [|discriminate].
      pose proof (import_nodes O V (nodes g1) (saved_nodes O V m) scope imap Se Fr) as IN. unfold ImpModel.names in Im. rewrite IN in Im. injection Im as <-.
      unfold initialize_variables in In4. cbn [ImpModel.nodes ImpModel.names_in_use ImpModel.initializers ImpModel.asset_filepaths] in In4.
      destruct (all_some _) as [inits|] eqn:Ai; [|discriminate]. injection In4 as G4.
      destruct (expand_map_spec _ _ _ E) as [entries [-> F]].
      destruct P as [P1 [P2 [P3 [P4 P5]]]].
      apply nodup_app in P4. destruct P4 as [Na [Nb D]].
      destruct (entries_nodup (input_signature O V m) given entries Na Ng F) as [En Ek].
      assert (Am : map fst am = map fst (saved_assets O V m)) by (clear - H6; induction H6 as [|a b la lb [K _] F IH]; cbn; congruence).
      assert (N : NoDup (map fst (concat entries ++ am ++ replacements))).
      { rewrite !map_app, Am. apply nodup_app. split; [exact En|]. split; [exact Nb|]. intros t T. apply D.
        destruct (Ek t T) as [k [e [_ [I C]]]]. apply in_flat_map. now exists (k, e). }
      assert (Ei : imap = concat entries ++ am ++ replacements).
      { unfold imap. assert (N1 : NoDup (map fst ([] ++ concat entries))) by exact En. rewrite (update_map_app _ [] N1). cbn [app].
        rewrite app_assoc in N. assert (N2 : NoDup (map fst (concat entries ++ am))) by (rewrite map_app in N; now apply nodup_app in N).
        rewrite (update_map_app _ _ N2), (update_map_app _ _ N). now rewrite app_assoc. }
      exists g1, am, scope, imap, consts, (concat inits). split; try assumption; try (rewrite <- G4; reflexivity).
      - intros t r. rewrite Ei, (get_tensor_spec _ _ _ N), !in_app_iff, (entries_in _ _ _ P3 F). split.
        + intros [[k [e [x [I1 [I2 I3]]]]]|[I|I]]; [left; exact (stands_given O V m given replacements t r k e x I1 I2 I3) | now right | left; now apply stands_replaced].
        + intros [[I|k e x I1 I2 I3]|I]; [auto | left; now exists k, e, x | auto].
      - rewrite <- G4. cbn. now rewrite H4'.
      - rewrite <- G4. cbn. now rewrite H4.
      - rewrite <- G4. exact (initializer_in _ _ _ _ Ai).
      - rewrite <- G4. exact (initializer_exists _ _ _ _ Ai).
      - exact (lookup_all_parts _ _ _ _ _ L1).
      - exact (lookup_all_parts _ _ _ _ _ L2).
      - exact (lookup_all_there _ _ _ _ _ L2).
      - intros k x I. rewrite forallb_forall in X. apply X in I. unfold has_name in I. apply existsb_exists in I. destruct I as [[k' e] [I K]].
        apply String.eqb_eq in K. cbn in *. subst k'. now apply (in_map fst) in I.
    Qed.

    (** What follows from these *)
    Definition tensor_dec : forall a b : tensor, {a = b} + {a <> b}.
    Proof. decide equality; [apply Nat.eq_dec | apply string_dec]. Defined.

    Section known.
      Variables (g1 : graph) (am : list (tensor * tensor)) (scope : string) (imap : list (tensor * tensor)) (consts : list node) (inits : list (string * initializer)).
      Hypothesis f : facts g1 am scope imap consts inits.
      Local Notation imps := (imported O V (saved_nodes O V m) scope imap).

      Lemma scope_nonempty : scope <> EmptyString.
      Proof. destruct (f_scope _ _ _ _ _ _ f) as [s [_ [N ->]]]. now apply nonempty_scope. Qed.
      Lemma scope_fresh : forall n, In n (map node_name (nodes g1)) -> ~ below scope n.
      Proof. exact (fresh_scope g1 scope (f_scoped1 _ _ _ _ _ _ f) (f_scope _ _ _ _ _ _ f) (f_free _ _ _ _ _ _ f)). Qed.
      Lemma old_in_g1 : forall n, In n (map node_name (nodes g)) -> In n (map node_name (nodes g1)).
      Proof. intros n I. rewrite (f_nodes1 _ _ _ _ _ _ f), map_app. apply in_or_app. now left. Qed.
      Lemma names_g' : NoDup (map node_name (nodes g')).
      Proof.
        rewrite (f_nodes _ _ _ _ _ _ f), map_app, imported_names. apply nodup_app. split; [apply (f_wf1 _ _ _ _ _ _ f)|]. split.
        - apply FinFun.Injective_map_NoDup; [intros a b; apply in_scope_inj | apply P].
        - intros n I J. apply in_map_iff in J. destruct J as [x [<- _]]. apply (scope_fresh _ I). apply in_scope_below, scope_nonempty.
      Qed.

      Lemma asset_image : forall t path, asset_of O V m t path -> exists n, In (t, Tensor n 0) am /\ In (Node n (Constant O V path) []) consts.
      Proof.
        intros t path A. unfold asset_of in A. pose proof (f_assets _ _ _ _ _ _ f) as F. clear - F A. induction F as [|a [t' r] la lb [K [n [R I]]] F IH]; [destruct A|].
        destruct A as [->|A]; [cbn in *; subst; exists n; split; [now left | exact I]|]. destruct (IH A) as [n' [X Y]]. exists n'. split; [now right | exact Y].
      Qed.
      Lemma image_asset : forall t r, In (t, r) am -> exists path n, asset_of O V m t path /\ r = Tensor n 0 /\ In (Node n (Constant O V path) []) consts.
      Proof.
        intros t r A. pose proof (f_assets _ _ _ _ _ _ f) as F. unfold asset_of. clear - F A. induction F as [|[t' path] b la lb [K [n [R I]]] F IH]; [destruct A|].
        destruct A as [->|A]; [cbn in *; subst; exists path, n; split; [now left | now split]|]. destruct (IH A) as [p [n' [X Y]]]. exists p, n'. split; [now right | exact Y].
      Qed.
      Lemma unbound_keys : forall k e, In (k, e) (filter (fun ki => negb (has_name given (fst ki))) (input_signature O V m)) <->
        In (k, e) (input_signature O V m) /\ ~ In k (map fst given).
      Proof.
        intros k e. rewrite filter_In. cbn [fst]. assert (X : has_name given k = true <-> In k (map fst given)).
        { unfold has_name. rewrite existsb_exists, in_map_iff. split; intros [x [A B]]; exists x; [apply String.eqb_eq in B | apply String.eqb_eq in A]; now split. }
        rewrite <- X. destruct (has_name given k); cbn; intuition congruence.
      Qed.
      Lemma open_component : forall t u, left_open O V m unbound t u <->
        exists k e, In (k, e) (input_signature O V m) /\ ~ In k (map fst given) /\ In t (components e) /\ u = image scope imap t.
      Proof.
        intros t u. pose proof (f_unbound _ _ _ _ _ _ f) as F. pose proof unbound_keys as K. set (us := filter _ _) in *. split.
        - intros [k [e [x [I [U C]]]]]. assert (X : exists e', In (k, e') us /\ parts x = map (image scope imap) (components e')).
          { clear - F U. induction F as [|a b la lb [E X] F IH]; [destruct U|]. destruct U as [->|U].
            - destruct a as [k' e']. cbn in *. subst k'. exists e'. split; [now left | exact X].
            - destruct (IH U) as [e' [A B]]. exists e'. split; [now right | exact B]. }
          destruct X as [e' [X Y]]. apply K in X. destruct X as [X Z].
          assert (e = e') by (apply (dict_get_nodup _ _ _ _ (proj1 (proj2 (proj2 P)))) in I; apply (dict_get_nodup _ _ _ _ (proj1 (proj2 (proj2 P)))) in X; congruence).
          subst e'. exists k, e. split; [exact I|]. split; [exact Z|]. rewrite Y in C. rewrite combine_image in C. apply in_map_iff in C.
          destruct C as [t' [E C]]. injection E as <- <-. now split.
        - intros [k [e [I [N [C ->]]]]]. assert (X : exists x, In (k, x) unbound /\ parts x = map (image scope imap) (components e)).
          { assert (U : In (k, e) us) by (apply K; now split). clear - F U. induction F as [|a b la lb [E X] F IH]; [destruct U|]. destruct U as [->|U].
            - destruct b as [k' x']. cbn in *. subst k'. exists x'. split; [now left | exact X].
            - destruct (IH U) as [e' [A B]]. exists e'. split; [now right | exact B]. }
          destruct X as [x [X Y]]. exists k, e, x. split; [exact I|]. split; [exact X|]. rewrite Y, combine_image. apply in_map_iff. exists t. now split.
      Qed.
      Lemma open_not_mapped : forall t u, left_open O V m unbound t u -> get_tensor imap t = None /\ u = Tensor (in_scope scope (t_op t)) (t_index t) /\
        (forall r, ~ stands_for O V m given replacements t r) /\ forall path, ~ asset_of O V m t path.
      Proof.
        intros t u L. apply open_component in L. destruct L as [k [e [I [N [C ->]]]]]. destruct P as [_ [_ [_ [Q _]]]]. apply nodup_app in Q. destruct Q as [Q1 [Q2 Q3]].
        assert (T : In t (flat_map (fun e => components (snd e)) (input_signature O V m))) by (apply in_flat_map; now exists (k, e)).
        specialize (Q3 t T). rewrite in_app_iff in Q3.
        assert (S1 : forall r, ~ stands_for O V m given replacements t r).
        { intros r [R|k' e' x I' G C']; [apply Q3; right; now apply (in_map fst) in R|]. apply in_combine_l in C'.
          assert (E : (k, e) = (k', e')) by exact (flat_same _ _ (fun e => components (snd e)) _ _ _ t I I' C C' Q1). injection E as <- _. apply N. now apply (in_map fst) in G. }
        assert (S2 : forall path, ~ asset_of O V m t path) by (intros path A; apply Q3; left; now apply (in_map fst) in A).
        assert (G : get_tensor imap t = None).
        { destruct (get_tensor imap t) as [r|] eqn:G; [exfalso|reflexivity]. apply (f_map _ _ _ _ _ _ f) in G. destruct G as [G|G]; [exact (S1 r G)|].
          destruct (image_asset _ _ G) as [path [_ [A _]]]. exact (S2 path A). }
        split; [exact G|]. split; [unfold ImpProofs.image; now rewrite G | now split].
      Qed.

      Lemma old_variables : forall n v, In n (map node_name (nodes g1)) -> (initialized g n v <-> initialized g' n v).
      Proof.
        intros n v I. unfold ImpSpec.initialized. rewrite (f_inits _ _ _ _ _ _ f), dict_get_app.
        destruct (dict_get inits n) as [i|] eqn:D; [exfalso|reflexivity]. apply dict_get_in in D. apply (f_variables _ _ _ _ _ _ f) in D.
        destruct D as [s [ins [o [_ [-> _]]]]]. apply (scope_fresh _ I). now exists o.
      Qed.
      Lemma in_scope_scope : forall n, in_scope scope n = (scope ++ "/" ++ n)%string.
      Proof. intros n. pose proof scope_nonempty. unfold in_scope. now destruct scope. Qed.
      Lemma new_variables : forall n s ins v, In (Node n (Variable_op O V s) ins) (saved_nodes O V m) ->
        (saved_variable O V checkpoint m dir n v <-> initialized g' (in_scope scope n) v).
      Proof.
        intros n s ins v I. assert (I' : In (Node (scope ++ "/" ++ n) (Variable_op O V s) (map (image scope imap) ins)) (nodes g')).
        { rewrite (f_nodes _ _ _ _ _ _ f). apply in_or_app. right. apply in_map_iff. exists (Node n (Variable_op O V s) ins). rewrite <- in_scope_scope. now split. }
        destruct (f_exists _ _ _ _ _ _ f _ _ _ I') as [i Ci].
        assert (D : dict_get (initializers g') (in_scope scope n) = Some i).
        { rewrite (f_inits _ _ _ _ _ _ f), dict_get_app. destruct (dict_get inits (in_scope scope n)) as [j|] eqn:D.
          - apply dict_get_in in D. apply (f_variables _ _ _ _ _ _ f) in D. destruct D as [s' [ins' [o [D1 [D2 D3]]]]].
            rewrite in_scope_scope in D2. apply app_inv_s, app_inv_s in D2. subst o. rewrite in_scope_scope in D1.
            pose proof (once _ _ node_name (nodes g') _ _ names_g' D1 I' eq_refl) as E. injection E as -> _. congruence.
          - exfalso. assert (J : In (scope ++ "/" ++ n, i)%string inits) by (apply (f_variables _ _ _ _ _ _ f); now exists s, (map (image scope imap) ins), n).
            rewrite in_scope_scope in D. apply (in_map fst) in J. apply dict_get_keys in J. now apply J. }
        assert (U : forall s' ins', In (Node n (Variable_op O V s') ins') (saved_nodes O V m) -> s' = s).
        { intros s' ins' J. pose proof (once _ _ node_name _ _ _ (proj1 P) J I eq_refl) as E. now injection E. }
        pose proof (proj2 (proj2 (proj2 (proj2 P))) _ _ _ I) as Pn. unfold ImpSpec.initialized. rewrite D. unfold checkpoint_initializer in Ci. unfold saved_variable.
        destruct s as [[full k]|].
        - destruct Pn as [digits [Nd Pn]]. rewrite Pn in Ci. destruct (String.eqb_spec digits ""); [now destruct Nd|]. injection Ci as <-. cbn. split.
          + intros [s' [ins' [J C]]]. apply U in J. subst s'. eexists. split; [reflexivity | exact C].
          + intros [j [[= <-] C]]. exists (Some (full, k)), ins. now split.
        - rewrite Pn in Ci. injection Ci as <-. cbn. split.
          + intros [s' [ins' [J C]]]. apply U in J. subst s'. eexists. split; [reflexivity | exact C].
          + intros [j [[= <-] C]]. exists None, ins. now split.
      Qed.

      Section fed.
        Variable fed : feed.
        Hypothesis only : forall t, fed t <> None -> In (t_op t) (map node_name (nodes g)) \/ exists t', left_open O V m unbound t' t.
        Lemma constant_value : forall n path, In (Node n (Constant O V path) []) consts -> forall v, value (nodes g') fed (initialized g') (Tensor n 0) v <-> v = path.
        Proof.
          intros n path I v. assert (I1 : In (Node n (Constant O V path) []) (nodes g1)) by (rewrite (f_nodes1 _ _ _ _ _ _ f); apply in_or_app; now right).
          assert (I' : In (Node n (Constant O V path) []) (nodes g')) by (rewrite (f_nodes _ _ _ _ _ _ f); apply in_or_app; now left).
          assert (Fn : fed (Tensor n 0) = None).
          { destruct (fed (Tensor n 0)) eqn:E; [exfalso|reflexivity]. assert (X : fed (Tensor n 0) <> None) by congruence. apply only in X. destruct X as [X|[t' X]].
            - pose proof (proj1 (f_wf1 _ _ _ _ _ _ f)) as N. rewrite (f_nodes1 _ _ _ _ _ _ f), map_app in N. apply nodup_app in N. destruct N as [_ [_ N]].
              apply (N n X). now apply (in_map node_name) in I.
            - destruct (open_not_mapped _ _ X) as [_ [E' _]]. injection E' as E' _. apply (scope_fresh n); [now apply (in_map node_name) in I1|].
              rewrite E'. apply in_scope_below, scope_nonempty. }
          split.
          - intros H. inversion H as [t Q w E q|n' w E J|n' s ins w E J x|n' i o ins vs w E J]; subst; try congruence;
              pose proof (once _ _ node_name _ _ _ names_g' I' J eq_refl) as K; try discriminate K. now injection K.
          - intros ->. now apply value_constant.
        Qed.
        Lemma decide_open : forall t, {left_open O V m unbound t (image scope imap t)} + {forall u, ~ left_open O V m unbound t u}.
        Proof.
          intros t. destruct (in_dec tensor_dec t (flat_map (fun e => components (snd e)) (filter (fun ki => negb (has_name given (fst ki))) (input_signature O V m)))) as [I|N].
          - left. apply in_flat_map in I. destruct I as [[k e] [I C]]. apply unbound_keys in I. apply open_component. exists k, e. now repeat split.
          - right. intros u L. apply N. apply open_component in L. destruct L as [k [e [I [K [C _]]]]]. apply in_flat_map. exists (k, e). split; [now apply unbound_keys | exact C].
        Qed.
        Lemma feeds_exist : exists saved, feeds O V run checkpoint g m given replacements g' unbound fed saved.
        Proof.
          exists (fun t => match get_tensor imap t with
                           | Some r => Some (value (nodes g') fed (initialized g') r)
                           | None => if decide_open t then fed (image scope imap t) else None
                           end).
          split; [|split; [|split; [|split]]].
          - intros t r H. assert (G : get_tensor imap t = Some r) by (apply (f_map _ _ _ _ _ _ f); now left). now rewrite G.
          - intros t path A. destruct (asset_image _ _ A) as [n [I C]]. assert (G : get_tensor imap t = Some (Tensor n 0)) by (apply (f_map _ _ _ _ _ _ f); now right).
            rewrite G. eexists. split; [reflexivity|]. now apply constant_value.
          - intros t u L _ _. destruct (open_not_mapped _ _ L) as [G [-> _]]. rewrite G. destruct (decide_open t) as [_|N]; [unfold ImpProofs.image; now rewrite G | now destruct (N _ L)].
          - intros t S1 S2 S3. destruct (get_tensor imap t) as [r|] eqn:G.
            + apply (f_map _ _ _ _ _ _ f) in G. destruct G as [G|G]; [now destruct (S1 r)|]. destruct (image_asset _ _ G) as [path [_ [A _]]]. now destruct (S2 path).
            + destruct (decide_open t) as [L|_]; [now destruct (S3 _ L) | reflexivity].
          - exact only.
        Qed.
      End fed.
      Lemma same_values : forall fed saved, feeds O V run checkpoint g m given replacements g' unbound fed saved ->
        forall t v, value (nodes g') fed (initialized g') (image scope imap t) v <-> value (saved_nodes O V m) saved (saved_variable O V checkpoint m dir) t v.
      Proof.
        intros fed saved [F1 [F2 [F3 [F4 F5]]]] t v. symmetry. pose proof constant_value fed F5 as Cv. pose proof (f_nodes _ _ _ _ _ _ f) as Ef.
        rewrite Ef in *. apply import_value; [exact scope_nonempty | exact scope_fresh | | | exact new_variables]; clear t v.
        - intros t r G. apply (f_map _ _ _ _ _ _ f) in G. destruct G as [G|G].
          + eexists. split; [exact (F1 t r G)|]. reflexivity.
          + destruct (image_asset _ _ G) as [path [n [A [-> C]]]]. destruct (F2 _ _ A) as [Q [E X]]. exists Q. split; [exact E|]. intros v. rewrite X. symmetry. now apply Cv.
        - intros t G. assert (S1 : forall r, ~ stands_for O V m given replacements t r) by (intros r H; assert (G' : get_tensor imap t = Some r) by (apply (f_map _ _ _ _ _ _ f); now left); congruence).
          assert (S2 : forall path, ~ asset_of O V m t path).
          { intros path A. destruct (asset_image _ _ A) as [n [I _]]. assert (G' : get_tensor imap t = Some (Tensor n 0)) by (apply (f_map _ _ _ _ _ _ f); now right). congruence. }
          destruct (decide_open t) as [L|N].
          + rewrite (F3 _ _ L S1 S2). unfold ImpProofs.image. now rewrite G.
          + rewrite (F4 t S1 S2 N). destruct (fed (Tensor (in_scope scope (t_op t)) (t_index t))) eqn:E; [exfalso|reflexivity].
            assert (X : fed (Tensor (in_scope scope (t_op t)) (t_index t)) <> None) by congruence. apply F5 in X. cbn [t_op] in X. destruct X as [X|[t' X]].
            * apply (scope_fresh _ (old_in_g1 _ X)). apply in_scope_below, scope_nonempty.
            * destruct (open_not_mapped _ _ X) as [_ [E' _]]. injection E' as E1 E2. apply in_scope_inj in E1. destruct t, t'. cbn in *. subst. exact (N _ X).
      Qed.

      Lemma old_kept : forall fed t v, there O V g t -> (value (nodes g') fed (initialized g') t v <-> value (nodes g) fed (initialized g) t v).
      Proof.
        intros fed t v T. pose proof names_g' as N. pose proof (f_nodes _ _ _ _ _ _ f) as Ef. rewrite (f_nodes1 _ _ _ _ _ _ f), <- app_assoc in Ef. rewrite Ef in *.
        apply part_value; [apply W | exact N | | exact T]. intros n w I. apply old_variables. now apply old_in_g1.
      Qed.
      Lemma in_use_more : forall k, dict_get (names_in_use g1) k <> None -> dict_get (names_in_use g') k <> None.
      Proof.
        intros k H. apply dict_get_keys. apply dict_get_keys in H. rewrite (f_used _ _ _ _ _ _ f), map_app. apply in_or_app. right. now right.
      Qed.
      Lemma image_there : forall n t, In n (saved_nodes O V m) -> In t (node_inputs n) -> In (t_op (image scope imap t)) (map node_name (nodes g')).
      Proof.
        intros n t I J. rewrite (f_nodes _ _ _ _ _ _ f), map_app, in_app_iff. unfold ImpProofs.image. destruct (get_tensor imap t) as [r|] eqn:G.
        - left. apply (f_map _ _ _ _ _ _ f) in G. destruct G as [[R|k e x _ X C]|A].
          + apply old_in_g1. exact (Tr _ _ R).
          + apply old_in_g1. apply in_combine_r in C. exact (Tg _ _ _ X C).
          + destruct (image_asset _ _ A) as [path [x [_ [-> C]]]]. rewrite (f_nodes1 _ _ _ _ _ _ f), map_app. apply in_or_app. right. now apply (in_map node_name) in C.
        - right. cbn [t_op]. rewrite imported_names. apply in_map. exact (proj1 (proj2 P) _ _ I J).
      Qed.
      Lemma again : well_formed g' /\ scoped current g'.
      Proof.
        destruct (f_wf1 _ _ _ _ _ _ f) as [W1 [W2 [W3 W4]]]. pose proof (f_nodes _ _ _ _ _ _ f) as Ef. split; [split; [|split; [|split]]|].
        - exact names_g'.
        - intros n I. rewrite Ef, map_app in I. apply in_app_or in I. destruct I as [I|I]; [apply in_use_more; now apply W2|].
          apply dict_get_keys. rewrite (f_used _ _ _ _ _ _ f), map_app. apply in_or_app. left. rewrite map_map. cbn [fst]. apply in_map_iff in I.
          destruct I as [x [<- I]]. apply in_map_iff. now exists x.
        - intros n t I J. rewrite Ef in I. apply in_app_or in I. destruct I as [I|I].
          + rewrite Ef, map_app. apply in_or_app. left. exact (W3 n t I J).
          + apply in_map_iff in I. destruct I as [x [<- I]]. cbn in J. apply in_map_iff in J. destruct J as [y [<- J]]. exact (image_there x y I J).
        - intros n i I. rewrite (f_inits _ _ _ _ _ _ f) in I. apply in_app_or in I. destruct I as [I|I].
          + apply (f_variables _ _ _ _ _ _ f) in I. destruct I as [s [ins [o [I _]]]]. now apply (in_map node_name) in I.
          + rewrite Ef, map_app. apply in_or_app. left. apply old_in_g1. destruct W as [_ [_ [_ W']]]. exact (W' n i I).
        - intros s n I Fs B. rewrite Ef, map_app in I. apply in_app_or in I. destruct I as [I|I]; [apply in_use_more; exact (f_scoped1 _ _ _ _ _ _ f s n I Fs B)|].
          rewrite imported_names in I. apply in_map_iff in I. destruct I as [x [<- _]]. destruct (f_scope _ _ _ _ _ _ f) as [s0 [F0 [_ E0]]].
          apply below_in_scope in B. destruct B as [r B]. assert (B' : below (in_scope current s0) (in_scope scope x)) by (rewrite <- E0; apply in_scope_below, scope_nonempty).
          apply below_in_scope in B'. destruct B' as [r' B']. rewrite B' in B. apply in_scope_inj in B. apply first_part in B; [|exact F0|exact Fs]. destruct B as [-> _].
          rewrite <- E0. apply dict_get_keys. rewrite (f_used _ _ _ _ _ _ f), map_app. apply in_or_app. right. now left.
      Qed.
      Lemma open_new : forall t u, left_open O V m unbound t u -> there O V g' u /\ ~ there O V g u.
      Proof.
        intros t u L. destruct (open_not_mapped _ _ L) as [G [E _]]. split.
        - apply open_component in L. destruct L as [k [e [I [N [C ->]]]]]. apply (f_there _ _ _ _ _ _ f k e t); [now apply unbound_keys | exact C | exact G].
        - intros T. unfold there in T. rewrite E in T. cbn in T. apply (scope_fresh _ (old_in_g1 _ T)). apply in_scope_below, scope_nonempty.
      Qed.
    End known.
  End call.

  (** ** Dropping *)

  Lemma existsb_tensor : forall t l, existsb (tensor_eqb t) l = true <-> In t l.
  Proof.
    intros t l. rewrite existsb_exists. split.
    - intros [x [I E]]. destruct (tensor_eqb_spec t x); [now subst | discriminate].
    - intros I. exists t. split; [exact I|]. now destruct (tensor_eqb_spec t t).
  Qed.
  Lemma all_some_bools : forall A (h : A -> option bool) l b, option_map (forallb (fun b => b)) (all_some (map h l)) = Some b ->
    (forall x, In x l -> exists c, h x = Some c) /\ (b = false <-> exists x, In x l /\ h x = Some false).
  Proof.
    intros A h l b E. destruct (all_some (map h l)) as [bs|] eqn:S; [|discriminate]. injection E as <-. apply all_some_map in S. split.
    - clear - S. induction S as [|x c l bs H F IH]; intros y I; [destruct I|]. destruct I as [<-|I]; [now exists c | now apply IH].
    - induction S as [|x c l bs H F IH]; cbn; [split; [discriminate | intros [x [[] _]]]|]. rewrite andb_false_iff, IH. split.
      + intros [->|[y [I J]]]; [exists x; split; [now left | exact H] | exists y; split; [now right | exact J]].
      + intros [y [[<-|I] J]]; [left; congruence | right; now exists y].
  Qed.
  Lemma ready_needs : forall g given unbound, NoDup (map node_name (nodes g)) -> forall fuel t b, ready_to_run O V fuel g given unbound t = Some b ->
    (b = false <-> needs O V g given unbound t).
  Proof.
    intros g given unbound N. induction fuel as [|fuel IH]; intros t b E; [discriminate|]. cbn in E.
    destruct (existsb (tensor_eqb t) given) eqn:G.
    - injection E as <-. apply existsb_tensor in G. split; [discriminate|]. intros H. destruct H; contradiction.
    - assert (Ng : ~ In t given) by (rewrite <- existsb_tensor; congruence). destruct (existsb (tensor_eqb t) unbound) eqn:U.
      + injection E as <-. apply existsb_tensor in U. split; [intros _; now apply needs_itself | reflexivity].
      + assert (Nu : ~ In t unbound) by (rewrite <- existsb_tensor; congruence). destruct (find _ (nodes g)) as [n|] eqn:Fn; [|discriminate].
        destruct (find_some _ _ Fn) as [I K]. apply String.eqb_eq in K.
        assert (E' : option_map (forallb (fun b => b)) (all_some (map (ready_to_run O V fuel g given unbound) (node_inputs n))) = Some b) by (destruct (node_kind n); [discriminate | exact E..]).
        destruct (all_some_bools _ _ _ _ E') as [D Q]. rewrite Q. split.
        * intros [i [J R]]. apply (needs_input O V g given unbound t n i); auto. now apply (IH i false).
        * intros H. destruct H as [t _ X|t n' i _ I' K' J H]; [contradiction|].
          assert (n' = n) by (apply (once _ _ node_name (nodes g)); congruence). subst n'. destruct (D i J) as [c C]. exists i. split; [exact J|].
          rewrite C. f_equal. now apply (IH i c C).
  Qed.
  Lemma ready_feature_needs : forall g given unbound x b, NoDup (map node_name (nodes g)) -> ready_feature O V g given unbound x = Some b ->
    (b = true <-> forall t, In t (parts x) -> ~ needs O V g given unbound t).
  Proof.
    intros g given unbound x b N E. unfold ready_feature in E. assert (Fl : flatten_tensor x = parts x) by (destruct x; reflexivity). rewrite Fl in E.
    destruct (all_some_bools _ _ _ _ E) as [D Q]. destruct b.
    - split; [|reflexivity]. intros _ t I H. assert (X : true = false); [|discriminate]. apply Q. exists t. split; [exact I|]. destruct (D t I) as [c C]. rewrite C. f_equal.
      now apply (ready_needs _ _ _ N _ _ _ C).
    - split; [discriminate|]. intros H. destruct (proj1 Q eq_refl) as [t [I C]]. destruct (H t I). now apply (ready_needs _ _ _ N _ _ _ C).
  Qed.

  (** ** Feeds *)

  Lemma feed_agree : forall (ns : list node) fed fed' va, (forall n t, In n ns -> In t (node_inputs n) -> In (t_op t) (map node_name ns)) ->
    (forall t, In (t_op t) (map node_name ns) -> fed t = fed' t) -> forall t v, value ns fed va t v -> In (t_op t) (map node_name ns) -> value ns fed' va t v.
  Proof.
    intros ns fed fed' va C A. refine (value_induction O V run ns fed va (fun t v => In (t_op t) (map node_name ns) -> value ns fed' va t v) _ _ _ _);
      [intros t Q v E q T|intros n v E I T|intros n s ins v E I x T|intros n i o ins vs v E I F IH X T]; (rewrite (A _ T) in E).
    - now apply value_fed with Q.
    - now apply value_constant.
    - now apply value_variable with s ins.
    - apply value_operation with o ins vs; auto. clear - IH C I.
      assert (K : forall t, In t ins -> In (t_op t) (map node_name ns)) by (intros t T; exact (C (Node n (Operation O V o) ins) t I T)). clear I C.
      induction IH as [|t v ts vs H F IHF]; constructor; [apply H, K; now left | apply IHF; intros u U; apply K; now right].
  Qed.
  Lemma independent : forall (g : graph) given unbound fed fed', (forall t, ~ In t unbound -> fed t = fed' t) ->
    (forall t v, In t given -> value (nodes g) fed (initialized g) t v -> value (nodes g) fed' (initialized g) t v) ->
    forall t v, value (nodes g) fed (initialized g) t v -> ~ needs O V g given unbound t -> value (nodes g) fed' (initialized g) t v.
  Proof.
    intros g given unbound fed fed' A G.
    assert (B : forall t v, value (nodes g) fed (initialized g) t v -> (~ In t given -> ~ needs O V g given unbound t -> value (nodes g) fed' (initialized g) t v) ->
      ~ needs O V g given unbound t -> value (nodes g) fed' (initialized g) t v).
    { intros t v H K N. destruct (in_dec tensor_dec t given) as [I|I]; [now apply G | now apply K]. }
    assert (E' : forall t, ~ In t given -> ~ needs O V g given unbound t -> fed t = fed' t) by (intros t I N; apply A; intros U; apply N; now apply needs_itself).
    refine (value_induction O V run (nodes g) fed (initialized g) (fun t v => ~ needs O V g given unbound t -> value (nodes g) fed' (initialized g) t v) _ _ _ _);
      [intros t Q v E q|intros n v E I|intros n s ins v E I x|intros n i o ins vs v E I F IH X].
    - apply B; [now apply value_fed with Q|]. intros T N. rewrite (E' _ T N) in E. now apply value_fed with Q.
    - apply B; [now apply value_constant|]. intros T N. rewrite (E' _ T N) in E. now apply value_constant.
    - apply B; [now apply value_variable with s ins|]. intros T N. rewrite (E' _ T N) in E. now apply value_variable with s ins.
    - apply B; [now apply value_operation with o ins vs|]. intros T N. rewrite (E' _ T N) in E. apply value_operation with o ins vs; auto.
      assert (K : forall t, In t ins -> ~ needs O V g given unbound t)
        by (intros t J H; apply N; exact (needs_input O V g given unbound (Tensor n i) (Node n (Operation O V o) ins) t T I eq_refl J H)).
      clear - IH K. induction IH as [|t v ts vs H F IHF]; constructor; [apply H, K; now left | apply IHF; intros u U; apply K; now right].
  Qed.
End apply.
